(** The literals of constants.hpp against the numbers they stand for: the second part
    of property C68. *)
From Coq Require Import ZArith Lia Reals Lra Psatz.
From Interval Require Import Tactic.
From Verif Require Import VecModel VecProps ConstModel.
Local Open Scope R_scope.

Definition val (d : dec) : R := IZR (mantissa d) / 10 ^ Z.to_nat (scale d).
(** [d] is the value of [x] correct to the last of its digits: it differs by less than
    one unit of that digit. *)
Definition correct (d : dec) (x : R) : Prop := Rabs (x - val d) < / 10 ^ Z.to_nat (scale d).

Ltac numbers := repeat split; unfold correct, val; cbn [mantissa scale e_v e_sqr_v e_pow_pi_v pi_v two_pi_v tau_v
  two_over_pi_v pi_over_two_v pi_sqr_v inv_pi_v log2_e_v log10_e_v ln_two_v ln_ten_v sqrt_two_v sqrt_three_v
  sqrt_five_v sqrt_e_v sqrt_pi_v sqrt_two_pi_v sqrt_two_pi_e_v inv_sqrt_pi_v cbrt_two_v inv_fibonacci_v phi_v
  gauss_v plastic_v zeta_two_v zeta_four_v]; change (Z.to_nat 79) with 79%nat; change (Z.to_nat 78) with 78%nat.

(** pi and what is computed from it. zeta(2) and zeta(4) are taken in their closed
    forms. *)
Theorem constants_pi : correct pi_v PI /\ correct two_pi_v (2 * PI) /\ correct tau_v (2 * PI) /\
  correct two_over_pi_v (2 / PI) /\ correct pi_over_two_v (PI / 2) /\ correct pi_sqr_v (PI * PI) /\
  correct inv_pi_v (/ PI) /\ correct sqrt_pi_v (sqrt PI) /\ correct sqrt_two_pi_v (sqrt (2 * PI)) /\
  correct inv_sqrt_pi_v (/ sqrt PI) /\ correct zeta_two_v (PI ^ 2 / 6) /\ correct zeta_four_v (PI ^ 4 / 90).
Proof. numbers; interval with (i_prec 400). Qed.
Theorem constants_e : correct e_v (exp 1) /\ correct e_sqr_v (exp 1 * exp 1) /\ correct e_pow_pi_v (exp PI) /\
  correct sqrt_e_v (sqrt (exp 1)) /\ correct sqrt_two_pi_e_v (sqrt (2 * PI * exp 1)).
Proof. numbers; interval with (i_prec 400). Qed.
(** log2(e) = ln e / ln 2 and log10(e) = ln e / ln 10 *)
Theorem constants_log : correct ln_two_v (ln 2) /\ correct ln_ten_v (ln 10) /\
  correct log2_e_v (ln (exp 1) / ln 2) /\ correct log10_e_v (ln (exp 1) / ln 10).
Proof. rewrite ln_exp. numbers; interval with (i_prec 400). Qed.
Theorem constants_roots : correct sqrt_two_v (sqrt 2) /\ correct sqrt_three_v (sqrt 3) /\ correct sqrt_five_v (sqrt 5).
Proof. numbers; interval with (i_prec 400). Qed.
(** Roots of polynomials: a change of sign encloses the root. *)
Lemma root_between (f : R -> R) x lo hi : (forall a b, lo <= a -> a < b -> f a < f b) -> lo <= x ->
  f x = 0 -> f hi > 0 -> lo <= hi -> x < hi.
Proof.
  intros Hf Hx H0 Hhi Hl. destruct (Rlt_le_dec x hi) as [|Hle]; [assumption|].
  destruct (Rle_lt_or_eq_dec _ _ Hle) as [Hlt|<-]; [|lra]. pose proof (Hf hi x Hl Hlt). lra.
Qed.
Lemma cube_lt a b : 0 <= a -> a < b -> a * a * a - 2 < b * b * b - 2.
Proof.
  intros Ha Hb. assert (H : (b * b * b - 2) - (a * a * a - 2) = (b - a) * (b * b + a * b + a * a)) by ring.
  assert (0 < (b - a) * (b * b + a * b + a * a)) by (apply Rmult_lt_0_compat; nra). lra.
Qed.
Theorem constants_cbrt_two : forall x, x * x * x = 2 -> correct cbrt_two_v x.
Proof.
  intros x Hx. assert (H0 : 0 < x).
  { destruct (Rlt_le_dec 0 x); [assumption|]. pose proof (Rle_0_sqr x). unfold Rsqr in *. nra. }
  numbers. apply Rabs_def1.
  - match goal with |- x - ?v < ?u => cut (x < v + u); [lra|]; apply (root_between (fun y => y * y * y - 2) x 0) end;
      [intros a b Ha Hb; apply cube_lt; lra|lra|lra|interval with (i_prec 400)|interval with (i_prec 60)].
  - match goal with |- - ?u < x - ?v => cut (v - u < x); [lra|];
      destruct (Rlt_le_dec (v - u) x) as [|Hle]; [assumption|exfalso];
      assert (H1 : x * x * x <= (v - u) * (v - u) * (v - u)) by (apply Rmult_le_compat; [nra|lra| |assumption]; apply Rmult_le_compat; lra);
      assert (H2 : (v - u) * (v - u) * (v - u) < 2) by interval with (i_prec 400); lra end.
Qed.
(** The positive number with phi = 1 + 1 / phi. *)
Theorem constants_phi : forall x, 0 < x -> x * x = x + 1 -> correct phi_v x.
Proof.
  intros x H0 Hx. assert (E : x = (1 + sqrt 5) / 2).
  { assert (H : (2 * x - 1) = sqrt 5); [|lra]. symmetry. apply sqrt_lem_1; [lra| |nra]. assert (1 < x) by nra. lra. }
  subst x. numbers. interval with (i_prec 400).
Qed.
(** The real number with rho^3 = rho + 1. *)
Theorem constants_plastic : forall x, x * x * x = x + 1 -> correct plastic_v x.
Proof.
  intros x Hx. assert (H1 : 1 < x).
  { destruct (Rlt_le_dec 1 x) as [|Hle]; [assumption|exfalso]. destruct (Rle_lt_dec x (-1)).
    - assert (x * (x * x - 1) = 1) by lra. assert (0 <= x * x - 1) by nra. nra.
    - assert (x * (x * x - 1) = 1) by lra. destruct (Rle_lt_dec 0 x); [assert (x * x <= 1) by nra; nra|].
      assert (- x * (1 - x * x) <= 1 * (1 - x * x)) by (apply Rmult_le_compat_r; nra). nra. }
  assert (Hmono : forall a b, 1 <= a -> a < b -> a * a * a - a - 1 < b * b * b - b - 1).
  { intros a b Ha Hb. assert (Hd : (b * b * b - b - 1) - (a * a * a - a - 1) = (b - a) * (b * b + a * b + a * a - 1)) by ring.
    assert (0 < (b - a) * (b * b + a * b + a * a - 1)) by (apply Rmult_lt_0_compat; nra). lra. }
  numbers. apply Rabs_def1.
  - match goal with |- x - ?v < ?u => cut (x < v + u); [lra|]; apply (root_between (fun y => y * y * y - y - 1) x 1) end;
      [exact Hmono|lra|lra|interval with (i_prec 400)|interval with (i_prec 60)].
  - match goal with |- - ?u < x - ?v => cut (v - u < x); [lra|];
      destruct (Rlt_le_dec (v - u) x) as [|Hle]; [assumption|exfalso];
      assert (H2 : (v - u) * (v - u) * (v - u) - (v - u) - 1 < 0) by interval with (i_prec 400);
      destruct (Rle_lt_or_eq_dec _ _ Hle) as [Hlt|Heq]; [pose proof (Hmono x (v - u) ltac:(lra) Hlt); lra|rewrite <- Heq in H2; lra] end.
Qed.

(** Such numbers exist. *)
Example constants_cbrt_two_ex : exists x, x * x * x = 2.
Proof.
  exists (exp (ln 2 / 3)). rewrite <- !exp_plus. replace (ln 2 / 3 + ln 2 / 3 + ln 2 / 3) with (ln 2) by field.
  apply exp_ln. lra.
Qed.
Example constants_phi_ex : exists x, 0 < x /\ x * x = x + 1.
Proof.
  exists ((1 + sqrt 5) / 2). pose proof (sqrt_sqrt 5 ltac:(lra)). pose proof (sqrt_pos 5). split; nra.
Qed.
Example constants_plastic_ex : exists x, x * x * x = x + 1.
Proof.
  assert (Hc : continuity (fun y => y * y * y - y - 1)) by reg.
  destruct (IVT (fun y => y * y * y - y - 1) 1 2 Hc ltac:(lra)) as (x & _ & Hx); [lra|lra|]. exists x. lra.
Qed.

(** radians(180) with the library's pi. *)
Theorem radians_library_pi : correct pi_v (radians rnum PI 180 180) /\ radians rnum (val pi_v) 180 180 = val pi_v.
Proof. rewrite (proj1 (radians_180 PI)), (proj1 (radians_180 (val pi_v))). split; [apply constants_pi|reflexivity]. Qed.
Example radians_library_pi_ex : 3.14 < val pi_v < 3.15.
Proof. numbers; interval with (i_prec 60). Qed.

(** The reciprocal Fibonacci constant, the sum of the reciprocals of the Fibonacci
    numbers: any number that this series converges to has these digits. *)
Fixpoint fib_acc (n : nat) : Z * Z * Z :=
  match n with
  | O => (1, 1, 10 ^ 90)%Z
  | S n' => let '(a, b, s) := fib_acc n' in (b, a + b, s + 10 ^ 90 / b)%Z
  end.
Lemma limit_le u x B : infinite_sum u x -> (forall n, exists m, (n <= m)%nat /\ sum_f_R0 u m <= B) -> x <= B.
Proof.
  intros Hx Hb. destruct (Rle_lt_dec x B) as [|Hlt]; [assumption|exfalso].
  destruct (Hx (x - B) ltac:(lra)) as [N HN]. destruct (Hb N) as (m & Hm & Hs). specialize (HN m Hm).
  unfold R_dist in HN. apply Rabs_def2 in HN. lra.
Qed.
Lemma limit_ge u x B : infinite_sum u x -> (forall n, exists m, (n <= m)%nat /\ B <= sum_f_R0 u m) -> B <= x.
Proof.
  intros Hx Hb. destruct (Rle_lt_dec B x) as [|Hlt]; [assumption|exfalso].
  destruct (Hx (B - x) ltac:(lra)) as [N HN]. destruct (Hb N) as (m & Hm & Hs). specialize (HN m Hm).
  unfold R_dist in HN. apply Rabs_def2 in HN. lra.
Qed.
Section Fibonacci.
  Context (F : nat -> R) (F0 : F 0%nat = 1) (F1 : F 1%nat = 1) (FS : forall n, F (S (S n)) = F (S n) + F n).
  Lemma fib_le n : 1 <= F n <= F (S n).
  Proof. induction n as [|n [IH1 IH2]]; [lra|]. rewrite FS. lra. Qed.
  Lemma fib_ratio n : 3 / 2 * F (S n) <= F (S (S n)).
  Proof.
    rewrite FS. destruct n as [|n]; [lra|]. pose proof (fib_le n). rewrite FS. destruct n as [|n].
    - rewrite F0, F1. lra.
    - pose proof (fib_le n). rewrite FS in *. lra.
  Qed.
  Lemma fib_upper M : (1 <= M)%nat -> forall d, sum_f_R0 (fun n => / F n) (M + d) + 2 / F (M + d) <= sum_f_R0 (fun n => / F n) M + 2 / F M.
  Proof.
    intros HM d. induction d as [|d IH]; [rewrite Nat.add_0_r; lra|]. rewrite Nat.add_succ_r. cbn [sum_f_R0].
    eapply Rle_trans; [|exact IH]. destruct M as [|M]; [lia|]. cbn [Nat.add].
    pose proof (fib_ratio (M + d)) as Hr. pose proof (fib_le (S (M + d))) as [H1 H2].
    set (a := F (S (M + d))) in *. set (b := F (S (S (M + d)))) in *.
    assert (/ b <= 2 / 3 * / a); [|unfold Rdiv; lra].
    replace (2 / 3 * / a) with (/ (3 / 2 * a)) by (field; lra). apply Rinv_le_contravar; lra.
  Qed.
  Lemma fib_lower M d : sum_f_R0 (fun n => / F n) M <= sum_f_R0 (fun n => / F n) (M + d).
  Proof.
    induction d as [|d IH]; [rewrite Nat.add_0_r; lra|]. rewrite Nat.add_succ_r. cbn [sum_f_R0].
    pose proof (fib_le (S (M + d))). assert (0 < / F (S (M + d))) by (apply Rinv_0_lt_compat; lra). lra.
  Qed.
  Lemma fib_acc_eq n : let '(a, b, s) := fib_acc n in F n = IZR a /\ F (S n) = IZR b /\
    IZR s <= IZR (10 ^ 90) * sum_f_R0 (fun n => / F n) n <= IZR s + INR n.
  Proof.
    induction n as [|n IH]; [cbn [fib_acc sum_f_R0 INR]; rewrite F0, F1; repeat split; lra|].
    cbn [fib_acc]. destruct (fib_acc n) as [[a b] s]. destruct IH as (Ha & Hb & Hs). cbn [sum_f_R0].
    pose proof (fib_le (S n)) as [H1 _]. split; [exact Hb|]. split; [rewrite FS, Ha, Hb, plus_IZR; lra|].
    rewrite S_INR, plus_IZR, Rmult_plus_distr_l. rewrite Hb in *.
    assert (Hb0 : (0 < b)%Z) by (apply lt_IZR; lra).
    pose proof (Z.div_mod (10 ^ 90) b ltac:(lia)) as Hd. pose proof (Z.mod_pos_bound (10 ^ 90) b Hb0) as [Hm1 Hm2].
    set (q := (10 ^ 90 / b)%Z) in *. set (r := (10 ^ 90 mod b)%Z) in *. set (t := (10 ^ 90)%Z) in *.
    apply IZR_le in Hm1. apply IZR_lt in Hm2. apply (f_equal IZR) in Hd. rewrite plus_IZR, mult_IZR in Hd.
    assert (E : IZR t * / IZR b = IZR q + IZR r / IZR b) by (rewrite Hd; field; lra). rewrite E.
    assert (0 <= IZR r / IZR b) by (apply Rmult_le_pos; [lra|left; apply Rinv_0_lt_compat; lra]).
    assert (IZR r / IZR b <= 1) by (apply (Rmult_le_reg_r (IZR b)); [lra|]; unfold Rdiv; rewrite Rmult_assoc, Rinv_l by lra; lra).
    lra.
  Qed.
End Fibonacci.
Theorem constants_inv_fibonacci : forall F : nat -> R, F 0%nat = 1 -> F 1%nat = 1 ->
  (forall n, F (S (S n)) = F (S n) + F n) -> forall x, infinite_sum (fun n => / F n) x -> correct inv_fibonacci_v x.
Proof.
  intros F F0 F1 FS x Hx. set (N := 400%nat).
  assert (Hl : sum_f_R0 (fun n => / F n) N <= x).
  { apply (limit_ge _ _ _ Hx). intros n. exists (N + n)%nat. split; [lia|]. apply fib_lower; assumption. }
  assert (Hu : x <= sum_f_R0 (fun n => / F n) N + 2 / F N).
  { apply (limit_le _ _ _ Hx). intros n. exists (N + n)%nat. split; [lia|].
    pose proof (fib_upper F F0 F1 FS N ltac:(unfold N; lia) n). pose proof (fib_le F F0 F1 FS (N + n)).
    assert (0 < 2 / F (N + n)%nat) by (apply Rdiv_lt_0_compat; lra). lra. }
  pose proof (fib_acc_eq F F0 F1 FS N) as H. destruct (fib_acc N) as [[a b] s] eqn:E.
  vm_compute in E. injection E as <- <- <-. destruct H as (Ha & _ & Hs).
  rewrite Ha in Hu. replace (INR N) with 400 in Hs by (unfold N; rewrite INR_IZR_INZ; reflexivity).
  generalize dependent (sum_f_R0 (fun n => / F n) N). intros S Hl Hu Hs. change (10 ^ 90)%Z with (10 ^ 45 * 10 ^ 45)%Z in Hs.
  numbers. apply Rabs_def1.
  - match goal with |- x - ?v < ?u => cut (IZR (10 ^ 45 * 10 ^ 45) * x < IZR (10 ^ 45 * 10 ^ 45) * (v + u)) end.
    { intros H. apply Rmult_lt_reg_l in H; [lra|]. apply IZR_lt. reflexivity. }
    eapply Rle_lt_trans; [apply Rmult_le_compat_l; [apply IZR_le; discriminate|exact Hu]|].
    rewrite Rmult_plus_distr_l. eapply Rle_lt_trans; [apply Rplus_le_compat_r; apply Hs|].
    cbn [Z.mul Z.pow Z.pow_pos Pos.iter Pos.mul]. interval with (i_prec 400).
  - match goal with |- - ?u < x - ?v => cut (IZR (10 ^ 45 * 10 ^ 45) * (v - u) < IZR (10 ^ 45 * 10 ^ 45) * x) end.
    { intros H. apply Rmult_lt_reg_l in H; [lra|]. apply IZR_lt. reflexivity. }
    eapply Rlt_le_trans; [|apply Rmult_le_compat_l; [apply IZR_le; discriminate|exact Hl]].
    eapply Rlt_le_trans; [|apply Hs].
    cbn [Z.mul Z.pow Z.pow_pos Pos.iter Pos.mul]. interval with (i_prec 400).
Qed.

Section AGM.
  Context (a b : nat -> R) (A0 : a 0%nat = 1) (B0 : b 0%nat = sqrt 2)
    (AS : forall n, a (S n) = (a n + b n) / 2) (BS : forall n, b (S n) = sqrt (a n * b n)).
  Lemma agm_order : forall n, 1 <= b (S n) <= a (S n) /\ b (S n) <= b (S (S n)) /\ a (S (S n)) <= a (S n).
  Proof.
    assert (K : forall n, 1 <= b (S n) <= a (S n)).
      { induction n as [|n IH].
        - rewrite AS, BS, A0, B0. pose proof (sqrt_sqrt 2 ltac:(lra)) as H2. assert (1 <= sqrt 2) by interval with (i_prec 60).
          split; [rewrite <- sqrt_1 at 1; apply sqrt_le_1_alt; lra|].
          apply Rsqr_incr_0; [|apply sqrt_pos|lra]. unfold Rsqr. rewrite sqrt_sqrt by lra. nra.
        - rewrite (AS (S n)), (BS (S n)). set (p := a (S n)) in *. set (q := b (S n)) in *.
          split; [rewrite <- sqrt_1 at 1; apply sqrt_le_1_alt; nra|].
          apply Rsqr_incr_0; [|apply sqrt_pos|lra]. unfold Rsqr. rewrite sqrt_sqrt by nra. nra. }
      intros n. split; [apply K|]. pose proof (K n). rewrite (AS (S n)), (BS (S n)). split; [|lra].
      apply Rsqr_incr_0; [|lra|apply sqrt_pos]. unfold Rsqr. rewrite sqrt_sqrt by nra. nra.
  Qed.
End AGM.
(** Gauss's constant: the reciprocal of the arithmetic-geometric mean of 1 and sqrt 2. *)
Theorem constants_gauss : forall a b : nat -> R, a 0%nat = 1 -> b 0%nat = sqrt 2 ->
  (forall n, a (S n) = (a n + b n) / 2) -> (forall n, b (S n) = sqrt (a n * b n)) ->
  forall l, Un_cv a l -> correct gauss_v (/ l).
Proof.
  intros a b A0 B0 AS BS l Hl.
  pose proof (agm_order a b A0 B0 AS BS) as Hpos.
  assert (Hbounds : forall n, b (S n) <= l <= a (S n)).
  { intros n.
    assert (Ha : forall d, a (S (n + d)) <= a (S n)).
    { induction d as [|d IH]; [rewrite Nat.add_0_r; lra|]. rewrite Nat.add_succ_r. pose proof (Hpos (n + d)%nat). lra. }
    assert (Hb : forall d, b (S n) <= b (S (n + d))).
    { induction d as [|d IH]; [rewrite Nat.add_0_r; lra|]. rewrite Nat.add_succ_r. pose proof (Hpos (n + d)%nat). lra. }
    split.
    - destruct (Rle_lt_dec (b (S n)) l) as [|Hlt]; [assumption|exfalso].
      destruct (Hl (b (S n) - l) ltac:(lra)) as [N HN]. specialize (HN (S (n + N)) ltac:(lia)). unfold R_dist in HN.
      apply Rabs_def2 in HN. pose proof (Hb N). pose proof (Hpos (n + N)%nat). lra.
    - destruct (Rle_lt_dec l (a (S n))) as [|Hlt]; [assumption|exfalso].
      destruct (Hl (l - a (S n)) ltac:(lra)) as [N HN]. specialize (HN (S (n + N)) ltac:(lia)). unfold R_dist in HN.
      apply Rabs_def2 in HN. pose proof (Ha N). lra. }
  destruct (Hbounds 7%nat) as [L U].
  assert (E0 : a 1%nat = (1 + sqrt 2) / 2) by (rewrite AS, A0, B0; reflexivity).
  assert (E1 : b 1%nat = sqrt (1 * sqrt 2)) by (rewrite BS, A0, B0; reflexivity).
  pose proof (AS 1%nat) as A2. pose proof (BS 1%nat) as B2. rewrite E0, E1 in A2, B2. clear E0 E1.
  Ltac stage A B k AS BS := let Ha := fresh in let Hb := fresh in
    match type of A with ?x = ?e => interval_intro e with (i_prec 400) as Ha; rewrite <- A in Ha end;
    match type of B with ?x = ?e => interval_intro e with (i_prec 400) as Hb; rewrite <- B in Hb end;
    clear A B; pose proof (AS k) as A; pose proof (BS k) as B.
  stage A2 B2 2%nat AS BS. stage A2 B2 3%nat AS BS. stage A2 B2 4%nat AS BS. stage A2 B2 5%nat AS BS.
  stage A2 B2 6%nat AS BS. stage A2 B2 7%nat AS BS. stage A2 B2 8%nat AS BS.
  match goal with Ha : _ <= a 8%nat <= ?hi, Hb : ?lo <= b 8%nat <= _ |- _ =>
    assert (Hfinal : lo <= l <= hi) by (split; [exact (Rle_trans _ _ _ (proj1 Hb) L)|exact (Rle_trans _ _ _ U (proj2 Ha))]) end.
  numbers. interval with (i_prec 400).
Qed.
(** The sequences of the two theorems above, and their limits, exist. *)
Example constants_inv_fibonacci_ex : exists F : nat -> R, F 0%nat = 1 /\ F 1%nat = 1 /\
  (forall n, F (S (S n)) = F (S n) + F n) /\ exists x, infinite_sum (fun n => / F n) x.
Proof.
  set (F := fun n => IZR (fst (fst (fib_acc n)))).
  assert (FS : forall n, F (S (S n)) = F (S n) + F n).
  { intros n. unfold F. cbn [fib_acc]. destruct (fib_acc n) as [[a b] s]. cbn [fst]. rewrite plus_IZR. ring. }
  exists F. split; [reflexivity|]. split; [reflexivity|]. split; [exact FS|].
  assert (H0 : F 0%nat = 1) by reflexivity. assert (H1 : F 1%nat = 1) by reflexivity.
  destruct (growing_cv (sum_f_R0 (fun n => / F n))) as [l Hl].
  - intros n. pose proof (fib_lower F H0 H1 FS n 1) as H. rewrite Nat.add_1_r in H. exact H.
  - exists (sum_f_R0 (fun n => / F n) 1 + 2 / F 1%nat). intros y [n ->].
    eapply Rle_trans; [apply (fib_lower F H0 H1 FS n 1)|]. pose proof (fib_upper F H0 H1 FS 1 (le_n 1) n) as H.
    rewrite (Nat.add_comm n 1). pose proof (fib_le F H0 H1 FS (1 + n)).
    assert (0 < 2 / F (1 + n)%nat) by (apply Rdiv_lt_0_compat; lra). lra.
  - exists l. exact Hl.
Qed.
Example constants_gauss_ex : exists a b : nat -> R, a 0%nat = 1 /\ b 0%nat = sqrt 2 /\
  (forall n, a (S n) = (a n + b n) / 2) /\ (forall n, b (S n) = sqrt (a n * b n)) /\ exists l, Un_cv a l.
Proof.
  set (g := fix g n := match n with O => (1, sqrt 2) | S n' => let (x, y) := g n' in ((x + y) / 2, sqrt (x * y)) end).
  exists (fun n => fst (g n)), (fun n => snd (g n)). split; [reflexivity|]. split; [reflexivity|].
  assert (AS : forall n, fst (g (S n)) = (fst (g n) + snd (g n)) / 2)
    by (intros n; change (g (S n)) with (let (x, y) := g n in ((x + y) / 2, sqrt (x * y))); destruct (g n); reflexivity).
  assert (BS : forall n, snd (g (S n)) = sqrt (fst (g n) * snd (g n)))
    by (intros n; change (g (S n)) with (let (x, y) := g n in ((x + y) / 2, sqrt (x * y))); destruct (g n); reflexivity).
  split; [exact AS|]. split; [exact BS|].
  pose proof (agm_order (fun n => fst (g n)) (fun n => snd (g n)) eq_refl eq_refl AS BS) as K.
  clearbody g. destruct (decreasing_cv (fun n => fst (g (S n)))) as [l Hl].
  - intros n. pose proof (K n) as ([? ?] & ? & ?). assumption.
  - exists 0. intros y [n ->]. unfold opp_seq. pose proof (K n) as ([? ?] & ? & ?). lra.
  - exists l. intros eps He. destruct (Hl eps He) as [N HN]. exists (S N). intros n Hn. destruct n as [|n]; [lia|].
    apply HN. lia.
Qed.

Definition const_theorems := (@constants_pi, @constants_e, @constants_log, @constants_roots, @constants_cbrt_two,
  @constants_phi, @constants_plastic, @constants_inv_fibonacci, @constants_gauss, @radians_library_pi).
Print Assumptions const_theorems.
