(** zeta_two_v and zeta_four_v of constants.hpp against the series that define zeta(2)
    and zeta(4), in the way of SeriesProps.v. (Their closed forms are compared with in
    ConstProps.v.) *)
From Coq Require Import ZArith Lia List Reals Lra.
From Coquelicot Require Import Coquelicot.
From Interval Require Import Tactic.
From Verif Require Import ConstModel ConstProps SeriesProofs SeriesProps.
Import ListNotations.

(** * Approximations of the remainders *)
Local Open Scope Z_scope.
Definition zeta2_lo : list Z := [0; 614889782588491410; (-307444891294245705); 102481630431415235; 0; (-20496326086283047); 0;
  14640232918773605; 0; (-20496326086283047); 0; 46582559287006925; 0; (-155636937644193247); 0;
  717371413019906645; 0; (-4360894791416810647); 0; 33801215655149564765; 0; (-325353090386542647247); 0;
  3807473281079996813285; 0; (-53237313013449230471047); 0; 876535940687828940724205; 0;
  (-16785403366339838489306047); 0; 369905932762160652266609525; 0; (-9294868115566281087024432247); 0;
  264165654468713111384046021245; 0; (-8431156687985121534092629385647); 0;
  300270553444606540949695928751365; 0; (-11865269476267103146093067753958247); 0;
  517548455028826460428713961526831885; 0; (-24803468232381563136062283770288198047); 0;
  1300537923165406660507455890347870534805; 0; (-74319431545232048555348986256597962409047)].
Definition zeta2_lo_den : Z := 614889782588491410.
Definition zeta2_hi : list Z := [0; 614889782588491410; (-307444891294245705); 102481630431415235; 0; (-20496326086283047); 0;
  14640232918773605; 0; (-20496326086283047); 0; 46582559287006925; 0; (-155636937644193247); 0;
  717371413019906645; 0; (-4360894791416810647); 0; 33801215655149564765; 0; (-325353090386542647247); 0;
  3807473281079996813285; 0; (-53237313013449230471047); 0; 876535940687828940724205; 0;
  (-16785403366339838489306047); 0; 369905932762160652266609525; 0; (-9294868115566281087024432247); 0;
  264165654468713111384046021245; 0; (-8431156687985121534092629385647); 0;
  300270553444606540949695928751365; 0; (-11865269476267103146093067753958247); 0;
  517548455028826460428713961526831885; 0; (-24803468232381563136062283770288198047); 0;
  1300537923165406660507455890347870534805; 0; (-74319431545232048555348986256597962409047); 0;
  4612206322720509622378626471606279216372125].
Definition zeta2_hi_den : Z := 614889782588491410.
Definition zeta4_lo : list Z := [0; 0; 0; 510510; (-765765); 510510; 0; (-255255); 0; 340340; 0; (-765765); 0; 2552550; 0; (-11758747); 0;
  71471400; 0; (-553954401); 0; 5332033850; 0; (-62398463127); 0; 872474863260; 0; (-14365027630525); 0;
  275086010589390; 0; (-6062168674957395); 0; 152328073759768400; 0; (-4329254033226859737); 0;
  138173220000368402850; 0; (-4920955780421000268751); 0; 194452855084183057061700; 0;
  (-8481794275794142628070837); 0; 406489310960131313347600310; 0; (-21313743679393448823332387595); 0;
  1217977027919232393900127480440; 0; (-75586710397245593322206993695825)].
Definition zeta4_lo_den : Z := 1531530.
Definition zeta4_hi : list Z := [0; 0; 0; 510510; (-765765); 510510; 0; (-255255); 0; 340340; 0; (-765765); 0; 2552550; 0; (-11758747); 0;
  71471400; 0; (-553954401); 0; 5332033850; 0; (-62398463127); 0; 872474863260; 0; (-14365027630525); 0;
  275086010589390; 0; (-6062168674957395); 0; 152328073759768400; 0; (-4329254033226859737); 0;
  138173220000368402850; 0; (-4920955780421000268751); 0; 194452855084183057061700; 0;
  (-8481794275794142628070837); 0; 406489310960131313347600310; 0; (-21313743679393448823332387595); 0;
  1217977027919232393900127480440; 0; (-75586710397245593322206993695825); 0;
  5077608681847709930652579107690250].
Definition zeta4_hi_den : Z := 1531530.
(** f(x) - f(x+1) - 1/(x+1)^p *)
Definition power_terms (p : nat) (q : list Z) (den : Z) : list term :=
  [(q, [200; 1]); (padd (neg q) (repeat 0 p ++ [- den]), [201; 1])].
Definition upper (p : nat) (q : list Z) (den : Z) : bool :=
  check (power_terms p q den) && check [(q, [200; 1])].
Definition lower (p : nat) (q : list Z) (den : Z) : bool :=
  check (power_terms p (neg q) (- den)) && check [(padd (neg q) [0; den], [200; 1])].
Lemma zeta2_hi_check : upper 2 zeta2_hi zeta2_hi_den = true. Proof. vm_cast_no_check (eq_refl true). Qed.
Lemma zeta2_lo_check : lower 2 zeta2_lo zeta2_lo_den = true. Proof. vm_cast_no_check (eq_refl true). Qed.
Lemma zeta4_hi_check : upper 4 zeta4_hi zeta4_hi_den = true. Proof. vm_cast_no_check (eq_refl true). Qed.
Lemma zeta4_lo_check : lower 4 zeta4_lo zeta4_lo_den = true. Proof. vm_cast_no_check (eq_refl true). Qed.

(** * Partial sums *)
Fixpoint power_acc (p n : nat) : Z :=
  match n with O => 10 ^ 100 | S n' => power_acc p n' + 10 ^ 100 / (Z.of_nat n + 1) ^ Z.of_nat p end.
Local Close Scope Z_scope.
Local Open Scope R_scope.
Definition partial (p n : nat) : R := sum_f_R0 (fun k => / INR (S k) ^ p) n.
Lemma power_acc_spec p n : IZR (power_acc p n) <= IZR (10 ^ 100) * partial p n <= IZR (power_acc p n + Z.of_nat n).
Proof.
  unfold partial. induction n as [|n IH].
  - cbn [power_acc sum_f_R0 INR Z.of_nat]. rewrite Z.add_0_r, pow1, Rinv_1, Rmult_1_r. lra.
  - cbn [power_acc sum_f_R0]. set (k := ((Z.of_nat (S n) + 1) ^ Z.of_nat p)%Z).
    assert (E : INR (S (S n)) ^ p = IZR k).
    { unfold k. rewrite INR_IZR_INZ, pow_IZR. f_equal. f_equal. lia. }
    rewrite E, Rmult_plus_distr_l. pose proof (floor_bounds k) as H. specialize (H ltac:(apply Z.pow_pos_nonneg; lia)).
    rewrite plus_IZR in IH. rewrite !plus_IZR, Nat2Z.inj_succ, succ_IZR. lra.
Qed.

Lemma monomial_eval p c x : peval (repeat 0%Z p ++ [c]) x = IZR c * x ^ p.
Proof. induction p as [|p IH]; cbn [repeat app peval pow]; [ring|]. rewrite IH. ring. Qed.
Lemma power_step p q den t : 0 < IZR den -> check (power_terms p q den) = true -> 0 <= t ->
  approx q den (201 + t) + / (201 + t) ^ p <= approx q den (200 + t).
Proof.
  intros Hd Hc Ht. pose proof (check_nonneg _ t Hc Ht) as H. unfold terms_eval, power_terms, term_eval in H. cbn [fold_right fst snd] in H.
  rewrite padd_eval, neg_eval, monomial_eval, opp_IZR, pow_inv in H. unfold approx.
  replace (peval [200%Z; 1%Z] t) with (200 + t) in H by (cbn; ring). replace (peval [201%Z; 1%Z] t) with (201 + t) in H by (cbn; ring).
  apply (Rmult_le_reg_l (IZR den)); [exact Hd|]. unfold Rdiv. rewrite Rmult_plus_distr_l. rewrite <- !Rmult_assoc.
  rewrite !(Rmult_comm (IZR den) (peval _ _)), !Rmult_assoc, !Rinv_r by lra. lra.
Qed.
Lemma power_step_lo p q den t : 0 < IZR den -> check (power_terms p (neg q) (- den)) = true -> 0 <= t ->
  approx q den (200 + t) <= approx q den (201 + t) + / (201 + t) ^ p.
Proof.
  intros Hd Hc Ht. pose proof (check_nonneg _ t Hc Ht) as H. unfold terms_eval, power_terms, term_eval in H. cbn [fold_right fst snd] in H.
  rewrite padd_eval, !neg_eval, monomial_eval, !opp_IZR, pow_inv in H. unfold approx.
  replace (peval [200%Z; 1%Z] t) with (200 + t) in H by (cbn; ring). replace (peval [201%Z; 1%Z] t) with (201 + t) in H by (cbn; ring).
  apply (Rmult_le_reg_l (IZR den)); [exact Hd|]. unfold Rdiv. rewrite Rmult_plus_distr_l. rewrite <- !Rmult_assoc.
  rewrite !(Rmult_comm (IZR den) (peval _ _)), !Rmult_assoc, !Rinv_r by lra. lra.
Qed.
Lemma index_shift d : INR (S (S (199 + d))) = 201 + INR d.
Proof. rewrite !S_INR, plus_INR, (INR_IZR_INZ 199). change (Z.of_nat 199) with 199%Z. lra. Qed.
Lemma power_hi_bound p q den d : 0 < IZR den -> check (power_terms p q den) = true ->
  partial p (199 + d) + approx q den (200 + INR d) <= partial p 199 + approx q den 200.
Proof.
  intros Hd Hc. unfold partial. induction d as [|d IH]; [cbn [INR]; rewrite Nat.add_0_r, Rplus_0_r; lra|].
  rewrite Nat.add_succ_r, (S_INR d). cbn [sum_f_R0]. rewrite index_shift. eapply Rle_trans; [|exact IH].
  pose proof (power_step p q den (INR d) Hd Hc (pos_INR d)) as H.
  replace (200 + (INR d + 1)) with (201 + INR d) by ring. lra.
Qed.
Lemma power_lo_bound p q den d : 0 < IZR den -> check (power_terms p (neg q) (- den)) = true ->
  partial p 199 + approx q den 200 <= partial p (199 + d) + approx q den (200 + INR d).
Proof.
  intros Hd Hc. unfold partial. induction d as [|d IH]; [cbn [INR]; rewrite Nat.add_0_r, Rplus_0_r; lra|].
  rewrite Nat.add_succ_r, (S_INR d). cbn [sum_f_R0]. rewrite index_shift. eapply Rle_trans; [exact IH|].
  pose proof (power_step_lo p q den (INR d) Hd Hc (pos_INR d)) as H.
  replace (200 + (INR d + 1)) with (201 + INR d) by ring. lra.
Qed.
Lemma upper_bound p q den x : 0 < IZR den -> upper p q den = true -> infinite_sum (fun n => / INR (S n) ^ p) x ->
  x <= partial p 199 + approx q den 200.
Proof.
  intros Hd Hu Hx. apply andb_prop in Hu as [Hc Hs]. apply (cv_le _ _ _ Hx). intros n. exists (199 + n)%nat. split; [lia|].
  pose proof (power_hi_bound p q den n Hd Hc) as H. unfold partial in *.
  pose proof (approx_nonneg q den 200 (INR n) Hd Hs (pos_INR n)).
  pose proof (Rinv_0_lt_compat (INR (S n)) (lt_0_INR _ (Nat.lt_0_succ n))). lra.
Qed.
Lemma lower_bound p q den x : 0 < IZR den -> lower p q den = true -> infinite_sum (fun n => / INR (S n) ^ p) x ->
  partial p 199 + approx q den 200 <= x.
Proof.
  intros Hd Hu Hx. apply andb_prop in Hu as [Hc Hs]. apply (cv_ge _ _ _ Hx). intros n. exists (199 + n)%nat. split; [lia|].
  pose proof (power_lo_bound p q den n Hd Hc) as H. unfold partial in *.
  pose proof (approx_small q den 200 (INR n) Hd ltac:(lra) Hs (pos_INR n)).
  pose proof (inv_small n 200 ltac:(lra)). lra.
Qed.

(** * Theorems *)
Theorem constants_zeta_two : forall x, infinite_sum (fun n => / INR (S n) ^ 2) x -> correct zeta_two_v x.
Proof.
  intros x Hx. pose proof (upper_bound 2 zeta2_hi zeta2_hi_den x ltac:(unfold zeta2_hi_den; lra) zeta2_hi_check Hx) as Hhi.
  pose proof (lower_bound 2 zeta2_lo zeta2_lo_den x ltac:(unfold zeta2_lo_den; lra) zeta2_lo_check Hx) as Hlo.
  pose proof (power_acc_spec 2 199) as Hacc. literals Hacc.
  set (s := partial 2 199) in *. unfold approx in *. cbn [peval zeta2_hi zeta2_lo] in Hhi, Hlo. unfold zeta2_hi_den, zeta2_lo_den in *.
  match type of Hhi with _ <= _ + ?a => interval_intro a with (i_prec 500) as Ha; set (y := a) in *; clearbody y end.
  match type of Hlo with _ + ?b <= _ => interval_intro b with (i_prec 500) as Hb; set (z := b) in *; clearbody z end.
  unfold correct, val. cbn [mantissa scale zeta_two_v]. change (Z.to_nat 79) with 79%nat.
  apply Rabs_def1; lra.
Qed.
Theorem constants_zeta_four : forall x, infinite_sum (fun n => / INR (S n) ^ 4) x -> correct zeta_four_v x.
Proof.
  intros x Hx. pose proof (upper_bound 4 zeta4_hi zeta4_hi_den x ltac:(unfold zeta4_hi_den; lra) zeta4_hi_check Hx) as Hhi.
  pose proof (lower_bound 4 zeta4_lo zeta4_lo_den x ltac:(unfold zeta4_lo_den; lra) zeta4_lo_check Hx) as Hlo.
  pose proof (power_acc_spec 4 199) as Hacc. literals Hacc.
  set (s := partial 4 199) in *. unfold approx in *. cbn [peval zeta4_hi zeta4_lo] in Hhi, Hlo. unfold zeta4_hi_den, zeta4_lo_den in *.
  match type of Hhi with _ <= _ + ?a => interval_intro a with (i_prec 500) as Ha; set (y := a) in *; clearbody y end.
  match type of Hlo with _ + ?b <= _ => interval_intro b with (i_prec 500) as Hb; set (z := b) in *; clearbody z end.
  unfold correct, val. cbn [mantissa scale zeta_four_v]. change (Z.to_nat 79) with 79%nat.
  apply Rabs_def1; lra.
Qed.

(** The series converge. *)
Lemma power_converges p q den : 0 < IZR den -> upper p q den = true -> exists x, infinite_sum (fun n => / INR (S n) ^ p) x.
Proof.
  intros Hd Hu. apply andb_prop in Hu as [Hc Hs].
  assert (P : forall n, 0 < / INR (S n) ^ p) by (intros n; apply Rinv_0_lt_compat, pow_lt, lt_0_INR, Nat.lt_0_succ).
  destruct (growing_cv (sum_f_R0 (fun n => / INR (S n) ^ p))) as [x Hx]; [| |exists x; exact Hx].
  - intros n. cbn [sum_f_R0]. pose proof (P (S n)). lra.
  - exists (partial p 199 + approx q den 200). intros y [n ->]. pose proof (power_hi_bound p q den n Hd Hc) as H.
    pose proof (approx_nonneg q den 200 (INR n) Hd Hs (pos_INR n)).
    apply (Rle_trans _ (partial p (199 + n))); [|lra]. unfold partial.
    rewrite Nat.add_comm. generalize 199%nat. intros m. induction m as [|m IH]; [rewrite Nat.add_0_r; lra|].
    rewrite Nat.add_succ_r. cbn [sum_f_R0]. pose proof (P (S (n + m))). lra.
Qed.
Example constants_zeta_two_ex : exists x, infinite_sum (fun n => / INR (S n) ^ 2) x.
Proof. apply (power_converges 2 zeta2_hi zeta2_hi_den); [unfold zeta2_hi_den; lra|exact zeta2_hi_check]. Qed.
Example constants_zeta_four_ex : exists x, infinite_sum (fun n => / INR (S n) ^ 4) x.
Proof. apply (power_converges 4 zeta4_hi zeta4_hi_den); [unfold zeta4_hi_den; lra|exact zeta4_hi_check]. Qed.

Definition zeta_theorems := (@constants_zeta_two, @constants_zeta_four).
Print Assumptions zeta_theorems.
