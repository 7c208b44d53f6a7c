(** zeta_three_v, catalan_v and euler_v of constants.hpp against the limits they stand
    for; ZetaProps.v has the other two values of zeta. *)
From Coq Require Import ZArith Lia List Reals Lra.
From Coquelicot Require Import Coquelicot.
From Interval Require Import Tactic.
From Verif Require Import ConstModel ConstProps SeriesProofs.
Import ListNotations.
Local Open Scope R_scope.

Lemma cv_le v l B : Un_cv v l -> (forall n, exists m, (n <= m)%nat /\ v m <= B + / INR (S n)) -> l <= B.
Proof.
  intros Hv Hb. destruct (Rle_lt_dec l B) as [|Hlt]; [assumption|exfalso].
  destruct (Hv ((l - B) / 2) ltac:(lra)) as [N HN]. destruct (archimed_cor1 ((l - B) / 2) ltac:(lra)) as (K & HK & HK0).
  destruct (Hb (Nat.max N K)) as (m & Hm & Hs). specialize (HN m ltac:(lia)). unfold R_dist in HN. apply Rabs_def2 in HN.
  assert (/ INR (S (Nat.max N K)) <= / INR K); [|lra].
  apply Rinv_le_contravar; [apply lt_0_INR; exact HK0|apply le_INR; lia].
Qed.
Lemma cv_ge v l B : Un_cv v l -> (forall n, exists m, (n <= m)%nat /\ B - / INR (S n) <= v m) -> B <= l.
Proof.
  intros Hv Hb. apply Ropp_le_cancel, (cv_le (fun n => - v n)); [apply CV_opp, Hv|].
  intros n. destruct (Hb n) as (m & Hm & H). exists m. split; [exact Hm|]. lra.
Qed.

(** f(N + t) for the approximation f = q(1/x) / den *)
Definition approx (q : list Z) (den : Z) (x : R) : R := peval q (/ x) / IZR den.

(** * zeta(3) *)
Fixpoint zeta_acc (n : nat) : Z :=
  match n with O => 10 ^ 100 | S n' => zeta_acc n' + 10 ^ 100 / (Z.of_nat n + 1) ^ 3 end%Z.
Lemma floor_bounds k : (0 < k)%Z -> IZR (10 ^ 100 / k) <= IZR (10 ^ 100) * / IZR k <= IZR (10 ^ 100 / k) + 1.
Proof.
  intros Hk. pose proof (IZR_lt _ _ Hk) as Hk'. split; apply (Rmult_le_reg_r (IZR k)); try exact Hk';
    rewrite Rmult_assoc, Rinv_l, Rmult_1_r by lra; [|rewrite <- plus_IZR]; rewrite <- mult_IZR; apply IZR_le.
  - rewrite Z.mul_comm. apply Z.mul_div_le, Hk.
  - pose proof (Z.mul_succ_div_gt (10 ^ 100) k Hk). lia.
Qed.
Lemma zeta_acc_spec n : IZR (zeta_acc n) <= IZR (10 ^ 100) * sum_f_R0 (fun k => / INR (S k) ^ 3) n <= IZR (zeta_acc n + Z.of_nat n).
Proof.
  induction n as [|n IH].
  - cbn [zeta_acc sum_f_R0 INR Z.of_nat]. rewrite Z.add_0_r, pow1, Rinv_1, Rmult_1_r. lra.
  - cbn [zeta_acc sum_f_R0]. set (k := ((Z.of_nat (S n) + 1) ^ 3)%Z).
    assert (E : INR (S (S n)) ^ 3 = IZR k).
    { unfold k. rewrite INR_IZR_INZ, pow_IZR. f_equal. f_equal. lia. }
    rewrite E, Rmult_plus_distr_l. pose proof (floor_bounds k) as H. specialize (H ltac:(apply Z.pow_pos_nonneg; lia)).
    rewrite plus_IZR in IH. rewrite !plus_IZR, Nat2Z.inj_succ, succ_IZR. lra.
Qed.
Lemma zeta_step q den t : (0 < IZR den) -> check (zeta_terms q den) = true -> 0 <= t ->
  approx q den (201 + t) + / (201 + t) ^ 3 <= approx q den (200 + t).
Proof.
  intros Hd Hc Ht. pose proof (check_nonneg _ t Hc Ht) as H. unfold terms_eval, zeta_terms, term_eval in H. cbn [fold_right fst snd] in H.
  rewrite padd_eval, neg_eval in H. unfold approx.
  replace (peval [200%Z; 1%Z] t) with (200 + t) in H by (cbn; ring). replace (peval [201%Z; 1%Z] t) with (201 + t) in H by (cbn; ring).
  replace (peval [0%Z; 0%Z; 0%Z; (- den)%Z] (/ (201 + t))) with (- (IZR den * / (201 + t) ^ 3)) in H
    by (cbn; rewrite opp_IZR; field; lra).
  apply (Rmult_le_reg_l (IZR den)); [exact Hd|]. unfold Rdiv. rewrite Rmult_plus_distr_l. rewrite <- !Rmult_assoc.
  rewrite !(Rmult_comm (IZR den)), !Rmult_assoc, !Rinv_r by lra. lra.
Qed.
Lemma zeta_step_lo q den t : (0 < IZR den) -> check (zeta_terms (neg q) (- den)) = true -> 0 <= t ->
  approx q den (200 + t) <= approx q den (201 + t) + / (201 + t) ^ 3.
Proof.
  intros Hd Hc Ht. pose proof (check_nonneg _ t Hc Ht) as H. unfold terms_eval, zeta_terms, term_eval in H. cbn [fold_right fst snd] in H.
  rewrite padd_eval, !neg_eval in H. unfold approx.
  replace (peval [200%Z; 1%Z] t) with (200 + t) in H by (cbn; ring). replace (peval [201%Z; 1%Z] t) with (201 + t) in H by (cbn; ring).
  replace (peval [0%Z; 0%Z; 0%Z; (- - den)%Z] (/ (201 + t))) with (IZR den * / (201 + t) ^ 3) in H
    by (rewrite Z.opp_involutive; cbn; field; lra).
  apply (Rmult_le_reg_l (IZR den)); [exact Hd|]. unfold Rdiv. rewrite Rmult_plus_distr_l. rewrite <- !Rmult_assoc.
  rewrite !(Rmult_comm (IZR den)), !Rmult_assoc, !Rinv_r by lra. lra.
Qed.
(** The signs of the approximations, and that they vanish. *)
Lemma approx_nonneg q den N t : 0 < IZR den -> check [(q, [N; 1%Z])] = true -> 0 <= t -> 0 <= approx q den (IZR N + t).
Proof.
  intros Hd Hc Ht. pose proof (check_nonneg _ t Hc Ht) as H. unfold terms_eval, term_eval in H. cbn [fold_right fst snd] in H.
  replace (peval [N; 1%Z] t) with (IZR N + t) in H by (cbn; ring). unfold approx.
  apply Rmult_le_pos; [lra|]. apply Rlt_le, Rinv_0_lt_compat, Hd.
Qed.
Lemma approx_small q den N t : 0 < IZR den -> 0 < IZR N -> check [(padd (neg q) [0%Z; den], [N; 1%Z])] = true -> 0 <= t ->
  approx q den (IZR N + t) <= / (IZR N + t).
Proof.
  intros Hd HN Hc Ht. pose proof (check_nonneg _ t Hc Ht) as H. unfold terms_eval, term_eval in H. cbn [fold_right fst snd] in H.
  rewrite padd_eval, neg_eval in H. replace (peval [N; 1%Z] t) with (IZR N + t) in H by (cbn; ring).
  cbn [peval] in H. unfold approx. apply (Rmult_le_reg_l (IZR den)); [exact Hd|]. unfold Rdiv.
  rewrite <- !Rmult_assoc, (Rmult_comm (IZR den) (peval _ _)), Rmult_assoc, Rinv_r by lra. lra.
Qed.
Lemma zeta_hi_bound d : sum_f_R0 (fun k => / INR (S k) ^ 3) (199 + d) + approx zeta_hi zeta_hi_den (200 + INR d) <=
  sum_f_R0 (fun k => / INR (S k) ^ 3) 199 + approx zeta_hi zeta_hi_den 200.
Proof.
  induction d as [|d IH]; [cbn [INR]; rewrite Nat.add_0_r, Rplus_0_r; lra|].
  rewrite Nat.add_succ_r, S_INR. cbn [sum_f_R0]. eapply Rle_trans; [|exact IH].
  pose proof (zeta_step zeta_hi zeta_hi_den (INR d) ltac:(unfold zeta_hi_den; lra) zeta_hi_check (pos_INR d)) as H.
  replace (INR (S (S (199 + d)))) with (201 + INR d) by (rewrite !S_INR, plus_INR, (INR_IZR_INZ 199); change (Z.of_nat 199) with 199%Z; lra).
  replace (200 + (INR d + 1)) with (201 + INR d) by ring. lra.
Qed.
Lemma zeta_lo_bound d : sum_f_R0 (fun k => / INR (S k) ^ 3) 199 + approx zeta_lo zeta_lo_den 200 <=
  sum_f_R0 (fun k => / INR (S k) ^ 3) (199 + d) + approx zeta_lo zeta_lo_den (200 + INR d).
Proof.
  induction d as [|d IH]; [cbn [INR]; rewrite Nat.add_0_r, Rplus_0_r; lra|].
  rewrite Nat.add_succ_r, S_INR. cbn [sum_f_R0]. eapply Rle_trans; [exact IH|].
  pose proof (zeta_step_lo zeta_lo zeta_lo_den (INR d) ltac:(unfold zeta_lo_den; lra) zeta_lo_check (pos_INR d)) as H.
  replace (INR (S (S (199 + d)))) with (201 + INR d) by (rewrite !S_INR, plus_INR, (INR_IZR_INZ 199); change (Z.of_nat 199) with 199%Z; lra).
  replace (200 + (INR d + 1)) with (201 + INR d) by ring. lra.
Qed.
Ltac literals H :=
  match type of H with IZR ?a <= _ <= IZR ?b => let a' := eval vm_compute in a in let b' := eval vm_compute in b in
    replace b with b' in H by (vm_compute; reflexivity); replace a with a' in H by (vm_compute; reflexivity) end;
  match type of H with context[IZR (10 ^ 100)] => let c := eval vm_compute in (10 ^ 100)%Z in change (10 ^ 100)%Z with c in H end.
Lemma inv_small n N : 1 <= N -> / (N + INR n) <= / INR (S n).
Proof. intros HN. rewrite S_INR. pose proof (pos_INR n). apply Rinv_le_contravar; lra. Qed.

Theorem constants_zeta_three : forall x, infinite_sum (fun n => / INR (S n) ^ 3) x -> correct zeta_three_v x.
Proof.
  intros x Hx.
  assert (Hhi : x <= sum_f_R0 (fun k => / INR (S k) ^ 3) 199 + approx zeta_hi zeta_hi_den 200).
  { apply (cv_le _ _ _ Hx). intros n. exists (199 + n)%nat. split; [lia|]. pose proof (zeta_hi_bound n).
    pose proof (approx_nonneg zeta_hi zeta_hi_den 200 (INR n) ltac:(unfold zeta_hi_den; lra) zeta_hi_sign (pos_INR n)).
    pose proof (Rinv_0_lt_compat (INR (S n)) (lt_0_INR _ (Nat.lt_0_succ n))). lra. }
  assert (Hlo : sum_f_R0 (fun k => / INR (S k) ^ 3) 199 + approx zeta_lo zeta_lo_den 200 <= x).
  { apply (cv_ge _ _ _ Hx). intros n. exists (199 + n)%nat. split; [lia|]. pose proof (zeta_lo_bound n).
    pose proof (approx_small zeta_lo zeta_lo_den 200 (INR n) ltac:(unfold zeta_lo_den; lra) ltac:(lra) zeta_lo_small (pos_INR n)).
    pose proof (inv_small n 200 ltac:(lra)). lra. }
  pose proof (zeta_acc_spec 199) as Hacc.
  literals Hacc.
  set (s := sum_f_R0 _ 199) in *. unfold approx in *. cbn [peval zeta_hi zeta_lo] in Hhi, Hlo. unfold zeta_hi_den, zeta_lo_den in *.
  match type of Hhi with _ <= _ + ?a => interval_intro a with (i_prec 500) as Ha; set (y := a) in *; clearbody y end.
  match type of Hlo with _ + ?b <= _ => interval_intro b with (i_prec 500) as Hb; set (z := b) in *; clearbody z end.
  unfold correct, val. cbn [mantissa scale zeta_three_v]. change (Z.to_nat 79) with 79%nat.
  apply Rabs_def1; lra.
Qed.

(** * Catalan's constant *)
Definition catalan_term (n : nat) : R := (-1) ^ n / (2 * INR n + 1) ^ 2.
Fixpoint catalan_acc (n : nat) : Z :=
  match n with
  | O => 10 ^ 100
  | S n' => catalan_acc n' + (if Nat.even n then 10 ^ 100 / (2 * Z.of_nat n + 1) ^ 2 else - (10 ^ 100 / (2 * Z.of_nat n + 1) ^ 2))
  end%Z.
Lemma sign_even n : (-1) ^ n = if Nat.even n then 1 else -1.
Proof.
  induction n as [|n IH]; [reflexivity|]. rewrite Nat.even_succ, <- Nat.negb_even. cbn [pow]. rewrite IH.
  destruct (Nat.even n); cbn; ring.
Qed.
Lemma catalan_acc_spec n : IZR (catalan_acc n - Z.of_nat n) <= IZR (10 ^ 100) * sum_f_R0 catalan_term n <= IZR (catalan_acc n + Z.of_nat n).
Proof.
  induction n as [|n IH].
  - cbn [catalan_acc sum_f_R0 Z.of_nat]. unfold catalan_term. cbn [INR pow]. rewrite Z.sub_0_r, Z.add_0_r.
    replace (1 / ((2 * 0 + 1) * ((2 * 0 + 1) * 1))) with 1 by field. lra.
  - cbn [catalan_acc sum_f_R0]. set (k := ((2 * Z.of_nat (S n) + 1) ^ 2)%Z).
    assert (E : (2 * INR (S n) + 1) ^ 2 = IZR k).
    { unfold k. rewrite INR_IZR_INZ, <- mult_IZR, <- plus_IZR, pow_IZR. reflexivity. }
    unfold catalan_term at 2 4. rewrite sign_even, E, Rmult_plus_distr_l. unfold Rdiv.
    pose proof (floor_bounds k) as H. specialize (H ltac:(apply Z.pow_pos_nonneg; lia)).
    rewrite minus_IZR, plus_IZR in IH. rewrite minus_IZR, !plus_IZR, Nat2Z.inj_succ, succ_IZR.
    destruct (Nat.even (S n)); [|rewrite opp_IZR]; lra.
Qed.
Lemma catalan_hi_step t : 0 <= t -> approx catalan_hi catalan_hi_den (805 + t) + / (801 + t) ^ 2 - / (803 + t) ^ 2 <=
  approx catalan_hi catalan_hi_den (801 + t).
Proof.
  intros Ht. pose proof (check_nonneg _ t catalan_hi_check Ht) as H. unfold terms_eval, catalan_terms, term_eval in H. cbn [fold_right fst snd] in H.
  rewrite padd_eval, neg_eval in H. unfold approx. assert (Hd : 0 < IZR catalan_hi_den) by (unfold catalan_hi_den; lra).
  generalize dependent catalan_hi_den. intros den H Hd. generalize dependent catalan_hi. intros q H.
  replace (peval [801%Z; 1%Z] t) with (801 + t) in H by (cbn; ring). replace (peval [803%Z; 1%Z] t) with (803 + t) in H by (cbn; ring).
  replace (peval [805%Z; 1%Z] t) with (805 + t) in H by (cbn; ring).
  replace (peval [0%Z; 0%Z; (- den)%Z] (/ (801 + t))) with (- (IZR den * / (801 + t) ^ 2)) in H by (cbn; rewrite opp_IZR; field; lra).
  replace (peval [0%Z; 0%Z; den] (/ (803 + t))) with (IZR den * / (803 + t) ^ 2) in H by (cbn; field; lra).
  apply (Rmult_le_reg_l (IZR den)); [exact Hd|]. unfold Rdiv. unfold Rminus. rewrite !Rmult_plus_distr_l. rewrite <- !Rmult_assoc.
  rewrite !(Rmult_comm (IZR den) (peval _ _)), !Rmult_assoc, !Rinv_r by lra. lra.
Qed.
Lemma catalan_lo_step t : 0 <= t -> approx catalan_lo catalan_lo_den (801 + t) <=
  approx catalan_lo catalan_lo_den (805 + t) + / (801 + t) ^ 2 - / (803 + t) ^ 2.
Proof.
  intros Ht. pose proof (check_nonneg _ t catalan_lo_check Ht) as H. unfold terms_eval, catalan_terms, term_eval in H. cbn [fold_right fst snd] in H.
  rewrite padd_eval, !neg_eval in H. unfold approx. assert (Hd : 0 < IZR catalan_lo_den) by (unfold catalan_lo_den; lra).
  generalize dependent catalan_lo_den. intros den H Hd. generalize dependent catalan_lo. intros q H.
  replace (peval [801%Z; 1%Z] t) with (801 + t) in H by (cbn; ring). replace (peval [803%Z; 1%Z] t) with (803 + t) in H by (cbn; ring).
  replace (peval [805%Z; 1%Z] t) with (805 + t) in H by (cbn; ring).
  replace (peval [0%Z; 0%Z; (- - den)%Z] (/ (801 + t))) with (IZR den * / (801 + t) ^ 2) in H by (rewrite Z.opp_involutive; cbn; field; lra).
  replace (peval [0%Z; 0%Z; (- den)%Z] (/ (803 + t))) with (- (IZR den * / (803 + t) ^ 2)) in H by (cbn; rewrite opp_IZR; field; lra).
  apply (Rmult_le_reg_l (IZR den)); [exact Hd|]. unfold Rdiv. unfold Rminus. rewrite !Rmult_plus_distr_l. rewrite <- !Rmult_assoc.
  rewrite !(Rmult_comm (IZR den) (peval _ _)), !Rmult_assoc, !Rinv_r by lra. lra.
Qed.
Lemma catalan_pair d : sum_f_R0 catalan_term (399 + 2 * S d) =
  sum_f_R0 catalan_term (399 + 2 * d) + / (801 + 4 * INR d) ^ 2 - / (803 + 4 * INR d) ^ 2.
Proof.
  replace (399 + 2 * S d)%nat with (S (S (399 + 2 * d))) by lia. cbn [sum_f_R0]. unfold catalan_term at 2 3.
  rewrite !sign_even. rewrite !Nat.even_succ, Nat.odd_succ, <- !Nat.negb_even.
  assert (He : Nat.even (399 + 2 * d) = false) by (rewrite Nat.even_add, Nat.even_mul; reflexivity). rewrite He. cbn [negb].
  pose proof (pos_INR d).
  assert (E : INR (399 + 2 * d) = 399 + 2 * INR d) by (rewrite plus_INR, mult_INR, (INR_IZR_INZ 399); change (Z.of_nat 399) with 399%Z; cbn; lra).
  rewrite !S_INR, E. field. split; lra.
Qed.
Lemma catalan_hi_bound d : sum_f_R0 catalan_term (399 + 2 * d) + approx catalan_hi catalan_hi_den (801 + 4 * INR d) <=
  sum_f_R0 catalan_term 399 + approx catalan_hi catalan_hi_den 801.
Proof.
  induction d as [|d IH]; [cbn [INR]; rewrite Nat.mul_0_r, Nat.add_0_r, Rmult_0_r, Rplus_0_r; lra|].
  rewrite catalan_pair, S_INR. pose proof (pos_INR d). pose proof (catalan_hi_step (4 * INR d) ltac:(lra)).
  replace (801 + 4 * (INR d + 1)) with (805 + 4 * INR d) by ring. lra.
Qed.
Lemma catalan_lo_bound d : sum_f_R0 catalan_term 399 + approx catalan_lo catalan_lo_den 801 <=
  sum_f_R0 catalan_term (399 + 2 * d) + approx catalan_lo catalan_lo_den (801 + 4 * INR d).
Proof.
  induction d as [|d IH]; [cbn [INR]; rewrite Nat.mul_0_r, Nat.add_0_r, Rmult_0_r, Rplus_0_r; lra|].
  rewrite catalan_pair, S_INR. pose proof (pos_INR d). pose proof (catalan_lo_step (4 * INR d) ltac:(lra)).
  replace (801 + 4 * (INR d + 1)) with (805 + 4 * INR d) by ring. lra.
Qed.
Theorem constants_catalan : forall x, infinite_sum (fun n => (-1) ^ n / (2 * INR n + 1) ^ 2) x -> correct catalan_v x.
Proof.
  intros x Hx. change (infinite_sum catalan_term x) in Hx.
  assert (Hhi : x <= sum_f_R0 catalan_term 399 + approx catalan_hi catalan_hi_den 801).
  { apply (cv_le _ _ _ Hx). intros n. exists (399 + 2 * n)%nat. split; [lia|]. pose proof (catalan_hi_bound n). pose proof (pos_INR n).
    pose proof (approx_nonneg catalan_hi catalan_hi_den 801 (4 * INR n) ltac:(unfold catalan_hi_den; lra) catalan_hi_sign ltac:(lra)).
    pose proof (Rinv_0_lt_compat (INR (S n)) (lt_0_INR _ (Nat.lt_0_succ n))). lra. }
  assert (Hlo : sum_f_R0 catalan_term 399 + approx catalan_lo catalan_lo_den 801 <= x).
  { apply (cv_ge _ _ _ Hx). intros n. exists (399 + 2 * n)%nat. split; [lia|]. pose proof (catalan_lo_bound n). pose proof (pos_INR n).
    pose proof (approx_small catalan_lo catalan_lo_den 801 (4 * INR n) ltac:(unfold catalan_lo_den; lra) ltac:(lra) catalan_lo_small ltac:(lra)).
    assert (/ (801 + 4 * INR n) <= / INR (S n)); [|lra]. rewrite S_INR. apply Rinv_le_contravar; lra. }
  pose proof (catalan_acc_spec 399) as Hacc. literals Hacc.
  set (s := sum_f_R0 _ 399) in *. unfold approx in *. cbn [peval catalan_hi catalan_lo] in Hhi, Hlo. unfold catalan_hi_den, catalan_lo_den in *.
  match type of Hhi with _ <= _ + ?a => interval_intro a with (i_prec 500) as Ha; set (y := a) in *; clearbody y end.
  match type of Hlo with _ + ?b <= _ => interval_intro b with (i_prec 500) as Hb; set (z := b) in *; clearbody z end.
  unfold correct, val. cbn [mantissa scale catalan_v]. change (Z.to_nat 79) with 79%nat.
  apply Rabs_def1; lra.
Qed.

(** * The Euler-Mascheroni constant *)
Lemma pderiv_succ k p x : peval (pderiv (k + 1) p) x = peval (pderiv k p) x + peval p x.
Proof. revert k; induction p as [|c p IH]; intros k; [cbn; ring|]. cbn. rewrite IH, !mult_IZR, plus_IZR. ring. Qed.
Lemma peval_derive p (x : R) : is_derive (peval p) x (peval (pderiv 1 (tl p)) x).
Proof.
  induction p as [|c p IH]; [cbn; auto_derive; [exact I|reflexivity]|]. cbn [tl].
  assert (E : peval (pderiv 1 p) x = 0 + (1 * peval p x + x * peval (pderiv 1 (tl p)) x)).
  { destruct p as [|c' p]; [cbn; ring|]. cbn [pderiv tl peval]. rewrite (pderiv_succ 1), Z.mul_1_l. ring. }
  rewrite E. cbn [peval]. auto_derive; [eexists; exact IH|]. rewrite (is_derive_unique (fun y : R => peval p y) _ _ IH). ring.
Qed.
Lemma approx_derive q den (x : R) : 0 < x -> is_derive (approx q den) x (- / x ^ 2 * peval (pderiv 1 (tl q)) (/ x) / IZR den).
Proof.
  intros Hx. pose proof (peval_derive q (/ x)) as H. unfold approx.
  auto_derive; [split; [eexists; exact H|split; [lra|exact I]]|]. rewrite (is_derive_unique (fun y : R => peval q y) _ _ H). unfold Rdiv. generalize (/ IZR den). intros. field. lra.
Qed.
(** The change of H(n) - ln n + approx(n) from n = x to n = x + 1 *)
Definition euler_change (q : list Z) (den : Z) (x : R) : R :=
  approx q den (x + 1) - approx q den x + / (x + 1) - (ln (x + 1) - ln x).
Definition euler_slope (q : list Z) (den : Z) (x : R) : R :=
  - / (x + 1) ^ 2 * peval (pderiv 1 (tl q)) (/ (x + 1)) / IZR den - - / x ^ 2 * peval (pderiv 1 (tl q)) (/ x) / IZR den
  + - / (x + 1) ^ 2 - (/ (x + 1) - / x).
Lemma euler_change_derive q den (x : R) : 0 < x -> is_derive (euler_change q den) x (euler_slope q den x).
Proof.
  intros Hx. unfold euler_change, euler_slope.
  pose proof (approx_derive q den (x + 1) ltac:(lra)) as H1. pose proof (approx_derive q den x Hx) as H0.
  auto_derive; [repeat split; try (eexists; eassumption); lra|]. rewrite (is_derive_unique (fun y : R => approx q den y) _ _ H1), (is_derive_unique (fun y : R => approx q den y) _ _ H0).
  unfold Rdiv. generalize (/ IZR den). intros. field. lra.
Qed.
Lemma euler_terms_value q den t : IZR den <> 0 -> 0 <= t ->
  terms_eval (euler_terms q den) t = IZR den * euler_slope q den (200 + t).
Proof.
  intros Hd Ht. unfold terms_eval, euler_terms, term_eval, euler_slope. cbn [fold_right fst snd].
  rewrite !padd_eval, neg_eval. generalize (pderiv 1 (tl q)). intros p.
  replace (peval [200%Z; 1%Z] t) with (200 + t) by (cbn; ring). replace (peval [201%Z; 1%Z] t) with (200 + t + 1) by (cbn; ring).
  cbn [peval]. rewrite !opp_IZR. generalize (peval p (/ (200 + t))) (peval p (/ (200 + t + 1))). intros a b. field. repeat split; lra.
Qed.
Lemma slope_sign q den : IZR den <> 0 -> euler_slope (neg q) (- den) = euler_slope q den.
Proof.
  intros Hd. apply FunctionalExtensionality.functional_extensionality. intros x. unfold euler_slope.
  assert (E : forall y, peval (pderiv 1 (tl (neg q))) y = - peval (pderiv 1 (tl q)) y).
  { intros y. destruct q as [|c q]; [cbn; ring|]. unfold neg, pscale. cbn [map tl]. generalize 1%Z. induction q as [|c' q IH]; intros k; [cbn; ring|].
    cbn [map pderiv peval]. rewrite IH, !mult_IZR. ring. }
  rewrite !E, opp_IZR. unfold Rdiv. rewrite Rinv_opp. ring.
Qed.
Lemma euler_vanishes q den x : 0 < IZR den -> check [(padd q [0; den], [200; 1])]%Z = true -> check [(padd (neg q) [0; den], [200; 1])]%Z = true ->
  200 <= x -> - (3 / x) <= euler_change q den x <= 3 / x.
Proof.
  intros Hd H1 H2 Hx.
  assert (B : forall y, 200 <= y -> - / y <= approx q den y <= / y).
  { intros y Hy. pose proof (approx_small q den 200 (y - 200) Hd ltac:(lra) H2 ltac:(lra)) as A.
    pose proof (check_nonneg _ (y - 200) H1 ltac:(lra)) as C. unfold terms_eval, term_eval in C. cbn [fold_right fst snd] in C.
    rewrite padd_eval in C. replace (peval [200%Z; 1%Z] (y - 200)) with y in C by (cbn; ring). replace (200 + (y - 200)) with y in A by ring.
    split; [|exact A]. cbn [peval] in C. unfold approx. apply (Rmult_le_reg_l (IZR den)); [exact Hd|]. unfold Rdiv.
    rewrite <- (Rmult_assoc _ (peval _ _)), (Rmult_comm (IZR den) (peval _ _)), Rmult_assoc, Rinv_r by lra. lra. }
  pose proof (B x Hx). pose proof (B (x + 1) ltac:(lra)).
  assert (Hi : 0 < / (x + 1) <= / x) by (split; [apply Rinv_0_lt_compat|apply Rinv_le_contravar]; lra).
  assert (Hl : 0 <= ln (x + 1) - ln x <= / x).
  { split; [assert (ln x < ln (x + 1)) by (apply ln_increasing; lra); lra|].
    rewrite <- ln_div by lra. rewrite <- (ln_exp (/ x)). apply Rcomplements.ln_le; [apply Rdiv_lt_0_compat; lra|].
    replace ((x + 1) / x) with (1 + / x) by (field; lra). apply exp_ineq1_le. }
  unfold euler_change, Rdiv. lra.
Qed.
Lemma far_nonpos c x h : (forall y, x <= y -> h <= c / y) -> 0 < x -> 0 < c -> h <= 0.
Proof.
  intros H Hx Hc. destruct (Rle_lt_dec h 0) as [|Hh]; [assumption|exfalso].
  specialize (H (x + 2 * c / h)). assert (0 < 2 * c / h) by (apply Rdiv_lt_0_compat; lra). specialize (H ltac:(lra)).
  assert (c / (x + 2 * c / h) < c / (2 * c / h)) by (apply Rmult_lt_compat_l; [lra|]; apply Rinv_lt_contravar; [apply Rmult_lt_0_compat; lra|lra]).
  replace (c / (2 * c / h)) with (h / 2) in * by (field; lra). lra.
Qed.
Lemma change_monotone q den x y : (forall z, 200 <= z -> 0 <= euler_slope q den z) -> 200 <= x <= y -> euler_change q den x <= euler_change q den y.
Proof.
  intros H Hxy. destruct (MVT_gen (euler_change q den) x y (euler_slope q den)) as (c & Hc & E).
  - intros z Hz. apply euler_change_derive. rewrite Rmin_left, Rmax_right in Hz by lra. lra.
  - intros z Hz. rewrite Rmin_left, Rmax_right in Hz by lra. apply derivable_continuous_pt. exists (euler_slope q den z).
    apply is_derive_Reals, euler_change_derive. lra.
  - rewrite Rmin_left, Rmax_right in Hc by lra. pose proof (Rmult_le_pos _ (y - x) (H c ltac:(lra)) ltac:(lra)). lra.
Qed.
Lemma euler_hi_step x : 200 <= x -> euler_change euler_hi euler_hi_den x <= 0.
Proof.
  intros Hx. assert (Hd : 0 < IZR euler_hi_den) by (unfold euler_hi_den; lra). apply (far_nonpos 3 x); [|lra|lra]. intros y Hy.
  destruct euler_small as (S1 & S2 & _). pose proof (euler_vanishes euler_hi euler_hi_den y Hd S1 S2 ltac:(lra)).
  assert (euler_change euler_hi euler_hi_den x <= euler_change euler_hi euler_hi_den y); [|lra].
  apply change_monotone; [|lra]. intros z Hz. pose proof (check_nonneg _ (z - 200) euler_hi_check ltac:(lra)) as C.
  rewrite euler_terms_value in C by lra. replace (200 + (z - 200)) with z in C by ring.
  destruct (Rle_lt_dec 0 (euler_slope euler_hi euler_hi_den z)) as [|Hn]; [assumption|].
  pose proof (Rmult_lt_compat_l _ _ _ Hd Hn). lra.
Qed.
Lemma euler_lo_step x : 200 <= x -> 0 <= euler_change euler_lo euler_lo_den x.
Proof.
  intros Hx. assert (Hd : 0 < IZR euler_lo_den) by (unfold euler_lo_den; lra).
  cut (- euler_change euler_lo euler_lo_den x <= 0); [lra|]. apply (far_nonpos 3 x); [|lra|lra]. intros y Hy.
  destruct euler_small as (_ & _ & S1 & S2). pose proof (euler_vanishes euler_lo euler_lo_den y Hd S1 S2 ltac:(lra)).
  assert (euler_change euler_lo euler_lo_den y <= euler_change euler_lo euler_lo_den x); [|lra].
  destruct (MVT_gen (euler_change euler_lo euler_lo_den) x y (euler_slope euler_lo euler_lo_den)) as (c & Hc & E).
  - intros z Hz. apply euler_change_derive. rewrite Rmin_left, Rmax_right in Hz by lra. lra.
  - intros z Hz. rewrite Rmin_left, Rmax_right in Hz by lra. apply derivable_continuous_pt. exists (euler_slope euler_lo euler_lo_den z).
    apply is_derive_Reals, euler_change_derive. lra.
  - rewrite Rmin_left, Rmax_right in Hc by lra. pose proof (check_nonneg _ (c - 200) euler_lo_check ltac:(lra)) as C.
    rewrite euler_terms_value, slope_sign, opp_IZR in C by (rewrite ?opp_IZR; lra). replace (200 + (c - 200)) with c in C by ring.
    assert (euler_slope euler_lo euler_lo_den c <= 0).
    { destruct (Rle_lt_dec (euler_slope euler_lo euler_lo_den c) 0) as [|Hn]; [assumption|].
      pose proof (Rmult_lt_0_compat _ _ Hd Hn). lra. }
    pose proof (Rmult_le_compat_r (y - x) _ 0 ltac:(lra) H0). lra.
Qed.
Definition harmonic (n : nat) : R := sum_f_R0 (fun k => / INR (S k)) n.
Fixpoint harmonic_acc (n : nat) : Z := match n with O => 10 ^ 100 | S n' => harmonic_acc n' + 10 ^ 100 / (Z.of_nat n + 1) end%Z.
Lemma harmonic_acc_spec n : IZR (harmonic_acc n) <= IZR (10 ^ 100) * harmonic n <= IZR (harmonic_acc n + Z.of_nat n).
Proof.
  induction n as [|n IH].
  - cbn [harmonic_acc sum_f_R0 harmonic INR Z.of_nat]. rewrite Z.add_0_r, Rinv_1, Rmult_1_r. lra.
  - unfold harmonic in *. cbn [harmonic_acc sum_f_R0]. set (k := (Z.of_nat (S n) + 1)%Z).
    assert (E : INR (S (S n)) = IZR k) by (unfold k; rewrite INR_IZR_INZ; f_equal; lia).
    rewrite E, Rmult_plus_distr_l. pose proof (floor_bounds k) as H. specialize (H ltac:(lia)).
    rewrite plus_IZR in IH. rewrite !plus_IZR, Nat2Z.inj_succ, succ_IZR. lra.
Qed.
Lemma harmonic_step d : harmonic (199 + S d) = harmonic (199 + d) + / (200 + INR d + 1).
Proof.
  rewrite Nat.add_succ_r. unfold harmonic. cbn [sum_f_R0]. f_equal. f_equal.
  rewrite !S_INR, plus_INR, (INR_IZR_INZ 199). change (Z.of_nat 199) with 199%Z. lra.
Qed.
Lemma euler_hi_bound d : harmonic (199 + d) - ln (200 + INR d) + approx euler_hi euler_hi_den (200 + INR d) <=
  harmonic 199 - ln 200 + approx euler_hi euler_hi_den 200.
Proof.
  induction d as [|d IH]; [cbn [INR]; rewrite Nat.add_0_r, Rplus_0_r; lra|]. rewrite harmonic_step, S_INR. pose proof (pos_INR d).
  pose proof (euler_hi_step (200 + INR d) ltac:(lra)) as H1. unfold euler_change in H1. rewrite <- (Rplus_assoc 200). lra.
Qed.
Lemma euler_lo_bound d : harmonic 199 - ln 200 + approx euler_lo euler_lo_den 200 <=
  harmonic (199 + d) - ln (200 + INR d) + approx euler_lo euler_lo_den (200 + INR d).
Proof.
  induction d as [|d IH]; [cbn [INR]; rewrite Nat.add_0_r, Rplus_0_r; lra|]. rewrite harmonic_step, S_INR. pose proof (pos_INR d).
  pose proof (euler_lo_step (200 + INR d) ltac:(lra)) as H1. unfold euler_change in H1. rewrite <- (Rplus_assoc 200). lra.
Qed.
Lemma index_200 n : INR (S (199 + n)) = 200 + INR n.
Proof. rewrite S_INR, plus_INR, (INR_IZR_INZ 199). change (Z.of_nat 199) with 199%Z. lra. Qed.
Theorem constants_euler : forall x, Un_cv (fun n => sum_f_R0 (fun k => / INR (S k)) n - ln (INR (S n))) x -> correct euler_v x.
Proof.
  intros x Hx. change (Un_cv (fun n => harmonic n - ln (INR (S n))) x) in Hx.
  assert (Hhi : x <= harmonic 199 + (approx euler_hi euler_hi_den 200 - ln 200)).
  { apply (cv_le _ _ _ Hx). intros n. exists (199 + n)%nat. split; [lia|]. cbv beta. rewrite index_200.
    pose proof (euler_hi_bound n). pose proof (pos_INR n). destruct euler_small as (S1 & _).
    assert (A : - / (200 + INR n) <= approx euler_hi euler_hi_den (200 + INR n)).
    { pose proof (approx_small (neg euler_hi) euler_hi_den 200 (INR n) ltac:(unfold euler_hi_den; lra) ltac:(lra)
        ltac:(vm_cast_no_check (eq_refl true)) ltac:(lra)) as A. unfold approx in *. rewrite neg_eval in A. lra. }
    pose proof (inv_small n 200 ltac:(lra)). lra. }
  assert (Hlo : harmonic 199 + (approx euler_lo euler_lo_den 200 - ln 200) <= x).
  { apply (cv_ge _ _ _ Hx). intros n. exists (199 + n)%nat. split; [lia|]. cbv beta. rewrite index_200.
    pose proof (euler_lo_bound n). pose proof (pos_INR n).
    pose proof (approx_nonneg (neg euler_lo) euler_lo_den 200 (INR n) ltac:(unfold euler_lo_den; lra) euler_lo_sign ltac:(lra)) as A.
    unfold approx in *. rewrite neg_eval in A.
    pose proof (Rinv_0_lt_compat (INR (S n)) (lt_0_INR _ (Nat.lt_0_succ n))). lra. }
  pose proof (harmonic_acc_spec 199) as Hacc. literals Hacc.
  set (s := harmonic 199) in *. clearbody s. unfold approx in *. cbn [peval euler_hi euler_lo] in Hhi, Hlo. unfold euler_hi_den, euler_lo_den in *.
  match type of Hhi with _ <= _ + ?a => interval_intro a with (i_prec 500) as Ha; set (y := a) in *; clearbody y end.
  match type of Hlo with _ + ?b <= _ => interval_intro b with (i_prec 500) as Hb; set (z := b) in *; clearbody z end.
  unfold correct, val. cbn [mantissa scale euler_v]. change (Z.to_nat 79) with 79%nat.
  apply Rabs_def1; lra.
Qed.

(** * The limits exist *)
Example constants_zeta_three_ex : exists x, infinite_sum (fun n => / INR (S n) ^ 3) x.
Proof.
  assert (P : forall n, 0 < / INR (S n) ^ 3) by (intros n; apply Rinv_0_lt_compat, pow_lt, lt_0_INR, Nat.lt_0_succ).
  destruct (growing_cv (sum_f_R0 (fun n => / INR (S n) ^ 3))) as [x Hx]; [| |exists x; exact Hx].
  - intros n. cbn [sum_f_R0]. pose proof (P (S n)). lra.
  - exists (sum_f_R0 (fun k => / INR (S k) ^ 3) 199 + approx zeta_hi zeta_hi_den 200). intros y [n ->].
    pose proof (zeta_hi_bound n) as H.
    pose proof (approx_nonneg zeta_hi zeta_hi_den 200 (INR n) ltac:(unfold zeta_hi_den; lra) zeta_hi_sign (pos_INR n)).
    apply (Rle_trans _ (sum_f_R0 (fun k => / INR (S k) ^ 3) (199 + n))); [|lra].
    rewrite Nat.add_comm. generalize 199%nat. intros m. induction m as [|m IH]; [rewrite Nat.add_0_r; lra|].
    rewrite Nat.add_succ_r. cbn [sum_f_R0]. pose proof (P (S (n + m))). lra.
Qed.
Example constants_catalan_ex : exists x, infinite_sum (fun n => (-1) ^ n / (2 * INR n + 1) ^ 2) x.
Proof.
  destruct (alternated_series (fun n => / (2 * INR n + 1) ^ 2)) as [x Hx]; [| |exists x; exact Hx].
  - intros n. pose proof (pos_INR n). apply Rinv_le_contravar; [apply pow_lt; lra|]. apply pow_incr. rewrite S_INR. lra.
  - intros e He. destruct (archimed_cor1 e He) as (N & HN & HN0). exists N. intros n Hn.
    unfold R_dist. pose proof (pos_INR n). assert (0 < (2 * INR n + 1) ^ 2) by (apply pow_lt; lra).
    rewrite Rminus_0_r, Rabs_pos_eq by (apply Rlt_le, Rinv_0_lt_compat; assumption).
    eapply Rle_lt_trans; [|exact HN]. pose proof (le_INR _ _ Hn) as HnN. apply Rinv_le_contravar; [apply lt_0_INR; exact HN0|]. nra.
Qed.
Example constants_euler_ex : exists x, Un_cv (fun n => sum_f_R0 (fun k => / INR (S k)) n - ln (INR (S n))) x.
Proof.
  assert (Hl : forall n, / INR (S (S n)) <= ln (INR (S (S n))) - ln (INR (S n)) <= / INR (S n)).
  { intros n. pose proof (pos_INR n). set (z := INR (S n)). assert (Hz : 1 <= z) by (unfold z; rewrite S_INR; lra).
    replace (INR (S (S n))) with (z + 1) by (unfold z; rewrite (S_INR (S n)); reflexivity). split.
    - assert (L : ln (z / (z + 1)) <= - / (z + 1)).
      { rewrite <- (ln_exp (- / (z + 1))). apply Rcomplements.ln_le; [apply Rdiv_lt_0_compat; lra|].
        replace (z / (z + 1)) with (1 + - / (z + 1)) by (field; lra). apply exp_ineq1_le. }
      rewrite ln_div in L by lra. lra.
    - rewrite <- ln_div by lra. rewrite <- (ln_exp (/ z)). apply Rcomplements.ln_le; [apply Rdiv_lt_0_compat; lra|].
      replace ((z + 1) / z) with (1 + / z) by (field; lra). apply exp_ineq1_le. }
  destruct (decreasing_cv (fun n => sum_f_R0 (fun k => / INR (S k)) n - ln (INR (S n)))) as [x Hx]; [| |exists x; exact Hx].
  - intros n. cbn [sum_f_R0]. pose proof (Hl n). lra.
  - exists 0. intros y [n ->]. unfold opp_seq. assert (H : ln (INR (S (S n))) <= sum_f_R0 (fun k => / INR (S k)) n).
    { induction n as [|n IH]; [cbn [sum_f_R0]; pose proof (Hl 0%nat) as H; cbn [INR] in *; rewrite ln_1 in H; lra|].
      cbn [sum_f_R0]. pose proof (Hl (S n)). lra. }
    assert (ln (INR (S n)) <= ln (INR (S (S n)))).
    { apply Rcomplements.ln_le; [apply lt_0_INR, Nat.lt_0_succ|apply le_INR; lia]. }
    lra.
Qed.

Definition series_theorems := (@constants_zeta_three, @constants_catalan, @constants_euler).
Print Assumptions series_theorems.
