(** Vector functions on float and double. *)
From stdpp Require Import list.
From Coq Require Import ZArith Lia Reals Lra Psatz.
From Flocq Require Import Core BinarySingleNaN Relative Plus_error Div_sqrt_error.
From Verif Require Import VecModel VecSpec VecProofs FloatModel.
Local Open Scope R_scope.

(** * Specification *)
(** The sum of real numbers *)
Definition total (l : list R) : R := foldr Rplus 0 l.

Section float.
Context (prec emax : Z) {Hprec : Prec_gt_0 prec} {Hmax : Prec_lt_emax prec emax}.
Local Notation F := (binary_float prec emax).
Local Notation N := (fnum prec emax).
Local Notation finite := (λ x : F, is_finite x = true).
Local Notation val := (B2R (prec:=prec) (emax:=emax)).
(** The unit roundoff, and half of the smallest positive number *)
Definition u : R := bpow radix2 (- prec).
Definition eta : R := bpow radix2 (2 - emax - prec).

(** * Single operations *)
Local Notation fexp := (SpecFloat.fexp prec emax).
Local Notation rnd := (round radix2 fexp ZnearestE).
Lemma u_pos : 0 < u. Proof. apply bpow_gt_0. Qed.
Lemma eta_pos : 0 < eta. Proof. apply bpow_gt_0. Qed.
Lemma u_eq : / 2 * bpow radix2 (- prec + 1) = u.
Proof. unfold u. rewrite bpow_plus. simpl. lra. Qed.
Lemma eta_eq : / 2 * bpow radix2 (SpecFloat.emin prec emax) = eta.
Proof. unfold eta, SpecFloat.emin. replace (3 - emax - prec)%Z with (2 - emax - prec + 1)%Z by lia. rewrite bpow_plus. simpl. lra. Qed.
Lemma rnd_mult x : ∃ d e, Rabs d <= u ∧ Rabs e <= eta ∧ rnd x = x * (1 + d) + e.
Proof.
  destruct (error_N_FLT radix2 (SpecFloat.emin prec emax) prec Hprec (λ t, negb (Z.even t)) x) as (d & e & Hd & He & _ & E).
  rewrite u_eq in Hd. rewrite eta_eq in He. exists d, e. done.
Qed.
Lemma rnd_plus x y : generic_format radix2 fexp x → generic_format radix2 fexp y → ∃ d, Rabs d <= u ∧ rnd (x + y) = (x + y) * (1 + d).
Proof.
  intros Hx Hy. destruct (FLT_plus_error_N_ex radix2 (SpecFloat.emin prec emax) prec (λ t, negb (Z.even t)) x y Hx Hy) as (d & Hd & E).
  exists d. split; [|exact E]. eapply Rle_trans; [exact Hd|]. unfold u_ro. rewrite u_eq. pose proof u_pos.
  rewrite <- (Rmult_1_r u) at 3. unfold Rdiv. apply Rmult_le_compat_l; [lra|]. rewrite <- Rinv_1. apply Rinv_le_contravar; lra.
Qed.
Lemma plus_finite (x y : F) : finite (Bplus mode_NE x y) → finite x ∧ finite y ∧ val (Bplus mode_NE x y) = rnd (val x + val y).
Proof.
  intros H. assert (Hxy : finite x ∧ finite y).
  { destruct x as [sx|sx| |sx mx ex Hx], y as [sy|sy| |sy my ey Hy]; try (split; reflexivity); try discriminate;
      try (destruct sx, sy; discriminate). }
  destruct Hxy as [Hx Hy]. split; [exact Hx|]. split; [exact Hy|]. pose proof (Bplus_correct prec emax _ _ mode_NE x y Hx Hy) as C.
  destruct (Rlt_bool _ _); [apply C|]. destruct C as [C _]. exfalso.
  assert (S : is_finite_SF (B2SF (Bplus mode_NE x y)) = true) by (rewrite is_finite_SF_B2SF; exact H). rewrite C in S. discriminate.
Qed.
Lemma mult_finite (x y : F) : finite (Bmult mode_NE x y) → finite x ∧ finite y ∧ val (Bmult mode_NE x y) = rnd (val x * val y).
Proof.
  intros H. assert (Hxy : finite x ∧ finite y).
  { destruct x as [sx|sx| |sx mx ex Hx], y as [sy|sy| |sy my ey Hy]; try (split; reflexivity); try discriminate. }
  destruct Hxy as [Hx Hy]. split; [exact Hx|]. split; [exact Hy|]. pose proof (Bmult_correct prec emax _ _ mode_NE x y) as C.
  destruct (Rlt_bool _ _); [apply C|]. exfalso.
  assert (S : is_finite_SF (B2SF (Bmult mode_NE x y)) = true) by (rewrite is_finite_SF_B2SF; exact H). rewrite C in S. discriminate.
Qed.
Lemma plus_safe (x y : F) : finite x → finite y → Rabs (rnd (val x + val y)) < bpow radix2 emax → finite (Bplus mode_NE x y).
Proof.
  intros Hx Hy H. pose proof (Bplus_correct prec emax _ _ mode_NE x y Hx Hy) as C. rewrite Rlt_bool_true in C by exact H. apply C.
Qed.
Lemma mult_safe (x y : F) : finite x → finite y → Rabs (rnd (val x * val y)) < bpow radix2 emax → finite (Bmult mode_NE x y).
Proof.
  intros Hx Hy H. pose proof (Bmult_correct prec emax _ _ mode_NE x y) as C. rewrite Rlt_bool_true in C by exact H.
  destruct C as (_ & C & _). cbv beta. rewrite C, Hx, Hy. reflexivity.
Qed.
Lemma val_format (x : F) : generic_format radix2 fexp (val x).
Proof. apply generic_format_B2R. Qed.
Lemma rnd_val (x : F) : rnd (val x) = val x.
Proof. apply round_generic; [apply valid_rnd_N|apply val_format]. Qed.

(** * Sums of products *)
(** The exact sum and the sum of the absolute values of f 0, ..., f (n-1) *)
Fixpoint rsum (n : nat) (f : nat → R) : R := match n with 0%nat => 0 | S n' => rsum n' f + f n' end.
Lemma rsum_abs n f : Rabs (rsum n f) <= rsum n (λ k, Rabs (f k)).
Proof. induction n as [|n IH]; [simpl; rewrite Rabs_R0; lra|]. simpl. eapply Rle_trans; [apply Rabs_triang|]. lra. Qed.
Lemma rsum_abs_nonneg n f : 0 <= rsum n (λ k, Rabs (f k)).
Proof. eapply Rle_trans; [apply Rabs_pos|apply rsum_abs]. Qed.
Lemma pow_u n : 1 <= (1 + u) ^ n.
Proof. pose proof u_pos. apply pow_R1_Rle. lra. Qed.
Lemma abs_le a b : - b <= a <= b → Rabs a <= b.
Proof. intros. apply Rabs_le. lra. Qed.
Lemma abs_sum4 a b c d : Rabs (a + (b + (c + d))) <= Rabs a + (Rabs b + (Rabs c + Rabs d)).
Proof. pose proof (Rabs_triang a (b + (c + d))). pose proof (Rabs_triang b (c + d)). pose proof (Rabs_triang c d). lra. Qed.
Definition prods (x y : nat → F) : nat → F := λ k, Bmult mode_NE (x k) (y k).
Lemma sum_error x y n : finite (sum N n (prods x y)) →
  (∀ k, (k < n)%nat → finite (x k) ∧ finite (y k)) ∧
  Rabs (val (sum N n (prods x y)) - rsum n (λ k, val (x k) * val (y k))) <=
    ((1 + u) ^ n - 1) * rsum n (λ k, Rabs (val (x k) * val (y k))) + INR n * (1 + u) ^ n * eta.
Proof.
  pose proof u_pos as Hu. pose proof eta_pos as He. induction n as [|n IH]; intros Hf.
  - split; [intros; lia|]. simpl. rewrite Rabs_pos_eq; lra.
  - cbn [sum] in Hf |- *. cbn [nadd fnum] in Hf |- *. destruct (plus_finite _ _ Hf) as (Hs & Hp & E). destruct (IH Hs) as [Hk IHb]. clear IH.
    destruct (mult_finite _ _ Hp) as (Hx & Hy & Ep). split.
    { intros k Hkn. destruct (decide (k = n)) as [->|]; [done|]. apply Hk. lia. }
    cbn [rsum]. set (p := val (x n) * val (y n)) in *. set (P := rsum n _) in *. set (A := rsum n (λ k, Rabs _)) in *.
    assert (HA : 0 <= A) by apply rsum_abs_nonneg. assert (HP : Rabs P <= A) by apply rsum_abs.
    destruct (rnd_mult p) as (d & e & Hd & Hee & Ed). fold p in Ep. rewrite Ed in Ep. change (Bmult mode_NE (x n) (y n)) with (prods x y n) in Ep. rewrite E.
    destruct n as [|n].
    + simpl sum. cbn [n0 fnum]. cbn [B2R]. rewrite Rplus_0_l.
      rewrite rnd_val, Ep. unfold P, A. cbn [rsum INR]. replace (p * (1 + d) + e - (0 + p)) with (p * d + e) by ring.
      eapply Rle_trans; [apply Rabs_triang|]. rewrite Rabs_mult.
      pose proof (Rmult_le_compat_l _ _ _ (Rabs_pos p) Hd). pose proof (Rmult_le_pos _ _ (Rlt_le _ _ Hu) (Rlt_le _ _ He)). simpl. lra.
    + destruct (rnd_plus (val (sum N (S n) (prods x y))) (val (prods x y (S n))) (val_format _) (val_format _)) as (d' & Hd' & Ed').
      rewrite Ed', Ep. set (s := val (sum N (S n) (prods x y))) in *. clearbody s.
      replace ((s + (p * (1 + d) + e)) * (1 + d') - (P + p)) with ((s - P) * (1 + d') + (P * d' + (p * ((1 + d) * (1 + d') - 1) + e * (1 + d')))) by ring.
      set (m := S n) in *. pose proof (pow_u m) as Hm.
      assert (B1 : Rabs (1 + d') <= 1 + u) by (eapply Rle_trans; [apply Rabs_triang|]; rewrite Rabs_R1; lra).
      assert (B2 : Rabs ((1 + d) * (1 + d') - 1) <= (1 + u) ^ 2 - 1).
      { replace ((1 + d) * (1 + d') - 1) with (d + d' * (1 + d)) by ring. eapply Rle_trans; [apply Rabs_triang|]. rewrite Rabs_mult.
        assert (Rabs (1 + d) <= 1 + u) by (eapply Rle_trans; [apply Rabs_triang|]; rewrite Rabs_R1; lra).
        pose proof (Rmult_le_compat _ _ _ _ (Rabs_pos d') (Rabs_pos (1 + d)) Hd' H). simpl. lra. }
      assert (B3 : (1 + u) ^ 2 <= (1 + u) ^ S m) by (apply Rle_pow; [lra|unfold m; lia]).
      eapply Rle_trans; [apply abs_sum4|]. rewrite (Rabs_mult (s - P)), (Rabs_mult P), (Rabs_mult p), (Rabs_mult e).
      eapply Rle_trans.
      { apply Rplus_le_compat; [apply Rmult_le_compat; [apply Rabs_pos|apply Rabs_pos|exact IHb|exact B1]|].
        apply Rplus_le_compat; [apply Rmult_le_compat; [apply Rabs_pos|apply Rabs_pos|exact HP|exact Hd']|].
        apply Rplus_le_compat; [apply Rmult_le_compat; [apply Rabs_pos|apply Rabs_pos|apply Rle_refl|exact B2]|].
        apply Rmult_le_compat; [apply Rabs_pos|apply Rabs_pos|exact Hee|exact B1]. }
      rewrite (S_INR m). change ((1 + u) ^ S m) with ((1 + u) * (1 + u) ^ m) in *. set (q := (1 + u) ^ m) in *. fold p.
      assert (H1 : Rabs p * ((1 + u) ^ 2 - 1) <= Rabs p * ((1 + u) * q - 1)) by (apply Rmult_le_compat_l; [apply Rabs_pos|lra]).
      assert (H2 : eta * (1 + u) <= (1 + u) * q * eta).
      { replace ((1 + u) * q * eta) with (eta * (1 + u) * q) by ring. rewrite <- (Rmult_1_r (eta * (1 + u))) at 1.
        apply Rmult_le_compat_l; [apply Rmult_le_pos; lra|exact Hm]. }
      lra.
Qed.
Lemma sum_safe x y n : (∀ k, (k < n)%nat → finite (x k) ∧ finite (y k)) →
  (1 + u) ^ n * (rsum n (λ k, Rabs (val (x k) * val (y k))) + INR n * eta) < bpow radix2 emax →
  finite (sum N n (prods x y)) ∧
  Rabs (val (sum N n (prods x y))) <= (1 + u) ^ n * (rsum n (λ k, Rabs (val (x k) * val (y k))) + INR n * eta).
Proof.
  pose proof u_pos as Hu. pose proof eta_pos as He. induction n as [|n IH]; intros Hk Hb.
  - split; [reflexivity|]. simpl. rewrite Rabs_R0. lra.
  - cbn [rsum] in Hb |- *. set (p := val (x n) * val (y n)) in *. set (A := rsum n (λ k, Rabs _)) in *.
    assert (HA : 0 <= A) by apply rsum_abs_nonneg. pose proof (Rabs_pos p) as Hp0. pose proof (pow_u n) as Hq. pose proof (pos_INR n) as Hn.
    change ((1 + u) ^ S n) with ((1 + u) * (1 + u) ^ n) in *. rewrite S_INR in *. set (q := (1 + u) ^ n) in *.
    destruct (rnd_mult p) as (d & e & Hd & Hee & Ed). destruct (Hk n ltac:(lia)) as [Hx Hy].
    assert (H0 : 0 <= q * (A + INR n * eta)) by (apply Rmult_le_pos; [lra|]; pose proof (Rmult_le_pos _ _ Hn (Rlt_le _ _ He)); lra).
    assert (Bp : Rabs (p * (1 + d) + e) <= (1 + u) * Rabs p + eta).
    { eapply Rle_trans; [apply Rabs_triang|]. rewrite Rabs_mult.
      assert (Rabs (1 + d) <= 1 + u) by (eapply Rle_trans; [apply Rabs_triang|]; rewrite Rabs_R1; lra).
      pose proof (Rmult_le_compat_l _ _ _ Hp0 H). lra. }
    assert (Hqp : Rabs p <= q * Rabs p) by (rewrite <- (Rmult_1_l (Rabs p)) at 1; apply Rmult_le_compat_r; lra).
    assert (Hqe : eta <= q * eta) by (rewrite <- (Rmult_1_l eta) at 1; apply Rmult_le_compat_r; lra).
    assert (Hue : 0 <= u * (q * eta)) by (apply Rmult_le_pos; [lra|]; lra).
    assert (Huq : 0 <= u * (q * (A + INR n * eta))) by (apply Rmult_le_pos; lra).
    assert (Hup : 0 <= u * Rabs p) by (apply Rmult_le_pos; lra).
    assert (Huqp : u * Rabs p <= u * (q * Rabs p)) by (apply Rmult_le_compat_l; lra).
    destruct IH as [Hs Hsb]; [intros k Hkn; apply Hk; lia|lra|].
    assert (Hpf : finite (prods x y n)) by (apply mult_safe; [exact Hx|exact Hy|]; fold p; rewrite Ed; lra).
    destruct (mult_finite _ _ Hpf) as (_ & _ & Ep). fold p in Ep. rewrite Ed in Ep.
    change (Bmult mode_NE (x n) (y n)) with (prods x y n) in Ep. cbn [sum nadd fnum].
    assert (Hr : Rabs (rnd (val (sum N n (prods x y)) + val (prods x y n))) <= (1 + u) * q * (A + Rabs p + (INR n + 1) * eta)).
    { destruct n as [|n].
      - simpl sum. cbn [n0 fnum B2R]. rewrite Rplus_0_l, rnd_val, Ep. change (INR 0) with 0 in *. lra.
      - destruct (rnd_plus _ _ (val_format (sum N (S n) (prods x y))) (val_format (prods x y (S n)))) as (d' & Hd' & ->).
        rewrite Rabs_mult. assert (B1 : Rabs (1 + d') <= 1 + u) by (eapply Rle_trans; [apply Rabs_triang|]; rewrite Rabs_R1; lra).
        assert (Bq : (1 + u) * Rabs p <= q * Rabs p).
        { apply Rmult_le_compat_r; [lra|]. unfold q. rewrite <- (pow_1 (1 + u)) at 1. apply Rle_pow; [lra|lia]. }
        eapply Rle_trans; [apply Rmult_le_compat; [apply Rabs_pos|apply Rabs_pos| |exact B1]|].
        + eapply Rle_trans; [apply Rabs_triang|]. rewrite Ep. apply Rplus_le_compat; [exact Hsb|exact Bp].
        + replace ((1 + u) * q * (A + Rabs p + (INR (S n) + 1) * eta)) with ((q * (A + INR (S n) * eta) + (q * Rabs p + q * eta)) * (1 + u)) by ring.
          apply Rmult_le_compat_r; lra. }
    assert (Hfin : finite (Bplus mode_NE (sum N n (prods x y)) (prods x y n))).
    { apply plus_safe; [exact Hs|exact Hpf|]. eapply Rle_lt_trans; [exact Hr|exact Hb]. }
    split; [exact Hfin|]. destruct (plus_finite _ _ Hfin) as (_ & _ & ->). exact Hr.
Qed.

(** * From lists to sums *)
Lemma total_app l k : total (l ++ k) = total l + total k.
Proof. unfold total. induction l as [|a l IH]; simpl; [lra|]. simpl in IH. rewrite IH. lra. Qed.
Lemma rsum_ext n f g : (∀ k, (k < n)%nat → f k = g k) → rsum n f = rsum n g.
Proof. intros H. induction n as [|n IH]; [done|]. simpl. rewrite IH, H by (intros; try apply H; lia). done. Qed.
Lemma rsum_total (l : list R) : rsum (length l) (λ k, default 0 (l !! k)) = total l.
Proof.
  induction l as [|a l IH] using rev_ind; [done|]. rewrite app_length, Nat.add_1_r. cbn [rsum]. rewrite total_app.
  rewrite lookup_app_r, Nat.sub_diag by lia. simpl. rewrite Rplus_0_r. f_equal. rewrite <- IH. apply rsum_ext.
  intros k Hk. rewrite lookup_app_l by done. done.
Qed.
Lemma comp_lookup (v : list F) k a : v !! k = Some a → comp N v k = a.
Proof. unfold comp. intros ->. done. Qed.
Lemma rsum_zip (g : R → R) (v w : list F) : length v = length w →
  rsum (length v) (λ k, g (val (comp N v k) * val (comp N w k))) = total (zip_with (λ a b, g (val a * val b)) v w).
Proof.
  intros L. rewrite <- rsum_total, zip_with_length, <- L, Nat.min_id. apply rsum_ext. intros k Hk.
  destruct (lookup_lt_is_Some_2 v k Hk) as [a Ha]. destruct (lookup_lt_is_Some_2 w k ltac:(lia)) as [b Hb].
  rewrite lookup_zip_with, Ha. simpl. rewrite Hb. simpl. by rewrite (comp_lookup v k a Ha), (comp_lookup w k b Hb).
Qed.

(** * dot *)
(** Whenever the result is a number, its distance to the exact dot product is within
    the bound known from numerical analysis. The second term is for products that
    underflow. *)
Theorem dot_float_error : ∀ v w s, dot N v w = Some s → finite s →
  Rabs (val s - total (zip_with (λ a b, val a * val b) v w)) <=
    ((1 + u) ^ length v - 1) * total (zip_with (λ a b, Rabs (val a * val b)) v w) + INR (length v) * (1 + u) ^ length v * eta.
Proof.
  intros v w s Hd Hf. destruct (decide (length v = length w)) as [L|L].
  - rewrite dot_eq in Hd by done. injection Hd as <-. destruct (sum_error (comp N v) (comp N w) (length v) Hf) as [_ H].
    rewrite (rsum_zip (λ x, x)), (rsum_zip Rabs) in H by done. exact H.
  - unfold dot in Hd. apply Nat.eqb_neq in L. rewrite L in Hd. discriminate.
Qed.
(** The result is a number if the exact products are not too large. *)
Theorem dot_float_finite : ∀ v w, length v = length w → Forall finite v → Forall finite w →
  (1 + u) ^ length v * (total (zip_with (λ a b, Rabs (val a * val b)) v w) + INR (length v) * eta) < bpow radix2 emax →
  ∃ s, dot N v w = Some s ∧ finite s.
Proof.
  intros v w L Hv Hw Hb. rewrite dot_eq by done. eexists. split; [done|].
  apply (sum_safe (comp N v) (comp N w) (length v)).
  - intros k Hk. rewrite Forall_lookup in Hv, Hw.
    destruct (lookup_lt_is_Some_2 v k Hk) as [a Ha]. destruct (lookup_lt_is_Some_2 w k ltac:(lia)) as [b Hb'].
    rewrite (comp_lookup v k a Ha), (comp_lookup w k b Hb'). split; [by apply (Hv k)|by apply (Hw k)].
  - rewrite (rsum_zip Rabs) by done. exact Hb.
Qed.

(** * length *)
(** The two functions agree: 0 + x * x is x * x. *)
Lemma zero_plus_square (x : F) : Bplus mode_NE (B754_zero false) (Bmult mode_NE x x) = Bmult mode_NE x x.
Proof.
  assert (H : Bmult mode_NE x x ≠ B754_zero true).
  { intros E. pose proof (Bmult_correct prec emax _ _ mode_NE x x) as C. destruct (Rlt_bool _ _).
    - destruct C as (_ & _ & C). rewrite E in C. specialize (C eq_refl). cbn in C. destruct (Bsign x); discriminate.
    - rewrite E in C. cbn in C. destruct (Bsign x); discriminate. }
  destruct (Bmult mode_NE x x) as [[|]|[|]| |[|]]; try done.
Qed.
Lemma vlength_length (v : list F) : v ≠ [] → vlength N (fsqrt prec emax) v = length_ N (fsqrt prec emax) v.
Proof.
  intros Hv. unfold length_. rewrite dot_eq by done. simpl.
  assert (Hn : vecn_length N (fsqrt prec emax) v = Some (fsqrt prec emax (sum N (length v) (λ i, nmul N (comp N v i) (comp N v i))))).
  { unfold vecn_length. rewrite (for_sum N _ (λ i, nmul N (comp N v i) (comp N v i))).
    - done.
    - intros i acc Hi. rewrite !(index_comp N) by done. done. }
  destruct v as [|x [|y [|z [|w [|]]]]]; try done; unfold vlength; try exact Hn;
    cbn [length sum]; unfold comp; cbn [lookup list_lookup default nadd nmul n0 fnum]; rewrite zero_plus_square; reflexivity.
Qed.
Lemma sqrt_finite (d : F) : (1 < prec)%Z → finite (Bsqrt mode_NE d) → finite d ∧ 0 <= val d ∧ ∃ e, Rabs e <= u ∧ val (Bsqrt mode_NE d) = R_sqrt.sqrt (val d) * (1 + e).
Proof.
  intros Hp1 H. destruct (Bsqrt_correct prec emax _ _ mode_NE d) as (E & Ef & _). cbv beta in H. rewrite Ef in H.
  assert (Hd : finite d ∧ 0 <= val d).
  { destruct d as [s|s| |[|] m e Hm]; try discriminate; split; try reflexivity; cbn [B2R]; [lra|].
    apply F2R_ge_0. simpl. lia. }
  split; [apply Hd|]. split; [apply Hd|].
  destruct (sqrt_error_N_FLT_ex radix2 prec (λ t, negb (Z.even t)) Hp1 (SpecFloat.emin prec emax)) with (x := val d) as (e & He & Ee).
  - unfold SpecFloat.emin. unfold Prec_lt_emax in Hmax. lia.
  - apply val_format.
  - exists e. split.
    + eapply Rle_trans; [exact He|]. unfold u_ro. rewrite u_eq. pose proof u_pos as Hu.
      assert (Hs : R_sqrt.sqrt (1 + 2 * u) <= 1 + u).
      { rewrite <- (sqrt_Rsqr (1 + u)) by lra. apply sqrt_le_1_alt. unfold Rsqr. pose proof (Rmult_le_pos u u). lra. }
      assert (Hp : 0 < R_sqrt.sqrt (1 + 2 * u)) by (apply sqrt_lt_R0; lra).
      assert (1 - u <= 1 / R_sqrt.sqrt (1 + 2 * u)); [|lra]. unfold Rdiv. rewrite Rmult_1_l.
      apply (Rmult_le_reg_r (R_sqrt.sqrt (1 + 2 * u))); [exact Hp|]. rewrite Rinv_l by lra.
      destruct (Rle_lt_dec (1 - u) 0); [pose proof (Rmult_le_compat_neg_l (1 - u) 0 (R_sqrt.sqrt (1 + 2 * u))); nra|]. nra.
    + rewrite E. exact Ee.
Qed.
(** The sum of the squares *)
Definition squares (v : list F) : R := total (map (λ a, val a * val a) v).
Lemma squares_zip v : total (zip_with (λ a b, val a * val b) v v) = squares v.
Proof. unfold squares. f_equal. induction v as [|a v IH]; simpl; [done|]. by f_equal. Qed.
Lemma squares_zip_abs v : total (zip_with (λ a b, Rabs (val a * val b)) v v) = squares v.
Proof.
  unfold squares. f_equal. induction v as [|a v IH]; simpl; [done|]. f_equal; [|done]. apply Rabs_pos_eq. apply Rle_0_sqr.
Qed.
Lemma squares_nonneg v : 0 <= squares v.
Proof.
  unfold squares, total. induction v as [|a v IH]; simpl; [lra|]. pose proof (Rle_0_sqr (val a)) as H. unfold Rsqr in H. simpl in IH. lra.
Qed.
Lemma squares_ge v i a : v !! i = Some a → val a * val a <= squares v.
Proof.
  unfold squares. revert i. induction v as [|b v IH]; intros i Hi; [done|]. unfold total in *. simpl. destruct i as [|i].
  - injection Hi as ->. pose proof (squares_nonneg v) as H. unfold squares, total in H. lra.
  - specialize (IH i Hi). pose proof (Rle_0_sqr (val b)) as H. unfold Rsqr in H. lra.
Qed.
Lemma root_error (x s : R) : 0 <= x → 0 < s → Rabs (R_sqrt.sqrt x - R_sqrt.sqrt s) <= Rabs (x - s) / R_sqrt.sqrt s.
Proof.
  intros Hx Hs. pose proof (sqrt_pos x) as H1. pose proof (sqrt_lt_R0 s Hs) as H2.
  pose proof (sqrt_sqrt x Hx) as E1. pose proof (sqrt_sqrt s (Rlt_le _ _ Hs)) as E2.
  assert (E : x - s = (R_sqrt.sqrt x - R_sqrt.sqrt s) * (R_sqrt.sqrt x + R_sqrt.sqrt s)) by (rewrite <- E1 at 1; rewrite <- E2 at 1; ring).
  apply (Rmult_le_reg_r (R_sqrt.sqrt s)); [exact H2|]. unfold Rdiv. rewrite Rmult_assoc, Rinv_l, Rmult_1_r by lra.
  rewrite E, Rabs_mult, (Rabs_pos_eq (R_sqrt.sqrt x + R_sqrt.sqrt s)) by lra. apply Rmult_le_compat_l; [apply Rabs_pos|lra].
Qed.
(** The root of a number that is close to the sum of squares [S] *)
Lemma length_bound (d : F) S n : (1 < prec)%Z → finite (Bsqrt mode_NE d) → 0 < S →
  (finite d → Rabs (val d - S) <= ((1 + u) ^ n - 1) * S + INR n * (1 + u) ^ n * eta) →
  Rabs (val (Bsqrt mode_NE d) - R_sqrt.sqrt S) <=
    ((1 + u) ^ (n + 1) - 1) * R_sqrt.sqrt S + INR n * (1 + u) ^ (n + 1) * eta / R_sqrt.sqrt S.
Proof.
  intros Hp1 Hf Hs B. destruct (sqrt_finite d Hp1 Hf) as (Hdf & Hd0 & e & He & E). rewrite E. specialize (B Hdf).
  pose proof (root_error (val d) S Hd0 Hs) as Hr. set (L := R_sqrt.sqrt S) in *.
  assert (HL : 0 < L) by (apply sqrt_lt_R0, Hs). assert (EL : L * L = S) by (apply sqrt_sqrt; lra).
  rewrite pow_add, pow_1. pose proof (pow_u n) as Hq. set (q := (1 + u) ^ n) in *. set (c := INR n) in *.
  assert (Hc : 0 <= c) by apply pos_INR. pose proof u_pos as Hu. pose proof eta_pos as Het.
  assert (Hr2 : Rabs (R_sqrt.sqrt (val d) - L) <= (q - 1) * L + c * q * eta / L).
  { eapply Rle_trans; [exact Hr|]. rewrite <- EL in B. rewrite <- EL. unfold Rdiv.
    replace ((q - 1) * L + c * q * eta * / L) with (((q - 1) * (L * L) + c * q * eta) * / L) by (field; lra).
    apply Rmult_le_compat_r; [apply Rlt_le, Rinv_0_lt_compat, HL|exact B]. }
  replace (R_sqrt.sqrt (val d) * (1 + e) - L) with ((R_sqrt.sqrt (val d) - L) * (1 + e) + L * e) by ring.
  eapply Rle_trans; [apply Rabs_triang|]. rewrite !Rabs_mult, (Rabs_pos_eq L) by lra.
  assert (B1 : Rabs (1 + e) <= 1 + u) by (eapply Rle_trans; [apply Rabs_triang|]; rewrite Rabs_R1; lra).
  eapply Rle_trans; [apply Rplus_le_compat; [apply Rmult_le_compat; [apply Rabs_pos|apply Rabs_pos|exact Hr2|exact B1]|apply Rmult_le_compat_l; [lra|exact He]]|].
  apply Req_le. field. lra.
Qed.
Theorem length_float_error : ∀ v l, (1 < prec)%Z → length_ N (fsqrt prec emax) v = Some l → finite l → 0 < squares v →
  vlength N (fsqrt prec emax) v = Some l ∧
  Rabs (val l - R_sqrt.sqrt (squares v)) <=
    ((1 + u) ^ (length v + 1) - 1) * R_sqrt.sqrt (squares v) + INR (length v) * (1 + u) ^ (length v + 1) * eta / R_sqrt.sqrt (squares v).
Proof.
  intros v l Hp1 Hl Hf Hs. split.
  { rewrite vlength_length; [done|]. intros ->. unfold squares in Hs. simpl in Hs. lra. }
  unfold length_ in Hl. destruct (dot N v v) as [d|] eqn:Hd; [|discriminate]. simpl in Hl. injection Hl as <-.
  apply length_bound; [done..|]. intros Hdf. pose proof (dot_float_error v v d Hd Hdf) as B. by rewrite squares_zip, squares_zip_abs in B.
Qed.

(** * normalize *)
Lemma ratio_error a b t r : Rabs a <= u → Rabs b <= u → Rabs t <= r → r < 1 → u < 1 →
  Rabs ((1 + a) * (1 + b) / (1 + t) - 1) <= (1 + u) ^ 2 / (1 - r) - 1.
Proof.
  intros Ha Hb Ht Hr Hu. pose proof u_pos as Hu0. apply Rabs_le_inv in Ha, Hb, Ht.
  assert (H1 : (1 - u) * (1 - u) <= (1 + a) * (1 + b) <= (1 + u) * (1 + u)) by (split; apply Rmult_le_compat; lra).
  assert (H2 : / (1 + r) <= / (1 + t) <= / (1 - r)) by (split; apply Rinv_le_contravar; lra).
  assert (H3 : 0 < / (1 + r)) by (apply Rinv_0_lt_compat; lra).
  assert (H4 : (1 - u) * (1 - u) * / (1 + r) <= (1 + a) * (1 + b) * / (1 + t) <= (1 + u) * (1 + u) * / (1 - r)).
  { assert (0 <= (1 - u) * (1 - u)) by (apply Rmult_le_pos; lra). split; apply Rmult_le_compat; lra. }
  unfold Rdiv. replace ((1 + u) ^ 2) with ((1 + u) * (1 + u)) by ring. apply Rabs_le. split; [|lra].
  assert (2 <= (1 + u) * (1 + u) * / (1 - r) + (1 - u) * (1 - u) * / (1 + r)); [|lra].
  assert (0 <= r) by lra. assert (0 <= u * u) by (apply Rmult_le_pos; lra). assert (0 <= u * r) by (apply Rmult_le_pos; lra).
  assert (0 <= r * r) by (apply Rmult_le_pos; lra). assert (r * r < 1) by nra.
  replace ((1 + u) * (1 + u) * / (1 - r) + (1 - u) * (1 - u) * / (1 + r)) with ((2 + 2 * (u * u) + 4 * (u * r)) / (1 - r * r))
    by (field; repeat split; lra).
  apply (Rmult_le_reg_r (1 - r * r)); [lra|]. unfold Rdiv. rewrite Rmult_assoc, Rinv_l, Rmult_1_r by lra. lra.
Qed.
(** The components divided by the root of a number that is close to the sum of squares *)
Lemma normalize_bound : ∀ v (d : F), (1 < prec)%Z → (6 <= emax)%Z → Forall finite v → (1 + u) ^ (length v + 2) <= 3 / 2 →
  v ≠ [] → INR (length v) * bpow radix2 (2 - emax) <= squares v →
  (1 + u) ^ length v * (squares v + INR (length v) * eta) < bpow radix2 emax → finite d →
  Rabs (val d - squares v) <= ((1 + u) ^ length v - 1) * squares v + INR (length v) * (1 + u) ^ length v * eta →
  ∀ i a, v !! i = Some a → let b := Bmult mode_NE a (Bdiv mode_NE Bone (Bsqrt mode_NE d)) in finite b ∧
    Rabs (val b - val a / R_sqrt.sqrt (squares v)) <=
      ((1 + u) ^ 2 / (2 - (1 + u) ^ (length v + 2)) - 1) * (Rabs (val a) / R_sqrt.sqrt (squares v)) + eta.
Proof.
  intros v d Hp1 Hem Hfin Hq32 Hne Hlow Hhigh Hdf B. set (n := length v) in *.
  assert (Hn1 : 1 <= INR n). { apply (le_INR 1). unfold n. destruct v; [done|simpl; lia]. }
  pose proof u_pos as Hu. pose proof eta_pos as Het. pose proof (pow_u n) as Hq.
  assert (Hpos2 : 0 < bpow radix2 (2 - emax)) by apply bpow_gt_0.
  assert (HS : bpow radix2 (2 - emax) <= squares v) by nra. assert (HS0 : 0 < squares v) by lra.
  assert (Heta : eta = u * bpow radix2 (2 - emax)) by (unfold eta, u; rewrite <- bpow_plus; f_equal; lia).
  set (q := (1 + u) ^ n) in *.
  assert (Eq1 : (1 + u) ^ (n + 1) = q * (1 + u)) by (rewrite pow_add, pow_1; reflexivity).
  assert (Eq2 : (1 + u) ^ (n + 2) = q * (1 + u) * (1 + u)) by (rewrite pow_add; unfold q; ring).
  rewrite Eq2 in *. set (r := q * (1 + u) * (1 + u) - 1) in *.
  assert (Hqu : q <= q * (1 + u)) by nra. assert (Hquu : q * (1 + u) <= q * (1 + u) * (1 + u)) by nra. assert (Hr : 0 <= r <= 1 / 2) by (unfold r; lra).
  assert (Hne0 : INR n * eta <= u * squares v) by (rewrite Heta; nra).
  assert (Hd0 : 0 < val d).
  { apply Rabs_le_inv in B. assert (INR n * q * eta <= q * u * squares v) by nra.
    assert ((q - 1) * squares v + q * u * squares v < squares v); [|lra]. assert (q - 1 + q * u < 1) by lra. nra. }
  set (l := Bsqrt mode_NE d).
  assert (Hlf : finite l).
  { unfold l. destruct (Bsqrt_correct prec emax _ _ mode_NE d) as (_ & -> & _). destruct d as [s|s| |[|] m e Hm]; try done.
    exfalso. cbn [B2R] in Hd0. assert (F2R (Float radix2 (SpecFloat.cond_Zopp true (Zpos m)) e) < 0) by (apply F2R_lt_0; simpl; lia). lra. }
  pose proof (length_bound d (squares v) n Hp1 Hlf HS0 (λ _, B)) as B'. clear B. rename B' into B. fold l in B. set (L := R_sqrt.sqrt (squares v)) in *. rewrite Eq1 in B.
  assert (HL : 0 < L) by (apply sqrt_lt_R0, HS0). assert (EL : L * L = squares v) by (apply sqrt_sqrt; lra).
  assert (Bt : Rabs (val l - L) <= r * L).
  { eapply Rle_trans; [exact B|]. assert (INR n * (q * (1 + u)) * eta / L <= q * (1 + u) * u * L).
    { apply (Rmult_le_reg_r L); [exact HL|]. unfold Rdiv. rewrite Rmult_assoc, Rinv_l, Rmult_1_r by lra.
      rewrite (Rmult_assoc (q * (1 + u) * u)), EL. nra. }
    unfold r. lra. }
  set (t := val l / L - 1). assert (Et : val l = L * (1 + t)) by (unfold t; field; lra).
  assert (Ht : Rabs t <= r).
  { replace t with ((val l - L) / L) by (unfold t; field; lra). unfold Rdiv. rewrite Rabs_mult, (Rabs_pos_eq (/ L)) by (apply Rlt_le, Rinv_0_lt_compat, HL).
    apply (Rmult_le_reg_r L); [exact HL|]. rewrite Rmult_assoc, Rinv_l, Rmult_1_r by lra. exact Bt. }
  pose proof Ht as Ht'. apply Rabs_le_inv in Ht'.
  assert (Hl2 : L / 2 <= val l <= 3 / 2 * L) by (rewrite Et; nra).
  (* 1 / l *)
  assert (Hu1 : u <= 1 / 4).
  { unfold u. change (1 / 4) with (1 * / 4). replace (1 * / 4) with (bpow radix2 (-2)) by (simpl; lra). apply bpow_le. lia. }
  assert (HLmax : L <= bpow radix2 (emax - 3)).
  { apply Rsqr_incr_0_var; [|apply bpow_ge_0]. unfold Rsqr. rewrite EL, <- bpow_plus. apply Rle_trans with (bpow radix2 emax); [|apply bpow_le; lia].
    assert (0 <= INR n * eta) by nra. nra. }
  assert (Hinv : bpow radix2 (2 - emax) <= / val l).
  { replace (2 - emax)%Z with (- (emax - 2))%Z by lia. rewrite bpow_opp. apply Rinv_le_contravar; [lra|].
    replace (emax - 2)%Z with (emax - 3 + 1)%Z by lia. rewrite bpow_plus. simpl (bpow radix2 1). lra. }
  destruct (relative_error_N_FLT_ex radix2 (SpecFloat.emin prec emax) prec Hprec (λ t, negb (Z.even t)) (1 / val l)) as (d1 & Hd1 & E1).
  { rewrite Rabs_pos_eq by (unfold Rdiv; rewrite Rmult_1_l; lra). unfold Rdiv. rewrite Rmult_1_l. eapply Rle_trans; [|exact Hinv]. apply bpow_le.
    unfold SpecFloat.emin. lia. }
  rewrite u_eq in Hd1. change (FLT_exp (SpecFloat.emin prec emax) prec) with fexp in E1.
  assert (Hil : / val l <= 2 / L) by (replace (2 / L) with (/ (L / 2)) by (field; lra); apply Rinv_le_contravar; lra).
  assert (Hil0 : 0 < / val l) by (apply Rinv_0_lt_compat; lra).
  assert (B1 : Rabs (1 + d1) <= 1 + u) by (eapply Rle_trans; [apply Rabs_triang|]; rewrite Rabs_R1; lra).
  assert (Hk0 : Rabs (1 / val l * (1 + d1)) <= 5 / 2 / L).
  { rewrite Rabs_mult, (Rabs_pos_eq (1 / val l)) by (unfold Rdiv; lra). apply Rle_trans with (2 / L * (5 / 4)); [|apply Req_le; field; lra].
    apply Rmult_le_compat; [unfold Rdiv; lra|apply Rabs_pos|unfold Rdiv in *; lra|lra]. }
  assert (HLmin : 3 / L < bpow radix2 emax).
  { apply (Rmult_lt_reg_r L); [exact HL|]. unfold Rdiv. rewrite Rmult_assoc, Rinv_l, Rmult_1_r by lra.
    apply Rsqr_incrst_0; [|lra|apply Rmult_le_pos; [apply bpow_ge_0|lra]]. unfold Rsqr.
    replace (bpow radix2 emax * L * (bpow radix2 emax * L)) with (bpow radix2 emax * bpow radix2 emax * (L * L)) by ring. rewrite EL, <- bpow_plus.
    apply Rlt_le_trans with (bpow radix2 (emax + emax) * bpow radix2 (2 - emax)); [|apply Rmult_le_compat_l; [apply bpow_ge_0|exact HS]].
    rewrite <- bpow_plus. apply Rlt_le_trans with (bpow radix2 4); [simpl; lra|apply bpow_le; lia]. }
  set (k := Bdiv mode_NE Bone l).
  assert (Hk : val k = 1 / val l * (1 + d1) ∧ finite k).
  { pose proof (Bdiv_correct prec emax _ _ mode_NE Bone l ltac:(lra)) as C. rewrite Bone_correct in C. cbn [round_mode] in C. rewrite E1 in C.
    rewrite Rlt_bool_true in C; [|eapply Rle_lt_trans; [exact Hk0|]; unfold Rdiv in *; pose proof (Rinv_0_lt_compat L HL); lra].
    destruct C as (Ck & Cf & _). split; [exact Ck|]. cbv beta. unfold k. rewrite Cf. apply is_finite_Bone. }
  destruct Hk as [Ek Hkf].
  intros i a Ha. fold l k.
    rewrite Forall_lookup in Hfin. specialize (Hfin i a Ha). cbv beta in Hfin.
    destruct (rnd_mult (val a * val k)) as (d2 & e & Hd2 & He & E2).
    assert (HaL : Rabs (val a) <= L).
    { apply Rsqr_incr_0_var; [|lra]. rewrite <- Rsqr_abs. unfold Rsqr. rewrite EL. eapply squares_ge, Ha. }
    assert (B2 : Rabs (1 + d2) <= 1 + u) by (eapply Rle_trans; [apply Rabs_triang|]; rewrite Rabs_R1; lra).
    assert (Hak : Rabs (val a * val k) <= 5 / 2).
    { rewrite Ek, Rabs_mult. replace (5 / 2) with (L * (5 / 2 / L)) by (field; lra). apply Rmult_le_compat; [apply Rabs_pos|apply Rabs_pos|exact HaL|exact Hk0]. }
    assert (Heta1 : eta <= 1 / 4).
    { rewrite Heta. assert (bpow radix2 (2 - emax) <= 1) by (change 1 with (bpow radix2 0); apply bpow_le; lia). nra. }
    assert (Hbf : finite (Bmult mode_NE a k)).
    { apply mult_safe; [exact Hfin|exact Hkf|]. rewrite E2. eapply Rle_lt_trans; [apply Rabs_triang|]. rewrite Rabs_mult.
      apply Rle_lt_trans with (5 / 2 * (5 / 4) + 1 / 4).
      - apply Rplus_le_compat; [|lra]. apply Rmult_le_compat; [apply Rabs_pos|apply Rabs_pos|exact Hak|lra].
      - apply Rlt_le_trans with (bpow radix2 2); [simpl; lra|apply bpow_le; lia]. }
    split; [exact Hbf|]. destruct (mult_finite _ _ Hbf) as (_ & _ & ->). rewrite E2, Ek, Et.
    replace (val a * (1 / (L * (1 + t)) * (1 + d1)) * (1 + d2) + e - val a / L) with
      (((1 + d1) * (1 + d2) / (1 + t) - 1) * (val a / L) + e) by (field; lra).
    eapply Rle_trans; [apply Rabs_triang|]. apply Rplus_le_compat; [|exact He]. unfold Rdiv at 2 4. rewrite !Rabs_mult.
    rewrite (Rabs_pos_eq (/ L)) by (apply Rlt_le, Rinv_0_lt_compat, HL).
    apply Rmult_le_compat_r; [apply Rmult_le_pos; [apply Rabs_pos|apply Rlt_le, Rinv_0_lt_compat, HL]|].
    replace (2 - q * (1 + u) * (1 + u)) with (1 - r) by (unfold r; ring). apply ratio_error; lra.
Qed.
Theorem normalize_float_partial : ∀ v, (1 < prec)%Z → (6 <= emax)%Z → Forall finite v → (1 + u) ^ (length v + 2) <= 3 / 2 →
  v ≠ [] → INR (length v) * bpow radix2 (2 - emax) <= squares v →
  (1 + u) ^ length v * (squares v + INR (length v) * eta) < bpow radix2 emax →
  ∃ r, normalize N (fsqrt prec emax) v = Some r ∧ vnormalize N (fsqrt prec emax) v = Some r ∧ length r = length v ∧
  ∀ i a b, v !! i = Some a → r !! i = Some b → finite b ∧
    Rabs (val b - val a / R_sqrt.sqrt (squares v)) <=
      ((1 + u) ^ 2 / (2 - (1 + u) ^ (length v + 2)) - 1) * (Rabs (val a) / R_sqrt.sqrt (squares v)) + eta.
Proof.
  intros v Hp1 Hem Hfin Hq32 Hne Hlow Hhigh.
  destruct (dot_float_finite v v eq_refl Hfin Hfin) as (d & Hd & Hdf); [rewrite squares_zip_abs; exact Hhigh|].
  pose proof (dot_float_error v v d Hd Hdf) as B. rewrite squares_zip, squares_zip_abs in B.
  assert (Hl : length_ N (fsqrt prec emax) v = Some (Bsqrt mode_NE d)) by (unfold length_; rewrite Hd; reflexivity).
  exists (map (λ x, Bmult mode_NE x (Bdiv mode_NE Bone (Bsqrt mode_NE d))) v). split_and!.
  - unfold normalize. rewrite Hl. simpl. rewrite vscale_eq. reflexivity.
  - unfold vnormalize. rewrite vlength_length, Hl by done. simpl. rewrite vscale_eq. reflexivity.
  - by rewrite map_length.
  - intros i a b Ha Hb. rewrite list_lookup_fmap, Ha in Hb. simpl in Hb. injection Hb as <-. by eapply normalize_bound.
Qed.
(** * Symmetry of dot *)
Lemma mult_comm (x y : F) : Bmult mode_NE x y = Bmult mode_NE y x.
Proof.
  apply B2SF_inj. destruct x as [sx|sx| |sx mx ex Hx], y as [sy|sy| |sy my ey Hy]; cbn [Bmult B2SF]; rewrite 1?xorb_comm; try reflexivity.
  unfold Bmult. rewrite !B2SF_SF2B, Pos.mul_comm, Z.add_comm, xorb_comm. reflexivity.
Qed.
(** Exactly, also for infinities and NaN *)
Theorem dot_float_symmetric : ∀ v w, length v = length w → is_Some (dot N v w) ∧ dot N v w = dot N w v.
Proof.
  intros v w L. rewrite !dot_eq by done. split; [eauto|]. f_equal. rewrite L.
  apply sum_ext. intros k Hk. apply mult_comm.
Qed.

(** * distance *)
Lemma minus_finite (x y : F) : finite (Bminus mode_NE x y) → finite x ∧ finite y ∧ val (Bminus mode_NE x y) = rnd (val x - val y).
Proof.
  intros H. assert (Hxy : finite x ∧ finite y).
  { destruct x as [sx|sx| |sx mx ex Hx], y as [sy|sy| |sy my ey Hy]; try (split; reflexivity); try discriminate;
      try (destruct sx, sy; discriminate). }
  destruct Hxy as [Hx Hy]. split; [exact Hx|]. split; [exact Hy|]. pose proof (Bminus_correct prec emax _ _ mode_NE x y Hx Hy) as C.
  destruct (Rlt_bool _ _); [apply C|]. destruct C as [C _]. exfalso.
  assert (S : is_finite_SF (B2SF (Bminus mode_NE x y)) = true) by (rewrite is_finite_SF_B2SF; exact H). rewrite C in S. discriminate.
Qed.
Lemma rnd_minus (x y : F) : ∃ d, Rabs d <= u ∧ rnd (val x - val y) = (val x - val y) * (1 + d).
Proof.
  destruct (rnd_plus (val x) (- val y)) as (d & Hd & E); [apply val_format|apply generic_format_opp, val_format|]. exists d. done.
Qed.
Lemma sum_finite_all x y n : finite (sum N n (prods x y)) → ∀ k, (k < n)%nat → finite (x k) ∧ finite (y k).
Proof. intros H. apply (sum_error x y n H). Qed.
(** The sum of the squares of the differences *)
Definition gap (v w : list F) : R := total (zip_with (λ a b, (val b - val a) * (val b - val a)) v w).
Lemma gap_bounds v : ∀ w, length v = length w → Forall finite (zip_with (Bminus mode_NE) w v) →
  (1 - u) * (1 - u) * gap v w <= squares (zip_with (Bminus mode_NE) w v) <= (1 + u) * (1 + u) * gap v w.
Proof.
  pose proof u_pos as Hu. assert (Hu1 : u <= 1).
  { unfold u. change 1 with (bpow radix2 0). apply bpow_le. unfold Prec_gt_0 in Hprec. lia. }
  induction v as [|a v IH]; intros [|b w] L H; try done; [unfold gap, squares, total; simpl; lra|].
  simpl in H. apply Forall_cons in H as [Hb H]. specialize (IH w ltac:(simpl in L; lia) H). unfold gap, squares, total in *. simpl in *.
  destruct (minus_finite _ _ Hb) as (_ & _ & E). destruct (rnd_minus b a) as (d & Hd & Ed). rewrite E, Ed.
  apply Rabs_le_inv in Hd. set (x := val b - val a) in *. assert (0 <= x * x) by apply Rle_0_sqr.
  assert ((1 - u) * (1 - u) <= (1 + d) * (1 + d) <= (1 + u) * (1 + u)) by (split; apply Rmult_le_compat; lra).
  replace (x * (1 + d) * (x * (1 + d))) with (x * x * ((1 + d) * (1 + d))) by ring. nra.
Qed.
(** The length of the rounded differences *)
Lemma distance_bound v w (l : F) : (1 < prec)%Z → length v = length w → Forall finite (zip_with (Bminus mode_NE) w v) → 0 < gap v w →
  (let d := zip_with (Bminus mode_NE) w v in 0 < squares d → Rabs (val l - R_sqrt.sqrt (squares d)) <=
    ((1 + u) ^ (length v + 1) - 1) * R_sqrt.sqrt (squares d) + INR (length v) * (1 + u) ^ (length v + 1) * eta / R_sqrt.sqrt (squares d)) →
  Rabs (val l - R_sqrt.sqrt (gap v w)) <=
    ((1 + u) ^ (length v + 2) - 1) * R_sqrt.sqrt (gap v w) +
    INR (length v) * (1 + u) ^ (length v + 1) * eta / ((1 - u) * R_sqrt.sqrt (gap v w)).
Proof.
  intros Hp1 L Hdf Hg B. cbv zeta in B. set (d := zip_with (Bminus mode_NE) w v) in *.
  assert (Hu1 : u <= 1 / 4).
  { unfold u. replace (1 / 4) with (bpow radix2 (-2)) by (simpl; lra). apply bpow_le. lia. }
  pose proof u_pos as Hu. pose proof eta_pos as Het.
  pose proof (gap_bounds v w L Hdf) as Hb. fold d in Hb.
  assert (Hs0 : 0 < squares d) by nra. specialize (B Hs0).
  set (D := R_sqrt.sqrt (gap v w)) in *. set (M := R_sqrt.sqrt (squares d)) in *.
  assert (HD : 0 < D) by (apply sqrt_lt_R0, Hg).
  assert (HM : (1 - u) * D <= M <= (1 + u) * D).
  { split; unfold D, M.
    - rewrite <- (sqrt_Rsqr (1 - u)) by lra. rewrite <- sqrt_mult_alt by apply Rle_0_sqr. apply sqrt_le_1_alt. apply Hb.
    - rewrite <- (sqrt_Rsqr (1 + u)) by lra. rewrite <- sqrt_mult_alt by apply Rle_0_sqr. apply sqrt_le_1_alt. apply Hb. }
  set (n := length v) in *. replace (n + 2)%nat with (S (n + 1)) by lia. change ((1 + u) ^ S (n + 1)) with ((1 + u) * (1 + u) ^ (n + 1)).
  pose proof (pow_u (n + 1)) as Hq. set (q := (1 + u) ^ (n + 1)) in *. pose proof (pos_INR n) as Hc. set (c := INR n) in *.
  replace (val l - D) with ((val l - M) + (M - D)) by ring. eapply Rle_trans; [apply Rabs_triang|].
  assert (B2 : Rabs (M - D) <= u * D) by (apply Rabs_le; lra).
  assert (B3 : c * q * eta / M <= c * q * eta / ((1 - u) * D)).
  { unfold Rdiv. apply Rmult_le_compat_l; [apply Rmult_le_pos; [apply Rmult_le_pos|]; lra|]. apply Rinv_le_contravar; [apply Rmult_lt_0_compat; lra|lra]. }
  assert (B4 : (q - 1) * M <= (q - 1) * ((1 + u) * D)) by (apply Rmult_le_compat_l; lra). lra.
Qed.
Theorem distance_float_error : ∀ v w l, (1 < prec)%Z → length v = length w → distance N (fsqrt prec emax) v w = Some l →
  finite l → 0 < gap v w →
  Rabs (val l - R_sqrt.sqrt (gap v w)) <=
    ((1 + u) ^ (length v + 2) - 1) * R_sqrt.sqrt (gap v w) +
    INR (length v) * (1 + u) ^ (length v + 1) * eta / ((1 - u) * R_sqrt.sqrt (gap v w)).
Proof.
  intros v w l Hp1 L Hl Hf Hg. unfold distance in Hl. rewrite vsub_eq in Hl by done. simpl in Hl.
  set (d := zip_with (Bminus mode_NE) w v) in *.
  assert (Hlen : length d = length v) by (unfold d; rewrite zip_with_length; lia).
  assert (Hdn : d ≠ []). { intros E. rewrite E in Hlen. simpl in Hlen. destruct v; [|done]. unfold gap in Hg. simpl in Hg. lra. }
  rewrite vlength_length in Hl by done.
  assert (Hdf : Forall finite d).
  { pose proof Hl as Hl'. unfold length_ in Hl'. rewrite dot_eq in Hl' by done. simpl in Hl'. injection Hl' as <-.
    destruct (sqrt_finite _ Hp1 Hf) as (Hs & _). pose proof (sum_finite_all _ _ _ Hs) as Hall. apply Forall_lookup. intros i x Hx.
    destruct (Hall i ltac:(by eapply lookup_lt_Some)) as [H _]. rewrite (comp_lookup d i x Hx) in H. exact H. }
  apply distance_bound; [done..|]. cbv zeta. fold d. intros Hs0. rewrite <- Hlen. by apply length_float_error.
Qed.

(** * lerp *)
Local Notation flerp := (lerp N Datatypes.id Datatypes.id (Bminus mode_NE Bone)).
Local Notation flerp_v := (lerp_v N Datatypes.id Datatypes.id (Bminus mode_NE Bone)).
(** One component, and the two functions in terms of it *)
Definition mix (x y p : F) : F := Bplus mode_NE (Bmult mode_NE y p) (Bmult mode_NE x (Bminus mode_NE Bone p)).
Lemma lerp_mix v1 v2 p : length v1 = length v2 → flerp v1 v2 p = Some (zip_with (λ x y, mix x y p) v1 v2).
Proof.
  intros L. unfold lerp. rewrite !vop_s_eq. simpl. rewrite vadd_eq by (rewrite !map_length; done). f_equal.
  revert v2 L. induction v1 as [|x v1 IH]; intros [|y v2] L; try done. simpl. f_equal. apply IH. simpl in L. lia.
Qed.
Lemma minus_one (p : F) : finite p → 0 <= val p <= 1 →
  finite (Bminus mode_NE Bone p) ∧ val (Bminus mode_NE Bone p) = rnd (1 - val p) ∧ 0 <= val (Bminus mode_NE Bone p) <= 1.
Proof.
  intros Hp H01. pose proof (rnd_val Bone) as H1; rewrite Bone_correct in H1.
  assert (H : 0 <= rnd (1 - val p) <= 1).
  { split.
    - rewrite <- (round_0 radix2 fexp ZnearestE) at 1. apply round_le; [apply fexp_correct; done|apply valid_rnd_N|lra].
    - rewrite <- H1 at 2. apply round_le; [apply fexp_correct; done|apply valid_rnd_N|lra]. }
  pose proof (Bminus_correct prec emax _ _ mode_NE Bone p (is_finite_Bone _ _ _ _) Hp) as C. rewrite Bone_correct in C. cbn [round_mode] in C.
  rewrite Rlt_bool_true in C.
  - destruct C as (C & Cf & _). cbv beta. rewrite C. done.
  - rewrite Rabs_pos_eq by lra. apply Rle_lt_trans with 1; [lra|]. change 1 with (bpow radix2 0). apply bpow_lt.
    unfold Prec_gt_0 in Hprec. unfold Prec_lt_emax in Hmax. lia.
Qed.
Lemma val_lt (x : F) : Rabs (val x) < bpow radix2 emax.
Proof. apply abs_B2R_lt_emax. Qed.
Lemma mult_exact (x y : F) z : finite x → finite y → val x * val y = val z → finite (Bmult mode_NE x y) ∧ val (Bmult mode_NE x y) = val z.
Proof.
  intros Hx Hy E. assert (H : finite (Bmult mode_NE x y)) by (apply mult_safe; [done|done|]; rewrite E, rnd_val; apply val_lt).
  split; [exact H|]. destruct (mult_finite _ _ H) as (_ & _ & ->). by rewrite E, rnd_val.
Qed.
Lemma plus_exact (x y : F) z : finite x → finite y → val x + val y = val z → finite (Bplus mode_NE x y) ∧ val (Bplus mode_NE x y) = val z.
Proof.
  intros Hx Hy E. assert (H : finite (Bplus mode_NE x y)) by (apply plus_safe; [done|done|]; rewrite E, rnd_val; apply val_lt).
  split; [exact H|]. destruct (plus_finite _ _ H) as (_ & _ & ->). by rewrite E, rnd_val.
Qed.
Lemma mix_0 (x y p : F) : finite x → finite y → finite p → val p = 0 → finite (mix x y p) ∧ val (mix x y p) = val x.
Proof.
  intros Hx Hy Hp E. destruct (minus_one p Hp ltac:(lra)) as (Hm & Em & _). rewrite E, Rminus_0_r in Em.
  pose proof (rnd_val Bone) as H1; rewrite Bone_correct in H1. rewrite H1 in Em.
  destruct (mult_exact y p (B754_zero false) Hy Hp) as [Ha Va]; [rewrite E; simpl; ring|].
  destruct (mult_exact x _ x Hx Hm) as [Hb Vb]; [rewrite Em; ring|].
  apply plus_exact; [exact Ha|exact Hb|]. rewrite Va, Vb. simpl. ring.
Qed.
Lemma mix_1 (x y p : F) : finite x → finite y → finite p → val p = 1 → finite (mix x y p) ∧ val (mix x y p) = val y.
Proof.
  intros Hx Hy Hp E. destruct (minus_one p Hp ltac:(lra)) as (Hm & Em & _). rewrite E in Em. replace (1 - 1) with 0 in Em by ring.
  rewrite round_0 in Em by apply valid_rnd_N.
  destruct (mult_exact y p y Hy Hp) as [Ha Va]; [rewrite E; ring|].
  destruct (mult_exact x _ (B754_zero false) Hx Hm) as [Hb Vb]; [rewrite Em; simpl; ring|].
  apply plus_exact; [exact Ha|exact Hb|]. rewrite Va, Vb. simpl. ring.
Qed.
(** The ends are met exactly, with no condition on the sizes of the components. *)
Theorem lerp_float_ends : ∀ v1 v2 p, length v1 = length v2 → Forall finite v1 → Forall finite v2 → finite p →
  (val p = 0 → ∃ r, flerp v1 v2 p = Some r ∧ Forall finite r ∧ map val r = map val v1) ∧
  (val p = 1 → ∃ r, flerp v1 v2 p = Some r ∧ Forall finite r ∧ map val r = map val v2).
Proof.
  intros v1 v2 p L H1 H2 Hp. rewrite lerp_mix by done. split; intros E; eexists; (split; [done|]); revert v2 L H1 H2;
    induction v1 as [|x v1 IH]; intros [|y v2] L H1 H2; try done; simpl; apply Forall_cons in H1 as [Hx H1]; apply Forall_cons in H2 as [Hy H2].
  - destruct (mix_0 x y p Hx Hy Hp E) as [Hf ->]. destruct (IH v2) as [I ->]; [simpl in L; lia|done|done|]. split; [by constructor|done].
  - destruct (mix_1 x y p Hx Hy Hp E) as [Hf ->]. destruct (IH v2) as [I ->]; [simpl in L; lia|done|done|]. split; [by constructor|done].
Qed.
(** In between: within a relative error of the exact point of the line, and a number
    unless the exact value is within that error of an overflow. *)
Theorem lerp_float_error : ∀ v1 v2 p i x y, length v1 = length v2 → v1 !! i = Some x → v2 !! i = Some y →
  finite x → finite y → finite p → 0 <= val p <= 1 →
  (1 + u) ^ 3 * (Rabs (val y * val p) + Rabs (val x * (1 - val p))) + 2 * (1 + u) * eta < bpow radix2 emax →
  ∃ r z, flerp v1 v2 p = Some r ∧ length r = length v1 ∧ r !! i = Some z ∧ finite z ∧
  Rabs (val z - (val y * val p + val x * (1 - val p))) <=
    ((1 + u) ^ 3 - 1) * (Rabs (val y * val p) + Rabs (val x * (1 - val p))) + 2 * (1 + u) * eta.
Proof.
  intros v1 v2 p i x y L Hi1 Hi2 Hx Hy Hp H01 Hb. rewrite lerp_mix by done. exists (zip_with (λ x y, mix x y p) v1 v2), (mix x y p).
  split; [done|]. split; [rewrite zip_with_length; lia|]. split; [rewrite lookup_zip_with, Hi1; simpl; by rewrite Hi2|].
  destruct (minus_one p Hp H01) as (Hm & Em & _). destruct (rnd_minus Bone p) as (d0 & Hd0 & E0). rewrite Bone_correct in E0. rewrite E0 in Em.
  set (q := Bminus mode_NE Bone p) in *. set (a := val y * val p) in *. set (b := val x * (1 - val p)) in *.
  destruct (rnd_mult a) as (d1 & e1 & Hd1 & He1 & E1). destruct (rnd_mult (val x * val q)) as (d2 & e2 & Hd2 & He2 & E2).
  pose proof u_pos as Hu. pose proof eta_pos as He.
  assert (Bd : ∀ d, Rabs d <= u → Rabs (1 + d) <= 1 + u) by (intros d Hd; eapply Rle_trans; [apply Rabs_triang|]; rewrite Rabs_R1; lra).
  assert (Eb : val x * val q = b * (1 + d0)) by (rewrite Em; unfold b; ring). rewrite Eb in E2.
  pose proof (Rabs_pos a) as Ha0. pose proof (Rabs_pos b) as Hb0.
  assert (Ba : Rabs (rnd a) <= (1 + u) * Rabs a + eta).
  { rewrite E1. eapply Rle_trans; [apply Rabs_triang|]. rewrite Rabs_mult. specialize (Bd d1 Hd1). pose proof (Rmult_le_compat_l _ _ _ Ha0 Bd). lra. }
  assert (Bb0 : Rabs (1 + d0) * Rabs (1 + d2) <= (1 + u) * (1 + u)) by (apply Rmult_le_compat; auto using Rabs_pos).
  assert (Bb : Rabs (rnd (b * (1 + d0))) <= (1 + u) * (1 + u) * Rabs b + eta).
  { rewrite E2. eapply Rle_trans; [apply Rabs_triang|]. rewrite !Rabs_mult, Rmult_assoc. pose proof (Rmult_le_compat_l _ _ _ Hb0 Bb0). lra. }
  replace ((1 + u) ^ 3) with ((1 + u) * ((1 + u) * (1 + u))) in * by ring. set (k := (1 + u) * (1 + u)) in *.
  assert (Hk : 1 + u <= k) by (unfold k; nra). assert (Hk' : k <= (1 + u) * k) by nra.
  assert (Hka : (1 + u) * Rabs a <= k * Rabs a) by (apply Rmult_le_compat_r; lra).
  assert (Hkk : 0 <= u * (k * (Rabs a + Rabs b))) by (apply Rmult_le_pos; [lra|]; apply Rmult_le_pos; lra).
  assert (Hkap : 0 <= k * Rabs a) by (apply Rmult_le_pos; lra). assert (Hkbp : 0 <= k * Rabs b) by (apply Rmult_le_pos; lra).
  assert (Hue : 0 <= u * eta) by (apply Rmult_le_pos; lra).
  assert (Hf1 : finite (Bmult mode_NE y p)) by (apply mult_safe; [done|done|]; fold a; lra).
  assert (Hf2 : finite (Bmult mode_NE x q)) by (apply mult_safe; [done|done|]; rewrite Eb; lra).
  destruct (mult_finite _ _ Hf1) as (_ & _ & V1). fold a in V1. destruct (mult_finite _ _ Hf2) as (_ & _ & V2). rewrite Eb in V2.
  destruct (rnd_plus _ _ (val_format (Bmult mode_NE y p)) (val_format (Bmult mode_NE x q))) as (d3 & Hd3 & E3).
  assert (Hf : finite (mix x y p)).
  { apply plus_safe; [exact Hf1|exact Hf2|]. fold q. rewrite E3, Rabs_mult, V1, V2.
    eapply Rle_lt_trans; [apply Rmult_le_compat; [apply Rabs_pos|apply Rabs_pos|apply Rabs_triang|apply (Bd d3 Hd3)]|].
    apply Rle_lt_trans with ((k * Rabs a + eta + (k * Rabs b + eta)) * (1 + u)); [apply Rmult_le_compat_r; lra|lra]. }
  split; [exact Hf|]. destruct (plus_finite _ _ Hf) as (_ & _ & V). unfold mix. fold q. unfold mix in V. fold q in V. rewrite V, E3, V1, V2, E1, E2.
  replace ((a * (1 + d1) + e1 + (b * (1 + d0) * (1 + d2) + e2)) * (1 + d3) - (a + b)) with
    (a * ((1 + d1) * (1 + d3) - 1) + (b * ((1 + d0) * (1 + d2) * (1 + d3) - 1) + (e1 * (1 + d3) + e2 * (1 + d3)))) by ring.
  assert (C1 : ∀ s t m, Rabs (s - 1) <= m - 1 → Rabs (t - 1) <= u → 1 <= m → Rabs (s * t - 1) <= (1 + u) * m - 1).
  { intros s t m Hs Ht Hmm. replace (s * t - 1) with ((s - 1) * t + (t - 1)) by ring. eapply Rle_trans; [apply Rabs_triang|]. rewrite Rabs_mult.
    assert (Rabs t <= 1 + u) by (replace t with (1 + (t - 1)) by ring; apply Bd, Ht).
    pose proof (Rmult_le_compat _ _ _ _ (Rabs_pos (s - 1)) (Rabs_pos t) Hs H). lra. }
  assert (S1 : ∀ d, Rabs d <= u → Rabs (1 + d - 1) <= u) by (intros d Hd; replace (1 + d - 1) with d by ring; exact Hd).
  assert (C2 : Rabs ((1 + d1) * (1 + d3) - 1) <= k - 1) by (apply C1; [pose proof (S1 d1 Hd1); lra|auto|lra]).
  assert (C3 : Rabs ((1 + d0) * (1 + d2) * (1 + d3) - 1) <= (1 + u) * k - 1).
  { apply C1; [|auto|lra]. apply C1; [pose proof (S1 d0 Hd0); lra|auto|lra]. }
  eapply Rle_trans; [apply abs_sum4|]. rewrite (Rabs_mult a), (Rabs_mult b), (Rabs_mult e1), (Rabs_mult e2).
  eapply Rle_trans.
  { apply Rplus_le_compat; [apply Rmult_le_compat_l; [exact Ha0|exact C2]|]. apply Rplus_le_compat; [apply Rmult_le_compat_l; [exact Hb0|exact C3]|].
    apply Rplus_le_compat; apply Rmult_le_compat; try apply Rabs_pos; [exact He1|exact (Bd d3 Hd3)|exact He2|exact (Bd d3 Hd3)]. }
  assert (Rabs a * (k - 1) <= Rabs a * ((1 + u) * k - 1)) by (apply Rmult_le_compat_l; lra). lra.
Qed.
(** Between two equal vectors the result is near. *)
Theorem lerp_float_same_partial : ∀ v p i x, v !! i = Some x → finite x → finite p → 0 <= val p <= 1 →
  (1 + u) ^ 3 * Rabs (val x) + 2 * (1 + u) * eta < bpow radix2 emax →
  ∃ r z, flerp v v p = Some r ∧ r !! i = Some z ∧ finite z ∧
  Rabs (val z - val x) <= ((1 + u) ^ 3 - 1) * Rabs (val x) + 2 * (1 + u) * eta.
Proof.
  intros v p i x Hi Hx Hp H01 Hb.
  assert (E : Rabs (val x * val p) + Rabs (val x * (1 - val p)) = Rabs (val x)).
  { rewrite !Rabs_mult, (Rabs_pos_eq (val p)), (Rabs_pos_eq (1 - val p)) by lra. ring. }
  destruct (lerp_float_error v v p i x x eq_refl Hi Hi Hx Hx Hp H01) as (r & z & Hr & _ & Hz & Hf & B); [by rewrite E|].
  exists r, z. do 3 (split; [done|]). rewrite E in B. replace (val x * val p + val x * (1 - val p)) with (val x) in B by ring. exact B.
Qed.
End float.

(** * float: what fails, and examples *)
Local Notation f32 := (binary_float 24 128).
Local Notation N32 := (fnum 24 128).
Local Notation sqrt32 := (fsqrt 24 128).
Local Notation val32 := (B2R (prec:=24) (emax:=128)).
Lemma float_value (x : f32) s : B2SF x = s → val32 x = SF2R radix2 s.
Proof. intros <-. symmetry. apply SF2R_B2SF. Qed.
Ltac float_val := erewrite !float_value by (vm_compute; reflexivity); cbn [SF2R SpecFloat.cond_Zopp]; unfold F2R; cbn [Fnum Fexp bpow]; simpl Z.pow_pos; simpl IZR.

(** A vector with a large component (2^70) is normalized to zero: the square is not a
    float although the vector and its length are. *)
Theorem normalize_float_large_refuted : ∃ v r : list f32, Forall (λ x, is_finite x = true) v ∧ 0 < squares 24 128 v ∧
  normalize N32 sqrt32 v = Some r ∧ vnormalize N32 sqrt32 v = Some r ∧ map val32 r = [0; 0; 0].
Proof.
  exists [float32 1 70; float32 0 0; float32 0 0], [B754_zero false; B754_zero false; B754_zero false].
  split; [repeat constructor|]. split; [unfold squares, total; cbn [map foldr]; float_val; lra|].
  split; [vm_compute; reflexivity|]. split; [vm_compute; reflexivity|]. reflexivity.
Qed.
(** With a small component (2^-100) there is no number in the result. *)
Theorem normalize_float_small_refuted : ∃ v r : list f32, Forall (λ x, is_finite x = true) v ∧ 0 < squares 24 128 v ∧
  normalize N32 sqrt32 v = Some r ∧ vnormalize N32 sqrt32 v = Some r ∧ Forall (λ x, is_finite x = false) r.
Proof.
  exists [float32 1 (-100); float32 0 0; float32 0 0], [B754_infinity false; B754_nan; B754_nan].
  split; [repeat constructor|]. split; [unfold squares, total; cbn [map foldr]; float_val; lra|].
  split; [vm_compute; reflexivity|]. split; [vm_compute; reflexivity|]. repeat constructor.
Qed.
(** Between two equal vectors, at 0.1f: the result is not that vector. *)
Theorem lerp_float_same_refuted : ∃ (x p z : f32), 0 <= val32 p <= 1 ∧
  lerp N32 Datatypes.id Datatypes.id (Bminus mode_NE Bone) [x; x] [x; x] p = Some [z; z] ∧ val32 z < val32 x.
Proof.
  exists (float32 3 0), (float32 13421773 (-27)),
    (mix 24 128 (float32 3 0) (float32 3 0) (float32 13421773 (-27))).
  split; [float_val; lra|]. split; [reflexivity|]. float_val. lra.
Qed.

Lemma u32 : u 24 = / 16777216. Proof. reflexivity. Qed.
Example dot_float_error_ex : ∃ s, dot N32 [float32 3 0; float32 1 (-3)] [float32 5 0; float32 2 0] = Some s ∧ is_finite s = true ∧ val32 s = 61 / 4.
Proof. eexists. split; [reflexivity|]. split; [reflexivity|]. float_val. lra. Qed.
Lemma eta32 : eta 24 128 <= / 16777216.
Proof. unfold eta. replace (/ 16777216) with (bpow radix2 (-24)) by (simpl; lra). apply bpow_le. lia. Qed.
Lemma max32 : 1073741824 <= bpow radix2 128.
Proof. replace 1073741824 with (bpow radix2 30) by (simpl; lra). apply bpow_le. lia. Qed.
Example dot_float_finite_ex : let v := [float32 3 0; float32 4 0] in Forall (λ x, is_finite x = true) v ∧
  (1 + u 24) ^ length v * (total (zip_with (λ a b, Rabs (val32 a * val32 b)) v v) + INR (length v) * eta 24 128) < bpow radix2 128.
Proof.
  split; [repeat constructor|]. rewrite squares_zip_abs. unfold squares, total. cbn [map foldr length]. float_val. rewrite u32.
  pose proof eta32. pose proof max32. pose proof (eta_pos 24 128). simpl. lra.
Qed.
Example dot_float_symmetric_ex : dot N32 [B754_nan; float32 1 0] [float32 2 0; B754_infinity true] = Some B754_nan.
Proof. reflexivity. Qed.
Example length_float_error_ex : ∃ l, length_ N32 sqrt32 [float32 3 0; float32 4 0] = Some l ∧ is_finite l = true ∧ val32 l = 5 ∧
  squares 24 128 [float32 3 0; float32 4 0] = 25.
Proof.
  eexists. split; [reflexivity|]. split; [vm_compute; reflexivity|]. split; [float_val; lra|].
  unfold squares, total. cbn [map foldr]. float_val. lra.
Qed.
Example distance_float_error_ex : ∃ l, distance N32 sqrt32 [float32 1 0; float32 1 0] [float32 4 0; float32 5 0] = Some l ∧
  is_finite l = true ∧ val32 l = 5 ∧ gap 24 128 [float32 1 0; float32 1 0] [float32 4 0; float32 5 0] = 25.
Proof.
  eexists. split; [reflexivity|]. split; [vm_compute; reflexivity|]. split; [float_val; lra|].
  unfold gap, total. cbn [zip_with foldr]. float_val. lra.
Qed.
Example normalize_float_partial_ex : let v := [float32 3 0; float32 4 0; float32 0 0] in
  (1 + u 24) ^ (length v + 2) <= 3 / 2 ∧ INR (length v) * bpow radix2 (2 - 128) <= squares 24 128 v ∧
  (1 + u 24) ^ length v * (squares 24 128 v + INR (length v) * eta 24 128) < bpow radix2 128.
Proof.
  cbn [length Nat.add]. assert (Hs : squares 24 128 [float32 3 0; float32 4 0; float32 0 0] = 25).
  { unfold squares, total. cbn [map foldr]. float_val. lra. }
  cbv zeta. rewrite Hs, u32. split; [lra|]. pose proof eta32. pose proof max32. pose proof (eta_pos 24 128). split; [|simpl; lra].
  assert (bpow radix2 (2 - 128) <= 1) by (change 1 with (bpow radix2 0); apply bpow_le; lia). simpl INR. lra.
Qed.
(** In float, for up to four components of size at most 2^62, one of them at least 2^-60 *)
Lemma squares_le (v : list f32) B : Forall (λ x, Rabs (val32 x) <= B) v → squares 24 128 v <= INR (length v) * (B * B).
Proof.
  induction 1 as [|x v Hx Hv IH]; [unfold squares, total; simpl; lra|]. cbn [length]. rewrite S_INR. unfold squares, total in *. simpl in *.
  assert (val32 x * val32 x <= B * B); [|lra]. rewrite <- (Rabs_pos_eq (val32 x * val32 x)) by apply Rle_0_sqr. rewrite Rabs_mult.
  apply Rmult_le_compat; auto using Rabs_pos.
Qed.
Theorem normalize_float32_partial : ∀ v : list f32, (length v <= 4)%nat → Forall (λ x, is_finite x = true) v →
  Forall (λ x, Rabs (val32 x) <= bpow radix2 62) v → Exists (λ x, bpow radix2 (-60) <= Rabs (val32 x)) v →
  ∃ r, normalize N32 sqrt32 v = Some r ∧ vnormalize N32 sqrt32 v = Some r ∧ length r = length v ∧
  ∀ i a b, v !! i = Some a → r !! i = Some b → is_finite b = true ∧
    Rabs (val32 b - val32 a / R_sqrt.sqrt (squares 24 128 v)) <=
      9 * bpow radix2 (-24) * (Rabs (val32 a) / R_sqrt.sqrt (squares 24 128 v)) + bpow radix2 (-150).
Proof.
  intros v Hn Hf Hmax Hmin. pose proof (u_pos 24) as Hu0.
  assert (Hpow : ∀ n, (n <= 6)%nat → (1 + u 24) ^ n <= 1 + 61 / 10 * u 24).
  { intros n Hn6. apply Rle_trans with ((1 + u 24) ^ 6); [apply Rle_pow; [lra|done]|]. rewrite u32. lra. }
  assert (Hne : v ≠ []) by (intros ->; inversion Hmin).
  assert (HnR : INR (length v) <= 4) by (replace 4 with (INR 4) by (simpl; lra); apply le_INR, Hn). pose proof (pos_INR (length v)) as Hn0.
  pose proof (squares_le v _ Hmax) as Hup. rewrite <- bpow_plus in Hup. change (62 + 62)%Z with 124%Z in Hup.
  assert (Hlo : bpow radix2 (-120) <= squares 24 128 v).
  { apply Exists_exists in Hmin as (x & Hx & Hb). apply elem_of_list_lookup_1 in Hx as [i Hi].
    eapply Rle_trans; [|eapply squares_ge, Hi]. rewrite <- (Rabs_pos_eq (val32 x * val32 x)) by apply Rle_0_sqr. rewrite Rabs_mult.
    change (-120)%Z with (-60 + -60)%Z. rewrite bpow_plus. apply Rmult_le_compat; auto using bpow_ge_0. }
  destruct (normalize_float_partial 24 128 v) as (r & H1 & H2 & H3 & H4).
  - done.
  - done.
  - exact Hf.
  - eapply Rle_trans; [apply Hpow; lia|]. rewrite u32. lra.
  - exact Hne.
  - eapply Rle_trans; [|exact Hlo]. change (-120)%Z with (6 + (2 - 128))%Z. rewrite bpow_plus.
    apply Rmult_le_compat_r; [apply bpow_ge_0|]. simpl. lra.
  - apply Rle_lt_trans with (2 * (4 * bpow radix2 124 + 4)).
    + pose proof eta32. pose proof (eta_pos 24 128). pose proof (bpow_gt_0 radix2 124).
      apply Rmult_le_compat; [apply pow_le; lra| | |].
      * apply Rplus_le_le_0_compat; [apply squares_nonneg|nra].
      * eapply Rle_trans; [apply Hpow; lia|]. rewrite u32. lra.
      * nra.
    + replace (bpow radix2 128) with (16 * bpow radix2 124) by (change 128%Z with (4 + 124)%Z; rewrite bpow_plus; simpl; lra).
      assert (1024 <= bpow radix2 124); [|lra]. replace 1024 with (bpow radix2 10) by (simpl; lra). apply bpow_le. lia.
  - exists r. split; [done|]. split; [done|]. split; [done|]. intros i a b Ha Hb. destruct (H4 i a b Ha Hb) as [Hfb B]. split; [done|].
    eapply Rle_trans; [exact B|]. change (eta 24 128) with (bpow radix2 (-150)). apply Rplus_le_compat_r. apply Rmult_le_compat_r.
    + apply Rmult_le_pos; [apply Rabs_pos|]. apply Rlt_le, Rinv_0_lt_compat, sqrt_lt_R0. pose proof (bpow_gt_0 radix2 (-120)). lra.
    + change (bpow radix2 (-24)) with (u 24). specialize (Hpow (length v + 2)%nat ltac:(lia)). set (q := (1 + u 24) ^ (length v + 2)) in *.
      assert (H : / (2 - q) <= / (1 - 61 / 10 * u 24)) by (apply Rinv_le_contravar; [rewrite u32; lra|lra]).
      assert (Hi : / (1 - 61 / 10 * u 24) <= 1 + 61 / 10 * u 24 + 1 / 3 * u 24).
      { apply (Rmult_le_reg_r (1 - 61 / 10 * u 24)); [rewrite u32; lra|]. rewrite Rinv_l by (rewrite u32; lra). rewrite u32. lra. }
      apply Rle_trans with ((1 + u 24) ^ 2 * (1 + 61 / 10 * u 24 + 1 / 3 * u 24) - 1); [|rewrite u32; lra].
      unfold Rdiv. apply Rplus_le_compat_r. apply Rmult_le_compat_l; [apply pow_le; lra|]. lra.
Qed.
Example normalize_float32_partial_ex : let v := [float32 3 50; float32 4 (-50); float32 0 0] in
  Forall (λ x, Rabs (val32 x) <= bpow radix2 62) v ∧ Exists (λ x, bpow radix2 (-60) <= Rabs (val32 x)) v.
Proof.
  assert (H1 : val32 (float32 3 50) = 3 * bpow radix2 50) by (float_val; simpl; lra).
  assert (H2 : val32 (float32 4 (-50)) = bpow radix2 (-48)) by (float_val; simpl; lra).
  assert (H3 : val32 (float32 0 0) = 0) by (float_val; reflexivity).
  split.
  - rewrite !Forall_cons, Forall_nil, H1, H2, H3. split; [|split; [|split; [|done]]].
    + rewrite Rabs_pos_eq by (simpl; lra). simpl. lra.
    + rewrite Rabs_pos_eq by apply bpow_ge_0. apply bpow_le. lia.
    + rewrite Rabs_R0. apply bpow_ge_0.
  - right. left. rewrite H2, Rabs_pos_eq by apply bpow_ge_0. apply bpow_le. lia.
Qed.
Example lerp_float_ends_ex : val32 (float32 0 0) = 0 ∧ val32 (float32 1 0) = 1 ∧
  (∃ r, lerp N32 Datatypes.id Datatypes.id (Bminus mode_NE Bone) [float32 3 100; float32 5 0] [float32 7 (-90); float32 1 3] (float32 0 0) = Some r ∧
    map B2SF r = map B2SF [float32 3 100; float32 5 0]).
Proof. split; [float_val; lra|]. split; [float_val; lra|]. eexists. split; [reflexivity|]. vm_compute. reflexivity. Qed.
Example lerp_float_error_ex : let x := float32 10 0 in let y := float32 20 0 in let p := float32 13421773 (-27) in
  0 <= val32 p <= 1 ∧
  (1 + u 24) ^ 3 * (Rabs (val32 y * val32 p) + Rabs (val32 x * (1 - val32 p))) + 2 * (1 + u 24) * eta 24 128 < bpow radix2 128.
Proof.
  cbv zeta. float_val. split; [lra|]. rewrite u32. pose proof eta32. pose proof max32. pose proof (eta_pos 24 128).
  rewrite !Rabs_pos_eq by lra. lra.
Qed.
Example lerp_float_same_partial_ex : (1 + u 24) ^ 3 * Rabs (val32 (float32 3 0)) + 2 * (1 + u 24) * eta 24 128 < bpow radix2 128.
Proof. float_val. rewrite u32. pose proof eta32. pose proof max32. pose proof (eta_pos 24 128). rewrite Rabs_pos_eq by lra. lra. Qed.

Definition float_theorems := (@dot_float_error, @dot_float_finite, @dot_float_symmetric, @length_float_error, @distance_float_error,
  @normalize_float_partial, @normalize_float32_partial, @normalize_float_large_refuted, @normalize_float_small_refuted, @lerp_float_ends, @lerp_float_error,
  @lerp_float_same_partial, @lerp_float_same_refuted).
Print Assumptions float_theorems.
