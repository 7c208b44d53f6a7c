(** Theorems about projection matrices in floating point: property C138. *)
From stdpp Require Import list.
From Coq Require Import ZArith Lia Reals Lra Psatz.
From Flocq Require Import Core BinarySingleNaN Relative Mult_error.
From Interval Require Import Tactic.
From Verif Require Import VecModel VecSpec VecProofs VecProps MatModel MatProofs MatProps TransformSpec FloatModel FloatProps FloatOpsProps FloatExprProofs FloatMatProps.
Local Open Scope R_scope.

(** A size that neither vanishes nor explodes: zero, or from 2^-b to 2^b *)
Definition moderate (b : Z) (x : R) : Prop := x = 0 ∨ bpow radix2 (- b) <= Rabs x <= bpow radix2 b.
(** [x] is [y] up to a relative error *)
Definition close (e x y : R) : Prop := Rabs (x - y) <= e * Rabs y.

Section proj.
Context (prec emax : Z) {Hprec : Prec_gt_0 prec} {Hmax : Prec_lt_emax prec emax} (Hp4 : (4 <= prec)%Z).
Local Notation F := (binary_float prec emax).
Local Notation N := (fnum prec emax).
Local Notation finite := (λ x : F, is_finite x = true).
Local Notation val := (B2R (prec:=prec) (emax:=emax)).
Local Notation fexp := (SpecFloat.fexp prec emax).
Local Notation rnd := (round radix2 fexp ZnearestE).
Local Notation u := (u prec).
Local Notation eta := (eta prec emax).
Local Notation w := (1 - u).

Lemma u16 : u <= / 16.
Proof. unfold FloatProps.u. replace (/ 16) with (bpow radix2 (-4)) by (simpl; lra). apply bpow_le. lia. Qed.
Lemma w_bounds : 15 / 16 <= w < 1.
Proof. pose proof u16. pose proof (u_pos prec). lra. Qed.

Lemma w_le1 k : w ^ k <= 1.
Proof. pose proof w_bounds. apply Rle_trans with (1 ^ k); [apply pow_incr; lra|rewrite pow1; lra]. Qed.

(** ** Relative errors that multiply *)
Definition near (k : nat) (x y : R) : Prop := ∃ t, x = y * t ∧ w ^ k <= t <= (/ w) ^ k.
Lemma wk k : (k <= 5)%nat → / 2 <= w ^ k ∧ (/ w) ^ k <= 2.
Proof.
  intros Hk. pose proof w_bounds as Hw.
  assert (A : / 2 <= w ^ k).
  { apply Rle_trans with (w ^ 5).
    - apply Rle_trans with ((15 / 16) ^ 5); [lra|]. apply pow_incr. lra.
    - do 6 (destruct k as [|k]; [simpl; nra|]). lia. }
  split; [done|]. rewrite pow_inv. rewrite <- (Rinv_inv 2). apply Rinv_le_contravar; lra.
Qed.
Lemma near_exact x : near 0 x x.
Proof. exists 1. simpl. lra. Qed.
Lemma near_mult j k x y a b : near j x a → near k y b → near (j + k) (x * y) (a * b).
Proof.
  intros (t & -> & Ht) (s & -> & Hs). exists (t * s). split; [ring|]. pose proof w_bounds as Hw.
  assert (0 < w ^ j) by (apply pow_lt; lra). assert (0 < w ^ k) by (apply pow_lt; lra).
  rewrite !pow_add. split; apply Rmult_le_compat; lra.
Qed.
Lemma near_div j k x y a b : b ≠ 0 → near j x a → near k y b → near (j + k) (x / y) (a / b).
Proof.
  intros Hb (t & -> & Ht) (s & -> & Hs). pose proof w_bounds as Hw.
  assert (Hj : 0 < w ^ j) by (apply pow_lt; lra). assert (Hk : 0 < w ^ k) by (apply pow_lt; lra).
  assert (0 < / w ^ k) by (by apply Rinv_0_lt_compat). rewrite !pow_inv in *.
  exists (t * / s). split; [field; split; lra|]. rewrite !pow_add, !pow_inv.
  assert (w ^ k <= / s <= / w ^ k).
  { split; [|apply Rinv_le_contravar; lra]. rewrite <- (Rinv_inv (w ^ k)). apply Rinv_le_contravar; lra. }
  split; apply Rmult_le_compat; lra.
Qed.
Lemma near_opp k x y : near k x y → near k (- x) (- y).
Proof. intros (t & -> & Ht). exists t. split; [ring|done]. Qed.
Lemma near_zero k x : near k x 0 → x = 0.
Proof. intros (t & -> & _). ring. Qed.
Lemma near_abs k x y : (k <= 5)%nat → near k x y → Rabs y / 2 <= Rabs x <= 2 * Rabs y.
Proof.
  intros Hk (t & -> & Ht). destruct (wk k Hk) as [H1 H2]. rewrite Rabs_mult, (Rabs_pos_eq t) by lra. pose proof (Rabs_pos y). nra.
Qed.
Lemma near_round k x y d : near k x y → Rabs d <= u → near (S k) (x * (1 + d)) y.
Proof.
  intros (t & -> & Ht) Hd. exists (t * (1 + d)). split; [ring|]. apply Rabs_le_inv in Hd. pose proof w_bounds as Hw.
  assert (0 < w ^ k) by (apply pow_lt; lra).
  assert (1 + d <= / w). { apply (Rmult_le_reg_r w); [lra|]. rewrite Rinv_l by lra. nra. }
  simpl. rewrite (Rmult_comm w), (Rmult_comm (/ w)). split; apply Rmult_le_compat; lra.
Qed.
Lemma near_close k x y : near k x y → close ((/ w) ^ k - 1) x y.
Proof.
  intros (t & -> & Ht). unfold close. replace (y * t - y) with ((t - 1) * y) by ring. rewrite Rabs_mult.
  apply Rmult_le_compat_r; [apply Rabs_pos|]. pose proof w_bounds as Hw. assert (Hk : 0 < w ^ k) by (apply pow_lt; lra).
  rewrite pow_inv in *. assert (2 <= w ^ k + / w ^ k).
  { apply (Rmult_le_reg_r (w ^ k)); [done|]. rewrite Rmult_plus_distr_r, Rinv_l by lra. set (z := w ^ k) in *. pose proof (pow2_ge_0 (z - 1)). lra. }
  apply Rabs_le. lra.
Qed.
Lemma near_mono j k x y : (j <= k)%nat → near j x y → near k x y.
Proof.
  intros Hj (t & -> & Ht). exists t. split; [done|]. pose proof w_bounds as Hw.
  assert (w ^ k <= w ^ j).
  { replace k with (j + (k - j))%nat by lia. rewrite pow_add. rewrite <- (Rmult_1_r (w ^ j)) at 2.
    apply Rmult_le_compat_l; [apply pow_le; lra|]. apply w_le1. }
  assert (0 < w ^ k) by (apply pow_lt; lra). rewrite !pow_inv in *. assert (/ w ^ j <= / w ^ k) by (apply Rinv_le_contravar; lra). lra.
Qed.

(** ** Numbers that are not too large or small *)
Definition good (c : Z) (k : nat) (x : F) (y : R) : Prop := finite x ∧ near k (val x) y ∧ moderate c y.
Lemma rnd_normal x : bpow radix2 (2 - emax) <= Rabs x → ∃ d, Rabs d <= u ∧ rnd x = x * (1 + d).
Proof.
  intros Hx. destruct (relative_error_N_FLT_ex radix2 (SpecFloat.emin prec emax) prec Hprec (λ t, negb (Z.even t)) x) as (d & Hd & E).
  - unfold SpecFloat.emin. replace (3 - emax - prec + prec - 1)%Z with (2 - emax)%Z by lia. done.
  - rewrite u_eq in Hd. by exists d.
Qed.
(** One rounding *)
Lemma good_round c k (z : F) r y : (0 <= c)%Z → (c + 1 <= emax - 2)%Z → (k <= 5)%nat → near k r y → moderate c y →
  (Rabs (rnd r) < bpow radix2 emax → finite z ∧ val z = rnd r) → good c (S k) z y.
Proof.
  intros Hc He Hk Hn Hm Hz. assert (Hr : Rabs r <= bpow radix2 (c + 1) ∧ (y = 0 ∨ bpow radix2 (2 - emax) <= Rabs r)).
  { destruct (near_abs k r y Hk Hn) as [H1 H2]. rewrite bpow_plus. change (bpow radix2 1) with 2. destruct Hm as [->|[H3 H4]].
    - rewrite (near_zero _ _ Hn), Rabs_R0. split; [|by left]. pose proof (bpow_gt_0 radix2 c). lra.
    - split; [lra|right]. apply Rle_trans with (bpow radix2 (- c) / 2); [|lra].
      replace (bpow radix2 (- c) / 2) with (bpow radix2 (- c - 1)); [apply bpow_le; lia|].
      unfold Z.sub. rewrite bpow_plus. change (bpow radix2 (- (1))) with (/ 2). done. }
  destruct Hr as [Hr1 Hr2]. destruct Hz as [Hf Hv].
  { eapply Rle_lt_trans; [apply (rnd_pow prec emax _ (c + 1)); [lia|done]|]. apply bpow_lt. lia. }
  split; [done|]. split; [|done]. rewrite Hv. destruct Hr2 as [->|Hr2].
  - rewrite (near_zero _ _ Hn). rewrite round_0 by typeclasses eauto. exists 1. split; [ring|].
    pose proof w_bounds. split; [apply w_le1|]. apply pow_R1_Rle. rewrite <- Rinv_1. apply Rinv_le_contravar; lra.
  - destruct (rnd_normal r Hr2) as (d & Hd & ->). by apply near_round.
Qed.
Lemma moderate_mult c d a b : moderate c a → moderate d b → moderate (c + d) (a * b).
Proof.
  intros [->|[H1 H2]] Hb; [left; ring|]. destruct Hb as [->|[H3 H4]]; [left; ring|]. right.
  rewrite Rabs_mult. replace (- (c + d))%Z with (- c + - d)%Z by lia. rewrite !bpow_plus.
  pose proof (bpow_ge_0 radix2 (- c)). pose proof (bpow_ge_0 radix2 (- d)). split; apply Rmult_le_compat; auto using Rabs_pos.
Qed.
Lemma moderate_inv d b : b ≠ 0 → moderate d b → moderate d (/ b).
Proof.
  intros Hb [?|[H3 H4]]; [done|]. right. rewrite Rabs_inv. rewrite bpow_opp in *. pose proof (bpow_gt_0 radix2 d).
  assert (0 < / bpow radix2 d) by (by apply Rinv_0_lt_compat).
  split; [apply Rinv_le_contravar; lra|]. rewrite <- (Rinv_inv (bpow radix2 d)). apply Rinv_le_contravar; lra.
Qed.
Lemma moderate_opp c a : moderate c a → moderate c (- a).
Proof. intros [->|H]; [left; ring|right]. by rewrite Rabs_Ropp. Qed.
Lemma moderate_mono c d a : (c <= d)%Z → moderate c a → moderate d a.
Proof.
  intros Hc [->|H]; [by left|right]. assert (bpow radix2 (- d) <= bpow radix2 (- c)) by (apply bpow_le; lia).
  assert (bpow radix2 c <= bpow radix2 d) by (apply bpow_le; lia). lra.
Qed.
Lemma good_leaf c x : finite x → moderate c (val x) → good c 0 x (val x).
Proof. intros Hx Hm. split; [done|]. split; [apply near_exact|done]. Qed.
Lemma good_mult c d j k x y a b : (0 <= c)%Z → (0 <= d)%Z → (c + d + 1 <= emax - 2)%Z → (j + k <= 5)%nat →
  good c j x a → good d k y b → good (c + d) (S (j + k)) (Bmult mode_NE x y) (a * b).
Proof.
  intros Hc Hd He Hk (Fx & Nx & Mx) (Fy & Ny & My). eapply good_round; [lia|lia|lia|by apply near_mult|by apply moderate_mult|].
  intros Hr. assert (finite (Bmult mode_NE x y)) as Hf by (by apply mult_safe). split; [done|]. apply (mult_finite prec emax) in Hf as (_ & _ & E). exact E.
Qed.
Lemma good_div c d j k x y a b : (0 <= c)%Z → (0 <= d)%Z → (c + d + 1 <= emax - 2)%Z → (j + k <= 5)%nat → b ≠ 0 →
  good c j x a → good d k y b → good (c + d) (S (j + k)) (Bdiv mode_NE x y) (a / b).
Proof.
  intros Hc Hd He Hk Hb (Fx & Nx & Mx) (Fy & Ny & My).
  eapply good_round; [lia|lia|lia|by apply near_div|apply moderate_mult; [done|by apply moderate_inv]|].
  assert (Hy : val y ≠ 0).
  { intros E. destruct (near_abs k (val y) b ltac:(lia) Ny) as [H _]. rewrite E, Rabs_R0 in H. pose proof (Rabs_pos_lt b Hb). lra. }
  intros Hr. pose proof (Bdiv_correct prec emax _ _ mode_NE x y Hy) as C. rewrite Rlt_bool_true in C by exact Hr.
  destruct C as (C1 & C2 & _). split; [by rewrite C2|exact C1].
Qed.
Lemma good_opp c k x a : good c k x a → good c k (Bopp x) (- a).
Proof.
  intros (Fx & Nx & Mx). split; [by rewrite is_finite_Bopp|]. split; [|by apply moderate_opp]. rewrite B2R_Bopp. by apply near_opp.
Qed.
Lemma good_plus c x y : (0 <= c)%Z → (c + 1 <= emax - 2)%Z → finite x → finite y → moderate c (val x + val y) → good c 1 (Bplus mode_NE x y) (val x + val y).
Proof.
  intros Hc He Fx Fy Hm. eapply good_round; [lia|lia|lia|apply near_exact|done|].
  intros Hr. assert (finite (Bplus mode_NE x y)) as Hf by (by apply plus_safe). split; [done|]. apply (plus_finite prec emax) in Hf as (_ & _ & E). exact E.
Qed.
Lemma good_minus c x y : (0 <= c)%Z → (c + 1 <= emax - 2)%Z → finite x → finite y → moderate c (val x - val y) → good c 1 (Bminus mode_NE x y) (val x - val y).
Proof.
  intros Hc He Fx Fy Hm. eapply good_round; [lia|lia|lia|apply near_exact|done|].
  intros Hr. assert (finite (Bminus mode_NE x y)) as Hf by (by apply minus_safe). split; [done|]. apply (minus_finite prec emax) in Hf as (_ & _ & E). exact E.
Qed.

(** ** The tangent of the standard library has its own error *)
Lemma close_scaled eps k x y ht t : 0 <= eps <= / 2 → t ≠ 0 → close eps ht t → near k x (y / ht) → close ((/ w) ^ k / (1 - eps) - 1) x (y / t).
Proof.
  intros He Ht Hc (s & -> & Hs). unfold close in *. set (d := (ht - t) / t).
  assert (Hd : Rabs d <= eps).
  { unfold d, Rdiv. rewrite Rabs_mult, Rabs_inv. apply (Rmult_le_reg_r (Rabs t)); [by apply Rabs_pos_lt|].
    rewrite Rmult_assoc, Rinv_l, Rmult_1_r by (by apply Rabs_no_R0). done. }
  assert (E : ht = t * (1 + d)) by (unfold d; field; done). rewrite E. apply Rabs_le_inv in Hd.
  replace (y / (t * (1 + d)) * s - y / t) with ((s / (1 + d) - 1) * (y / t)) by (field; split; [done|lra]).
  rewrite Rabs_mult. apply Rmult_le_compat_r; [apply Rabs_pos|]. pose proof w_bounds as Hw.
  assert (Hk : 0 < w ^ k) by (apply pow_lt; lra). rewrite pow_inv in *. set (z := w ^ k) in *.
  assert (Hz : 0 < / z) by (by apply Rinv_0_lt_compat).
  assert (Hi : / (1 + eps) <= / (1 + d) <= / (1 - eps)) by (split; apply Rinv_le_contravar; lra).
  assert (0 < / (1 + eps)) by (apply Rinv_0_lt_compat; lra). assert (0 < / (1 - eps)) by (apply Rinv_0_lt_compat; lra).
  assert (Hu : z * / (1 + eps) <= s / (1 + d) <= / z * / (1 - eps)) by (split; apply Rmult_le_compat; lra).
  assert (2 <= z * / (1 + eps) + / z * / (1 - eps)).
  { set (p := z * / (1 + eps)). set (q := / z * / (1 - eps)). assert (Hp : 0 < p) by (by apply Rmult_lt_0_compat).
    assert (Hq : 0 < q) by (by apply Rmult_lt_0_compat). assert (1 <= p * q).
    { replace (p * q) with (/ (1 - eps * eps)) by (unfold p, q; field; repeat split; nra). rewrite <- Rinv_1. apply Rinv_le_contravar; nra. }
    clearbody p q. assert (4 <= (p + q) * (p + q)) by (pose proof (pow2_ge_0 (p - q)); nra). nra. }
  unfold Rdiv at 2. apply Rabs_le. lra.
Qed.

(** ** Projection by field of view *)
Local Notation close_entries e r s := (Forall2 (Forall2 (λ (x : F) y, is_finite x = true ∧ close e (B2R x) y)) r s).
Lemma close_zero e : 0 <= e → finite (B754_zero false) ∧ close e (val (B754_zero false)) 0.
Proof. intros He. split; [done|]. unfold close. simpl. rewrite Rminus_0_r, Rabs_R0. lra. Qed.

(** The matrix of a projection by field of view in exact arithmetic; [t] is the tangent of
    half the angle, [s] is -1 for right-handed and 1 for left-handed coordinates. *)
Definition projection_matrix (s t aspect near far : R) : list (list R) :=
  [[1 / (aspect * t); 0; 0; 0];
   [0; 1 / t; 0; 0];
   [0; 0; s * (far + near) / (far - near); s];
   [0; 0; - (2 * far * near) / (far - near); 0]].

Theorem fov_float_error : ∀ (tn : F → F) (two fov aspect near far : F) b eps,
  let t := tan (val fov / 2) in
  (1 <= b)%Z → (3 * b + 4 <= emax)%Z → 0 <= eps <= / 2 → Forall finite [two; fov; aspect; near; far] → val two = 2 →
  (∀ x, val x = val fov / 2 → finite (tn x) ∧ close eps (val (tn x)) t) →
  Forall (moderate b) [val fov; val aspect; val near; val far; val far + val near; val far - val near] → moderate (b - 1) t →
  val fov ≠ 0 → val aspect ≠ 0 → val far ≠ val near → t ≠ 0 → ∃ r l,
  fov_rh N tn two fov aspect near far = Some r ∧ fov_lh N tn two fov aspect near far = Some l ∧
  close_entries ((/ (1 - u)) ^ 4 / (1 - eps) - 1) r (projection_matrix (-1) t (val aspect) (val near) (val far)) ∧
  close_entries ((/ (1 - u)) ^ 4 / (1 - eps) - 1) l (projection_matrix 1 t (val aspect) (val near) (val far)).
Proof.
  intros tn two fov aspect n f b eps t Hb He Heps HF V2 Htn HM Mt Hfov Hasp Hnf Ht0.
  repeat (apply Forall_cons in HF as [? HF]). clear HF. repeat (apply Forall_cons in HM as [? HM]). clear HM. cbv beta in *.
  set (half := Bdiv mode_NE fov two).
  assert (Vh : val half = val fov / 2).
  { pose proof (Bdiv_correct prec emax _ _ mode_NE fov two ltac:(lra)) as C. rewrite V2 in C. cbn [round_mode] in C.
    assert (Ef : rnd (val fov / 2) = val fov / 2).
    { apply round_generic; [typeclasses eauto|]. change (/ 2) with (bpow radix2 (-1)). unfold Rdiv. change (/ 2) with (bpow radix2 (-1)).
      apply (mult_bpow_exact_FLT radix2 (SpecFloat.emin prec emax) prec); [apply val_format|].
      match goal with H : moderate b (val fov) |- _ => destruct H as [?|[Hl _]]; [done|] end.
      assert (- b + 1 <= mag radix2 (val fov))%Z by (apply mag_ge_bpow; replace (- b + 1 - 1)%Z with (- b)%Z by lia; done).
      unfold SpecFloat.emin. lia. }
    rewrite Ef in C. rewrite Rlt_bool_true in C; [apply C|].
    unfold Rdiv. rewrite Rabs_mult, (Rabs_pos_eq (/ 2)) by lra. pose proof (abs_B2R_lt_emax prec emax fov). pose proof (Rabs_pos (val fov)). lra. }
  destruct (Htn half Vh) as [Fh Ch]. set (ht := tn half) in *.
  assert (Mh : moderate b (val ht) ∧ val ht ≠ 0).
  { unfold close in Ch. assert (Rabs t / 2 <= Rabs (val ht) <= 2 * Rabs t).
    { pose proof (Rabs_triang_inv (val ht) t). pose proof (Rabs_triang_inv t (val ht)) as K. rewrite (Rabs_minus_sym t) in K. pose proof (Rabs_pos t).
      assert (eps * Rabs t <= Rabs t / 2) by nra. lra. }
    pose proof (Rabs_pos_lt t Ht0). split; [|intros E; rewrite E, Rabs_R0 in *; lra]. right. destruct Mt as [?|[M1 M2]]; [done|].
    replace (- (b - 1))%Z with (- b + 1)%Z in M1 by lia. unfold Z.sub in M2. rewrite bpow_plus in M1, M2.
    change (bpow radix2 1) with 2 in M1. change (bpow radix2 (- (1))) with (/ 2) in M2. lra. }
  destruct Mh as [Mh Hh0].
  assert (One : good 0 0 (Bone : F) 1).
  { split; [apply is_finite_Bone|]. rewrite Bone_correct. split; [apply near_exact|]. right. simpl. rewrite Rabs_R1. lra. }
  assert (Two : good 1 0 two 2).
  { split; [done|]. rewrite V2. split; [apply near_exact|]. right. simpl. rewrite Rabs_pos_eq by lra. lra. }
  assert (E0 : 0 <= (/ w) ^ 4 / (1 - eps) - 1 ∧ (/ w) ^ 4 - 1 <= (/ w) ^ 4 / (1 - eps) - 1).
  { pose proof w_bounds. assert (1 <= (/ w) ^ 4) by (apply pow_R1_Rle; rewrite <- Rinv_1; apply Rinv_le_contravar; lra).
    assert (1 <= / (1 - eps)) by (rewrite <- Rinv_1; apply Rinv_le_contravar; lra). unfold Rdiv. split; nra. }
  destruct E0 as [E0 E1]. set (e := (/ w) ^ 4 / (1 - eps) - 1) in *.
  assert (K : ∀ c k x y, (k <= 4)%nat → good c k x y → finite x ∧ close e (val x) y).
  { intros c k x y Hk (Fx & Nx & _). split; [done|]. eapply Rle_trans; [apply (near_close 4), (near_mono k 4); done|].
    apply Rmult_le_compat_r; [apply Rabs_pos|done]. }
  assert (Kt : ∀ c k x y, (k <= 4)%nat → good c k x (y / val ht) → finite x ∧ close e (val x) (y / t)).
  { intros c k x y Hk (Fx & Nx & _). split; [done|]. apply (close_scaled eps 4 (val x) y (val ht)); [done|done|done|]. by apply (near_mono k 4). }
  assert (Hd : val f - val n ≠ 0) by lra.
  assert (Gh : good b 0 ht (val ht)) by (by apply good_leaf).
  assert (Ga : good (b + b) 1 (Bmult mode_NE aspect ht) (val aspect * val ht)) by (apply (good_mult b b 0 0); [lia|lia|lia|lia|by apply good_leaf|done]).
  assert (Gd : good b 1 (Bminus mode_NE f n) (val f - val n)) by (apply good_minus; [lia|lia|done|done|done]).
  assert (Gs : good b 1 (Bplus mode_NE f n) (val f + val n)) by (apply good_plus; [lia|lia|done|done|done]).
  assert (G2 : good (1 + b + b) 2 (Bmult mode_NE (Bmult mode_NE two f) n) (2 * val f * val n)).
  { apply (good_mult (1 + b) b 1 0); [lia|lia|lia|lia| |by apply good_leaf]. apply (good_mult 1 b 0 0); [lia|lia|lia|lia|done|by apply good_leaf]. }
  assert (R00 : finite (Bdiv mode_NE Bone (Bmult mode_NE aspect ht)) ∧ close e (val (Bdiv mode_NE Bone (Bmult mode_NE aspect ht))) (1 / (val aspect * t))).
  { replace (1 / (val aspect * t)) with (1 / val aspect / t) by (field; done). apply (Kt (0 + (b + b))%Z 2%nat); [lia|].
    replace (1 / val aspect / val ht) with (1 / (val aspect * val ht)) by (field; done).
    apply (good_div 0 (b + b) 0 1); [lia|lia|lia|lia| |done|done]. by apply Rmult_integral_contrapositive_currified. }
  assert (R11 : finite (Bdiv mode_NE Bone ht) ∧ close e (val (Bdiv mode_NE Bone ht)) (1 / t)).
  { apply (Kt (0 + b)%Z 1%nat); [lia|]. by apply (good_div 0 b 0 0); [lia|lia|lia|lia| | |]. }
  assert (R32 : finite (Bdiv mode_NE (Bopp (Bmult mode_NE (Bmult mode_NE two f) n)) (Bminus mode_NE f n)) ∧
    close e (val (Bdiv mode_NE (Bopp (Bmult mode_NE (Bmult mode_NE two f) n)) (Bminus mode_NE f n))) (- (2 * val f * val n) / (val f - val n))).
  { apply (K (1 + b + b + b)%Z 4%nat); [lia|]. apply (good_div (1 + b + b) b 2 1); [lia|lia|lia|lia|done|by apply good_opp|done]. }
  assert (Z := close_zero e E0).
  assert (O : finite (Bone : F) ∧ close e (val Bone) 1) by (apply (K 0%Z 0%nat); [lia|done]).
  assert (O' : finite (Bopp Bone : F) ∧ close e (val (Bopp Bone)) (-1)).
  { replace (-1) with (- (1)) by lra. apply (K 0%Z 0%nat); [lia|by apply good_opp]. }
  set (z := B754_zero false : F) in *.
  set (e00 := Bdiv mode_NE Bone (Bmult mode_NE aspect ht)) in *. set (e11 := Bdiv mode_NE Bone ht) in *. set (e32 := Bdiv mode_NE (Bopp _) _) in *.
  exists [[e00; z; z; z]; [z; e11; z; z]; [z; z; Bdiv mode_NE (Bopp (Bplus mode_NE f n)) (Bminus mode_NE f n); Bopp Bone]; [z; z; e32; z]],
    [[e00; z; z; z]; [z; e11; z; z]; [z; z; Bdiv mode_NE (Bplus mode_NE f n) (Bminus mode_NE f n); Bone]; [z; z; e32; z]].
  split; [reflexivity|]. split; [reflexivity|]. unfold projection_matrix.
  assert (R22 : finite (Bdiv mode_NE (Bopp (Bplus mode_NE f n)) (Bminus mode_NE f n)) ∧
    close e (val (Bdiv mode_NE (Bopp (Bplus mode_NE f n)) (Bminus mode_NE f n))) (-1 * (val f + val n) / (val f - val n))).
  { replace (-1 * (val f + val n) / (val f - val n)) with (- (val f + val n) / (val f - val n)) by (field; done).
    apply (K (b + b)%Z 3%nat); [lia|]. apply (good_div b b 1 1); [lia|lia|lia|lia|done|by apply good_opp|done]. }
  assert (L22 : finite (Bdiv mode_NE (Bplus mode_NE f n) (Bminus mode_NE f n)) ∧
    close e (val (Bdiv mode_NE (Bplus mode_NE f n) (Bminus mode_NE f n))) (1 * (val f + val n) / (val f - val n))).
  { replace (1 * (val f + val n) / (val f - val n)) with ((val f + val n) / (val f - val n)) by (field; done).
    apply (K (b + b)%Z 3%nat); [lia|]. by apply (good_div b b 1 1); [lia|lia|lia|lia| | |]. }
  split; repeat (first [apply Forall2_nil_2|apply Forall2_cons_2; [first [exact Z|exact O|exact O'|exact R00|exact R11|exact R32|exact R22|exact L22|idtac]|]]).
Qed.

(** ** Frusta and boxes *)
(** The same functions in exact arithmetic; what they give is the subject of C64. *)
Theorem box_float_error : ∀ (two left right bottom top near far : F) b,
  (1 <= b)%Z → (3 * b + 4 <= emax)%Z → Forall finite [two; left; right; bottom; top; near; far] → val two = 2 →
  Forall (moderate b) [val near; val far; val right - val left; val right + val left; val top - val bottom; val top + val bottom;
    val far - val near; val far + val near; val right - val near] →
  val right ≠ val left → val top ≠ val bottom → val far ≠ val near →
  (∃ m s, ortho_rh N two left right bottom top near far = Some m ∧
    ortho_rh rnum 2 (val left) (val right) (val bottom) (val top) (val near) (val far) = Some s ∧ close_entries ((/ (1 - u)) ^ 4 - 1) m s) ∧
  (∃ m s, ortho_lh N two left right bottom top near far = Some m ∧
    ortho_lh rnum 2 (val left) (val right) (val bottom) (val top) (val near) (val far) = Some s ∧ close_entries ((/ (1 - u)) ^ 4 - 1) m s) ∧
  (val right ≠ val near →
   (∃ m s, frustum_rh N two left right bottom top near far = Some m ∧
     frustum_rh rnum 2 (val left) (val right) (val bottom) (val top) (val near) (val far) = Some s ∧ close_entries ((/ (1 - u)) ^ 4 - 1) m s) ∧
   (∃ m s, frustum_lh N two left right bottom top near far = Some m ∧
     frustum_lh rnum 2 (val left) (val right) (val bottom) (val top) (val near) (val far) = Some s ∧ close_entries ((/ (1 - u)) ^ 4 - 1) m s)).
Proof.
  intros two l r bo t n f b Hb He HF V2 HM Hrl Htb Hfn.
  repeat (apply Forall_cons in HF as [? HF]). clear HF. repeat (apply Forall_cons in HM as [? HM]). clear HM. cbv beta in *.
  assert (One : good 0 0 (Bone : F) 1).
  { split; [apply is_finite_Bone|]. rewrite Bone_correct. split; [apply near_exact|]. right. simpl. rewrite Rabs_R1. lra. }
  assert (Two : good 1 0 two 2).
  { split; [done|]. rewrite V2. split; [apply near_exact|]. right. simpl. rewrite Rabs_pos_eq by lra. lra. }
  set (e := (/ w) ^ 4 - 1) in *.
  assert (E0 : 0 <= e).
  { pose proof w_bounds. assert (1 <= (/ w) ^ 4) by (apply pow_R1_Rle; rewrite <- Rinv_1; apply Rinv_le_contravar; lra). unfold e. lra. }
  assert (K : ∀ c k x y, good c k x y → (k <= 4)%nat → finite x ∧ close e (val x) y).
  { intros c k x y (Fx & Nx & _) Hk. split; [done|]. apply (near_close 4), (near_mono k 4); done. }
  assert (Z := close_zero e E0).
  assert (D1 : val r - val l ≠ 0) by lra. assert (D2 : val t - val bo ≠ 0) by lra. assert (D3 : val f - val n ≠ 0) by lra.
  set (z := B754_zero false : F) in *.
  assert (G1 : good b 1 (Bminus mode_NE r l) (val r - val l)) by (apply good_minus; [lia|lia|done|done|done]).
  assert (G2 : good b 1 (Bplus mode_NE r l) (val r + val l)) by (apply good_plus; [lia|lia|done|done|done]).
  assert (G3 : good b 1 (Bminus mode_NE t bo) (val t - val bo)) by (apply good_minus; [lia|lia|done|done|done]).
  assert (G4 : good b 1 (Bplus mode_NE t bo) (val t + val bo)) by (apply good_plus; [lia|lia|done|done|done]).
  assert (G5 : good b 1 (Bminus mode_NE f n) (val f - val n)) by (apply good_minus; [lia|lia|done|done|done]).
  assert (G6 : good b 1 (Bplus mode_NE f n) (val f + val n)) by (apply good_plus; [lia|lia|done|done|done]).
  assert (G7 : good b 1 (Bminus mode_NE r n) (val r - val n)) by (apply good_minus; [lia|lia|done|done|done]).
  set (d1 := Bminus mode_NE r l) in *. set (s1 := Bplus mode_NE r l) in *. set (d2 := Bminus mode_NE t bo) in *. set (s2 := Bplus mode_NE t bo) in *.
  set (d3 := Bminus mode_NE f n) in *. set (s3 := Bplus mode_NE f n) in *. set (d4 := Bminus mode_NE r n) in *.
  set (vd1 := val r - val l) in *. set (vs1 := val r + val l) in *. set (vd2 := val t - val bo) in *. set (vs2 := val t + val bo) in *.
  set (vd3 := val f - val n) in *. set (vs3 := val f + val n) in *. set (vd4 := val r - val n) in *.
  assert (Gn : good b 0 n (val n)) by (by apply good_leaf). assert (Gf : good b 0 f (val f)) by (by apply good_leaf).
  assert (Q : ∀ x y dx dy j, (j <= 2)%nat → dy ≠ 0 → good (1 + b + b) j x y → good b 1 dx dy → finite (Bdiv mode_NE x dx) ∧ close e (val (Bdiv mode_NE x dx)) (y / dy)).
  { intros x y dx dy j Hj Hdy Gx Gy. apply (K (1 + b + b + b)%Z (S (j + 1))); [|lia]. apply good_div; [lia|lia|lia|lia|done|done|done]. }
  assert (W : ∀ c j x y, (c <= 1 + b + b)%Z → good c j x y → good (1 + b + b) j x y).
  { intros c j x y Hc (A1 & A2 & A3). split; [done|]. split; [done|]. by apply (moderate_mono c). }
  assert (N2 : good (1 + b) 1 (Bmult mode_NE two n) (2 * val n)) by (apply (good_mult 1 b 0 0); [lia|lia|lia|lia|done|done]).
  assert (NF : good (1 + b + b) 2 (Bmult mode_NE (Bmult mode_NE two f) n) (2 * val f * val n)).
  { apply (good_mult (1 + b) b 1 0); [lia|lia|lia|lia| |done]. apply (good_mult 1 b 0 0); [lia|lia|lia|lia|done|done]. }
  assert (O : finite (Bone : F) ∧ close e (val Bone) 1) by (apply (K 0%Z 0%nat); [done|lia]).
  assert (O' : finite (Bopp Bone : F) ∧ close e (val (Bopp Bone)) (- (1))) by (apply (K 0%Z 0%nat); [by apply good_opp|lia]).
  split_and!; [| |intros Hrn; assert (D4 : vd4 ≠ 0) by (unfold vd4; lra); split].
  - exists [[Bdiv mode_NE two d1; z; z; z]; [z; Bdiv mode_NE (Bopp two) d3; z; z];
            [Bdiv mode_NE (Bopp s1) d1; Bdiv mode_NE (Bopp s2) d2; Bdiv mode_NE (Bopp s3) d3; z]; [z; z; z; Bone]],
      [[2 / vd1; 0; 0; 0]; [0; - (2) / vd3; 0; 0]; [- vs1 / vd1; - vs2 / vd2; - vs3 / vd3; 0]; [0; 0; 0; 1]].
    split; [reflexivity|]. split; [reflexivity|].
    repeat (first [apply Forall2_nil_2|apply Forall2_cons_2]);
      first [exact Z|exact O|exact O'|eapply Q; [| | |done]; [|done|]; [|eapply W; [|first [eassumption|apply good_opp; eassumption]]; lia]; lia].
  - exists [[Bdiv mode_NE two d1; z; z; z]; [z; Bdiv mode_NE two d3; z; z];
            [Bdiv mode_NE (Bopp s1) d1; Bdiv mode_NE (Bopp s2) d2; Bdiv mode_NE (Bopp s3) d3; z]; [z; z; z; Bone]],
      [[2 / vd1; 0; 0; 0]; [0; 2 / vd3; 0; 0]; [- vs1 / vd1; - vs2 / vd2; - vs3 / vd3; 0]; [0; 0; 0; 1]].
    split; [reflexivity|]. split; [reflexivity|].
    repeat (first [apply Forall2_nil_2|apply Forall2_cons_2]);
      first [exact Z|exact O|exact O'|eapply Q; [| | |done]; [|done|]; [|eapply W; [|first [eassumption|apply good_opp; eassumption]]; lia]; lia].
  - exists [[Bdiv mode_NE (Bmult mode_NE two n) d1; z; z; z]; [z; Bdiv mode_NE (Bmult mode_NE two n) d2; z; z];
            [Bdiv mode_NE s1 d4; Bdiv mode_NE s2 d2; Bdiv mode_NE (Bopp s3) d3; Bopp Bone]; [z; z; Bdiv mode_NE (Bopp (Bmult mode_NE (Bmult mode_NE two f) n)) d3; z]],
      [[2 * val n / vd1; 0; 0; 0]; [0; 2 * val n / vd2; 0; 0]; [vs1 / vd4; vs2 / vd2; - vs3 / vd3; - (1)]; [0; 0; - (2 * val f * val n) / vd3; 0]].
    split; [reflexivity|]. split; [reflexivity|].
    repeat (first [apply Forall2_nil_2|apply Forall2_cons_2]);
      first [exact Z|exact O|exact O'|eapply Q; [| | |done]; [|done|]; [|eapply W; [|first [eassumption|apply good_opp; eassumption]]; lia]; lia].
  - exists [[Bdiv mode_NE (Bmult mode_NE two n) d1; z; z; z]; [z; Bdiv mode_NE (Bmult mode_NE two n) d2; z; z];
            [Bdiv mode_NE (Bopp s1) d4; Bdiv mode_NE (Bopp s2) d2; Bdiv mode_NE s3 d3; Bone]; [z; z; Bdiv mode_NE (Bopp (Bmult mode_NE (Bmult mode_NE two f) n)) d3; z]],
      [[2 * val n / vd1; 0; 0; 0]; [0; 2 * val n / vd2; 0; 0]; [- vs1 / vd4; - vs2 / vd2; vs3 / vd3; 1]; [0; 0; - (2 * val f * val n) / vd3; 0]].
    split; [reflexivity|]. split; [reflexivity|].
    repeat (first [apply Forall2_nil_2|apply Forall2_cons_2]);
      first [exact Z|exact O|exact O'|eapply Q; [| | |done]; [|done|]; [|eapply W; [|first [eassumption|apply good_opp; eassumption]]; lia]; lia].
Qed.
End proj.

(** * Single precision *)
Local Notation f32 := (binary_float 24 128).
Local Notation N32 := (fnum 24 128).
Local Notation val32 := (B2R (prec:=24) (emax:=128)).
Lemma close_mono e e' x y : e <= e' → close e x y → close e' x y.
Proof. intros He H. eapply Rle_trans; [exact H|]. apply Rmult_le_compat_r; [apply Rabs_pos|done]. Qed.
Lemma entries_mono e e' (r : list (list f32)) s : e <= e' →
  Forall2 (Forall2 (λ (x : f32) y, is_finite x = true ∧ close e (B2R x) y)) r s → Forall2 (Forall2 (λ (x : f32) y, is_finite x = true ∧ close e' (B2R x) y)) r s.
Proof.
  intros He H. eapply Forall2_impl; [exact H|]. intros a c Hac. eapply Forall2_impl; [exact Hac|].
  intros x y [Hf Hc]. split; [done|]. by apply (close_mono e).
Qed.
Lemma error32 : (/ (1 - u 24)) ^ 4 - 1 <= / 2097152 ∧ (/ (1 - u 24)) ^ 4 / (1 - / 8388608) - 1 <= / 2097152.
Proof.
  rewrite u32. rewrite pow_inv. set (x := (1 - / 16777216) ^ 4).
  assert (X : 1 - / 4194304 <= x) by (unfold x; lra).
  assert (/ x <= / (1 - / 4194304)) by (apply Rinv_le_contravar; lra). split; [lra|].
  unfold Rdiv. apply (Rplus_le_reg_r 1). ring_simplify. apply Rle_trans with (/ (1 - / 4194304) * / (1 - / 8388608)); [|lra].
  apply Rmult_le_compat_r; [|done]. lra.
Qed.
(** With a tangent that is right up to a relative error of 2^-23: all sizes and distances
    from 2^-41 to 2^41 give entries with a relative error of at most 2^-21. *)
Theorem projection_float32_partial :
  (∀ (tn : f32 → f32) (two fov aspect near far : f32), let t := tan (val32 fov / 2) in
    Forall (λ x : f32, is_finite x = true) [two; fov; aspect; near; far] → val32 two = 2 →
    (∀ x, val32 x = val32 fov / 2 → is_finite (tn x) = true ∧ close (/ 8388608) (val32 (tn x)) t) →
    Forall (moderate 41) [val32 fov; val32 aspect; val32 near; val32 far; val32 far + val32 near; val32 far - val32 near] → moderate 40 t →
    val32 fov ≠ 0 → val32 aspect ≠ 0 → val32 far ≠ val32 near → t ≠ 0 → ∃ r l,
    fov_rh N32 tn two fov aspect near far = Some r ∧ fov_lh N32 tn two fov aspect near far = Some l ∧
    Forall2 (Forall2 (λ (x : f32) y, is_finite x = true ∧ close (/ 2097152) (val32 x) y)) r (projection_matrix (-1) t (val32 aspect) (val32 near) (val32 far)) ∧
    Forall2 (Forall2 (λ (x : f32) y, is_finite x = true ∧ close (/ 2097152) (val32 x) y)) l (projection_matrix 1 t (val32 aspect) (val32 near) (val32 far))).
Proof.
  intros tn two fov aspect n f t HF V2 Htn HM Mt Hfov Ha Hd Ht.
  destruct (fov_float_error 24 128 ltac:(lia) tn two fov aspect n f 41 (/ 8388608)) as (r & l & Hr & Hl & Cr & Cl); try done; try lia; [lra|].
  exists r, l. split; [done|]. split; [done|]. destruct error32 as [_ E]. by split; eapply entries_mono.
Qed.
(** A far plane at 2^127, which is less than half the largest number: twice its distance is
    infinite, and so is an entry whose exact value is about -2. *)
Theorem projection_float_far_refuted : ∃ near far : f32, is_finite near = true ∧ is_finite far = true ∧ 0 < val32 near < val32 far ∧
  -3 <= - (2 * val32 far * val32 near) / (val32 far - val32 near) <= -2 ∧
  ∀ tn fov aspect, ∃ r x, fov_rh N32 tn (float32 2 0) fov aspect near far = Some r ∧ r !! 3%nat ≫= (.!! 2%nat) = Some x ∧ is_finite x = false.
Proof.
  exists (float32 1 0), (float32 1 127). split; [vm_compute; reflexivity|]. split; [vm_compute; reflexivity|].
  assert (V1 : val32 (float32 1 0) = 1) by (float_val; numerals; lra).
  assert (V2 : val32 (float32 1 127) = 2 ^ 127).
  { float_val; numerals; lra. }
  rewrite V1, V2. split; [lra|]. split.
  - set (x := 2 ^ 127). assert (3 < x) by (unfold x; lra). split.
    + apply (Rmult_le_reg_r (x - 1)); [lra|]. field_simplify; lra.
    + apply (Rmult_le_reg_r (x - 1)); [lra|]. field_simplify; lra.
  - intros tn fov aspect. eexists _, _. split; [reflexivity|]. split; [reflexivity|]. vm_compute. reflexivity.
Qed.
(** The same for boxes: no tangent, and the bound 2^-22 + 2^-40 per entry *)
Theorem box_float32_partial : ∀ (two left right bottom top near far : f32),
  Forall (λ x : f32, is_finite x = true) [two; left; right; bottom; top; near; far] → val32 two = 2 →
  Forall (moderate 41) [val32 near; val32 far; val32 right - val32 left; val32 right + val32 left; val32 top - val32 bottom; val32 top + val32 bottom;
    val32 far - val32 near; val32 far + val32 near; val32 right - val32 near] →
  val32 right ≠ val32 left → val32 top ≠ val32 bottom → val32 far ≠ val32 near →
  Forall (λ f : ∀ T, num T → T → T → T → T → T → T → T → option (list (list T)), ∃ m s,
    f f32 N32 two left right bottom top near far = Some m ∧ f R rnum 2 (val32 left) (val32 right) (val32 bottom) (val32 top) (val32 near) (val32 far) = Some s ∧
    Forall2 (Forall2 (λ (x : f32) y, is_finite x = true ∧ close (/ 4194304 + / 1099511627776) (val32 x) y)) m s)
    ([@ortho_rh; @ortho_lh] ++ (if Req_EM_T (val32 right) (val32 near) then [] else [@frustum_rh; @frustum_lh])).
Proof.
  intros two l r b t n f HF V2 HM Hr Ht Hf.
  assert (E : (/ (1 - u 24)) ^ 4 - 1 <= / 4194304 + / 1099511627776) by (rewrite u32; interval with (i_prec 80)).
  destruct (box_float_error 24 128 ltac:(lia) two l r b t n f 41) as ((m1 & s1 & A1 & B1 & C1) & (m2 & s2 & A2 & B2 & C2) & H); try done; try lia.
  apply Forall_app. split.
  - repeat apply Forall_cons_2; [exists m1, s1|exists m2, s2|by apply Forall_nil]; (split; [done|]); (split; [done|]); by eapply entries_mono.
  - destruct (Req_EM_T (val32 r) (val32 n)) as [|Hn]; [by apply Forall_nil|].
    destruct (H Hn) as ((m3 & s3 & A3 & B3 & C3) & (m4 & s4 & A4 & B4 & C4)).
    repeat apply Forall_cons_2; [exists m3, s3|exists m4, s4|by apply Forall_nil]; (split; [done|]); (split; [done|]); by eapply entries_mono.
Qed.

(** ** Examples *)
Lemma moderate_between b x : bpow radix2 (- b) <= Rabs x <= bpow radix2 b → moderate b x.
Proof. by right. Qed.
(** A field of view of one radian, and a tangent that is the nearest float *)
Example projection_float32_ex : let tn := λ _ : f32, float32 9165435 (-24) in let two := float32 2 0 in
  let fov := float32 1 0 in let aspect := float32 3 (-1) in let n := float32 1 (-3) in let f := float32 1000 0 in
  let t := tan (val32 fov / 2) in
  Forall (λ x : f32, is_finite x = true) [two; fov; aspect; n; f] ∧ val32 two = 2 ∧
  (∀ x, val32 x = val32 fov / 2 → is_finite (tn x) = true ∧ close (/ 8388608) (val32 (tn x)) t) ∧
  Forall (moderate 41) [val32 fov; val32 aspect; val32 n; val32 f; val32 f + val32 n; val32 f - val32 n] ∧ moderate 40 t ∧
  val32 fov ≠ 0 ∧ val32 aspect ≠ 0 ∧ val32 f ≠ val32 n ∧ t ≠ 0.
Proof.
  cbv zeta.
  assert (V2 : val32 (float32 2 0) = 2) by (float_val; numerals; lra).
  assert (V1 : val32 (float32 1 0) = 1) by (float_val; numerals; lra).
  assert (Va : val32 (float32 3 (-1)) = 3 / 2) by (float_val; numerals; lra).
  assert (Vn : val32 (float32 1 (-3)) = 1 / 8) by (float_val; numerals; lra).
  assert (Vf : val32 (float32 1000 0) = 1000) by (float_val; numerals; lra).
  assert (Vt : val32 (float32 9165435 (-24)) = 9165435 / 16777216) by (float_val; numerals; lra).
  rewrite V2, V1, Va, Vn, Vf.
  assert (T : 5463024 / 10000000 <= tan (1 / 2) <= 5463026 / 10000000) by (split; interval).
  split; [repeat (apply Forall_cons_2; [vm_compute; reflexivity|]); by apply Forall_nil|]. split; [done|]. split.
  { intros _ _. split; [vm_compute; reflexivity|]. unfold close. rewrite Vt. rewrite (Rabs_right (tan (1 / 2))) by lra.
    apply Rle_trans with (/ 16777216); [interval with (i_prec 60)|]. lra. }
  split.
  { repeat (apply Forall_cons_2; [right; rewrite Rabs_right by lra; simpl; lra|]). by apply Forall_nil. }
  split; [right; rewrite Rabs_right by lra; simpl; lra|]. lra.
Qed.
Example box_float32_ex : let two := float32 2 0 in let l := float32 (-4) 0 in let r := float32 4 0 in let b := float32 (-3) 0 in
  let t := float32 5 0 in let n := float32 1 (-1) in let f := float32 100 0 in
  Forall (λ x : f32, is_finite x = true) [two; l; r; b; t; n; f] ∧ val32 two = 2 ∧
  Forall (moderate 41) [val32 n; val32 f; val32 r - val32 l; val32 r + val32 l; val32 t - val32 b; val32 t + val32 b; val32 f - val32 n; val32 f + val32 n; val32 r - val32 n] ∧
  val32 r ≠ val32 l ∧ val32 t ≠ val32 b ∧ val32 f ≠ val32 n ∧ val32 r ≠ val32 n.
Proof.
  cbv zeta.
  assert (V2 : val32 (float32 2 0) = 2) by (float_val; numerals; lra).
  assert (Vl : val32 (float32 (-4) 0) = -4) by (float_val; numerals; lra).
  assert (Vr : val32 (float32 4 0) = 4) by (float_val; numerals; lra).
  assert (Vb : val32 (float32 (-3) 0) = -3) by (float_val; numerals; lra).
  assert (Vt : val32 (float32 5 0) = 5) by (float_val; numerals; lra).
  assert (Vn : val32 (float32 1 (-1)) = 1 / 2) by (float_val; numerals; lra).
  assert (Vf : val32 (float32 100 0) = 100) by (float_val; numerals; lra).
  rewrite V2, Vl, Vr, Vb, Vt, Vn, Vf.
  split; [repeat (apply Forall_cons_2; [vm_compute; reflexivity|]); by apply Forall_nil|]. split; [done|]. split.
  { repeat (apply Forall_cons_2; [first [left; lra|right; rewrite Rabs_right by lra; simpl; lra]|]). by apply Forall_nil. }
  lra.
Qed.
(** What the program computes when no rounding is needed *)
Example box_float32_ex2 : ∃ m, ortho_rh N32 (float32 2 0) (float32 (-4) 0) (float32 4 0) (float32 (-3) 0) (float32 5 0) (float32 1 (-1)) (float32 17 (-1)) = Some m ∧
  val32 (entry m 0 0) = 1 / 4 ∧ val32 (entry m 1 1) = -1 / 4 ∧ val32 (entry m 2 1) = -1 / 4 ∧ val32 (entry m 2 2) = -9 / 8.
Proof. eexists. split; [reflexivity|]. unfold entry. cbn [lookup list_lookup default from_option]. split_and!; float_val; numerals; lra. Qed.

Definition floatproj_theorems := (fov_float_error, box_float_error, projection_float32_partial, projection_float_far_refuted, box_float32_partial).
Print Assumptions floatproj_theorems.
