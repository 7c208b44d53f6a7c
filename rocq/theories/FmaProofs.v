(** Rounding errors of expressions whose operations may be fused. *)
From stdpp Require Import list.
From Coq Require Import ZArith Lia Reals Lra Psatz.
From Flocq Require Import Core BinarySingleNaN Relative.
From Verif Require Import VecModel VecSpec VecProofs FloatModel FloatProps FloatOpsProps FloatExprProofs FmaModel.
Local Open Scope R_scope.

Section fma.
Context (prec emax : Z) {Hprec : Prec_gt_0 prec} {Hmax : Prec_lt_emax prec emax}.
Local Notation F := (binary_float prec emax).
Local Notation N := (fnum prec emax).
Local Notation finite := (λ x : F, is_finite x = true).
Local Notation val := (B2R (prec:=prec) (emax:=emax)).
Local Notation fexp := (SpecFloat.fexp prec emax).
Local Notation rnd := (round radix2 fexp ZnearestE).
Local Notation u := (u prec).
Local Notation eta := (eta prec emax).
Local Notation expr := (expr prec emax).
Local Notation xnum := (xnum prec emax).
Local Notation fl := (fl prec emax).
Local Notation real := (real prec emax).
Local Notation maj := (maj prec emax).
Local Notation depth := (depth prec emax).
Local Notation und := (und prec emax).
Local Notation bound := (bound prec emax).
Local Notation leaves := (leaves prec emax).
Local Notation log := (log prec emax).
Local Notation result := (result prec emax).

(** * A fused operation *)
Lemma fma_finite (x y z : F) : finite (Bfma mode_NE x y z) → finite x ∧ finite y ∧ finite z ∧ val (Bfma mode_NE x y z) = rnd (val x * val y + val z).
Proof.
  intros H. assert (Hxyz : finite x ∧ finite y ∧ finite z).
  { destruct x as [sx|sx| |sx mx ex Hx], y as [sy|sy| |sy my ey Hy], z as [sz|sz| |sz mz ez Hz];
      try (split_and!; reflexivity); try discriminate; exfalso; cbn in H; try discriminate; destruct (eqb _ _); discriminate. }
  destruct Hxyz as (Hx & Hy & Hz). do 3 (split; [done|]). pose proof (Bfma_correct prec emax _ _ mode_NE x y z Hx Hy Hz) as C. cbv zeta in C.
  destruct (Rlt_bool _ _); [apply C|]. exfalso.
  assert (S : is_finite_SF (B2SF (Bfma mode_NE x y z)) = true) by (rewrite is_finite_SF_B2SF; exact H). rewrite C in S. discriminate.
Qed.
Lemma fma_safe (x y z : F) : finite x → finite y → finite z → Rabs (rnd (val x * val y + val z)) < bpow radix2 emax → finite (Bfma mode_NE x y z).
Proof.
  intros Hx Hy Hz H. pose proof (Bfma_correct prec emax _ _ mode_NE x y z Hx Hy Hz) as C. cbv zeta in C. rewrite Rlt_bool_true in C by exact H. apply C.
Qed.
(** Either the result underflows or there is a relative error. *)
Lemma rnd_either x : ∃ d e, Rabs d <= u ∧ Rabs e <= eta ∧ (d = 0 ∨ e = 0) ∧ rnd x = x * (1 + d) + e.
Proof.
  destruct (error_N_FLT radix2 (SpecFloat.emin prec emax) prec Hprec (λ t, negb (Z.even t)) x) as (d & e & Hd & He & Z & E).
  rewrite u_eq in Hd. rewrite eta_eq in He. exists d, e. do 2 (split; [done|]). split; [|done]. by apply Rmult_integral.
Qed.
Lemma opp_finite (x : F) : is_finite (Bopp x) = is_finite x.
Proof. apply is_finite_Bopp. Qed.

(** * The error of an expression *)
Lemma sum_err2 a b ra rb x y t : Rabs (x - ra) <= bound a → Rabs (y - rb) <= bound b → Rabs ra <= maj a → Rabs rb <= maj b → Rabs t <= u →
  Rabs ((x + y) * (1 + t) - (ra + rb)) <= bound (Plus a b).
Proof.
  intros Hx Hy Ra Rb Ht. pose proof (u_pos prec) as Hu.
  replace ((x + y) * (1 + t) - (ra + rb)) with ((x - ra) * (1 + t) + ((y - rb) * (1 + t) + (ra * t + rb * t))) by ring.
  eapply Rle_trans; [apply abs_sum4|]. rewrite !Rabs_mult.
  assert (H1t : Rabs (1 + t) <= 1 + u) by (eapply Rle_trans; [apply Rabs_triang|]; rewrite Rabs_R1; lra).
  assert (Rabs (x - ra) * Rabs (1 + t) <= bound a * (1 + u)) by (apply Rmult_le_compat; auto using Rabs_pos).
  assert (Rabs (y - rb) * Rabs (1 + t) <= bound b * (1 + u)) by (apply Rmult_le_compat; auto using Rabs_pos).
  assert (Rabs ra * Rabs t <= maj a * u) by (apply Rmult_le_compat; auto using Rabs_pos).
  assert (Rabs rb * Rabs t <= maj b * u) by (apply Rmult_le_compat; auto using Rabs_pos).
  unfold FloatExprProofs.bound in *. simpl. set (k := Nat.max (depth a) (depth b)).
  assert ((1 + u) ^ depth a <= (1 + u) ^ k) by (apply Rle_pow; [lra|lia]).
  assert ((1 + u) ^ depth b <= (1 + u) ^ k) by (apply Rle_pow; [lra|lia]).
  pose proof (maj_nonneg prec emax a). pose proof (maj_nonneg prec emax b).
  assert (((1 + u) ^ k - (1 + u) ^ depth a) * maj a * (1 + u) >= 0) by (apply Rle_ge; repeat apply Rmult_le_pos; lra).
  assert (((1 + u) ^ k - (1 + u) ^ depth b) * maj b * (1 + u) >= 0) by (apply Rle_ge; repeat apply Rmult_le_pos; lra).
  set (pa := (1 + u) ^ depth a) in *. set (pb := (1 + u) ^ depth b) in *. set (pk := (1 + u) ^ k) in *.
  set (ea := eta * und a) in *. set (eb := eta * und b) in *.
  replace (eta * ((1 + u) * (und a + und b))) with ((1 + u) * (ea + eb)) by (unfold ea, eb; ring). lra.
Qed.
Lemma abs_flip x y : Rabs (- x - - y) = Rabs (x - y).
Proof. replace (- x - - y) with (- (x - y)) by ring. apply Rabs_Ropp. Qed.
(** s * (x * y) + s' * z for signs s and s' *)
Lemma fma_err a b c s s' x y z : (s = 1 ∨ s = -1) → (s' = 1 ∨ s' = -1) →
  Rabs (x - real a) <= bound a → Rabs (y - real b) <= bound b → Rabs (z - real c) <= bound c →
  Rabs (rnd (s * (x * y) + s' * z) - (s * (real a * real b) + s' * real c)) <= bound (Plus (Times a b) c).
Proof.
  intros Hs Hs' Hx Hy Hz. destruct (rnd_either (s * (x * y) + s' * z)) as (d & e & Hd & He & Hde & ->).
  assert (U0 : Rabs 0 <= u) by (rewrite Rabs_R0; apply Rlt_le, u_pos). assert (E0 : Rabs 0 <= eta) by (rewrite Rabs_R0; apply Rlt_le, eta_pos).
  assert (Q : ∀ r w k, (r = 1 ∨ r = -1) → Rabs (r * w - r * k) = Rabs (w - k)).
  { intros r w k [->| ->]; [by rewrite !Rmult_1_l|]. replace (-1 * w - -1 * k) with (- w - - k) by ring. apply abs_flip. }
  assert (Q' : ∀ r w, (r = 1 ∨ r = -1) → Rabs (r * w) = Rabs w).
  { intros r w [->| ->]; [by rewrite Rmult_1_l|]. replace (-1 * w) with (- w) by ring. apply Rabs_Ropp. }
  assert (P : ∀ e', Rabs e' <= eta → Rabs (s * (x * y) + e' - s * (real a * real b)) <= bound (Times a b)).
  { intros e' He'. replace (s * (x * y) + e') with (s * (x * y * (1 + 0) + s * e')).
    - rewrite Q by done. apply mul_err; [done..|]. by rewrite Q'.
    - destruct Hs as [->| ->]; ring. }
  assert (Mab : Rabs (s * (real a * real b)) <= maj (Times a b)) by (rewrite Q' by done; apply (real_maj prec emax (Times a b))).
  assert (Mc : Rabs (s' * real c) <= maj c) by (rewrite Q' by done; apply real_maj).
  destruct Hde as [-> | ->].
  - replace ((s * (x * y) + s' * z) * (1 + 0) + e) with ((s * (x * y) + e + s' * z) * (1 + 0)) by ring.
    apply sum_err2; try done; [by apply P|by rewrite Q].
  - rewrite Rplus_0_r. rewrite <- (Rplus_0_r (s * (x * y))). apply sum_err2; try done; [by apply P|by rewrite Q].
Qed.
Lemma bound_comm a b : bound (Plus a b) = bound (Plus b a).
Proof. unfold FloatExprProofs.bound. simpl. rewrite (Nat.max_comm (depth a)), (Rplus_comm (maj a)), (Rplus_comm (und a)). done. Qed.

(** Whatever is fused, the result of an expression is within the bound of FloatExprProofs.v. *)
Lemma result_error e x : result e x → finite x → Forall finite (leaves e) ∧ Rabs (val x - real e) <= bound e.
Proof.
  induction 1 as [f|a b x y Ra IHa Rb IHb|a b x y Ra IHa Rb IHb|a b x y Ra IHa Rb IHb|a b c x y z Ra IHa Rb IHb Rc IHc
    |a b c x y z Ra IHa Rb IHb Rc IHc|a b c x y z Ra IHa Rb IHb Rc IHc|a b c x y z Ra IHa Rb IHb Rc IHc]; intros H; cbn [FloatExprProofs.leaves FloatExprProofs.real].
  - split; [by repeat constructor|]. unfold FloatExprProofs.bound. simpl. rewrite Rminus_diag_eq, Rabs_R0 by done. lra.
  - apply (plus_finite prec emax) in H as (Ha & Hb & E). destruct (IHa Ha) as [La Ea]. destruct (IHb Hb) as [Lb Eb].
    split; [by apply Forall_app|]. destruct (rnd_plus prec emax (val x) (val y) (val_format _ _ _) (val_format _ _ _)) as (t & Ht & Et).
    rewrite E, Et. by apply sum_err.
  - apply (minus_finite prec emax) in H as (Ha & Hb & E). destruct (IHa Ha) as [La Ea]. destruct (IHb Hb) as [Lb Eb].
    split; [by apply Forall_app|]. destruct (rnd_minus prec emax x y) as (t & Ht & Et). rewrite E, Et.
    change (bound (Minus a b)) with (bound (Plus a b)). unfold Rminus at 2 3. apply sum_err2; try done; [by rewrite abs_flip|apply real_maj|rewrite Rabs_Ropp; apply real_maj].
  - apply (mult_finite prec emax) in H as (Ha & Hb & E). destruct (IHa Ha) as [La Ea]. destruct (IHb Hb) as [Lb Eb].
    split; [by apply Forall_app|]. destruct (rnd_mult prec emax (val x * val y)) as (t & e' & Ht & He & Et).
    rewrite E, Et. by apply mul_err.
  - apply fma_finite in H as (Hx & Hy & Hz & E). destruct (IHa Hx) as [La Ea]. destruct (IHb Hy) as [Lb Eb]. destruct (IHc Hz) as [Lc Ec].
    split; [rewrite !Forall_app; done|]. rewrite E. pose proof (fma_err a b c 1 1 (val x) (val y) (val z) (or_introl eq_refl) (or_introl eq_refl) Ea Eb Ec) as K.
    by rewrite !Rmult_1_l in K.
  - apply fma_finite in H as (Hx & Hy & Hz & E). destruct (IHa Hx) as [La Ea]. destruct (IHb Hy) as [Lb Eb]. destruct (IHc Hz) as [Lc Ec].
    split; [rewrite !Forall_app; done|]. rewrite E. pose proof (fma_err a b c 1 1 (val x) (val y) (val z) (or_introl eq_refl) (or_introl eq_refl) Ea Eb Ec) as K.
    rewrite !Rmult_1_l in K. by rewrite bound_comm, (Rplus_comm (real c)).
  - apply fma_finite in H as (Hx & Hy & Hz & E). rewrite opp_finite in Hz. rewrite B2R_Bopp in E. destruct (IHa Hx) as [La Ea]. destruct (IHb Hy) as [Lb Eb]. destruct (IHc Hz) as [Lc Ec].
    split; [rewrite !Forall_app; done|]. rewrite E. pose proof (fma_err a b c 1 (-1) (val x) (val y) (val z) (or_introl eq_refl) (or_intror eq_refl) Ea Eb Ec) as K.
    rewrite !Rmult_1_l in K. replace (-1 * val z) with (- val z) in K by ring. replace (-1 * real c) with (- real c) in K by ring. exact K.
  - apply fma_finite in H as (Hx & Hy & Hz & E). rewrite opp_finite in Hx. rewrite B2R_Bopp in E. destruct (IHa Hx) as [La Ea]. destruct (IHb Hy) as [Lb Eb]. destruct (IHc Hz) as [Lc Ec].
    split; [rewrite !Forall_app; done|]. rewrite E. pose proof (fma_err a b c (-1) 1 (val x) (val y) (val z) (or_intror eq_refl) (or_introl eq_refl) Ea Eb Ec) as K.
    rewrite !Rmult_1_l in K. change (bound (Minus c (Times a b))) with (bound (Plus c (Times a b))). rewrite bound_comm.
    replace (- val x * val y + val z) with (-1 * (val x * val y) + val z) by ring. replace (real c - real a * real b) with (-1 * (real a * real b) + real c) by ring. exact K.
Qed.
(** Without fused operations *)
Lemma result_fl e : result e (fl e).
Proof. induction e; simpl; by constructor. Qed.

(** No overflow *)
Lemma add_pow (x y : R) (j k : Z) : Rabs x <= bpow radix2 j → Rabs y <= bpow radix2 k → Rabs (x + y) <= bpow radix2 (Z.max j k + 1).
Proof.
  intros Hx Hy. eapply Rle_trans; [apply Rabs_triang|]. rewrite bpow_plus. change (bpow radix2 1) with 2.
  assert (bpow radix2 j <= bpow radix2 (Z.max j k)) by (apply bpow_le; lia). assert (bpow radix2 k <= bpow radix2 (Z.max j k)) by (apply bpow_le; lia). lra.
Qed.
Lemma mul_pow (x y : R) (j k : Z) : Rabs x <= bpow radix2 j → Rabs y <= bpow radix2 k → Rabs (x * y) <= bpow radix2 (j + k).
Proof. intros Hx Hy. rewrite Rabs_mult, bpow_plus. apply Rmult_le_compat; auto using Rabs_pos. Qed.
Lemma fma_pow x y z j : (0 <= j < emax)%Z → finite x → finite y → finite z → Rabs (val x * val y + val z) <= bpow radix2 j →
  finite (Bfma mode_NE x y z) ∧ Rabs (val (Bfma mode_NE x y z)) <= bpow radix2 j.
Proof.
  intros Hj Hx Hy Hz H. assert (K : Rabs (rnd (val x * val y + val z)) <= bpow radix2 j) by (apply (rnd_pow prec emax); [lia|done]).
  assert (Hf : finite (Bfma mode_NE x y z)) by (apply fma_safe; [done..|]; eapply Rle_lt_trans; [exact K|]; apply bpow_lt; lia).
  split; [done|]. by rewrite (proj2 (proj2 (proj2 (fma_finite _ _ _ Hf)))).
Qed.
Lemma result_finite b e x : (0 <= b)%Z → result e x → Forall (λ x, finite x ∧ Rabs (val x) <= bpow radix2 b) (leaves e) → (log b e < emax)%Z →
  finite x ∧ Rabs (val x) <= bpow radix2 (log b e).
Proof.
  intros Hb. induction 1 as [f|a c x y Ra IHa Rc IHc|a c x y Ra IHa Rc IHc|a c x y Ra IHa Rc IHc|a c e x y z Ra IHa Rc IHc Re IHe
    |a c e x y z Ra IHa Rc IHc Re IHe|a c e x y z Ra IHa Rc IHc Re IHe|a c e x y z Ra IHa Rc IHc Re IHe];
    cbn [FloatExprProofs.leaves FloatExprProofs.log]; intros HF Hl; rewrite ?Forall_app in HF.
  - by inversion HF.
  - destruct HF as [Fa Fc]. pose proof (log_nonneg prec emax b a Hb). pose proof (log_nonneg prec emax b c Hb).
    destruct (IHa Fa ltac:(lia)) as [Ha Ba]. destruct (IHc Fc ltac:(lia)) as [Hc Bc].
    assert (K : Rabs (rnd (val x + val y)) <= bpow radix2 (Z.max (log b a) (log b c) + 1)) by (apply (rnd_pow prec emax); [lia|by apply add_pow]).
    assert (Hf : finite (Bplus mode_NE x y)) by (apply plus_safe; [done|done|]; eapply Rle_lt_trans; [exact K|]; apply bpow_lt; lia).
    split; [exact Hf|]. apply (plus_finite prec emax) in Hf as (_ & _ & ->). exact K.
  - destruct HF as [Fa Fc]. pose proof (log_nonneg prec emax b a Hb). pose proof (log_nonneg prec emax b c Hb).
    destruct (IHa Fa ltac:(lia)) as [Ha Ba]. destruct (IHc Fc ltac:(lia)) as [Hc Bc].
    assert (K : Rabs (rnd (val x - val y)) <= bpow radix2 (Z.max (log b a) (log b c) + 1)) by (apply (rnd_pow prec emax); [lia|apply add_pow; [done|by rewrite Rabs_Ropp]]).
    assert (Hf : finite (Bminus mode_NE x y)) by (apply minus_safe; [done|done|]; eapply Rle_lt_trans; [exact K|]; apply bpow_lt; lia).
    split; [exact Hf|]. apply (minus_finite prec emax) in Hf as (_ & _ & ->). exact K.
  - destruct HF as [Fa Fc]. pose proof (log_nonneg prec emax b a Hb). pose proof (log_nonneg prec emax b c Hb).
    destruct (IHa Fa ltac:(lia)) as [Ha Ba]. destruct (IHc Fc ltac:(lia)) as [Hc Bc].
    assert (K : Rabs (rnd (val x * val y)) <= bpow radix2 (log b a + log b c)) by (apply (rnd_pow prec emax); [lia|by apply mul_pow]).
    assert (Hf : finite (Bmult mode_NE x y)) by (apply mult_safe; [done|done|]; eapply Rle_lt_trans; [exact K|]; apply bpow_lt; lia).
    split; [exact Hf|]. apply (mult_finite prec emax) in Hf as (_ & _ & ->). exact K.
  - destruct HF as [[Fa Fc] Fe]. pose proof (log_nonneg prec emax b a Hb). pose proof (log_nonneg prec emax b c Hb). pose proof (log_nonneg prec emax b e Hb).
    destruct (IHa Fa ltac:(lia)) as [Ha Ba]. destruct (IHc Fc ltac:(lia)) as [Hc Bc]. destruct (IHe Fe ltac:(lia)) as [He Be].
    apply fma_pow; [lia|done..|]. apply add_pow; [by apply mul_pow|done].
  - destruct HF as [Fe [Fa Fc]]. pose proof (log_nonneg prec emax b a Hb). pose proof (log_nonneg prec emax b c Hb). pose proof (log_nonneg prec emax b e Hb).
    destruct (IHa Fa ltac:(lia)) as [Ha Ba]. destruct (IHc Fc ltac:(lia)) as [Hc Bc]. destruct (IHe Fe ltac:(lia)) as [He Be].
    apply fma_pow; [lia|done..|]. rewrite Z.max_comm. apply add_pow; [by apply mul_pow|done].
  - destruct HF as [[Fa Fc] Fe]. pose proof (log_nonneg prec emax b a Hb). pose proof (log_nonneg prec emax b c Hb). pose proof (log_nonneg prec emax b e Hb).
    destruct (IHa Fa ltac:(lia)) as [Ha Ba]. destruct (IHc Fc ltac:(lia)) as [Hc Bc]. destruct (IHe Fe ltac:(lia)) as [He Be].
    apply fma_pow; [lia|done|done|by rewrite opp_finite|]. rewrite B2R_Bopp. apply add_pow; [by apply mul_pow|by rewrite Rabs_Ropp].
  - destruct HF as [Fe [Fa Fc]]. pose proof (log_nonneg prec emax b a Hb). pose proof (log_nonneg prec emax b c Hb). pose proof (log_nonneg prec emax b e Hb).
    destruct (IHa Fa ltac:(lia)) as [Ha Ba]. destruct (IHc Fc ltac:(lia)) as [Hc Bc]. destruct (IHe Fe ltac:(lia)) as [He Be].
    apply fma_pow; [lia|by rewrite opp_finite|done|done|]. rewrite B2R_Bopp, Z.max_comm. apply add_pow; [apply mul_pow; [by rewrite Rabs_Ropp|done]|done].
Qed.

(** * Sums of products *)
Definition xprods (x y : nat → F) : nat → expr := λ k, Times (X (x k)) (X (y k)).
Lemma result_prod (x y p : F) : result (Times (X x) (X y)) p → p = Bmult mode_NE x y.
Proof. inversion 1 as [| | |? ? ? ? Ha Hb| | | |]; subst. inversion Ha; subst. inversion Hb; subst. done. Qed.
Lemma result_X (x y : F) : result (X x) y → y = x.
Proof. by inversion 1. Qed.
(** A step of the loop: two roundings or one *)
Lemma result_step n x y s : result (sum xnum (S n) (xprods x y)) s → ∃ s', result (sum xnum n (xprods x y)) s' ∧
  (s = Bplus mode_NE s' (Bmult mode_NE (x n) (y n)) ∨ s = Bfma mode_NE (x n) (y n) s').
Proof.
  cbn [sum]. cbn [nadd FloatExprProofs.xnum]. intros H. inversion H as [|a b s' p Ha Hb| | |a b c x' y' z' Ha Hb Hc E|a b c x' y' z' Ha Hb Hc| |]; subst.
  - exists s'. split; [done|]. left. f_equal. by apply result_prod.
  - exfalso. destruct n; discriminate.
  - exists z'. split; [done|]. right. apply result_X in Ha, Hb. by subst.
Qed.
Lemma step_form (n : nat) (s : F) (p r : R) : (n = 0%nat → val s = 0) → (r = rnd (val s + rnd p) ∨ r = rnd (p + val s)) →
  ∃ d t e, Rabs d <= u ∧ Rabs t <= (1 + u) ^ S n - 1 ∧ Rabs e <= (1 + u) ^ S n * eta ∧ r = val s * (1 + d) + p * (1 + t) + e.
Proof.
  pose proof (u_pos prec) as Hu. pose proof (eta_pos prec emax) as He. intros Hn Hr.
  assert (B0 : 1 + u <= (1 + u) ^ S n) by (rewrite <- (pow_1 (1 + u)) at 1; apply Rle_pow; [lra|lia]).
  assert (E0 : (1 + u) * eta <= (1 + u) ^ S n * eta) by (apply Rmult_le_compat_r; lra).
  assert (E1 : eta <= (1 + u) * eta) by (pose proof (Rmult_le_pos _ _ (Rlt_le _ _ Hu) (Rlt_le _ _ He)); lra).
  destruct Hr as [-> | ->].
  - destruct (rnd_mult prec emax p) as (d & e & Hd & Hee & Ed). destruct n as [|n].
    + rewrite Hn by done. rewrite Rplus_0_l, round_generic by (try typeclasses eauto; apply generic_format_round; typeclasses eauto).
      exists 0, d, e. rewrite Rabs_R0, Ed. split_and!; lra.
    + destruct (rnd_plus prec emax (val s) (rnd p)) as (d' & Hd' & Ed'); [apply val_format|apply generic_format_round; typeclasses eauto|].
      rewrite Ed', Ed. exists d', (d + d' * (1 + d)), (e * (1 + d')).
      assert (B1 : ∀ d, Rabs d <= u → Rabs (1 + d) <= 1 + u) by (intros; eapply Rle_trans; [apply Rabs_triang|]; rewrite Rabs_R1; lra).
      split; [done|]. split; [|split; [|ring]].
      * apply Rle_trans with ((1 + u) ^ 2 - 1).
        -- eapply Rle_trans; [apply Rabs_triang|]. rewrite Rabs_mult.
           pose proof (Rmult_le_compat _ _ _ _ (Rabs_pos d') (Rabs_pos (1 + d)) Hd' (B1 d Hd)). simpl. lra.
        -- apply Rplus_le_compat_r, Rle_pow; [lra|lia].
      * rewrite Rabs_mult. eapply Rle_trans; [apply Rmult_le_compat; [apply Rabs_pos|apply Rabs_pos|exact Hee|by apply B1]|]. lra.
  - destruct (rnd_mult prec emax (p + val s)) as (d & e & Hd & Hee & ->). exists d, d, e. split_and!; [done|lra|lra|ring].
Qed.
Lemma result_sum_error x y n s : result (sum xnum n (xprods x y)) s → finite s →
  (∀ k, (k < n)%nat → finite (x k) ∧ finite (y k)) ∧
  Rabs (val s - rsum n (λ k, val (x k) * val (y k))) <=
    ((1 + u) ^ n - 1) * rsum n (λ k, Rabs (val (x k) * val (y k))) + INR n * (1 + u) ^ n * eta.
Proof.
  pose proof (u_pos prec) as Hu. pose proof (eta_pos prec emax) as He. revert s. induction n as [|n IH]; intros s Hs Hf.
  - cbn [sum] in Hs. apply result_X in Hs as ->. split; [intros; lia|]. simpl. rewrite Rabs_pos_eq; lra.
  - apply result_step in Hs as (s' & Hs' & Hcase).
    set (p := val (x n) * val (y n)).
    assert (K : finite s' ∧ finite (x n) ∧ finite (y n) ∧ (val s = rnd (val s' + rnd p) ∨ val s = rnd (p + val s'))).
    { destruct Hcase as [-> | ->].
      - apply (plus_finite prec emax) in Hf as (H1 & H2 & ->). apply (mult_finite prec emax) in H2 as (H3 & H4 & ->). auto.
      - apply fma_finite in Hf as (H1 & H2 & H3 & ->). auto. }
    destruct K as (Fs & Fx & Fy & Ev). destruct (IH s' Hs' Fs) as [Hk B]. split.
    { intros k Hkn. destruct (decide (k = n)) as [->|]; [done|]. apply Hk. lia. }
    apply (step_form n) in Ev as (d & t & e & Hd & Ht & Hee & ->).
    2: { intros ->. cbn [sum] in Hs'. apply result_X in Hs' as ->. done. }
    cbn [rsum]. fold p. set (P := rsum n _) in *. set (A := rsum n (λ k, Rabs _)) in *.
    assert (HA : 0 <= A) by apply rsum_abs_nonneg. assert (HP : Rabs P <= A) by apply rsum_abs.
    replace (val s' * (1 + d) + p * (1 + t) + e - (P + p)) with ((val s' - P) * (1 + d) + (P * d + (p * t + e))) by ring.
    eapply Rle_trans; [apply abs_sum4|]. rewrite !Rabs_mult.
    assert (B1 : Rabs (1 + d) <= 1 + u) by (eapply Rle_trans; [apply Rabs_triang|]; rewrite Rabs_R1; lra).
    eapply Rle_trans.
    { apply Rplus_le_compat; [apply Rmult_le_compat; [apply Rabs_pos|apply Rabs_pos|exact B|exact B1]|].
      apply Rplus_le_compat; [apply Rmult_le_compat; [apply Rabs_pos|apply Rabs_pos|exact HP|exact Hd]|].
      apply Rplus_le_compat; [apply Rmult_le_compat; [apply Rabs_pos|apply Rabs_pos|apply Rle_refl|exact Ht]|exact Hee]. }
    rewrite S_INR. cbn [pow]. apply Req_le. ring.
Qed.
Lemma result_sum_safe x y n s : result (sum xnum n (xprods x y)) s → (∀ k, (k < n)%nat → finite (x k) ∧ finite (y k)) →
  (1 + u) ^ n * (rsum n (λ k, Rabs (val (x k) * val (y k))) + INR n * eta) < bpow radix2 emax →
  finite s ∧ Rabs (val s) <= (1 + u) ^ n * (rsum n (λ k, Rabs (val (x k) * val (y k))) + INR n * eta).
Proof.
  pose proof (u_pos prec) as Hu. pose proof (eta_pos prec emax) as He. revert s. induction n as [|n IH]; intros s Hs Hk Hb.
  - cbn [sum] in Hs. apply result_X in Hs as ->. split; [reflexivity|]. simpl. rewrite Rabs_R0. lra.
  - apply result_step in Hs as (s' & Hs' & Hcase). cbn [rsum] in Hb |- *. set (p := val (x n) * val (y n)) in *. set (A := rsum n (λ k, Rabs _)) in *.
    assert (HA : 0 <= A) by apply rsum_abs_nonneg. pose proof (Rabs_pos p) as Hp0. pose proof (pow_u prec n) as Hq. pose proof (pos_INR n) as Hn.
    assert (EQ : (1 + u) ^ S n * (A + Rabs p + INR (S n) * eta) = (1 + u) * ((1 + u) ^ n * (A + INR n * eta)) + (1 + u) ^ S n * (Rabs p + eta)).
    { rewrite S_INR. cbn [pow]. ring. }
    rewrite EQ in Hb |- *. clear EQ.
    assert (H0 : 0 <= (1 + u) ^ n * (A + INR n * eta)) by (apply Rmult_le_pos; [lra|]; pose proof (Rmult_le_pos _ _ Hn (Rlt_le _ _ He)); lra).
    assert (Hq' : 1 + u <= (1 + u) ^ S n) by (rewrite <- (pow_1 (1 + u)) at 1; apply Rle_pow; [lra|lia]).
    assert (H1 : (1 + u) * (Rabs p + eta) <= (1 + u) ^ S n * (Rabs p + eta)) by (apply Rmult_le_compat_r; lra).
    set (m := (1 + u) ^ n * (A + INR n * eta)) in *. assert (Hum : 0 <= u * m) by (apply Rmult_le_pos; lra).
    assert (Hup : 0 <= u * Rabs p) by (apply Rmult_le_pos; lra). assert (Hue : 0 <= u * eta) by (apply Rmult_le_pos; lra).
    destruct (IH s' Hs') as [Fs Bs]; [intros; apply Hk; lia|fold m; lra|]. fold m in Bs. destruct (Hk n ltac:(lia)) as [Fx Fy].
    assert (Z : n = 0%nat → val s' = 0) by (intros ->; cbn [sum] in Hs'; by apply result_X in Hs' as ->).
    assert (M : ∀ r, (r = rnd (val s' + rnd p) ∨ r = rnd (p + val s')) → Rabs r <= (1 + u) * m + (1 + u) ^ S n * (Rabs p + eta)).
    { intros r Hr. apply (step_form n) in Hr as (d & t & e & Hd & Ht & Hee & ->); [|done].
      assert (B1 : Rabs (1 + d) <= 1 + u) by (eapply Rle_trans; [apply Rabs_triang|]; rewrite Rabs_R1; lra).
      assert (B2 : Rabs (1 + t) <= (1 + u) ^ S n) by (eapply Rle_trans; [apply Rabs_triang|]; rewrite Rabs_R1; lra).
      eapply Rle_trans; [apply Rabs_triang|]. eapply Rle_trans; [apply Rplus_le_compat_r, Rabs_triang|]. rewrite !Rabs_mult.
      assert (Rabs (val s') * Rabs (1 + d) <= m * (1 + u)) by (apply Rmult_le_compat; auto using Rabs_pos).
      assert (Rabs p * Rabs (1 + t) <= Rabs p * (1 + u) ^ S n) by (apply Rmult_le_compat_l; auto). lra. }
    destruct Hcase as [-> | ->].
    + assert (Hp : finite (Bmult mode_NE (x n) (y n))).
      { apply mult_safe; [done|done|]. fold p. destruct (rnd_mult prec emax p) as (d & e & Hd & Hee & ->).
        assert (B1 : Rabs (1 + d) <= 1 + u) by (eapply Rle_trans; [apply Rabs_triang|]; rewrite Rabs_R1; lra).
        eapply Rle_lt_trans; [apply Rabs_triang|]. rewrite Rabs_mult.
        assert (Rabs p * Rabs (1 + d) <= Rabs p * (1 + u)) by (apply Rmult_le_compat_l; auto). lra. }
      pose proof (proj2 (proj2 (mult_finite prec emax _ _ Hp))) as Ep. fold p in Ep.
      assert (Hf : finite (Bplus mode_NE s' (Bmult mode_NE (x n) (y n)))).
      { apply plus_safe; [done|done|]. rewrite Ep. eapply Rle_lt_trans; [apply M; by left|]. lra. }
      split; [done|]. rewrite (proj2 (proj2 (plus_finite prec emax _ _ Hf))), Ep. apply M. by left.
    + assert (Hf : finite (Bfma mode_NE (x n) (y n) s')).
      { apply fma_safe; [done..|]. fold p. eapply Rle_lt_trans; [apply M; by right|]. lra. }
      split; [done|]. rewrite (proj2 (proj2 (proj2 (fma_finite _ _ _ Hf)))). apply M. by right.
Qed.
End fma.
