(** Rounding errors of polynomials evaluated in floating point: an expression, the number
    it computes, the real number it stands for, and a bound on the difference. *)
From stdpp Require Import list.
From Coq Require Import ZArith Lia Reals Lra Psatz.
From Flocq Require Import Core BinarySingleNaN Relative Plus_error.
From Verif Require Import VecModel FloatModel FloatProps FloatOpsProps.
Local Open Scope R_scope.

Section expr.
Context (prec emax : Z) {Hprec : Prec_gt_0 prec} {Hmax : Prec_lt_emax prec emax}.
Local Notation F := (binary_float prec emax).
Local Notation finite := (λ x : F, is_finite x = true).
Local Notation val := (B2R (prec:=prec) (emax:=emax)).
Local Notation fexp := (SpecFloat.fexp prec emax).
Local Notation rnd := (round radix2 fexp ZnearestE).
Local Notation u := (u prec).
Local Notation eta := (eta prec emax).

Inductive expr := X (f : F) | Plus (a b : expr) | Minus (a b : expr) | Times (a b : expr).
(** computed *)
Fixpoint fl (e : expr) : F :=
  match e with
  | X f => f
  | Plus a b => Bplus mode_NE (fl a) (fl b)
  | Minus a b => Bminus mode_NE (fl a) (fl b)
  | Times a b => Bmult mode_NE (fl a) (fl b)
  end.
(** exact *)
Fixpoint real (e : expr) : R :=
  match e with X f => val f | Plus a b => real a + real b | Minus a b => real a - real b | Times a b => real a * real b end.
(** with absolute values *)
Fixpoint maj (e : expr) : R :=
  match e with X f => Rabs (val f) | Plus a b | Minus a b => maj a + maj b | Times a b => maj a * maj b end.
(** relative errors that accumulate *)
Fixpoint depth (e : expr) : nat :=
  match e with X _ => 0 | Plus a b | Minus a b => S (Nat.max (depth a) (depth b)) | Times a b => S (depth a + depth b) end.
(** the factor of the error made where products underflow *)
Fixpoint und (e : expr) : R :=
  match e with
  | X _ => 0
  | Plus a b | Minus a b => (1 + u) * (und a + und b)
  | Times a b => (1 + u) * (und a * ((1 + u) ^ depth b * maj b) + und b * ((1 + u) ^ depth a * maj a) + eta * und a * und b) + 1
  end.
Fixpoint leaves (e : expr) : list F := match e with X f => [f] | Plus a b | Minus a b | Times a b => leaves a ++ leaves b end.
Definition bound (e : expr) : R := ((1 + u) ^ depth e - 1) * maj e + eta * und e.

Lemma maj_nonneg e : 0 <= maj e.
Proof. induction e; simpl; [apply Rabs_pos|lra|lra|by apply Rmult_le_pos]. Qed.
Lemma real_maj e : Rabs (real e) <= maj e.
Proof.
  induction e as [f|a IHa b IHb|a IHa b IHb|a IHa b IHb]; simpl; [lra| | |].
  - eapply Rle_trans; [apply Rabs_triang|lra].
  - unfold Rminus. eapply Rle_trans; [apply Rabs_triang|]. rewrite Rabs_Ropp. lra.
  - rewrite Rabs_mult. apply Rmult_le_compat; auto using Rabs_pos.
Qed.
Lemma und_nonneg e : 0 <= und e.
Proof.
  pose proof (u_pos prec). pose proof (eta_pos prec emax).
  induction e as [f|a IHa b IHb|a IHa b IHb|a IHa b IHb]; simpl; [lra|nra|nra|].
  pose proof (maj_nonneg a). pose proof (maj_nonneg b).
  assert (0 <= (1 + u) ^ depth a) by (apply pow_le; lra). assert (0 <= (1 + u) ^ depth b) by (apply pow_le; lra).
  assert (0 <= und a * ((1 + u) ^ depth b * maj b)) by (repeat apply Rmult_le_pos; lra).
  assert (0 <= und b * ((1 + u) ^ depth a * maj a)) by (repeat apply Rmult_le_pos; lra).
  assert (0 <= eta * und a * und b) by (repeat apply Rmult_le_pos; lra). nra.
Qed.
Lemma pow_ge1 n : 1 <= (1 + u) ^ n.
Proof. apply pow_R1_Rle. pose proof (u_pos prec). lra. Qed.

(** Adding rounds once more. *)
Lemma sum_err a b x y t : Rabs (x - real a) <= bound a → Rabs (y - real b) <= bound b → Rabs t <= u →
  Rabs ((x + y) * (1 + t) - (real a + real b)) <= bound (Plus a b).
Proof.
  intros Hx Hy Ht. pose proof (u_pos prec) as Hu. pose proof (real_maj a). pose proof (real_maj b).
  replace ((x + y) * (1 + t) - (real a + real b)) with ((x - real a) * (1 + t) + ((y - real b) * (1 + t) + (real a * t + real b * t))) by ring.
  eapply Rle_trans; [apply abs_sum4|]. rewrite !Rabs_mult.
  assert (H1t : Rabs (1 + t) <= 1 + u) by (eapply Rle_trans; [apply Rabs_triang|]; rewrite Rabs_R1; lra).
  assert (Rabs (x - real a) * Rabs (1 + t) <= bound a * (1 + u)) by (apply Rmult_le_compat; auto using Rabs_pos).
  assert (Rabs (y - real b) * Rabs (1 + t) <= bound b * (1 + u)) by (apply Rmult_le_compat; auto using Rabs_pos).
  assert (Rabs (real a) * Rabs t <= maj a * u) by (apply Rmult_le_compat; auto using Rabs_pos).
  assert (Rabs (real b) * Rabs t <= maj b * u) by (apply Rmult_le_compat; auto using Rabs_pos).
  unfold bound in *. simpl. set (k := Nat.max (depth a) (depth b)).
  assert ((1 + u) ^ depth a <= (1 + u) ^ k) by (apply Rle_pow; [lra|lia]).
  assert ((1 + u) ^ depth b <= (1 + u) ^ k) by (apply Rle_pow; [lra|lia]).
  pose proof (maj_nonneg a). pose proof (maj_nonneg b).
  assert (((1 + u) ^ k - (1 + u) ^ depth a) * maj a * (1 + u) >= 0) by (apply Rle_ge; repeat apply Rmult_le_pos; lra).
  assert (((1 + u) ^ k - (1 + u) ^ depth b) * maj b * (1 + u) >= 0) by (apply Rle_ge; repeat apply Rmult_le_pos; lra).
  set (pa := (1 + u) ^ depth a) in *. set (pb := (1 + u) ^ depth b) in *. set (pk := (1 + u) ^ k) in *.
  set (ea := eta * und a) in *. set (eb := eta * und b) in *.
  replace (eta * ((1 + u) * (und a + und b))) with ((1 + u) * (ea + eb)) by (unfold ea, eb; ring). lra.
Qed.
Lemma mul_err a b x y t e : Rabs (x - real a) <= bound a → Rabs (y - real b) <= bound b → Rabs t <= u → Rabs e <= eta →
  Rabs (x * y * (1 + t) + e - real a * real b) <= bound (Times a b).
Proof.
  intros Hx Hy Ht He. pose proof (u_pos prec) as Hu. pose proof (real_maj a) as Ra. pose proof (real_maj b) as Rb.
  pose proof (maj_nonneg a) as Ma. pose proof (maj_nonneg b) as Mb. pose proof (eta_pos prec emax) as Hη.
  set (p := x - real a) in *. set (q := y - real b) in *.
  assert (Exy : Rabs (x * y - real a * real b) <= bound a * maj b + (maj a * bound b + bound a * bound b)).
  { replace (x * y - real a * real b) with (p * real b + (real a * q + p * q)) by (unfold p, q; ring).
    eapply Rle_trans; [apply Rabs_triang|]. apply Rplus_le_compat; [rewrite Rabs_mult; apply Rmult_le_compat; auto using Rabs_pos|].
    eapply Rle_trans; [apply Rabs_triang|]. apply Rplus_le_compat; rewrite Rabs_mult; apply Rmult_le_compat; auto using Rabs_pos. }
  replace (x * y * (1 + t) + e - real a * real b) with ((x * y - real a * real b) * (1 + t) + (real a * real b * t + e)) by ring.
  eapply Rle_trans; [apply Rabs_triang|].
  assert (H1t : Rabs (1 + t) <= 1 + u) by (eapply Rle_trans; [apply Rabs_triang|]; rewrite Rabs_R1; lra).
  assert (H1 : Rabs ((x * y - real a * real b) * (1 + t)) <= (bound a * maj b + (maj a * bound b + bound a * bound b)) * (1 + u)).
  { rewrite Rabs_mult. apply Rmult_le_compat; auto using Rabs_pos. }
  assert (H2 : Rabs (real a * real b * t + e) <= maj a * maj b * u + eta).
  { eapply Rle_trans; [apply Rabs_triang|]. apply Rplus_le_compat; [|done]. rewrite !Rabs_mult.
    apply Rmult_le_compat; [apply Rmult_le_pos; apply Rabs_pos|apply Rabs_pos| |done]. apply Rmult_le_compat; auto using Rabs_pos. }
  eapply Rle_trans; [apply Rplus_le_compat; [exact H1|exact H2]|]. apply Req_le.
  unfold bound. simpl. rewrite pow_add. ring.
Qed.

(** If the computed number is finite, so are the arguments, and the error is bounded. *)
Lemma expr_error e : finite (fl e) → Forall finite (leaves e) ∧ Rabs (val (fl e) - real e) <= bound e.
Proof.
  induction e as [f|a IHa b IHb|a IHa b IHb|a IHa b IHb]; simpl; intros H.
  - split; [by repeat constructor|]. unfold bound. simpl. rewrite Rminus_diag_eq, Rabs_R0 by done. lra.
  - apply (plus_finite prec emax) in H as (Ha & Hb & E). destruct (IHa Ha) as [La Ea]. destruct (IHb Hb) as [Lb Eb].
    split; [by apply Forall_app|]. destruct (rnd_plus prec emax (val (fl a)) (val (fl b)) (val_format _ _ _) (val_format _ _ _)) as (t & Ht & Et).
    rewrite E, Et. by apply sum_err.
  - apply (minus_finite prec emax) in H as (Ha & Hb & E). destruct (IHa Ha) as [La Ea]. destruct (IHb Hb) as [Lb Eb].
    split; [by apply Forall_app|]. destruct (rnd_minus prec emax (fl a) (fl b)) as (t & Ht & Et). rewrite E, Et.
    assert (Hu : bound (Minus a b) = bound (Plus a b)) by done. rewrite Hu.
    pose proof (u_pos prec) as Hup. pose proof (real_maj a). pose proof (real_maj b).
    (* a - b is a + (-b) with the same bounds *)
    assert (K : ∀ x y, Rabs (x - real a) <= bound a → Rabs (y - real b) <= bound b →
      Rabs ((x - y) * (1 + t) - (real a - real b)) <= bound (Plus a b)); [|by apply K].
    intros x y Hx Hy.
    replace ((x - y) * (1 + t) - (real a - real b)) with ((x - real a) * (1 + t) + (- (y - real b) * (1 + t) + (real a * t + - real b * t))) by ring.
    eapply Rle_trans; [apply abs_sum4|]. rewrite !Rabs_mult, !Rabs_Ropp.
    assert (H1t : Rabs (1 + t) <= 1 + u) by (eapply Rle_trans; [apply Rabs_triang|]; rewrite Rabs_R1; lra).
    assert (Rabs (x - real a) * Rabs (1 + t) <= bound a * (1 + u)) by (apply Rmult_le_compat; auto using Rabs_pos).
    assert (Rabs (y - real b) * Rabs (1 + t) <= bound b * (1 + u)) by (apply Rmult_le_compat; auto using Rabs_pos).
    assert (Rabs (real a) * Rabs t <= maj a * u) by (apply Rmult_le_compat; auto using Rabs_pos).
    assert (Rabs (real b) * Rabs t <= maj b * u) by (apply Rmult_le_compat; auto using Rabs_pos).
    unfold bound in *. simpl. set (k := Nat.max (depth a) (depth b)).
    assert ((1 + u) ^ depth a <= (1 + u) ^ k) by (apply Rle_pow; [lra|lia]).
    assert ((1 + u) ^ depth b <= (1 + u) ^ k) by (apply Rle_pow; [lra|lia]).
    pose proof (maj_nonneg a). pose proof (maj_nonneg b).
    assert (((1 + u) ^ k - (1 + u) ^ depth a) * maj a * (1 + u) >= 0) by (apply Rle_ge; repeat apply Rmult_le_pos; lra).
    assert (((1 + u) ^ k - (1 + u) ^ depth b) * maj b * (1 + u) >= 0) by (apply Rle_ge; repeat apply Rmult_le_pos; lra).
    set (pa := (1 + u) ^ depth a) in *. set (pb := (1 + u) ^ depth b) in *. set (pk := (1 + u) ^ k) in *.
    set (ea := eta * und a) in *. set (eb := eta * und b) in *.
    replace (eta * ((1 + u) * (und a + und b))) with ((1 + u) * (ea + eb)) by (unfold ea, eb; ring). lra.
  - apply (mult_finite prec emax) in H as (Ha & Hb & E). destruct (IHa Ha) as [La Ea]. destruct (IHb Hb) as [Lb Eb].
    split; [by apply Forall_app|]. destruct (rnd_mult prec emax (val (fl a) * val (fl b))) as (t & e' & Ht & He & Et).
    rewrite E, Et. by apply mul_err.
Qed.

(** No overflow as long as every intermediate result is bounded by a power of two:
    rounding does not lead out of such a range. *)
Fixpoint log (b : Z) (e : expr) : Z :=
  match e with
  | X _ => b
  | Plus a c | Minus a c => Z.max (log b a) (log b c) + 1
  | Times a c => log b a + log b c
  end.
Lemma rnd_pow x k : (0 <= k)%Z → Rabs x <= bpow radix2 k → Rabs (rnd x) <= bpow radix2 k.
Proof.
  intros Hk Hx. apply abs_round_le_generic; [typeclasses eauto|typeclasses eauto| |done]. apply generic_format_bpow.
  unfold SpecFloat.fexp, SpecFloat.emin. unfold Prec_gt_0, Prec_lt_emax in *. lia.
Qed.
Lemma log_nonneg b e : (0 <= b)%Z → (0 <= log b e)%Z.
Proof. intros Hb. induction e; simpl; lia. Qed.
Lemma expr_finite b e : (0 <= b)%Z → Forall (λ x, finite x ∧ Rabs (val x) <= bpow radix2 b) (leaves e) → (log b e < emax)%Z →
  finite (fl e) ∧ Rabs (val (fl e)) <= bpow radix2 (log b e).
Proof.
  intros Hb. induction e as [f|a IHa c IHc|a IHa c IHc|a IHa c IHc]; simpl; intros HF Hl.
  - by inversion HF.
  - apply Forall_app in HF as [Fa Fc]. pose proof (log_nonneg b a Hb). pose proof (log_nonneg b c Hb).
    destruct (IHa Fa ltac:(lia)) as [Ha Ba]. destruct (IHc Fc ltac:(lia)) as [Hc Bc]. set (k := Z.max (log b a) (log b c)) in *.
    assert (K : Rabs (rnd (val (fl a) + val (fl c))) <= bpow radix2 (k + 1)).
    { apply rnd_pow; [lia|]. eapply Rle_trans; [apply Rabs_triang|]. rewrite bpow_plus. change (bpow radix2 1) with 2.
      assert (bpow radix2 (log b a) <= bpow radix2 k) by (apply bpow_le; lia). assert (bpow radix2 (log b c) <= bpow radix2 k) by (apply bpow_le; lia). lra. }
    assert (Hf : finite (Bplus mode_NE (fl a) (fl c))) by (apply plus_safe; [done|done|]; eapply Rle_lt_trans; [exact K|]; apply bpow_lt; lia).
    split; [exact Hf|]. apply (plus_finite prec emax) in Hf as (_ & _ & ->). exact K.
  - apply Forall_app in HF as [Fa Fc]. pose proof (log_nonneg b a Hb). pose proof (log_nonneg b c Hb).
    destruct (IHa Fa ltac:(lia)) as [Ha Ba]. destruct (IHc Fc ltac:(lia)) as [Hc Bc]. set (k := Z.max (log b a) (log b c)) in *.
    assert (K : Rabs (rnd (val (fl a) - val (fl c))) <= bpow radix2 (k + 1)).
    { apply rnd_pow; [lia|]. unfold Rminus. eapply Rle_trans; [apply Rabs_triang|]. rewrite Rabs_Ropp, bpow_plus. change (bpow radix2 1) with 2.
      assert (bpow radix2 (log b a) <= bpow radix2 k) by (apply bpow_le; lia). assert (bpow radix2 (log b c) <= bpow radix2 k) by (apply bpow_le; lia). lra. }
    assert (Hf : finite (Bminus mode_NE (fl a) (fl c))) by (apply minus_safe; [done|done|]; eapply Rle_lt_trans; [exact K|]; apply bpow_lt; lia).
    split; [exact Hf|]. apply (minus_finite prec emax) in Hf as (_ & _ & ->). exact K.
  - apply Forall_app in HF as [Fa Fc]. pose proof (log_nonneg b a Hb). pose proof (log_nonneg b c Hb).
    destruct (IHa Fa ltac:(lia)) as [Ha Ba]. destruct (IHc Fc ltac:(lia)) as [Hc Bc].
    assert (K : Rabs (rnd (val (fl a) * val (fl c))) <= bpow radix2 (log b a + log b c)).
    { apply rnd_pow; [lia|]. rewrite Rabs_mult, bpow_plus. apply Rmult_le_compat; auto using Rabs_pos. }
    assert (Hf : finite (Bmult mode_NE (fl a) (fl c))) by (apply mult_safe; [done|done|]; eapply Rle_lt_trans; [exact K|]; apply bpow_lt; lia).
    split; [exact Hf|]. apply (mult_finite prec emax) in Hf as (_ & _ & ->). exact K.
Qed.

(** The functions of the library are written for any arithmetic; with this one they give
    expressions. Those considered here neither divide nor negate. *)
Definition xnum : num expr := Num (X (n0 (fnum prec emax))) (X (n1 (fnum prec emax))) Plus Minus Times (λ a _, a) (λ a, a).
End expr.
Arguments X {prec emax}. Arguments Plus {prec emax}. Arguments Minus {prec emax}. Arguments Times {prec emax}.
