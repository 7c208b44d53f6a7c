(** Operators and symmetries of vectors and matrices of float and double. *)
From stdpp Require Import list.
From Coq Require Import ZArith Lia Reals Lra Psatz.
From Flocq Require Import Core BinarySingleNaN Relative Plus_error.
From Interval Require Import Tactic.
From Verif Require Import VecModel VecSpec VecProofs FloatModel FloatProps MatModel MatProofs MatProps.
Local Open Scope R_scope.

Section float.
Context (prec emax : Z) {Hprec : Prec_gt_0 prec} {Hmax : Prec_lt_emax prec emax}.
Local Notation F := (binary_float prec emax).
Local Notation N := (fnum prec emax).
Local Notation finite := (λ x : F, is_finite x = true).
Local Notation val := (B2R (prec:=prec) (emax:=emax)).
Local Notation fexp := (SpecFloat.fexp prec emax).
Local Notation rnd := (round radix2 fexp ZnearestE).
Local Notation u := (u prec).
Local Notation eta := (eta prec emax).

(** * Specification *)
(** [z] is a number nearest to the real number [x]. *)
Definition nearest (z : F) (x : R) : Prop := finite z ∧ ∀ f : F, finite f → Rabs (val z - x) <= Rabs (val f - x).
(** [x] lies between two numbers of the type. *)
Definition in_range (x : R) : Prop := ∃ f g : F, finite f ∧ finite g ∧ val f <= x <= val g.

(** * Operators *)
Lemma rnd_nearest (z : F) x : finite z → val z = rnd x → nearest z x.
Proof.
  intros Hz E. split; [done|]. intros f Hf. rewrite E. apply (round_N_pt radix2 fexp (λ t, negb (Z.even t)) x). apply generic_format_B2R.
Qed.
Lemma rnd_range x : in_range x → Rabs (rnd x) < bpow radix2 emax.
Proof.
  intros (f & g & _ & _ & Hf & Hg).
  assert (L : val f <= rnd x) by (rewrite <- (rnd_val prec emax f); apply round_le; [apply fexp_correct; exact Hprec|apply valid_rnd_N|done]).
  assert (U : rnd x <= val g) by (rewrite <- (rnd_val prec emax g); apply round_le; [apply fexp_correct; exact Hprec|apply valid_rnd_N|done]).
  pose proof (val_lt prec emax f) as Bf. pose proof (val_lt prec emax g) as Bg. apply Rabs_def2 in Bf, Bg. apply Rabs_def1; lra.
Qed.
Lemma minus_safe (x y : F) : finite x → finite y → Rabs (rnd (val x - val y)) < bpow radix2 emax → finite (Bminus mode_NE x y).
Proof.
  intros Hx Hy H. pose proof (Bminus_correct prec emax _ _ mode_NE x y Hx Hy) as C. rewrite Rlt_bool_true in C by exact H. apply C.
Qed.
(** The exact operation, and where it is defined *)
Inductive fop := Add | Sub | Mul | Div.
Definition exact (o : fop) (x y : R) : R := match o with Add => x + y | Sub => x - y | Mul => x * y | Div => x / y end.
Definition defined (o : fop) (y : R) : Prop := o = Div → y ≠ 0.
Definition run (o : fop) : num F → list F → list F → option (list F) := match o with Add => vadd | Sub => vsub | Mul => vmul | Div => vdiv end.
Definition run_s (o : fop) : F → F → F := match o with Add => nadd N | Sub => nsub N | Mul => nmul N | Div => ndiv N end.
Lemma run_s_nearest o x y : finite x → finite y → defined o (val y) → in_range (exact o (val x) (val y)) → nearest (run_s o x y) (exact o (val x) (val y)).
Proof.
  intros Hx Hy Hd Hr. apply rnd_range in Hr. destruct o; cbn [run_s exact nadd nsub nmul ndiv fnum] in *.
  - pose proof (plus_safe _ _ x y Hx Hy Hr) as Hf. apply rnd_nearest; [done|]. by apply plus_finite.
  - pose proof (minus_safe x y Hx Hy Hr) as Hf. apply rnd_nearest; [done|]. by apply minus_finite.
  - pose proof (mult_safe _ _ x y Hx Hy Hr) as Hf. apply rnd_nearest; [done|]. by apply mult_finite.
  - pose proof (Bdiv_correct prec emax _ _ mode_NE x y (Hd eq_refl)) as C. rewrite Rlt_bool_true in C by exact Hr. destruct C as (C1 & C2 & _).
    apply rnd_nearest; [by rewrite C2|done].
Qed.
(** Every component of v + w, v - w, v * w and v / w is a number nearest to the exact
    result if the components are numbers, the exact result is not too large, and no
    divisor is zero. *)
Theorem op_float_nearest : ∀ o v w i x y, length v = length w → v !! i = Some x → w !! i = Some y → finite x → finite y →
  defined o (val y) → in_range (exact o (val x) (val y)) →
  ∃ r z, run o N v w = Some r ∧ r !! i = Some z ∧ nearest z (exact o (val x) (val y)).
Proof.
  intros o v w i x y L Hv Hw Hx Hy Hd Hr. exists (zip_with (run_s o) v w), (run_s o x y). split.
  - destruct o; cbn [run run_s]; [apply vadd_eq|apply vsub_eq|apply vmul_eq|unfold vdiv; apply vop_eq]; done.
  - split; [rewrite lookup_zip_with, Hv; simpl; by rewrite Hw|]. by apply run_s_nearest.
Qed.
Theorem op_scalar_float_nearest : ∀ o v s i x, v !! i = Some x → finite x → finite s → defined o (val s) → in_range (exact o (val x) (val s)) →
  ∃ r z, vop_s N (run_s o) Datatypes.id v s = Some r ∧ r !! i = Some z ∧ nearest z (exact o (val x) (val s)).
Proof.
  intros o v s i x Hv Hx Hs Hd Hr. exists (map (λ x, run_s o x s) v), (run_s o x s). split; [apply vop_s_eq|]. split; [|by apply run_s_nearest].
  change (map ?f v) with (f <$> v). by rewrite list_lookup_fmap, Hv.
Qed.

(** * Symmetries that hold exactly, also for infinities, NaN and the sign of zero *)
Lemma plus_comm (x y : F) : Bplus mode_NE x y = Bplus mode_NE y x.
Proof.
  destruct x as [sx|sx| |sx mx ex Hx], y as [sy|sy| |sy my ey Hy]; try reflexivity; try (destruct sx, sy; reflexivity).
  cbn [Bplus]. rewrite (Z.min_comm ey ex). unfold Fplus_naive. by rewrite Z.add_comm.
Qed.
Lemma minus_plus (x y : F) : Bminus mode_NE x y = Bplus mode_NE x (Bopp y).
Proof. destruct x as [sx|sx| |sx mx ex Hx], y as [sy|sy| |sy my ey Hy]; reflexivity. Qed.
Lemma mult_opp (x y : F) : Bmult mode_NE (Bopp x) (Bopp y) = Bmult mode_NE x y.
Proof.
  apply B2SF_inj. destruct x as [sx|sx| |sx mx ex Hx], y as [sy|sy| |sy my ey Hy]; cbn [Bmult Bopp B2SF]; try reflexivity; try (destruct sx, sy; reflexivity).
  unfold Bmult. rewrite !B2SF_SF2B. by destruct sx, sy.
Qed.
(** Negation is exact, and twice negated is the vector itself. *)
Theorem neg_float : ∀ v, ∃ r, vneg N v = Some r ∧ vneg N r = Some v ∧ map val r = map (λ x, - val x) v ∧ map is_finite r = map is_finite v ∧
  (∀ i, v !! i = Some (B754_zero false) → r !! i = Some (B754_zero true)).
Proof.
  intros v. exists (map Bopp v). rewrite !vneg_eq. cbn [nneg fnum]. split; [done|]. split; [|split; [|split]].
  - f_equal. rewrite map_map. rewrite <- (map_id v) at 2. apply map_ext. intros x. apply Bopp_involutive.
  - rewrite map_map. apply map_ext. intros x. apply B2R_Bopp.
  - rewrite map_map. apply map_ext. intros x. apply is_finite_Bopp.
  - intros i Hi. change (map Bopp v) with (Bopp <$> v). by rewrite list_lookup_fmap, Hi.
Qed.
Theorem add_float_commutes : ∀ v w, length v = length w → is_Some (vadd N v w) ∧ vadd N v w = vadd N w v ∧ vmul N v w = vmul N w v.
Proof.
  intros v w L. rewrite !vadd_eq, !vmul_eq by done. split; [eauto|]. split; f_equal; clear -Hprec;
    revert w; induction v as [|x v IH]; intros [|y w]; try done; simpl; rewrite IH; f_equal; [apply plus_comm|apply mult_comm].
Qed.
Theorem sub_float_add_neg : ∀ v w, length v = length w → ∃ n, vneg N w = Some n ∧ vsub N v w = vadd N v n.
Proof.
  intros v w L. exists (map Bopp w). rewrite vneg_eq. split; [done|]. rewrite vsub_eq, vadd_eq by (rewrite ?map_length; done). f_equal.
  revert w L. induction v as [|x v IH]; intros [|y w] L; try done. simpl. rewrite IH by (simpl in L; lia). f_equal. apply minus_plus.
Qed.
(** The length of -v is that of v, and the distance is symmetric. *)
Theorem length_float_neg : ∀ v r, vneg N v = Some r → length_ N (fsqrt prec emax) r = length_ N (fsqrt prec emax) v ∧
  vlength N (fsqrt prec emax) r = vlength N (fsqrt prec emax) v.
Proof.
  intros v r H. rewrite vneg_eq in H. injection H as <-. assert (E : length_ N (fsqrt prec emax) (map Bopp v) = length_ N (fsqrt prec emax) v).
  { unfold length_. rewrite !dot_eq by done. cbn [mbind option_bind]. do 2 f_equal. rewrite map_length. apply sum_ext. intros k Hk.
    rewrite comp_map by done. apply mult_opp. }
  split; [done|]. destruct v as [|x v]; [done|]. rewrite !vlength_length by done. done.
Qed.
Lemma square_abs (a b : F) : finite a → finite b → val a = - val b → Bmult mode_NE a a = Bmult mode_NE b b.
Proof.
  intros Ha Hb E. destruct (is_finite_strict a) eqn:Sa, (is_finite_strict b) eqn:Sb.
  - assert (H : a = Bopp b) by (apply B2R_inj; [done|by destruct b|by rewrite B2R_Bopp]). rewrite H. apply mult_opp.
  - exfalso. destruct a as [| | |s m e H]; try done. destruct b as [|?| |]; try done. simpl in E. rewrite Ropp_0 in E.
    apply eq_0_F2R in E. by destruct s.
  - exfalso. destruct b as [| | |s m e H]; try done. destruct a as [|?| |]; try done. simpl in E.
    assert (E' : F2R (Float radix2 (SpecFloat.cond_Zopp s (Z.pos m)) e) = 0) by lra. apply eq_0_F2R in E'. by destruct s.
  - destruct a as [sa|?| |], b as [sb|?| |]; try done. by destruct sa, sb.
Qed.
Lemma square_infinite (a b : F) s s' : a = B754_infinity s → b = B754_infinity s' → Bmult mode_NE a a = Bmult mode_NE b b.
Proof. intros -> ->. by destruct s, s'. Qed.
Lemma minus_swap_square (x y : F) : Bmult mode_NE (Bminus mode_NE x y) (Bminus mode_NE x y) = Bmult mode_NE (Bminus mode_NE y x) (Bminus mode_NE y x).
Proof.
  destruct (is_finite x && is_finite y) eqn:Hf.
  - apply andb_true_iff in Hf as [Hx Hy]. assert (R : rnd (val x - val y) = - rnd (val y - val x)).
    { rewrite <- round_NE_opp. f_equal. lra. }
    pose proof (Bminus_correct prec emax _ _ mode_NE x y Hx Hy) as C1. pose proof (Bminus_correct prec emax _ _ mode_NE y x Hy Hx) as C2.
    cbn [round_mode] in C1, C2. destruct (Rlt_bool (Rabs (rnd (val x - val y))) (bpow radix2 emax)) eqn:B1.
    + rewrite R, Rabs_Ropp in B1. rewrite B1 in C2. destruct C1 as (E1 & F1 & _), C2 as (E2 & F2 & _). apply square_abs; [done|done|]. by rewrite E1, E2.
    + rewrite R, Rabs_Ropp in B1. rewrite B1 in C2. destruct C1 as (E1 & _), C2 as (E2 & _). unfold binary_overflow in E1, E2. cbn in E1, E2.
      eapply square_infinite; apply B2SF_inj; [exact E1|exact E2].
  - destruct x as [sx|sx| |sx mx ex Hx], y as [sy|sy| |sy my ey Hy]; try done; try (destruct sx, sy; reflexivity); by destruct sx || destruct sy.
Qed.
Theorem distance_float_symmetric : ∀ v w, length v = length w → is_Some (distance N (fsqrt prec emax) v w) ∧
  distance N (fsqrt prec emax) v w = distance N (fsqrt prec emax) w v.
Proof.
  intros v w L. unfold distance. rewrite !vsub_eq by done. cbn [mbind option_bind]. destruct v as [|x v], w as [|y w]; try done.
  rewrite !vlength_length by done. unfold length_. rewrite !dot_eq by done. cbn [mbind option_bind]. split; [eauto|]. do 2 f_equal.
  rewrite !zip_with_length, (Nat.min_comm (length (x :: v))). apply sum_ext. intros k Hk. rewrite !comp_zip by (rewrite ?L; lia). apply minus_swap_square.
Qed.

(** * Symmetries up to the sign of zero *)
(** One is the negation of the other, or both are zero. *)
Definition opposite (a b : F) : Prop := a = Bopp b ∨ ∃ s s', a = B754_zero s ∧ b = B754_zero s'.
Lemma opposite_opp a : opposite (Bopp a) a. Proof. by left. Qed.
Lemma opposite_val (a b : F) : finite a → finite b → val a = - val b → opposite a b.
Proof.
  intros Ha Hb E. destruct (is_finite_strict a) eqn:Sa, (is_finite_strict b) eqn:Sb.
  - left. apply B2R_inj; [done|by destruct b|by rewrite B2R_Bopp].
  - exfalso. destruct a as [| | |s m e H]; try done. destruct b as [|?| |]; try done. simpl in E. rewrite Ropp_0 in E.
    apply eq_0_F2R in E. by destruct s.
  - exfalso. destruct b as [| | |s m e H]; try done. destruct a as [|?| |]; try done. simpl in E.
    assert (E' : F2R (Float radix2 (SpecFloat.cond_Zopp s (Z.pos m)) e) = 0) by lra. apply eq_0_F2R in E'. by destruct s.
  - right. destruct a as [sa|?| |], b as [sb|?| |]; try done. by exists sa, sb.
Qed.
Lemma opposite_finite a b : opposite a b → is_finite a = is_finite b ∧ val a = - val b.
Proof. intros [-> |(s & s' & -> & ->)]; [split; [apply is_finite_Bopp|apply B2R_Bopp]|split; [done|simpl; lra]]. Qed.
Lemma opposite_sym a b : opposite a b → opposite b a.
Proof. intros [-> |(s & s' & -> & ->)]; [left; symmetry; apply Bopp_involutive|right; by exists s', s]. Qed.
Lemma opposite_infinite a b : opposite a b → is_finite b = false → a = Bopp b.
Proof. intros [E |(s & s' & -> & ->)] H; done. Qed.
Lemma plus_opposite a b c d : opposite a b → opposite c d → opposite (Bplus mode_NE a c) (Bplus mode_NE b d).
Proof.
  intros H1 H2. destruct (opposite_finite _ _ H1) as [F1 E1]. destruct (opposite_finite _ _ H2) as [F2 E2].
  destruct (is_finite b) eqn:Fb; [destruct (is_finite d) eqn:Fd|].
  - assert (R : rnd (val a + val c) = - rnd (val b + val d)) by (rewrite <- round_NE_opp; f_equal; lra).
    pose proof (Bplus_correct prec emax _ _ mode_NE a c F1 F2) as C1. pose proof (Bplus_correct prec emax _ _ mode_NE b d Fb Fd) as C2.
    cbn [round_mode] in C1, C2. destruct (Rlt_bool (Rabs (rnd (val b + val d))) (bpow radix2 emax)) eqn:B.
    + assert (B' := B). rewrite <- Rabs_Ropp, <- R in B'. rewrite B' in C1. destruct C1 as (V1 & G1 & _), C2 as (V2 & G2 & _).
      apply opposite_val; [done|done|]. by rewrite V1, V2.
    + assert (B' := B). rewrite <- Rabs_Ropp, <- R in B'. rewrite B' in C1. destruct C1 as (V1 & S1), C2 as (V2 & S2). left. apply B2SF_inj.
      rewrite V1. destruct (Bplus mode_NE b d) as [s|s| |s m e H] eqn:Q; cbn in V2; try done. injection V2 as V2.
      cbn. unfold binary_overflow. cbn. f_equal. rewrite V2.
      assert (Rabs (rnd (val b + val d)) >= bpow radix2 emax) by (apply Rle_ge, Rnot_lt_le; intros K; rewrite (Rlt_bool_true _ _ K) in B; done).
      assert (bpow radix2 emax > 0) by apply bpow_gt_0.
      destruct b as [sb|sb| |sb mb eb Hb]; try done.
      * destruct d as [sd|sd| |sd md ed Hd]; try done; exfalso.
        -- assert (K : val (B754_zero sb) + val (B754_zero sd) = 0) by (simpl; lra). rewrite K, round_0, Rabs_R0 in H by apply valid_rnd_N. lra.
      * destruct H1 as [-> |(? & ? & ? & ?)]; [|done]. cbn. done.
  - apply (opposite_infinite _ _ H2) in Fd. subst c. left. destruct b as [sb|?| |sb ? ? ?], d as [|sd| |]; try done; destruct H1 as [-> |(? & ? & -> & ?)]; try done; by destruct sd.
  - apply (opposite_infinite _ _ H1) in Fb. subst a. left. destruct b as [|sb| |]; try done; destruct H2 as [-> |(? & ? & -> & ->)]; try done; destruct d as [|sd| |]; try done; by destruct sb, sd || destruct sb.
Qed.
Lemma mult_opposite a b c : opposite a b → opposite (Bmult mode_NE a c) (Bmult mode_NE b c).
Proof.
  intros [-> |(s & s' & -> & ->)].
  - destruct (is_finite b && is_finite c) eqn:Hf.
    + apply andb_true_iff in Hf as [Fb Fc]. pose proof (Bmult_correct prec emax _ _ mode_NE (Bopp b) c) as C1.
      pose proof (Bmult_correct prec emax _ _ mode_NE b c) as C2. cbn [round_mode] in C1, C2. rewrite B2R_Bopp in C1.
      assert (R : rnd (- val b * val c) = - rnd (val b * val c)) by (rewrite <- round_NE_opp; f_equal; lra).
      rewrite R, Rabs_Ropp in C1. destruct (Rlt_bool (Rabs (rnd (val b * val c))) (bpow radix2 emax)).
      * destruct C1 as (V1 & G1 & _), C2 as (V2 & G2 & _). apply opposite_val; [|by rewrite G2, Fb|by rewrite V1, V2].
        by rewrite G1, is_finite_Bopp, Fb.
      * left. apply B2SF_inj. rewrite C1. destruct (Bmult mode_NE b c) as [s|s| |s m e H]; cbn in C2; try done. injection C2 as C2.
        unfold binary_overflow. cbn. f_equal. rewrite C2. destruct b; try done; cbn; by rewrite ?negb_xorb_l.
    + left. destruct b as [sx|sx| |sx mx ex Hx], c as [sy|sy| |sy my ey Hy]; try done; try (destruct sx, sy; reflexivity).
  - destruct c as [sc|sc| |sc m e H]; try (by left); right; eexists _, _; done.
Qed.
(** v - w is the opposite of w - v. *)
Lemma minus_opposite a b : opposite (Bminus mode_NE a b) (Bminus mode_NE b a).
Proof.
  rewrite !minus_plus, (plus_comm b). apply plus_opposite; [|apply opposite_opp]. apply opposite_sym, opposite_opp.
Qed.
Theorem sub_float_antisymmetric : ∀ v w, length v = length w → ∃ d e, vsub N v w = Some d ∧ vsub N w v = Some e ∧ Forall2 opposite d e.
Proof.
  intros v w L. rewrite !vsub_eq by done. eexists _, _. split; [done|]. split; [done|]. cbn [nsub fnum].
  revert w L. induction v as [|x v IH]; intros [|y w] L; try done; [constructor|]. simpl. constructor; [apply minus_opposite|apply IH; simpl in L; lia].
Qed.
(** v - v is +0 in every component that is a number. *)
Theorem sub_float_self : ∀ v i x, v !! i = Some x → finite x → ∃ r, vsub N v v = Some r ∧ r !! i = Some (B754_zero false).
Proof.
  intros v i x Hi Hx. rewrite vsub_eq by done. eexists. split; [done|]. rewrite lookup_zip_with, Hi. simpl. f_equal.
  assert (E : val (Bminus mode_NE x x) = 0 ∧ finite (Bminus mode_NE x x) ∧ Bsign (Bminus mode_NE x x) = false).
  { pose proof (Bminus_correct prec emax _ _ mode_NE x x Hx Hx) as C. rewrite Rminus_diag_eq, round_0, Rabs_R0, Rlt_bool_true in C by (done || apply bpow_gt_0 || apply valid_rnd_N).
    rewrite Rcompare_Eq in C by done. destruct C as (C1 & C2 & C3). do 2 (split; [done|]). rewrite C3. by destruct (Bsign x). }
  destruct E as (E1 & E2 & E3). destruct (Bminus mode_NE x x) as [s|s| |s m e H]; try done; [simpl in E3; by rewrite E3|].
  exfalso. simpl in E1. apply eq_0_F2R in E1. by destruct s.
Qed.
Lemma sum_opposite n f g : (∀ k, (k < n)%nat → opposite (f k) (g k)) → opposite (sum N n f) (sum N n g).
Proof.
  induction n as [|n IH]; intros H; [right; by exists false, false|]. simpl. apply plus_opposite; [apply IH; intros k Hk; apply H; lia|apply H; lia].
Qed.
(** dot(-v, w) and dot(v, -w) are opposite to dot(v, w). *)
Theorem dot_float_neg : ∀ v w n, length v = length w → vneg N v = Some n → ∃ s d, dot N n w = Some s ∧ dot N w n = Some s ∧ dot N v w = Some d ∧ opposite s d.
Proof.
  intros v w n L H. rewrite vneg_eq in H. injection H as <-. rewrite <- (proj2 (dot_float_symmetric prec emax (map Bopp v) w ltac:(by rewrite map_length))).
  rewrite !dot_eq by (by rewrite ?map_length). eexists _, _. do 3 (split; [done|]). rewrite map_length. apply sum_opposite. intros k Hk.
  rewrite comp_map by done. apply mult_opposite, opposite_opp.
Qed.

(** * cross *)
Theorem cross_float_antisymmetric : ∀ v w, length v = 3%nat → length w = 3%nat → ∃ c d, cross N v w = Some c ∧ cross N w v = Some d ∧ Forall2 opposite c d.
Proof.
  intros v w Lv Lw. destruct v as [|x [|y [|z [|? ?]]]]; try done. destruct w as [|x' [|y' [|z' [|? ?]]]]; try done.
  eexists _, _. split; [done|]. split; [done|]. cbn [nsub nmul fnum].
  rewrite (mult_comm prec emax y' z), (mult_comm prec emax z' y), (mult_comm prec emax z' x), (mult_comm prec emax x' z), (mult_comm prec emax x' y), (mult_comm prec emax y' x).
  do 3 (constructor; [apply minus_opposite|]). constructor.
Qed.
(** Each component of the cross product: if it is a number, then its error is within the
    bound. *)
Theorem cross_float_error : ∀ v w c, cross N v w = Some c → ∃ x y z x' y' z', v = [x; y; z] ∧ w = [x'; y'; z'] ∧
  Forall2 (λ r '(a, b, c, d), finite r → finite a ∧ finite b ∧ finite c ∧ finite d ∧
    Rabs (val r - (val a * val b - val c * val d)) <= ((1 + u) ^ 2 - 1) * (Rabs (val a * val b) + Rabs (val c * val d)) + 2 * (1 + u) * eta)
    c [(y, z', z, y'); (z, x', x, z'); (x, y', y, x')].
Proof.
  assert (K : ∀ a b c d : F, let r := Bminus mode_NE (Bmult mode_NE a b) (Bmult mode_NE c d) in finite r → finite a ∧ finite b ∧ finite c ∧ finite d ∧
    Rabs (val r - (val a * val b - val c * val d)) <= ((1 + u) ^ 2 - 1) * (Rabs (val a * val b) + Rabs (val c * val d)) + 2 * (1 + u) * eta).
  { intros a b c d r H. apply minus_finite in H as (H1 & H2 & E). destruct (rnd_minus prec emax (Bmult mode_NE a b) (Bmult mode_NE c d)) as (t & Ht & Et).
    rewrite Et in E. unfold r. rewrite E. apply mult_finite in H1 as (Ha & Hb & E1). apply mult_finite in H2 as (Hc & Hd & E2). do 4 (split; [done|]).
    destruct (rnd_mult prec emax (val a * val b)) as (d1 & e1 & B1 & G1 & Q1). destruct (rnd_mult prec emax (val c * val d)) as (d2 & e2 & B2 & G2 & Q2).
    rewrite E1, E2, Q1, Q2. set (p := val a * val b). set (q := val c * val d).
    replace ((p * (1 + d1) + e1 - (q * (1 + d2) + e2)) * (1 + t) - (p - q)) with (p * (d1 + t + d1 * t) + (- (q * (d2 + t + d2 * t)) + (e1 * (1 + t) + - (e2 * (1 + t))))) by ring.
    eapply Rle_trans; [apply abs_sum4|]. pose proof (u_pos prec) as Hu. pose proof (eta_pos prec emax) as He.
    assert (W : ∀ d' m, Rabs d' <= u → Rabs (m * (d' + t + d' * t)) <= ((1 + u) ^ 2 - 1) * Rabs m).
    { intros d' m Hd'. rewrite Rabs_mult, Rmult_comm. apply Rmult_le_compat_r; [apply Rabs_pos|]. replace ((1 + u) ^ 2 - 1) with (u + u + u * u) by ring.
      eapply Rle_trans; [apply Rabs_triang|]. apply Rplus_le_compat; [eapply Rle_trans; [apply Rabs_triang|lra]|].
      rewrite Rabs_mult. apply Rmult_le_compat; try apply Rabs_pos; done. }
    assert (Z : ∀ e', Rabs e' <= eta → Rabs (e' * (1 + t)) <= (1 + u) * eta).
    { intros e' He'. rewrite Rabs_mult, Rmult_comm. apply Rmult_le_compat; try apply Rabs_pos; [|done].
      eapply Rle_trans; [apply Rabs_triang|]. rewrite Rabs_R1. lra. }
    rewrite !Rabs_Ropp. pose proof (W d1 p B1). pose proof (W d2 q B2). pose proof (Z e1 G1). pose proof (Z e2 G2). lra. }
  intros v w c H. destruct v as [|x [|y [|z [|? ?]]]]; try done. destruct w as [|x' [|y' [|z' [|? ?]]]]; try done. injection H as <-.
  exists x, y, z, x', y', z'. do 2 (split; [done|]). cbn [nsub nmul fnum]. do 3 (constructor; [apply K|]). constructor.
Qed.

(** * Matrices *)
(** Every entry of a matrix product, and every component of a matrix times a vector, is
    within the bound of the dot product if it is a number. *)
Theorem mat_vec_float_error : ∀ cols rows A f v, denotes A cols rows f → length v = cols → ∃ r, mat_vec N cols rows A v = Some r ∧ length r = rows ∧
  ∀ i z, r !! i = Some z → finite z →
  Rabs (val z - rsum cols (λ k, val (f k i) * val (comp N v k))) <=
    ((1 + u) ^ cols - 1) * rsum cols (λ k, Rabs (val (f k i) * val (comp N v k))) + INR cols * (1 + u) ^ cols * eta.
Proof.
  intros cols rows A f v HA Hv. destruct (matrix_vector_product N cols rows A v f HA Hv) as (r & E & L & H). exists r. do 2 (split; [done|]).
  intros i z Hz Hf. rewrite H in Hz by (rewrite <- L; by eapply lookup_lt_Some). injection Hz as <-.
  by apply (sum_error prec emax (λ k, f k i) (comp N v) cols).
Qed.
Theorem mat_mul_float_error : ∀ cols rows rows2 A B f g, denotes A cols rows f → denotes B rows2 cols g → ∃ C h, mat_mul N cols rows rows2 A B = Some C ∧
  denotes C rows2 rows h ∧ ∀ j i, (j < rows2)%nat → (i < rows)%nat → finite (h j i) →
  Rabs (val (h j i) - rsum cols (λ k, val (f k i) * val (g j k))) <=
    ((1 + u) ^ cols - 1) * rsum cols (λ k, Rabs (val (f k i) * val (g j k))) + INR cols * (1 + u) ^ cols * eta.
Proof.
  intros cols rows rows2 A B f g HA HB. destruct (matrix_product N cols rows rows2 A B f g HA HB) as (C & E & H). eexists C, _. split; [done|]. split; [exact H|].
  intros j i Hj Hi Hf. by apply (sum_error prec emax (λ k, f k i) (g j) cols).
Qed.
(** transpose(A * B) = transpose(B) * transpose(A), exactly *)
Theorem transpose_product_float : ∀ cols rows rows2 A B f g, denotes A cols rows f → denotes B rows2 cols g → ∃ C D A' B',
  mat_mul N cols rows rows2 A B = Some C ∧ transpose N rows2 rows C = Some D ∧ transpose N cols rows A = Some A' ∧ transpose N rows2 cols B = Some B' ∧
  mat_mul N cols rows2 rows B' A' = Some D.
Proof.
  intros cols rows rows2 A B f g HA HB. apply denotes_build in HA, HB. subst. eexists _, _, _, _. split; [apply mat_mul_eq|]. split; [apply transpose_eq|].
  split; [apply transpose_eq|]. split; [apply transpose_eq|]. rewrite mat_mul_eq. f_equal. apply build_ext. intros j i _ _. apply sum_ext. intros k _. apply mult_comm.
Qed.
(** The default-constructed matrix times a vector of numbers has the same components. *)
Theorem identity_float : ∀ n v, length v = n → Forall finite v → (1 < emax)%Z → ∃ I r, mat_default N n n = Some I ∧ mat_vec N n n I v = Some r ∧
  Forall finite r ∧ map val r = map val v.
Proof.
  intros n v L Hv He. set (f := λ j i : nat, if (j =? i)%nat then Bone else B754_zero false : F).
  assert (HI : mat_default N n n = Some (build n n f)) by apply mat_default_eq.
  destruct (matrix_vector_product N n n (build n n f) v f ltac:(by apply denotes_build) L) as (r & E & Lr & H).
  assert (one : finite Bone ∧ val Bone = 1) by (split; [apply is_finite_Bone|apply Bone_correct]).
  assert (S : ∀ i m, (i < n)%nat → (m ≤ n)%nat → let s := sum N m (λ k, nmul N (f k i) (comp N v k)) in finite s ∧ val s = if (i <? m)%nat then val (comp N v i) else 0).
  { intros i m Hi Hm. induction m as [|m IH]; [done|]. specialize (IH ltac:(lia)). cbn [sum]. cbv zeta in IH |- *.
    set (s := sum N m _) in *. destruct IH as [Fs Es].
    assert (Fc : ∀ k, (k < n)%nat → finite (comp N v k)).
    { intros k Hk. destruct (lookup_lt_is_Some_2 v k ltac:(lia)) as [a Ha]. rewrite (comp_lookup _ _ v k a Ha). rewrite Forall_lookup in Hv. by apply (Hv k). }
    unfold f at 1 2. destruct (Nat.eqb_spec m i) as [->|Hmi].
    - destruct (mult_exact prec emax Bone (comp N v i) (comp N v i)) as [P1 P2]; [apply one|by apply Fc|rewrite (proj2 one); lra|].
      rewrite (proj2 (Nat.ltb_ge i i)) in Es by lia. rewrite (proj2 (Nat.ltb_lt i (S i))) by lia. cbn [nadd nmul fnum].
      destruct (plus_exact prec emax s (Bmult mode_NE Bone (comp N v i)) (comp N v i)) as [Q1 Q2]; [done|done|rewrite Es, P2; lra|]. done.
    - destruct (mult_exact prec emax (B754_zero false) (comp N v m) (B754_zero false)) as [P1 P2]; [done|apply Fc; lia|simpl; lra|]. cbn [nadd nmul fnum].
      destruct (plus_exact prec emax s (Bmult mode_NE (B754_zero false) (comp N v m)) s) as [Q1 Q2]; [done|done|rewrite P2; simpl; lra|].
      split; [done|]. rewrite Q2, Es. destruct (Nat.ltb_spec i m), (Nat.ltb_spec i (S m)); lia || done. }
  exists (build n n f), r. do 2 (split; [done|]). split.
  - apply Forall_lookup. intros i z Hz. assert (Hi : (i < n)%nat) by (rewrite <- Lr; by eapply lookup_lt_Some). rewrite H in Hz by done. injection Hz as <-. by apply S.
  - apply list_eq. intros i. change (map val r) with (val <$> r). change (map val v) with (val <$> v). rewrite !list_lookup_fmap. destruct (decide (i < n)%nat) as [Hi|Hi].
    + rewrite H by done. destruct (lookup_lt_is_Some_2 v i ltac:(lia)) as [a Ha]. rewrite Ha. cbn [fmap option_fmap option_map]. f_equal.
      destruct (S i n Hi ltac:(lia)) as [_ E2]. etransitivity; [exact E2|]. rewrite (proj2 (Nat.ltb_lt i n)) by lia. by rewrite (comp_lookup _ _ v i a Ha).
    + rewrite !lookup_ge_None_2 by lia. done.
Qed.

(** * Comparison and sign *)
(** Vectors are equal if the components are equal as real numbers; a vector is equal to
    itself unless it contains NaN. *)
Theorem eq_float : ∀ v w, Forall finite v → Forall finite w → veq Beqb v w = true ↔ map val v = map val w.
Proof.
  intros v w Hv. revert w. induction Hv as [|x v Hx Hv IH]; intros [|y w] Hw; try done.
  apply Forall_cons in Hw as [Hy Hw]. simpl. rewrite andb_true_iff, IH by done. rewrite Beqb_correct by done.
  destruct (Req_bool_spec (val x) (val y)) as [E|E]; (split; [intros [H1 H2]|intros [= H1 H2]]); [by f_equal|done|done|done].
Qed.
Theorem eq_float_self : ∀ v : list F, veq Beqb v v = true ↔ B754_nan ∉ v.
Proof.
  induction v as [|x v IH]; [split; [intros _ H; by apply elem_of_nil in H|done]|]. simpl. rewrite andb_true_iff, IH, Beqb_refl, elem_of_cons.
  destruct x; simpl; naive_solver.
Qed.
(** The order is that of the first components that differ; it does not exist if one of
    these is NaN. *)
Theorem compare_float : ∀ (v w p : list F) x y v' w', v = p ++ x :: v' → w = p ++ y :: w' → B754_nan ∉ p → Beqb x y = false →
  vcmp Bcompare v w = if is_nan x || is_nan y then None else Some (if Bltb x y then Lt else Gt).
Proof.
  intros v w p x y v' w' -> -> Hp Hxy. induction p as [|a p IH]; simpl.
  - unfold Beqb, SpecFloat.SFeqb, Bltb, SpecFloat.SFltb, Bcompare in *.
    assert (K : is_nan x || is_nan y = match SpecFloat.SFcompare (B2SF x) (B2SF y) with None => true | _ => false end).
    { destruct x as [sx|[]| |[] mx ex Hx], y as [sy|[]| |[] my ey Hy]; try done; cbn [B2SF SpecFloat.SFcompare]; destruct (Z.compare ex ey); done. }
    rewrite K. destruct (SpecFloat.SFcompare (B2SF x) (B2SF y)) as [[]|]; done.
  - rewrite elem_of_cons in Hp. assert (Ha : Bcompare a a = Some Eq).
    { pose proof (Beqb_refl prec emax a) as R. unfold Beqb, SpecFloat.SFeqb in R. unfold Bcompare. destruct (SpecFloat.SFcompare (B2SF a) (B2SF a)) as [[]|]; destruct a; naive_solver. }
    rewrite Ha. apply IH. tauto.
Qed.
(** The sign of a number, of an infinity and of NaN *)
Local Notation of_int := (λ z, binary_normalize prec emax Hprec Hmax mode_NE z 0 false).
Lemma int_float z : (z = -1 ∨ z = 0 ∨ z = 1)%Z → finite (of_int z) ∧ val (of_int z) = IZR z.
Proof.
  intros Hz. pose proof (binary_normalize_correct prec emax Hprec Hmax mode_NE z 0 false) as C. cbn [round_mode] in C.
  assert (E : F2R (Float radix2 z 0) = IZR z) by (unfold F2R; simpl; lra). rewrite E in C.
  assert (R : rnd (IZR z) = IZR z).
  { apply round_generic; [apply valid_rnd_N|]. destruct Hz as [-> |[-> | ->]].
    - change (-1) with (- (1)). rewrite <- (Bone_correct prec emax Hprec Hmax), <- B2R_Bopp. apply generic_format_B2R.
    - apply generic_format_0.
    - rewrite <- (Bone_correct prec emax Hprec Hmax). apply generic_format_B2R. }
  rewrite R, Rlt_bool_true in C; [split; apply C|].
  assert (L : val Bone < bpow radix2 emax) by (eapply Rle_lt_trans; [apply Rle_abs|apply val_lt]; typeclasses eauto).
  rewrite Bone_correct in L. eapply Rle_lt_trans; [|exact L]. destruct Hz as [-> |[-> | ->]]; unfold Rabs; destruct (Rcase_abs _); lra.
Qed.
Theorem sign_float : ∀ x : F, let s := sign N Bltb of_int x in finite s ∧
  val s = if is_nan x then 0 else if Beqb x (B754_zero false) then 0 else if Bsign x then -1 else 1.
Proof.
  intros x. cbv zeta. unfold sign. set (z := Z.sub _ _).
  assert (E : (z = -1 ∨ z = 0 ∨ z = 1)%Z ∧ IZR z = if is_nan x then 0 else if Beqb x (B754_zero false) then 0 else if Bsign x then -1 else 1).
  { destruct x as [s|[]| |[] m e H]; unfold z; split; try (left; done); try (right; left; done); try (right; right; done); done. }
  destruct E as [E1 E2]. destruct (int_float z E1) as [F1 F2]. split; [done|]. by rewrite F2.
Qed.

(** * Angles *)
Lemma div_finite (x y : F) : finite x → finite y → val y ≠ 0 → finite (Bdiv mode_NE x y) → val (Bdiv mode_NE x y) = rnd (val x / val y).
Proof.
  intros Hx Hy H0 H. pose proof (Bdiv_correct prec emax _ _ mode_NE x y H0) as C. destruct (Rlt_bool _ _); [apply C|]. exfalso.
  assert (S : is_finite_SF (B2SF (Bdiv mode_NE x y)) = true) by (rewrite is_finite_SF_B2SF; exact H). rewrite C in S. discriminate.
Qed.
Lemma error3 w y x d0 d1 d2 e1 e2 : Rabs d0 <= w → Rabs d1 <= u → Rabs d2 <= u → Rabs e1 <= eta → Rabs e2 <= eta →
  Rabs (y * ((1 + d0) * (1 + d1) * (1 + d2) - 1) + (x * e1 * (1 + d2) + e2)) <= ((1 + w) * (1 + u) ^ 2 - 1) * Rabs y + ((1 + u) * Rabs x + 1) * eta.
Proof.
  intros B0 B1 B2 G1 G2. pose proof (u_pos prec) as Hu. pose proof (eta_pos prec emax) as He.
  assert (Hw : 0 <= w) by (eapply Rle_trans; [apply Rabs_pos|exact B0]).
  eapply Rle_trans; [apply Rabs_triang|]. apply Rplus_le_compat.
  - rewrite Rabs_mult, Rmult_comm. apply Rmult_le_compat_r; [apply Rabs_pos|].
    replace ((1 + d0) * (1 + d1) * (1 + d2) - 1) with (d0 + (d1 + d2 + d1 * d2) + d0 * (d1 + d2 + d1 * d2)) by ring.
    replace ((1 + w) * (1 + u) ^ 2 - 1) with (w + (u + u + u * u) + w * (u + u + u * u)) by ring.
    assert (P : Rabs (d1 + d2 + d1 * d2) <= u + u + u * u).
    { eapply Rle_trans; [apply Rabs_triang|]. apply Rplus_le_compat; [eapply Rle_trans; [apply Rabs_triang|lra]|].
      rewrite Rabs_mult; apply Rmult_le_compat; try apply Rabs_pos; done. }
    eapply Rle_trans; [apply Rabs_triang|]. apply Rplus_le_compat; [eapply Rle_trans; [apply Rabs_triang|lra]|].
    rewrite Rabs_mult; apply Rmult_le_compat; try apply Rabs_pos; done.
  - eapply Rle_trans; [apply Rabs_triang|]. rewrite Rmult_plus_distr_r, Rmult_1_l. apply Rplus_le_compat; [|done]. rewrite !Rabs_mult.
    assert (Rabs (1 + d2) <= 1 + u) by (eapply Rle_trans; [apply Rabs_triang|]; rewrite Rabs_R1; lra).
    assert (Rabs x * Rabs e1 * Rabs (1 + d2) <= Rabs x * eta * (1 + u)); [|lra].
    apply Rmult_le_compat; [apply Rmult_le_pos; apply Rabs_pos|apply Rabs_pos| |done]. apply Rmult_le_compat_l; [apply Rabs_pos|done].
Qed.
(** [p] is the constant pi_v, [c] is 180. *)
Theorem radians_float_error : ∀ p c x : F, finite p → Rabs (val p - PI) <= u * PI → finite c → val c = 180 → finite (radians N p c x) →
  Rabs (val (radians N p c x) - val x * (PI / 180)) <= ((1 + u) ^ 3 - 1) * Rabs (val x * (PI / 180)) + ((1 + u) * Rabs (val x) + 1) * eta.
Proof.
  intros p c x Hp Ep Hc Ec H. unfold radians in *. cbn [nmul ndiv fnum] in *. apply mult_finite in H as (Hx & Hq & E). rewrite E.
  rewrite (div_finite p c) by (done || rewrite Ec; lra). rewrite Ec. pose proof PI_RGT_0 as Hpi. pose proof (u_pos prec) as Hu. pose proof (eta_pos prec emax) as He.
  destruct (rnd_mult prec emax (val p / 180)) as (d1 & e1 & B1 & G1 & ->). destruct (rnd_mult prec emax (val x * (val p / 180 * (1 + d1) + e1))) as (d2 & e2 & B2 & G2 & ->).
  set (d0 := (val p - PI) / PI). assert (B0 : Rabs d0 <= u).
  { unfold d0, Rdiv. rewrite Rabs_mult, (Rabs_pos_eq (/ PI)) by (apply Rlt_le, Rinv_0_lt_compat; lra). apply (Rmult_le_reg_r PI); [lra|].
    rewrite Rmult_assoc, Rinv_l, Rmult_1_r by lra. exact Ep. }
  assert (E0 : val p = PI * (1 + d0)) by (unfold d0; field; lra). rewrite E0. set (y := val x * (PI / 180)).
  replace (val x * (PI * (1 + d0) / 180 * (1 + d1) + e1) * (1 + d2) + e2 - y) with (y * ((1 + d0) * (1 + d1) * (1 + d2) - 1) + (val x * e1 * (1 + d2) + e2)) by (unfold y; field).
  replace ((1 + u) ^ 3) with ((1 + u) * (1 + u) ^ 2) by ring. apply error3; done.
Qed.
Theorem degrees_float_error : ∀ p c x : F, finite p → Rabs (val p - PI) <= u * PI → u < 1 → finite c → val c = 180 → finite (degrees N p c x) →
  Rabs (val (degrees N p c x) - val x * (180 / PI)) <= (/ (1 - u) * (1 + u) ^ 2 - 1) * Rabs (val x * (180 / PI)) + ((1 + u) * Rabs (val x) + 1) * eta.
Proof.
  intros p c x Hp Ep Hu1 Hc Ec H. unfold degrees in *. cbn [nmul ndiv fnum] in *. apply mult_finite in H as (Hx & Hq & E). rewrite E.
  pose proof PI_RGT_0 as Hpi. pose proof (u_pos prec) as Hu. pose proof (eta_pos prec emax) as He.
  set (d0 := (val p - PI) / PI). assert (B0 : Rabs d0 <= u).
  { unfold d0, Rdiv. rewrite Rabs_mult, (Rabs_pos_eq (/ PI)) by (apply Rlt_le, Rinv_0_lt_compat; lra). apply (Rmult_le_reg_r PI); [lra|].
    rewrite Rmult_assoc, Rinv_l, Rmult_1_r by lra. exact Ep. }
  assert (E0 : val p = PI * (1 + d0)) by (unfold d0; field; lra). apply Rabs_le_inv in B0. assert (P0 : 0 < val p) by (rewrite E0; apply Rmult_lt_0_compat; lra).
  rewrite (div_finite c p) by (done || lra). rewrite Ec.
  destruct (rnd_mult prec emax (180 / val p)) as (d1 & e1 & B1 & G1 & ->). destruct (rnd_mult prec emax (val x * (180 / val p * (1 + d1) + e1))) as (d2 & e2 & B2 & G2 & ->).
  set (y := val x * (180 / PI)). set (d := / (1 + d0) - 1).
  assert (B : Rabs d <= / (1 - u) - 1).
  { assert (I1 : / (1 + d0) <= / (1 - u)) by (apply Rinv_le_contravar; lra). assert (I2 : / (1 + u) <= / (1 + d0)) by (apply Rinv_le_contravar; lra).
    assert (I3 : 1 - u <= / (1 + u)). { apply (Rmult_le_reg_r (1 + u)); [lra|]. rewrite Rinv_l by lra. nra. }
    assert (I4 : 1 + u <= / (1 - u)). { apply (Rmult_le_reg_r (1 - u)); [lra|]. rewrite Rinv_l by lra. nra. }
    unfold d. apply Rabs_le. lra. }
  replace (val x * (180 / val p * (1 + d1) + e1) * (1 + d2) + e2 - y) with (y * ((1 + d) * (1 + d1) * (1 + d2) - 1) + (val x * e1 * (1 + d2) + e2))
    by (unfold y, d; rewrite E0; field; split; lra).
  replace (/ (1 - u) * (1 + u) ^ 2) with ((1 + (/ (1 - u) - 1)) * (1 + u) ^ 2) by ring. apply error3; done.
Qed.
End float.

(** * float and double *)
From Verif Require ConstModel.
Local Notation f32 := (binary_float 24 128).
Local Notation f64 := (binary_float 53 1024).
Local Notation N32 := (fnum 24 128).
Local Notation N64 := (fnum 53 1024).
Local Notation val32 := (B2R (prec:=24) (emax:=128)).
Local Notation val64 := (B2R (prec:=53) (emax:=1024)).
Lemma double_value (x : f64) s : B2SF x = s → val64 x = SF2R radix2 s.
Proof. intros <-. symmetry. apply SF2R_B2SF. Qed.
Ltac double_val := erewrite !double_value by (vm_compute; reflexivity); cbn [SF2R SpecFloat.cond_Zopp]; unfold F2R; cbn [Fnum Fexp bpow]; simpl Z.pow_pos; simpl IZR.
(** math::pi_v<float> and math::pi_v<double>, as ConstModel has them for a long double of
    64 bits *)
Definition pi32 : f32 := let c := ConstModel.constant 64 24 ConstModel.pi_v in float32 (ConstModel.significand c) (ConstModel.exponent c).
Definition pi64 : f64 := let c := ConstModel.constant 64 53 ConstModel.pi_v in float64 (ConstModel.significand c) (ConstModel.exponent c).
Lemma pi32_error : is_finite pi32 = true ∧ Rabs (val32 pi32 - PI) <= u 24 * PI.
Proof. split; [vm_compute; reflexivity|]. float_val. unfold u. simpl. interval with (i_prec 80). Qed.
Lemma pi64_error : is_finite pi64 = true ∧ Rabs (val64 pi64 - PI) <= u 53 * PI.
Proof. split; [vm_compute; reflexivity|]. double_val. unfold u. simpl. interval with (i_prec 120). Qed.
(** radians of a number is a number, within 4 * 2^-24 of the exact value (and half of the
    smallest number, if it underflows); the same for double. *)
Section angle.
Context (prec emax : Z) {Hprec : Prec_gt_0 prec} {Hmax : Prec_lt_emax prec emax}.
Local Notation F := (binary_float prec emax).
Local Notation val := (B2R (prec:=prec) (emax:=emax)).
Lemma radians_bound (p c : F) : is_finite p = true → Rabs (val p - PI) <= u prec * PI → is_finite c = true → val c = 180 → u prec <= / 100 → 100 * eta prec emax <= u prec / 2 →
  is_finite (Bdiv mode_NE p c) = true → 0 <= val (Bdiv mode_NE p c) <= 1 →
  ∀ x : F, is_finite x = true → is_finite (radians (fnum prec emax) p c x) = true ∧
  Rabs (val (radians (fnum prec emax) p c x) - val x * (PI / 180)) <= 4 * u prec * Rabs (val x * (PI / 180)) + eta prec emax.
Proof.
  intros Hp Ep Hc Ec Hu He Hq Eq x Hx.
  assert (Hf : is_finite (radians (fnum prec emax) p c x) = true).
  { unfold radians. cbn [nmul ndiv fnum]. refine (mult_safe prec emax x _ Hx Hq _). apply rnd_range; [done|]. unfold in_range. set (q := val (Bdiv mode_NE p c)) in *.
    destruct (Rle_dec 0 (val x)) as [Hs|Hs].
    - exists (Bopp x), x. split; [by rewrite is_finite_Bopp|]. split; [done|]. rewrite B2R_Bopp. nra.
    - exists x, (Bopp x). split; [done|]. split; [by rewrite is_finite_Bopp|]. rewrite B2R_Bopp. nra. }
  split; [done|]. eapply Rle_trans; [by apply radians_float_error|].
  pose proof (u_pos prec) as Hu0. pose proof (eta_pos prec emax) as He0. pose proof PI_RGT_0. pose proof PI2_3_2 as P3.
  set (y := Rabs (val x * (PI / 180))). assert (Hy : Rabs (val x) <= 90 * y).
  { unfold y. rewrite Rabs_mult, (Rabs_pos_eq (PI / 180)) by lra. pose proof (Rabs_pos (val x)). unfold PI2 in P3. nra. }
  assert (0 <= y) by apply Rabs_pos. pose proof (Rabs_pos (val x)).
  assert ((1 + u prec) * Rabs (val x) <= 101 / 100 * (90 * y)) by (apply Rmult_le_compat; lra).
  assert ((1 + u prec) * Rabs (val x) * eta prec emax <= 101 / 100 * (90 * y) * eta prec emax) by (apply Rmult_le_compat_r; lra).
  assert (101 / 100 * (90 * y) * eta prec emax <= y * (u prec / 2)) by nra.
  assert ((1 + u prec) ^ 3 - 1 <= 7 / 2 * u prec) by nra.
  assert (((1 + u prec) ^ 3 - 1) * y <= 7 / 2 * u prec * y) by (apply Rmult_le_compat_r; lra). lra.
Qed.
End angle.
Theorem radians_float32 : ∀ x : f32, is_finite x = true → is_finite (radians N32 pi32 (float32 180 0) x) = true ∧
  Rabs (val32 (radians N32 pi32 (float32 180 0) x) - val32 x * (PI / 180)) <= 4 * u 24 * Rabs (val32 x * (PI / 180)) + eta 24 128.
Proof.
  apply radians_bound; try apply pi32_error; try reflexivity.
  - float_val. lra.
  - rewrite u32. lra.
  - rewrite u32. assert (H : eta 24 128 <= bpow radix2 (-40)) by (apply bpow_le; lia). simpl in H. lra.
  - float_val. lra.
Qed.
Lemma u64 : u 53 = / 9007199254740992. Proof. reflexivity. Qed.
Theorem radians_float64 : ∀ x : f64, is_finite x = true → is_finite (radians N64 pi64 (float64 180 0) x) = true ∧
  Rabs (val64 (radians N64 pi64 (float64 180 0) x) - val64 x * (PI / 180)) <= 4 * u 53 * Rabs (val64 x * (PI / 180)) + eta 53 1024.
Proof.
  apply radians_bound; try apply pi64_error; try reflexivity.
  - double_val. lra.
  - rewrite u64. lra.
  - rewrite u64. assert (H : eta 53 1024 <= bpow radix2 (-70)) by (apply bpow_le; lia). simpl in H. lra.
  - double_val. lra.
Qed.

(** * Examples *)
Lemma third_range : in_range 24 128 (1 / 3).
Proof. exists (B754_zero false), (float32 1 0). split; [vm_compute; reflexivity|]. split; [vm_compute; reflexivity|]. float_val. lra. Qed.
Example op_float_nearest_ex : defined Div (val32 (float32 3 0)) ∧ in_range 24 128 (exact Div (val32 (float32 1 0)) (val32 (float32 3 0))) ∧
  option_map (map B2SF) (run 24 128 Div N32 [float32 1 0; float32 6 0] [float32 3 0; float32 2 0]) = Some [B2SF (float32 11184811 (-25)); B2SF (float32 3 0)].
Proof.
  split; [intros _; float_val; lra|]. split; [|vm_compute; reflexivity].
  replace (exact Div (val32 (float32 1 0)) (val32 (float32 3 0))) with (1 / 3) by (cbn [exact]; float_val; lra). apply third_range.
Qed.
Example op_scalar_float_nearest_ex : option_map (map B2SF) (vop_s N32 (run_s 24 128 Mul) Datatypes.id [float32 3 0; float32 5 0] (float32 1 (-1))) =
  Some [B2SF (float32 3 (-1)); B2SF (float32 5 (-1))].
Proof. vm_compute. reflexivity. Qed.
Example neg_float_ex : option_map (map B2SF) (vneg N32 [float32 3 0; B754_zero false]) = Some [B2SF (float32 (-3) 0); B2SF (B754_zero true : f32)].
Proof. vm_compute. reflexivity. Qed.
(** 1 + 2^30 rounds, and the sum does not depend on the order. *)
Example add_float_commutes_ex : option_map (map B2SF) (vadd N32 [float32 1 0; B754_nan] [float32 1 30; float32 1 0]) = Some [B2SF (float32 1 30); SpecFloat.S754_nan].
Proof. vm_compute. reflexivity. Qed.
Example sub_float_add_neg_ex : option_map (map B2SF) (vsub N32 [float32 1 0] [float32 3 0]) = Some [B2SF (float32 (-2) 0)].
Proof. vm_compute. reflexivity. Qed.
Example length_float_neg_ex : option_map B2SF (length_ N32 (fsqrt 24 128) [float32 (-3) 0; float32 (-4) 0]) = Some (B2SF (float32 5 0)).
Proof. vm_compute. reflexivity. Qed.
Example distance_float_symmetric_ex : option_map B2SF (distance N32 (fsqrt 24 128) [float32 1 0; float32 1 0] [float32 4 0; float32 5 0]) = Some (B2SF (float32 5 0)).
Proof. vm_compute. reflexivity. Qed.
Example sub_float_antisymmetric_ex : opposite 24 128 (B754_zero false) (B754_zero false) ∧ ¬ opposite 24 128 (float32 1 0) (float32 1 0).
Proof.
  split; [right; by exists false, false|]. intros [H|(s & s' & H & _)]; apply (f_equal B2SF) in H; vm_compute in H; discriminate.
Qed.
Example sub_float_self_ex : option_map (map B2SF) (vsub N32 [float32 (-7) (-3); B754_infinity false] [float32 (-7) (-3); B754_infinity false]) =
  Some [B2SF (B754_zero false : f32); SpecFloat.S754_nan].
Proof. vm_compute. reflexivity. Qed.
Example dot_float_neg_ex : option_map B2SF (dot N32 [float32 (-3) 0; float32 (-4) 0] [float32 1 0; float32 2 0]) = Some (B2SF (float32 (-11) 0)).
Proof. vm_compute. reflexivity. Qed.
Example cross_float_antisymmetric_ex : let v := [float32 1 0; float32 2 0; float32 3 0] in let w := [float32 4 0; float32 5 0; float32 6 0] in
  option_map (map B2SF) (cross N32 v w) = Some (map B2SF [float32 (-3) 0; float32 6 0; float32 (-3) 0]) ∧
  option_map (map B2SF) (cross N32 w v) = Some (map B2SF [float32 3 0; float32 (-6) 0; float32 3 0]).
Proof. split; vm_compute; reflexivity. Qed.
(** (2^12 + 1)^2 - (2^12 + 2) * 2^12 = 1 is not computed exactly. *)
Example cross_float_error_ex : ∃ c, cross N32 [float32 0 0; float32 4097 0; float32 4098 0] [float32 0 0; float32 4096 0; float32 4097 0] = Some c ∧
  map B2SF c = map B2SF [B754_zero false; B754_zero false; B754_zero false : f32].
Proof. eexists. split; [reflexivity|]. vm_compute. reflexivity. Qed.
Example mat_vec_float_error_ex : denotes [[float32 1 0; float32 2 0]; [float32 3 0; float32 4 0]] 2 2
  (λ j i, nth i (nth j [[float32 1 0; float32 2 0]; [float32 3 0; float32 4 0]] []) (float32 0 0)) ∧
  option_map (map B2SF) (mat_vec N32 2 2 [[float32 1 0; float32 2 0]; [float32 3 0; float32 4 0]] [float32 5 0; float32 6 0]) = Some (map B2SF [float32 23 0; float32 34 0]).
Proof.
  split; [|vm_compute; reflexivity]. split; [done|]. intros [|[|j]] Hj; [| |lia]; eexists; (split; [done|]); (split; [done|]); intros [|[|i]] Hi; done || lia.
Qed.
Example mat_mul_float_error_ex : let A := [[float32 1 0; float32 2 0]; [float32 3 0; float32 4 0]] in
  option_map (map (map B2SF)) (mat_mul N32 2 2 2 A A) = Some (map (map B2SF) [[float32 7 0; float32 10 0]; [float32 15 0; float32 22 0]]).
Proof. vm_compute. reflexivity. Qed.
Example transpose_product_float_ex : let A := [[float32 1 0; float32 2 0]; [float32 3 0; float32 4 0]] in
  option_map (map (map B2SF)) (C ← mat_mul N32 2 2 2 A A; transpose N32 2 2 C) = Some (map (map B2SF) [[float32 7 0; float32 15 0]; [float32 10 0; float32 22 0]]).
Proof. vm_compute. reflexivity. Qed.
(** The value is the same but -0 becomes +0. *)
Example identity_float_ex : option_map (map B2SF) (I ← mat_default N32 2 2; mat_vec N32 2 2 I [float32 7 0; B754_zero true]) = Some (map B2SF [float32 7 0; B754_zero false]).
Proof. vm_compute. reflexivity. Qed.
Example eq_float_ex : veq Beqb [B754_zero false; float32 1 0] [B754_zero true; float32 1 0] = true ∧ veq Beqb [B754_nan : f32] [B754_nan] = false.
Proof. split; vm_compute; reflexivity. Qed.
Example eq_float_self_ex : veq Beqb [B754_infinity true; float32 1 0] [B754_infinity true; float32 1 0] = true.
Proof. vm_compute. reflexivity. Qed.
Example compare_float_ex : vcmp Bcompare [float32 1 0; float32 2 0] [float32 1 0; float32 3 0] = Some Lt ∧ vcmp Bcompare [float32 1 0; B754_nan] [float32 1 0; float32 3 0] = None.
Proof. split; vm_compute; reflexivity. Qed.
Example sign_float_ex : let s x := B2SF (sign N32 Bltb (λ z, float32 z 0) x) in
  s (float32 (-5) 70) = B2SF (float32 (-1) 0) ∧ s (B754_infinity false) = B2SF (float32 1 0) ∧ s (B754_zero true) = B2SF (float32 0 0) ∧ s B754_nan = B2SF (float32 0 0).
Proof. repeat split; vm_compute; reflexivity. Qed.
(** radians(180) is pi_v<float>, radians(60) is the float next to pi / 3 *)
Example radians_float_error_ex : B2SF (radians N32 pi32 (float32 180 0) (float32 180 0)) = B2SF pi32.
Proof. vm_compute. reflexivity. Qed.
Example degrees_float_error_ex : B2SF (degrees N32 pi32 (float32 180 0) pi32) = B2SF (float32 180 0).
Proof. vm_compute. reflexivity. Qed.
Example radians_float32_ex : is_finite (radians N32 pi32 (float32 180 0) (float32 16777215 104)) = true.
Proof. vm_compute. reflexivity. Qed.
Example radians_float64_ex : B2SF (radians N64 pi64 (float64 180 0) (float64 180 0)) = B2SF pi64.
Proof. vm_compute. reflexivity. Qed.

Definition float_ops_theorems := (@op_float_nearest, @op_scalar_float_nearest, @neg_float, @add_float_commutes, @sub_float_add_neg, @length_float_neg, @distance_float_symmetric,
  @sub_float_antisymmetric, @sub_float_self, @dot_float_neg, @cross_float_antisymmetric, @cross_float_error, @mat_vec_float_error, @mat_mul_float_error,
  @transpose_product_float, @identity_float, @eq_float, @eq_float_self, @compare_float, @sign_float, @radians_float_error, @degrees_float_error, @radians_float32, @radians_float64).
Print Assumptions float_ops_theorems.
