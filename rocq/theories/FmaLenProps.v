(** Theorems about lengths, distances and unit vectors with fused operations: property C163. *)
From stdpp Require Import list.
From Coq Require Import ZArith Lia Reals Lra Psatz.
From Flocq Require Import Core Operations BinarySingleNaN.
From Verif Require Import VecModel VecSpec VecProofs FloatModel FloatProps FloatOpsProps FloatExprProofs FloatMatProps FmaModel FmaProofs FmaProps FmaLenModel.
Local Open Scope R_scope.

Section fma.
Context (prec emax : Z) {Hprec : Prec_gt_0 prec} {Hmax : Prec_lt_emax prec emax}.
Local Notation F := (binary_float prec emax).
Local Notation N := (fnum prec emax).
Local Notation finite := (λ x : F, is_finite x = true).
Local Notation val := (B2R (prec:=prec) (emax:=emax)).
Local Notation u := (u prec).
Local Notation eta := (eta prec emax).
Local Notation expr := (expr prec emax).
Local Notation X := (@X prec emax).
Local Notation xnum := (xnum prec emax).
Local Notation result := (result prec emax).
Local Notation squares := (squares prec emax).
Local Notation gap := (gap prec emax).
Local Notation q := (1 + u).

(** * The radicand *)
Lemma length_fused_dot v l : length_fused prec emax v l ↔ ∃ s, dot_fused prec emax v v s ∧ l = fsqrt prec emax s.
Proof.
  unfold length_fused, root_of, dot_fused, length_. split.
  - intros (e & s & E & H & ->). destruct (dot xnum _ _) as [e'|]; [|done]. simpl in E. injection E as ->. eauto 6.
  - intros (s & (e & E & H) & ->). rewrite E. simpl. eauto 6.
Qed.
Lemma vecn_length_sum es : vecn_length xnum (λ e, e) es = Some (sum xnum (length es) (λ i, Times (comp xnum es i) (comp xnum es i))).
Proof.
  unfold vecn_length. rewrite (for_sum xnum _ (λ i, Times (comp xnum es i) (comp xnum es i))); [done|].
  intros i acc Hi. rewrite !(index_comp xnum) by done. done.
Qed.
Lemma prod_X (x y s : F) : result (Times (X x) (X y)) s → s = Bmult mode_NE x y.
Proof. apply result_prod. Qed.
Lemma zero_square (x : F) : result (Plus (X (B754_zero false)) (Times (X x) (X x))) (Bmult mode_NE x x).
Proof. rewrite <- (zero_plus_square prec emax x). constructor; [constructor|]. constructor; constructor. Qed.
Lemma two_squares (x y s : F) : result (Plus (Times (X x) (X x)) (Times (X y) (X y))) s →
  let e x y := Plus (Plus (X (B754_zero false)) (Times (X x) (X x))) (Times (X y) (X y)) in result (e x y) s ∨ result (e y x) s.
Proof.
  intros H e. inversion H as [|a b s' p Ha Hb| | |a b c x' y' z' Ha Hb Hc|a b c x' y' z' Ha Hb Hc| |]; subst.
  - apply prod_X in Ha, Hb. subst. left. constructor; [apply zero_square|]. constructor; constructor.
  - apply prod_X in Hc. subst. right. apply fused_right; [done|done|apply zero_square].
  - apply prod_X in Hc. subst. left. apply fused_right; [done|done|apply zero_square].
Qed.
Lemma add_square a (z s : F) : (∀ x y, a ≠ Times x y) → result (Plus a (Times (X z) (X z))) s →
  ∃ t, result a t ∧ ∀ b, result b t → result (Plus b (Times (X z) (X z))) s.
Proof.
  intros Na H. inversion H as [|a' b' s' p Ha Hb| | |a' b' c x' y' z' Ha Hb Hc|a' b' c x' y' z' Ha Hb Hc| |]; subst.
  - exists s'. split; [done|]. intros b Rb. by constructor.
  - by destruct (Na a' b').
  - exists z'. split; [done|]. intros b Rb. by apply fused_right.
Qed.
(** Whatever length() fuses, length(v) can fuse too, after exchanging the first two components. *)
Lemma vlength_fused_dot v l : vlength_fused prec emax v l → ∃ v', v' ≡ₚ v ∧ length_fused prec emax v' l.
Proof.
  intros (e & s & E & H & ->).
  assert (Hn : vecn_length xnum (λ e, e) (map X v) = Some e → ∃ v', v' ≡ₚ v ∧ length_fused prec emax v' (fsqrt prec emax s)).
  { intros E'. rewrite vecn_length_sum in E'. injection E' as <-. exists v. split; [done|]. apply length_fused_dot. exists s. split; [|done].
    apply dot_fused_sum. split; [done|]. rewrite map_length in H.
    rewrite (sum_ext xnum _ _ (xprods prec emax (comp N v) (comp N v))) in H; [done|]. intros k _. by rewrite comp_X. }
  assert (K : ∀ v', v' ≡ₚ v → result (sum xnum (length v') (xprods prec emax (comp N v') (comp N v'))) s →
    ∃ v', v' ≡ₚ v ∧ length_fused prec emax v' (fsqrt prec emax s)).
  { intros v' P R. exists v'. split; [done|]. apply length_fused_dot. exists s. split; [|done]. by apply dot_fused_sum. }
  destruct v as [|x [|y [|z [|w [|? ?]]]]]; try (by apply Hn); injection E as <-.
  - apply two_squares in H as [H|H]; [apply (K [x; y])|apply (K [y; x])]; [done|exact H|constructor|exact H].
  - apply add_square in H as (t & H & Z); [|done].
    apply two_squares in H as [H|H]; apply Z in H; [by apply (K [x; y; z])|apply (K [y; x; z]); [constructor|exact H]].
  - apply add_square in H as (t' & H & W); [|done]. apply add_square in H as (t & H & Z); [|done].
    apply two_squares in H as [H|H]; apply Z, W in H; [by apply (K [x; y; z; w])|apply (K [y; x; z; w]); [constructor|exact H]].
Qed.
Lemma squares_perm v v' : v ≡ₚ v' → squares v = squares v'.
Proof. unfold FloatProps.squares, total. induction 1; simpl in *; lra. Qed.

(** * Lengths *)
Lemma dot_fused_squares v s : dot_fused prec emax v v s → finite s →
  Rabs (val s - squares v) <= (q ^ length v - 1) * squares v + INR (length v) * q ^ length v * eta.
Proof. intros H Hf. pose proof (dot_fused_error prec emax v v s H Hf) as B. by rewrite squares_zip, squares_zip_abs in B. Qed.
Theorem length_fused_error : ∀ v l, (1 < prec)%Z → length_fused prec emax v l ∨ vlength_fused prec emax v l → finite l → 0 < squares v →
  Rabs (val l - R_sqrt.sqrt (squares v)) <=
    (q ^ (length v + 1) - 1) * R_sqrt.sqrt (squares v) + INR (length v) * q ^ (length v + 1) * eta / R_sqrt.sqrt (squares v).
Proof.
  intros v l Hp H Hf Hs. assert (∃ v', v' ≡ₚ v ∧ length_fused prec emax v' l) as (v' & P & H').
  { destruct H as [H|H]; [by exists v|by apply vlength_fused_dot]. }
  rewrite <- (squares_perm _ _ P) in *. rewrite <- P. apply length_fused_dot in H' as (s & H' & ->).
  apply length_bound; [done..|]. intros Hfs. by apply dot_fused_squares.
Qed.

(** * Unit vectors *)
Theorem normalize_fused_error : ∀ v r, (1 < prec)%Z → (6 <= emax)%Z → Forall finite v → q ^ (length v + 2) <= 3 / 2 →
  v ≠ [] → INR (length v) * bpow radix2 (2 - emax) <= squares v →
  q ^ length v * (squares v + INR (length v) * eta) < bpow radix2 emax →
  normalize_fused prec emax v r ∨ vnormalize_fused prec emax v r → length r = length v ∧
  ∀ i a b, v !! i = Some a → r !! i = Some b → finite b ∧
    Rabs (val b - val a / R_sqrt.sqrt (squares v)) <=
      (q ^ 2 / (2 - q ^ (length v + 2)) - 1) * (Rabs (val a) / R_sqrt.sqrt (squares v)) + eta.
Proof.
  intros v r Hp Hem Hfin Hq Hne Hlow Hhigh H.
  assert (∃ v' l, v' ≡ₚ v ∧ length_fused prec emax v' l ∧ vscale N v (ndiv N (n1 N) l) = Some r) as (v' & l & P & H' & E).
  { destruct H as [(l & H & E)|(l & H & E)]; [by exists v, l|]. apply vlength_fused_dot in H as (v' & P & H'). eauto. }
  rewrite vscale_eq in E. injection E as <-. split; [by rewrite map_length|]. intros i a b Ha Hb.
  rewrite list_lookup_fmap, Ha in Hb. simpl in Hb. injection Hb as <-.
  apply length_fused_dot in H' as (s & H' & ->). pose proof (squares_perm _ _ P) as ES. pose proof (Permutation_length P) as EL.
  assert (Hfin' : Forall finite v') by (by rewrite P).
  assert (Hs : finite s) by (apply (dot_fused_finite prec emax v' v' s H' Hfin' Hfin'); rewrite squares_zip_abs, ES, EL; exact Hhigh).
  pose proof (dot_fused_squares v' s H' Hs) as B. rewrite ES, EL in B.
  by apply (normalize_bound prec emax v s Hp Hem Hfin Hq Hne Hlow Hhigh Hs B i a).
Qed.

(** * Distances *)
(** Differences of numbers are computed first. *)
Fixpoint flat (e : expr) : expr :=
  match e with
  | FloatExprProofs.X f => X f
  | Plus a b => Plus (flat a) (flat b)
  | Minus (FloatExprProofs.X a) (FloatExprProofs.X b) => X (Bminus mode_NE a b)
  | Minus a b => Minus (flat a) (flat b)
  | Times a b => Times (flat a) (flat b)
  end.
Lemma result_flat e s : result e s → result (flat e) s.
Proof.
  induction 1 as [f|a b x y Ra IHa Rb IHb|a b x y Ra IHa Rb IHb|a b x y Ra IHa Rb IHb|a b c x y z Ra IHa Rb IHb Rc IHc
    |a b c x y z Ra IHa Rb IHb Rc IHc|a b c x y z Ra IHa Rb IHb Rc IHc|a b c x y z Ra IHa Rb IHb Rc IHc].
  - constructor.
  - by constructor.
  - destruct a as [f| | |], b as [g| | |]; try (by constructor).
    apply result_X in Ra, Rb. subst. constructor.
  - by constructor.
  - by apply fused_left.
  - by apply fused_right.
  - by apply fused_minus.
  - destruct c; by apply fused_negated.
Qed.
Lemma flat_sum (f : nat → expr) n : flat (sum xnum n f) = sum xnum n (λ k, flat (f k)).
Proof. induction n as [|n IH]; [done|]. cbn [sum nadd FloatExprProofs.xnum flat]. by rewrite IH. Qed.
Lemma comp_flat es k : comp xnum (map flat es) k = flat (comp xnum es k).
Proof. unfold comp. change (map flat es) with (flat <$> es). rewrite list_lookup_fmap. by destruct (es !! k). Qed.
Lemma vlength_flat es e : vlength xnum (λ e, e) es = Some e → vlength xnum (λ e, e) (map flat es) = Some (flat e).
Proof.
  assert (Hn : vecn_length xnum (λ e, e) es = Some e → vecn_length xnum (λ e, e) (map flat es) = Some (flat e)).
  { rewrite !vecn_length_sum. intros E. injection E as <-. rewrite map_length, flat_sum. f_equal. apply sum_ext. intros k _. by rewrite comp_flat. }
  destruct es as [|x [|y [|z [|w [|? ?]]]]]; try exact Hn; intros E; injection E as <-; done.
Qed.
Lemma distance_fused_length v w l : length v = length w → distance_fused prec emax v w l →
  vlength_fused prec emax (zip_with (Bminus mode_NE) w v) l.
Proof.
  intros L (e & s & E & H & ->). unfold distance in E. rewrite vsub_eq in E by (by rewrite !map_length). simpl in E.
  apply vlength_flat in E. exists (flat e), s. split; [|split; [by apply result_flat|done]]. rewrite <- E. f_equal. clear.
  revert v. induction w as [|b w IH]; intros [|a v]; try done. simpl. by rewrite IH.
Qed.
Theorem distance_fused_error : ∀ v w l, (1 < prec)%Z → length v = length w → distance_fused prec emax v w l → finite l → 0 < gap v w →
  Rabs (val l - R_sqrt.sqrt (gap v w)) <=
    (q ^ (length v + 2) - 1) * R_sqrt.sqrt (gap v w) + INR (length v) * q ^ (length v + 1) * eta / ((1 - u) * R_sqrt.sqrt (gap v w)).
Proof.
  intros v w l Hp L H Hf Hg. apply distance_fused_length in H; [|done]. set (d := zip_with (Bminus mode_NE) w v) in *.
  assert (Hlen : length d = length v) by (unfold d; rewrite zip_with_length; lia).
  assert (Hd : Forall finite d).
  { apply vlength_fused_dot in H as (d' & P & H). rewrite <- P. apply length_fused_dot in H as (s & H & ->).
    destruct (sqrt_finite prec emax s Hp Hf) as (Hs & _). apply dot_fused_sum in H as [_ H].
    destruct (result_sum_error prec emax _ _ _ _ H Hs) as [Hall _]. apply Forall_lookup. intros i x Hx.
    destruct (Hall i ltac:(by eapply lookup_lt_Some)) as [K _]. by rewrite (comp_lookup prec emax d' i x Hx) in K. }
  apply (distance_bound prec emax v w l Hp L Hd Hg). cbv zeta. fold d. intros Hs. rewrite <- Hlen. apply length_fused_error; auto.
Qed.

(** Without fused operations *)
Local Notation fl := (fl prec emax).
Lemma fl_sum (f : nat → expr) n : fl (sum xnum n f) = sum N n (λ k, fl (f k)).
Proof. induction n as [|n IH]; [done|]. cbn [sum nadd FloatExprProofs.xnum FloatExprProofs.fl]. by rewrite IH. Qed.
Lemma comp_fl es k : comp N (map fl es) k = fl (comp xnum es k).
Proof. unfold comp. change (map fl es) with (fl <$> es). rewrite list_lookup_fmap. by destruct (es !! k). Qed.
Lemma vlength_fl es l : vlength N (fsqrt prec emax) (map fl es) = Some l → root_of prec emax (vlength xnum (λ e, e) es) l.
Proof.
  assert (Hn : vecn_length N (fsqrt prec emax) (map fl es) = Some l → root_of prec emax (vecn_length xnum (λ e, e) es) l).
  { rewrite vecn_length_sum. unfold vecn_length. rewrite (for_sum N _ (λ i, nmul N (comp N (map fl es) i) (comp N (map fl es) i))).
    - intros E. injection E as <-. eexists _, _. split; [done|]. split; [apply result_fl|]. f_equal. rewrite fl_sum, map_length. apply sum_ext.
      intros k _. by rewrite comp_fl.
    - intros i acc Hi. rewrite !(index_comp N) by done. done. }
  destruct es as [|x [|y [|z [|w [|? ?]]]]]; try exact Hn; intros E; injection E as <-; (eexists _, _; split; [done|]; split; [apply result_fl|done]).
Qed.
Lemma map_fl_X v : map fl (map X v) = v.
Proof. induction v as [|a v IH]; [done|]. simpl. by rewrite IH. Qed.
(** The results of the functions on numbers are among the possible ones. *)
Theorem length_fused_default : ∀ v w,
  (∀ l, length_ N (fsqrt prec emax) v = Some l → length_fused prec emax v l) ∧
  (∀ l, vlength N (fsqrt prec emax) v = Some l → vlength_fused prec emax v l) ∧
  (∀ l, distance N (fsqrt prec emax) v w = Some l → distance_fused prec emax v w l) ∧
  (∀ r, normalize N (fsqrt prec emax) v = Some r → normalize_fused prec emax v r) ∧
  (∀ r, vnormalize N (fsqrt prec emax) v = Some r → vnormalize_fused prec emax v r).
Proof.
  intros v w.
  assert (A : ∀ l, length_ N (fsqrt prec emax) v = Some l → length_fused prec emax v l).
  { intros l E. unfold length_ in E. destruct (dot N v v) as [s|] eqn:D; [|done]. simpl in E. injection E as <-.
    apply length_fused_dot. exists s. split; [|done]. by apply fused_default. }
  assert (B : ∀ l, vlength N (fsqrt prec emax) v = Some l → vlength_fused prec emax v l).
  { intros l E. apply vlength_fl. by rewrite map_fl_X. }
  split_and!; [done|done| | |].
  - intros l E. unfold distance in E. destruct (decide (length w = length v)) as [L|L].
    + rewrite vsub_eq in E by done. simpl in E. unfold distance_fused, distance. rewrite vsub_eq by (by rewrite !map_length). simpl.
      apply vlength_fl. rewrite <- E. f_equal. clear. revert v. induction w as [|b w IH]; intros [|a v]; try done. simpl. by rewrite IH.
    + exfalso. unfold vsub, vop in E. by rewrite (proj2 (Nat.eqb_neq _ _) L) in E.
  - intros r E. unfold normalize in E. destruct (length_ N _ v) as [l|] eqn:D; [|done]. simpl in E. exists l. auto.
  - intros r E. unfold vnormalize in E. destruct (vlength N _ v) as [l|] eqn:D; [|done]. simpl in E. exists l. auto.
Qed.

(** * Opposite components *)
Local Notation opposite := (opposite prec emax).
Lemma opposite_square (x y z : F) : opposite x y → Bmult mode_NE x x = Bmult mode_NE y y ∧ Bfma mode_NE x x z = Bfma mode_NE y y z.
Proof.
  intros [-> |(s & s' & -> & ->)].
  - split; [apply mult_opp|]. destruct y as [[|]|[|]| |[|] my ey Hy], z as [[|]|[|]| |[|] mz ez Hz]; reflexivity.
  - destruct s, s'; split; try done; by destruct z as [[|]|[|]| |[|] mz ez Hz].
Qed.
(** Sums of squares of expressions with opposite values *)
Definition facing (a a' : expr) : Prop := ∃ x y, (∀ s, result a s → s = x) ∧ result a' y ∧ opposite x y.
Inductive alike : expr → expr → Prop :=
| alike_square a a' : facing a a' → alike (Times a a) (Times a' a')
| alike_number x : alike (X x) (X x)
| alike_plus a b a' b' : alike a a' → alike b b' → alike (Plus a b) (Plus a' b').
Lemma result_alike e e' : alike e e' → ∀ s, result e s → result e' s.
Proof.
  induction 1 as [a a' (x & y & Ux & Ry & O)|x|a b a' b' Ha IHa Hb IHb]; intros s H; [|done|].
  - inversion H as [| | |? ? x' y' Ra Rb| | | |]; subst. apply Ux in Ra as ->. apply Ux in Rb as ->. rewrite (proj1 (opposite_square x y x O)). by constructor.
  - inversion H as [|? ? s' p Ra Rb| | |c d ? x' y' z' Rc Rd Rb|c d ? x' y' z' Rc Rd Ra| |]; subst.
    + constructor; auto.
    + inversion Ha as [? ? (x & y & Ux & Ry & O)| |]; subst. apply Ux in Rc as ->. apply Ux in Rd as ->.
      rewrite (proj2 (opposite_square x y z' O)). apply fused_left; auto.
    + inversion Hb as [? ? (x & y & Ux & Ry & O)| |]; subst. apply Ux in Rc as ->. apply Ux in Rd as ->.
      rewrite (proj2 (opposite_square x y z' O)). apply fused_right; auto.
Qed.
Lemma sum_alike n (f g : nat → expr) : (∀ k, (k < n)%nat → alike (f k) (g k)) → alike (sum xnum n f) (sum xnum n g).
Proof. induction n as [|n IH]; intros H; [constructor|]. cbn [sum nadd FloatExprProofs.xnum]. constructor; auto. Qed.
Lemma comp_facing es es' k : Forall2 facing es es' → facing (comp xnum es k) (comp xnum es' k).
Proof.
  intros H. assert (Z : facing (X (B754_zero false)) (X (B754_zero false))).
  { exists (B754_zero false), (B754_zero false). split; [apply result_X|]. split; [constructor|]. right. by exists false, false. }
  revert k. induction H as [|x y v w O H IH]; intros [|k]; [exact Z|exact Z|exact O|apply (IH k)].
Qed.
Lemma root_alike es es' l : Forall2 facing es es' →
  root_of prec emax (vlength xnum (λ e, e) es) l → root_of prec emax (vlength xnum (λ e, e) es') l.
Proof.
  intros O (e & s & E & H & ->). assert (L := Forall2_length _ _ _ O).
  assert (Hn : ∀ e, vecn_length xnum (λ e, e) es = Some e → ∃ e', vecn_length xnum (λ e, e) es' = Some e' ∧ alike e e').
  { intros e0. rewrite !vecn_length_sum. intros E0. injection E0 as <-. eexists. split; [done|]. rewrite L. apply sum_alike.
    intros k Hk. constructor. by apply comp_facing. }
  assert (∃ e', vlength xnum (λ e, e) es' = Some e' ∧ alike e e') as (e' & E' & A).
  { destruct O as [|x x' v w O0 O]; [by apply Hn|]. destruct O as [|y y' v w O1 O]; [by apply Hn|].
    destruct O as [|z z' v w O2 O]; [injection E as <-; eexists; split; [done|]; cbn [nadd nmul FloatExprProofs.xnum]; auto using alike|].
    destruct O as [|t t' v w O3 O]; [injection E as <-; eexists; split; [done|]; cbn [nadd nmul FloatExprProofs.xnum]; auto using alike|].
    destruct O as [|? ? v w O4 O]; [injection E as <-; eexists; split; [done|]; cbn [nadd nmul FloatExprProofs.xnum]; auto using alike|]. by apply Hn. }
  exists e', s. split; [done|]. split; [by eapply result_alike|done].
Qed.
Lemma facing_X x y : opposite x y → facing (X x) (X y).
Proof. intros O. exists x, y. split; [apply result_X|]. split; [constructor|done]. Qed.
Lemma facing_minus (x y : F) : facing (Minus (X x) (X y)) (Minus (X y) (X x)).
Proof.
  exists (Bminus mode_NE x y), (Bminus mode_NE y x). split; [|split; [by repeat constructor|]].
  - intros s H. inversion H as [| |? ? x' y' Ra Rb| | | | |]; subst. apply result_X in Ra, Rb. by subst.
  - destruct (sub_float_antisymmetric prec emax [x; x] [y; y] eq_refl) as (d & e & E & E' & O). injection E as <-. injection E' as <-. by inversion O.
Qed.
Lemma length_alike v w l : Forall2 opposite v w → length_fused prec emax v l → length_fused prec emax w l.
Proof.
  rewrite !length_fused_dot. intros O (s & H & ->). exists s. split; [|done]. apply dot_fused_sum in H as [_ H]. apply dot_fused_sum. split; [done|].
  rewrite <- (Forall2_length _ _ _ O). eapply result_alike; [|exact H]. apply sum_alike. intros k _. constructor.
  rewrite <- !comp_X. apply comp_facing. clear -O. induction O; constructor; [by apply facing_X|done].
Qed.
(** The possible lengths of -v are those of v, and the possible distances are symmetric. *)
Theorem length_fused_neg : ∀ v r l, vneg N v = Some r →
  (length_fused prec emax r l ↔ length_fused prec emax v l) ∧ (vlength_fused prec emax r l ↔ vlength_fused prec emax v l).
Proof.
  intros v r l E. rewrite vneg_eq in E. injection E as <-.
  assert (O : Forall2 opposite (map Bopp v) v) by (induction v; constructor; [by left|done]).
  assert (O' : Forall2 opposite v (map Bopp v)) by (clear -O; induction O; constructor; [by apply opposite_sym|done]).
  assert (W : ∀ v w, Forall2 opposite v w → Forall2 facing (map X v) (map X w)) by (induction 1; constructor; [by apply facing_X|done]).
  split; split; (by apply length_alike) || (by apply root_alike, W).
Qed.
Theorem distance_fused_symmetric : ∀ v w l, length v = length w → distance_fused prec emax v w l → distance_fused prec emax w v l.
Proof.
  intros v w l L. unfold distance_fused, distance. rewrite !vsub_eq by (by rewrite !map_length). cbn [mbind option_bind].
  apply root_alike. clear L. revert w. induction v as [|a v IH]; intros [|b w]; simpl; constructor; [apply facing_minus|apply IH].
Qed.
End fma.

(** * float *)
Local Notation f32 := (binary_float 24 128).
Local Notation N32 := (fnum 24 128).
Local Notation val32 := (B2R (prec:=24) (emax:=128)).
Local Notation sqrt32 := (fsqrt 24 128).
Definition apart_ex : list f32 := [float32 4097 0; float32 3901 0].
Definition apart_length : f32 := sqrt32 (Bfma mode_NE (float32 4097 0) (float32 4097 0) (Bmult mode_NE (float32 3901 0) (float32 3901 0))).
(** Without fused operations v.length() and length(v) are equal (C84). With them, v.length()
    may have a value that length(v) never has. *)
Theorem length_fused_agree_refuted : ∃ (v : list f32) l, vlength_fused 24 128 v l ∧ ¬ length_fused 24 128 v l.
Proof.
  exists apart_ex, apart_length. split.
  - eexists _, _. split; [reflexivity|]. split; [|reflexivity]. apply fused_left; by repeat constructor.
  - intros H. apply length_fused_dot in H as (s & H & E). apply dot_fused_sum in H as [_ H]. cbn [length apart_ex] in H.
    apply result_step in H as (s1 & H & Hs). apply result_step in H as (s0 & H & Hs1). cbn [sum] in H. apply result_X in H as ->.
    apply (f_equal B2SF) in E. destruct Hs as [-> | ->], Hs1 as [-> | ->]; vm_compute in E; discriminate.
Qed.

(** * Examples *)
Definition v34 : list f32 := [float32 3 0; float32 4 0].
Lemma squares34 : squares 24 128 v34 = 25.
Proof. unfold squares, total, v34. cbn [map foldr]. float_val. lra. Qed.
(** 3 * 3 is not rounded before 4 * 4 is added. *)
Example length_fused_error_ex : ∃ l, vlength_fused 24 128 v34 l ∧ is_finite l = true ∧ val32 l = 5 ∧ 0 < squares 24 128 v34.
Proof.
  exists (sqrt32 (Bfma mode_NE (float32 3 0) (float32 3 0) (Bmult mode_NE (float32 4 0) (float32 4 0)))). split.
  - eexists _, _. split; [reflexivity|]. split; [|reflexivity]. apply fused_left; by repeat constructor.
  - split; [vm_compute; reflexivity|]. split; [float_val; lra|]. rewrite squares34. lra.
Qed.
Example distance_fused_error_ex : let v := [float32 1 0; float32 1 0] in let w := [float32 4 0; float32 5 0] in
  ∃ l, distance_fused 24 128 v w l ∧ is_finite l = true ∧ val32 l = 5 ∧ gap 24 128 v w = 25.
Proof.
  cbv zeta. set (x := Bminus mode_NE (float32 4 0) (float32 1 0) : f32). set (y := Bminus mode_NE (float32 5 0) (float32 1 0) : f32).
  exists (sqrt32 (Bfma mode_NE y y (Bmult mode_NE x x))). split.
  - eexists _, _. split; [reflexivity|]. split; [|reflexivity]. cbn [nsub nmul nadd FloatExprProofs.xnum]. unfold Datatypes.id.
    apply fused_right; by repeat constructor.
  - split; [vm_compute; reflexivity|]. split; [float_val; lra|]. unfold gap, total. cbn [zip_with foldr]. float_val. lra.
Qed.
Example normalize_fused_error_ex : Forall (λ x, is_finite x = true) v34 ∧ (1 + u 24) ^ (length v34 + 2) <= 3 / 2 ∧
  INR (length v34) * bpow radix2 (2 - 128) <= squares 24 128 v34 ∧
  (1 + u 24) ^ length v34 * (squares 24 128 v34 + INR (length v34) * eta 24 128) < bpow radix2 128 ∧ ∃ r, vnormalize_fused 24 128 v34 r.
Proof.
  split; [by repeat constructor|]. rewrite squares34, u32. cbn [length v34 Nat.add]. split; [lra|]. pose proof eta32. pose proof max32. pose proof (eta_pos 24 128).
  split; [|split; [simpl; lra|]].
  - assert (bpow radix2 (2 - 128) <= 1) by (change 1 with (bpow radix2 0); apply bpow_le; lia). simpl INR. lra.
  - eexists _, _. split; [|reflexivity]. eexists _, _. split; [reflexivity|]. split; [|reflexivity]. apply fused_left; by repeat constructor.
Qed.
Example length_fused_default_ex : length_fused 24 128 v34 (float32 5 0).
Proof.
  apply length_fused_default; [exact []|]. unfold length_. rewrite dot_eq by done. cbn [mbind option_bind]. apply (f_equal Some). apply B2SF_inj. vm_compute. reflexivity.
Qed.
Example length_fused_neg_ex : vneg N32 v34 = Some [float32 (-3) 0; float32 (-4) 0] ∧ length_fused 24 128 [float32 (-3) 0; float32 (-4) 0] (float32 5 0).
Proof.
  assert (E : vneg N32 v34 = Some [float32 (-3) 0; float32 (-4) 0]).
  { rewrite vneg_eq. apply (f_equal Some). unfold v34. cbn [map]. apply f_equal2; [|apply f_equal2; [|done]]; apply B2SF_inj; vm_compute; reflexivity. }
  split; [exact E|]. apply (length_fused_neg 24 128 _ _ _ E), length_fused_default_ex.
Qed.

Example distance_fused_symmetric_ex : let v := [float32 1 0; float32 1 0] in let w := [float32 4 0; float32 5 0] in
  ∃ l, distance_fused 24 128 w v l ∧ val32 l = 5.
Proof. destruct distance_fused_error_ex as (l & H & _ & E & _). exists l. split; [by apply distance_fused_symmetric|exact E]. Qed.

Definition fma_length_theorems := (length_fused_error, normalize_fused_error, distance_fused_error, length_fused_default, length_fused_neg, distance_fused_symmetric,
  length_fused_agree_refuted).
Print Assumptions fma_length_theorems.
