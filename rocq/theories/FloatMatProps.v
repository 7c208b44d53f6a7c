(** Theorems about determinants, quaternions and transformations in floating point:
    properties C134 to C137. *)
From stdpp Require Import list.
From Coq Require Import ZArith Lia Reals Lra Psatz.
From Flocq Require Import Core BinarySingleNaN.
From Verif Require Import VecModel VecSpec VecProofs VecProps MatModel MatProofs MatProps TransformSpec FloatModel FloatProps FloatOpsProps FloatExprProofs.
Local Open Scope R_scope.

(** The sum of the absolute values of the products that make up a determinant: the
    expansion with absolute values and without signs. *)
Definition unsigned : num R := Num 0 1 Rplus Rminus Rmult Rdiv (λ x, x).
Definition permanent (n : nat) (f : nat → nat → R) : R := laplace unsigned n (λ j i, Rabs (f j i)).

(** Evaluation with a homomorphic arithmetic. *)
Section hom.
Context {A B} (M : num A) (N : num B) (h : A → B).
Context (h_add : ∀ x y, h (nadd M x y) = nadd N (h x) (h y)) (h_sub : ∀ x y, h (nsub M x y) = nsub N (h x) (h y))
  (h_mul : ∀ x y, h (nmul M x y) = nmul N (h x) (h y)).
Lemma det2_hom f : det2 N (build 2 2 (λ j i, h (f j i))) = h <$> det2 M (build 2 2 f).
Proof. unfold det2. cbn. unfold at_. simpl. by rewrite !h_sub, !h_mul. Qed.
Lemma det3_hom f : det3 N (build 3 3 (λ j i, h (f j i))) = h <$> det3 M (build 3 3 f).
Proof. unfold det3. cbn. unfold at_. simpl. by rewrite !h_add, !h_sub, !h_mul, !h_sub, !h_mul. Qed.
Lemma det4_hom f : det4 N (build 4 4 (λ j i, h (f j i))) = h <$> det4 M (build 4 4 f).
Proof. unfold det4. cbn. unfold at_. simpl. by repeat rewrite ?h_add, ?h_sub, ?h_mul. Qed.
Definition qmap (q : @quat A) : @quat B := Quat (h (qw q)) (h (qx q)) (h (qy q)) (h (qz q)).
Lemma qmul_hom p q : qmul N (qmap p) (qmap q) = qmap (qmul M p q).
Proof. destruct p, q. unfold qmap, qmul. cbn. by repeat rewrite ?h_add, ?h_sub, ?h_mul. Qed.
End hom.

(** The entries of the results. *)
Section entries.
Context {T} (N : num T) (f : nat → nat → T).
Lemma translate_entries a b c : translate N Datatypes.id (build 4 4 f) [a; b; c] =
  Some (build 4 4 (λ j i, if (j =? 3)%nat then nadd N (nadd N (nadd N (nmul N (f 0%nat i) a) (nmul N (f 1%nat i) b)) (nmul N (f 2%nat i) c)) (f 3%nat i) else f j i)).
Proof. reflexivity. Qed.
Lemma scale_entries a b c : scale N Datatypes.id (build 4 4 f) [a; b; c] =
  Some (build 4 4 (λ j i, if (j =? 3)%nat then f j i else nmul N (f j i) (comp N [a; b; c] j))).
Proof. reflexivity. Qed.
(** The entries of the matrix that rotate multiplies with. *)
Definition coef (c s : T) (n : list T) (j k : nat) : T :=
  let a i := comp N n i in
  let t := nmul N (a j) (nsub N (n1 N) c) in
  let d := nmul N t (a k) in
  match j, k with
  | 0, 0 | 1, 1 | 2, 2 => nadd N c d
  | 0, 1 => nadd N d (nmul N s (a 2)) | 0, 2 => nsub N d (nmul N s (a 1))
  | 1, 0 => nsub N d (nmul N s (a 2)) | 1, 2 => nadd N d (nmul N s (a 0))
  | 2, 0 => nadd N d (nmul N s (a 1)) | _, _ => nsub N d (nmul N s (a 0))
  end%nat.
Lemma rotate_entries sin cos a x y z : rotate N sin cos N Datatypes.id Datatypes.id (build 4 4 f) a [x; y; z] =
  Some (build 4 4 (λ j i, if (j =? 3)%nat then f j i else
    let r := coef (cos a) (sin a) [x; y; z] j in nadd N (nadd N (nmul N (f 0%nat i) (r 0%nat)) (nmul N (f 1%nat i) (r 1%nat))) (nmul N (f 2%nat i) (r 2%nat)))).
Proof. reflexivity. Qed.
End entries.
(** The determinants with additions only. *)
Definition pnum : num R := Num 0 1 Rplus Rplus Rmult Rdiv (λ x, x).
Lemma perm2 f : det2 pnum (build 2 2 f) = Some (laplace unsigned 2 f).
Proof. unfold det2. cbn. unfold at_, minor. simpl. f_equal. unfold Datatypes.id. ring. Qed.
Lemma perm3 f : det3 pnum (build 3 3 f) = Some (laplace unsigned 3 f).
Proof. unfold det3. cbn. unfold at_, minor. simpl. f_equal. unfold Datatypes.id. ring. Qed.
Lemma perm4 f : det4 pnum (build 4 4 f) = Some (laplace unsigned 4 f).
Proof. unfold det4. cbn. unfold at_, minor. simpl. f_equal. unfold Datatypes.id. ring. Qed.

Section float.
Context (prec emax : Z) {Hprec : Prec_gt_0 prec} {Hmax : Prec_lt_emax prec emax}.
Local Notation F := (binary_float prec emax).
Local Notation N := (fnum prec emax).
Local Notation finite := (λ x : F, is_finite x = true).
Local Notation val := (B2R (prec:=prec) (emax:=emax)).
Local Notation rnd := (round radix2 (SpecFloat.fexp prec emax) ZnearestE).
Local Notation u := (u prec).
Local Notation eta := (eta prec emax).
Local Notation X := (@X prec emax).
Local Notation xnum := (xnum prec emax).
Local Notation fl := (fl prec emax).
Local Notation und := (und prec emax).
Local Notation ex f := (λ j i : nat, val (f j i)).

Definition xmat (f : nat → nat → F) (j i : nat) : expr prec emax := X (f j i).
Definition e2 f := default (X Bone) (det2 xnum (build 2 2 (xmat f))).
Definition e3 f := default (X Bone) (det3 xnum (build 3 3 (xmat f))).
Definition e4 f := default (X Bone) (det4 xnum (build 4 4 (xmat f))).
Lemma det2_fl f : det2 N (build 2 2 f) = Some (fl (e2 f)).
Proof. apply (det2_hom xnum N fl (λ _ _, eq_refl) (λ _ _, eq_refl) (xmat f)). Qed.
Lemma det3_fl f : det3 N (build 3 3 f) = Some (fl (e3 f)).
Proof. apply (det3_hom xnum N fl (λ _ _, eq_refl) (λ _ _, eq_refl) (λ _ _, eq_refl) (xmat f)). Qed.
Lemma det4_fl f : det4 N (build 4 4 f) = Some (fl (e4 f)).
Proof. apply (det4_hom xnum N fl (λ _ _, eq_refl) (λ _ _, eq_refl) (λ _ _, eq_refl) (xmat f)). Qed.

Local Notation real := (real prec emax).
Local Notation maj := (maj prec emax).
Lemma real2 f : real (e2 f) = laplace rnum 2 (ex f).
Proof.
  pose proof (det2_hom xnum rnum real (λ _ _, eq_refl) (λ _ _, eq_refl) (xmat f)) as H.
  rewrite (proj1 (determinant_laplace rnum rnum_ring _ _)) in H by (by apply denotes_build). by injection H as H.
Qed.
Lemma real3 f : real (e3 f) = laplace rnum 3 (ex f).
Proof.
  pose proof (det3_hom xnum rnum real (λ _ _, eq_refl) (λ _ _, eq_refl) (λ _ _, eq_refl) (xmat f)) as H.
  rewrite (proj1 (proj2 (determinant_laplace rnum rnum_ring _ _))) in H by (by apply denotes_build). by injection H as H.
Qed.
Lemma real4 f : real (e4 f) = laplace rnum 4 (ex f).
Proof.
  pose proof (det4_hom xnum rnum real (λ _ _, eq_refl) (λ _ _, eq_refl) (λ _ _, eq_refl) (xmat f)) as H.
  rewrite (proj2 (proj2 (determinant_laplace rnum rnum_ring _ _))) in H by (by apply denotes_build). by injection H as H.
Qed.
Lemma maj2 f : maj (e2 f) = permanent 2 (ex f).
Proof.
  pose proof (det2_hom xnum pnum maj (λ _ _, eq_refl) (λ _ _, eq_refl) (xmat f)) as H. rewrite perm2 in H. by injection H as H.
Qed.
Lemma maj3 f : maj (e3 f) = permanent 3 (ex f).
Proof.
  pose proof (det3_hom xnum pnum maj (λ _ _, eq_refl) (λ _ _, eq_refl) (λ _ _, eq_refl) (xmat f)) as H. rewrite perm3 in H. by injection H as H.
Qed.
Lemma maj4 f : maj (e4 f) = permanent 4 (ex f).
Proof.
  pose proof (det4_hom xnum pnum maj (λ _ _, eq_refl) (λ _ _, eq_refl) (λ _ _, eq_refl) (xmat f)) as H. rewrite perm4 in H. by injection H as H.
Qed.

(** Underflow. *)
Local Notation q := (1 + u).
Lemma q_ge1 : 1 <= q. Proof. pose proof (u_pos prec). lra. Qed.
Lemma und_leaf a b n s : und b <= q ^ n * s → und (Times (X a) b) <= q ^ S n * (Rabs (val a) * s + 1).
Proof.
  intros H. replace (und (Times (X a) b)) with (q * (und b * Rabs (val a)) + 1) by (simpl; ring). pose proof q_ge1.
  assert (und b * Rabs (val a) <= q ^ n * s * Rabs (val a)) by (apply Rmult_le_compat_r; [apply Rabs_pos|done]).
  assert (1 <= q ^ S n) by (apply pow_R1_Rle; lra). simpl in *.
  assert (q * (und b * Rabs (val a)) <= q * (q ^ n * s * Rabs (val a))) by (apply Rmult_le_compat_l; lra). lra.
Qed.
Lemma und_plus a b n s t : und a <= q ^ n * s → und b <= q ^ n * t → und (Plus a b) <= q ^ S n * (s + t).
Proof.
  intros Ha Hb. simpl. pose proof q_ge1. replace (q * q ^ n * (s + t)) with (q * (q ^ n * s + q ^ n * t)) by ring.
  apply Rmult_le_compat_l; lra.
Qed.
Lemma und_minus a b n s t : und a <= q ^ n * s → und b <= q ^ n * t → und (Minus a b) <= q ^ S n * (s + t).
Proof. exact (und_plus a b n s t). Qed.
Lemma und_up a m n s : 0 <= s → (m <= n)%nat → und a <= q ^ m * s → und a <= q ^ n * s.
Proof.
  intros Hs Hn H. eapply Rle_trans; [exact H|]. apply Rmult_le_compat_r; [done|]. apply Rle_pow; [apply q_ge1|done].
Qed.
Lemma und2 a b c d : und (Minus (Times (X a) (X b)) (Times (X c) (X d))) <= q ^ 1 * 2.
Proof. simpl. lra. Qed.
Lemma und3 a b c x y z : und x <= q ^ 1 * 2 → und y <= q ^ 1 * 2 → und z <= q ^ 1 * 2 →
  und (Plus (Minus (Times (X a) x) (Times (X b) y)) (Times (X c) z)) <= q ^ 4 * (Rabs (val a) * 2 + 1 + (Rabs (val b) * 2 + 1) + (Rabs (val c) * 2 + 1)).
Proof.
  intros Hx Hy Hz. pose proof (Rabs_pos (val c)). apply und_plus; [apply und_minus|apply (und_up _ 2); [lra|lia|]]; by apply und_leaf.
Qed.
Lemma und4 a b c d x y z w sx sy sz sw : 0 <= sz → 0 <= sw → und x <= q ^ 4 * sx → und y <= q ^ 4 * sy → und z <= q ^ 4 * sz → und w <= q ^ 4 * sw →
  und (Minus (Plus (Minus (Times (X a) x) (Times (X b) y)) (Times (X c) z)) (Times (X d) w)) <=
    q ^ 8 * (Rabs (val a) * sx + 1 + (Rabs (val b) * sy + 1) + (Rabs (val c) * sz + 1) + (Rabs (val d) * sw + 1)).
Proof.
  intros Sz Sw Hx Hy Hz Hw. assert (∀ a s, 0 <= s → 0 <= Rabs (val a) * s + 1).
  { intros e s Hs. pose proof (Rmult_le_pos _ _ (Rabs_pos (val e)) Hs). lra. }
  apply und_minus; [apply und_plus; [apply und_minus|apply (und_up _ 5); [auto|lia|]]|apply (und_up _ 5); [auto|lia|]]; by apply und_leaf.
Qed.

Ltac found := repeat first [apply elem_of_list_here | apply elem_of_list_further].
(** * C134 and C135: determinants *)
(** If the determinant is a number, so are the entries; its error is at most a few units
    of roundoff of the sum of the absolute values of all products. *)
Theorem det2_float_error : ∀ m f d, denotes m 2 2 f → det2 N m = Some d → finite d →
  (∀ j i, (j < 2)%nat → (i < 2)%nat → finite (f j i)) ∧
  Rabs (val d - laplace rnum 2 (ex f)) <= (q ^ 2 - 1) * permanent 2 (ex f) + eta * (q * 2).
Proof.
  intros m f d Hm Hd Hf. apply denotes_build in Hm as ->. rewrite det2_fl in Hd. apply (inj Some) in Hd. subst d.
  destruct (expr_error prec emax _ Hf) as [HL HE]. split.
  - clear -HL. rewrite Forall_forall in HL. intros j i Hj Hi. apply HL. clear HL. cbn. destruct j as [|[|]], i as [|[|]]; try lia; found.
  - rewrite <- real2, <- maj2. eapply Rle_trans; [exact HE|]. apply Rplus_le_compat_l. apply Rmult_le_compat_l; [apply Rlt_le, eta_pos|].
    eapply Rle_trans; [refine (und2 _ _ _ _)|]. lra.
Qed.
Theorem det3_float_error : ∀ m f d, denotes m 3 3 f → det3 N m = Some d → finite d →
  (∀ j i, (j < 3)%nat → (i < 3)%nat → finite (f j i)) ∧
  Rabs (val d - laplace rnum 3 (ex f)) <= (q ^ 5 - 1) * permanent 3 (ex f) + eta * (q ^ 4 * rsum 3 (λ j, 2 * Rabs (val (f j 0%nat)) + 1)).
Proof.
  intros m f d Hm Hd Hf. apply denotes_build in Hm as ->. rewrite det3_fl in Hd. apply (inj Some) in Hd. subst d.
  destruct (expr_error prec emax _ Hf) as [HL HE]. split.
  - clear -HL. rewrite Forall_forall in HL. intros j i Hj Hi. apply HL. clear HL. cbn. destruct j as [|[|[|]]], i as [|[|[|]]]; try lia; found.
  - rewrite <- real3, <- maj3. eapply Rle_trans; [exact HE|]. apply Rplus_le_compat_l. apply Rmult_le_compat_l; [apply Rlt_le, eta_pos|].
    eapply Rle_trans; [refine (und3 _ _ _ _ _ _ _ _ _); apply und2|]. apply Req_le. f_equal. cbn. ring.
Qed.
Theorem det4_float_error : ∀ m f d, denotes m 4 4 f → det4 N m = Some d → finite d →
  (∀ j i, (j < 4)%nat → (i < 4)%nat → finite (f j i)) ∧
  Rabs (val d - laplace rnum 4 (ex f)) <= (q ^ 9 - 1) * permanent 4 (ex f) +
    eta * (q ^ 8 * rsum 4 (λ j, Rabs (val (f j 0%nat)) * rsum 4 (λ k, if (k =? j)%nat then 0 else 2 * Rabs (val (f k 1%nat)) + 1) + 1)).
Proof.
  intros m f d Hm Hd Hf. apply denotes_build in Hm as ->. rewrite det4_fl in Hd. apply (inj Some) in Hd. subst d.
  destruct (expr_error prec emax _ Hf) as [HL HE]. split.
  - clear -HL. rewrite Forall_forall in HL. intros j i Hj Hi. apply HL. clear HL. cbn. destruct j as [|[|[|[|]]]], i as [|[|[|[|]]]]; try lia; found.
  - rewrite <- real4, <- maj4. eapply Rle_trans; [exact HE|]. apply Rplus_le_compat_l. apply Rmult_le_compat_l; [apply Rlt_le, eta_pos|].
    eapply Rle_trans; [refine (und4 _ _ _ _ _ _ _ _ _ _ _ _ _ _ _ _ _ _); [| |apply und3; apply und2|apply und3; apply und2|apply und3; apply und2|apply und3; apply und2]|].
    1,2: repeat match goal with |- context [Rabs ?x] => pose proof (Rabs_pos x); set (Rabs x) in * end; lra.
    apply Req_le. f_equal. cbn. ring.
Qed.
(** No overflow for entries of bounded size. *)
Theorem det_float_finite : ∀ n m f b, denotes m n n f → (0 <= b)%Z → (∀ j i, (j < n)%nat → (i < n)%nat → finite (f j i) ∧ Rabs (val (f j i)) <= bpow radix2 b) →
  (n = 2%nat → (2 * b + 1 < emax)%Z → ∃ d, det2 N m = Some d ∧ finite d ∧ Rabs (val d) <= bpow radix2 (2 * b + 1)) ∧
  (n = 3%nat → (3 * b + 3 < emax)%Z → ∃ d, det3 N m = Some d ∧ finite d ∧ Rabs (val d) <= bpow radix2 (3 * b + 3)) ∧
  (n = 4%nat → (4 * b + 6 < emax)%Z → ∃ d, det4 N m = Some d ∧ finite d ∧ Rabs (val d) <= bpow radix2 (4 * b + 6)).
Proof.
  intros n m f b Hm Hb Hf. apply denotes_build in Hm as ->. split_and!; intros -> Hl.
  - rewrite det2_fl. eexists. split; [done|]. replace (2 * b + 1)%Z with (log prec emax b (e2 f)) in Hl |- * by (cbn; lia).
    apply expr_finite; [done| |done]. cbn. repeat (apply Forall_cons_2; [apply Hf; lia|]). constructor.
  - rewrite det3_fl. eexists. split; [done|]. replace (3 * b + 3)%Z with (log prec emax b (e3 f)) in Hl |- * by (cbn; lia).
    apply expr_finite; [done| |done]. cbn. repeat (apply Forall_cons_2; [apply Hf; lia|]). constructor.
  - rewrite det4_fl. eexists. split; [done|]. replace (4 * b + 6)%Z with (log prec emax b (e4 f)) in Hl |- * by (cbn; lia).
    apply expr_finite; [done| |done]. cbn. repeat (apply Forall_cons_2; [apply Hf; lia|]). constructor.
Qed.
(** The sign of a 2x2 determinant is right unless it is zero; it is zero if the matrix is
    singular. *)
Theorem det2_float_sign : ∀ m f d, denotes m 2 2 f → det2 N m = Some d → finite d →
  (0 < val d → 0 < laplace rnum 2 (ex f)) ∧ (val d < 0 → laplace rnum 2 (ex f) < 0) ∧ (laplace rnum 2 (ex f) = 0 → val d = 0).
Proof.
  intros m f d Hm Hd Hf. apply denotes_build in Hm as ->. rewrite det2_fl in Hd. apply (inj Some) in Hd. subst d. rewrite <- real2.
  unfold e2 in *. cbn in *. apply (minus_finite prec emax) in Hf as (H1 & H2 & ->). apply (mult_finite prec emax) in H1 as (_ & _ & ->).
  apply (mult_finite prec emax) in H2 as (_ & _ & ->). set (a := _ * _). set (b := _ * val (f 0%nat 1%nat)).
  assert (M : ∀ x y, x <= y → rnd x <= rnd y) by (intros x y; apply round_le; typeclasses eauto).
  assert (Z : rnd 0 = 0) by (apply round_0; typeclasses eauto).
  assert (L : a <= b → rnd (rnd a - rnd b) <= 0) by (intros H; rewrite <- Z; apply M; pose proof (M _ _ H); lra).
  assert (G : b <= a → 0 <= rnd (rnd a - rnd b)) by (intros H; rewrite <- Z at 1; apply M; pose proof (M _ _ H); lra).
  split_and!; intros H.
  - destruct (Rle_lt_dec a b) as [Hab|Hab]; [specialize (L Hab); lra|lra].
  - destruct (Rle_lt_dec b a) as [Hab|Hab]; [specialize (G Hab); lra|lra].
  - assert (L1 := L ltac:(lra)). assert (G1 := G ltac:(lra)). lra.
Qed.

(** * C136: quaternions *)
(** Each component of a product of quaternions is the sum of four products: if it is a
    number, then its error is within the bound. The terms of the components, with their
    signs, are those of Hamilton's product. *)
Definition hamilton (p q : @quat R) : list (list R) :=
  let '(Quat w x y z) := p in let '(Quat w' x' y' z') := q in
  [[w * w'; - (x * x'); - (y * y'); - (z * z')];
   [w * x'; x * w'; y * z'; - (z * y')];
   [w * y'; - (x * z'); y * w'; z * x'];
   [w * z'; x * y'; - (y * x'); z * w']].
Definition qval (p : @quat F) : @quat R := Quat (val (qw p)) (val (qx p)) (val (qy p)) (val (qz p)).
Definition qlist {A} (p : @quat A) : list A := [qw p; qx p; qy p; qz p].
Lemma qmul_component (e : expr prec emax) ts l k : finite (fl e) → (∀ x, x ∈ l ++ k → x ∈ leaves prec emax e) → depth prec emax e = 4%nat →
  real e = total ts → maj e = total (map Rabs ts) → und e <= 4 * q ^ 3 →
  Forall finite l ∧ Forall finite k ∧ Rabs (val (fl e) - total ts) <= ((1 + u) ^ 4 - 1) * total (map Rabs ts) + 4 * (1 + u) ^ 3 * eta.
Proof.
  intros H HL Hd Hr Hm Hu. destruct (expr_error prec emax e H) as [L E]. rewrite Forall_forall in L. split; [|split].
  - apply Forall_forall. intros x Hx. apply L, HL, elem_of_app. by left.
  - apply Forall_forall. intros x Hx. apply L, HL, elem_of_app. by right.
  - unfold bound in E. rewrite Hd, Hr, Hm in E. pose proof (eta_pos prec emax). eapply Rle_trans; [exact E|]. apply Rplus_le_compat_l.
    rewrite Rmult_comm. apply Rmult_le_compat_r; lra.
Qed.
Ltac qside :=
  match goal with
  | H : is_finite _ = true |- is_finite _ = true => exact H
  | |- ∀ x, _ → _ => cbn; let Hx := fresh in intros ? Hx; repeat (apply elem_of_cons in Hx as [-> |Hx]; [found|]); by apply elem_of_nil in Hx
  | |- _ = _ => first [reflexivity | unfold total; simpl; rewrite ?Rabs_Ropp, ?Rabs_mult; ring]
  | |- _ => simpl in *; lra
  end.
Theorem qmul_float_error : ∀ p q : @quat F,
  Forall2 (λ r ts, finite r → Forall finite (qlist p) ∧ Forall finite (qlist q) ∧
    Rabs (val r - total ts) <= ((1 + u) ^ 4 - 1) * total (map Rabs ts) + 4 * (1 + u) ^ 3 * eta)
    (qlist (qmul N p q)) (hamilton (qval p) (qval q)).
Proof.
  intros [w x y z] [w' x' y' z']. unfold qlist, qval, hamilton, qmul. cbn [qw qx qy qz nadd nsub nmul fnum].
  pose proof (u_pos prec) as Hq.
  assert (P : ∀ n, (n <= 3)%nat → q ^ n <= q ^ 3) by (intros n Hn; apply Rle_pow; [apply q_ge1|done]).
  pose proof (P 1%nat ltac:(lia)) as P1. pose proof (P 2%nat ltac:(lia)) as P2.
  constructor; [|constructor; [|constructor; [|constructor; [|constructor]]]]; intros H.
  - apply (qmul_component (Minus (Minus (Minus (Times (X w) (X w')) (Times (X x) (X x'))) (Times (X y) (X y'))) (Times (X z) (X z')))); qside.
  - apply (qmul_component (Minus (Plus (Plus (Times (X x) (X w')) (Times (X w) (X x'))) (Times (X y) (X z'))) (Times (X z) (X y')))); qside.
  - apply (qmul_component (Plus (Plus (Minus (Times (X w) (X y')) (Times (X x) (X z'))) (Times (X y) (X w'))) (Times (X z) (X x')))); qside.
  - apply (qmul_component (Plus (Minus (Plus (Times (X w) (X z')) (Times (X x) (X y'))) (Times (X y) (X x'))) (Times (X z) (X w')))); qside.
Qed.
(** No overflow for components of bounded size. *)
Theorem qmul_float_finite : ∀ (p q : @quat F) b, (0 <= b)%Z → (2 * b + 3 < emax)%Z →
  Forall (λ x, finite x ∧ Rabs (val x) <= bpow radix2 b) (qlist p ++ qlist q) → Forall finite (qlist (qmul N p q)).
Proof.
  intros [w x y z] [w' x' y' z'] b Hb Hl H. unfold qlist, qmul in *. cbn [qw qx qy qz nadd nsub nmul fnum app] in *. rewrite Forall_forall in H.
  assert (K : ∀ e : expr prec emax, (∀ t, t ∈ leaves prec emax e → t ∈ [w; x; y; z; w'; x'; y'; z']) → log prec emax b e = (2 * b + 3)%Z → finite (fl e)).
  { intros e HL He. apply (expr_finite prec emax b e Hb); [|by rewrite He]. apply Forall_forall. intros a Ha. by apply H, HL. }
  constructor; [|constructor; [|constructor; [|constructor; [|constructor]]]].
  - apply (K (Minus (Minus (Minus (Times (X w) (X w')) (Times (X x) (X x'))) (Times (X y) (X y'))) (Times (X z) (X z')))); [qside|cbn; lia].
  - apply (K (Minus (Plus (Plus (Times (X x) (X w')) (Times (X w) (X x'))) (Times (X y) (X z'))) (Times (X z) (X y')))); [qside|cbn; lia].
  - apply (K (Plus (Plus (Minus (Times (X w) (X y')) (Times (X x) (X z'))) (Times (X y) (X w'))) (Times (X z) (X x')))); [qside|cbn; lia].
  - apply (K (Plus (Minus (Plus (Times (X w) (X z')) (Times (X x) (X y'))) (Times (X y) (X x'))) (Times (X z) (X w')))); [qside|cbn; lia].
Qed.
(** Sums and differences are the nearest numbers. *)
Theorem qadd_float : ∀ p q : @quat F,
  Forall2 (λ r '(x, y), finite r → finite x ∧ finite y ∧ val r = rnd (val x + val y)) (qlist (qadd N p q)) (zip (qlist p) (qlist q)) ∧
  Forall2 (λ r '(x, y), finite r → finite x ∧ finite y ∧ val r = rnd (val x - val y)) (qlist (qsub N p q)) (zip (qlist p) (qlist q)).
Proof.
  intros [w x y z] [w' x' y' z']. split; (constructor; [|constructor; [|constructor; [|constructor; [|constructor]]]]); intros H;
  first [by apply (plus_finite prec emax) in H|by apply (minus_finite prec emax) in H].
Qed.

(** * C137: transformations *)
(** translate: three columns stay as they are; the entries of the last one are the sums
    m[0][i] v0 + m[1][i] v1 + m[2][i] v2 + m[3][i], within the bound. *)
Theorem translate_float_error : ∀ m f v, denotes m 4 4 f → length v = 3%nat → ∃ r g, translate N Datatypes.id m v = Some r ∧ denotes r 4 4 g ∧
  (∀ j i, (j < 3)%nat → (i < 4)%nat → g j i = f j i) ∧
  ∀ i, (i < 4)%nat → finite (g 3%nat i) → 
    Rabs (val (g 3%nat i) - (rsum 3 (λ k, val (f k i) * val (comp N v k)) + val (f 3%nat i))) <=
      (q ^ 4 - 1) * (rsum 3 (λ k, Rabs (val (f k i) * val (comp N v k))) + Rabs (val (f 3%nat i))) + 3 * q ^ 3 * eta.
Proof.
  intros m f v Hm Hv. apply denotes_build in Hm as ->. destruct v as [|a [|b [|c [|? ?]]]]; try done.
  set (g := λ j i : nat, if (j =? 3)%nat then fl (Plus (Plus (Plus (Times (X (f 0%nat i)) (X a)) (Times (X (f 1%nat i)) (X b))) (Times (X (f 2%nat i)) (X c))) (X (f 3%nat i))) else f j i).
  exists (build 4 4 g), g. split; [apply (translate_entries N f)|]. split; [by apply denotes_build|]. split.
  - intros j i Hj _. unfold g. destruct (Nat.eqb_spec j 3); [lia|done].
  - intros i Hi H. unfold g in *. cbn [Nat.eqb] in *. destruct (expr_error prec emax _ H) as [_ E]. set (e := Plus _ _) in *.
    replace (rsum 3 _ + _) with (real e) by (cbn; ring). replace (rsum 3 _ + Rabs _) with (maj e) by (cbn; rewrite !Rabs_mult; ring).
    eapply Rle_trans; [exact E|]. apply Rplus_le_compat_l. rewrite Rmult_comm. apply Rmult_le_compat_r; [apply Rlt_le, eta_pos|].
    assert (P : ∀ n, (n <= 3)%nat → q ^ n <= q ^ 3) by (intros n Hn; apply Rle_pow; [apply q_ge1|done]).
    pose proof (P 1%nat ltac:(lia)) as P1. pose proof (P 2%nat ltac:(lia)) as P2. simpl in *. lra.
Qed.
(** scale: every entry is the nearest number to the exact product *)
Theorem scale_float : ∀ m f v, denotes m 4 4 f → length v = 3%nat → ∃ r g, scale N Datatypes.id m v = Some r ∧ denotes r 4 4 g ∧
  ∀ j i, (j < 4)%nat → (i < 4)%nat → if (j =? 3)%nat then g j i = f j i
    else finite (g j i) → finite (f j i) ∧ finite (comp N v j) ∧ val (g j i) = rnd (val (f j i) * val (comp N v j)).
Proof.
  intros m f v Hm Hv. apply denotes_build in Hm as ->. destruct v as [|a [|b [|c [|? ?]]]]; try done.
  set (g := λ j i : nat, if (j =? 3)%nat then f j i else Bmult mode_NE (f j i) (comp N [a; b; c] j)).
  exists (build 4 4 g), g. split; [apply (scale_entries N f)|]. split; [by apply denotes_build|].
  intros j i Hj Hi. unfold g. destruct (j =? 3)%nat; [done|]. apply (mult_finite prec emax).
Qed.
(** rotate: sin and cos are given with an error of at most [eps]. The entries of the first
    three columns are those of the product with Rodrigues' matrix, within the bound, in
    which [weight] is the size of the terms of an entry of that matrix. *)
Definition weight (n : list R) (j k : nat) : R := delta j k + 2 * Rabs (comp rnum n j * comp rnum n k) + Rabs (axis_cross n j k).
Lemma coef_und c s x y z j k : (j < 3)%nat → (k < 3)%nat →
  und (coef xnum (X c) (X s) [X x; X y; X z] j k) <= q ^ 2 * (Rabs (comp rnum [val x; val y; val z] k) + 2).
Proof.
  intros Hj Hk. pose proof (u_pos prec) as Hu. pose proof (Rabs_pos (val x)). pose proof (Rabs_pos (val y)). pose proof (Rabs_pos (val z)).
  destruct j as [|[|[|j]]]; [..|lia]; (destruct k as [|[|[|k]]]; [..|lia]); cbn; nra.
Qed.
Lemma coef_depth c s x y z j k : (j < 3)%nat → (k < 3)%nat → depth prec emax (coef xnum (X c) (X s) [X x; X y; X z] j k) = 4%nat.
Proof. intros Hj Hk. destruct j as [|[|[|j]]]; [..|lia]; (destruct k as [|[|[|k]]]; [..|lia]); reflexivity. Qed.
Lemma val_one : val (n1 N) = 1. Proof. apply Bone_correct. Qed.
Lemma coef_real c s x y z j k : (j < 3)%nat → (k < 3)%nat → let n := [val x; val y; val z] in
  real (coef xnum (X c) (X s) [X x; X y; X z] j k) = val c * delta j k + (1 - val c) * comp rnum n k * comp rnum n j + val s * axis_cross n j k.
Proof.
  intros Hj Hk. destruct j as [|[|[|j]]]; [..|lia]; (destruct k as [|[|[|k]]]; [..|lia]); cbn -[Bone]; unfold delta; cbn -[Bone]; rewrite ?Bone_correct; ring.
Qed.
Lemma coef_maj c s x y z j k eps : (j < 3)%nat → (k < 3)%nat → let n := [val x; val y; val z] in 0 <= eps → Rabs (val c) <= 1 + eps → Rabs (val s) <= 1 + eps →
  maj (coef xnum (X c) (X s) [X x; X y; X z] j k) <= (1 + eps) * weight n j k.
Proof.
  intros Hj Hk n He Hc Hs. unfold n, weight. clear n.
  assert (K : ∀ a b d, 0 <= d → Rabs (val c) * d + (1 + Rabs (val c)) * (Rabs a * Rabs b) <= (1 + eps) * (d + 2 * (Rabs a * Rabs b))).
  { intros a b d Hd. pose proof (Rmult_le_pos _ _ (Rabs_pos a) (Rabs_pos b)). nra. }
  assert (S : ∀ a, Rabs (val s) * Rabs a <= (1 + eps) * Rabs a) by (intros a; apply Rmult_le_compat_r; [apply Rabs_pos|done]).
  pose proof (S (val x)). pose proof (S (val y)). pose proof (S (val z)).
  assert (K1 : ∀ a b, Rabs (val c) * 1 + (1 + Rabs (val c)) * (Rabs a * Rabs b) <= (1 + eps) * (1 + 2 * (Rabs a * Rabs b))) by (intros; apply K; lra).
  assert (K0 : ∀ a b, Rabs (val c) * 0 + (1 + Rabs (val c)) * (Rabs a * Rabs b) <= (1 + eps) * (0 + 2 * (Rabs a * Rabs b))) by (intros; apply K; lra).
  destruct j as [|[|[|j]]]; [..|lia]; (destruct k as [|[|[|k]]]; [..|lia]); cbn -[Bone]; unfold delta; cbn -[Bone]; rewrite ?Bone_correct, ?Rabs_R1, ?Rabs_R0, ?Rabs_Ropp, ?Rabs_mult.
  - pose proof (K1 (val x) (val x)). lra.
  - pose proof (K0 (val x) (val y)). lra.
  - pose proof (K0 (val x) (val z)). lra.
  - pose proof (K0 (val y) (val x)). lra.
  - pose proof (K1 (val y) (val y)). lra.
  - pose proof (K0 (val y) (val z)). lra.
  - pose proof (K0 (val z) (val x)). lra.
  - pose proof (K0 (val z) (val y)). lra.
  - pose proof (K1 (val z) (val z)). lra.
Qed.
Lemma coef_fl c s x y z j k : (j < 3)%nat → (k < 3)%nat → coef N c s [x; y; z] j k = fl (coef xnum (X c) (X s) [X x; X y; X z] j k).
Proof. intros Hj Hk. destruct j as [|[|[|j]]]; [..|lia]; (destruct k as [|[|[|k]]]; [..|lia]); reflexivity. Qed.
(** The coefficients for the exact sine and cosine. *)
Lemma coef_angle a (c s : F) n j k eps : Rabs (val c - cos a) <= eps → Rabs (val s - sin a) <= eps → (j < 3)%nat → (k < 3)%nat →
  Rabs (val c * delta j k + (1 - val c) * comp rnum n k * comp rnum n j + val s * axis_cross n j k - rotation a n j k) <= eps * weight n j k.
Proof.
  intros Hc Hs Hj Hk. unfold rotation, weight. rewrite (proj2 (Nat.ltb_lt j 3) Hj), (proj2 (Nat.ltb_lt k 3) Hk). cbn [andb].
  set (x := comp rnum n j). set (y := comp rnum n k). set (w := axis_cross n j k). set (d := delta j k).
  assert (Hd : Rabs d = d) by (apply Rabs_pos_eq; unfold d, delta; destruct (j =? k)%nat; lra).
  replace (val c * d + (1 - val c) * y * x + val s * w - (cos a * d + (1 - cos a) * y * x + sin a * w))
    with ((val c - cos a) * d + (- ((val c - cos a) * (x * y)) + (val s - sin a) * w)) by ring.
  eapply Rle_trans; [apply Rabs_triang|]. rewrite Rabs_mult, Hd. eapply Rle_trans; [apply Rplus_le_compat_l, Rabs_triang|]. rewrite Rabs_Ropp, !(Rabs_mult _ _).
  pose proof (Rabs_pos x). pose proof (Rabs_pos y). pose proof (Rabs_pos w). pose proof (Rabs_pos (val c - cos a)).
  assert (0 <= d) by (rewrite <- Hd; apply Rabs_pos). assert (0 <= Rabs x * Rabs y) by (by apply Rmult_le_pos). nra.
Qed.
Theorem rotate_float_error : ∀ (sn cs : F → F) m f a n eps, denotes m 4 4 f → length n = 3%nat →
  Rabs (val (sn a) - sin (val a)) <= eps → Rabs (val (cs a) - cos (val a)) <= eps → ∃ r g,
  rotate N sn cs N Datatypes.id Datatypes.id m a n = Some r ∧ denotes r 4 4 g ∧ (∀ i, (i < 4)%nat → g 3%nat i = f 3%nat i) ∧
  ∀ j i, (j < 3)%nat → (i < 4)%nat → finite (g j i) →
    Rabs (val (g j i) - rsum 3 (λ k, val (f k i) * rotation (val a) (map val n) j k)) <=
      (q ^ 7 * (1 + eps) - 1) * rsum 3 (λ k, Rabs (val (f k i)) * weight (map val n) j k) +
      eta * (q ^ 5 * rsum 3 (λ k, Rabs (val (f k i)) * (Rabs (val (comp N n k)) + 2) + 1)).
Proof.
  intros sn cs m f a n eps Hm Hn Hs Hc. apply denotes_build in Hm as ->. destruct n as [|x [|y [|z [|? ?]]]]; try done.
  set (co := λ j k, coef xnum (X (cs a)) (X (sn a)) [X x; X y; X z] j k).
  set (en := λ j i, Plus (Plus (Times (X (f 0%nat i)) (co j 0%nat)) (Times (X (f 1%nat i)) (co j 1%nat))) (Times (X (f 2%nat i)) (co j 2%nat))).
  eexists _, _. split; [apply rotate_entries|]. split; [by apply denotes_build|]. split; [done|].
  intros j i Hj Hi. rewrite (proj2 (Nat.eqb_neq j 3)) by lia. cbv zeta. rewrite !coef_fl by lia.
  change (nadd N _ _) with (fl (en j i)). intros H. destruct (expr_error prec emax _ H) as [_ E].
  pose proof (u_pos prec) as Hu. pose proof (eta_pos prec emax) as Heta.
  assert (He : 0 <= eps) by (eapply Rle_trans; [apply Rabs_pos|exact Hs]).
  assert (Dp : depth prec emax (en j i) = 7%nat).
  { cbn [en depth]. unfold co. by rewrite !coef_depth by lia. }
  set (n := map val [x; y; z]). change [val x; val y; val z] with n in *.
  assert (U : und (en j i) <= q ^ 5 * rsum 3 (λ k, Rabs (val (f k i)) * (Rabs (val (comp N [x; y; z] k)) + 2) + 1)).
  { eapply Rle_trans; [refine (und_plus _ _ 4 _ _ _ _); [refine (und_plus _ _ 3 _ _ _ _)|]|].
    - apply und_leaf, coef_und; lia.
    - apply und_leaf, coef_und; lia.
    - apply (und_up _ 3); [|lia|apply und_leaf, coef_und; lia]. apply Rplus_le_le_0_compat; [|lra]. apply Rmult_le_pos; [apply Rabs_pos|]. pose proof (Rabs_pos (comp rnum [val x; val y; val z] 2)). lra.
    - apply Req_le. cbn. ring. }
  assert (Bs : Rabs (val (sn a)) <= 1 + eps).
  { replace (val (sn a)) with ((val (sn a) - sin (val a)) + sin (val a)) by ring. eapply Rle_trans; [apply Rabs_triang|].
    assert (Rabs (sin (val a)) <= 1) by (apply Rabs_le; apply SIN_bound). lra. }
  assert (Bc : Rabs (val (cs a)) <= 1 + eps).
  { replace (val (cs a)) with ((val (cs a) - cos (val a)) + cos (val a)) by ring. eapply Rle_trans; [apply Rabs_triang|].
    assert (Rabs (cos (val a)) <= 1) by (apply Rabs_le; apply COS_bound). lra. }
  set (W := rsum 3 (λ k, Rabs (val (f k i)) * weight n j k)).
  assert (Mj : maj (en j i) <= (1 + eps) * W).
  { unfold W. cbn [en FloatExprProofs.maj rsum].
    assert (K : ∀ k, (k < 3)%nat → Rabs (val (f k i)) * maj (co j k) <= Rabs (val (f k i)) * ((1 + eps) * weight n j k)).
    { intros k Hk. apply Rmult_le_compat_l; [apply Rabs_pos|]. by apply coef_maj. }
    pose proof (K 0%nat ltac:(lia)). pose proof (K 1%nat ltac:(lia)). pose proof (K 2%nat ltac:(lia)). lra. }
  assert (Rl : Rabs (real (en j i) - rsum 3 (λ k, val (f k i) * rotation (val a) n j k)) <= eps * W).
  { assert (K : ∀ k, (k < 3)%nat → Rabs (val (f k i) * (real (co j k) - rotation (val a) n j k)) <= Rabs (val (f k i)) * (eps * weight n j k)).
    { intros k Hk. rewrite Rabs_mult. apply Rmult_le_compat_l; [apply Rabs_pos|]. unfold co. rewrite coef_real by done. by apply coef_angle. }
    pose proof (K 0%nat ltac:(lia)). pose proof (K 1%nat ltac:(lia)). pose proof (K 2%nat ltac:(lia)). unfold W. cbn [en FloatExprProofs.real rsum].
    set (k0 := val (f 0%nat i) * _) in *. set (k1 := val (f 1%nat i) * (real (co j 1%nat) - _)) in *. set (k2 := val (f 2%nat i) * (real (co j 2%nat) - _)) in *.
    match goal with |- Rabs ?t <= _ => replace t with (k0 + (k1 + k2)) by (unfold k0, k1, k2; ring) end.
    eapply Rle_trans; [apply Rabs_triang|]. pose proof (Rabs_triang k1 k2). lra. }
  unfold bound in E. rewrite Dp in E.
  replace (val (fl (en j i)) - rsum 3 _) with ((val (fl (en j i)) - real (en j i)) + (real (en j i) - rsum 3 (λ k, val (f k i) * rotation (val a) n j k))) by ring.
  eapply Rle_trans; [apply Rabs_triang|].
  assert (Q7 : 1 <= q ^ 7) by (apply pow_R1_Rle; lra).
  assert ((q ^ 7 - 1) * maj (en j i) <= (q ^ 7 - 1) * ((1 + eps) * W)) by (apply Rmult_le_compat_l; lra).
  pose proof (Rmult_le_compat_l _ _ _ (Rlt_le _ _ Heta) U).
  replace ((q ^ 7 * (1 + eps) - 1) * W) with ((q ^ 7 - 1) * ((1 + eps) * W) + eps * W) by ring. lra.
Qed.
(** reflect: v - n * (v . n) * 2, within the bound *)
Theorem reflect_float_error : ∀ (two : F) v n r i x y z, finite two → val two = 2 → length v = length n → reflect N two v n = Some r →
  v !! i = Some x → n !! i = Some y → r !! i = Some z → finite z → let l := length v in
  Rabs (val z - (val x - 2 * val y * total (zip_with (λ a b, val a * val b) v n))) <=
    (q ^ (l + 3) - 1) * (Rabs (val x) + 2 * Rabs (val y) * total (zip_with (λ a b, Rabs (val a * val b)) v n)) +
    eta * (q ^ (l + 3) * (2 * INR l * Rabs (val y) + 3)).
Proof.
  intros two v n r i x y z Ht2 Vt L Hr Hx Hy Hz Hf l. unfold reflect in Hr. destruct (dot N v n) as [d|] eqn:Ed; [|done]. simpl in Hr.
  rewrite !vscale_eq in Hr. simpl in Hr. rewrite vscale_eq in Hr. simpl in Hr. rewrite vsub_eq in Hr by (rewrite !map_length; done).
  apply (inj Some) in Hr. subst r. rewrite lookup_zip_with, Hx in Hz. simpl in Hz.
  rewrite (list_lookup_fmap _ (map _ n) i), (list_lookup_fmap _ n i), Hy in Hz. simpl in Hz. apply (inj Some) in Hz. subst z.
  set (e := Minus (X x) (Times (Times (X y) (X d)) (X two))). change (finite (fl e)) in Hf. change (Bminus _ _ _) with (fl e).
  destruct (expr_error prec emax e Hf) as [HL E].
  assert (Hd : finite d) by (rewrite Forall_forall in HL; apply HL; cbn; found).
  pose proof (dot_float_error prec emax v n d Ed Hd) as D. fold l in D.
  set (P := total (zip_with (λ a b, val a * val b) v n)) in *. set (A := total (zip_with (λ a b, Rabs (val a * val b)) v n)) in *.
  assert (PA : Rabs P <= A).
  { unfold P, A. rewrite <- (rsum_zip prec emax (λ x, x) v n L), <- (rsum_zip prec emax Rabs v n L). apply rsum_abs. }
  pose proof (u_pos prec) as Hu. pose proof (eta_pos prec emax) as He. pose proof (Rabs_pos (val y)) as Hy0. pose proof (pos_INR l) as Hl0.
  assert (Q1 : 1 <= q ^ l) by (apply pow_R1_Rle; lra).
  assert (Bd : Rabs (val d) <= q ^ l * (A + INR l * eta)).
  { replace (val d) with ((val d - P) + P) by ring. eapply Rle_trans; [apply Rabs_triang|]. lra. }
  unfold bound in E. cbn [e depth FloatExprProofs.maj FloatExprProofs.real FloatExprProofs.und Nat.max Nat.add] in E. rewrite Vt in E. rewrite (Rabs_pos_eq 2) in E by lra.
  replace (val (fl e) - (val x - 2 * val y * P)) with ((val (fl e) - (val x - val y * val d * 2)) + - (2 * val y * (val d - P))) by ring.
  eapply Rle_trans; [apply Rabs_triang|]. rewrite Rabs_Ropp, !Rabs_mult, (Rabs_pos_eq 2) by lra.
  rewrite pow_add. set (ql := q ^ l) in *.
  assert (Q3 : 1 <= q ^ 3) by (apply pow_R1_Rle; lra). assert (Q23 : q ^ 2 <= q ^ 3) by (apply Rle_pow; [lra|lia]). assert (q ^ 1 <= q ^ 3) by (apply Rle_pow; [lra|lia]).
  assert (T1 : 2 * Rabs (val y) * Rabs (val d - P) <= 2 * Rabs (val y) * ((ql - 1) * A + INR l * ql * eta)) by (apply Rmult_le_compat_l; lra).
  assert (T2 : (q ^ 3 - 1) * (2 * Rabs (val y) * Rabs (val d)) <= (q ^ 3 - 1) * (2 * Rabs (val y) * (ql * (A + INR l * eta)))).
  { apply Rmult_le_compat_l; [lra|]. apply Rmult_le_compat_l; lra. }
  assert (T3 : (q ^ 3 - 1) * Rabs (val x) <= (ql * q ^ 3 - 1) * Rabs (val x)) by (apply Rmult_le_compat_r; [apply Rabs_pos|nra]).
  match type of E with _ <= _ + eta * ?w => assert (T4 : eta * w <= eta * (ql * q ^ 3 * 3)) end.
  { apply Rmult_le_compat_l; [lra|]. simpl in *. nra. }
  match type of E with _ <= ?a * (Rabs (val x) + ?b) + _ => replace (a * (Rabs (val x) + b)) with ((q ^ 3 - 1) * Rabs (val x) + (q ^ 3 - 1) * (2 * Rabs (val y) * Rabs (val d))) in E by (simpl; ring) end.
  eapply Rle_trans; [apply Rplus_le_compat; [exact E|exact T1]|].
  eapply Rle_trans; [apply Rplus_le_compat_r, Rplus_le_compat; [apply Rplus_le_compat; [exact T3|exact T2]|exact T4]|]. apply Req_le. ring.
Qed.
End float.

(** * float *)
Local Notation f32 := (binary_float 24 128).
Local Notation N32 := (fnum 24 128).
Local Notation val32 := (B2R (prec:=24) (emax:=128)).
Lemma permanent_le n f B : 0 <= B → (∀ j i, (j < n)%nat → (i < n)%nat → Rabs (f j i) <= B) → 0 <= permanent n f <= INR (fact n) * B ^ n.
Proof.
  intros HB. unfold permanent. assert (K : ∀ g : nat → nat → R, (∀ j i, (j < n)%nat → (i < n)%nat → 0 <= g j i <= B) → 0 <= laplace unsigned n g <= INR (fact n) * B ^ n).
  { induction n as [|n IH]; intros g Hg; [simpl; lra|].
    assert (S : ∀ k, (k <= S n)%nat → 0 <= sum unsigned k (λ k, (if Nat.even k then Datatypes.id else nneg unsigned) (nmul unsigned (g k 0%nat) (laplace unsigned n (minor g k)))) <= INR k * (INR (fact n) * B ^ S n)).
    { intros k Hk. induction k as [|k IHk]; [simpl; lra|]. specialize (IHk ltac:(lia)). cbn [sum nadd unsigned]. rewrite S_INR.
      replace ((if Nat.even k then Datatypes.id else nneg unsigned) (nmul unsigned (g k 0%nat) (laplace unsigned n (minor g k)))) with (g k 0%nat * laplace unsigned n (minor g k)) by (by destruct (Nat.even k)).
      assert (M : 0 <= laplace unsigned n (minor g k) <= INR (fact n) * B ^ n).
      { apply IH. intros j i Hj Hi. unfold minor. apply Hg; [destruct (j <? k)%nat; lia|lia]. }
      pose proof (Hg k 0%nat ltac:(lia) ltac:(lia)) as G.
      assert (0 <= g k 0%nat * laplace unsigned n (minor g k)) by (apply Rmult_le_pos; lra).
      assert (g k 0%nat * laplace unsigned n (minor g k) <= B * (INR (fact n) * B ^ n)) by (apply Rmult_le_compat; lra).
      simpl pow in *. cbn [unsigned] in IHk. unfold unsigned in *. lra. }
    specialize (S (Datatypes.S n) ltac:(lia)). cbn [laplace]. destruct S as [S1 S2]. split; [exact S1|]. eapply Rle_trans; [exact S2|]. apply Req_le.
    change (fact (Datatypes.S n)) with (Datatypes.S n * fact n)%nat. rewrite mult_INR. ring. }
  intros H. apply K. intros j i Hj Hi. split; [apply Rabs_pos|by apply H].
Qed.
Lemma eta32_small : 0 < eta 24 128 <= / 1099511627776.
Proof. split; [apply eta_pos|]. unfold eta. replace (/ 1099511627776) with (bpow radix2 (-40)) by (simpl; lra). apply bpow_le. lia. Qed.
Lemma same_sign a b e : Rabs (a - b) <= e → e < Rabs a → 0 < a * b.
Proof.
  intros H1 H2. apply Rabs_le_inv in H1. unfold Rabs in H2. destruct (Rcase_abs a); [|assert (0 < b) by lra; nra].
  assert (b < 0) by lra. nra.
Qed.
(** A determinant of entries of size at most B is a number, with an error of at most
    2^-21 B^2, 2^-19 B^3 or 2^-16 B^4. *)
Theorem det2_float32 : ∀ (m : list (list f32)) f B, denotes m 2 2 f → 1 <= B <= bpow radix2 62 →
  (∀ j i, (j < 2)%nat → (i < 2)%nat → is_finite (f j i) = true ∧ Rabs (val32 (f j i)) <= B) →
  ∃ d, det2 N32 m = Some d ∧ is_finite d = true ∧ Rabs (val32 d - laplace rnum 2 (λ j i, val32 (f j i))) <= B ^ 2 * bpow radix2 (-21).
Proof.
  intros m f B Hm HB Hf. destruct (det_float_finite 24 128 2 m f 62 Hm) as (K & _ & _); [lia|intros j i Hj Hi; destruct (Hf j i Hj Hi); split; [done|lra]|].
  destruct (K eq_refl ltac:(lia)) as (d & E & F & _). exists d. split; [done|]. split; [done|].
  destruct (det2_float_error 24 128 m f d Hm E F) as [_ Er]. eapply Rle_trans; [exact Er|]. rewrite u32. pose proof eta32_small.
  destruct (permanent_le 2 (λ j i, val32 (f j i)) B) as [P0 P]; [lra|intros; by apply Hf|]. replace (INR (fact 2)) with 2 in P by (simpl; lra).
  assert (1 <= B ^ 2) by (apply pow_R1_Rle; lra). replace (bpow radix2 (-21)) with (/ 2097152) by (simpl; lra). simpl in *. lra.
Qed.
Theorem det3_float32 : ∀ (m : list (list f32)) f B, denotes m 3 3 f → 1 <= B <= bpow radix2 41 →
  (∀ j i, (j < 3)%nat → (i < 3)%nat → is_finite (f j i) = true ∧ Rabs (val32 (f j i)) <= B) →
  ∃ d, det3 N32 m = Some d ∧ is_finite d = true ∧ Rabs (val32 d - laplace rnum 3 (λ j i, val32 (f j i))) <= B ^ 3 * bpow radix2 (-19).
Proof.
  intros m f B Hm HB Hf. destruct (det_float_finite 24 128 3 m f 41 Hm) as (_ & K & _); [lia|intros j i Hj Hi; destruct (Hf j i Hj Hi); split; [done|lra]|].
  destruct (K eq_refl ltac:(lia)) as (d & E & F & _). exists d. split; [done|]. split; [done|].
  destruct (det3_float_error 24 128 m f d Hm E F) as [_ Er]. eapply Rle_trans; [exact Er|]. rewrite u32. pose proof eta32_small.
  destruct (permanent_le 3 (λ j i, val32 (f j i)) B) as [P0 P]; [lra|intros; by apply Hf|]. replace (INR (fact 3)) with 6 in P by (simpl; lra).
  assert (1 <= B ^ 2) by (apply pow_R1_Rle; lra). assert (Bp : B <= B ^ 3) by (simpl in *; nra). assert (H1 : 1 <= B ^ 3) by (apply pow_R1_Rle; lra).
  replace (bpow radix2 (-19)) with (/ 524288) by (simpl; lra).
  assert (S : 0 <= rsum 3 (λ j, 2 * Rabs (val32 (f j 0%nat)) + 1) <= 9 * B ^ 3).
  { cbn [rsum]. destruct (Hf 0%nat 0%nat ltac:(lia) ltac:(lia)) as [_ A0]. destruct (Hf 1%nat 0%nat ltac:(lia) ltac:(lia)) as [_ A1]. destruct (Hf 2%nat 0%nat ltac:(lia) ltac:(lia)) as [_ A2].
    pose proof (Rabs_pos (val32 (f 0%nat 0%nat))). pose proof (Rabs_pos (val32 (f 1%nat 0%nat))). pose proof (Rabs_pos (val32 (f 2%nat 0%nat))). lra. }
  set (s := rsum 3 _) in *. set (b := B ^ 3) in *.
  assert (eta 24 128 * ((1 + / 16777216) ^ 4 * s) <= / 1099511627776 * (2 * (9 * b))).
  { apply Rmult_le_compat; [lra|apply Rmult_le_pos; [apply pow_le; lra|lra]|lra|]. apply Rmult_le_compat; [apply pow_le; lra|lra|simpl; lra|lra]. }
  assert (((1 + / 16777216) ^ 5 - 1) * permanent 3 (λ j i, val32 (f j i)) <= (5001 / 1000 * / 16777216) * (6 * b)).
  { apply Rmult_le_compat; [simpl; lra|lra|simpl; lra|lra]. }
  lra.
Qed.
Theorem det4_float32 : ∀ (m : list (list f32)) f B, denotes m 4 4 f → 1 <= B <= bpow radix2 30 →
  (∀ j i, (j < 4)%nat → (i < 4)%nat → is_finite (f j i) = true ∧ Rabs (val32 (f j i)) <= B) →
  ∃ d, det4 N32 m = Some d ∧ is_finite d = true ∧ Rabs (val32 d - laplace rnum 4 (λ j i, val32 (f j i))) <= B ^ 4 * bpow radix2 (-16).
Proof.
  intros m f B Hm HB Hf. destruct (det_float_finite 24 128 4 m f 30 Hm) as (_ & _ & K); [lia|intros j i Hj Hi; destruct (Hf j i Hj Hi); split; [done|lra]|].
  destruct (K eq_refl ltac:(lia)) as (d & E & F & _). exists d. split; [done|]. split; [done|].
  destruct (det4_float_error 24 128 m f d Hm E F) as [_ Er]. eapply Rle_trans; [exact Er|]. rewrite u32. pose proof eta32_small.
  destruct (permanent_le 4 (λ j i, val32 (f j i)) B) as [P0 P]; [lra|intros; by apply Hf|]. replace (INR (fact 4)) with 24 in P by (simpl; lra).
  assert (H2 : 1 <= B ^ 2) by (apply pow_R1_Rle; lra). assert (B2 : B ^ 2 <= B ^ 4) by (apply Rle_pow; [lra|lia]). assert (H1 : 1 <= B ^ 4) by (apply pow_R1_Rle; lra).
  replace (bpow radix2 (-16)) with (/ 65536) by (simpl; lra).
  assert (T : ∀ j, 0 <= rsum 4 (λ k, if (k =? j)%nat then 0 else 2 * Rabs (val32 (f k 1%nat)) + 1) <= 12 * B).
  { intros j. cbn [rsum]. assert (A : ∀ k, (k < 4)%nat → 0 <= (if (k =? j)%nat then 0 else 2 * Rabs (val32 (f k 1%nat)) + 1) <= 3 * B).
    { intros k Hk. destruct (Hf k 1%nat ltac:(lia) ltac:(lia)) as [_ A]. pose proof (Rabs_pos (val32 (f k 1%nat))). destruct (k =? j)%nat; lra. }
    pose proof (A 0%nat ltac:(lia)). pose proof (A 1%nat ltac:(lia)). pose proof (A 2%nat ltac:(lia)). pose proof (A 3%nat ltac:(lia)). lra. }
  assert (S : 0 <= rsum 4 (λ j, Rabs (val32 (f j 0%nat)) * rsum 4 (λ k, if (k =? j)%nat then 0 else 2 * Rabs (val32 (f k 1%nat)) + 1) + 1) <= 52 * B ^ 4).
  { set (h := λ j, Rabs (val32 (f j 0%nat)) * rsum 4 (λ k, if (k =? j)%nat then 0 else 2 * Rabs (val32 (f k 1%nat)) + 1)).
    assert (A : ∀ j, (j < 4)%nat → 0 <= h j <= B * (12 * B)).
    { intros j Hj. destruct (Hf j 0%nat ltac:(lia) ltac:(lia)) as [_ A]. pose proof (T j) as Tj. split; [apply Rmult_le_pos; [apply Rabs_pos|lra]|]. apply Rmult_le_compat; [apply Rabs_pos|lra|done|lra]. }
    change (0 <= rsum 4 (λ j, h j + 1) <= 52 * B ^ 4). clearbody h.
    pose proof (A 0%nat ltac:(lia)). pose proof (A 1%nat ltac:(lia)). pose proof (A 2%nat ltac:(lia)). pose proof (A 3%nat ltac:(lia)). cbn [rsum]. simpl pow in *. lra. }
  set (s := rsum 4 _) in *. set (b := B ^ 4) in *.
  assert (eta 24 128 * ((1 + / 16777216) ^ 8 * s) <= / 1099511627776 * (2 * (52 * b))).
  { apply Rmult_le_compat; [lra|apply Rmult_le_pos; [apply pow_le; lra|lra]|lra|]. apply Rmult_le_compat; [apply pow_le; lra|lra|simpl; lra|lra]. }
  assert (((1 + / 16777216) ^ 9 - 1) * permanent 4 (λ j i, val32 (f j i)) <= (9001 / 1000 * / 16777216) * (24 * b)).
  { apply Rmult_le_compat; [simpl; lra|lra|simpl; lra|lra]. }
  lra.
Qed.
(** If it is larger than that, then its sign is right. *)
Theorem det_float32_sign_partial : ∀ n (m : list (list f32)) f B d, denotes m n n f → 1 <= B →
  (∀ j i, (j < n)%nat → (i < n)%nat → is_finite (f j i) = true ∧ Rabs (val32 (f j i)) <= B) →
  (n = 3%nat ∧ B <= bpow radix2 41 ∧ det3 N32 m = Some d ∧ B ^ 3 * bpow radix2 (-19) < Rabs (val32 d)) ∨
  (n = 4%nat ∧ B <= bpow radix2 30 ∧ det4 N32 m = Some d ∧ B ^ 4 * bpow radix2 (-16) < Rabs (val32 d)) →
  0 < val32 d * laplace rnum n (λ j i, val32 (f j i)).
Proof.
  intros n m f B d Hm H1 Hf [(-> & HB & Hd & Hl) | (-> & HB & Hd & Hl)].
  - destruct (det3_float32 m f B Hm (conj H1 HB) Hf) as (d' & E & _ & Er). rewrite Hd in E. apply (inj Some) in E. subst d'. by apply (same_sign _ _ _ Er).
  - destruct (det4_float32 m f B Hm (conj H1 HB) Hf) as (d' & E & _ & Er). rewrite Hd in E. apply (inj Some) in E. subst d'. by apply (same_sign _ _ _ Er).
Qed.
(** The norm of a product of quaternions that are nearly of unit length is nearly the
    product of the norms. *)
Definition norm2 (q : @quat R) : R := total (map (λ x, x * x) (qlist q)).
Lemma prod_half a b : Rabs (a * b) <= (a * a + b * b) / 2.
Proof. apply Rabs_le. pose proof (Rle_0_sqr (a - b)) as H. pose proof (Rle_0_sqr (a + b)) as H'. unfold Rsqr in *. lra. Qed.
Lemma sq_abs_le a : a * a <= 3 / 2 → Rabs a <= 2.
Proof. intros H. apply Rabs_le. nra. Qed.
Lemma sq_diff r t : Rabs t <= 3 / 2 → Rabs (r - t) <= 25 * bpow radix2 (-26) → Rabs (r * r - t * t) <= 77 * bpow radix2 (-26).
Proof.
  intros Ht Hr. replace (bpow radix2 (-26)) with (/ 67108864) in * by (simpl; lra). replace (r * r - t * t) with ((r - t) * (2 * t + (r - t))) by ring. rewrite Rabs_mult.
  assert (Rabs (2 * t + (r - t)) <= 3 + 25 * / 67108864).
  { eapply Rle_trans; [apply Rabs_triang|]. rewrite Rabs_mult, (Rabs_pos_eq 2) by lra. lra. }
  pose proof (Rabs_pos (r - t)). pose proof (Rabs_pos (2 * t + (r - t))). eapply Rle_trans; [apply Rmult_le_compat; [done|done|exact Hr|eassumption]|]. lra.
Qed.
Theorem qmul_float32_norm : ∀ p q : @quat f32, Forall (λ x, is_finite x = true) (qlist p ++ qlist q) →
  norm2 (qval 24 128 p) <= 3 / 2 → norm2 (qval 24 128 q) <= 3 / 2 →
  Forall (λ x, is_finite x = true) (qlist (qmul N32 p q)) ∧
  Rabs (norm2 (qval 24 128 (qmul N32 p q)) - norm2 (qval 24 128 p) * norm2 (qval 24 128 q)) <= bpow radix2 (-17).
Proof.
  intros p q Hf Hp Hq.
  assert (B : ∀ r : @quat f32, norm2 (qval 24 128 r) <= 3 / 2 → Forall (λ x, Rabs (val32 x) <= bpow radix2 1) (qlist r)).
  { intros [w x y z] Hr. unfold norm2, qlist, total in *. cbn in *. pose proof (Rle_0_sqr (val32 w)). pose proof (Rle_0_sqr (val32 x)). pose proof (Rle_0_sqr (val32 y)). pose proof (Rle_0_sqr (val32 z)).
    unfold Rsqr in *. repeat (apply Forall_cons_2; [apply sq_abs_le; lra|]). by apply Forall_nil. }
  assert (Fin : Forall (λ x, is_finite x = true) (qlist (qmul N32 p q))).
  { apply (qmul_float_finite 24 128 p q 1); [lia|lia|]. apply Forall_and. split; [done|]. apply Forall_app. split; by apply B. }
  split; [done|]. pose proof (qmul_float_error 24 128 p q) as E.
  set (r := qmul N32 p q) in *. unfold qlist in E, Fin. clearbody r. destruct r as [rw rx ry rz], p as [w x y z], q as [w' x' y' z']. cbn in E.
  rewrite !Forall_cons in Fin. cbn in Fin. destruct Fin as (F0 & F1 & F2 & F3 & _).
  apply Forall2_cons in E as [E0 E]. apply Forall2_cons in E as [E1 E]. apply Forall2_cons in E as [E2 E]. apply Forall2_cons in E as [E3 _].
  specialize (E0 F0) as (_ & _ & E0). specialize (E1 F1) as (_ & _ & E1). specialize (E2 F2) as (_ & _ & E2). specialize (E3 F3) as (_ & _ & E3).
  unfold norm2, qlist, qval, total in *. cbn in *.
  set (a0 := val32 w) in *. set (a1 := val32 x) in *. set (a2 := val32 y) in *. set (a3 := val32 z) in *.
  set (b0 := val32 w') in *. set (b1 := val32 x') in *. set (b2 := val32 y') in *. set (b3 := val32 z') in *.
  assert (K : ∀ v t s, Rabs t <= s → s <= 3 / 2 → Rabs (v - t) <= ((1 + u 24) * ((1 + u 24) * ((1 + u 24) * ((1 + u 24) * 1))) - 1) * s + 4 * ((1 + u 24) * ((1 + u 24) * ((1 + u 24) * 1))) * eta 24 128 →
    Rabs (v * v - t * t) <= 77 * bpow radix2 (-26)).
  { intros v t s Ht Hs Hv. apply sq_diff; [lra|]. eapply Rle_trans; [exact Hv|]. rewrite u32. pose proof eta32_small. replace (bpow radix2 (-26)) with (/ 67108864) by (simpl; lra).
    assert (0 <= s) by (eapply Rle_trans; [apply Rabs_pos|exact Ht]). lra. }
  assert (T : ∀ a b c d, Rabs (a + (b + (c + (d + 0)))) <= Rabs a + (Rabs b + (Rabs c + (Rabs d + 0)))).
  { intros a b c d. pose proof (Rabs_triang a (b + (c + (d + 0)))). pose proof (Rabs_triang b (c + (d + 0))). pose proof (Rabs_triang c (d + 0)). rewrite Rplus_0_r in *. lra. }
  assert (H : ∀ a b c d a' b' c' d', a * a + (b * b + (c * c + (d * d + 0))) <= 3 / 2 → a' * a' + (b' * b' + (c' * c' + (d' * d' + 0))) <= 3 / 2 →
    Rabs (a * a') + (Rabs (b * b') + (Rabs (c * c') + (Rabs (d * d') + 0))) <= 3 / 2).
  { intros a b c d a' b' c' d' H1 H2. pose proof (prod_half a a'). pose proof (prod_half b b'). pose proof (prod_half c c'). pose proof (prod_half d d'). lra. }
  apply K in E0; [|apply T|rewrite !Rabs_Ropp; apply H; lra]. apply K in E1; [|apply T|rewrite !Rabs_Ropp; apply H; lra].
  apply K in E2; [|apply T|rewrite !Rabs_Ropp; apply H; lra]. apply K in E3; [|apply T|rewrite !Rabs_Ropp; apply H; lra].
  match goal with |- Rabs ?t <= _ => match type of E0 with Rabs ?d0 <= _ => match type of E1 with Rabs ?d1 <= _ => match type of E2 with Rabs ?d2 <= _ => match type of E3 with Rabs ?d3 <= _ =>
    replace t with (d0 + (d1 + (d2 + (d3 + 0)))) by ring; pose proof (T d0 d1 d2 d3) end end end end end.
  match goal with |- ?a <= _ => change (a <= bpow radix2 (-17)) end.
  replace (bpow radix2 (-26)) with (/ 67108864) in * by (simpl; lra). replace (bpow radix2 (-17)) with (/ 131072) by (simpl; lra). lra.
Qed.

(** * What fails *)
(** The sign of a computed determinant can be wrong, and a singular matrix can have a
    determinant that is not zero; entries are integers below 10000. *)
Definition m_singular : list (list f32) := map (map (λ z, float32 z 0)) [[287; 298; 245]; [238; 273; 23]; [525; 571; 268]]%Z.
Definition m_sign : list (list f32) := map (map (λ z, float32 z 0)) [[1815; 2986; 2837]; [1815; 2986; 2836]; [5446; 8959; 8510]]%Z.
Definition entry (m : list (list f32)) (j i : nat) : f32 := default (B754_zero false) (default [] (m !! j) !! i).
Lemma m_denotes m : m = build 3 3 (entry m) → denotes m 3 3 (entry m).
Proof. intros H. rewrite H at 1. by apply denotes_build. Qed.
Lemma det3_entry m : m = build 3 3 (entry m) → det3 N32 m = Some (fl 24 128 (e3 24 128 (entry m))).
Proof. intros H. rewrite H at 1. apply det3_fl. Qed.
Ltac numerals := repeat match goal with |- context [IZR ?z] => let r := eval vm_compute in z in progress change (IZR z) with (IZR r) end.
Theorem det3_float_singular_refuted : ∃ (m : list (list f32)) f d, denotes m 3 3 f ∧ det3 N32 m = Some d ∧ is_finite d = true ∧
  laplace rnum 3 (λ j i, val32 (f j i)) = 0 ∧ val32 d = -2.
Proof.
  exists m_singular, (entry m_singular), (fl 24 128 (e3 24 128 (entry m_singular))). split; [apply m_denotes; reflexivity|]. split; [apply det3_entry; reflexivity|]. split; [vm_compute; reflexivity|].
  split; [|float_val; numerals; lra]. unfold laplace, minor. cbn [VecSpec.sum Nat.ltb Nat.leb Nat.even nadd nmul nneg n0 n1 rnum]. unfold Datatypes.id, entry.
  cbn [m_singular map lookup list_lookup default from_option]. float_val. numerals. lra.
Qed.
Theorem det3_float_sign_refuted : ∃ (m : list (list f32)) f d, denotes m 3 3 f ∧ det3 N32 m = Some d ∧ is_finite d = true ∧
  laplace rnum 3 (λ j i, val32 (f j i)) = -1171 ∧ val32 d = 644.
Proof.
  exists m_sign, (entry m_sign), (fl 24 128 (e3 24 128 (entry m_sign))). split; [apply m_denotes; reflexivity|]. split; [apply det3_entry; reflexivity|]. split; [vm_compute; reflexivity|].
  split; [|float_val; numerals; lra]. unfold laplace, minor. cbn [VecSpec.sum Nat.ltb Nat.leb Nat.even nadd nmul nneg n0 n1 rnum]. unfold Datatypes.id, entry.
  cbn [m_sign map lookup list_lookup default from_option]. float_val. numerals. lra.
Qed.
(** A determinant that is computed as zero need not be. *)
Definition m_zero : list (list f32) := map (map (λ z, float32 z 0)) [[4097; 4096]; [4098; 4097]]%Z.
Theorem det2_float_zero_refuted : ∃ (m : list (list f32)) f d, denotes m 2 2 f ∧ det2 N32 m = Some d ∧ is_finite d = true ∧
  laplace rnum 2 (λ j i, val32 (f j i)) = 1 ∧ val32 d = 0.
Proof.
  exists m_zero, (entry m_zero), (fl 24 128 (e2 24 128 (entry m_zero))).
  assert (E : m_zero = build 2 2 (entry m_zero)) by reflexivity. split; [rewrite E at 1; by apply denotes_build|].
  split; [rewrite E at 1; apply det2_fl|]. split; [vm_compute; reflexivity|].
  split; [|float_val; numerals; lra]. unfold laplace, minor. cbn [VecSpec.sum Nat.ltb Nat.leb Nat.even nadd nmul nneg n0 n1 rnum]. unfold Datatypes.id, entry.
  cbn [m_zero map lookup list_lookup default from_option]. float_val. numerals. lra.
Qed.

(** * Examples *)
Definition m_ex (n : nat) : list (list f32) := build n n (λ j i, float32 (Z.of_nat (j + i * i)) (if (j =? i)%nat then 1 else -1)).
Example det_float_error_ex : ∃ d2 d3 d4, det2 N32 (m_ex 2) = Some d2 ∧ det3 N32 (m_ex 3) = Some d3 ∧ det4 N32 (m_ex 4) = Some d4 ∧
  is_finite d2 = true ∧ is_finite d3 = true ∧ is_finite d4 = true ∧ val32 d2 = - (1 / 4) ∧ val32 d3 = - (33 / 4) ∧ val32 d4 = - (1323 / 4).
Proof.
  unfold m_ex. rewrite det2_fl, det3_fl, det4_fl. eexists _, _, _. do 3 (split; [done|]). do 3 (split; [vm_compute; reflexivity|]).
  split; [|split]; float_val; numerals; lra.
Qed.
Example det_float_finite_ex : denotes m_sign 3 3 (entry m_sign) ∧ (3 * 14 + 3 < 128)%Z ∧
  ∀ j i, (j < 3)%nat → (i < 3)%nat → is_finite (entry m_sign j i) = true ∧ Rabs (val32 (entry m_sign j i)) <= bpow radix2 14.
Proof.
  split; [apply m_denotes; reflexivity|]. split; [lia|]. intros j i Hj Hi. replace (bpow radix2 14) with 16384 by (simpl; lra).
  destruct j as [|[|[|j]]]; [..|lia]; (destruct i as [|[|[|i]]]; [..|lia]); (split; [reflexivity|]); apply Rabs_le; unfold entry;
  cbn [m_sign map lookup list_lookup default from_option]; float_val; numerals; lra.
Qed.
(** The hypotheses of the theorem about signs: entries at most 6, computed determinant *)
Example det_float32_sign_ex : ∃ d, det3 N32 (m_ex 3) = Some d ∧ 12 ^ 3 * bpow radix2 (-19) < Rabs (val32 d).
Proof.
  unfold m_ex. rewrite det3_fl. eexists. split; [done|]. match goal with |- _ < Rabs ?v => assert (v < -1) by (float_val; numerals; lra) end.
  rewrite Rabs_left by lra. replace (bpow radix2 (-19)) with (/ 524288) by (simpl; lra). lra.
Qed.
Example det2_float_sign_ex : ∃ d, det2 N32 (m_ex 2) = Some d ∧ is_finite d = true ∧ val32 d < 0.
Proof. unfold m_ex. rewrite det2_fl. eexists. split; [done|]. split; [vm_compute; reflexivity|]. float_val; numerals; lra. Qed.
Definition q_ex (a b c d : Z) : @quat f32 := Quat (float32 a (-2)) (float32 b (-2)) (float32 c (-2)) (float32 d (-2)).
Example qmul_float_ex : let p := q_ex 2 2 (-2) 2 in let q := q_ex 3 1 2 (-1) in
  Forall (λ x, is_finite x = true) (qlist p ++ qlist q) ∧ norm2 (qval 24 128 p) = 1 ∧ norm2 (qval 24 128 q) = 15 / 16 ∧
  map val32 (qlist (qmul N32 p q)) = [5 / 8; 3 / 8; 1 / 8; 5 / 8] ∧ Forall (λ x, Rabs (val32 x) <= bpow radix2 1) (qlist p ++ qlist q).
Proof.
  cbv zeta. split; [repeat constructor|]. assert (V : ∀ z, In z [3; 2; 1; -1; -2]%Z → val32 (float32 z (-2)) = IZR z / 4).
  { intros z Hz. repeat destruct Hz as [<-|Hz]; [..|done]; float_val; numerals; lra. }
  unfold norm2, qval, q_ex, qlist, total. cbn [map foldr qw qx qy qz app]. rewrite !V by (simpl; tauto). split; [lra|]. split; [lra|]. split.
  - cbn [qmul qw qx qy qz map]. repeat (apply f_equal2; [float_val; numerals; lra|]). done.
  - repeat (apply Forall_cons_2; [rewrite V by (simpl; tauto); apply Rabs_le; simpl; lra|]). by apply Forall_nil.
Qed.
Definition id32 : list (list f32) := build 4 4 (λ j i, if (j =? i)%nat then float32 1 0 else float32 (Z.of_nat j) (-3)).
Example translate_scale_float_ex : ∃ r s, translate N32 Datatypes.id id32 [float32 1 0; float32 3 (-1); float32 (-2) 0] = Some r ∧
  scale N32 Datatypes.id id32 [float32 1 0; float32 3 (-1); float32 (-2) 0] = Some s ∧
  val32 (entry r 3 0) = 17 / 16 ∧ is_finite (entry r 3 0) = true ∧ val32 (entry s 1 0) = 3 / 16 ∧ is_finite (entry s 1 0) = true.
Proof.
  unfold id32. rewrite translate_entries, scale_entries. eexists _, _. do 2 (split; [done|]). unfold entry. cbn [build map seq lookup list_lookup default from_option].
  split_and!; try (vm_compute; reflexivity); float_val; numerals; lra.
Qed.
(** A sine and cosine with an error of 2^-10. *)
Example rotate_float_ex : let a := float32 0 0 in let sn := λ _ : f32, float32 1 (-10) in let cs := λ _ : f32, float32 1023 (-10) in
  Rabs (val32 (sn a) - sin (val32 a)) <= / 1024 ∧ Rabs (val32 (cs a) - cos (val32 a)) <= / 1024 ∧
  ∃ r, rotate N32 sn cs N32 Datatypes.id Datatypes.id id32 a [float32 0 0; float32 0 0; float32 1 0] = Some r ∧
  val32 (entry r 0 0) = 1023 / 1024 + 1 / 8192 ∧ is_finite (entry r 0 0) = true.
Proof.
  cbv zeta. replace (val32 (float32 0 0)) with 0 by (float_val; reflexivity). rewrite sin_0, cos_0.
  split; [apply Rabs_le; float_val; numerals; lra|]. split; [apply Rabs_le; float_val; numerals; lra|].
  unfold id32. rewrite rotate_entries. eexists. split; [done|]. unfold entry. cbn [build map seq lookup list_lookup default from_option].
  split; [float_val; numerals; lra|vm_compute; reflexivity].
Qed.
Example reflect_float_ex : ∃ r, reflect N32 (float32 2 0) [float32 3 0; float32 4 0] [float32 1 0; float32 0 0] = Some r ∧
  map val32 r = [-3; 4] ∧ Forall (λ x, is_finite x = true) r ∧ val32 (float32 2 0) = 2.
Proof.
  eexists. split; [reflexivity|]. split; [cbn [map]; repeat (apply f_equal2; [float_val; numerals; lra|]); done|]. split; [repeat (apply Forall_cons_2; [vm_compute; reflexivity|]); by apply Forall_nil|]. float_val; numerals; lra.
Qed.

Definition floatmat_theorems := (det2_float_error, det3_float_error, det4_float_error, det_float_finite, det2_float_sign, det2_float32, det3_float32,
  det4_float32, det_float32_sign_partial, det3_float_singular_refuted, det3_float_sign_refuted, det2_float_zero_refuted,
  qmul_float_error, qmul_float_finite, qadd_float, qmul_float32_norm, translate_float_error, scale_float, rotate_float_error, reflect_float_error).
Print Assumptions floatmat_theorems.
