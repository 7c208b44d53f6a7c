(** Theorems about transformations and projections over the reals: properties C61,
    C62, C63 and C64. *)
From stdpp Require Import list list_numbers.
From Coq Require Import Lia ZArith Reals Lra Psatz.
From Verif Require Import VecModel VecSpec VecProofs VecProps MatModel MatProofs MatProps TransformSpec.
Local Open Scope R_scope.

(** ** C61: translate, scale, rotate multiply from the right *)
Ltac entries := cbn; unfold translation, scaling, rotation, axis_cross, delta, comp; cbn.
(** Equality of lists of lists, entry by entry. *)
Ltac leq := repeat match goal with |- Some _ = Some _ => apply f_equal | |- _ :: _ = _ :: _ => apply f_equal2 | |- @eq (list _) [] [] => reflexivity end.
Lemma list3 {A} (v : list A) : length v = 3%nat → ∃ a b c, v = [a; b; c].
Proof. destruct v as [|? [|? [|? [|]]]]; try done. eauto. Qed.
Theorem translate_product : ∀ {U} (cast : U → R) M f v, denotes M 4 4 f → length v = 3%nat → ∃ Tr R,
  denotes Tr 4 4 (translation (map cast v)) ∧
  translate rnum cast M v = Some R ∧ mat_mul rnum 4 4 4 M Tr = Some R.
Proof.
  intros U cast M f v HM Hv. apply denotes_build in HM. subst. apply list3 in Hv as (x & y & z & ->).
  exists (build 4 4 (translation (map cast [x; y; z]))). eexists. split; [by apply denotes_build|].
  split; [by entries|]. rewrite mat_mul_eq. f_equal. entries. leq; ring.
Qed.
Theorem scale_product : ∀ {U} (cast : U → R) M f v, denotes M 4 4 f → length v = 3%nat → ∃ Sc R,
  denotes Sc 4 4 (scaling (map cast v)) ∧
  scale rnum cast M v = Some R ∧ mat_mul rnum 4 4 4 M Sc = Some R.
Proof.
  intros U cast M f v HM Hv. apply denotes_build in HM. subst. apply list3 in Hv as (x & y & z & ->).
  exists (build 4 4 (scaling (map cast [x; y; z]))). eexists. split; [by apply denotes_build|].
  split; [by entries|]. rewrite mat_mul_eq. f_equal. entries. leq; ring.
Qed.
Definition rrotate := rotate rnum sin cos rnum Datatypes.id Datatypes.id.
Lemma rotate_eq f a n : length n = 3%nat →
  rrotate (build 4 4 f) a n = mat_mul rnum 4 4 4 (build 4 4 f) (build 4 4 (rotation a n)).
Proof.
  intros Hn. apply list3 in Hn as (x & y & z & ->). rewrite mat_mul_eq. unfold rrotate, rotate. entries. unfold Datatypes.id.
  leq; ring.
Qed.
Theorem rotate_product : ∀ M f a n, denotes M 4 4 f → length n = 3%nat → ∃ Ro R,
  denotes Ro 4 4 (rotation a n) ∧ rrotate M a n = Some R ∧ mat_mul rnum 4 4 4 M Ro = Some R.
Proof.
  intros M f a n HM Hn. apply denotes_build in HM. subst. exists (build 4 4 (rotation a n)). eexists.
  split; [by apply denotes_build|]. rewrite rotate_eq by done. split; apply mat_mul_eq.
Qed.
(** What the matrices do to points: a translation adds, a scaling multiplies the
    coordinates; a rotation is Rodrigues' formula
    R p = cos a p + (1 - cos a) (n . p) n + sin a (n x p). *)
Theorem translation_point : ∀ Tr v x y z, denotes Tr 4 4 (translation v) →
  mat_vec rnum 4 4 Tr [x; y; z; 1] = Some [x + comp rnum v 0; y + comp rnum v 1; z + comp rnum v 2; 1].
Proof.
  intros Tr v x y z H. apply denotes_build in H. subst. entries. leq; ring.
Qed.
Theorem scaling_point : ∀ Sc v x y z, denotes Sc 4 4 (scaling v) →
  mat_vec rnum 4 4 Sc [x; y; z; 1] = Some [x * comp rnum v 0; y * comp rnum v 1; z * comp rnum v 2; 1].
Proof.
  intros Tr v x y z H. apply denotes_build in H. subst. entries. leq; ring.
Qed.
Theorem rotation_point : ∀ Ro a n x y z w, denotes Ro 4 4 (rotation a n) → length n = 3%nat → ∃ d c c0 c1 c2,
  dot rnum n [x; y; z] = Some d ∧ cross rnum n [x; y; z] = Some c ∧ c = [c0; c1; c2] ∧
  mat_vec rnum 4 4 Ro [x; y; z; w] = Some
    [cos a * x + (1 - cos a) * d * comp rnum n 0 + sin a * c0;
     cos a * y + (1 - cos a) * d * comp rnum n 1 + sin a * c1;
     cos a * z + (1 - cos a) * d * comp rnum n 2 + sin a * c2; w].
Proof.
  intros Ro a n x y z w H Hn. apply denotes_build in H. subst. apply list3 in Hn as (p & q & r & ->).
  do 5 eexists. split; [done|]. split; [done|]. split; [done|]. entries. leq; ring.
Qed.
(** Rotation about a unit axis: the matrix times its transpose is the identity, its
    determinant is 1, it fixes the axis, angles add and the angle 0 does nothing. *)
Ltac rot Hn :=
  let x := fresh "x" in let y := fresh "y" in let z := fresh "z" in
  destruct Hn as [Hn Hu]; apply list3 in Hn as (x & y & z & ->); unfold comp in Hu; simpl in Hu;
  assert (Hz : z * z = 1 - x * x - y * y) by lra; clear Hu.
Lemma cos_sq a : cos a * cos a = 1 - sin a * sin a.
Proof. pose proof (sin2_cos2 a) as H. unfold Rsqr in H. lra. Qed.
Theorem rotation_orthogonal : ∀ Ro a n, denotes Ro 4 4 (rotation a n) → unit_axis n → ∃ Rt I,
  transpose rnum 4 4 Ro = Some Rt ∧ mat_default rnum 4 4 = Some I ∧
  mat_mul rnum 4 4 4 Ro Rt = Some I ∧ mat_mul rnum 4 4 4 Rt Ro = Some I.
Proof.
  intros Ro a n H Hn. apply denotes_build in H. subst. rot Hn.
  do 2 eexists. split; [apply transpose_eq|]. split; [apply mat_default_eq|]. rewrite !mat_mul_eq. pose proof (cos_sq a) as Hc.
  entries. generalize dependent (cos a). generalize (sin a). intros s c Hc.
  split; leq; ring [Hz Hc].
Qed.
Theorem rotation_determinant : ∀ Ro a n, denotes Ro 4 4 (rotation a n) → unit_axis n → det4 rnum Ro = Some 1.
Proof.
  intros Ro a n H Hn. apply denotes_build in H. subst. rot Hn. pose proof (cos_sq a) as Hc.
  rewrite (proj2 (proj2 (determinant_laplace rnum rnum_ring _ (rotation a [x; y; z])))) by (by apply denotes_build).
  f_equal. entries. unfold minor, Datatypes.id. entries. generalize dependent (cos a). generalize (sin a). intros s c Hc. ring [Hz Hc].
Qed.
Theorem rotation_axis : ∀ Ro a n w, denotes Ro 4 4 (rotation a n) → unit_axis n →
  mat_vec rnum 4 4 Ro (n ++ [w]) = Some (n ++ [w]).
Proof.
  intros Ro a n w H Hn. apply denotes_build in H. subst. rot Hn. entries. leq; ring [Hz].
Qed.
Theorem rotate_angles_add : ∀ M f a b n, denotes M 4 4 f → unit_axis n → ∃ R,
  rrotate M (a + b) n = Some R ∧ (M' ← rrotate M a n; rrotate M' b n) = Some R.
Proof.
  intros M f a b n HM Hn. assert (L := proj1 Hn). apply denotes_build in HM. subst.
  rewrite !rotate_eq by done.
  destruct (matrix_product_associative rnum rnum_ring 4 4 4 4 (build 4 4 f) (build 4 4 (rotation a n)) (build 4 4 (rotation b n)) _ _ _
    (proj2 (denotes_build _ _ _ _) eq_refl) (proj2 (denotes_build _ _ _ _) eq_refl) (proj2 (denotes_build _ _ _ _) eq_refl))
    as (AB & BC & R & H1 & H2 & H3 & H4).
  exists R. rewrite H1. cbn [mbind option_bind]. split.
  - rewrite <- H4. do 2 f_equal. rewrite mat_mul_eq in H2. apply Some_inj in H2. subst BC. clear -Hn.
    rot Hn. entries. rewrite sin_plus, cos_plus. leq; ring [Hz].
  - rewrite mat_mul_eq in H1. apply Some_inj in H1. subst AB. rewrite rotate_eq by done. done.
Qed.
Theorem rotate_zero : ∀ M f n, denotes M 4 4 f → length n = 3%nat → rrotate M 0 n = Some M.
Proof.
  intros M f n HM Hn. apply denotes_build in HM. subst. rewrite rotate_eq by done. rewrite mat_mul_eq.
  apply list3 in Hn as (x & y & z & ->). entries. rewrite sin_0, cos_0. leq; ring.
Qed.
(** rotate, translate and scale change the determinant by 1, 1 and the product of
    the factors. *)
Theorem transform_determinant : ∀ M f a n v d, denotes M 4 4 f → unit_axis n → length v = 3%nat → det4 rnum M = Some d →
  (R ← rrotate M a n; det4 rnum R) = Some d ∧
  (R ← translate rnum Datatypes.id M v; det4 rnum R) = Some d ∧
  (R ← scale rnum Datatypes.id M v; det4 rnum R) = Some (d * comp rnum v 0 * comp rnum v 1 * comp rnum v 2).
Proof.
  intros M f a n v d HM Hn Hv Hd.
  assert (Hmul : ∀ B g e, denotes B 4 4 g → det4 rnum B = Some e → (R ← mat_mul rnum 4 4 4 M B; det4 rnum R) = Some (d * e)).
  { intros B g e HB He. destruct (determinant_multiplicative rnum rnum_ring 4 M B f g ltac:(lia) HM HB) as (AB & x & y & E & Hx & Hy & Hxy).
    cbn [det] in *. rewrite E. cbn [mbind option_bind]. rewrite Hxy. f_equal. simpl. congruence. }
  split; [|split].
  - destruct (rotate_product M f a n HM (proj1 Hn)) as (Ro & R & HR & -> & E). cbn [mbind option_bind].
    specialize (Hmul Ro _ 1 HR (rotation_determinant Ro a n HR Hn)). rewrite E in Hmul. cbn [mbind option_bind] in Hmul.
    rewrite Hmul. f_equal. lra.
  - destruct (translate_product Datatypes.id M f v HM Hv) as (Tr & R & HR & -> & E). cbn [mbind option_bind].
    assert (He : det4 rnum Tr = Some 1).
    { rewrite (proj2 (proj2 (determinant_laplace rnum rnum_ring _ _)) HR). f_equal. apply list3 in Hv as (x & y & z & ->).
      entries. unfold minor, Datatypes.id. entries. lra. }
    specialize (Hmul Tr _ 1 HR He). rewrite E in Hmul. cbn [mbind option_bind] in Hmul. rewrite Hmul. f_equal. lra.
  - destruct (scale_product Datatypes.id M f v HM Hv) as (Sc & R & HR & -> & E). cbn [mbind option_bind].
    assert (He : det4 rnum Sc = Some (comp rnum v 0 * comp rnum v 1 * comp rnum v 2)).
    { rewrite (proj2 (proj2 (determinant_laplace rnum rnum_ring _ _)) HR). f_equal. apply list3 in Hv as (x & y & z & ->).
      entries. unfold minor, Datatypes.id. entries. lra. }
    specialize (Hmul Sc _ _ HR He). rewrite E in Hmul. cbn [mbind option_bind] in Hmul. rewrite Hmul. f_equal. lra.
Qed.

(** ** C62: an axis of an integer type *)
Definition irotate := rotate rnum sin cos znum IZR Rtrunc.
(** (1 - cos a) is converted to the integer type before it is multiplied. *)
Lemma int_part_eq x k : IZR k <= x < IZR k + 1 → Int_part x = k.
Proof.
  intros H. unfold Int_part. rewrite <- (tech_up x (k + 1)%Z); [lia|rewrite plus_IZR; lra|rewrite plus_IZR; lra].
Qed.
Lemma Rtrunc_half : Rtrunc (1 - / 2) = 0%Z.
Proof.
  unfold Rtrunc. destruct (Rle_dec 0 (1 - / 2)); [|lra]. apply int_part_eq. simpl. lra.
Qed.
Theorem rotate_integer_axis_refuted : ∃ M f a n, denotes M 4 4 f ∧ unit_axis (map IZR n) ∧
  is_Some (irotate M a n) ∧ irotate M a n ≠ rrotate M a (map IZR n).
Proof.
  exists (build 4 4 delta), delta, (PI / 3), [0; 0; 1]%Z. split; [by apply denotes_build|].
  split; [split; [done|]; unfold comp; simpl; lra|].
  unfold irotate, rrotate, rotate. cbn. rewrite cos_PI3, sin_PI3. unfold Datatypes.id.
  replace (1 - 1 / 2) with (1 - / 2) by lra. rewrite Rtrunc_half. cbn. rewrite !mult_IZR. split; [by eexists|].
  intros H. injection H. intros. lra.
Qed.
(** The rotation is right if 1 - cos a is an integer, that is for the multiples of a
    quarter turn; axes of floating-point type are covered by [rotate_product]. *)
Theorem rotate_integer_axis_partial : ∀ M f a n k, denotes M 4 4 f → length n = 3%nat → 1 - cos a = IZR k →
  is_Some (irotate M a n) ∧ irotate M a n = rrotate M a (map IZR n).
Proof.
  intros M f a n k HM Hn Hk. apply denotes_build in HM. subst. apply list3 in Hn as (x & y & z & ->).
  assert (Ht : Rtrunc (IZR k) = k).
  { unfold Rtrunc. destruct (Rle_dec 0 (IZR k)).
    - apply int_part_eq. lra.
    - rewrite <- opp_IZR. rewrite (int_part_eq (IZR (- k)) (- k)%Z) by lra. lia. }
  unfold irotate, rrotate, rotate. cbn. unfold Datatypes.id. rewrite Hk, Ht, !mult_IZR. split; [by eexists|done].
Qed.
Example rotate_integer_axis_partial_ex : 1 - cos (PI / 2) = IZR 1 ∧ unit_axis (map IZR [0; 0; 1]%Z).
Proof. rewrite cos_PI2. split; [lra|]. split; [done|]. unfold comp; simpl; lra. Qed.

(** ** C63: perspective projection by field of view *)
Definition rproj (P : list (list R)) := projects P (mat_vec rnum 4 4).
(** The depth that the matrices produce for a point at distance d. *)
Definition depth (near far d : R) : R := (far + near) / (far - near) - 2 * far * near / ((far - near) * d).
Lemma depth_range near far d : 0 < near → near < far → depth near far near = -1 ∧ depth near far far = 1 ∧
  (near < d < far → -1 < depth near far d < 1) ∧ (∀ d', near <= d → d < d' → depth near far d < depth near far d').
Proof.
  intros Hn Hf. unfold depth.
  assert (Hmono : ∀ d d', 0 < d → d < d' → (far + near) / (far - near) - 2 * far * near / ((far - near) * d) <
     (far + near) / (far - near) - 2 * far * near / ((far - near) * d')).
  { intros e e' He Hlt. apply Rplus_lt_compat_l, Ropp_lt_contravar. unfold Rdiv. apply Rmult_lt_compat_l; [nra|].
    apply Rinv_lt_contravar; [|nra]. apply Rmult_lt_0_compat; nra. }
  assert (H1 : (far + near) / (far - near) - 2 * far * near / ((far - near) * near) = -1) by (field; lra).
  assert (H2 : (far + near) / (far - near) - 2 * far * near / ((far - near) * far) = 1) by (field; lra).
  split; [done|]. split; [done|]. split.
  - intros [Ha Hb]. pose proof (Hmono near d Hn Ha). pose proof (Hmono d far ltac:(lra) Hb). lra.
  - intros d' Ha Hb. apply Hmono; lra.
Qed.
(** A point at distance d in front of the eye (z = -d right-handed, z = d
    left-handed), at the fraction h, v of the edge of the view at that distance, goes
    to (h, v, depth). With [depth_range]: the near plane to -1, the far plane to 1,
    what is between to in between in the same order, the edges to -1 and 1. *)
Theorem perspective_fov_projection : ∀ fov aspect near far d h v,
  0 < fov < PI → 0 < aspect → 0 < near → near < far → 0 < d → ∃ PR PL,
  fov_rh rnum tan 2 fov aspect near far = Some PR ∧ fov_lh rnum tan 2 fov aspect near far = Some PL ∧
  rproj PR (h * (d * tan (fov / 2) * aspect)) (v * (d * tan (fov / 2))) (- d) h v (depth near far d) ∧
  rproj PL (h * (d * tan (fov / 2) * aspect)) (v * (d * tan (fov / 2))) d h v (depth near far d).
Proof.
  intros fov aspect near far d h v Hfov Ha Hn Hf Hd.
  assert (Ht : 0 < tan (fov / 2)) by (apply tan_gt_0; lra).
  do 2 eexists. split; [done|]. split; [done|]. split; exists d; (split; [lra|]); entries; unfold depth; leq; field; lra.
Qed.
Theorem perspective_depth : ∀ near far d, 0 < near → near < far →
  depth near far near = -1 ∧ depth near far far = 1 ∧ (near < d < far → -1 < depth near far d < 1) ∧
  (∀ d', near <= d → d < d' → depth near far d < depth near far d').
Proof. apply depth_range. Qed.
Theorem perspective_default : ∀ fov aspect near far,
  perspective_fov rnum tan 2 false fov aspect near far = fov_rh rnum tan 2 fov aspect near far.
Proof. done. Qed.

(** ** C64: frustum and orthographic projections *)
(** A volume and what the documented projections do with its corners and all its
    points: x between left and right goes to between -1 and 1, and so on. *)
Definition volume (left right bottom top near far : R) : Prop := left < right ∧ bottom < top ∧ 0 < near ∧ near < far.
(** Position between two bounds, from -1 to 1. *)
Definition unlerp (lo hi x : R) : R := (2 * x - (hi + lo)) / (hi - lo).
(** The documented frustum projection: the point at (x, y) on the near plane, moved
    along the ray to the distance d. The sign is -1 right-handed, 1 left-handed. *)
Definition frustum_ok (sgn : R) (P : list (list R)) (left right bottom top near far : R) : Prop :=
  ∀ x y d, 0 < d →
    rproj P (x * d / near) (y * d / near) (sgn * d) (unlerp left right x) (unlerp bottom top y) (depth near far d).
Definition ortho_ok (sgn : R) (P : list (list R)) (left right bottom top near far : R) : Prop :=
  ∀ x y d, rproj P x y (sgn * d) (unlerp left right x) (unlerp bottom top y) (unlerp near far d).
Theorem frustum_refuted : ∃ left right bottom top near far PL PR, volume left right bottom top near far ∧
  frustum_lh rnum 2 left right bottom top near far = Some PL ∧ frustum_rh rnum 2 left right bottom top near far = Some PR ∧
  ¬ frustum_ok 1 PL left right bottom top near far ∧ ¬ frustum_ok (-1) PR left right bottom top near far.
Proof.
  exists 0, 2, (-1), 1, 1, 3. do 2 eexists. split; [unfold volume; lra|]. split; [done|]. split; [done|].
  split; intros H; destruct (H 2 0 1 ltac:(lra)) as (w & Hw & E); revert E; entries; intros E; injection E; unfold unlerp; intros; nra.
Qed.
(** What is right: y and the depth always, x if the volume is symmetric. *)
Theorem frustum_partial : ∀ left right bottom top near far, volume left right bottom top near far → right ≠ near → ∃ PL PR,
  frustum_lh rnum 2 left right bottom top near far = Some PL ∧ frustum_rh rnum 2 left right bottom top near far = Some PR ∧
  (∀ x y d, 0 < d → ∃ x' x'',
     rproj PL (x * d / near) (y * d / near) d x' (unlerp bottom top y) (depth near far d) ∧
     rproj PR (x * d / near) (y * d / near) (- d) x'' (unlerp bottom top y) (depth near far d)) ∧
  (right = - left → frustum_ok 1 PL left right bottom top near far ∧ frustum_ok (-1) PR left right bottom top near far).
Proof.
  intros l r b t n f (Hlr & Hbt & Hn & Hf) Hrn. do 2 eexists. split; [done|]. split; [done|]. split.
  - intros x y d Hd. exists (2 * x / (r - l) - (r + l) / (r - n)), (2 * x / (r - l) - (r + l) / (r - n)).
    split; exists d; (split; [lra|]); entries; unfold depth, unlerp; leq; field; lra.
  - intros ->. split; intros x y d Hd; exists d; (split; [lra|]); entries; unfold depth, unlerp; leq; field; lra.
Qed.
Theorem frustum_default : ∀ left right bottom top near far,
  perspective_frustum rnum 2 true left right bottom top near far = frustum_lh rnum 2 left right bottom top near far ∧
  perspective_frustum rnum 2 false left right bottom top near far = frustum_rh rnum 2 left right bottom top near far.
Proof. done. Qed.
Theorem ortho_refuted : ∃ left right bottom top near far PL PR, volume left right bottom top near far ∧
  ortho rnum 2 true left right bottom top near far = Some PL ∧ ortho rnum 2 false left right bottom top near far = Some PR ∧
  ¬ ortho_ok 1 PL left right bottom top near far ∧ ¬ ortho_ok (-1) PR left right bottom top near far.
Proof.
  exists (-1), 1, (-1), 1, 1, 3. do 2 eexists. split; [unfold volume; lra|]. split; [done|]. split; [done|].
  split; intros H; destruct (H 0 0 1) as (w & Hw & E); revert E; entries; intros E; injection E; unfold unlerp; intros; nra.
Qed.
(** What is right: x, if left and right are symmetric. *)
Theorem ortho_partial : ∀ left right bottom top near far, volume left right bottom top near far → right = - left → ∃ PL PR,
  ortho rnum 2 true left right bottom top near far = Some PL ∧ ortho rnum 2 false left right bottom top near far = Some PR ∧
  ∀ x y z, ∃ y' z' y'' z'', rproj PL x y z (unlerp left right x) y' z' ∧ rproj PR x y z (unlerp left right x) y'' z''.
Proof.
  intros l r b t n f (Hlr & Hbt & Hn & Hf) ->. do 2 eexists. split; [done|]. split; [done|].
  intros x y z. exists (2 / (f - n) * y - (t + b) / (t - b) * z), (- (f + n) / (f - n) * z),
    (- 2 / (f - n) * y - (t + b) / (t - b) * z), (- (f + n) / (f - n) * z).
  split; exists 1; (split; [lra|]); entries; unfold unlerp; leq; field; lra.
Qed.
(** What the frustum projections do with x in general: its offset has the wrong
    divisor. *)
Theorem frustum_projection : ∀ left right bottom top near far x y d,
  volume left right bottom top near far → right ≠ near → 0 < d → ∃ PL PR x',
  frustum_lh rnum 2 left right bottom top near far = Some PL ∧ frustum_rh rnum 2 left right bottom top near far = Some PR ∧
  x' = 2 * x / (right - left) - (right + left) / (right - near) ∧
  rproj PL (x * d / near) (y * d / near) d x' (unlerp bottom top y) (depth near far d) ∧
  rproj PR (x * d / near) (y * d / near) (- d) x' (unlerp bottom top y) (depth near far d).
Proof.
  intros l r b t n f x y d (Hlr & Hbt & Hn & Hf) Hrn Hd. do 3 eexists. split; [done|]. split; [done|]. split; [done|].
  split; exists d; (split; [lra|]); entries; unfold depth, unlerp; leq; field; lra.
Qed.
(** What the orthographic projections do: the offsets of x and y, which should be
    constant, are multiplied by z; y is scaled by the depth of the volume; z is scaled by
    what should be its offset. *)
Theorem ortho_projection : ∀ left right bottom top near far x y z, volume left right bottom top near far → ∃ PL PR x' y' y'' z',
  ortho rnum 2 true left right bottom top near far = Some PL ∧ ortho rnum 2 false left right bottom top near far = Some PR ∧
  x' = (2 * x - (right + left) * z) / (right - left) ∧
  y' = 2 * y / (far - near) - (top + bottom) * z / (top - bottom) ∧
  y'' = - 2 * y / (far - near) - (top + bottom) * z / (top - bottom) ∧
  z' = - (far + near) * z / (far - near) ∧
  rproj PL x y z x' y' z' ∧ rproj PR x y z x' y'' z'.
Proof.
  intros l r b t n f x y z (Hlr & Hbt & Hn & Hf). do 6 eexists. do 6 (split; [reflexivity|]).
  split; exists 1; (split; [lra|]); entries; leq; field; lra.
Qed.
(** With the left-handed setting perspective(fov, ...) is the right-handed projection with
    the depth the other way round: the near plane goes to 1 and the far plane to -1. *)
Theorem perspective_lh_setting_projection : ∀ fov aspect near far d h v,
  0 < fov < PI → 0 < aspect → 0 < near → near < far → 0 < d → ∃ P,
  perspective_fov rnum tan 2 true fov aspect near far = Some P ∧
  rproj P (h * (d * tan (fov / 2) * aspect)) (v * (d * tan (fov / 2))) (- d) h v (- depth near far d).
Proof.
  intros fov a n f d h v Hfov Ha Hn Hf Hd.
  assert (0 < tan (fov / 2)) by (apply tan_gt_0; lra).
  eexists. split; [done|]. exists d. split; [lra|]. entries. unfold depth. leq; field; lra.
Qed.
(** perspective(fov, ...) with the left-handed setting is not the left-handed
    projection. *)
Theorem perspective_lh_setting_refuted : ∃ fov aspect near far P Q, 0 < near ∧ near < far ∧
  perspective_fov rnum tan 2 true fov aspect near far = Some P ∧ fov_lh rnum tan 2 fov aspect near far = Some Q ∧ P ≠ Q.
Proof.
  exists 1, 1, 1, 2. do 2 eexists. split; [lra|]. split; [lra|]. split; [done|]. split; [done|].
  entries. intros H. injection H. lra.
Qed.

(** ** Examples *)
Example translate_product_ex :
  translate znum Datatypes.id [[1;0;0;0];[0;1;0;0];[0;0;1;0];[5;6;7;1]]%Z [1;2;3]%Z = Some [[1;0;0;0];[0;1;0;0];[0;0;1;0];[6;8;10;1]]%Z.
Proof. done. Qed.
Example scale_product_ex :
  scale znum Datatypes.id [[1;1;0;0];[0;1;0;0];[0;0;1;0];[5;6;7;1]]%Z [2;3;4]%Z = Some [[2;2;0;0];[0;3;0;0];[0;0;4;0];[5;6;7;1]]%Z.
Proof. done. Qed.
Example unit_axis_ex : unit_axis [3/5; 0; 4/5].
Proof. split; [done|]. unfold comp. simpl. lra. Qed.
(** A quarter turn about z takes x to y. *)
Example rotation_point_ex : mat_vec rnum 4 4 (build 4 4 (rotation (PI / 2) [0; 0; 1])) [1; 0; 0; 1] = Some [0; 1; 0; 1].
Proof. entries. rewrite cos_PI2, sin_PI2. leq; ring. Qed.
Example rotate_angles_add_ex : rotation PI [0; 0; 1] 0 0 = -1 ∧ rotation (PI / 2) [0; 0; 1] 0 1 = 1.
Proof. entries. rewrite cos_PI, sin_PI2, cos_PI2. lra. Qed.
Example transform_determinant_ex : det4 rnum (build 4 4 delta) = Some 1.
Proof. entries. f_equal. ring. Qed.
Example perspective_fov_projection_ex : 0 < PI / 2 < PI ∧ tan (PI / 2 / 2) = 1 ∧ depth 1 3 1 = -1 ∧ depth 1 3 3 = 1.
Proof.
  pose proof PI_RGT_0. split; [lra|]. split; [replace (PI / 2 / 2) with (PI / 4) by field; apply tan_PI4|]. unfold depth. lra.
Qed.
Example frustum_partial_ex : volume (-2) 2 (-1) 3 1 10 ∧ (2 : R) ≠ 1 ∧ (2 : R) = - (-2) ∧ unlerp (-1) 3 3 = 1.
Proof. unfold volume, unlerp. lra. Qed.
Example frustum_projection_ex : volume (-2) 4 (-1) 3 1 10 ∧ (4 : R) ≠ 1 ∧
  2 * 4 / (4 - -2) - (4 + -2) / (4 - 1) ≠ unlerp (-2) 4 4.
Proof. unfold volume, unlerp. split_and!; lra. Qed.
Example ortho_projection_ex : volume (-2) 2 (-1) 1 1 10 ∧ 2 * 1 / (10 - 1) - (1 + -1) * 5 / (1 - -1) ≠ unlerp (-1) 1 1.
Proof. unfold volume, unlerp. split_and!; lra. Qed.
Example perspective_lh_setting_projection_ex : 0 < PI / 2 < PI ∧ - depth 1 3 1 = 1 ∧ - depth 1 3 3 = -1.
Proof. unfold depth. assert (0 < PI) by apply PI_RGT_0. split_and!; lra. Qed.


Definition transform_theorems := (@translate_product, @scale_product, @rotate_product, @translation_point, @scaling_point,
  @rotation_point, @rotation_orthogonal, @rotation_determinant, @rotation_axis, @rotate_angles_add, @rotate_zero,
  @transform_determinant, @rotate_integer_axis_refuted, @rotate_integer_axis_partial, @perspective_fov_projection,
  @perspective_depth, @perspective_default, @frustum_refuted, @frustum_partial, @frustum_default, @ortho_refuted,
  @ortho_partial, @frustum_projection, @ortho_projection, @perspective_lh_setting_projection,
  @perspective_lh_setting_refuted).
Print Assumptions transform_theorems.
