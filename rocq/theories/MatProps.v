(** Theorems about xme::math::Matrix and Quaternion: properties C58, C59, C60, C65,
    C77 and C79. *)
From stdpp Require Import list list_numbers.
From Coq Require Import Lia ZArith Ring_theory Ring.
From Verif Require Import VecModel VecSpec VecProofs VecProps MatModel MatProofs.
Local Open Scope nat_scope.

(** ** C58: products *)
Section generic.
Context {T : Type} (N : num T).
Notation "0" := (n0 N). Notation "1" := (n1 N).
Local Infix "+" := (nadd N). Local Infix "*" := (nmul N). Local Infix "-" := (nsub N).

(** (A*B)[j][i] is the sum over k of A[k][i] * B[j][k]. *)
Theorem matrix_product : ∀ cols rows rows2 A B f g, denotes A cols rows f → denotes B rows2 cols g → ∃ C,
  mat_mul N cols rows rows2 A B = Some C ∧ denotes C rows2 rows (λ j i, sum N cols (λ k, f k i * g j k)).
Proof.
  intros cols rows rows2 A B f g HA HB. apply denotes_build in HA, HB. subst.
  eexists. split; [apply mat_mul_eq|]. by apply denotes_build.
Qed.
(** (A*v)[i] is the sum over k of A[k][i] * v[k]. *)
Theorem matrix_vector_product : ∀ cols rows A v f, denotes A cols rows f → length v = cols → ∃ r,
  mat_vec N cols rows A v = Some r ∧ length r = rows ∧
  ∀ i, i < rows → r !! i = Some (sum N cols (λ k, f k i * comp N v k)).
Proof.
  intros cols rows A v f HA <-. apply denotes_build in HA. subst.
  assert (Hv : v = vecf (length v) (comp N v)).
  { apply vecf_eq; [done|]. intros i Hi. unfold comp. by destruct (lookup_lt_is_Some_2 v i Hi) as [x ->]. }
  eexists. split; [rewrite Hv at 3; apply mat_vec_eq|]. split; [apply vecf_length|]. intros i Hi. by rewrite vecf_lookup.
Qed.
(** The default-constructed matrix has ones on the diagonal, Matrix(s) has s there. *)
Theorem matrix_diagonal : ∀ cols rows s, ∃ m, mat_fill N cols rows s = Some m ∧
  denotes m cols rows (λ j i, if j =? i then s else 0).
Proof. intros. eexists. split; [apply mat_fill_eq|]. by apply denotes_build. Qed.
Theorem matrix_default : ∀ cols rows, ∃ m, mat_default N cols rows = Some m ∧
  denotes m cols rows (λ j i, if j =? i then 1 else 0).
Proof. intros. apply matrix_diagonal. Qed.
Theorem matrix_of_3x3 : ∀ m f, denotes m 3 3 f → ∃ r, mat4_of_mat3 N m = Some r ∧
  denotes r 4 4 (λ j i, if (j <? 3) && (i <? 3) then f j i else if j =? i then 1 else 0).
Proof.
  intros m f Hm. apply denotes_build in Hm. subst. eexists. split; [done|]. apply denotes_build. done.
Qed.

(** ** C79: element-wise operators of matrices *)
Theorem matrix_op_entrywise : ∀ {U} op (cast : U → T) cols rows m w f g, denotes m cols rows f → denotes w cols rows g →
  ∃ r, mat_op N op cast cols rows m w = Some r ∧ mat_self op cast cols m w = Some r ∧
       denotes r cols rows (λ j i, op (f j i) (cast (g j i))).
Proof.
  intros U op cast cols rows m w f g Hm Hw. apply denotes_build in Hm, Hw. subst.
  eexists. split; [apply mat_op_eq|]. split; [apply mat_self_eq|]. by apply denotes_build.
Qed.
Theorem matrix_op_scalar_entrywise : ∀ {U} op (cast : U → T) cols rows m s f, denotes m cols rows f →
  ∃ r, mat_op_s N op cast cols rows m s = Some r ∧ mat_self_s op cast cols m s = Some r ∧
       denotes r cols rows (λ j i, op (f j i) (cast s)).
Proof.
  intros U op cast cols rows m s f Hm. apply denotes_build in Hm. subst.
  eexists. split; [apply mat_op_s_eq|]. split; [apply mat_self_s_eq|]. by apply denotes_build.
Qed.
Theorem matrix_neg_entrywise : ∀ cols rows m f, denotes m cols rows f →
  ∃ r, mat_neg N cols rows m = Some r ∧ denotes r cols rows (λ j i, nneg N (f j i)).
Proof.
  intros cols rows m f Hm. apply denotes_build in Hm. subst. eexists. split; [apply mat_neg_eq|]. by apply denotes_build.
Qed.
Theorem matrix_assign_entrywise : ∀ {U} (cast : U → T) cols rows m w f g, denotes m cols rows f → denotes w cols rows g →
  ∃ r, mat_assign cast cols m w = Some r ∧ denotes r cols rows (λ j i, cast (g j i)).
Proof.
  intros U cast cols rows m w f g Hm Hw. apply denotes_build in Hm, Hw. subst.
  exists (build cols rows (λ j i, cast (g j i))). split; [|by apply denotes_build].
  unfold mat_assign. apply for_columns. intros j m Hj L Hm. rewrite Hm. cbn [mbind option_bind].
  rewrite build_col by done. cbn [mbind option_bind]. rewrite vassign_eq by (by rewrite !vecf_length).
  cbn [mbind option_bind]. by rewrite map_vecf.
Qed.

(** ** C59: transpose, outer and Hadamard products, rows and columns *)
Theorem matrix_transpose : ∀ cols rows m f, denotes m cols rows f → ∃ t,
  transpose N cols rows m = Some t ∧ denotes t rows cols (λ j i, f i j) ∧ transpose N rows cols t = Some m.
Proof.
  intros cols rows m f Hm. apply denotes_build in Hm. subst. eexists. split; [apply transpose_eq|].
  split; [by apply denotes_build|]. apply transpose_eq.
Qed.
Theorem matrix_outer_product : ∀ u v, ∃ m, outer_product N u v = Some m ∧
  denotes m (length v) (length u) (λ j i, comp N u i * comp N v j).
Proof.
  intros u v.
  assert (H : ∀ v, v = vecf (length v) (comp N v)).
  { intros w. apply vecf_eq; [done|]. intros i Hi. unfold comp. by destruct (lookup_lt_is_Some_2 w i Hi) as [x ->]. }
  eexists. split; [rewrite (H u), (H v) at 1; apply outer_product_eq|]. by apply denotes_build.
Qed.
Theorem matrix_hadamard_product : ∀ cols rows m w f g, denotes m cols rows f → denotes w cols rows g →
  ∃ r, hadamard_product N cols rows m w = Some r ∧ denotes r cols rows (λ j i, f j i * g j i).
Proof.
  intros cols rows m w f g Hm Hw. apply denotes_build in Hm, Hw. subst.
  eexists. split; [apply hadamard_product_eq|]. by apply denotes_build.
Qed.
Theorem matrix_row : ∀ cols rows (m : list (list T)) f i, denotes m cols rows f → i < rows → ∃ r,
  mat_row cols rows m i = Some r ∧ length r = cols ∧ ∀ j, j < cols → r !! j = Some (f j i).
Proof.
  intros cols rows m f i Hm Hi. apply denotes_build in Hm. subst. eexists. split; [by apply mat_row_eq|].
  split; [apply vecf_length|]. intros j Hj. by apply (vecf_lookup cols (λ k, f k i)).
Qed.
Theorem matrix_column : ∀ cols rows (m : list (list T)) f j, denotes m cols rows f → j < cols → ∃ c,
  mat_column m j = Some c ∧ length c = rows ∧ ∀ i, i < rows → c !! i = Some (f j i).
Proof.
  intros cols rows m f j Hm Hj. apply denotes_build in Hm. subst. eexists. split; [by apply build_col|].
  split; [apply vecf_length|]. intros i Hi. by rewrite vecf_lookup.
Qed.

(** ** C77: comparison of matrices and quaternions *)
Theorem matrix_eq : ∀ (eqb : T → T → bool) (m w : list (list T)), mat_eq eqb m w = true ↔ Forall2 (Forall2 (λ x y, eqb x y = true)) m w.
Proof.
  intros eqb m w. unfold mat_eq. rewrite (vector_eq (veq eqb)). split; intros H; induction H; constructor; try done; by apply vector_eq.
Qed.
(** The entry that decides is the first one in the order of columns. *)
Theorem matrix_compare : ∀ (cmp : T → T → option comparison) cols rows m w f g,
  denotes m cols rows f → denotes w cols rows g →
  (mat_cmp cmp m w = Some Eq ∧ ∀ j i, j < cols → i < rows → cmp (f j i) (g j i) = Some Eq) ∨
  (∃ j i, j < cols ∧ i < rows ∧ cmp (f j i) (g j i) ≠ Some Eq ∧ mat_cmp cmp m w = cmp (f j i) (g j i) ∧
     ∀ j' i', j' < cols → i' < rows → (j' < j ∨ j' = j ∧ i' < i) → cmp (f j' i') (g j' i') = Some Eq).
Proof.
  intros cmp cols rows m w f g Hm Hw. apply denotes_build in Hm, Hw. subst. unfold mat_cmp.
  assert (Heq : ∀ j, vcmp cmp (vecf rows (f j)) (vecf rows (g j)) = Some Eq → ∀ i, i < rows → cmp (f j i) (g j i) = Some Eq).
  { intros j Hc. destruct (vector_compare cmp (vecf rows (f j)) (vecf rows (g j))) as [(_ & HF)|(i & x & y & _ & _ & Hne & Hr & _)]; [by rewrite !vecf_length| |congruence].
    intros i Hi. rewrite Forall2_lookup in HF. specialize (HF i). rewrite !vecf_lookup in HF by done. by inversion HF. }
  destruct (vector_compare (vcmp cmp) (build cols rows f) (build cols rows g)) as [(Hc & HF)|(j & x & y & Hx & Hy & Hne & Hr & Hb)].
  - unfold build. by rewrite !vecf_length.
  - left. split; [done|]. intros j i Hj Hi. apply Heq; [|done].
    rewrite Forall2_lookup in HF. specialize (HF j). rewrite !build_col in HF by done. by inversion HF.
  - right. assert (Hj : j < cols). { apply lookup_lt_Some in Hx. unfold build in Hx. by rewrite vecf_length in Hx. }
    rewrite build_col in Hx by done. rewrite build_col in Hy by done. simplify_eq. rewrite Hr in *.
    destruct (vector_compare cmp (vecf rows (f j)) (vecf rows (g j))) as [(? & _)|(i & x & y & Hx & Hy & Hne' & Hr' & Hb')]; [by rewrite !vecf_length|done|].
    assert (Hi : i < rows). { apply lookup_lt_Some in Hx. by rewrite vecf_length in Hx. }
    rewrite vecf_lookup in Hx by done. rewrite vecf_lookup in Hy by done. simplify_eq.
    exists j, i. split_and!; try done. intros j' i' Hj' Hi' [Hlt|[-> Hlt]].
    + apply Heq; [|done]. apply (Hb j' (vecf rows (f j')) (vecf rows (g j')) Hlt); by apply build_col.
    + apply (Hb' i' (f j i') (g j i') Hlt); by rewrite vecf_lookup.
Qed.
Theorem quaternion_eq : ∀ (eqb : T → T → bool) p q, qeq eqb p q = true ↔
  eqb (qw p) (qw q) = true ∧ eqb (qx p) (qx q) = true ∧ eqb (qy p) (qy q) = true ∧ eqb (qz p) (qz q) = true.
Proof. intros eqb p q. unfold qeq. rewrite !andb_true_iff. tauto. Qed.
Theorem quaternion_compare : ∀ (cmp : T → T → option comparison) p q,
  let v := [qw p; qx p; qy p; qz p] in let w := [qw q; qx q; qy q; qz q] in
  ((qcmp cmp p q = Some Eq ∧ Forall2 (λ x y, cmp x y = Some Eq) v w) ∨
   (∃ i x y, v !! i = Some x ∧ w !! i = Some y ∧ cmp x y ≠ Some Eq ∧ qcmp cmp p q = cmp x y ∧
     ∀ j x y, j < i → v !! j = Some x → w !! j = Some y → cmp x y = Some Eq)) ∧
  (∀ i, qindex p i = v !! i).
Proof.
  intros cmp [w x y z] [w' x' y' z'] v1 v2. split.
  { assert (E : qcmp cmp (Quat w x y z) (Quat w' x' y' z') = vcmp cmp v1 v2).
    { unfold qcmp, v1, v2. simpl. repeat (destruct (cmp _ _) as [[]|]; try done). }
    rewrite E. by apply (vector_compare cmp v1 v2). }
  intros i. by do 4 (destruct i as [|i]; [done|]).
Qed.
End generic.

(** ** Over a commutative ring *)
Section ring.
Context {T : Type} (N : num T) (RT : ring_theory (n0 N) (n1 N) (nadd N) (nmul N) (nsub N) (nneg N) eq).
Add Ring Tring : RT.
Local Notation zero := (n0 N). Local Notation one := (n1 N).
Local Infix "+" := (nadd N). Local Infix "*" := (nmul N). Local Infix "-" := (nsub N).

Theorem matrix_product_associative : ∀ a b c d A B C f g h,
  denotes A b a f → denotes B c b g → denotes C d c h → ∃ AB BC R,
  mat_mul N b a c A B = Some AB ∧ mat_mul N c b d B C = Some BC ∧
  mat_mul N c a d AB C = Some R ∧ mat_mul N b a d A BC = Some R.
Proof.
  intros a b c d A B C f g h HA HB HC. apply denotes_build in HA, HB, HC. subst.
  do 3 eexists. split; [apply mat_mul_eq|]. split; [apply mat_mul_eq|]. split; [apply mat_mul_eq|].
  rewrite mat_mul_eq. f_equal. apply build_ext. intros j i Hj Hi.
  rewrite (sum_ext N b _ (λ k, sum N c (λ l, f k i * (g l k * h j l)))) by (intros; symmetry; apply (sum_mul_l N RT)).
  rewrite (sum_swap N RT). apply sum_ext. intros l Hl. rewrite <- (sum_mul_r N RT). apply sum_ext. intros; ring.
Qed.
Theorem matrix_product_distributes : ∀ a b c A A' B B' f f' g g',
  denotes A b a f → denotes A' b a f' → denotes B c b g → denotes B' c b g' → ∃ AB A'B AB' R1 R2,
  mat_mul N b a c A B = Some AB ∧ mat_mul N b a c A' B = Some A'B ∧ mat_mul N b a c A B' = Some AB' ∧
  mat_op N (nadd N) id c a AB A'B = Some R1 ∧ mat_op N (nadd N) id c a AB AB' = Some R2 ∧
  (S ← mat_op N (nadd N) id b a A A'; mat_mul N b a c S B) = Some R1 ∧
  (S ← mat_op N (nadd N) id c b B B'; mat_mul N b a c A S) = Some R2.
Proof.
  intros a b c A A' B B' f f' g g' HA HA' HB HB'. apply denotes_build in HA, HA', HB, HB'. subst.
  do 5 eexists. split; [apply mat_mul_eq|]. split; [apply mat_mul_eq|]. split; [apply mat_mul_eq|].
  split; [apply mat_op_eq|]. split; [apply mat_op_eq|]. unfold id. rewrite !mat_op_eq. cbn [mbind option_bind].
  rewrite !mat_mul_eq. split; f_equal; apply build_ext; intros j i Hj Hi; rewrite <- (sum_add N RT); apply sum_ext; intros; ring.
Qed.
Theorem matrix_product_identity : ∀ a b A f, denotes A b a f → ∃ I J,
  mat_default N b b = Some I ∧ mat_default N a a = Some J ∧
  mat_mul N b a b A I = Some A ∧ mat_mul N a a b J A = Some A.
Proof.
  intros a b A f HA. apply denotes_build in HA. subst. do 2 eexists. split; [apply mat_default_eq|]. split; [apply mat_default_eq|].
  rewrite !mat_mul_eq. split; f_equal; apply build_ext; intros j i Hj Hi.
  - rewrite (sum_ext N b _ (λ k, if k =? j then f k i else zero)).
    + by apply (sum_delta N RT b j (λ k, f k i)).
    + intros k Hk. rewrite (Nat.eqb_sym k j). destruct (j =? k); ring.
  - rewrite (sum_ext N a _ (λ k, if k =? i then f j k else zero)).
    + by apply (sum_delta N RT a i (λ k, f j k)).
    + intros k Hk. destruct (k =? i); ring.
Qed.
(** The product with a vector is the action of the product of matrices. *)
Theorem matrix_vector_associative : ∀ a b c A B f g v,
  denotes A b a f → denotes B c b g → length v = c → ∃ AB Bv R,
  mat_mul N b a c A B = Some AB ∧ mat_vec N c b B v = Some Bv ∧
  mat_vec N c a AB v = Some R ∧ mat_vec N b a A Bv = Some R.
Proof.
  intros a b c A B f g v HA HB Hv. apply denotes_build in HA, HB. subst A B.
  assert (Hf : v = vecf c (comp N v)).
  { apply vecf_eq; [done|]. intros i Hi. unfold comp. destruct (lookup_lt_is_Some_2 v i) as [x ->]; [lia|done]. }
  rewrite Hf. do 3 eexists. split; [apply mat_mul_eq|]. split; [apply mat_vec_eq|]. split; [apply mat_vec_eq|].
  rewrite mat_vec_eq. f_equal. apply vecf_ext. intros i Hi.
  rewrite (sum_ext N b _ (λ k, sum N c (λ l, f k i * (g l k * comp N v l)))) by (intros; symmetry; apply (sum_mul_l N RT)).
  rewrite (sum_swap N RT). apply sum_ext. intros l Hl. rewrite <- (sum_mul_r N RT). apply sum_ext. intros; ring.
Qed.
(** transpose reverses products. *)
Theorem matrix_transpose_product : ∀ a b c A B f g, denotes A b a f → denotes B c b g → ∃ AB At Bt R,
  mat_mul N b a c A B = Some AB ∧ transpose N b a A = Some At ∧ transpose N c b B = Some Bt ∧
  transpose N c a AB = Some R ∧ mat_mul N b c a Bt At = Some R.
Proof.
  intros a b c A B f g HA HB. apply denotes_build in HA, HB. subst.
  do 4 eexists. split; [apply mat_mul_eq|]. split; [apply transpose_eq|]. split; [apply transpose_eq|]. split; [apply transpose_eq|].
  rewrite mat_mul_eq. f_equal. apply build_ext. intros j i Hj Hi. apply sum_ext. intros; ring.
Qed.

(** ** C60: determinants *)
Theorem determinant_laplace : ∀ m f,
  (denotes m 2 2 f → det2 N m = Some (laplace N 2 f)) ∧ (denotes m 3 3 f → det3 N m = Some (laplace N 3 f)) ∧
  (denotes m 4 4 f → det4 N m = Some (laplace N 4 f)).
Proof.
  intros m f. split_and!; intros Hm; apply denotes_build in Hm; subst.
  - unfold det2. cbn. unfold at_, minor. simpl. f_equal. unfold id. ring.
  - unfold det3. cbn. unfold at_, minor. simpl. f_equal. unfold id. ring.
  - unfold det4. cbn. unfold at_, minor. simpl. f_equal. unfold id. ring.
Qed.
(** The determinant of each size. *)
Definition det (n : nat) (m : list (list T)) : option T :=
  match n with 2 => det2 N m | 3 => det3 N m | 4 => det4 N m | _ => None end.
Lemma det_laplace n f : 2 ≤ n ≤ 4 → det n (build n n f) = Some (laplace N n f).
Proof.
  intros Hn. assert (n = 2 ∨ n = 3 ∨ n = 4) as [-> | [-> | ->]] by lia; apply determinant_laplace; by apply denotes_build.
Qed.
Theorem determinant_multiplicative : ∀ n A B f g, 2 ≤ n ≤ 4 → denotes A n n f → denotes B n n g → ∃ AB a b,
  mat_mul N n n n A B = Some AB ∧ det n A = Some a ∧ det n B = Some b ∧ det n AB = Some (a * b).
Proof.
  intros n A B f g Hn HA HB. apply denotes_build in HA, HB. subst. rewrite !det_laplace by done.
  do 3 eexists. split; [apply mat_mul_eq|]. split; [done|]. split; [done|]. rewrite det_laplace by done. f_equal.
  assert (n = 2 ∨ n = 3 ∨ n = 4) as [-> | [-> | ->]] by lia; cbn; unfold minor, id; cbn.
  - ring.
  - ring.
  - ring.
Qed.
Theorem determinant_transpose : ∀ n A f, 2 ≤ n ≤ 4 → denotes A n n f → ∃ At a,
  transpose N n n A = Some At ∧ det n A = Some a ∧ det n At = Some a.
Proof.
  intros n A f Hn HA. apply denotes_build in HA. subst. rewrite !det_laplace by done.
  do 2 eexists. split; [apply transpose_eq|]. split; [done|]. rewrite det_laplace by done. f_equal.
  assert (n = 2 ∨ n = 3 ∨ n = 4) as [-> | [-> | ->]] by lia; cbn; unfold minor, id; cbn; ring.
Qed.
Theorem determinant_identity : ∀ n, 2 ≤ n ≤ 4 → ∃ I, mat_default N n n = Some I ∧ det n I = Some one.
Proof.
  intros n Hn. eexists. split; [apply mat_default_eq|]. rewrite det_laplace by done. f_equal.
  assert (n = 2 ∨ n = 3 ∨ n = 4) as [-> | [-> | ->]] by lia; cbn; unfold minor, id; cbn; ring.
Qed.

(** ** C65: quaternions *)
Definition qzero : quat := Quat zero zero zero zero. Definition qone : quat := Quat one zero zero zero.
Definition qi : quat := Quat zero one zero zero. Definition qj : quat := Quat zero zero one zero.
Definition qk : quat := Quat zero zero zero one. Definition qminus1 : quat := Quat (nneg N one) zero zero zero.
(** The squared norm. *)
Definition qnorm2 (q : quat) : T := qw q * qw q + qx q * qx q + qy q * qy q + qz q * qz q.
Theorem quaternion_sum : ∀ w x y z w' x' y' z',
  qadd N (Quat w x y z) (Quat w' x' y' z') = Quat (w + w') (x + x') (y + y') (z + z') ∧
  qsub N (Quat w x y z) (Quat w' x' y' z') = Quat (w - w') (x - x') (y - y') (z - z').
Proof. done. Qed.
Theorem quaternion_ring : ∀ p q r,
  qmul N (qmul N p q) r = qmul N p (qmul N q r) ∧
  qmul N (qadd N p q) r = qadd N (qmul N p r) (qmul N q r) ∧
  qmul N p (qadd N q r) = qadd N (qmul N p q) (qmul N p r) ∧
  qmul N qone p = p ∧ qmul N p qone = p ∧ qadd N p q = qadd N q p ∧ qadd N (qsub N p q) q = p.
Proof.
  intros [] [] []. unfold qmul, qadd, qsub, qone. simpl. split_and!; f_equal; ring.
Qed.
Theorem quaternion_units :
  qmul N qi qi = qminus1 ∧ qmul N qj qj = qminus1 ∧ qmul N qk qk = qminus1 ∧ qmul N (qmul N qi qj) qk = qminus1.
Proof. unfold qmul, qi, qj, qk, qminus1. simpl. split_and!; f_equal; ring. Qed.
Theorem quaternion_norm : ∀ p q, qnorm2 (qmul N p q) = qnorm2 p * qnorm2 q.
Proof. intros [] []. unfold qnorm2, qmul. simpl. ring. Qed.
End ring.

(** ** Examples *)
Lemma denotes_example : denotes [[1; 2; 3]; [4; 5; 6]]%Z 2 3 (λ j i, Z.of_nat (1 + 3 * j + i)).
Proof. apply denotes_build. done. Qed.
Example matrix_product_ex :
  mat_mul znum 2 3 2 [[1; 2; 3]; [4; 5; 6]]%Z [[1; 0]; [10; 1]]%Z = Some [[1; 2; 3]; [14; 25; 36]]%Z ∧
  mat_mul znum 4 4 1 [[1; 2; 3; 4]; [0; 1; 0; 0]; [0; 0; 1; 0]; [5; 0; 0; 1]]%Z [[1; 2; 3; 4]]%Z = Some [[21; 4; 6; 8]]%Z.
Proof. done. Qed.
Example matrix_vector_product_ex :
  mat_vec znum 2 3 [[1; 2; 3]; [4; 5; 6]]%Z [10; 1]%Z = Some [14; 25; 36]%Z ∧
  mat_vec znum 4 4 [[1; 2; 3; 4]; [0; 1; 0; 0]; [0; 0; 1; 0]; [5; 0; 0; 1]]%Z [1; 2; 3; 4]%Z = Some [21; 4; 6; 8]%Z.
Proof. done. Qed.
Example matrix_diagonal_ex : mat_fill znum 2 3 7%Z = Some [[7; 0; 0]; [0; 7; 0]]%Z ∧
  mat_fill znum 4 4 7%Z = Some [[7; 0; 0; 0]; [0; 7; 0; 0]; [0; 0; 7; 0]; [0; 0; 0; 7]]%Z.
Proof. done. Qed.
Example matrix_default_ex : mat_default znum 3 2 = Some [[1; 0]; [0; 1]; [0; 0]]%Z. Proof. done. Qed.
Example matrix_of_3x3_ex : mat4_of_mat3 znum [[1; 2; 3]; [4; 5; 6]; [7; 8; 9]]%Z =
  Some [[1; 2; 3; 0]; [4; 5; 6; 0]; [7; 8; 9; 0]; [0; 0; 0; 1]]%Z.
Proof. done. Qed.
Example matrix_op_entrywise_ex :
  mat_op znum Z.sub id 2 2 [[1; 2]; [3; 4]]%Z [[5; 5]; [1; 1]]%Z = Some [[-4; -3]; [2; 3]]%Z ∧
  mat_self Z.sub id 2 [[1; 2]; [3; 4]]%Z [[5; 5]; [1; 1]]%Z = Some [[-4; -3]; [2; 3]]%Z.
Proof. done. Qed.
Example matrix_op_scalar_entrywise_ex :
  mat_op_s znum Z.mul Z.of_nat 2 3 [[1; 2; 3]; [4; 5; 6]]%Z 10 = Some [[10; 20; 30]; [40; 50; 60]]%Z ∧
  mat_self_s Z.mul Z.of_nat 2 [[1; 2; 3]; [4; 5; 6]]%Z 10 = Some [[10; 20; 30]; [40; 50; 60]]%Z.
Proof. done. Qed.
Example matrix_neg_entrywise_ex : mat_neg znum 2 3 [[1; 2; 3]; [4; 5; 6]]%Z = Some [[-1; -2; -3]; [-4; -5; -6]]%Z.
Proof. done. Qed.
Example matrix_assign_entrywise_ex : mat_assign Z.of_nat 2 [[0; 0]; [0; 0]]%Z [[1; 2]; [3; 4]] = Some [[1; 2]; [3; 4]]%Z.
Proof. done. Qed.
Example matrix_transpose_ex : transpose znum 2 3 [[1; 2; 3]; [4; 5; 6]]%Z = Some [[1; 4]; [2; 5]; [3; 6]]%Z. Proof. done. Qed.
Example matrix_outer_product_ex : outer_product znum [1; 2; 3]%Z [10; 100]%Z = Some [[10; 20; 30]; [100; 200; 300]]%Z. Proof. done. Qed.
Example matrix_hadamard_product_ex :
  hadamard_product znum 2 2 [[1; 2]; [3; 4]]%Z [[5; 6]; [7; 8]]%Z = Some [[5; 12]; [21; 32]]%Z.
Proof. done. Qed.
Example matrix_row_ex : mat_row 2 3 [[1; 2; 3]; [4; 5; 6]]%Z 1 = Some [2; 5]%Z. Proof. done. Qed.
Example matrix_column_ex : mat_column [[1; 2; 3]; [4; 5; 6]]%Z 1 = Some [4; 5; 6]%Z. Proof. done. Qed.
Example matrix_eq_ex : mat_eq Z.eqb [[1; 2]; [3; 4]]%Z [[1; 2]; [3; 4]]%Z = true ∧ mat_eq Z.eqb [[1; 2]; [3; 4]]%Z [[1; 2]; [3; 5]]%Z = false.
Proof. done. Qed.
Example matrix_compare_ex : mat_cmp (λ x y, Some (Z.compare x y)) [[1; 2]; [3; 4]]%Z [[1; 3]; [0; 0]]%Z = Some Lt. Proof. done. Qed.
Example quaternion_eq_ex : qeq Z.eqb (Quat 1 2 3 4)%Z (Quat 1 2 3 4)%Z = true ∧ qeq Z.eqb (Quat 1 2 3 4)%Z (Quat 1 2 0 4)%Z = false.
Proof. done. Qed.
Example quaternion_compare_ex : qcmp (λ x y, Some (Z.compare x y)) (Quat 1 2 3 4)%Z (Quat 1 3 0 0)%Z = Some Lt. Proof. done. Qed.
Example matrix_product_associative_ex : ∃ AB, mat_mul znum 2 3 2 [[1; 2; 3]; [4; 5; 6]]%Z [[1; 0]; [10; 1]]%Z = Some AB ∧
  mat_mul znum 2 3 1 AB [[1; 1]]%Z = Some [[15; 27; 39]]%Z.
Proof. eexists. split; [done|]. done. Qed.
Example matrix_product_distributes_ex :
  (S ← mat_op znum Z.add id 2 2 [[1; 2]; [3; 4]]%Z [[1; 0]; [0; 1]]%Z; mat_mul znum 2 2 1 S [[1; 1]]%Z) = Some [[5; 7]]%Z.
Proof. done. Qed.
Example matrix_product_identity_ex : (I ← mat_default znum 2 2; mat_mul znum 2 3 2 [[1; 2; 3]; [4; 5; 6]]%Z I) = Some [[1; 2; 3]; [4; 5; 6]]%Z.
Proof. done. Qed.
Example matrix_vector_associative_ex :
  (AB ← mat_mul znum 2 3 2 [[1; 2; 3]; [4; 5; 6]]%Z [[1; 0]; [10; 1]]%Z; mat_vec znum 2 3 AB [1; 1]%Z) =
  (Bv ← mat_vec znum 2 2 [[1; 0]; [10; 1]]%Z [1; 1]%Z; mat_vec znum 2 3 [[1; 2; 3]; [4; 5; 6]]%Z Bv).
Proof. done. Qed.
Example matrix_transpose_product_ex :
  (AB ← mat_mul znum 2 3 1 [[1; 2; 3]; [4; 5; 6]]%Z [[10; 1]]%Z; transpose znum 1 3 AB) = Some [[14]; [25]; [36]]%Z.
Proof. done. Qed.
Example determinant_laplace_ex : det2 znum [[1; 2]; [3; 4]]%Z = Some (-2)%Z ∧
  det3 znum [[2; 0; 1]; [1; 3; 2]; [1; 1; 4]]%Z = Some 18%Z ∧
  det4 znum [[2; 0; 1; 0]; [1; 3; 2; 0]; [1; 1; 4; 0]; [7; 8; 9; 10]]%Z = Some 180%Z.
Proof. done. Qed.
Example determinant_multiplicative_ex :
  (AB ← mat_mul znum 2 2 2 [[1; 2]; [3; 4]]%Z [[5; 6]; [7; 9]]%Z; det2 znum AB) = Some ((-2) * 3)%Z.
Proof. done. Qed.
Example determinant_transpose_ex :
  (t ← transpose znum 3 3 [[2; 0; 1]; [1; 3; 2]; [1; 1; 4]]%Z; det3 znum t) = Some 18%Z.
Proof. done. Qed.
Example determinant_identity_ex : (t ← mat_default znum 4 4; det4 znum t) = Some 1%Z. Proof. done. Qed.
Example quaternion_sum_ex : qadd znum (Quat 1 2 3 4)%Z (Quat 5 6 7 9)%Z = Quat 6%Z 8%Z 10%Z 13%Z. Proof. done. Qed.
Example quaternion_ring_ex : qmul znum (Quat 1 2 3 4)%Z (Quat 5 6 7 8)%Z = Quat (-60)%Z 12%Z 30%Z 24%Z. Proof. done. Qed.
Example quaternion_units_ex : qmul znum (qi znum) (qj znum) = qk znum ∧ qmul znum (qj znum) (qi znum) ≠ qk znum.
Proof. split; [done|]. by vm_compute. Qed.
Example quaternion_norm_ex : qnorm2 znum (Quat (-60) 12 30 24)%Z = (30 * 174)%Z. Proof. done. Qed.

Definition mat_theorems := (@matrix_product, @matrix_vector_product, @matrix_diagonal, @matrix_default, @matrix_of_3x3,
  @matrix_op_entrywise, @matrix_op_scalar_entrywise, @matrix_neg_entrywise, @matrix_assign_entrywise,
  @matrix_transpose, @matrix_outer_product, @matrix_hadamard_product, @matrix_row, @matrix_column,
  @matrix_eq, @matrix_compare, @quaternion_eq, @quaternion_compare, @matrix_product_associative,
  @matrix_product_distributes, @matrix_product_identity, @matrix_vector_associative, @matrix_transpose_product,
  @determinant_laplace, @determinant_multiplicative, @determinant_transpose, @determinant_identity,
  @quaternion_sum, @quaternion_ring, @quaternion_units, @quaternion_norm).
Print Assumptions mat_theorems.
