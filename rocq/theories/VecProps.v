(** Theorems about xme::math::Vector and its functions: properties C55, C56, C57,
    C66, C67, C76, C77 and the trigonometric part of C68. *)
From stdpp Require Import list list_numbers.
From Coq Require Import Lia ZArith Reals Lra Psatz Ring_theory Ring.
From Verif Require Import VecModel VecSpec VecProofs.
Local Open Scope nat_scope.

(** ** C55: arithmetic is component-wise, for every size and element type *)
Theorem vector_op_componentwise : ∀ {T U} (N : num T) op (cast : U → T) v w, length v = length w →
  vop N op cast v w = Some (zip_with (λ x y, op x (cast y)) v w).
Proof. intros. by apply vop_eq. Qed.
Theorem vector_op_scalar_componentwise : ∀ {T U} (N : num T) op (cast : U → T) v s,
  vop_s N op cast v s = Some (map (λ x, op x (cast s)) v).
Proof. intros. apply vop_s_eq. Qed.
Theorem vector_neg_componentwise : ∀ {T} (N : num T) v, vneg N v = Some (map (nneg N) v).
Proof. intros. apply vneg_eq. Qed.
Theorem vector_self_op_componentwise : ∀ {T U} op (cast : U → T) v w, length v = length w →
  vself op cast v w = Some (zip_with (λ x y, op x (cast y)) v w).
Proof. intros. by apply vself_eq. Qed.
Theorem vector_self_op_scalar_componentwise : ∀ {T U} op (cast : U → T) v s,
  vself_s op cast v s = Some (map (λ x, op x (cast s)) v).
Proof. intros. apply vself_s_eq. Qed.
(** The right operand may be the vector itself: v += v, v -= v, ... *)
Theorem vector_self_op_alias : ∀ {T} op (v : list T), vself_alias op v = Some (map (λ x, op x x) v).
Proof. intros. apply vself_alias_eq. Qed.
Theorem vector_assign_componentwise : ∀ {T U} (cast : U → T) v w, length v = length w →
  vassign cast v w = Some (map cast w).
Proof. intros. by apply vassign_eq. Qed.
(** operator[] reads component i; its assertion fails exactly outside the vector. *)
Theorem vector_index : ∀ {T} (v : list T) i, index v i = v !! i.
Proof.
  intros. unfold index. destruct (Nat.ltb_spec i (length v)); [done|]. by rewrite lookup_ge_None_2 by lia.
Qed.

Definition znum : num Z := Num 0%Z 1%Z Z.add Z.sub Z.mul Z.quot Z.opp.
Example vector_op_componentwise_ex :
  vop znum Z.sub Z.of_nat [10; 20; 30]%Z [1; 2; 3] = Some [9; 18; 27]%Z ∧
  vop znum Z.sub Z.of_nat [10; 20; 30; 40; 50]%Z [1; 2; 3; 4; 5] = Some [9; 18; 27; 36; 45]%Z.
Proof. done. Qed.
Example vector_op_scalar_componentwise_ex :
  vop_s znum Z.quot Z.of_nat [10; 20; 30; 40]%Z 3 = Some [3; 6; 10; 13]%Z.
Proof. done. Qed.
Example vector_neg_componentwise_ex : vneg znum [1; -2; 3; 4; 5; 6]%Z = Some [-1; 2; -3; -4; -5; -6]%Z.
Proof. done. Qed.
Example vector_self_op_componentwise_ex :
  vself Z.sub Z.of_nat [10; 20]%Z [1; 2] = Some [9; 18]%Z ∧
  vself Z.sub Z.of_nat [10; 20; 3; 4; 5]%Z [1; 2; 3; 4; 5] = Some [9; 18; 0; 0; 0]%Z.
Proof. done. Qed.
Example vector_self_op_scalar_componentwise_ex : vself_s Z.mul Z.of_nat [10; 20; 30]%Z 3 = Some [30; 60; 90]%Z.
Proof. done. Qed.
Example vector_self_op_alias_ex : vself_alias Z.mul [3; 4; 5]%Z = Some [9; 16; 25]%Z.
Proof. done. Qed.
Example vector_assign_componentwise_ex : vassign Z.of_nat [7; 7; 7; 7]%Z [1; 2; 3; 4] = Some [1; 2; 3; 4]%Z.
Proof. done. Qed.
Example vector_index_ex : index [5; 6; 7]%Z 2 = Some 7%Z ∧ index [5; 6; 7]%Z 3 = None.
Proof. done. Qed.

(** ** C76: constructors: the components are the arguments in order, each
    converted to the element type *)
Theorem vector_fill : ∀ {T U} (cast : U → T) (s : U),
  (∀ n, vecn_fill cast n s = replicate n (cast s)) ∧ vec2_fill cast s = replicate 2 (cast s) ∧
  vec3_fill cast s = replicate 3 (cast s) ∧ vec4_fill cast s = replicate 4 (cast s).
Proof. done. Qed.
Theorem vector_from_components : ∀ {T U} (N : num T) (cast : U → T),
  (∀ n args, length args = n → vecn_list N cast n args = Some (map cast args)) ∧
  (∀ n args i, length args ≤ n → ∃ r, vecn_list N cast n args = Some r ∧ length r = n ∧
     (length args ≤ i < n → r !! i = Some (n0 N)) ∧ ∀ x, args !! i = Some x → r !! i = Some (cast x)) ∧
  (∀ x y, vec2 cast cast x y = map cast [x; y]) ∧ (∀ x y z, vec3 cast x y z = map cast [x; y; z]) ∧
  (∀ x y z w, vec4 cast x y z w = map cast [x; y; z; w]).
Proof.
  intros T U N cast. split_and!; try done.
  - intros n args <-. unfold vecn_list. rewrite Nat.leb_refl, Nat.sub_diag. simpl. by rewrite app_nil_r.
  - intros n args i Hl. unfold vecn_list. destruct (Nat.leb_spec (length args) n); [|lia]. eexists. split; [done|]. split_and!.
    + rewrite app_length, map_length, replicate_length. lia.
    + intros Hi. rewrite lookup_app_r by (rewrite map_length; lia). rewrite map_length. apply lookup_replicate_2. lia.
    + intros x Hx. rewrite lookup_app_l by (rewrite map_length; by eapply lookup_lt_Some).
      rewrite list_lookup_fmap, Hx. done.
Qed.
(** Vectors as arguments contribute their components in place. *)
Theorem vector_from_parts : ∀ {T U} (cast : U → T) (s s' : U) (v w : list U),
  (length v = 2 → vec3_s_v cast s v = Some (map cast (s :: v))) ∧
  (length v = 2 → vec3_v_s cast v s = Some (map cast (v ++ [s]))) ∧
  (length v = 2 → vec4_s_s_v cast s s' v = Some (map cast (s :: s' :: v))) ∧
  (length v = 2 → vec4_s_v_s cast s v s' = Some (map cast (s :: v ++ [s']))) ∧
  (length v = 2 → vec4_v_s_s cast v s s' = Some (map cast (v ++ [s; s']))) ∧
  (length v = 2 → length w = 2 → vec4_v_v cast v w = Some (map cast (v ++ w))) ∧
  (length v = 3 → vec4_s_v3 cast s v = Some (map cast (s :: v))) ∧
  (length v = 3 → vec4_v3_s cast v s = Some (map cast (v ++ [s]))).
Proof.
  intros T U cast s s' v w. split_and!; destruct v as [|? [|? [|? [|? ?]]]]; try done.
  intros _. destruct w as [|? [|? [|? ?]]]; done.
Qed.
Theorem vector_convert : ∀ {T U} (cast : U → T) (v : list U),
  vecn_convert cast (length v) v = Some (map cast v) ∧
  (length v = 2 → vec2_convert cast v = Some (map cast v)) ∧
  (length v = 3 → vec3_convert cast v = Some (map cast v)) ∧
  (length v = 4 → vec4_convert cast v = Some (map cast v)).
Proof.
  intros T U cast v. split_and!; [|destruct v as [|? [|? [|? [|? [|? ?]]]]]; done..].
  unfold vecn_convert. apply for_fill_read; [by rewrite map_length|].
  intros i x r Hi L Hx. rewrite list_lookup_fmap in Hx. apply fmap_Some in Hx as (y & Hy & ->). by rewrite Hy.
Qed.
Example vector_fill_ex : vec3_fill Z.of_nat 5 = [5; 5; 5]%Z. Proof. done. Qed.
Example vector_from_components_ex :
  vecn_list znum Z.of_nat 5 [1; 2; 3] = Some [1; 2; 3; 0; 0]%Z ∧ vec4 Z.of_nat 1 2 3 4 = [1; 2; 3; 4]%Z.
Proof. done. Qed.
Example vector_from_parts_ex :
  vec4_s_v_s Z.of_nat 1 [2; 3] 4 = Some [1; 2; 3; 4]%Z ∧ vec4_v_v Z.of_nat [1; 2] [3; 4] = Some [1; 2; 3; 4]%Z ∧
  vec4_v3_s Z.of_nat [1; 2; 3] 4 = Some [1; 2; 3; 4]%Z.
Proof. done. Qed.
Example vector_convert_ex : vecn_convert Z.of_nat 5 [1; 2; 3; 4; 5] = Some [1; 2; 3; 4; 5]%Z.
Proof. done. Qed.

(** ** C77: comparison *)
(** == holds exactly if all components are equal. *)
Theorem vector_eq : ∀ {T} (eqb : T → T → bool) v w,
  veq eqb v w = true ↔ Forall2 (λ x y, eqb x y = true) v w.
Proof.
  intros T eqb v. induction v as [|x v IH]; intros [|y w]; simpl.
  - split; [constructor|done].
  - split; [done|intros H; inversion H].
  - split; [done|intros H; inversion H].
  - rewrite andb_true_iff, IH. split; [intros []; by constructor|intros H; inversion H; done].
Qed.
(** <=> is decided by the first components that are not equal. *)
Theorem vector_compare : ∀ {T} (cmp : T → T → option comparison) v w, length v = length w →
  (vcmp cmp v w = Some Eq ∧ Forall2 (λ x y, cmp x y = Some Eq) v w) ∨
  (∃ i x y, v !! i = Some x ∧ w !! i = Some y ∧ cmp x y ≠ Some Eq ∧ vcmp cmp v w = cmp x y ∧
     ∀ j x y, j < i → v !! j = Some x → w !! j = Some y → cmp x y = Some Eq).
Proof.
  intros T cmp v. induction v as [|x v IH]; intros [|y w] L; simpl; try done.
  - left. split; [done|constructor].
  - apply eq_add_S in L. destruct (decide (cmp x y = Some Eq)) as [E|E].
    + rewrite E. destruct (IH w L) as [(Hc & Hf)|(i & a & b & Ha & Hb & Hne & Hc & Hj)].
      * left. split; [done|by constructor].
      * right. exists (S i), a, b. split_and!; try done. intros [|j] a' b' Hlt H1 H2; simpl in *.
        -- congruence.
        -- apply (Hj j); [lia|done..].
    + right. exists 0, x, y. split_and!; try done; [|intros; lia].
      destruct (cmp x y) as [[]|]; done.
Qed.
Example vector_eq_ex : veq Z.eqb [1; 2; 3]%Z [1; 2; 3]%Z = true ∧ veq Z.eqb [1; 2; 3]%Z [1; 2; 4]%Z = false.
Proof. done. Qed.
Example vector_compare_ex :
  vcmp (λ x y, Some (Z.compare x y)) [1; 2; 9]%Z [1; 3; 0]%Z = Some Lt ∧
  vcmp (λ x y, Some (Z.compare x y)) [1; 2; 9]%Z [1; 2; 0]%Z = Some Gt.
Proof. done. Qed.

(** ** C56: dot and cross over a commutative ring *)
Section ring.
Context {T : Type} (N : num T) (RT : ring_theory (n0 N) (n1 N) (nadd N) (nmul N) (nsub N) (nneg N) eq).
Add Ring Tring : RT.
Local Infix "+" := (nadd N). Local Infix "*" := (nmul N). Local Infix "-" := (nsub N).

(** The value, and the order in which the products are added. *)
Theorem dot_value v w : length v = length w →
  dot N v w = Some (sum N (length v) (λ i, comp N v i * comp N w i)).
Proof. apply dot_eq. Qed.
Theorem dot_symmetric v w : length v = length w → is_Some (dot N v w) ∧ dot N v w = dot N w v.
Proof.
  intros L. rewrite !dot_eq by done. split; [eauto|]. rewrite L. f_equal. apply sum_ext. intros. ring.
Qed.
Theorem dot_bilinear u v w a b : length u = length w → length v = length w → ∃ d1 d2,
  dot N u w = Some d1 ∧ dot N v w = Some d2 ∧
  (au ← vscale N u a; bv ← vscale N v b; s ← vadd N au bv; dot N s w) = Some (d1 * a + d2 * b).
Proof.
  intros Lu Lv. rewrite !dot_eq by done. do 2 eexists. split; [done|]. split; [done|].
  rewrite !vscale_eq. simpl. rewrite vadd_eq by (rewrite !map_length; lia). simpl.
  rewrite dot_eq by (rewrite zip_with_length, !map_length; lia). f_equal.
  rewrite zip_with_length, !map_length, Lu, Lv, Nat.min_id.
  rewrite <- !(sum_mul_r N RT). rewrite <- (sum_add N RT). apply sum_ext. intros k Hk.
  rewrite comp_zip by (rewrite !map_length; lia). rewrite !comp_map by lia. ring.
Qed.
Theorem cross_orthogonal v w : length v = 3%nat → length w = 3%nat →
  ∃ c, cross N v w = Some c ∧ length c = 3%nat ∧ dot N v c = Some (n0 N) ∧ dot N w c = Some (n0 N).
Proof.
  intros Lv Lw. destruct v as [|? [|? [|? [|]]]]; try done. destruct w as [|? [|? [|? [|]]]]; try done.
  eexists. split; [done|]. split; [done|]. rewrite !dot_eq by done. unfold comp; simpl. split; f_equal; ring.
Qed.
Theorem cross_antisymmetric v w : length v = 3%nat → length w = 3%nat →
  is_Some (cross N w v) ∧ cross N w v = (c ← cross N v w; vneg N c).
Proof.
  intros Lv Lw. destruct v as [|? [|? [|? [|]]]]; try done. destruct w as [|? [|? [|? [|]]]]; try done.
  simpl. split; [eauto|]. repeat f_equal; ring.
Qed.
Theorem cross_lagrange v w : length v = 3%nat → length w = 3%nat → ∃ c vv ww vw,
  cross N v w = Some c ∧ dot N v v = Some vv ∧ dot N w w = Some ww ∧ dot N v w = Some vw ∧
  dot N c c = Some (vv * ww - vw * vw).
Proof.
  intros Lv Lw. destruct v as [|? [|? [|? [|]]]]; try done. destruct w as [|? [|? [|? [|]]]]; try done.
  rewrite !dot_eq by done. do 4 eexists. do 4 (split; [done|]). rewrite dot_eq by done. unfold comp; simpl. f_equal. ring.
Qed.
(** The right-hand rule, which fixes the sign. *)
Theorem cross_basis : let e1 := [n1 N; n0 N; n0 N] in let e2 := [n0 N; n1 N; n0 N] in let e3 := [n0 N; n0 N; n1 N] in
  cross N e1 e2 = Some e3 ∧ cross N e2 e3 = Some e1 ∧ cross N e3 e1 = Some e2.
Proof. simpl. split_and!; (f_equal; f_equal; [ring|]; f_equal; [ring|]; f_equal; ring). Qed.
(** cross is linear in its first argument, and by antisymmetry in the second. *)
Theorem cross_linear u v w a b : length u = 3%nat → length v = 3%nat → length w = 3%nat → ∃ x y,
  cross N u w = Some x ∧ cross N v w = Some y ∧
  (au ← vscale N u a; bv ← vscale N v b; s ← vadd N au bv; cross N s w) =
  (ax ← vscale N x a; b_y ← vscale N y b; vadd N ax b_y) ∧
  is_Some (ax ← vscale N x a; b_y ← vscale N y b; vadd N ax b_y).
Proof.
  intros Lu Lv Lw. destruct u as [|? [|? [|? [|]]]]; try done. destruct v as [|? [|? [|? [|]]]]; try done.
  destruct w as [|? [|? [|? [|]]]]; try done.
  do 2 eexists. split; [done|]. split; [done|]. split; [|eexists; done]. simpl. unfold id.
  rewrite vadd_eq by done. simpl. repeat f_equal; ring.
Qed.
End ring.
Lemma znum_ring : is_ring znum.
Proof. constructor; simpl; intros; unfold znum; simpl; lia. Qed.
Example dot_value_ex : dot znum [1; 2; 3]%Z [4; 5; 6]%Z = Some 32%Z. Proof. done. Qed.
Example dot_symmetric_ex : dot znum [1; 2; 3; 4; 5]%Z [4; 5; 6; 7; 8]%Z = dot znum [4; 5; 6; 7; 8]%Z [1; 2; 3; 4; 5]%Z.
Proof. apply (dot_symmetric znum znum_ring). done. Qed.
Example dot_bilinear_ex : ∃ d1 d2, dot znum [1; 2]%Z [5; 6]%Z = Some d1 ∧ dot znum [3; 4]%Z [5; 6]%Z = Some d2 ∧
  (au ← vscale znum [1; 2]%Z 10%Z; bv ← vscale znum [3; 4]%Z 20%Z; s ← vadd znum au bv; dot znum s [5; 6]%Z) = Some (d1 * 10 + d2 * 20)%Z.
Proof. apply (dot_bilinear znum znum_ring); done. Qed.
Example cross_orthogonal_ex : cross znum [1; 2; 3]%Z [4; 5; 7]%Z = Some [-1; 5; -3]%Z ∧ dot znum [1; 2; 3]%Z [-1; 5; -3]%Z = Some 0%Z.
Proof. done. Qed.
Example cross_antisymmetric_ex : cross znum [4; 5; 7]%Z [1; 2; 3]%Z = Some [1; -5; 3]%Z.
Proof. done. Qed.
Example cross_lagrange_ex : dot znum [-1; 5; -3]%Z [-1; 5; -3]%Z = Some (14 * 90 - 35 * 35)%Z.
Proof. done. Qed.
Example cross_basis_ex : cross znum [0; 1; 0]%Z [0; 0; 1]%Z = Some [1; 0; 0]%Z. Proof. done. Qed.
Example cross_linear_ex : cross znum [7; 16; 27]%Z [1; 1; 2]%Z = Some [5; 13; -9]%Z. Proof. done. Qed.

(** ** C57: length, distance, normalize and reflect over the reals *)
Definition rnum : num R := Num 0%R 1%R Rplus Rminus Rmult Rdiv Ropp.
Lemma rnum_ring : is_ring rnum.
Proof. constructor; unfold rnum; simpl; intros; ring. Qed.
Local Open Scope R_scope.
(** The sum of the squares. *)
Definition sq (v : list R) : R := foldr (λ x s, x * x + s) 0 v.
Lemma sum_sq_app v x : sum rnum (length v) (λ i, comp rnum (v ++ [x]) i * comp rnum (v ++ [x]) i) =
  sum rnum (length v) (λ i, comp rnum v i * comp rnum v i).
Proof. apply sum_ext. intros k Hk. unfold comp. rewrite lookup_app_l by done. done. Qed.
Lemma sq_app v w : sq (v ++ w) = sq v + sq w.
Proof. induction v as [|x v IH]; simpl; [lra|]. fold (sq (v ++ w)). rewrite IH. unfold sq. simpl. lra. Qed.
Lemma sum_sq v : sum rnum (length v) (λ i, comp rnum v i * comp rnum v i) = sq v.
Proof.
  induction v as [|x v IH] using rev_ind; [done|]. rewrite app_length, Nat.add_1_r, sq_app. simpl.
  rewrite sum_sq_app, IH. unfold comp. rewrite lookup_app_r, Nat.sub_diag by done. simpl. unfold sq. simpl. lra.
Qed.
Lemma sq_nonneg v : 0 <= sq v.
Proof. induction v as [|x v IH]; simpl; [lra|]. fold (sq v). pose proof (Rle_0_sqr x). unfold Rsqr in *. lra. Qed.
Lemma sq_zero v : sq v = 0 → v = replicate (length v) 0.
Proof.
  induction v as [|x v IH]; simpl; [done|]. fold (sq v). intros H. pose proof (sq_nonneg v). pose proof (Rle_0_sqr x).
  unfold Rsqr in *. f_equal; [nra|]. apply IH. lra.
Qed.
Lemma dot_self v : dot rnum v v = Some (sq v).
Proof. rewrite dot_eq by done. f_equal. apply sum_sq. Qed.
(** Both length() and length(v) are the Euclidean norm. *)
Theorem length_euclidean : ∀ v, vlength rnum sqrt v = Some (sqrt (sq v)) ∧ length_ rnum sqrt v = Some (sqrt (sq v)).
Proof.
  intros v. split; [|unfold length_; by rewrite dot_self].
  assert (Hn : vecn_length rnum sqrt v = Some (sqrt (sq v))).
  { unfold vecn_length. rewrite (for_sum rnum _ (λ i, comp rnum v i * comp rnum v i)).
    - simpl. f_equal. f_equal. apply sum_sq.
    - intros i acc Hi. rewrite !(index_comp rnum) by done. done. }
  destruct v as [|? [|? [|? [|? [|]]]]]; try done; simpl; f_equal; f_equal; simpl; lra.
Qed.
(** Cauchy-Schwarz *)
Definition inner (v w : list R) : R := foldr Rplus 0 (zip_with Rmult v w).
Lemma cauchy_schwarz v : ∀ w, inner v w * inner v w <= sq v * sq w.
Proof.
  induction v as [|a v IH]; intros [|b w]; unfold inner, sq; simpl; try lra.
  fold (inner v w) (sq v) (sq w). specialize (IH w). pose proof (sq_nonneg v) as HA. pose proof (sq_nonneg w) as HB.
  generalize dependent (sq v). generalize dependent (sq w). generalize (inner v w). intros C B HB A IH HA.
  assert (H : 2 * (a * b * C) <= A * (b * b) + a * a * B); [|nra].
  assert (H0 : 0 <= A * (b * b) + a * a * B) by nra.
  destruct (Rle_lt_dec (2 * (a * b * C)) 0); [lra|].
  apply Rsqr_incr_0; [|lra|lra]. unfold Rsqr.
  assert (HC : (a * b) * (a * b) * (C * C) <= (a * b) * (a * b) * (A * B)).
  { apply Rmult_le_compat_l; [nra|done]. }
  pose proof (Rle_0_sqr (A * (b * b) - a * a * B)). unfold Rsqr in *. nra.
Qed.
Lemma sq_add v : ∀ w, length v = length w → sq (zip_with Rplus v w) = sq v + 2 * inner v w + sq w.
Proof.
  induction v as [|a v IH]; intros [|b w] L; try done; unfold inner, sq; simpl; [lra|].
  fold (sq (zip_with Rplus v w)) (inner v w) (sq v) (sq w). rewrite IH by (simpl in L; lia). lra.
Qed.
Lemma norm_triangle v w : length v = length w → sqrt (sq (zip_with Rplus v w)) <= sqrt (sq v) + sqrt (sq w).
Proof.
  intros L. rewrite sq_add by done. pose proof (cauchy_schwarz v w). pose proof (sq_nonneg v) as HA. pose proof (sq_nonneg w) as HB.
  pose proof (sqrt_pos (sq v)). pose proof (sqrt_pos (sq w)).
  apply Rsqr_incr_0_var; [|lra]. rewrite Rsqr_sqrt by (rewrite <- sq_add by done; apply sq_nonneg).
  rewrite Rsqr_plus, !Rsqr_sqrt by done.
  assert (inner v w <= sqrt (sq v) * sqrt (sq w)); [|lra].
  rewrite <- sqrt_mult by done. destruct (Rle_lt_dec (inner v w) 0); [pose proof (sqrt_pos (sq v * sq w)); lra|].
  rewrite <- (sqrt_square (inner v w)) by lra. apply sqrt_le_1; nra.
Qed.
Lemma distance_eq v w : length v = length w → distance rnum sqrt v w = Some (sqrt (sq (zip_with Rminus w v))).
Proof. intros L. unfold distance. rewrite vsub_eq by done. simpl. apply length_euclidean. Qed.
(** distance is the length of the difference. *)
Theorem distance_euclidean : ∀ v w, length v = length w →
  distance rnum sqrt v w = Some (sqrt (foldr Rplus 0 (zip_with (λ x y, (x - y) ^ 2) v w))).
Proof.
  intros v w L. rewrite distance_eq by done. do 2 f_equal. revert w L.
  induction v as [|x v IH]; intros [|y w] L; [done..|]. simpl in *. rewrite (IH w) by lia. ring.
Qed.
Example distance_euclidean_ex : distance rnum sqrt [1; 1; 0] [4; 5; 0] = Some 5.
Proof.
  rewrite distance_euclidean by done. simpl. f_equal. replace (_ + _) with (5 * 5) by ring. apply sqrt_square. lra.
Qed.
(** distance is a metric on the vectors of each size. *)
Theorem distance_metric : ∀ u v w, length u = length v → length v = length w → ∃ duv duw dvw,
  distance rnum sqrt u v = Some duv ∧ distance rnum sqrt v u = Some duv ∧
  distance rnum sqrt v w = Some dvw ∧ distance rnum sqrt u w = Some duw ∧
  0 <= duv ∧ (duv = 0 ↔ u = v) ∧ duw <= duv + dvw.
Proof.
  intros u v w L1 L2. rewrite !distance_eq by lia. do 3 eexists. split; [done|]. split_and!; try done.
  - f_equal. f_equal. clear L2 w. revert v L1. induction u as [|a u IH]; intros [|b v] L; try done.
    unfold sq. simpl. fold (sq (zip_with Rminus u v)) (sq (zip_with Rminus v u)). rewrite IH by (simpl in L; lia). lra.
  - apply sqrt_pos.
  - split.
    + intros H. apply sqrt_eq_0 in H; [|apply sq_nonneg]. clear L2 w. revert v L1 H. induction u as [|a u IH]; intros [|b v] L H; try done.
      unfold sq in H. simpl in H. fold (sq (zip_with Rminus v u)) in H. pose proof (sq_nonneg (zip_with Rminus v u)).
      pose proof (Rle_0_sqr (b - a)). unfold Rsqr in *. f_equal; [nra|]. apply IH; [by simpl in L; lia|lra].
    + intros ->. replace (sq (zip_with Rminus v v)) with 0; [apply sqrt_0|]. clear. induction v as [|a v IH]; [done|].
      unfold sq. simpl. fold (sq (zip_with Rminus v v)). rewrite <- IH. lra.
  - rewrite Rplus_comm. replace (zip_with Rminus w u) with (zip_with Rplus (zip_with Rminus w v) (zip_with Rminus v u)).
    + apply norm_triangle. rewrite !zip_with_length. lia.
    + revert v w L1 L2. induction u as [|a u IH]; intros [|b v] [|c w] L1 L2; try done. simpl. f_equal; [lra|].
      apply IH; simpl in *; lia.
Qed.
Lemma sq_scale v k : sq (map (λ x, x * k) v) = sq v * (k * k).
Proof. induction v as [|a v IH]; unfold sq; simpl; [lra|]. fold (sq v) (sq (map (λ x, x * k) v)). rewrite IH. lra. Qed.
(** The normalised vector has length 1 and the same direction: it is the vector
    times a positive factor. Both normalize() and normalize(v). *)
Theorem normalize_unit : ∀ v, (∃ x, x ∈ v ∧ x ≠ 0) → ∃ r k,
  vnormalize rnum sqrt v = Some r ∧ normalize rnum sqrt v = Some r ∧
  vlength rnum sqrt r = Some 1 ∧ 0 < k ∧ r = map (λ x, x * k) v.
Proof.
  intros v (x & Hx & Hne). unfold vnormalize, normalize.
  destruct (length_euclidean v) as [-> ->]. simpl. rewrite !vscale_eq. simpl.
  assert (Hpos : 0 < sq v).
  { destruct (Rle_lt_or_eq_dec 0 (sq v) (sq_nonneg v)) as [|E]; [done|].
    symmetry in E. apply sq_zero in E. rewrite E in Hx. apply elem_of_replicate in Hx as [-> _]. done. }
  assert (Hs := sqrt_lt_R0 _ Hpos).
  eexists _, (1 / sqrt (sq v)). split; [done|]. split; [done|]. split_and!; [| |done].
  - destruct (length_euclidean (map (λ x, x * (1 / sqrt (sq v))) v)) as [-> _]. f_equal. rewrite sq_scale.
    replace (sq v * (1 / sqrt (sq v) * (1 / sqrt (sq v)))) with 1; [apply sqrt_1|].
    rewrite <- (sqrt_sqrt (sq v)) at 1 by lra. field. lra.
  - unfold Rdiv. rewrite Rmult_1_l. by apply Rinv_0_lt_compat.
Qed.
Lemma inner_sum v w : length v = length w → dot rnum v w = Some (inner v w).
Proof.
  intros L. rewrite dot_eq by done. f_equal. revert w L. induction v as [|x v IH] using rev_ind; intros w L.
  - by destruct w.
  - destruct w as [|y w _] using rev_ind; [rewrite app_length in L; simpl in L; lia|].
    rewrite !app_length in L. simpl in L. rewrite app_length, Nat.add_1_r. cbn [sum].
    unfold inner. rewrite zip_with_app by lia. rewrite foldr_app. simpl.
    rewrite (sum_ext rnum (length v) _ (λ i, nmul rnum (comp rnum v i) (comp rnum w i))).
    + rewrite (IH w) by lia. unfold comp. rewrite !lookup_app_r by lia. replace (length v - length v)%nat with 0%nat by lia.
      replace (length v - length w)%nat with 0%nat by lia. simpl. unfold inner. generalize (zip_with Rmult v w). clear.
      induction l as [|z l IH]; simpl; lra.
    + intros k Hk. unfold comp. rewrite !lookup_app_l by lia. done.
Qed.
Lemma reflect_eq v n : length v = length n →
  reflect rnum 2 v n = Some (zip_with (λ x y, x - y * inner v n * 2) v n).
Proof.
  intros L. unfold reflect. rewrite inner_sum by done. simpl. rewrite !vscale_eq. simpl. rewrite vscale_eq. simpl.
  rewrite vsub_eq by (rewrite !map_length; done). f_equal. rewrite map_map.
  generalize (inner v n) as d. intros d. revert n L. induction v as [|a v IH]; intros [|b n] L; try done. simpl. f_equal.
  apply IH. simpl in L; lia.
Qed.
Lemma inner_reflect v n d : length v = length n → inner (zip_with (λ x y, x - y * d * 2) v n) n = inner v n - 2 * d * sq n.
Proof.
  revert n. induction v as [|a v IH]; intros [|b n] L; try done; unfold inner, sq; simpl; [lra|].
  fold (inner v n) (sq n) (inner (zip_with (λ x y, x - y * d * 2) v n) n). rewrite IH by (simpl in L; lia). lra.
Qed.
Lemma sq_reflect v n d : length v = length n →
  sq (zip_with (λ x y, x - y * d * 2) v n) = sq v - 4 * d * inner v n + 4 * d * d * sq n.
Proof.
  revert n. induction v as [|a v IH]; intros [|b n] L; try done; unfold inner, sq; simpl; [lra|].
  fold (inner v n) (sq n) (sq v) (sq (zip_with (λ x y, x - y * d * 2) v n)). rewrite IH by (simpl in L; lia). lra.
Qed.
(** Reflecting about a unit normal: mirrors (the component along the normal
    changes its sign and the rest of the vector is unchanged), is an involution and
    preserves the length. *)
Theorem reflect_unit_normal : ∀ v n, length v = length n → vlength rnum sqrt n = Some 1 → ∃ r l d,
  reflect rnum 2 v n = Some r ∧ reflect rnum 2 r n = Some v ∧
  vlength rnum sqrt v = Some l ∧ vlength rnum sqrt r = Some l ∧
  dot rnum v n = Some d ∧ dot rnum r n = Some (- d) ∧
  ∃ p, (* the projection to the mirror plane, of v and of r *)
    p = zip_with (λ x y, x - d * y) v n ∧ p = zip_with (λ x y, x - (- d) * y) r n.
Proof.
  intros v n L Hn. destruct (length_euclidean n) as [Hl _]. rewrite Hl in Hn. injection Hn as Hn.
  assert (Hsq : sq n = 1). { rewrite <- (sqrt_sqrt (sq n)) by apply sq_nonneg. rewrite Hn. lra. }
  assert (L' : length (zip_with (λ x y, x - y * inner v n * 2) v n) = length n) by (rewrite zip_with_length; lia).
  rewrite reflect_eq by done. do 3 eexists. split; [done|].
  rewrite reflect_eq by done. rewrite inner_reflect by done. rewrite Hsq.
  destruct (length_euclidean v) as [-> _]. destruct (length_euclidean (zip_with (λ x y, x - y * inner v n * 2) v n)) as [-> _].
  rewrite !inner_sum by done. rewrite sq_reflect, inner_reflect, Hsq by done. split_and!; try done.
  - f_equal. generalize (inner v n) as d. intros d. clear -L. revert n L. induction v as [|a v IH]; intros [|b n] L; try done.
    simpl. f_equal; [lra|]. apply IH. simpl in L; lia.
  - f_equal. f_equal. lra.
  - f_equal. lra.
  - eexists. split; [done|]. generalize (inner v n) as d. intros d. clear -L. revert n L. induction v as [|a v IH]; intros [|b n] L; try done.
    simpl. f_equal; [lra|]. apply IH. simpl in L; lia.
Qed.
Example length_euclidean_ex : vlength rnum sqrt [3; 4] = Some 5.
Proof.
  destruct (length_euclidean [3; 4]) as [-> _]. f_equal. unfold sq. simpl. replace (3 * 3 + (4 * 4 + 0)) with (5 * 5) by lra.
  apply sqrt_square. lra.
Qed.
Example distance_metric_ex : distance rnum sqrt [1; 1; 0; 0; 2] [1; 4; 0; 4; 2] = Some 5.
Proof.
  rewrite distance_eq by done. f_equal. unfold sq. simpl. match goal with |- sqrt ?x = _ => replace x with (5 * 5) by lra end.
  apply sqrt_square. lra.
Qed.
Example normalize_unit_ex : ∃ x : R, x ∈ [0; 4; 0] ∧ x ≠ 0.
Proof. exists 4. split; [apply elem_of_cons; right; apply elem_of_cons; by left|lra]. Qed.
Example reflect_unit_normal_ex : vlength rnum sqrt [0; 1] = Some 1 ∧ reflect rnum 2 [3; 4] [0; 1] = Some [3; -4].
Proof.
  split.
  - destruct (length_euclidean [0; 1]) as [-> _]. f_equal. unfold sq. simpl. replace (0 * 0 + (1 * 1 + 0)) with 1 by lra. apply sqrt_1.
  - rewrite reflect_eq by done. unfold inner. simpl. f_equal. f_equal; [lra|]. f_equal. lra.
Qed.

(** ** C66: lerp and sign *)
(** lerp over the reals: on the line from [v1] to [v2]. *)
Definition rlerp := lerp rnum Datatypes.id Datatypes.id (λ p : R, 1 - p).
Theorem lerp_affine : ∀ v1 v2 p, length v1 = length v2 →
  rlerp v1 v2 p = Some (zip_with (λ x y, x + (y - x) * p) v1 v2).
Proof.
  intros v1 v2 p L. unfold rlerp, lerp. rewrite !vop_s_eq. simpl. rewrite vadd_eq by (rewrite !map_length; done). f_equal.
  revert v2 L. induction v1 as [|x v1 IH]; intros [|y v2] L; try done. simpl. f_equal; [unfold Datatypes.id; lra|]. apply IH. simpl in L; lia.
Qed.
Theorem lerp_endpoints : ∀ v1 v2, length v1 = length v2 → rlerp v1 v2 0 = Some v1 ∧ rlerp v1 v2 1 = Some v2.
Proof.
  intros v1 v2 L. rewrite !lerp_affine by done. split; f_equal; revert v2 L;
    (induction v1 as [|x v1 IH]; intros [|y v2] L; try done; simpl; f_equal; [lra|apply IH; simpl in L; lia]).
Qed.
Theorem lerp_between : ∀ v1 v2 p r i x y, length v1 = length v2 → 0 <= p <= 1 → rlerp v1 v2 p = Some r →
  v1 !! i = Some x → v2 !! i = Some y → ∃ z, r !! i = Some z ∧ Rmin x y <= z <= Rmax x y.
Proof.
  intros v1 v2 p r i x y L Hp Hr Hx Hy. rewrite lerp_affine in Hr by done. injection Hr as <-.
  rewrite lookup_zip_with, Hx. simpl. rewrite Hy. simpl. eexists. split; [done|].
  unfold Rmin, Rmax. destruct (Rle_dec x y); nra.
Qed.
(** The same for every commutative ring and both forms: with one parameter, and
    with one parameter per component. *)
Section lerp_ring.
Context {T : Type} (N : num T) (RT : ring_theory (n0 N) (n1 N) (nadd N) (nmul N) (nsub N) (nneg N) eq).
Add Ring Tring' : RT.
Theorem lerp_ring v1 v2 p : length v1 = length v2 →
  lerp N Datatypes.id Datatypes.id (nsub N (n1 N)) v1 v2 p = Some (zip_with (λ x y, nadd N x (nmul N (nsub N y x) p)) v1 v2).
Proof.
  intros L. unfold lerp. rewrite !vop_s_eq. simpl. rewrite vadd_eq by (rewrite !map_length; done). f_equal.
  revert v2 L. induction v1 as [|x v1 IH]; intros [|y v2] L; try done. simpl. f_equal; [unfold Datatypes.id; ring|]. apply IH. simpl in L; lia.
Qed.
Theorem lerp_per_component v1 v2 ps : length v1 = length v2 → length v1 = length ps → ∃ r,
  lerp_v N Datatypes.id Datatypes.id (nsub N (n1 N)) v1 v2 ps = Some r ∧ length r = length v1 ∧
  ∀ i x y p, v1 !! i = Some x → v2 !! i = Some y → ps !! i = Some p →
    r !! i = Some (nadd N x (nmul N (nsub N y x) p)).
Proof.
  intros L1 L2. exists (zip_with (λ xy p, nadd N xy.1 (nmul N (nsub N xy.2 xy.1) p)) (zip v1 v2) ps). split_and!.
  - unfold lerp_v. apply for_fill_read; [rewrite !zip_with_length; lia|].
    intros i z r Hi L Hz. rewrite lookup_zip_with in Hz. apply bind_Some in Hz as (xy & Hxy & Hz).
    apply bind_Some in Hz as (p & Hp & Hz). injection Hz as <-. rewrite lookup_zip_with in Hxy.
    apply bind_Some in Hxy as (x & Hx & Hxy). apply bind_Some in Hxy as (y & Hy & Hxy). injection Hxy as <-.
    rewrite Hp. simpl. rewrite (index_lookup _ _ _ Hy). simpl. rewrite (index_lookup _ _ _ Hx). simpl. f_equal. f_equal.
    unfold Datatypes.id. ring.
  - rewrite !zip_with_length. lia.
  - intros i x y p Hx Hy Hp. rewrite lookup_zip_with. rewrite lookup_zip_with, Hx. simpl. rewrite Hy. simpl. rewrite Hp. done.
Qed.
End lerp_ring.
(** The bool forms select, without any arithmetic. *)
Theorem lerp_bool_selects : ∀ {T} (v1 v2 : list T) (ps : list bool),
  lerp_bool v1 v2 true = v2 ∧ lerp_bool v1 v2 false = v1 ∧
  (length v1 = length v2 → length v1 = length ps → ∃ r, lerp_v_bool v1 v2 ps = Some r ∧ length r = length v1 ∧
   ∀ i p, ps !! i = Some p → r !! i = (if p : bool then v2 else v1) !! i).
Proof.
  intros T v1 v2 ps. split; [done|]. split; [done|]. intros L1 L2.
  exists (zip_with (λ xy (p : bool), if p then xy.2 else xy.1) (zip v1 v2) ps). split_and!.
  - unfold lerp_v_bool. apply for_fill_read; [rewrite !zip_with_length; lia|].
    intros i z r Hi L Hz. rewrite lookup_zip_with in Hz. apply bind_Some in Hz as (xy & Hxy & Hz).
    apply bind_Some in Hz as (p & Hp & Hz). injection Hz as <-. rewrite lookup_zip_with in Hxy.
    apply bind_Some in Hxy as (x & Hx & Hxy). apply bind_Some in Hxy as (y & Hy & Hxy). injection Hxy as <-.
    rewrite Hp. simpl. rewrite (index_lookup _ _ _ Hy). simpl. rewrite (index_lookup _ _ _ Hx). done.
  - rewrite !zip_with_length. lia.
  - intros i p Hp. assert (Hi := lookup_lt_Some _ _ _ Hp).
    destruct (lookup_lt_is_Some_2 v1 i) as [x Hx]; [lia|]. destruct (lookup_lt_is_Some_2 v2 i) as [y Hy]; [lia|].
    rewrite lookup_zip_with. rewrite lookup_zip_with, Hx. simpl. rewrite Hy. simpl. rewrite Hp. by destruct p.
Qed.
(** mix is the same with GLSL's name: mix(v1, v2, 0) is v1. *)
Theorem mix_interpolates : ∀ v1 v2 (p : R) (ps : list R), length v1 = length v2 → length v1 = length ps →
  mix rnum Datatypes.id Datatypes.id (λ p : R, 1 - p) v1 v2 p = Some (zip_with (λ x y, x + (y - x) * p) v1 v2) ∧
  mix_v rnum Datatypes.id Datatypes.id (λ p : R, 1 - p) v1 v2 ps =
    Some (zip_with (λ xy p, xy.1 + (xy.2 - xy.1) * p) (zip v1 v2) ps).
Proof.
  intros v1 v2 p ps L Lp. split; [by apply lerp_affine|]. unfold mix_v.
  destruct (lerp_per_component rnum rnum_ring v1 v2 ps L Lp) as (r & Hr & Lr & Hi).
  change (nsub rnum (n1 rnum)) with (λ p : R, 1 - p) in Hr. rewrite Hr. f_equal.
  apply list_eq_same_length with (length v1); [|done|].
  { rewrite zip_with_length, zip_with_length. lia. }
  intros i x y Hlt Hx Hy. apply lookup_zip_with_Some in Hy as ([a b] & q & -> & Hab & Hq).
  apply lookup_zip_with_Some in Hab as (a' & b' & [= <- <-] & Ha & Hb).
  rewrite (Hi i a b q Ha Hb Hq) in Hx. by injection Hx as <-.
Qed.
Theorem mix_selects : ∀ {T} (v1 v2 : list T) (ps : list bool),
  mix_bool v1 v2 true = v2 ∧ mix_bool v1 v2 false = v1 ∧
  (length v1 = length v2 → length v1 = length ps → ∃ r, mix_v_bool v1 v2 ps = Some r ∧ length r = length v1 ∧
   ∀ i p, ps !! i = Some p → r !! i = (if p : bool then v2 else v1) !! i).
Proof. intros. apply lerp_bool_selects. Qed.
Example mix_interpolates_ex : mix rnum Datatypes.id Datatypes.id (λ p : R, 1 - p) [0; 10] [4; 20] (1/2) = Some [2; 15].
Proof. unfold mix. change (rlerp [0; 10] [4; 20] (1/2) = Some [2; 15]). rewrite lerp_affine by done. simpl. f_equal. f_equal; [lra|]. f_equal. lra. Qed.
Example mix_selects_ex : mix_v_bool [1; 2; 3]%Z [5; 6; 7]%Z [true; false; true] = Some [5; 2; 7]%Z.
Proof. done. Qed.
(** sign: -1, 0 or 1. The comparison of reals. *)
Definition Rltb (x y : R) : bool := if Rlt_dec x y then true else false.
Theorem sign_real : ∀ n, let s := sign rnum Rltb IZR n in
  (n < 0 → s = -1) ∧ (n = 0 → s = 0) ∧ (0 < n → s = 1) ∧ n = s * Rabs n.
Proof.
  intros n. unfold sign, Rltb; simpl. destruct (Rlt_dec 0 n), (Rlt_dec n 0); rewrite minus_IZR; simpl; unfold Rabs; destruct (Rcase_abs n); split_and!; intros; try lra.
Qed.
Theorem sign_integer : ∀ n : Z, sign znum Z.ltb Datatypes.id n = Z.sgn n ∧ n = (sign znum Z.ltb Datatypes.id n * Z.abs n)%Z.
Proof.
  intros n. assert (H : sign znum Z.ltb Datatypes.id n = Z.sgn n).
  { unfold sign, Datatypes.id; simpl. destruct (Z.ltb_spec 0 n), (Z.ltb_spec n 0); simpl; destruct n; simpl; lia. }
  rewrite H. split; [done|]. by rewrite Z.mul_comm, Z.abs_sgn.
Qed.
Theorem sign_vector : ∀ {T} (N : num T) ltb of_int v, vsign N ltb of_int v = Some (map (sign N ltb of_int) v).
Proof.
  intros T N ltb of_int v. unfold vsign. apply for_fill_read; [by rewrite map_length|].
  intros i x r Hi L Hx. rewrite list_lookup_fmap in Hx. apply fmap_Some in Hx as (y & Hy & ->).
  by rewrite (index_lookup _ _ _ Hy).
Qed.
Example lerp_affine_ex : rlerp [0; 10] [4; 20] (1/2) = Some [2; 15].
Proof. rewrite lerp_affine by done. simpl. f_equal. f_equal; [lra|]. f_equal. lra. Qed.
Example lerp_endpoints_ex : length [0; 10; 2] = length [4; 20; 3]. Proof. done. Qed.
Example lerp_between_ex : 0 <= 1/2 <= 1 ∧ rlerp [0; 10] [4; 20] (1/2) = Some [2; 15].
Proof. split; [lra|apply lerp_affine_ex]. Qed.
Example lerp_ring_ex : lerp znum Datatypes.id Datatypes.id (Z.sub 1) [1; 2]%Z [5; 10]%Z 3%Z = Some [13; 26]%Z. Proof. done. Qed.
Example lerp_per_component_ex : lerp_v znum Datatypes.id Datatypes.id (Z.sub 1) [1; 2]%Z [5; 10]%Z [0; 1]%Z = Some [1; 10]%Z. Proof. done. Qed.
Example lerp_bool_selects_ex : lerp_v_bool [1; 2; 3]%Z [5; 6; 7]%Z [true; false; true] = Some [5; 2; 7]%Z. Proof. done. Qed.
Example sign_real_ex : sign rnum Rltb IZR (-7) = -1.
Proof. destruct (sign_real (-7)) as [H _]. apply H. lra. Qed.
Example sign_integer_ex : sign znum Z.ltb Datatypes.id (-7)%Z = (-1)%Z. Proof. done. Qed.
Example sign_vector_ex : vsign znum Z.ltb Datatypes.id [-7; 0; 3; 4; -5]%Z = Some [-1; 0; 1; 1; -1]%Z. Proof. done. Qed.

(** ** C78: an unsigned integer parameter *)
(** std::uint32_t: [1 - percent] wraps. The element type is the reals. *)
Definition u32_one_minus (p : Z) : Z := ((1 - p) mod 2 ^ 32)%Z.
Theorem lerp_unsigned_refuted : ∃ (v1 v2 : list R) (p : Z), (0 <= p < 2 ^ 32)%Z ∧ length v1 = length v2 ∧
  lerp rnum IZR IZR u32_one_minus v1 v2 p ≠ rlerp v1 v2 (IZR p).
Proof.
  exists [1; 1], [1; 1], 2%Z. split; [lia|]. split; [done|]. rewrite lerp_affine by done. cbn.
  intros H. injection H as H _. revert H.
  replace (u32_one_minus 2) with 4294967295%Z by (vm_compute; done). lra.
Qed.
(** With the parameter 0 or 1 there is no wrap. *)
Theorem lerp_unsigned_partial : ∀ v1 v2 (p : Z), (0 <= p <= 1)%Z →
  lerp rnum IZR IZR u32_one_minus v1 v2 p = rlerp v1 v2 (IZR p).
Proof.
  intros v1 v2 p Hp. unfold rlerp, lerp. rewrite !vop_s_eq. simpl. unfold u32_one_minus.
  rewrite Z.mod_small by lia. rewrite minus_IZR. done.
Qed.
Example lerp_unsigned_partial_ex : lerp rnum IZR IZR u32_one_minus [1; 2] [3; 5] 1%Z = rlerp [1; 2] [3; 5] 1.
Proof. by apply lerp_unsigned_partial. Qed.

(** ** C67: faceforward *)
Definition rfaceforward := faceforward rnum Rltb.
(** Documented: v if dot(i, n) is not positive, -v if it is. The code returns -v
    also for dot(i, n) = 0. *)
Theorem faceforward_refuted : ∃ v i n, length v = length i ∧ length i = length n ∧
  dot rnum i n = Some 0 ∧ rfaceforward v i n ≠ Some v.
Proof.
  exists [1; 2], [1; 0], [0; 1]. split; [done|]. split; [done|]. rewrite inner_sum by done. unfold inner. simpl. split; [f_equal; lra|].
  unfold rfaceforward, faceforward. rewrite inner_sum by done. simpl. unfold inner, Rltb. simpl.
  destruct (Rlt_dec _ _); [lra|]. simpl. intros H. injection H. lra.
Qed.
Theorem faceforward_partial : ∀ v i n d, length i = length n → dot rnum i n = Some d →
  (d < 0 → rfaceforward v i n = Some v) ∧ (0 <= d → rfaceforward v i n = Some (map Ropp v)).
Proof.
  intros v i n d L Hd. unfold rfaceforward, faceforward.
  destruct (dot_symmetric rnum rnum_ring i n L) as [_ E]. rewrite <- E, Hd. simpl. unfold Rltb.
  rewrite vneg_eq. split; intros H; destruct (Rlt_dec d 0); try lra; done.
Qed.
Example faceforward_partial_ex : dot rnum [1; -1] [0; 1] = Some (-1) ∧ rfaceforward [5; 6] [1; -1] [0; 1] = Some [5; 6].
Proof.
  assert (H : dot rnum [1; -1] [0; 1] = Some (-1)) by (rewrite inner_sum by done; unfold inner; simpl; f_equal; lra).
  split; [done|]. apply (faceforward_partial [5; 6] [1; -1] [0; 1] (-1)); [done..|lra].
Qed.

(** ** C68, first part: angle conversion; [p] is any non-zero value of pi *)
Theorem radians_degrees_inverse : ∀ p x, p ≠ 0 →
  degrees rnum p 180 (radians rnum p 180 x) = x ∧ radians rnum p 180 (degrees rnum p 180 x) = x.
Proof. intros p x Hp. unfold degrees, radians. simpl. split; field; lra. Qed.
Theorem radians_180 : ∀ p, radians rnum p 180 180 = p ∧ radians rnum p 180 0 = 0.
Proof. intros p. unfold radians. simpl. split; field. Qed.
(** Both are linear: an angle of x degrees is x / 180 times pi. *)
Theorem radians_linear : ∀ p x y k, p ≠ 0 →
  radians rnum p 180 (x + y) = radians rnum p 180 x + radians rnum p 180 y ∧
  radians rnum p 180 (k * x) = k * radians rnum p 180 x ∧ degrees rnum p 180 p = 180 ∧
  degrees rnum p 180 (x + y) = degrees rnum p 180 x + degrees rnum p 180 y ∧
  degrees rnum p 180 (k * x) = k * degrees rnum p 180 x.
Proof. intros p x y k Hp. unfold radians, degrees. simpl. split_and!; field; done. Qed.
Example radians_linear_ex : radians rnum PI 180 (30 + 60) = PI / 6 + PI / 3 ∧ PI ≠ 0.
Proof. unfold radians. simpl. split; [field|apply PI_neq0]. Qed.
(** The functions of the real numbers *)
Definition rtrig : @trig R := Trig sin cos tan asin acos atan.
(** arcsin, arccos and arctan are the inverse functions, with the principal values. *)
Theorem inverse_trigonometry : ∀ x,
  (-1 <= x <= 1 → sin (arcsin rtrig x) = x ∧ - (PI / 2) <= arcsin rtrig x <= PI / 2) ∧
  (-1 <= x <= 1 → cos (arccos rtrig x) = x ∧ 0 <= arccos rtrig x <= PI) ∧
  tan (arctan rtrig x) = x ∧ - (PI / 2) < arctan rtrig x < PI / 2.
Proof.
  intros x. unfold arcsin, arccos, arctan. cbn [rtrig t_asin t_acos t_atan]. split_and!.
  - intros H. split; [by apply sin_asin|apply asin_bound].
  - intros H. split; [by apply cos_acos|apply acos_bound].
  - apply tan_atan.
  - destruct (atan_bound x). lra.
  - apply (atan_bound x).
Qed.
Example inverse_trigonometry_ex : arctan rtrig 1 = PI / 4 ∧ arcsin rtrig 0 = 0.
Proof. unfold arctan, arcsin. cbn [rtrig t_asin t_atan]. split; [apply atan_1|apply asin_0]. Qed.
(** sec, csc and cot are the reciprocals. *)
Theorem reciprocal_trigonometry : ∀ x,
  (cos x ≠ 0 → sec rnum rtrig x * cos x = 1) ∧ (sin x ≠ 0 → csc rnum rtrig x * sin x = 1) ∧
  (cos x ≠ 0 → sin x ≠ 0 → cot rnum rtrig x = cos x / sin x).
Proof.
  intros x. unfold sec, csc, cot. simpl. unfold tan. split_and!; intros; field; done.
Qed.
Example radians_degrees_inverse_ex : degrees rnum PI 180 (radians rnum PI 180 90) = 90 ∧ radians rnum PI 180 90 = PI / 2.
Proof. split; [apply radians_degrees_inverse, PI_neq0|unfold radians; simpl; field]. Qed.
Example radians_180_ex : radians rnum PI 180 180 = PI. Proof. apply radians_180. Qed.
Example reciprocal_trigonometry_ex : sec rnum rtrig 0 = 1.
Proof. unfold sec. simpl. rewrite cos_0. lra. Qed.

Definition vec_theorems := (@vector_op_componentwise, @vector_op_scalar_componentwise, @vector_neg_componentwise,
  @vector_self_op_componentwise, @vector_self_op_scalar_componentwise, @vector_self_op_alias,
  @vector_assign_componentwise, @vector_index, @vector_fill, @vector_from_components, @vector_from_parts,
  @vector_convert, @vector_eq, @vector_compare, @dot_value, @dot_symmetric, @dot_bilinear, @cross_orthogonal,
  @cross_antisymmetric, @cross_lagrange, @cross_basis, @cross_linear, @lerp_ring, @lerp_per_component,
  @lerp_bool_selects, @mix_selects, @sign_integer, @sign_vector).
Print Assumptions vec_theorems.
Definition vec_real_theorems := (@length_euclidean, @distance_euclidean, @distance_metric, @mix_interpolates, @radians_linear, @inverse_trigonometry, @normalize_unit, @reflect_unit_normal,
  @lerp_affine, @lerp_endpoints, @lerp_between, @sign_real, @lerp_unsigned_refuted, @lerp_unsigned_partial,
  @faceforward_refuted, @faceforward_partial, @radians_degrees_inverse, @radians_180, @reciprocal_trigonometry).
Print Assumptions vec_real_theorems.
