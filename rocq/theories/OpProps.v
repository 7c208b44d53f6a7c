(** Theorems about the types of operators and of glsl_mapping.hpp: properties C154 and C155. *)
From stdpp Require Import list strings.
From Coq Require Import Lia.
From Verif Require Import LikeModel CtorModel OpModel.
Local Open Scope nat_scope.
Local Arguments select _ _ /. Local Arguments vec_op _ _ _ /. Local Arguments mat_op _ _ _ _ _ /. Local Arguments mat_self_op _ _ _ _ _ /.

(** * C154: the names of GLSL (section 4.1 of the GLSL specification)
    ** Specification *)
Definition digit (n : nat) : string := match n with 2 => "2" | 3 => "3" | 4 => "4" | _ => "" end.
(** The types of components by prefix *)
Inductive component : string → arith → Prop :=
  | comp_bool : component "b" TBool
  | comp_int : component "i" TInt
  | comp_uint : component "u" TUInt
  | comp_float : component "" TFloat
  | comp_double : component "d" TDouble.
(** matNxM has N columns and M rows; matN is matNxN. *)
Inductive glsl : string → operand → Prop :=
  | glsl_vec p t n : component p t → 2 <= n <= 4 → glsl (p ++ "vec" ++ digit n) (OVec t n)
  | glsl_mat p t n : component p t → t = TFloat ∨ t = TDouble → 2 <= n <= 4 → glsl (p ++ "mat" ++ digit n) (OMat t n n)
  | glsl_matx p t c r : component p t → t = TFloat ∨ t = TDouble → 2 <= c <= 4 → 2 <= r <= 4 →
      glsl (p ++ "mat" ++ digit c ++ "x" ++ digit r) (OMat t c r).

Lemma range_cases n : 2 <= n <= 4 → n = 2 ∨ n = 3 ∨ n = 4. Proof. lia. Qed.
Ltac sizes := repeat match goal with H : 2 <= ?n <= 4 |- _ => apply range_cases in H as [-> | [-> | ->]] end.
(** The names of the library are the vector and matrix types of GLSL with their meaning. *)
Theorem alias_glsl : ∀ s t, alias s = Some t ↔ glsl s t.
Proof.
  intros s t. split.
  - unfold alias. intros H. apply fmap_Some in H as ((s' & t') & Hf & ->). apply find_some in Hf as [Hin He]. apply String.eqb_eq in He. cbn in He, Hin. subst s'.
    cbn [snd].
    repeat destruct Hin as [Hin|Hin]; try (injection Hin as <- <-); try done.
    all: match goal with
      | |- glsl _ (OVec TBool ?n) => exact (glsl_vec "b" TBool n comp_bool ltac:(lia))
      | |- glsl _ (OVec TInt ?n) => exact (glsl_vec "i" TInt n comp_int ltac:(lia))
      | |- glsl _ (OVec TUInt ?n) => exact (glsl_vec "u" TUInt n comp_uint ltac:(lia))
      | |- glsl _ (OVec TFloat ?n) => exact (glsl_vec "" TFloat n comp_float ltac:(lia))
      | |- glsl _ (OVec TDouble ?n) => exact (glsl_vec "d" TDouble n comp_double ltac:(lia))
      | |- glsl _ (OMat TFloat ?n ?n) => exact (glsl_mat "" TFloat n comp_float ltac:(by left) ltac:(lia))
      | |- glsl _ (OMat TDouble ?n ?n) => exact (glsl_mat "d" TDouble n comp_double ltac:(by right) ltac:(lia))
      | |- glsl _ (OMat TFloat ?c ?r) => exact (glsl_matx "" TFloat c r comp_float ltac:(by left) ltac:(lia) ltac:(lia))
      | |- glsl _ (OMat TDouble ?c ?r) => exact (glsl_matx "d" TDouble c r comp_double ltac:(by right) ltac:(lia) ltac:(lia))
      end.
  - intros H. destruct H as [p t n Hp Hn|p t n Hp Ht Hn|p t c r Hp Ht Hc Hr]; destruct Hp; try (destruct Ht; discriminate); sizes; done.
Qed.
Example alias_glsl_ex : alias "dmat2x3" = Some (OMat TDouble 2 3) ∧ alias "mat5" = None ∧ alias "imat2" = None ∧ glsl "dmat2x3" (OMat TDouble 2 3).
Proof. split_and!; try done. by apply alias_glsl. Qed.

(** Products, transposes and outer products have the types that GLSL gives them (5.9, 8.6). *)
Theorem glsl_products : ∀ p t n c r, component p t → t = TFloat ∨ t = TDouble → 2 <= n <= 4 → 2 <= c <= 4 → 2 <= r <= 4 → ∃ mat vec mat' vec' matr matt,
  alias (p ++ "mat" ++ digit c ++ "x" ++ digit r) = Some mat ∧ alias (p ++ "vec" ++ digit c) = Some vec ∧
  alias (p ++ "vec" ++ digit r) = Some vec' ∧ alias (p ++ "mat" ++ digit n ++ "x" ++ digit c) = Some mat' ∧
  alias (p ++ "mat" ++ digit n ++ "x" ++ digit r) = Some matr ∧ alias (p ++ "mat" ++ digit r ++ "x" ++ digit c) = Some matt ∧
  binary Mul mat vec = Accepted vec' ∧ binary Mul mat mat' = Accepted matr ∧
  transpose_type mat = Accepted matt ∧ outer_type vec' vec = Accepted mat.
Proof.
  intros p t n c r Hp Ht Hn Hc Hr. exists (OMat t c r), (OVec t c), (OMat t n c), (OVec t r), (OMat t n r), (OMat t r c).
  rewrite !alias_glsl. split_and!; try (by constructor).
  - cbn. rewrite Nat.eqb_refl. cbn. unfold dot_type. by rewrite Nat.eqb_refl, bool_decide_eq_true_2.
  - cbn. rewrite Nat.eqb_refl. cbn. unfold dot_type. by rewrite Nat.eqb_refl, bool_decide_eq_true_2.
  - cbn. rewrite bool_decide_eq_true_2 by done. by destruct Ht as [-> | ->].
Qed.
Example glsl_products_ex : (∃ a b, alias "mat2x3" = Some a ∧ alias "vec2" = Some b ∧ Some (binary Mul a b) = Accepted <$> alias "vec3") ∧
  (∃ a b, alias "dmat2x3" = Some a ∧ alias "dmat4x2" = Some b ∧ Some (binary Mul a b) = Accepted <$> alias "dmat4x3").
Proof. split; by do 2 eexists. Qed.

(** * C155: which operators compile
    ** Specification *)
(** The operand types of linear algebra, and the type of the result: the element type of the
    left operand. *)
Inductive rule : op → operand → operand → operand → Prop :=
  | rule_vec_num o t n u : rule o (OVec t n) (ONum u) (OVec t n)
  | rule_mat_num o t c r u : rule o (OMat t c r) (ONum u) (OMat t c r)
  | rule_vec o t n u : rule o (OVec t n) (OVec u n) (OVec t n)
  | rule_mat o t c r u : o = Add ∨ o = Sub → rule o (OMat t c r) (OMat u c r) (OMat t c r)
  | rule_mat_vec t c r u : rule Mul (OMat t c r) (OVec u c) (OVec t r)
  | rule_mat_mat t c r u n : rule Mul (OMat t c r) (OMat u n c) (OMat t n r)
  | rule_quat o t u : o ≠ Div → rule o (OQuat t) (OQuat u) (OQuat t).
(** The element type *)
Definition element_of (a : operand) : option arith := match a with ONum t | OVec t _ | OMat t _ _ | OQuat t => Some t | OForeign => None end.
(** A product of a matrix with a vector or a matrix *)
Definition matrix_product (o : op) (l a : operand) : Prop := o = Mul ∧ match l, a with OMat _ _ _, (OVec _ _ | OMat _ _ _) => True | _, _ => False end.

(** An operator compiles exactly if linear algebra has it and, for products of matrices, the
    element types are the same; the result has the expected type. *)
Theorem operator_exact : ∀ o l a t, binary o l a = Accepted t ↔
  rule o l a t ∧ (matrix_product o l a → element_of l = element_of a).
Proof.
  intros o l a t. split.
  - intros H. destruct l as [u|u n|u c r|u|]; [done| | | |done].
    + destruct a as [v|v m|v c r|v|]; cbn in H; try (injection H as <-); try done; [split; [constructor|by intros []]|].
      destruct (Nat.eqb_spec m n) as [->|]; cbn in H; [|done]. injection H as <-. split; [constructor|by intros []].
    + destruct o, a as [v|v m|v c' r'|v|]; cbn in H; try done; try (injection H as <-; split; [constructor|by intros []]).
      * destruct (Nat.eqb_spec c' c) as [->|], (Nat.eqb_spec r' r) as [->|]; cbn in H; try done.
        rewrite Nat.eqb_refl in H. cbn in H. injection H as <-. split; [constructor; auto|by intros []].
      * destruct (Nat.eqb_spec c' c) as [->|], (Nat.eqb_spec r' r) as [->|]; cbn in H; try done.
        rewrite Nat.eqb_refl in H. cbn in H. injection H as <-. split; [constructor; auto|by intros []].
      * destruct (Nat.eqb_spec m c) as [->|]; cbn in H; [|done]. unfold dot_type in H. rewrite Nat.eqb_refl in H.
        case_bool_decide; cbn in H; [|done]. injection H as <-. subst. split; [constructor|done].
      * destruct (Nat.eqb_spec r' c) as [->|]; cbn in H; [|done]. unfold dot_type in H. rewrite Nat.eqb_refl in H.
        case_bool_decide; cbn in H; [|done]. injection H as <-. subst. split; [constructor|done].
    + destruct o, a; cbn in H; try done; injection H as <-; (split; [by constructor|by intros []]).
  - intros [H He]. destruct H as [| | |o t c r u Ho| | |o t u Ho]; cbn.
    + done.
    + by destruct o.
    + by rewrite Nat.eqb_refl.
    + destruct Ho as [-> | ->]; cbn; rewrite !Nat.eqb_refl; cbn; by rewrite Nat.eqb_refl.
    + rewrite Nat.eqb_refl. cbn. unfold dot_type. rewrite Nat.eqb_refl, bool_decide_eq_true_2; [done|].
      assert (Some t = Some u) as [=]; [|done]. by apply He.
    + rewrite Nat.eqb_refl. cbn. unfold dot_type. rewrite Nat.eqb_refl, bool_decide_eq_true_2; [done|].
      assert (Some t = Some u) as [=]; [|done]. by apply He.
    + by destruct o.
Qed.
Example operator_exact_ex : binary Mul (OMat TFloat 2 3) (OVec TFloat 2) = Accepted (OVec TFloat 3) ∧
  binary Add (OMat TFloat 2 3) (OMat TDouble 2 3) = Accepted (OMat TFloat 2 3) ∧ binary Div (OVec TInt 5) (ONum TDouble) = Accepted (OVec TInt 5).
Proof. done. Qed.

(** The operators += -= *= /= are those of the binary ones that give the left operand's type
    again, but for matrices *= is only for numbers. *)
Theorem compound_exact : ∀ o l a t, compound o l a = Accepted t ↔
  rule o l a t ∧ ¬ matrix_product o l a ∧ (∀ u, l ≠ OQuat u).
Proof.
  intros o l a t. split.
  - intros H. destruct l as [u|u n|u c r|u|]; [done| | |done|done].
    + destruct a as [v|v m|v c r|v|]; cbn in H; try (injection H as <-); try done; [split; [constructor|split; [by intros []|done]]|].
      destruct (Nat.eqb_spec m n) as [->|]; cbn in H; [|done]. injection H as <-. split; [constructor|]. split; [by intros []|done].
    + destruct o, a as [v|v m|v c' r'|v|]; cbn in H; try done; try (injection H as <-; split; [constructor|split; [by intros []|done]]).
      all: destruct (Nat.eqb_spec c' c) as [->|], (Nat.eqb_spec r' r) as [->|]; cbn in H; try done.
      all: rewrite Nat.eqb_refl in H; cbn in H; injection H as <-; split; [constructor; auto|]; split; [by intros []|done].
  - intros (H & Hm & Hq). destruct H as [| |o t n u|o t c r u Ho| | |o t u Ho]; cbn.
    + done.
    + by destruct o.
    + by rewrite Nat.eqb_refl.
    + destruct Ho as [-> | ->]; cbn; rewrite !Nat.eqb_refl; cbn; by rewrite Nat.eqb_refl.
    + by destruct Hm.
    + by destruct Hm.
    + by destruct (Hq t).
Qed.
Example compound_exact_ex : compound Sub (OMat TFloat 4 4) (OMat TDouble 4 4) = Accepted (OMat TFloat 4 4) ∧
  compound Mul (OVec TFloat 3) (OVec TInt 3) = Accepted (OVec TFloat 3) ∧ compound Mul (OMat TFloat 4 4) (OMat TFloat 4 4) = Hard.
Proof. done. Qed.

(** With one element type, exactly the operators of linear algebra compile. *)
Theorem operator_compiles_partial : ∀ o l a t, element_of l = element_of a → binary o l a = Accepted t ↔ rule o l a t.
Proof. intros o l a t He. rewrite operator_exact. split; [by intros []|done]. Qed.
Example operator_compiles_partial_ex : element_of (OMat TDouble 3 2) = element_of (OMat TDouble 4 3) ∧
  rule Mul (OMat TDouble 3 2) (OMat TDouble 4 3) (OMat TDouble 4 2) ∧ binary Mul (OMat TDouble 3 2) (OMat TDouble 4 3) = Accepted (OMat TDouble 4 2).
Proof. split_and!; [done|constructor|done]. Qed.
(** The product of a matrix of floats with a vector of doubles has an operator of its own,
    but does not compile, while sums of matrices with them do. *)
Theorem operator_compiles_refuted : ∃ l a b t, element_of a = element_of b ∧
  rule Mul l a t ∧ binary Mul l a = Hard ∧ rule Mul l b l ∧ binary Mul l b = Hard ∧ binary Add l b = Accepted l.
Proof.
  exists (OMat TFloat 4 4), (OVec TDouble 4), (OMat TDouble 4 4), (OVec TFloat 4). split_and!; try done; [apply rule_mat_vec|apply rule_mat_mat].
Qed.
(** Quaternions reject what does not compile; vectors and matrices accept every operand, so
    that requires { m * x; } is true of everything. *)
Theorem operator_detects_partial : ∀ o t a, binary o (OQuat t) a ≠ Hard.
Proof. intros o t a. by destruct o, a. Qed.
Example operator_detects_partial_ex : binary Mul (OQuat TFloat) (ONum TFloat) = Rejected ∧ binary Mul (OQuat TFloat) (OQuat TDouble) = Accepted (OQuat TFloat).
Proof. done. Qed.
Theorem operator_detects_refuted : ∀ o l, (∃ t n, l = OVec t n) ∨ (∃ t c r, l = OMat t c r) →
  binary o l OForeign = Hard ∧ (∀ a, binary o l a ≠ Rejected).
Proof.
  intros o l [(t & n & ->)|(t & c & r & ->)].
  - split; [done|]. intros [u|u m|u c r|u|]; cbn; try done. by destruct (Nat.eqb m n).
  - split; [by destruct o|]. intros a. destruct o, a as [u|u m|u c' r'|u|]; cbn; try done.
    + destruct (Nat.eqb c' c), (Nat.eqb r' r) eqn:E; cbn; try done. by rewrite E.
    + destruct (Nat.eqb c' c), (Nat.eqb r' r) eqn:E; cbn; try done. by rewrite E.
    + destruct (Nat.eqb m c); cbn; [|done]. by destruct (dot_type t c u m).
    + destruct (Nat.eqb r' c); cbn; [|done]. by destruct (dot_type t c u r').
Qed.
Example operator_detects_refuted_ex : binary Mul (OMat TFloat 2 3) (OMat TFloat 2 3) = Hard ∧ binary Add (OVec TFloat 2) (OVec TFloat 3) = Hard.
Proof. done. Qed.

Definition op_theorems := (alias_glsl, glsl_products, operator_exact, compound_exact, operator_compiles_partial, operator_compiles_refuted,
  operator_detects_partial, operator_detects_refuted).
Print Assumptions op_theorems.
