(** Theorems about overload resolution: copying and moving containers, adding elements or
    ranges, views of other ranges. *)
From stdpp Require Import list.
From Coq Require Import ZArith.
From Verif Require Import Base TypesModel OverModel.
From Verif Require SimdModel ViewModel.

(** ** Copying and moving *)

(** C b(x) for an x of the same class: rvalues that are not const are moved, everything else
    is copied, by the copy constructor or, for lists, element by element by the constructor
    from ranges. No call is ambiguous or refused. *)
Definition copies (ch : choice ctor) : Prop := ch = Chosen Copy ∨ ch = Chosen FromRange.
Theorem construct_from_same : ∀ k const c elems,
  match c with
  | PRValue => initialise false k false const c elems = Elided
  | XValue => if const then copies (initialise false k false const c elems)
              else initialise false k false const c elems = Chosen Move
  | LValue => copies (initialise false k false const c elems)
  end.
Proof. intros [] [] [] []; cbn; unfold copies; auto. Qed.
Example construct_from_same_ex : initialise false List false false XValue true = Chosen Move ∧ initialise false List false false LValue true = Chosen FromRange ∧ initialise false Array false false LValue true = Chosen Copy.
Proof. done. Qed.

(** Which way copies go: by the copy constructor, except that lists are copied element by
    element from all lists that are no const lvalues. *)
Theorem construct_copies_by : ∀ k const c elems, c = LValue ∨ (c = XValue ∧ const = true) →
  initialise false k false const c elems =
  Chosen (match k with List => if elems && (is_rvalue c || negb const) then FromRange else Copy | _ => Copy end).
Proof. intros [] [] [] [] [H|[H ?]]; done. Qed.
Example construct_copies_by_ex : initialise false List false true LValue true = Chosen Copy ∧ initialise false List false true XValue true = Chosen FromRange.
Proof. split; refine (eq_trans (construct_copies_by _ _ _ _ _) _); auto. Qed.

(** C b = x, parameters by value and functions that return a local variable: arrays and
    heaps are copied and moved in the same way *)
Theorem copy_initialise_partial : ∀ k const c elems, k ≠ List →
  initialise true k false const c elems =
  match c with
  | PRValue => Elided
  | XValue => Chosen (if const then Copy else Move)
  | LValue => Chosen Copy
  end.
Proof. intros [] [] [] [] ?; done. Qed.
Example copy_initialise_partial_ex : initialise true Heap false false XValue true = Chosen Move. Proof. by apply (copy_initialise_partial Heap false XValue true). Qed.
(** but no list is, whatever its elements: only a prvalue can be given away *)
Theorem copy_initialise_refuted :
  (∃ k const c elems, initialise true k false const c elems = NotViable) ∧
  (∀ const c elems, initialise true List false const c elems = match c with PRValue => Elided | _ => NotViable end).
Proof. split; [by exists List, false, XValue, true|]. by intros [] [] []. Qed.

(** Objects of a class derived from a container: lvalues are copied. *)
Theorem construct_from_derived_partial : ∀ k const elems, copies (initialise false k true const LValue elems).
Proof. intros [] [] []; cbn; unfold copies; auto. Qed.
Example construct_from_derived_partial_ex : initialise false Array true false LValue true = Chosen FromRange. Proof. done. Qed.
(** Rvalues are not moved if their elements can be copied. *)
Theorem construct_from_derived_refuted : ∀ k, initialise false k true false XValue true = Chosen FromRange ∧ initialise false k true false XValue false = Chosen Move.
Proof. by intros []. Qed.

(** C b = x for an x of a derived class: arrays are copied and moved by their own
    constructors, as the one from ranges is explicit; heaps copy element by element if they
    can; lists refuse. *)
Theorem copy_initialise_derived : ∀ k const c elems,
  initialise true k true const c elems =
  match k with
  | Array => Chosen (if is_rvalue c && negb const then Move else Copy)
  | List => NotViable
  | Heap => Chosen (if elems then FromRange else if is_rvalue c && negb const then Move else Copy)
  end.
Proof. by intros [] [] [] []. Qed.
Example copy_initialise_derived_ex : initialise true Array true false PRValue true = Chosen Move ∧ initialise true Heap true false PRValue true = Chosen FromRange.
Proof. by rewrite !copy_initialise_derived. Qed.

(** ** Adding elements *)

(** The equality of types that the model uses is equality. *)
Lemma tp_eqb_spec t u : tp_eqb t u = true ↔ t = u.
Proof.
  split; [|intros ->; induction u as [| | | | | | | | |[] ?]; done].
  revert u. induction t as [| | | | | | | | |k t IH]; intros [| | | | | | | | |l u] H; simpl in H; try done; try (by f_equal; auto).
  destruct k, l; try done; f_equal; auto.
Qed.
Lemma tp_eqb_refl t : tp_eqb t t = true. Proof. by apply tp_eqb_spec. Qed.

(** push_back(x), insert(pos, x) and insert_after(pos, x): exactly when the call is ambiguous,
    refused, or adds x or its elements *)
Theorem add_exact : ∀ t x,
  match add t x with
  | Chosen OneElement => converts x t = true ∧ elements_convert x t = false
  | Chosen AllElements => converts x t = false ∧ elements_convert x t = true
  | Ambiguous => converts x t = true ∧ elements_convert x t = true
  | NotViable => converts x t = false ∧ elements_convert x t = false
  | Elided => False
  end.
Proof.
  intros t [u const c]. unfold add, resolve. cbn [e_const e_cat].
  destruct (converts _ t), (elements_convert _ t), const, c; cbn; done.
Qed.
Example add_exact_ex : add Int (Expr Char false LValue) = Chosen OneElement ∧ add Int (Expr (Seq List Char) true XValue) = Chosen AllElements ∧ add Any (Expr (Seq Array Int) false LValue) = Ambiguous ∧ add Int (Expr Path false LValue) = NotViable.
Proof. done. Qed.

(** Numbers: a number is one element and a range of numbers is many, of whatever container. *)
Definition number (t : tp) : Prop := t = Int ∨ t = Char.
Theorem add_number : ∀ t u const c, number t →
  (u = Bool ∨ number u → add t (Expr u const c) = Chosen OneElement) ∧
  (∀ k, u = Bool ∨ number u → add t (Expr (Seq k u) const c) = Chosen AllElements) ∧
  (u = Bool ∨ number u → add t (Expr (CArr u) const c) = Chosen AllElements).
Proof.
  intros t u const c Ht. unfold number in *.
  split_and!; [|intros [] |]; intros [->|[->| ->]]; destruct Ht as [->| ->], const, c; done.
Qed.
Example add_number_ex : add Int (Expr (Seq Heap Char) false PRValue) = Chosen AllElements.
Proof. apply (add_number Int Char false PRValue); [by left|right; by right]. Qed.

(** An object of the element type itself. Types of elements: no arrays, and containers
    contain such types. *)
Fixpoint element_type (t : tp) : Prop := match t with CArr _ => False | Seq _ t => element_type t | _ => True end.
(** Which of them are no single element: [std::filesystem::path], and heaps of such. *)
Fixpoint own_range (t : tp) : bool := match t with Path => true | Seq Heap t => own_range t | _ => false end.
(** Which cannot be copied or moved implicitly: *)
Definition pinned (t : tp) (const : bool) (c : cat) : bool :=
  match t with Seq List _ => true | Unique => const || negb (is_rvalue c) | _ => false end.

Lemma converts_own t const c : element_type t → converts (Expr t const c) t = negb (pinned t const c).
Proof.
  destruct t as [| | | | | | | | |k t]; intros Ht; try done.
  - cbn. apply tp_eqb_refl.
  - by destruct const, c.
  - destruct k; cbn [converts e_tp e_const e_cat]; rewrite ?tp_eqb_refl; destruct const, c; done.
Qed.
Lemma converts_elem t const : element_type t → ∀ k, converts (Expr t const LValue) (Seq k t) = true → k = Heap ∧ own_range t = true.
Proof.
  revert const. induction t as [| | | | | | | | |l t IH]; intros const Ht [] H; try done.
  all: cbn [converts e_tp e_const e_cat element] in H.
  all: try (by apply andb_true_iff in H as [H _]; apply tp_eqb_spec in H).
  all: try (by apply andb_true_iff in H as [H _]; apply tp_eqb_spec in H; injection H as H1 H2; subst; exfalso;
            clear -H2; revert H2; induction t; congruence).
  assert (tp_eqb (Seq l t) (Seq Heap (Seq l t)) = false) as E.
  { apply not_true_iff_false. intros E. apply tp_eqb_spec in E. injection E as _ E. clear -E. revert l E. induction t; intros; congruence. }
  rewrite E in H. clear E. split; [done|].
  assert (∃ b, converts (Expr t b LValue) (Seq l t) = true) as [b Hb] by (destruct l; [exists const|exists const|exists true]; exact H).
  destruct (IH b Ht l Hb) as [-> Ho]. done.
Qed.
Lemma own_range_elem t : element_type t → own_range t = true → ∀ const c, converts (Expr t const c) (Seq Heap t) = true.
Proof.
  induction t as [| | | | | | | | |l t IH]; intros Ht Ho const c; try done.
  destruct l; try done. simpl in Ho.
  cbn [converts e_tp e_const e_cat element].
  assert (tp_eqb (Seq Heap t) (Seq Heap (Seq Heap t)) = false) as ->.
  { apply not_true_iff_false. intros E. apply tp_eqb_spec in E. injection E as E. clear -E. induction t; congruence. }
  by apply (IH Ht Ho).
Qed.
Lemma elements_own t const c : element_type t → elements_convert (Expr t const c) t = own_range t.
Proof.
  intros Ht. unfold elements_convert. destruct t as [| | | | | | | | |k t]; try done.
  assert (∃ b, element (Expr (Seq k t) const c) = Some (Expr t b LValue)) as [b ->] by (destruct k; [exists const|exists const|exists true]; done).
  destruct (converts (Expr t b LValue) (Seq k t)) eqn:E.
  - apply converts_elem in E as [-> Ho]; done.
  - destruct k; try done. simpl. destruct (own_range t) eqn:Eo; [|done]. by rewrite own_range_elem in E.
Qed.
(** An element is added as one element *)
Theorem add_own_partial : ∀ t const c, element_type t → own_range t = false → pinned t const c = false →
  add t (Expr t const c) = Chosen OneElement.
Proof.
  intros t const c Ht Ho Hp. pose proof (add_exact t (Expr t const c)) as H.
  rewrite converts_own, elements_own, Ho, Hp in H by done.
  destruct (add t _) as [[]| | |]; destruct H; done.
Qed.
Example add_own_partial_ex : add (Seq Array (Seq List Any)) (Expr (Seq Array (Seq List Any)) true LValue) = Chosen OneElement.
Proof. by apply add_own_partial. Qed.
(** In all other cases the call does not compile. *)
Theorem add_own_exact : ∀ t const c, element_type t → own_range t || pinned t const c = true →
  add t (Expr t const c) = (if own_range t then (if pinned t const c then Chosen AllElements else Ambiguous) else NotViable) ∧
  (own_range t = true → pinned t const c = false).
Proof.
  intros t const c Ht Ho. pose proof (add_exact t (Expr t const c)) as H.
  rewrite converts_own, elements_own in H by done. split.
  - destruct (add t _) as [[]| | |], (own_range t), (pinned t const c); destruct H; done.
  - intros Hr. destruct t as [| | | | | | | | |[] t]; done.
Qed.
Example add_own_exact_ex : add Path (Expr Path false LValue) = Ambiguous ∧ add (Seq Heap Path) (Expr (Seq Heap Path) false PRValue) = Ambiguous ∧ add (Seq List Int) (Expr (Seq List Int) false PRValue) = NotViable.
Proof. split_and!; refine (eq_trans (proj1 (add_own_exact _ _ _ _ _)) _); done. Qed.
(** A path cannot be added to an array or list of paths, a list not to one of lists; an array
    of numbers is no range of booleans. *)
Theorem add_own_refuted :
  (∃ t, element_type t ∧ pinned t false LValue = false ∧ add t (Expr t false LValue) = Ambiguous) ∧
  (∃ t, element_type t ∧ own_range t = false ∧ ∀ const c, add t (Expr t const c) = NotViable) ∧
  (∃ t x, elements_convert x t = true ∧ e_tp x = CArr Int ∧ add t x = Ambiguous).
Proof.
  split_and!; [by exists Path| |by exists Bool, (Expr (CArr Int) false LValue)].
  exists (Seq List Int). split_and!; [done|done|by intros [] []].
Qed.

(** Ranges of elements that cannot be copied: their elements are lvalues, so that they cannot
    be added even if the range itself is an rvalue; one element can, if it is moved. *)
Theorem add_unique : ∀ const c,
  (∀ u, e_tp u = CArr Unique ∨ (∃ k, e_tp u = Seq k Unique) → add Unique u = NotViable) ∧
  add Unique (Expr Unique const c) = (if is_rvalue c && negb const then Chosen OneElement else NotViable) ∧
  add Any (Expr Unique const c) = NotViable ∧ add Any (Expr (CArr Unique) const c) = Chosen OneElement.
Proof.
  intros const c. split_and!; [|by destruct const, c..].
  intros [t b d] [H|[k H]]; cbn in H; subst t; [by destruct b, d|]. by destruct k, b, d.
Qed.
Example add_unique_ex : add Unique (Expr (Seq Array Unique) false PRValue) = NotViable.
Proof. apply (proj1 (add_unique false PRValue)). right. by exists Array. Qed.
(** Strings: one element for strings and paths, all of their characters for characters and
    numbers. A string literal, being an array, is added with its terminating zero. *)
Theorem add_text : ∀ t const c,
  (number t ∨ t = Bool → add t (Expr Text const c) = Chosen AllElements) ∧
  (number t ∨ t = Bool → add (Seq Heap t) (Expr Text const c) = Chosen OneElement) ∧
  (t = Text ∨ t = Path → add t (Expr Text const c) = Chosen OneElement) ∧
  add Any (Expr Text const c) = Ambiguous ∧
  (number t → add t (Expr (CArr Char) true LValue) = Chosen AllElements) ∧
  (t = Text ∨ t = Path → add t (Expr (CArr Char) true LValue) = Chosen OneElement).
Proof.
  intros t const c. unfold number. split_and!; [..|by destruct const, c| |]; intros H; destruct_or! H; subst; try done; by destruct const, c.
Qed.
Example add_text_ex : add Char (Expr Text false LValue) = Chosen AllElements ∧ add Text (Expr Text false LValue) = Chosen OneElement ∧ add Any (Expr Text false LValue) = Ambiguous.
Proof. split_and!; [apply add_text; left; by right|apply add_text; by left|apply (add_text Any)]. Qed.

(** push_front takes elements of every type, lists included, and moves rvalues *)
Theorem push_front_own : ∀ t const c,
  push_front t (Expr t const c) = Chosen (if is_rvalue c && negb const then Move else Copy).
Proof. intros t const c. unfold push_front. cbn [e_tp e_const e_cat]. rewrite tp_eqb_refl. by destruct const, c. Qed.
Example push_front_own_ex : push_front (Seq List Int) (Expr (Seq List Int) false XValue) = Chosen Move. Proof. apply (push_front_own (Seq List Int) false XValue). Qed.
(** Everything else that converts to the element type is converted and moved. *)
Theorem push_front_other : ∀ t x, e_tp x ≠ t → push_front t x = if converts x t then Chosen Move else NotViable.
Proof.
  intros t x Hx. unfold push_front. destruct (tp_eqb (e_tp x) t) eqn:E; [by apply tp_eqb_spec in E|].
  by destruct (converts x t).
Qed.
Example push_front_other_ex : push_front Text (Expr (CArr Char) true LValue) = Chosen Move. Proof. by apply push_front_other. Qed.

(** ** Views *)

(** The rule of std::span: the elements of the source are those of the view, const may be
    added. *)
Definition shows (u t : elem) : Prop := el_core u = el_core t ∧ (el_const u = true → el_const t = true).
Definition source_elem (s : source) : elem :=
  match s with FromCArray u _ | FromContiguous u _ | FromView u _ => u | FromStdArray u _ const => Elem (el_core u) (el_const u || const) end.
(** The size of the source is that of the view, or not known to either; the source outlives
    the view. *)
Definition usable (size : option nat) (s : source) : Prop :=
  match s with
  | FromCArray _ n | FromStdArray _ n _ => size = None ∨ size = Some n
  | FromContiguous _ borrowed => borrowed = true
  | FromView _ m => size = None ∨ size = m
  end.
Lemma size_fits_spec size n : size_fits size n = true ↔ size = None ∨ size = Some n.
Proof.
  destruct size as [m|]; simpl; [|by split; auto]. rewrite Nat.eqb_eq. split; [intros ->; by right|].
  intros [?|[=]]; done.
Qed.
Lemma implb_spec a b : implb a b = true ↔ (a = true → b = true).
Proof. by destruct a, b; split; auto. Qed.

(** Sources that are no views, with elements of a class that is not related to that of the
    view: the constructors take what std::span would take. *)
Theorem view_ctor_partial : ∀ base_of t size s,
  base_of (el_core (source_elem s)) (el_core t) = false → base_of (el_core t) (el_core (source_elem s)) = false →
  (∀ u m, s ≠ FromView u m) →
  view_ctor base_of t size s = Fine ↔ shows (source_elem s) t ∧ usable size s.
Proof.
  intros base_of t size s H1 H2 Hv. unfold shows. rewrite <- implb_spec, <- Nat.eqb_eq.
  destruct s as [u n|u n const|u b|u m]; simpl in *.
  - rewrite <- size_fits_spec.
    destruct (size_fits size n), (Nat.eqb _ _), (implb _ _); simpl; naive_solver.
  - rewrite <- size_fits_spec. unfold static_casts. simpl. rewrite H1, H2.
    destruct (size_fits size n), (Nat.eqb _ _), (implb _ _); simpl; naive_solver.
  - unfold pointer_converts. rewrite H2. destruct b, (Nat.eqb _ _), (implb _ _); simpl; naive_solver.
  - by destruct (Hv u m).
Qed.
Example view_ctor_partial_ex : view_ctor (λ _ _, false) (Elem 0 true) (Some 4) (FromStdArray (Elem 0 false) 4 false) = Fine.
Proof. apply view_ctor_partial; try done. split; [done|by right]. Qed.

(** Other views: only the same type, that is copies. *)
Theorem view_of_view : ∀ base_of t size u m,
  (u = t ∧ size = m → view_ctor base_of t size (FromView u m) = Fine) ∧
  (u ≠ t ∨ size ≠ m → view_ctor base_of t size (FromView u m) = NoMatch).
Proof.
  intros base_of [tc tb] size [uc ub] m. simpl. split.
  - intros [[= -> ->] ->]. rewrite Nat.eqb_refl, eqb_reflx. destruct m as [b|]; [by rewrite Nat.eqb_refl|done].
  - intros H. destruct (Nat.eqb_spec uc tc) as [->|Hc]; [|done].
    destruct (Bool.eqb ub tb) eqn:E; [|done]. apply eqb_prop in E as ->.
    destruct size as [a|], m as [b|]; try done; [|by destruct H].
    simpl. destruct (Nat.eqb_spec a b) as [->|Hab]; [by destruct H|done].
Qed.
Example view_of_view_ex : view_ctor (λ _ _, false) (Elem 0 true) None (FromView (Elem 0 true) None) = Fine. Proof. by apply view_of_view. Qed.

(** Where the rule of std::span does not hold: arrays of a derived class are taken for arrays
    of the base class; arrays of another type are accepted and then do not compile, so that
    std::convertible_to gives the wrong answer; a view of const elements cannot be made from a
    view of elements, nor one of dynamic size from one whose size is known. *)
Theorem view_ctor_refuted :
  (∃ base_of t s, base_of (el_core t) (el_core (source_elem s)) = true ∧ usable None s ∧ ¬ shows (source_elem s) t ∧
     view_ctor base_of t None s = Fine) ∧
  (∃ t s, ¬ shows (source_elem s) t ∧ ∀ base_of, base_of 0 1 = false → base_of 1 0 = false → view_ctor base_of t None s = Error) ∧
  (∃ t s, shows (source_elem s) t ∧ usable None s ∧ ∀ base_of, view_ctor base_of t None s = NoMatch) ∧
  (∃ t m, ∀ base_of, usable None (FromView t (Some m)) ∧ view_ctor base_of t None (FromView t (Some m)) = NoMatch).
Proof.
  split_and!.
  - exists (λ b d, Nat.eqb b 0 && Nat.eqb d 1), (Elem 0 false), (FromContiguous (Elem 1 false) true). unfold shows; simpl. naive_solver.
  - exists (Elem 0 false), (FromContiguous (Elem 1 false) true). split; [unfold shows; simpl; naive_solver|].
    intros base_of H1 H2. simpl. unfold pointer_converts. simpl. by rewrite H1.
  - exists (Elem 0 true), (FromView (Elem 0 false) None). split_and!; [done|by left|done].
  - exists (Elem 0 false), 3. intros base_of. split; [by left|done].
Qed.

(** What an accepted source of another class leads to. The elements of the source are [wu]
    bytes apart, the view takes steps of [wt] bytes: from the second one on it does not find
    them. *)
Theorem view_stride : ∀ pr wu wt v (k : nat) p s, (1 <= k)%nat → wu ≠ wt →
  (0 <= ViewModel.v_ptr v)%Z → (ViewModel.v_ptr v + Z.of_nat (k * (wu + wt)) < 2 ^ 64)%Z →
  ViewModel.index pr wt v (Z.of_nat k) s = Ok p s →
  p ≠ (ViewModel.v_ptr v + Z.of_nat (k * wu))%Z.
Proof.
  intros pr wu wt v k p s Hk Hw H0 Hb. unfold ViewModel.index, ViewModel.begin, bind, ret, ViewModel.vadd.
  rewrite andb_comm, (proj2 (Z.eqb_neq (Z.of_nat k) 0)) by lia. simpl. unfold SimdModel.padd.
  assert (Z.of_nat (k * wt) ≠ Z.of_nat (k * wu)) by nia.
  destruct pr.
  - rewrite Z.mod_small by lia. intros [= <-]. lia.
  - destruct (_ && _); [|done]. intros [= <-]. lia.
Qed.
(** Three objects of a derived class with a base part of one byte and one more byte, seen as
    objects of the base class: view[1] is a byte of the first object. *)
Example view_stride_ex :
  let s := SimdModel.Mem 1000 [1; 91; 2; 92; 3; 93]%Z in
  ∃ v, ViewModel.ctor_ptr true ViewModel.dynamic_size 1000 3 s = Ok v s ∧
    ViewModel.get SimdModel.Strict 1 v 0 s = Ok [1%Z] s ∧ ViewModel.get SimdModel.Strict 1 v 1 s = Ok [91%Z] s.
Proof. eexists. by vm_compute. Qed.
(** If the class is the same, so are the steps: the view finds each element. *)
Theorem view_same_stride : ∀ wu v (k : nat) s,
  (0 <= ViewModel.v_ptr v)%Z → (ViewModel.v_ptr v + Z.of_nat (k * wu) < 2 ^ 64)%Z →
  ViewModel.index SimdModel.Flat wu v (Z.of_nat k) s = Ok (ViewModel.v_ptr v + Z.of_nat (k * wu))%Z s.
Proof.
  intros wu v k s H0 Hb. unfold ViewModel.index, ViewModel.begin, bind, ret, ViewModel.vadd.
  destruct (Z.eqb_spec (ViewModel.v_ptr v) 0) as [E|E], (Z.eqb_spec (Z.of_nat k) 0) as [E'|E']; simpl.
  1: { rewrite E. replace k with 0%nat by lia. done. }
  all: unfold SimdModel.padd; rewrite Z.mod_small by lia; f_equal; lia.
Qed.
Example view_same_stride_ex : let s := SimdModel.Mem 1000 [1; 91; 2; 92]%Z in ViewModel.index SimdModel.Flat 2 (ViewModel.View 1000 (ViewModel.Dynamic 2)) 1 s = Ok 1002%Z s.
Proof. cbv zeta. by apply (view_same_stride 2 (ViewModel.View 1000 (ViewModel.Dynamic 2)) 1). Qed.

(** ** Matrices from columns and from other matrices *)

(** A matrix can be made from as many columns as it has, with as many components as it has
    rows, of its own element type ... *)
Theorem matrix_of_columns_partial : ∀ t cols rows args,
  length args = cols → Forall (λ c, col_size c = rows ∧ col_elem c = t) args → matrix_of_columns t cols rows args = Fine.
Proof.
  intros t cols rows args Hl Ha.
  assert (H1 : forallb (vector_implicit t rows) args = true).
  { apply forallb_forall. intros c Hc. rewrite Forall_forall in Ha. apply elem_of_list_In, Ha in Hc as [E1 E2].
    unfold vector_implicit. rewrite E1, E2, !Nat.eqb_refl. done. }
  assert (H2 : ∀ n cs, (∀ c, c ∈ cs → c ∈ args) → n = rows → forallb (λ c, Nat.eqb (col_size c) n) cs = true).
  { intros n cs Hcs ->. apply forallb_forall. intros c Hc. rewrite Forall_forall in Ha. apply elem_of_list_In, Hcs, Ha in Hc as [E1 _].
    by rewrite E1, Nat.eqb_refl. }
  unfold matrix_of_columns. destruct args as [|c cs]; [done|].
  assert (Hc : col_size c = rows) by (by apply Forall_inv in Ha as [? _]).
  destruct (Nat.eqb cols 4 && Nat.eqb rows 4) eqn:E.
  - apply andb_true_iff in E as [E1%Nat.eqb_eq E2%Nat.eqb_eq].
    rewrite (H2 4 (c :: cs)) by done. rewrite E2 in H1. rewrite H1. rewrite Hl, E1. done.
  - rewrite (H2 (col_size c) cs); [|intros d Hd; by apply elem_of_list_further|done].
    rewrite H1, Hl, Nat.eqb_refl. done.
Qed.
Example matrix_of_columns_partial_ex : matrix_of_columns 1 2 3 [Col 1 3; Col 1 3] = Fine ∧ matrix_of_columns 1 4 4 (replicate 4 (Col 1 4)) = Fine.
Proof. split; apply matrix_of_columns_partial; try done; repeat constructor. Qed.
(** ... and from columns with other elements exactly if it has 1 or more than 4 rows. *)
Theorem matrix_of_columns_exact : ∀ t cols rows args,
  0 < cols → length args = cols → Forall (λ c, col_size c = rows) args →
  (matrix_of_columns t cols rows args = Fine ↔ Forall (λ c, col_elem c = t) args ∨ ¬ (2 ≤ rows ≤ 4)).
Proof.
  intros t cols rows args H0 Hl Hs. split.
  - intros H. destruct (decide (2 ≤ rows ≤ 4)) as [Hr|Hr]; [left|by right].
    assert (Hf : forallb (vector_implicit t rows) args = true).
    { unfold matrix_of_columns in H. destruct args as [|c cs]; [cbn in Hl; lia|].
      destruct (Nat.eqb cols 4 && Nat.eqb rows 4) eqn:E.
      - apply andb_true_iff in E as [_ ->%Nat.eqb_eq]. destruct (forallb (λ c, _) (c :: cs)); [|by destruct cs].
        destruct (Nat.leb _ 4); [|done]. by destruct (forallb (vector_implicit t 4) (c :: cs)).
      - destruct (forallb (λ d, _) cs); [|done]. destruct (Nat.eqb (length _) cols); [|done].
        by destruct (forallb (vector_implicit t rows) (c :: cs)). }
    rewrite forallb_forall in Hf. apply Forall_forall. intros c Hc%elem_of_list_In%Hf. unfold vector_implicit in Hc.
    apply andb_true_iff in Hc as [_ Hc]. assert (E : (Nat.leb 2 rows && Nat.leb rows 4) = true) by (apply andb_true_iff; rewrite !Nat.leb_le; lia).
    rewrite E, orb_false_r in Hc. by apply Nat.eqb_eq.
  - intros [H|H].
    + apply matrix_of_columns_partial; [done|]. apply Forall_forall. rewrite Forall_forall in H, Hs. intros c Hc. auto.
    + unfold matrix_of_columns. destruct args as [|c cs]; [done|].
      assert (E : (Nat.eqb cols 4 && Nat.eqb rows 4) = false) by (apply andb_false_iff; rewrite !Nat.eqb_neq; lia). rewrite E.
      assert (Hc : forallb (λ d, Nat.eqb (col_size d) (col_size c)) cs = true).
      { apply Forall_cons in Hs as [-> Hs]. rewrite Forall_forall in Hs. apply forallb_forall. intros d Hd%elem_of_list_In%Hs. by apply Nat.eqb_eq. }
      rewrite Hc, Hl, Nat.eqb_refl. cbn [andb].
      replace (forallb (vector_implicit t rows) (c :: cs)) with true; [done|].
      symmetry. apply forallb_forall. rewrite Forall_forall in Hs. intros d Hd%elem_of_list_In%Hs. unfold vector_implicit. rewrite Hd, Nat.eqb_refl.
      replace (Nat.leb 2 rows && Nat.leb rows 4) with false; [by rewrite orb_true_r|].
      symmetry. apply andb_false_iff. rewrite !Nat.leb_gt. lia.
Qed.
Example matrix_of_columns_exact_ex : matrix_of_columns 1 2 5 [Col 7 5; Col 1 5] = Fine ∧ matrix_of_columns 1 2 3 [Col 7 3; Col 1 3] = Error.
Proof. split; [|done]. apply (matrix_of_columns_exact 1 2 5); [lia|done|repeat constructor|]. right. lia. Qed.
(** The number of columns is checked, except for 4x4 matrices. *)
Theorem matrix_columns_counted : ∀ t cols rows args,
  args ≠ [] → matrix_of_columns t cols rows args = Fine →
  Forall (λ c, col_size c = rows) args ∧ (length args = cols ∨ (cols = 4 ∧ rows = 4 ∧ length args < 4)).
Proof.
  intros t cols rows args Hn H. unfold matrix_of_columns in H. destruct args as [|c cs]; [done|]. set (args := c :: cs) in *.
  assert (Hf : ∀ n, forallb (vector_implicit t n) args = true → Forall (λ c, col_size c = n) args).
  { intros n Hf. rewrite forallb_forall in Hf. apply Forall_forall. intros d Hd%elem_of_list_In%Hf. unfold vector_implicit in Hd.
    apply andb_true_iff in Hd as [Hd%Nat.eqb_eq _]. done. }
  destruct (Nat.eqb cols 4 && Nat.eqb rows 4) eqn:E.
  - apply andb_true_iff in E as [->%Nat.eqb_eq ->%Nat.eqb_eq]. destruct (forallb (λ c, _) args); [|by destruct cs].
    destruct (Nat.leb_spec (length args) 4); [|done]. destruct (forallb (vector_implicit t 4) args) eqn:F; [|done].
    split; [auto|]. destruct (decide (length args = 4)); [auto|]. right. split_and!; lia.
  - destruct (forallb (λ d, _) cs); [|done]. destruct (Nat.eqb_spec (length args) cols) as [E1|]; [|done].
    destruct (forallb (vector_implicit t rows) args) eqn:F; [|done]. auto.
Qed.
Example matrix_columns_counted_ex : matrix_of_columns 1 3 3 [Col 1 3; Col 1 3] = Error ∧ matrix_of_columns 1 3 3 [Col 1 3; Col 1 4; Col 1 3] = NoMatch ∧ matrix_of_columns 1 4 4 (replicate 5 (Col 1 4)) = Error.
Proof. done. Qed.
(** The constructors of 4x4 matrices refuse columns of another size, so that overload
    resolution sees it, if there are several; a single one is taken for a scalar. *)
Theorem matrix4_refuses : ∀ t args, Exists (λ c, col_size c ≠ 4) args →
  matrix_of_columns t 4 4 args = if decide (length args = 1) then Error else NoMatch.
Proof.
  intros t args H. assert (E : forallb (λ c, Nat.eqb (col_size c) 4) args = false).
  { apply not_true_iff_false. rewrite forallb_forall. intros F. apply Exists_exists in H as (c & Hc & Hn).
    apply elem_of_list_In, F, Nat.eqb_eq in Hc. done. }
  destruct args as [|c cs]; [by inversion H|]. unfold matrix_of_columns. cbn [Nat.eqb andb]. rewrite E. by destruct cs.
Qed.
Example matrix4_refuses_ex : matrix_of_columns 1 4 4 [Col 1 3] = Error ∧ matrix_of_columns 1 4 4 [Col 1 4; Col 1 3] = NoMatch.
Proof. split; [apply (matrix4_refuses 1 [Col 1 3]); by left|apply (matrix4_refuses 1 [Col 1 4; Col 1 3]); by right; left]. Qed.
Theorem matrix_of_columns_refuted :
  (∃ t u, t ≠ u ∧ matrix_of_columns t 3 3 [Col u 3; Col u 3; Col u 3] = Error) ∧
  (∃ t, matrix_of_columns t 4 4 [Col t 4; Col t 4] = Fine).
Proof. split; [by exists 0, 1|by exists 0]. Qed.

(** Matrices convert to other element types, but not 4x4 ones. A conversion between other
    sizes than from 3x3 to 4x4 does not compile. *)
Theorem matrix_of_matrix_exact : ∀ t cols rows u ucols urows,
  matrix_of_matrix t cols rows u ucols urows = Fine ↔
  (cols = ucols ∧ rows = urows ∧ (t = u ∨ ¬ (cols = 4 ∧ rows = 4))) ∨ (cols = 4 ∧ rows = 4 ∧ ucols = 3 ∧ urows = 3).
Proof.
  intros. unfold matrix_of_matrix, vector_implicit. cbn.
  destruct (Nat.eqb_spec t u), (Nat.eqb_spec u t), (Nat.eqb_spec cols ucols), (Nat.eqb_spec rows urows), (Nat.eqb_spec cols 4), (Nat.eqb_spec rows 4),
    (Nat.eqb_spec ucols 4), (Nat.eqb_spec urows 4), (Nat.eqb_spec ucols 3), (Nat.eqb_spec urows 3); cbn; try lia.
  all: split; intros H; try done; try lia.
Qed.
Example matrix_of_matrix_exact_ex : matrix_of_matrix 1 3 2 7 3 2 = Fine ∧ matrix_of_matrix 1 4 4 7 3 3 = Fine ∧ matrix_of_matrix 1 3 3 1 4 4 = NoMatch.
Proof. done. Qed.
Theorem matrix_of_matrix_partial : ∀ t cols rows u, ¬ (cols = 4 ∧ rows = 4) → matrix_of_matrix t cols rows u cols rows = Fine.
Proof. intros t cols rows u H. apply matrix_of_matrix_exact. auto. Qed.
Example matrix_of_matrix_partial_ex : matrix_of_matrix 1 4 3 7 4 3 = Fine. Proof. apply matrix_of_matrix_partial. lia. Qed.
Theorem matrix_of_matrix_refuted : ∃ t u cols rows, matrix_of_matrix t cols rows u cols rows = Error.
Proof. by exists 0, 1, 4, 4. Qed.

Definition over_theorems := (construct_from_same, construct_copies_by, copy_initialise_derived, add_unique, add_text, matrix4_refuses, copy_initialise_partial, copy_initialise_refuted, construct_from_derived_partial,
  construct_from_derived_refuted, add_exact, add_number, add_own_partial, add_own_exact, add_own_refuted, push_front_own, push_front_other,
  view_ctor_partial, view_of_view, view_ctor_refuted, view_stride, view_same_stride,
  matrix_of_columns_partial, matrix_of_columns_exact, matrix_columns_counted, matrix_of_columns_refuted, matrix_of_matrix_exact,
  matrix_of_matrix_partial, matrix_of_matrix_refuted).
Print Assumptions over_theorems.
