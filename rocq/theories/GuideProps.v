(** Theorems about the deduced types of views, tuples and pairs. *)
From stdpp Require Import list.
From Coq Require Import Lia.
From Verif Require Import OverModel GuideModel.

(** * Views
    ** Specification *)
(** The elements as they are seen through the argument *)
Definition seen (a : view_arg) : elem :=
  match a with
  | ACArray u _ _ | ARange u _ _ => u
  | AStdArray u _ c _ => Elem (el_core u) (el_const u || c)
  | AView u _ _ _ => u
  end.
(** The size, where it is part of the type *)
Definition known_size (a : view_arg) : option nat :=
  match a with ACArray _ n _ | AStdArray _ n _ _ => Some n | ARange _ _ _ => None | AView _ s _ _ => s end.
(** The elements exist after the expression. *)
Definition outlives (a : view_arg) : Prop :=
  match a with ACArray _ _ lv => lv = true | AStdArray _ _ _ lv => lv = true | ARange _ b lv => b = true ∨ lv = true | AView _ _ _ _ => True end.

(** ** Theorems *)
(** From everything that outlives the view: its elements with their constness, its size if it
    is known, and the constructor compiles. *)
Theorem view_deduced : ∀ base_of a, outlives a →
  deduce_view a = Some (seen a, known_size a) ∧ construct_view base_of (seen a) (known_size a) a = Fine.
Proof.
  intros base_of a Ha. split.
  - destruct a as [[u c] n lv|[u c] n k lv|[u c] b lv|[u c] s k lv]; cbn in Ha; [subst lv|subst lv| |]; try done;
      destruct c; try destruct k; try destruct lv; done.
  - assert (He : ∀ u : nat, Nat.eqb u u = true) by apply Nat.eqb_refl.
    destruct a as [[u c] n lv|[u c] n k lv|[u c] b lv|[u c] s k lv]; cbn in *.
    + subst lv. cbn. rewrite !He. destruct c; done.
    + subst lv. rewrite He. unfold static_casts. cbn. rewrite He, orb_false_r. destruct (c || k); done.
    + destruct Ha as [-> | ->]; rewrite ?orb_true_r; cbn; unfold pointer_converts; cbn; rewrite He; destruct c; done.
    + rewrite He. destruct c, s; rewrite ?He; done.
Qed.
(** From what does not outlive the view nothing is made, if its elements are not const. *)
Theorem view_deduced_temporary_partial : ∀ base_of a t n, ¬ outlives a → el_const (seen a) = false →
  deduce_view a = Some (t, n) → construct_view base_of t n a ≠ Fine.
Proof.
  intros base_of a t n Ha Hc. destruct a as [[u c] k lv|[u c] k d lv|[u c] b lv|[u c] s d lv]; cbn in *.
  - destruct lv; [done|]. subst c. intros [= <- <-]. done.
  - destruct lv; [done|]. apply orb_false_elim in Hc as [-> ->]. intros [= <- <-]. done.
  - destruct b, lv; try (destruct Ha; tauto). intros [= <- <-]. done.
  - done.
Qed.
(** Temporary arrays of const elements are taken: such a view dangles. So are std::arrays that
    are themselves const. *)
Theorem view_deduced_temporary_refuted : ∃ a b, ¬ outlives a ∧ ¬ outlives b ∧
  ∀ base_of, (deduce_view a = Some (Elem 0 true, None) ∧ construct_view base_of (Elem 0 true) None a = Fine) ∧
             (deduce_view b = Some (Elem 0 true, None) ∧ construct_view base_of (Elem 0 true) None b = Fine).
Proof. exists (ACArray (Elem 0 true) 2 false), (AStdArray (Elem 0 false) 2 true false). split_and!; done. Qed.
(** Some type is always deduced, and only C arrays and ranges that are temporary are turned
    down by the constructor; for std::arrays its body does not compile. *)
Theorem view_deduced_temporary : ∀ base_of a, ¬ outlives a → el_const (seen a) = false →
  ∃ t n, deduce_view a = Some (t, n) ∧ construct_view base_of t n a =
    match a with AStdArray _ _ _ _ => Error | _ => NoMatch end.
Proof.
  intros base_of a Ha Hc. destruct a as [[u c] k lv|[u c] k d lv|[u c] b lv|[u c] s d lv]; cbn in *; [| | |done].
  - destruct lv; [done|]. subst c. eexists _, _. split; reflexivity.
  - destruct lv; [done|]. apply orb_false_elim in Hc as [-> ->]. eexists _, _. split; reflexivity.
  - destruct b, lv; try (destruct Ha; tauto). eexists _, _. split; reflexivity.
Qed.
(** An iterator and a count or an end: the elements that the iterator refers to. *)
Theorem view_deduced_iterator : ∀ base_of u e, let '(t, n) := deduce_view2 u e in
  t = u ∧ n = None ∧ (construct_view2 base_of t u e = Fine ↔ e ≠ Other) ∧ construct_view2 base_of t u e ≠ Error.
Proof.
  intros base_of [u c] e. cbn. assert (He : pointer_converts base_of (Elem u c) (Elem u c) = true).
  { unfold pointer_converts. cbn. rewrite Nat.eqb_refl. destruct c; done. }
  unfold construct_view2. rewrite He. destruct e; done.
Qed.

(** * Tuples and pairs
    ** Specification *)
(** The type of the member that holds an argument of type t: std::ref(x) gives a reference to
    x, arrays and functions are held by their address, everything else as a copy that can be
    changed. *)
Inductive holds : ty → ty → Prop :=
| holds_ref t c : holds (TyWrap t c) (TyRef t)
| holds_array t n : holds (TyArray t n) (TyPtr t false)
| holds_fun r : holds (TyFun r) (TyPtr (TyFun r) false)
| holds_class n c : holds (TyClass n c) (TyClass n false)
| holds_ptr t c : holds (TyPtr t c) (TyPtr t false)
| holds_tuple l c : holds (TyTuple l c) (TyTuple l false).
(** The types of expressions *)
Definition expression (t : ty) : Prop := match t with TyRef _ => False | _ => True end.

(** ** Theorems *)
Lemma unwrap_holds t u : expression t → unwrap_ref_decay (by_value t) = u ↔ holds t u.
Proof.
  intros Ht. split.
  - intros <-. destruct t; cbn; try constructor. done.
  - destruct 1; done.
Qed.
Theorem tuple_deduced : ∀ args, Forall expression args → (∀ l c, args ≠ [TyTuple l c]) →
  ∀ ts, deduce_tuple args = ts ↔ Forall2 holds args ts.
Proof.
  intros args He Hn ts.
  assert (Hd : deduce_tuple args = map unwrap_ref_decay (map by_value args)).
  { destruct args as [|[]  [|]]; try done. edestruct Hn; done. }
  rewrite Hd. clear Hd Hn. revert ts. induction He as [|a l Ha _ IH]; intros ts; cbn.
  - split; [intros <-; constructor|]. inversion 1; done.
  - split.
    + intros <-. constructor; [apply unwrap_holds; done|]. apply IH. done.
    + inversion 1 as [|? t ? ts' H1 H2]; subst. apply IH in H2 as <-. apply unwrap_holds in H1 as <-; done.
Qed.
(** Tuple(t) for a Tuple t is a copy, not a Tuple with one element. *)
Theorem tuple_deduced_copy : ∀ l c, deduce_tuple [TyTuple l c] = l.
Proof. done. Qed.
Theorem pair_deduced : ∀ a b t u, expression a → expression b → deduce_pair a b = (t, u) ↔ holds a t ∧ holds b u.
Proof.
  intros a b t u Ha Hb. rewrite <- (unwrap_holds a t), <- (unwrap_holds b u) by done. unfold deduce_pair.
  split; [intros [= -> ->]; done|intros [-> ->]; done].
Qed.

(** * Concrete cases *)
(** tests/container/array_view.cpp:21-37 are among them. *)
Example view_deduced_example : deduce_view (AStdArray (Elem 0 false) 2 true true) = Some (Elem 0 true, Some 2) ∧
  construct_view (λ _ _, false) (Elem 0 true) (Some 2) (AStdArray (Elem 0 false) 2 true true) = Fine.
Proof. apply (view_deduced (λ _ _, false) (AStdArray (Elem 0 false) 2 true true)). done. Qed.
Example view_deduced_copy_example : deduce_view (AView (Elem 0 false) (Some 3) true true) = Some (Elem 0 false, Some 3).
Proof. apply (view_deduced (λ _ _, false)). done. Qed.
Example view_deduced_temporary_partial_example : construct_view (λ _ _, false) (Elem 7 false) None (ARange (Elem 7 false) false false) ≠ Fine.
Proof. apply view_deduced_temporary_partial; [intros [[=]|[=]]|done|done]. Qed.
Example view_deduced_temporary_example : ∃ t n, deduce_view (AStdArray (Elem 0 false) 3 false false) = Some (t, n) ∧
  construct_view (λ _ _, false) t n (AStdArray (Elem 0 false) 3 false false) = Error.
Proof. apply (view_deduced_temporary (λ _ _, false) (AStdArray (Elem 0 false) 3 false false)); done. Qed.
Example view_deduced_iterator_example : construct_view2 (λ _ _, false) (Elem 0 true) (Elem 0 true) Count = Fine.
Proof. apply (view_deduced_iterator (λ _ _, false) (Elem 0 true) Count). done. Qed.
Example tuple_deduced_example :
  deduce_tuple [TyArray (TyClass 0 true) 6; TyWrap (TyClass 1 false) true; TyClass 2 true] =
  [TyPtr (TyClass 0 true) false; TyRef (TyClass 1 false); TyClass 2 false].
Proof. apply tuple_deduced; [repeat constructor|done|]. repeat constructor. Qed.
Example pair_deduced_example : deduce_pair (TyTuple [TyClass 0 false] true) (TyFun (TyClass 0 false)) =
  (TyTuple [TyClass 0 false] false, TyPtr (TyFun (TyClass 0 false)) false).
Proof. apply pair_deduced; [done..|]. split; constructor. Qed.

Definition guide_theorems := (view_deduced, view_deduced_temporary_partial, view_deduced_temporary_refuted, view_deduced_temporary,
  view_deduced_iterator, tuple_deduced, tuple_deduced_copy, pair_deduced).
Print Assumptions guide_theorems.
