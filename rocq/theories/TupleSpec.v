(** Vocabulary for the theorems about xme::Tuple and xme::Pair. *)
From stdpp Require Import list.
From Verif Require Import TupleModel.

(** Tuple [t] has the elements [es], in this order. *)
Definition elems (t : tuple) (es : list elem) : Prop := t.*2 = es ∧ t.*1 = seq 0 (length es).
(** In memory [l] the objects [es] have the values [vs]. *)
Definition values {V} (l : list (option V)) (es : list elem) (vs : list V) : Prop :=
  Forall2 (λ e v, l !! addr e = Some (Some v)) es vs.
(** Tuple [t] has the elements [es] with the values [vs]. *)
Definition holds {V} (l : list (option V)) (t : tuple) (es : list elem) (vs : list V) : Prop :=
  elems t es ∧ values l es vs.
(** The addresses of the elements. *)
Definition addrs (es : list elem) : list nat := map addr es.
(** [r] is the lexicographic comparison of [vs] and [ws]: that of the first
    elements that do not compare equal. *)
Definition lexicographic {V} (cmp : V → V → option comparison) (vs ws : list V) (r : option comparison) : Prop :=
  (r = Some Eq ∧ ∀ i x y, vs !! i = Some x → ws !! i = Some y → cmp x y = Some Eq) ∨
  (r ≠ Some Eq ∧ ∃ i x y, vs !! i = Some x ∧ ws !! i = Some y ∧ cmp x y = r ∧
     ∀ j x' y', j < i → vs !! j = Some x' → ws !! j = Some y' → cmp x' y' = Some Eq).
(** [cmp] is a total order. *)
Record total_order {A} (P : A → Prop) (cmp : A → A → option comparison) : Prop := {
  to_total : ∀ x y, P x → P y → is_Some (cmp x y);
  to_eq : ∀ x y, P x → P y → cmp x y = Some Eq ↔ x = y;
  to_opp : ∀ x y, P x → P y → cmp y x = CompOpp <$> cmp x y;
  to_trans : ∀ x y z, P x → P y → P z → cmp x y = Some Lt → cmp y z = Some Lt → cmp x z = Some Lt }.
(** The address of an element that is an object of its own. *)
Definition own (e : elem) : option nat := match e with Own a => Some a | Ref _ => None end.
(** Element [e'] of a concatenation was made from element [e]: a reference is
    the same reference, an object is an object of its own again. *)
Definition made_from (e e' : elem) : Prop :=
  match e with Ref a => e' = Ref a | Own _ => is_Some (own e') end.
