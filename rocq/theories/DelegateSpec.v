(** What a client of xme::Delegate expects: every delegate holds nothing or a
    functor with its current value. *)
From stdpp Require Import list.
From Verif Require Import DelegateModel.

(** One entry per delegate ever constructed: [None] once destroyed, [Some None]
    while it is empty, [Some (Some (ty, s))] while it holds a functor. *)
Notation dst Ty S := (list (option (option (Ty * S)))).

Section spec.
Context {Ty S A R : Type} `{EqDecision Ty}.
Context (big : Ty → bool) (is_null : Ty → S → bool).
Context (call : Ty → S → A → S * option R).
Definition has (σ : dst Ty S) (i : nat) : option (option (Ty * S)) := mjoin (σ !! i).
Definition given (ty : Ty) (s : S) : option (Ty * S) := if is_null ty s then None else Some (ty, s).
Definition set (σ : dst Ty S) (i : nat) (f : option (Ty * S)) : dst Ty S := <[i := Some f]> σ.

Definition step (o : op Ty S A) (σ : dst Ty S) : option (dst Ty S * out S R) :=
  match o with
  | ONew => Some (σ ++ [Some None], RNew (length σ))
  | ONewFn ty s throws =>
      if throws && negb (is_null ty s) then Some (σ ++ [None], RExn FunctorExn)
      else Some (σ ++ [Some (given ty s)], RNew (length σ))
  | OMoveNew j => f ← has σ j; Some (set σ j None ++ [Some f], RNew (length σ))
  | ODestroy i => _ ← has σ i; Some (<[i := None]> σ, RUnit)
  | OAssign i j => f ← has σ j; _ ← has σ i; Some (set (set σ j None) i f, RUnit)
  | OAssignNull i => _ ← has σ i; Some (set σ i None, RUnit)
  | OAssignFn i ty s throws =>
      (* the assignment is noexcept: a throwing functor ends the program *)
      _ ← has σ i;
      if throws && negb (is_null ty s) then None else Some (set σ i (given ty s), RUnit)
  | OSwap i j => f ← has σ i; g ← has σ j; Some (set (set σ i g) j f, RUnit)
  | OCall i a =>
      f ← has σ i;
      match f with
      | None => Some (σ, RExn BadFunctionCall)
      | Some (ty, s) =>
          let r := call ty s a in
          Some (set σ i (Some (ty, r.1)), match r.2 with Some v => RVal v | None => RExn FunctorExn end)
      end
  | OBool i => f ← has σ i; Some (σ, RBool (match f with Some _ => true | None => false end))
  | OHandle i ty =>
      f ← has σ i;
      match f with
      | Some (ty', s) =>
          if decide (ty' = ty) then (if big ty then None else Some (σ, RFn (Some s)))
          else Some (σ, RFn None)
      | None => Some (σ, RFn None)
      end
  end.
(** Number of delegates holding a functor, and of those whose functor is big. *)
Definition holding (σ : dst Ty S) : nat := length (omap mjoin σ).
Definition holding_big (σ : dst Ty S) : nat := length (filter (λ f, big f.1 = true) (omap mjoin σ)).
End spec.
