(** Specification of xme::Heap: a heap is a sequence of elements; calls fix the
    elements only up to order, except that the first one is a maximum. *)
From stdpp Require Import list.

Section spec.
Context {V : Type} (lt : V → V → bool).

(** A strict weak order, as the C++ standard defines it. *)
Record strict_weak : Prop := {
  sw_irrefl : ∀ x, lt x x = false;
  sw_trans : ∀ x y z, lt x y = true → lt y z = true → lt x z = true;
  sw_incomp : ∀ x y z, lt x y = false → lt y x = false → lt y z = false → lt z y = false →
                lt x z = false ∧ lt z x = false
}.

(** Nothing is greater than the first element. *)
Definition max_first (l : list V) : Prop :=
  ∀ x y, head l = Some x → y ∈ l → lt x y = false.

Inductive op :=
| HDefault | HRange (known : bool) (vs : list V) | HCopy (j : nat) | HMove (j : nat) | HDestroy (i : nat)
| HAssignCopy (i j : nat) | HAssignMove (i j : nat)
| HPush (i : nat) (v : V) | HEmplace (i : nat) (v : V) | HPop (i : nat)
| HFront (i : nat) | HSize (i : nat) | HEmpty (i : nat) | HToList (i : nat).
Inductive out := RUnit | RVal (v : V) | RNat (n : nat) | RBool (b : bool) | RList (l : list V) | RNew (i : nat).

(** Numbered heaps; None once destroyed. *)
Notation hst := (list (option (list V))).
Definition get (σ : hst) (i : nat) : option (list V) :=
  match σ !! i with Some (Some l) => Some l | _ => None end.
Definition put (σ : hst) (i : nat) (l : list V) : hst := <[i := Some l]> σ.

Definition pre (o : op) (σ : hst) : Prop :=
  match o with
  | HDefault | HRange _ _ => True
  | HCopy i | HMove i | HDestroy i | HPush i _ | HEmplace i _ | HSize i | HEmpty i | HToList i =>
      is_Some (get σ i)
  | HAssignCopy i j | HAssignMove i j => is_Some (get σ i) ∧ is_Some (get σ j)
  | HPop i | HFront i => ∃ l, get σ i = Some l ∧ l ≠ []
  end.

(** A heap with the elements [l]. *)
Definition heap_of (l l' : list V) : Prop := l' ≡ₚ l ∧ (strict_weak → max_first l').

Definition rstep (o : op) (σ : hst) (r : out) (σ' : hst) : Prop :=
  match o with
  | HDefault => r = RNew (length σ) ∧ σ' = σ ++ [Some []]
  | HRange _ vs => r = RNew (length σ) ∧ ∃ l', heap_of vs l' ∧ σ' = σ ++ [Some l']
  | HCopy j => r = RNew (length σ) ∧ ∃ l, get σ j = Some l ∧ σ' = σ ++ [Some l]
  | HMove j => r = RNew (length σ) ∧ ∃ l, get σ j = Some l ∧ σ' = put σ j [] ++ [Some l]
  | HDestroy i => r = RUnit ∧ σ' = <[i := None]> σ
  | HAssignCopy i j => r = RUnit ∧ ∃ l, get σ j = Some l ∧ σ' = put σ i l
  | HAssignMove i j => r = RUnit ∧ ∃ l, get σ j = Some l ∧ σ' = put (put σ j []) i l
  | HPush i v | HEmplace i v =>
      r = RUnit ∧ ∃ l l', get σ i = Some l ∧ heap_of (v :: l) l' ∧ σ' = put σ i l'
  | HPop i => r = RUnit ∧ ∃ x l l', get σ i = Some (x :: l) ∧ heap_of l l' ∧ σ' = put σ i l'
  | HFront i => σ' = σ ∧ ∃ x l, get σ i = Some (x :: l) ∧ r = RVal x
  | HSize i => σ' = σ ∧ ∃ l, get σ i = Some l ∧ r = RNat (length l)
  | HEmpty i => σ' = σ ∧ ∃ l, get σ i = Some l ∧ r = RBool (Nat.eqb (length l) 0)
  | HToList i => σ' = σ ∧ ∃ l, get σ i = Some l ∧ r = RList l
  end.
(** A call that throws changes nothing. *)
Definition exn (o : op) (σ σ' : hst) : Prop :=
  match o with
  | HRange _ _ | HCopy _ | HAssignCopy _ _ | HPush _ _ | HEmplace _ _ => σ' = σ
  | _ => False
  end.
End spec.
Arguments op : clear implicits.
Arguments out : clear implicits.
Notation hst V := (list (option (list V))).
