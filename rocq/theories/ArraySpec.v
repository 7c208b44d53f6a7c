(** Specification of xme::Array, independent of the memory model: programs over
    numbered arrays act on plain lists. *)
From stdpp Require Import list.

Section spec.
Context {V : Type}.

(** Programs: the client's view of the API. Positions are indices. *)
Inductive op :=
| ODefault | OCap (n : nat) | OFill (n : nat) (v : V) | ORange (l : list V)
| OCopy (j : nat) | OMove (j : nat)
| ODestroy (i : nat)
| OAssignCopy (i j : nat) | OAssignMove (i j : nat) | OAssignList (i : nat) (l : list V)
| OSwap (i j : nat) | OClear (i : nat) | OReserve (i n : nat) | OResize (i n : nat)
| OInsert (i k : nat) (v : V) | OInsertRange (i k : nat) (l : list V)
| OPush (i : nat) (v : V) | OEmplace (i : nat) (v : V) | OPushRange (i : nat) (l : list V)
| OPop (i : nat) | OErase (i k : nat) | OEraseRange (i k m : nat)
| OGet (i k : nat) | OFront (i : nat) | OBack (i : nat) | OSize (i : nat) | OEmpty (i : nat)
| OCapacity (i : nat) | OToList (i : nat).

(** What a call returns to the client; iterators are reported as indices. *)
Inductive out := RUnit | RIdx (k : nat) | RVal (v : V) | RNat (n : nat) | RBool (b : bool)
               | RList (l : list V) | RNew (i : nat).

(** An array is a sequence with a capacity. [Broken]: the state documented as
    unspecified, left by an in-place range insert whose element constructor threw. *)
Inductive aobj := Good (l : list V) (cap : nat) | Broken (cap : nat).
Notation astore := (list (option aobj)).

Definition acap (x : aobj) : nat := match x with Good _ c => c | Broken c => c end.

(** The growth policy of single insertions. *)
Definition grown (l : list V) (cap : nat) : nat :=
  if Nat.eqb (length l) cap then length l + Nat.max (length l) 1 else cap.
(** Capacity after inserting [n] elements in the middle / at the end at once. *)
Definition grown_mid (l : list V) (cap n : nat) : nat :=
  if Nat.ltb cap (length l + n) then cap + n else cap.
Definition grown_end (l : list V) (cap n : nat) : nat := Nat.max cap (length l + n).

Definition upd (σ : astore) (i : nat) (x : aobj) : astore := <[i := Some x]> σ.

Definition get_good (σ : astore) (i : nat) : option (list V * nat) :=
  match σ !! i with Some (Some (Good l c)) => Some (l, c) | _ => None end.
Definition get_any (σ : astore) (i : nat) : option aobj :=
  match σ !! i with Some (Some x) => Some x | _ => None end.

Definition guard_ {A} (b : bool) (x : option A) : option A := if b then x else None.

(** Normal effect of a call; [None] when the documented precondition fails. *)
Definition spec_step (o : op) (σ : astore) : option (astore * out) :=
  match o with
  | ODefault => Some (σ ++ [Some (Good [] 0)], RNew (length σ))
  | OCap n => Some (σ ++ [Some (Good [] n)], RNew (length σ))
  | OFill n v => Some (σ ++ [Some (Good (replicate n v) n)], RNew (length σ))
  | ORange l => Some (σ ++ [Some (Good l (length l))], RNew (length σ))
  | OCopy j => '(l, _) ← get_good σ j; Some (σ ++ [Some (Good l (length l))], RNew (length σ))
  | OMove j => x ← get_any σ j; Some (upd σ j (Good [] 0) ++ [Some x], RNew (length σ))
  | ODestroy i => _ ← get_any σ i; Some (<[i := None]> σ, RUnit)
  | OAssignCopy i j =>
      _ ← get_any σ i; '(l, _) ← get_good σ j; Some (upd σ i (Good l (length l)), RUnit)
  | OAssignMove i j =>
      _ ← get_any σ i; x ← get_any σ j; Some (upd (upd σ j (Good [] 0)) i x, RUnit)
  | OAssignList i l => _ ← get_any σ i; Some (upd σ i (Good l (length l)), RUnit)
  | OSwap i j => x ← get_any σ i; y ← get_any σ j; Some (upd (upd σ i y) j x, RUnit)
  | OClear i => x ← get_any σ i; Some (upd σ i (Good [] (acap x)), RUnit)
  | OReserve i n => '(l, c) ← get_good σ i; Some (upd σ i (Good l (Nat.max c n)), RUnit)
  | OResize i n => '(l, c) ← get_good σ i; Some (upd σ i (Good (take n l) n), RUnit)
  | OInsert i k v =>
      '(l, c) ← get_good σ i;
      guard_ (Nat.leb k (length l))
        (Some (upd σ i (Good (take k l ++ v :: drop k l) (grown l c)), RIdx k))
  | OInsertRange i k xs =>
      '(l, c) ← get_good σ i;
      guard_ (Nat.leb k (length l))
        (Some (upd σ i (Good (take k l ++ xs ++ drop k l) (grown_mid l c (length xs))), RIdx k))
  | OPush i v => '(l, c) ← get_good σ i; Some (upd σ i (Good (l ++ [v]) (grown l c)), RUnit)
  | OEmplace i v =>
      '(l, c) ← get_good σ i; Some (upd σ i (Good (l ++ [v]) (grown l c)), RIdx (length l))
  | OPushRange i xs =>
      '(l, c) ← get_good σ i;
      Some (upd σ i (Good (l ++ xs) (grown_end l c (length xs))), RUnit)
  | OPop i =>
      '(l, c) ← get_good σ i;
      guard_ (Nat.ltb 0 (length l)) (Some (upd σ i (Good (take (length l - 1) l) c), RUnit))
  | OErase i k =>
      '(l, c) ← get_good σ i;
      guard_ (Nat.ltb k (length l))
        (Some (upd σ i (Good (take k l ++ drop (S k) l) c), RIdx k))
  | OEraseRange i k m =>
      '(l, c) ← get_good σ i;
      guard_ (Nat.leb k m && Nat.leb m (length l))
        (Some (upd σ i (Good (take k l ++ drop m l) c), RIdx k))
  | OGet i k => '(l, _) ← get_good σ i; v ← l !! k; Some (σ, RVal v)
  | OFront i => '(l, _) ← get_good σ i; v ← head l; Some (σ, RVal v)
  | OBack i => '(l, _) ← get_good σ i; v ← last l; Some (σ, RVal v)
  | OSize i => '(l, _) ← get_good σ i; Some (σ, RNat (length l))
  | OEmpty i => '(l, _) ← get_good σ i; Some (σ, RBool (Nat.eqb (length l) 0))
  | OCapacity i => x ← get_any σ i; Some (σ, RNat (acap x))
  | OToList i => '(l, _) ← get_good σ i; Some (σ, RList l)
  end.

(** Possible states after the call has thrown (allocation failure or throwing
    element constructor). *)
Definition spec_throw (o : op) (σ σ' : astore) : Prop :=
  match o with
  | OPush i v | OEmplace i v =>
      ∃ l c, get_good σ i = Some (l, c) ∧
        (σ' = σ ∨ σ' = upd σ i (Good l (grown l c)))
  | OPushRange i xs =>
      ∃ l c, get_good σ i = Some (l, c) ∧
        (σ' = σ ∨ ∃ k, k < length xs ∧
                       σ' = upd σ i (Good (l ++ take k xs) (grown_end l c (length xs))))
  | OInsert i k v =>
      ∃ l c, get_good σ i = Some (l, c) ∧
        (σ' = σ ∨
         (k = length l ∧ σ' = upd σ i (Good l (grown l c))) ∨
         (∃ x, l !! k = Some x ∧ length l < c ∧
               σ' = upd σ i (Good (take k l ++ x :: drop k l) c)))
  | OInsertRange i k xs =>
      ∃ l c, get_good σ i = Some (l, c) ∧
        (if Nat.ltb c (length l + length xs) then σ' = σ else σ' = upd σ i (Broken c))
  | OCap _ | OFill _ _ | ORange _ | OCopy _
  | OAssignCopy _ _ | OAssignList _ _ | OReserve _ _ | OResize _ _ => σ' = σ
  | _ => False
  end.

Inductive outcome := Ret (r : out) | Exn.

(** A client: decides the next call from the outcomes of the previous ones. *)
Inductive prog := Done | Do (o : op) (k : outcome → prog).

Inductive spec_run : prog → astore → list outcome → astore → Prop :=
| sr_done σ : spec_run Done σ [] σ
| sr_ret o k σ σ1 r rs σ2 :
    spec_step o σ = Some (σ1, r) → spec_run (k (Ret r)) σ1 rs σ2 →
    spec_run (Do o k) σ (Ret r :: rs) σ2
| sr_exn o k σ σ1 rs σ2 :
    spec_throw o σ σ1 → spec_run (k Exn) σ1 rs σ2 →
    spec_run (Do o k) σ (Exn :: rs) σ2.

(** A client is valid when every call meets its precondition in every state
    the specification allows it to be executed in. *)
Fixpoint valid (p : prog) (σ : astore) : Prop :=
  match p with
  | Done => True
  | Do o k =>
      (∃ σ1 r, spec_step o σ = Some (σ1, r) ∧ valid (k (Ret r)) σ1) ∧
      (∀ σ1, spec_throw o σ σ1 → valid (k Exn) σ1)
  end.

(** Calls that do not relocate or shift existing elements into raw memory:
    growing or shrinking the storage only when no element survives the call (or
    not at all), inserting a range only at the end of the storage in use (or
    nothing), erasing only at the end (or nothing). *)
Definition gentle (o : op) (σ : astore) : Prop :=
  match o with
  | OReserve i n => ∃ l c, get_good σ i = Some (l, c) ∧ (l = [] ∨ n ≤ c)
  | OResize i n => ∃ l c, get_good σ i = Some (l, c) ∧ (l = [] ∨ n = 0 ∨ n = c)
  | OPush i _ | OEmplace i _ | OInsert i _ _ =>
      ∃ l c, get_good σ i = Some (l, c) ∧ (l = [] ∨ length l < c)
  | OPushRange i xs => ∃ l c, get_good σ i = Some (l, c) ∧ (l = [] ∨ length l + length xs ≤ c)
  | OInsertRange i k xs => ∃ l c, get_good σ i = Some (l, c) ∧
      (l = [] ∨ xs = [] ∨ (k = length l ∧ length l + length xs ≤ c))
  | OErase i k => ∃ l c, get_good σ i = Some (l, c) ∧ S k = length l
  | OEraseRange i k m => ∃ l c, get_good σ i = Some (l, c) ∧ (m = length l ∨ k = m)
  | _ => True
  end.

(** Straight-line programs in which nothing throws: list semantics. *)
Fixpoint spec_exec (os : list op) (σ : astore) : option (list out * astore) :=
  match os with
  | [] => Some ([], σ)
  | o :: os' =>
      '(σ1, r) ← spec_step o σ; '(rs, σ2) ← spec_exec os' σ1; Some (r :: rs, σ2)
  end.
Fixpoint all_gentle (os : list op) (σ : astore) : Prop :=
  match os with
  | [] => True
  | o :: os' => gentle o σ ∧ ∀ σ1 r, spec_step o σ = Some (σ1, r) → all_gentle os' σ1
  end.
End spec.
Arguments op : clear implicits.
Arguments out : clear implicits.
Arguments aobj : clear implicits.
Notation astore V := (list (option (aobj V))).
Arguments outcome : clear implicits.
Arguments prog : clear implicits.
