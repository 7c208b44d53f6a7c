(** The accessors that containers inherit: /repo/include/xme/container/icontainer.hpp, and
    which of them Array, LinkedList, ArrayView and Heap have.

    Simplifications: a range is described by the strongest concept of its iterators, whether
    these can be subtracted, whether they give write access, and its length; elements are
    described by their positions; the concepts of range-v3 are those of std with the same
    name. *)
From stdpp Require Import list.
From Coq Require Import ZArith.
From Verif Require Import ReqModel.

(** What begin() and end() give *)
Record rng := Rng { r_level : level; r_sized : bool; r_writes : bool }.
(** A class D that derives from IContainer<D>: begin() and end() of an object that is not
    const, and of one that is; [None]: there are none. *)
Record derived := Derived { d_plain : option rng; d_const : option rng }.

Inductive accessor := Index (i : Z) | Empty | Data | Size | Front | Back.
(** The requires-clauses, for D or for const D: 15 and 22 of operator[], 29 and 39 of empty,
    49 and 56 of data, 63-64 and 71-73 of size, 80 and 87 of front, 94 and 101 of back *)
Definition allows (a : accessor) (r : rng) : bool :=
  match a with
  | Index _ => at_least RandomAccess (r_level r)
  | Empty | Front => at_least Forward (r_level r)
  | Data => at_least Contiguous (r_level r)
  | Size => at_least Forward (r_level r) && r_sized r
  | Back => at_least Bidirectional (r_level r)
  end.
Definition allows' (a : accessor) (r : option rng) : bool := match r with Some r => allows a r | None => false end.
(** Each accessor has an overload for objects that are not const, which is better for them,
    and one for const objects; the range that the chosen one uses. *)
Definition chosen (d : derived) (const : bool) (a : accessor) : option rng :=
  if negb const && allows' a (d_plain d) then d_plain d
  else if allows' a (d_const d) then d_const d else None.

(** A reference to the element at a position or a pointer to it, and whether it gives write
    access; a number; a truth value *)
Inductive result := Reference (position : nat) (writes : bool) | Pointer (position : nat) (writes : bool)
  | Number (n : nat) | Truth (b : bool) | Undefined.
Definition deref (n position : nat) (writes : bool) : result :=
  if Nat.ltb position n then Reference position writes else Undefined.
(** icontainer.hpp:13-25 [], 27-45 empty, 47-59 data, 61-76 size, 78-90 front, 92-104 back,
    for a range of [n] elements. prev(end) of an empty range is undefined. *)
Definition body (a : accessor) (r : rng) (n : nat) : result :=
  let '(first, last) := (0, n) in
  match a with
  | Index i => if Z.ltb i 0 then Undefined else deref n (first + Z.to_nat i) (r_writes r)
  | Empty => if r_sized r then Truth (Nat.eqb (last - first) 0) else Truth (Nat.eqb first last)
  | Data => Pointer first (r_writes r)
  | Size => Number (last - first)
  | Front => deref n first (r_writes r)
  | Back => if Nat.eqb last 0 then Undefined else deref n (last - 1) (r_writes r)
  end.
(** [None]: the call does not compile. *)
Definition call (d : derived) (const : bool) (a : accessor) (n : nat) : option result :=
  match chosen d const a with Some r => Some (body a r n) | None => None end.

(** ** The containers *)
(** - Array: array.hpp:97-115; the iterators 357-432 are contiguous (366) and can be subtracted
    - LinkedList: linked_list.hpp:114-122; linked_list_base.hpp:29 and 73: forward iterators
      that cannot
    - ArrayView<T>: array_view.hpp:119-142; T may be const. Its size() 145-148 hides the
      inherited one and gives the same.
    - Heap: heap.hpp:50-58, only for const *)
Inductive container := AnArray | ALinkedList | AnArrayView (of_const : bool) | AHeap.
Definition class_of (c : container) : derived :=
  match c with
  | AnArray => Derived (Some (Rng Contiguous true true)) (Some (Rng Contiguous true false))
  | ALinkedList => Derived (Some (Rng Forward false true)) (Some (Rng Forward false false))
  | AnArrayView k => Derived (Some (Rng Contiguous true (negb k))) (Some (Rng Contiguous true false))
  | AHeap => Derived (Some (Rng Contiguous true false)) (Some (Rng Contiguous true false))
  end.

(** ** Views of views *)
(** What a call on a view, const or not, gives: all but copying are const members;
    array_view.hpp:157-183, 186-189, 192-205 subview, first and last give a view of the same T;
    as_bytes (229-236) one of const bytes; as_writable_bytes (239-247) one of bytes, if T is not
    const; a copy has the same type. *)
Inductive derive := Subview | First | Last | Copy | AsBytes | AsWritableBytes.
Definition sub_view (of_const const : bool) (w : derive) : option container :=
  match w with
  | Subview | First | Last | Copy => Some (AnArrayView of_const)
  | AsBytes => Some (AnArrayView true)
  | AsWritableBytes => if of_const then None else Some (AnArrayView false)
  end.
