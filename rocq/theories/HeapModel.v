(** Model of xme::Heap (include/xme/container/heap.hpp) on top of the Array
    model, for the default container Array<T>.

    Simplifications, valid for every definition below:
    - T is trivially copyable (for other T the underlying Array is broken as soon
      as it grows, see ArrayProps.array_grow_nontrivial_refuted);
    - the comparator [lt] is a pure total function (any function);
    - besides their results, heapfy_up, heapfy_down, push, emplace and pop report
      the number of comparator calls they made (ghost). *)
From stdpp Require Import list.
From Coq Require Import ZArith.
From Verif Require Import Base ArrayModel.
Local Open Scope mon_scope.

Section model.
Context {V : Type} (lt : V → V → bool).
Notation MA := (@MA V).

(** std::ranges::swap of two elements: a temporary and two assignments. *)
Definition swap_refs (p q : ptr) : MA unit :=
  tmp <- load p ;;
  b <- load q ;;
  set_cell p (Live b) ;;;
  set_cell q (Live tmp).

(** heap.hpp:88-91: signed division, so parent(0) = (-1)/2 = 0. *)
Definition parent (i : nat) : nat := Z.to_nat (Z.quot (Z.of_nat i - 1) 2).
(** heap.hpp:93-101 *)
Definition left_child (i : nat) : nat := i * 2 + 1.
Definition right_child (i : nat) : nat := i * 2 + 2.

(** heap.hpp:103-112; [parent_heap] is the loop variable. *)
Fixpoint heapfy_up_loop (fuel : nat) (this index parent_heap : nat) : MA nat :=
  if Nat.eqb index 0 then ret 0 else
  match fuel with
  | O => fail NoFuel
  | S k =>
      a <- at_ this parent_heap ;;
      b <- at_ this index ;;
      if negb (lt a b) then ret 1 else
      p <- ArrayModel.index this parent_heap ;;
      q <- ArrayModel.index this index ;;
      swap_refs p q ;;;
      n <- heapfy_up_loop k this parent_heap (parent parent_heap) ;;
      ret (S n)
  end.
Definition heapfy_up (this index : nat) : MA nat :=
  heapfy_up_loop (S index) this index (parent index).

(** heap.hpp:119-120 and 121-122: one candidate child. *)
Definition pick_child (this swap_index child : nat) : MA (nat * nat) :=
  sz <- size this ;;
  if Nat.ltb child sz then
    a <- at_ this swap_index ;;
    b <- at_ this child ;;
    ret (if lt a b then child else swap_index, 1)
  else ret (swap_index, 0).
(** heap.hpp:114-127 *)
Fixpoint heapfy_down_rec (fuel : nat) (this index : nat) : MA nat :=
  match fuel with
  | O => fail NoFuel
  | S k =>
      l <- pick_child this index (left_child index) ;;
      r <- pick_child this (fst l) (right_child index) ;;
      if Nat.eqb (fst r) index then ret (snd l + snd r) else
      p <- ArrayModel.index this index ;;
      q <- ArrayModel.index this (fst r) ;;
      swap_refs p q ;;;
      n <- heapfy_down_rec k this (fst r) ;;
      ret (snd l + snd r + n)
  end.
Definition heapfy_down (this index : nat) : MA nat :=
  sz <- size this ;; heapfy_down_rec (S sz) this index.

(** heap.hpp:72-76 *)
Definition push (this : nat) (x : arg V) : MA nat :=
  push_back true this x ;;;
  sz <- size this ;;
  heapfy_up this (sz - 1).
(** heap.hpp:81-85 *)
Definition emplace (this : nat) (x : arg V) : MA nat :=
  emplace_back true this x ;;;
  sz <- size this ;;
  heapfy_up this (sz - 1).

(** heap.hpp:62-67 *)
Definition pop (this : nat) : MA nat :=
  sz <- size this ;;
  (if Nat.ltb 0 sz then ret tt else fail AssertFail) ;;;
  p <- begin_ this ;;
  e <- end_ this ;;
  q <- psub e 1 ;;
  swap_refs p q ;;;
  pop_back true this ;;;
  heapfy_down this 0.

(** heap.hpp:32-34 and 45-47 *)
Fixpoint push_all (this : nat) (xs : list (arg V)) : MA unit :=
  match xs with
  | [] => ret tt
  | x :: xs' => push this x ;;; push_all this xs'
  end.
(** heap.hpp:29-35 Heap(first, last) and 41-48 Heap(range); [known] tells
    whether the size is reserved in advance (always for ranges, for contiguous
    iterators otherwise). If anything throws, the member m_array is destroyed. *)
Definition ctor_heap (this : nat) (known : bool) (xs : list (arg V)) : MA unit :=
  on_throw
    ((if known then reserve true this (length xs) else ret tt) ;;;
     push_all this xs)
    (dtor true this).
End model.
