(** The arithmetic of sizes and addresses in xme::Array
    (/repo/include/xme/container/array.hpp) and xme::Heap, which ArrayModel.v and HeapModel.v
    do with naturals: here
    size_t has [b] bits and wraps around, elements have [w] bytes and pointers are addresses
    of bytes.

    Simplifications: what happens to the elements is in ArrayModel.v, and so is which block a
    pointer belongs to; allocators are std::allocator; element operations do not throw. A
    constructor that throws leaves the array that was there before. *)
From Coq Require Import ZArith List.
From stdpp Require Import base.
From Verif Require Import Base.
Import ListNotations.
Local Open Scope Z_scope.
Local Open Scope mon_scope.

Section model.
Context (b w : Z).
(** array.hpp:348-350: the three pointers of ArrayData; [answers]: what the system gives to
    requests for memory, [None] if it has none *)
Record st := St { begin_ : Z; end_ : Z; storage_end : Z; answers : list (option Z) }.
Notation MS := (M st).
(** Conversion to size_t, and the largest ptrdiff_t *)
Definition wrap (z : Z) : Z := z mod 2 ^ b.
Definition pmax : Z := 2 ^ (b - 1) - 1.
Definition check (c : bool) : MS unit := if c then ret tt else fail OutOfBounds.
Definition set (p q r : Z) : MS unit := λ s, Ok tt (St p q r (answers s)).
(** Adding to a pointer and subtracting pointers *)
Definition padd (p n : Z) : MS Z := check (p + n * w <? 2 ^ b) ;;; ret (p + n * w).
Definition pdiff (p q : Z) : MS Z :=
  if (- pmax - 1 <=? (p - q) / w) && ((p - q) / w <=? pmax) then ret (wrap ((p - q) / w)) else fail PtrDiff.
(** icontainer.hpp:62-77 size, array.hpp:121-123 capacity *)
Definition size : MS Z := s <- gets id ;; pdiff (end_ s) (begin_ s).
Definition capacity : MS Z := s <- gets id ;; pdiff (storage_end s) (begin_ s).
(** std::allocator::allocate: more than the largest array throws bad_array_new_length; an
    address whose block would not fit is no answer *)
Definition allocate (n : Z) : MS Z := λ s,
  if pmax / w <? n then Throw s else
  match answers s with
  | Some p :: o => let s' := St (begin_ s) (end_ s) (storage_end s) o in
                   if (0 <? p) && (p + n * w <? 2 ^ b) then Ok p s' else Throw s'
  | _ :: o => Throw (St (begin_ s) (end_ s) (storage_end s) o)
  | [] => Throw s
  end.

(** array.hpp:285-295; the elements are moved into the new block *)
Definition grow_storage (n : Z) : MS unit :=
  old <- size ;; p <- allocate n ;; check (old <=? n) ;;; q <- padd p old ;; r <- padd p n ;; set p q r.
(** 297-307 *)
Definition shrink_storage (n : Z) : MS unit :=
  m <- size ;; let k := Z.min m n in p <- allocate n ;; q <- padd p k ;; r <- padd p n ;; set p q r.
(** 309-332 *)
Definition realloc_insert : MS unit :=
  m <- size ;; let new_size := wrap (m + Z.max m 1) in
  p <- allocate new_size ;; check (m + 1 <=? new_size) ;;; q <- padd p (wrap (m + 1)) ;; r <- padd p new_size ;; set p q r.
(** 254-262 *)
Definition emplace_back : MS unit :=
  s <- gets id ;;
  (if end_ s =? storage_end s then m <- size ;; grow_storage (wrap (m + Z.max m 1)) else ret tt) ;;;
  s <- gets id ;; check (end_ s <? storage_end s) ;;; q <- padd (end_ s) 1 ;; set (begin_ s) q (storage_end s).
(** 160-174, for a position before the end *)
Definition insert : MS unit :=
  s <- gets id ;;
  if end_ s =? storage_end s then realloc_insert else q <- padd (end_ s) 1 ;; set (begin_ s) q (storage_end s).
(** 227-236; the distance of the range is [d], of a signed type that may be wider than size_t *)
Definition push_back (d : Z) : MS unit :=
  m <- size ;; c <- capacity ;; let new_capacity := wrap (m + d) in
  (if c <? new_capacity then grow_storage new_capacity else ret tt) ;;;
  m <- size ;; c <- capacity ;; check (m + d <=? c) ;;;
  s <- gets id ;; q <- padd (end_ s) d ;; set (begin_ s) q (storage_end s).
(** 181-209 *)
Definition insert_range (d : Z) : MS unit :=
  let elements := wrap d in
  m <- size ;; c <- capacity ;;
  if c <? wrap (m + elements) then
    let n := if c =? 0 then elements else wrap (c + elements) in
    p <- allocate n ;; r <- padd p n ;; check (m + d <=? n) ;;; q <- padd p m ;; q <- padd q elements ;; set p q r
  else check (m + d <=? c) ;;; s <- gets id ;; q <- padd (end_ s) elements ;; set (begin_ s) q (storage_end s).
(** 141-144, 148-153 *)
Definition reserve (n : Z) : MS unit := c <- capacity ;; if c <? n then grow_storage n else ret tt.
Definition resize (n : Z) : MS unit :=
  c <- capacity ;; if c <? n then grow_storage n else if n <? c then shrink_storage n else ret tt.
(** 48-53, 56-59, 64-71; uninitialized_copy_a stops at the end of the storage *)
Definition ctor (n : Z) : MS unit := p <- allocate n ;; r <- padd p n ;; set p p r.
Definition ctor_fill (n : Z) : MS unit :=
  ctor n ;;; s <- gets id ;; q <- padd (begin_ s) n ;; set (begin_ s) q (storage_end s).
Definition ctor_range (d : Z) : MS unit :=
  ctor (wrap d) ;;; c <- capacity ;; s <- gets id ;; q <- padd (begin_ s) (Z.min d c) ;; set (begin_ s) q (storage_end s).
(** 246-250, 266-283, 134-137 *)
Definition pop_back : MS unit :=
  m <- size ;; check (0 <? m) ;;; s <- gets id ;; set (begin_ s) (end_ s - w) (storage_end s).
Definition erase (k : Z) : MS unit :=
  m <- size ;; check (k <=? m) ;;; s <- gets id ;; set (begin_ s) (end_ s - wrap k * w) (storage_end s).
Definition clear : MS unit := s <- gets id ;; set (begin_ s) (begin_ s) (storage_end s).

Inductive op :=
  | New (n : Z) | NewFill (n : Z) | NewRange (d : Z) | Reserve (n : Z) | Resize (n : Z) | Push | Insert
  | PushRange (d : Z) | InsertRange (d : Z) | Pop | Erase (k : Z) | Clear.
Definition step (o : op) : MS unit :=
  match o with
  | New n => ctor n | NewFill n => ctor_fill n | NewRange d => ctor_range d
  | Reserve n => reserve n | Resize n => resize n | Push => emplace_back | Insert => insert
  | PushRange d => push_back d | InsertRange d => insert_range d
  | Pop => pop_back | Erase k => erase k | Clear => clear
  end.
(** 39: the default constructor *)
Definition empty (o : list (option Z)) : st := St 0 0 0 o.

(** /repo/include/xme/container/heap.hpp:89-101, the indices of a heap: [parent] converts its
    argument to ptrdiff_t and its result to size_t (line 109) *)
Definition signed (z : Z) : Z := if z <? 2 ^ (b - 1) then z else z - 2 ^ b.
Definition parent (index : Z) : Z := wrap (Z.quot (signed index - 1) 2).
Definition left_child (index : Z) : Z := wrap (wrap (index * 2) + 1).
Definition right_child (index : Z) : Z := wrap (wrap (index * 2) + 2).
End model.
