(** Model of xme::ReverseIterator, xme::ConstIterator and Array::Iterator
    (/repo/include/xme/core/iterators/reverse_iterator.hpp, const_iterator.hpp,
     /repo/include/xme/container/array.hpp:358-433).

    An iterator class is the record of its operations; the two adaptors are
    functions from such records to such records, as the class templates are.
    Dereferencing gives an lvalue, i.e. an address of type [A].

    Simplifications: operators that modify the iterator return its new value;
    type-level members (categories, reference types) are not modelled. *)
From stdpp Require Import list.
From Coq Require Import ZArith Lia.
From Verif Require Import Base.
Local Open Scope Z_scope.
Local Open Scope mon_scope.

Record iter (St A It : Type) := Iter {
  i_pointer : bool;                        (** std::is_pointer_v<It> *)
  i_contiguous : bool;                     (** std::contiguous_iterator<It> *)
  i_arrow : It → M St A;                   (** it.operator->(), or [it] itself for a pointer *)
  i_deref : It → M St A;                   (** *it *)
  i_incr : It → M St It;                   (** ++it *)
  i_pincr : It → M St (It * It);           (** it++: the result and the new value of [it] *)
  i_decr : It → M St It;                   (** --it *)
  i_pdecr : It → M St (It * It);           (** it-- *)
  i_add : It → Z → M St It;                (** it + n *)
  i_radd : Z → It → M St It;               (** n + it *)
  i_sub : It → Z → M St It;                (** it - n *)
  i_addeq : It → Z → M St It;              (** it += n *)
  i_subeq : It → Z → M St It;              (** it -= n *)
  i_diff : It → It → M St Z;               (** a - b *)
  i_index : It → Z → M St A;               (** it[n] *)
  i_eq : It → It → M St bool;              (** a == b *)
  i_cmp : It → It → M St comparison;       (** a <=> b *)
}.
Arguments i_pointer {_ _ _}. Arguments i_contiguous {_ _ _}. Arguments i_arrow {_ _ _}.
Arguments i_deref {_ _ _}. Arguments i_incr {_ _ _}. Arguments i_pincr {_ _ _}.
Arguments i_decr {_ _ _}. Arguments i_pdecr {_ _ _}. Arguments i_add {_ _ _}.
Arguments i_radd {_ _ _}. Arguments i_sub {_ _ _}. Arguments i_addeq {_ _ _}.
Arguments i_subeq {_ _ _}. Arguments i_diff {_ _ _}. Arguments i_index {_ _ _}.
Arguments i_eq {_ _ _}. Arguments i_cmp {_ _ _}.

(* ------------------------------------------------------------------ *)
(** * Pointers into an array

    The state is the array; a pointer is a position in it. [expr.add]: the
    result of pointer arithmetic must stay in [0, length]. *)
Section pointer.
Context {V : Type}.
Definition p_move (p n : Z) : M (list V) Z := fun l =>
  if (0 <=? p + n) && (p + n <=? Z.of_nat (length l)) then Ok (p + n) l else UB OutOfBounds.
Definition p_deref (p : Z) : M (list V) Z := fun l =>
  if (0 <=? p) && (p <? Z.of_nat (length l)) then Ok p l else UB OutOfBounds.
Definition pointer : iter (list V) Z Z := Iter (list V) Z Z
  true true
  (λ p, ret p) p_deref
  (λ p, p_move p 1) (λ p, q <- p_move p 1 ;; ret (p, q))
  (λ p, p_move p (-1)) (λ p, q <- p_move p (-1) ;; ret (p, q))
  p_move (λ n p, p_move p n) (λ p n, p_move p (- n)) p_move (λ p n, p_move p (- n))
  (λ p q, ret (p - q)) (λ p n, q <- p_move p n ;; p_deref q)
  (λ p q, ret (p =? q)) (λ p q, ret (p ?= q)).

(** Reading and assigning through an lvalue. *)
Definition read (p : Z) : M (list V) V := fun l =>
  match l !! Z.to_nat p with
  | Some v => if 0 <=? p then Ok v l else UB OutOfBounds
  | None => UB OutOfBounds
  end.
Definition write (p : Z) (v : V) : M (list V) unit := fun l =>
  if (0 <=? p) && (p <? Z.of_nat (length l)) then Ok tt (<[Z.to_nat p := v]> l) else UB OutOfBounds.
End pointer.

(* ------------------------------------------------------------------ *)
(** * Array::Iterator, array.hpp:358-433 *)

Record array_it := ArrayIt { m_cursor : Z }.
Section array.
Context {V : Type}.
Notation P := (pointer (V := V)).
Definition array_iterator : iter (list V) Z array_it := Iter (list V) Z array_it
  false true
  (λ it, ret (m_cursor it))                                          (* 380 operator-> *)
  (λ it, i_deref P (m_cursor it))                                    (* 382 operator* *)
  (λ it, q <- i_incr P (m_cursor it) ;; ret (ArrayIt q))             (* 384-387 ++it *)
  (λ it, r <- i_pincr P (m_cursor it) ;; ret (ArrayIt (fst r), ArrayIt (snd r)))   (* 389 it++ *)
  (λ it, q <- i_decr P (m_cursor it) ;; ret (ArrayIt q))             (* 391-394 --it *)
  (λ it, r <- i_pdecr P (m_cursor it) ;; ret (ArrayIt (fst r), ArrayIt (snd r)))   (* 396 it-- *)
  (λ it n, q <- i_add P (m_cursor it) n ;; ret (ArrayIt q))          (* 398 it + n *)
  (λ n it, q <- i_radd P n (m_cursor it) ;; ret (ArrayIt q))         (* 400-402 n + it *)
  (λ it n, q <- i_sub P (m_cursor it) n ;; ret (ArrayIt q))          (* 404 it - n *)
  (λ it n, q <- i_addeq P (m_cursor it) n ;; ret (ArrayIt q))        (* 414-417 it += n *)
  (λ it n, q <- i_subeq P (m_cursor it) n ;; ret (ArrayIt q))        (* 419-422 it -= n *)
  (λ a b, i_diff P (m_cursor a) (m_cursor b))                        (* 410-412 a - b *)
  (λ it n, i_index P (m_cursor it) n)                                (* 424 it[n] *)
  (λ a b, i_eq P (m_cursor a) (m_cursor b))                          (* 426 == default *)
  (λ a b, i_cmp P (m_cursor a) (m_cursor b)).                        (* 428 <=> default *)
End array.

(* ------------------------------------------------------------------ *)
(** * ReverseIterator<It> *)

Record rev_it (It : Type) := RevIt { r_current : It }.
Arguments RevIt {_}. Arguments r_current {_}.
Section reverse.
Context {St A It : Type} (I : iter St A It).
(** reverse_iterator.hpp:33-40 operator-> *)
Definition rev_arrow (it : rev_it It) : M St A :=
  if i_pointer I then q <- i_sub I (r_current it) 1 ;; i_arrow I q
  else tmp <- i_decr I (r_current it) ;; i_arrow I tmp.
(** reverse_iterator.hpp:41-48 operator* *)
Definition rev_deref (it : rev_it It) : M St A :=
  if i_pointer I then q <- i_sub I (r_current it) 1 ;; i_deref I q
  else tmp <- i_decr I (r_current it) ;; i_deref I tmp.
(** reverse_iterator.hpp:50-70 ++, -- *)
Definition rev_incr (it : rev_it It) : M St (rev_it It) :=
  c <- i_decr I (r_current it) ;; ret (RevIt c).
Definition rev_pincr (it : rev_it It) : M St (rev_it It * rev_it It) :=
  let tmp := it in c <- i_decr I (r_current it) ;; ret (tmp, RevIt c).
Definition rev_decr (it : rev_it It) : M St (rev_it It) :=
  c <- i_incr I (r_current it) ;; ret (RevIt c).
Definition rev_pdecr (it : rev_it It) : M St (rev_it It * rev_it It) :=
  let tmp := it in c <- i_incr I (r_current it) ;; ret (tmp, RevIt c).
(** reverse_iterator.hpp:72-88 it + n, n + it, it - n *)
Definition rev_add (it : rev_it It) (n : Z) : M St (rev_it It) :=
  c <- i_sub I (r_current it) n ;; ret (RevIt c).
Definition rev_radd (n : Z) (it : rev_it It) : M St (rev_it It) :=
  c <- i_sub I (r_current it) n ;; ret (RevIt c).
Definition rev_sub (it : rev_it It) (n : Z) : M St (rev_it It) :=
  c <- i_add I (r_current it) n ;; ret (RevIt c).
(** reverse_iterator.hpp:90-94 n - it *)
Definition rev_rsub (n : Z) (it : rev_it It) : M St (rev_it It) :=
  c <- i_radd I n (r_current it) ;; ret (RevIt c).
(** reverse_iterator.hpp:96-100 lhs - rhs *)
Definition rev_diff (lhs rhs : rev_it It) : M St Z := i_diff I (r_current rhs) (r_current lhs).
(** reverse_iterator.hpp:102-114 +=, -= *)
Definition rev_addeq (it : rev_it It) (n : Z) : M St (rev_it It) :=
  c <- i_subeq I (r_current it) n ;; ret (RevIt c).
Definition rev_subeq (it : rev_it It) (n : Z) : M St (rev_it It) :=
  c <- i_addeq I (r_current it) n ;; ret (RevIt c).
(** reverse_iterator.hpp:116-120 it[n] *)
Definition rev_index (it : rev_it It) (n : Z) : M St A := q <- rev_add it n ;; rev_deref q.
(** reverse_iterator.hpp:122-124 defaulted == and <=> compare m_current *)
Definition rev_eq (lhs rhs : rev_it It) : M St bool := i_eq I (r_current lhs) (r_current rhs).
Definition rev_cmp (lhs rhs : rev_it It) : M St comparison := i_cmp I (r_current lhs) (r_current rhs).
Definition reverse_iterator : iter St A (rev_it It) := Iter St A (rev_it It)
  false false rev_arrow rev_deref rev_incr rev_pincr rev_decr rev_pdecr rev_add rev_radd rev_sub
  rev_addeq rev_subeq rev_diff rev_index rev_eq rev_cmp.
End reverse.
(** reverse_iterator.hpp:126-136 == and <=> between ReverseIterators of different
    iterator types over the same array: they compare the results of operator-> *)
Section mixed.
Context {St It1 It2 : Type} (I1 : iter St Z It1) (I2 : iter St Z It2).
Definition rev_eq_mixed (lhs : rev_it It1) (rhs : rev_it It2) : M St bool :=
  p <- rev_arrow I1 lhs ;; q <- rev_arrow I2 rhs ;; ret (p =? q).
Definition rev_cmp_mixed (lhs : rev_it It1) (rhs : rev_it It2) : M St comparison :=
  p <- rev_arrow I1 lhs ;; q <- rev_arrow I2 rhs ;; ret (p ?= q).
End mixed.

(* ------------------------------------------------------------------ *)
(** * ConstIterator<It> *)

Record const_it (It : Type) := ConstIt { c_current : It }.
Arguments ConstIt {_}. Arguments c_current {_}.
Section const.
Context {St A It : Type} (I : iter St A It).
(** const_iterator.hpp:47-54 operator->: to_address, else addressof of *m_current *)
Definition const_arrow (it : const_it It) : M St A :=
  if i_contiguous I then i_arrow I (c_current it) else i_deref I (c_current it).
(** const_iterator.hpp:54 operator* *)
Definition const_deref (it : const_it It) : M St A := i_deref I (c_current it).
(** const_iterator.hpp:56-82 ++, -- *)
Definition const_incr (it : const_it It) : M St (const_it It) :=
  c <- i_incr I (c_current it) ;; ret (ConstIt c).
Definition const_pincr (it : const_it It) : M St (const_it It * const_it It) :=
  let tmp := it in it' <- const_incr it ;; ret (tmp, it').
Definition const_decr (it : const_it It) : M St (const_it It) :=
  c <- i_decr I (c_current it) ;; ret (ConstIt c).
Definition const_pdecr (it : const_it It) : M St (const_it It * const_it It) :=
  let tmp := it in it' <- const_decr it ;; ret (tmp, it').
(** const_iterator.hpp:84-101 it + n, n + it, it - n *)
Definition const_add (it : const_it It) (n : Z) : M St (const_it It) :=
  c <- i_add I (c_current it) n ;; ret (ConstIt c).
Definition const_radd (n : Z) (it : const_it It) : M St (const_it It) :=
  c <- i_radd I n (c_current it) ;; ret (ConstIt c).
Definition const_sub (it : const_it It) (n : Z) : M St (const_it It) :=
  c <- i_sub I (c_current it) n ;; ret (ConstIt c).
(** const_iterator.hpp:103-113 it - sentinel, sentinel - it; the sentinel is
    another ConstIterator or an underlying iterator *)
Definition const_diff (a b : const_it It) : M St Z := i_diff I (c_current a) (c_current b).
Definition const_diff_sent (a : const_it It) (sent : It) : M St Z := i_diff I (c_current a) sent.
Definition sent_diff_const (sent : It) (a : const_it It) : M St Z := i_diff I sent (c_current a).
(** const_iterator.hpp:115-131 +=, -=, it[n] *)
Definition const_addeq (it : const_it It) (n : Z) : M St (const_it It) :=
  c <- i_addeq I (c_current it) n ;; ret (ConstIt c).
Definition const_subeq (it : const_it It) (n : Z) : M St (const_it It) :=
  c <- i_subeq I (c_current it) n ;; ret (ConstIt c).
Definition const_index (it : const_it It) (n : Z) : M St A := i_index I (c_current it) n.
(** const_iterator.hpp:133-136 == ; 138-166 <, >, <=, >=, <=> ; the operators of
    the underlying iterator are those its <=> induces *)
Definition const_eq (a b : const_it It) : M St bool := i_eq I (c_current a) (c_current b).
Definition is_lt (c : comparison) : bool := match c with Lt => true | _ => false end.
Definition is_gt (c : comparison) : bool := match c with Gt => true | _ => false end.
Definition const_lt (a b : const_it It) : M St bool := c <- i_cmp I (c_current a) (c_current b) ;; ret (is_lt c).
Definition const_gt (a b : const_it It) : M St bool := c <- i_cmp I (c_current a) (c_current b) ;; ret (is_gt c).
Definition const_le (a b : const_it It) : M St bool := c <- i_cmp I (c_current a) (c_current b) ;; ret (negb (is_gt c)).
Definition const_ge (a b : const_it It) : M St bool := c <- i_cmp I (c_current a) (c_current b) ;; ret (negb (is_lt c)).
Definition const_cmp (a b : const_it It) : M St comparison := i_cmp I (c_current a) (c_current b).
Definition const_iterator : iter St A (const_it It) := Iter St A (const_it It)
  false (i_contiguous I) const_arrow const_deref const_incr const_pincr const_decr const_pdecr
  const_add const_radd const_sub const_addeq const_subeq const_diff const_index const_eq const_cmp.
End const.
