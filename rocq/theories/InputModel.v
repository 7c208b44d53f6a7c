(** Model of the functions of xme::Array, xme::Heap and xme::LinkedList that
    take a range [first, last) of input iterators, for every kind of input
    iterator: in the other models such a range is the list of its elements, here
    its elements are what the iterators yield while the function runs.

    Simplifications: moving an iterator and reading through it do not throw
    (converting the element does); the range lies outside the containers; the
    simplifications of ArrayModel, HeapModel and ListModel. *)
From stdpp Require Import list.
From Verif Require Import Base.
From Verif Require ArrayModel HeapModel ListModel.
Local Open Scope mon_scope.

Section iter.
Context {V : Type}.

(** The value of an iterator [first] whose sentinel ends the range
    ([input.iterators], [iterator.concept.input]):
    - [Multi rest]: a multi-pass iterator (std::forward_iterator) in front of the
      elements [rest];
    - [Cached cur]: a single-pass iterator that holds the element it read last
      (std::istream_iterator); [None]: it has reached the end;
    - [Shared]: a single-pass iterator that looks at the next element of the
      stream it belongs to (iterators of std::ranges::istream_view, generators). *)
Inductive iter := Multi (rest : list V) | Cached (cur : option V) | Shared.

(** The state: that of the containers, and the elements the stream under the
    single-pass iterators has not yielded yet. *)
Definition MI (St A : Type) := M (St * list V) A.
Definition lift {St A} (m : M St A) : MI St A := λ s,
  match m s.1 with
  | Ok a s' => Ok a (s', s.2)
  | Throw s' => Throw (s', s.2)
  | UB u => UB u
  end.

Context {St : Type}.
(** The elements between the iterator and the end of the range. *)
Definition left_of (x : iter) (w : list V) : list V :=
  match x with
  | Multi rest => rest
  | Cached None => []
  | Cached (Some v) => v :: w
  | Shared => w
  end.
(** [first == last] *)
Definition at_end (x : iter) : MI St bool := gets (λ s, match left_of x s.2 with [] => true | _ => false end).
(** [*first] *)
Definition it_deref (x : iter) : MI St V := λ s,
  match left_of x s.2 with v :: _ => Ok v s | [] => UB OutOfBounds end.
(** [++first]: a multi-pass iterator changes itself only, a single-pass one takes
    an element out of the stream. *)
Definition incr (x : iter) : MI St iter := λ s,
  match x with
  | Multi (_ :: rest) => Ok (Multi rest) s
  | Cached (Some _) => match s.2 with
                       | v :: w => Ok (Cached (Some v)) (s.1, w)
                       | [] => Ok (Cached None) (s.1, [])
                       end
  | Shared => match s.2 with _ :: w => Ok Shared (s.1, w) | [] => UB OutOfBounds end
  | _ => UB OutOfBounds
  end.

(** std::ranges::distance(first, last): [last - first] if the sentinel is sized
    for the iterator ([sized]), otherwise a copy of the iterator is moved to the end. *)
Fixpoint distance_loop (fuel : nat) (x : iter) : MI St nat :=
  e <- at_end x ;;
  if (e : bool) then ret 0 else
  match fuel with
  | O => fail NoFuel
  | S k => x' <- incr x ;; n <- distance_loop k x' ;; ret (S n)
  end.
Definition fuel_of (x : iter) : MI St nat := gets (λ s, length (left_of x s.2)).
Definition distance (sized : bool) (x : iter) : MI St nat :=
  if sized then gets (λ s, length (left_of x s.2))
  else f <- fuel_of x ;; distance_loop f x.

(** The loop [for(; first != last; ++first) body( *first)]. *)
Fixpoint for_loop {A} (fuel : nat) (x : iter) (a : A) (body : A → V → MI St A) : MI St A :=
  e <- at_end x ;;
  if (e : bool) then ret a else
  match fuel with
  | O => fail NoFuel
  | S k => v <- it_deref x ;; a' <- body a v ;; x' <- incr x ;; for_loop k x' a' body
  end.
Definition for_each {A} (x : iter) (a : A) (body : A → V → MI St A) : MI St A :=
  f <- fuel_of x ;; for_loop f x a body.
End iter.
Arguments iter : clear implicits.

(** ** Array *)
Section array.
Import ArrayModel.
Context {V : Type} (triv : bool).
Notation MA := (@MI V (st V)).

(** array.hpp:227-236 push_back(first, last) and 239-243 push_back(range) *)
Definition push_back_input (this : nat) (sized : bool) (first : iter V) : MA unit :=
  sz <- lift (size this) ;;
  n <- distance sized first ;;
  c <- lift (capacity this) ;;
  (if Nat.ltb c (sz + n) then lift (grow_storage triv this (sz + n)) else ret tt) ;;;
  for_each first tt (λ _ v, lift (
    a <- get_arr this ;;
    construct triv (a_end a) (AVal v) ;;;
    e <- padd (a_end a) 1 ;;
    set_end this e)).

(** array.hpp:190-192 and 204-205 *)
Definition construct_input (p : ptr) (first : iter V) : MA ptr :=
  for_each first p (λ p v, lift (construct triv p (AVal v) ;;; padd p 1)).

(** array.hpp:181-207 insert(pos, first, last) and 213-217 insert(pos, range) *)
Definition insert_input (this : nat) (pos : ptr) (sized : bool) (first : iter V) : MA ptr :=
  elements <- distance sized first ;;
  sz <- lift (size this) ;;
  c <- lift (capacity this) ;;
  if Nat.ltb c (sz + elements) then
    t <- lift (new_array (λ t, ctor_cap t (if Nat.eqb c 0 then elements else c + elements))) ;;
    r <- on_throw
      (a <- lift (get_arr this) ;;
       elements_before <- lift (pdiff pos (a_begin a)) ;;
       ta <- lift (get_arr t) ;;
       slot <- lift (padd (a_begin ta) elements_before) ;;
       construct_input slot first ;;;
       lift (
       k1 <- pdiff pos (a_begin a) ;;
       copy_fwd triv k1 (a_begin a) (a_begin ta) ;;;
       k2 <- pdiff (a_end a) pos ;;
       d2 <- padd (a_begin ta) (elements_before + elements) ;;
       copy_fwd triv k2 pos d2 ;;;
       sz' <- size this ;;
       e <- padd (a_begin ta) (sz' + elements) ;;
       set_end t e ;;;
       swap this t ;;;
       b <- begin_ this ;;
       padd b elements_before))
      (lift (dtor triv t ;;; pop_obj)) ;;
    lift (dtor triv t ;;; pop_obj) ;;;
    ret r
  else
    a <- lift (get_arr this) ;;
    k <- lift (pdiff (a_end a) pos) ;;
    d <- lift (padd (a_end a) elements) ;;
    lift (copy_bwd triv k (a_end a) d) ;;;
    lift (set_end this d) ;;;
    construct_input pos first ;;;
    ret pos.
End array.

(** ** Heap *)
Section heap.
Import ArrayModel HeapModel.
Context {V : Type} (lt : V → V → bool).
(** heap.hpp:28-35 Heap(first, last) and 38-48 Heap(range). [known]: contiguous
    iterators in the first form, always in the second, which asks for
    ranges::size(range). Neither moves an iterator to find the size. *)
Definition ctor_heap_input (this : nat) (known : bool) (first : iter V) : @MI V (st V) unit :=
  on_throw
    ((if known then n <- distance true first ;; lift (reserve true this n) else ret tt) ;;;
     for_each first tt (λ _ v, lift (push lt this (AVal v) ;;; ret tt)))
    (lift (dtor true this)).
(** A new heap; the object is gone again if its constructor throws. *)
Definition new_heap_input (known : bool) (first : iter V) : @MI V (st V) nat :=
  i <- lift push_obj ;;
  on_throw (ctor_heap_input i known first) (lift pop_obj) ;;;
  ret i.
End heap.

(** ** LinkedList *)
Section lists.
Import ListModel.
Context {V : Type}.
Notation ML := (@MI V (st V)).

(** linked_list.hpp:259-266 *)
Definition range_initialize_input (this : nat) (first : iter V) : ML unit :=
  for_each first (Head this) (λ curr v, lift (
    n <- create_node (LVal v) ;;
    set_next curr (Nod n) ;;;
    get_next curr)) ;;;
  ret tt.
(** linked_list.hpp:59-62, 75-79: a new object, removed again if this throws. *)
Definition ctor_range_input (first : iter V) : ML nat :=
  i <- lift (gets (λ s, length (heads s))) ;;
  lift (modify (λ s, set_heads (heads s ++ [Some Nul]) s)) ;;;
  on_throw (range_initialize_input i first)
    (lift (modify (λ s, set_heads (take (length (heads s) - 1) (heads s)) s))) ;;;
  ret i.
(** linked_list.hpp:184-188 insert_after(pos, first, last) and 193-196 *)
Definition insert_after_input (p : pos) (first : iter V) : ML pos :=
  for_each first p (λ p v, lift (emplace_after p (LVal v))).
(** linked_list.hpp:135-140 *)
Fixpoint assign_loop_input (fuel : nat) (prev curr : pos) (first : iter V) : ML (pos * pos * iter V) :=
  if decide (curr = end_) then ret (prev, curr, first) else
  e <- at_end first ;;
  if (e : bool) then ret (prev, curr, first) else
  match fuel with
  | O => fail NoFuel
  | S k =>
      v <- it_deref first ;;
      lift (assign_elem curr (LVal v)) ;;;
      prev' <- lift (get_next prev) ;;
      curr' <- lift (get_next curr) ;;
      first' <- incr first ;;
      assign_loop_input k prev' curr' first'
  end.
(** linked_list.hpp:131-147 assign(first, last) and 154-157 *)
Definition assign_input (this : nat) (first : iter V) : ML unit :=
  curr <- lift (begin_ this) ;;
  f <- fuel_of first ;;
  r <- assign_loop_input f (before_begin this) curr first ;;
  let '(prev, curr, first') := r in
  e <- at_end first' ;;
  if (e : bool) then
    if decide (curr = end_) then ret tt else lift (erase_after_range prev end_)
  else insert_after_input prev first' ;;; ret tt.
End lists.
