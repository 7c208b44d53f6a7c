(** Model of xme::Tuple and xme::Pair
    (/repo/private/container/tuple_base.hpp, /repo/include/xme/container/tuple.hpp,
     /repo/include/xme/container/pair.hpp).

    Memory is a list of cells, one per element object; an address is a position.
    A cell holds a value or has been moved from. An element of a tuple is an
    object of its own or a reference to an object elsewhere.

    Simplifications: all element types share one type [V] of values and element
    conversions are the identity; what the type checker rejects (an index out of
    range, a source with too few elements) is the outcome [NoObject]; elements of
    type X&& are left out (get on an rvalue tuple does not compile for them). *)
From stdpp Require Import list.
From Verif Require Import Base.
Local Open Scope mon_scope.

Section model.
Context {V : Type}.
Notation cells := (list (option V)).
Notation MT := (M cells).

Definition read (a : nat) : MT V := fun l =>
  match l !! a with Some (Some v) => Ok v l | Some None => UB ReadMoved | None => UB Dangling end.
Definition write (a : nat) (c : option V) : MT unit := fun l =>
  match l !! a with Some _ => Ok tt (<[a := c]> l) | None => UB Dangling end.
Definition alloc (v : V) : MT nat := fun l => Ok (length l) (l ++ [Some v]).

(** An element: an object of the tuple ([T]) or a reference ([X&]). *)
Inductive elem := Own (a : nat) | Ref (a : nat).
Definition addr (e : elem) : nat := match e with Own a => a | Ref a => a end.
(** tuple_base.hpp:17-18, 53-61: TypeMap has one base TupleElement<I, T> per element *)
Definition tuple : Type := list (nat * elem).
(** tuple_base.hpp:63-72: the bases are numbered by an index sequence *)
Definition index_sequence (n : nat) : list nat := seq 0 n.
Definition tuple_of (es : list elem) : tuple := zip (index_sequence (length es)) es.
(** tuple.hpp:14 *)
Definition size (t : tuple) : nat := length t.

(** tuple_base.hpp:27-40 operator[]: overload resolution picks the base with
    index [i]; tuple.hpp:57-70 get<I> *)
Fixpoint base (i : nat) (t : tuple) : MT elem :=
  match t with
  | [] => fail NoObject
  | (j, e) :: t' => if i =? j then ret e else base i t'
  end.
Definition get (i : nat) (t : tuple) : MT elem := base i t.
(** The value of a glvalue [e]; as an rvalue ([rv]) its object is moved from,
    unless the element is a reference: then get<I>(tuple&&) is an lvalue. *)
Definition take_value (rv : bool) (e : elem) : MT V :=
  v <- read (addr e) ;;
  match e with
  | Own a => (if rv then write a None else ret tt) ;;; ret v
  | Ref _ => ret v
  end.

(** tuple.hpp:42-45 assign_tuple_index, one element after the other; 16-21
    operator= from a tuple-like [u], an rvalue if [rv]. *)
Fixpoint assign_index (this u : tuple) (rv : bool) (is : list nat) : MT unit :=
  match is with
  | [] => ret tt
  | i :: is' =>
      d <- base i this ;;
      s <- get i u ;;
      v <- take_value rv s ;;
      write (addr d) (Some v) ;;;
      assign_index this u rv is'
  end.
Definition assign (this u : tuple) (rv : bool) : MT unit :=
  assign_index this u rv (index_sequence (size this)).

(** std::ranges::swap on two objects *)
Definition swap_values (a b : nat) : MT unit :=
  x <- read a ;; y <- read b ;; write a (Some y) ;;; write b (Some x).
(** tuple.hpp:47-51, 37-39, 72-76 swap *)
Fixpoint swap_index (this other : tuple) (is : list nat) : MT unit :=
  match is with
  | [] => ret tt
  | i :: is' =>
      a <- get i this ;; b <- get i other ;;
      swap_values (addr a) (addr b) ;;;
      swap_index this other is'
  end.
Definition swap (this other : tuple) : MT unit := swap_index this other (index_sequence (size this)).

(** An argument as the callee sees it: a glvalue and whether it is an rvalue. *)
Definition arg : Type := nat * bool.
Definition forward (rv : bool) (e : elem) : arg :=
  match e with Own a => (a, rv) | Ref a => (a, false) end.
(** get<I>(std::forward<T>(tup))... for all I of an index sequence *)
Fixpoint get_all (t : tuple) (is : list nat) : MT (list elem) :=
  match is with
  | [] => ret []
  | i :: is' => e <- get i t ;; es <- get_all t is' ;; ret (e :: es)
  end.
(** tuple.hpp:78-94 apply *)
Definition apply {R} (f : list arg → MT R) (t : tuple) (rv : bool) : MT R :=
  es <- get_all t (index_sequence (size t)) ;; f (map (forward rv) es).
(** tuple.hpp:23-31 operator U() const: U{get<I>(tup)...} is initialised with
    copies of the elements; the result is the list of U's members *)
Fixpoint read_all (es : list elem) : MT (list V) :=
  match es with
  | [] => ret []
  | e :: es' => v <- read (addr e) ;; vs <- read_all es' ;; ret (v :: vs)
  end.
Definition convert (t : tuple) : MT (list V) :=
  es <- get_all t (index_sequence (size t)) ;; read_all es.

(** tuple.hpp:101-105 make_tuple: new objects with the given values *)
Fixpoint alloc_all (vs : list V) : MT (list elem) :=
  match vs with
  | [] => ret []
  | v :: vs' => a <- alloc v ;; es <- alloc_all vs' ;; ret (Own a :: es)
  end.
Definition make_tuple (vs : list V) : MT tuple := es <- alloc_all vs ;; ret (tuple_of es).
(** tuple.hpp:96-99 tie, 107-111 forward_as_tuple *)
Definition tie (as_ : list nat) : tuple := tuple_of (map Ref as_).

(** tuple.hpp:114-130 TupleCat: index sequences of the sizes still to come *)
Fixpoint cat_indices (outer inner : list nat) (next : nat) (rest : list (list nat)) : list nat * list nat :=
  match rest with
  | [] => (outer, inner)
  | outer_next :: rest' =>
      cat_indices (outer ++ outer_next) (inner ++ map (λ o, next + 0 * o) outer_next) (S next) rest'
  end.
(** tuple.hpp:132-134 *)
Definition tuple_cat_t (ts : list tuple) : list nat * list nat :=
  cat_indices [] [] 0 (map (λ t, index_sequence (size t)) ts).
(** tuple.hpp:136-140 tuple_cat_impl: an element of the result is a copy, or a
    reference if the element type is one. [get<Inner>] on the tuple of references
    gives an lvalue, so nothing is moved from. *)
Definition get_tuple (ts : list tuple) (i : nat) : MT tuple :=
  match ts !! i with Some t => ret t | None => fail NoObject end.
Fixpoint tuple_cat_impl (outer inner : list nat) (ts : list tuple) : MT (list elem) :=
  match outer, inner with
  | o :: outer', i :: inner' =>
      t <- get_tuple ts i ;;
      e <- get o t ;;
      e' <- match e with
            | Own a => v <- read a ;; n <- alloc v ;; ret (Own n)
            | Ref a => ret (Ref a)
            end ;;
      es <- tuple_cat_impl outer' inner' ts ;;
      ret (e' :: es)
  | [], [] => ret []
  | _, _ => fail NoObject
  end.
(** tuple.hpp:143-150 tuple_cat *)
Definition tuple_cat (ts : list tuple) : MT tuple :=
  let idx := tuple_cat_t ts in
  es <- tuple_cat_impl idx.1 idx.2 ts ;; ret (tuple_of es).

(** tuple.hpp:33-35, tuple_base.hpp:43-45, 59-60: defaulted comparisons compare
    the bases in order. [eqb] and [cmp] are those of the elements; the result of
    [cmp] is a std::partial_ordering, [None] is unordered. *)
Context (eqb : V → V → bool) (cmp : V → V → option comparison).
Fixpoint tuple_eq (t u : tuple) : MT bool :=
  match t, u with
  | (_, e) :: t', (_, e') :: u' =>
      x <- read (addr e) ;; y <- read (addr e') ;;
      if eqb x y then tuple_eq t' u' else ret false
  | [], [] => ret true
  | _, _ => fail NoObject
  end.
Fixpoint tuple_cmp (t u : tuple) : MT (option comparison) :=
  match t, u with
  | (_, e) :: t', (_, e') :: u' =>
      x <- read (addr e) ;; y <- read (addr e') ;;
      match cmp x y with Some Eq => tuple_cmp t' u' | r => ret r end
  | [], [] => ret (Some Eq)
  | _, _ => fail NoObject
  end.

(** pair.hpp:8-9, 77-81 *)
Record pair := Pair { first : elem; second : elem }.
(** pair.hpp:34-62 operator[], 86-102 get *)
Definition pair_get (i : nat) (p : pair) : MT elem :=
  match i with 0 => ret (first p) | 1 => ret (second p) | _ => fail NoObject end.
(** pair.hpp:11-17 operator= from a pair-like [q], given by its get *)
Definition pair_assign (this : pair) (q : nat → MT elem) (rv : bool) : MT unit :=
  s <- q 0 ;; v <- take_value rv s ;; write (addr (first this)) (Some v) ;;;
  s <- q 1 ;; v <- take_value rv s ;; write (addr (second this)) (Some v).
(** pair.hpp:71-75, 104-107 swap *)
Definition pair_swap (this p : pair) : MT unit :=
  swap_values (addr (first this)) (addr (first p)) ;;;
  swap_values (addr (second this)) (addr (second p)).
(** pair.hpp:109-115 make_pair *)
Definition make_pair (v w : V) : MT pair := a <- alloc v ;; b <- alloc w ;; ret (Pair (Own a) (Own b)).
(** pair.hpp:65-69 defaulted == and <=> *)
Definition pair_eq (p q : pair) : MT bool :=
  x <- read (addr (first p)) ;; y <- read (addr (first q)) ;;
  if eqb x y then
    x <- read (addr (second p)) ;; y <- read (addr (second q)) ;; ret (eqb x y)
  else ret false.
Definition pair_cmp (p q : pair) : MT (option comparison) :=
  x <- read (addr (first p)) ;; y <- read (addr (first q)) ;;
  match cmp x y with
  | Some Eq => x <- read (addr (second p)) ;; y <- read (addr (second q)) ;; ret (cmp x y)
  | r => ret r
  end.
(** apply on a pair, tuple.hpp:78-94 *)
Definition pair_apply {R} (f : list arg → MT R) (p : pair) (rv : bool) : MT R :=
  a <- pair_get 0 p ;; b <- pair_get 1 p ;; f [forward rv a; forward rv b].
End model.
