(** Model of xme::LinkedList (include/xme/container/linked_list.hpp) and of its
    iterators (private/container/linked_list_base.hpp), for element types of
    any kind: element construction, assignment and node allocation may throw,
    and the lifetime of every stored object is tracked.

    Simplifications: the allocator is stateless and [m_allocator] is dropped. *)
From stdpp Require Import list.
From Verif Require Import Base.
Local Open Scope mon_scope.

(** A [node_base*]: null, the head embedded in list object [i], or node [n].
    linked_list_base.hpp:14-58 LinkedListIterator and 60-106
    LinkedListConstIterator hold exactly such a pointer. *)
Inductive pos := Nul | Head (i : nat) | Nod (n : nat).
Global Instance pos_eq_dec : EqDecision pos.
Proof. solve_decision. Defined.

Section model.
Context {V : Type}.

(** linked_list_base.hpp:5-12; [n_val = None]: no object in [storage]. *)
Record node := mkN { n_next : pos; n_val : option V }.

Record st := mkSt {
  nodes  : list (option node);  (* node id -> node; None once deallocated *)
  heads  : list (option pos);   (* list id -> m_head.next; None once destroyed *)
  oracle : list bool;           (* next throwing points; [] = never throws *)
  leaked : nat                  (* ghost: objects dropped without destructor *)
}.
Definition ML := M st.
Definition set_nodes x s := mkSt x (heads s) (oracle s) (leaked s).
Definition set_heads x s := mkSt (nodes s) x (oracle s) (leaked s).
Definition set_oracle x s := mkSt (nodes s) (heads s) x (leaked s).
Definition add_leaked n s := mkSt (nodes s) (heads s) (oracle s) (n + leaked s).

Definition tick : ML unit := fun s =>
  match oracle s with
  | [] => Ok tt s
  | true :: o => Throw (set_oracle o s)
  | false :: o => Ok tt (set_oracle o s)
  end.

Definition get_node (n : nat) : ML node := fun s =>
  match nodes s !! n with Some (Some nd) => Ok nd s | _ => UB Dangling end.
Definition put_node (n : nat) (nd : node) : ML unit :=
  modify (λ s, set_nodes (<[n := Some nd]> (nodes s)) s).

(** [p->next] *)
Definition get_next (p : pos) : ML pos := fun s =>
  match p with
  | Nul => UB NullDeref
  | Head i => match heads s !! i with Some (Some q) => Ok q s | _ => UB NoObject end
  | Nod n => match nodes s !! n with Some (Some nd) => Ok (n_next nd) s | _ => UB Dangling end
  end.
(** [p->next = q] *)
Definition set_next (p q : pos) : ML unit := fun s =>
  match p with
  | Nul => UB NullDeref
  | Head i => match heads s !! i with
              | Some (Some _) => Ok tt (set_heads (<[i := Some q]> (heads s)) s)
              | _ => UB NoObject end
  | Nod n => match nodes s !! n with
             | Some (Some nd) => Ok tt (set_nodes (<[n := Some (mkN q (n_val nd))]> (nodes s)) s)
             | _ => UB Dangling end
  end.

(** linked_list_base.hpp:36-38, 82-84: [*it]; a head holds no element. *)
Definition deref (p : pos) : ML V :=
  match p with
  | Nul => fail NullDeref
  | Head _ => fail OutOfBounds
  | Nod n => nd <- get_node n ;; match n_val nd with Some v => ret v | None => fail ReadRaw end
  end.

(** Where a constructor or assignment argument comes from: [LVal] a value (or a
    T object) outside every list, [LRef] an element of a list. Converting or
    copying may throw. *)
Inductive larg := LVal (v : V) | LRef (p : pos).
Definition eval_arg (x : larg) : ML V :=
  match x with
  | LVal v => tick ;;; ret v
  | LRef p => v <- deref p ;; tick ;;; ret v
  end.

(** [*it = x] *)
Definition assign_elem (p : pos) (x : larg) : ML unit :=
  v <- eval_arg x ;;
  match p with
  | Nul => fail NullDeref
  | Head _ => fail OutOfBounds
  | Nod n => nd <- get_node n ;;
             match n_val nd with
             | Some _ => put_node n (mkN (n_next nd) (Some v))
             | None => fail AssignRaw end
  end.

(** allocator_type::allocate(1) and, with it, construct_at(new_node):
    linked_list.hpp:247-249 *)
Definition alloc_node : ML nat :=
  tick ;;;
  n <- gets (λ s, length (nodes s)) ;;
  modify (λ s, set_nodes (nodes s ++ [Some (mkN Nul None)]) s) ;;;
  ret n.
(** allocator_type::deallocate(p, 1) *)
Definition dealloc_node (n : nat) : ML unit := fun s =>
  match nodes s !! n with
  | Some (Some nd) =>
      Ok tt (add_leaked (match n_val nd with Some _ => 1 | None => 0 end)
               (set_nodes (<[n := None]> (nodes s)) s))
  | _ => UB BadDealloc
  end.
(** std::ranges::destroy_at(storage.data()) *)
Definition destroy_elem (n : nat) : ML unit :=
  nd <- get_node n ;;
  match n_val nd with
  | Some _ => put_node n (mkN (n_next nd) None)
  | None => fail DestroyDead
  end.

(** linked_list.hpp:245-257 create_node *)
Definition create_node (x : larg) : ML nat :=
  n <- alloc_node ;;
  on_throw (v <- eval_arg x ;; nd <- get_node n ;; put_node n (mkN (n_next nd) (Some v)))
           (dealloc_node n) ;;;
  ret n.

(** A source range: values outside the lists, or the iterators [first, last)
    into a list. *)
Inductive src := SVals (l : list V) | SNodes (first last : pos).
(** [first != last] and then [*first] *)
Definition src_peek (x : src) : option larg :=
  match x with
  | SVals [] => None
  | SVals (v :: _) => Some (LVal v)
  | SNodes f l => if decide (f = l) then None else Some (LRef f)
  end.
(** [++first] *)
Definition src_step (x : src) : ML src :=
  match x with
  | SVals l => ret (SVals (tail l))
  | SNodes f l => q <- get_next f ;; ret (SNodes q l)
  end.
Definition src_fuel (x : src) (s : st) : nat :=
  match x with SVals l => S (length l) | SNodes _ _ => S (length (nodes s)) end.

(** linked_list.hpp:259-266 range_initialize; [curr] points at the last node. *)
Fixpoint range_loop (fuel : nat) (curr : pos) (x : src) : ML unit :=
  match fuel with
  | O => fail NoFuel
  | S k =>
      match src_peek x with
      | None => ret tt
      | Some a =>
          n <- create_node a ;;
          set_next curr (Nod n) ;;;
          curr' <- get_next curr ;;
          x' <- src_step x ;;
          range_loop k curr' x'
      end
  end.
Definition range_initialize (this : nat) (x : src) : ML unit :=
  f <- gets (src_fuel x) ;; range_loop f (Head this) x.

(** linked_list.hpp:41-56 LinkedList(n), LinkedList(n, value) *)
Fixpoint fill_loop (n : nat) (curr : pos) (a : larg) : ML unit :=
  match n with
  | O => ret tt
  | S k =>
      m <- create_node a ;;
      set_next curr (Nod m) ;;;
      curr' <- get_next curr ;;
      fill_loop k curr' a
  end.

(** A new list object: m_head.next = nullptr. The constructors are not
    delegating, so when one throws the destructor does not run: only the
    members disappear. *)
Definition new_list (ctor : nat → ML unit) : ML nat :=
  i <- gets (λ s, length (heads s)) ;;
  modify (λ s, set_heads (heads s ++ [Some Nul]) s) ;;;
  on_throw (ctor i) (modify (λ s, set_heads (take (length (heads s) - 1) (heads s)) s)) ;;;
  ret i.

(** linked_list.hpp:108-121 *)
Definition before_begin (i : nat) : pos := Head i.
Definition begin_ (i : nat) : ML pos := get_next (Head i).
Definition end_ : pos := Nul.

(** linked_list.hpp:59-76: range, initializer_list and copy constructors *)
Definition ctor_range (x : src) : ML nat := new_list (λ i, range_initialize i x).
Definition ctor_fill (n : nat) (v : V) : ML nat := new_list (λ i, fill_loop n (Head i) (LVal v)).
Definition ctor_copy (j : nat) : ML nat := b <- begin_ j ;; ctor_range (SNodes b end_).
(** linked_list.hpp:82-85 *)
Definition ctor_move (j : nat) : ML nat :=
  new_list (λ i, p <- get_next (Head j) ;; set_next (Head i) p ;;; set_next (Head j) Nul).

(** linked_list.hpp:201-207 *)
Definition emplace_after (p : pos) (x : larg) : ML pos :=
  n <- create_node x ;;
  q <- get_next p ;;
  set_next (Nod n) q ;;;
  set_next p (Nod n) ;;;
  ret (Nod n).

(** linked_list.hpp:160-162, 168-172 *)
Definition push_front (i : nat) (x : larg) : ML unit := emplace_after (Head i) x ;;; ret tt.
Definition emplace_front (i : nat) (x : larg) : ML pos := emplace_after (Head i) x.

(** linked_list.hpp:184-188 (and the range form 193-196) *)
Fixpoint insert_loop (fuel : nat) (p : pos) (x : src) : ML pos :=
  match fuel with
  | O => fail NoFuel
  | S k =>
      match src_peek x with
      | None => ret p
      | Some a => p' <- emplace_after p a ;; x' <- src_step x ;; insert_loop k p' x'
      end
  end.
Definition insert_range (p : pos) (x : src) : ML pos :=
  f <- gets (src_fuel x) ;; insert_loop f p x.

(** linked_list.hpp:210-215 *)
Definition erase_after (p : pos) : ML unit :=
  t <- get_next p ;;
  q <- get_next t ;;
  set_next p q ;;;
  match t with
  | Nod n => destroy_elem n ;;; dealloc_node n
  | _ => fail NullDeref
  end.
(** linked_list.hpp:165 *)
Definition pop_front (i : nat) : ML unit := erase_after (Head i).

(** linked_list.hpp:218-228 *)
Fixpoint erase_loop (fuel : nat) (curr last : pos) : ML unit :=
  if decide (curr = last) then ret tt else
  match fuel with
  | O => fail NoFuel
  | S k =>
      t <- get_next curr ;;
      match curr with
      | Nod n => destroy_elem n ;;; dealloc_node n ;;; erase_loop k t last
      | _ => fail NullDeref
      end
  end.
Definition erase_after_range (p last : pos) : ML unit :=
  curr <- get_next p ;;
  f <- gets (λ s, S (length (nodes s))) ;;
  erase_loop f curr last ;;;
  set_next p last.

(** linked_list.hpp:127 *)
Definition clear (i : nat) : ML unit := erase_after_range (Head i) Nul.
(** linked_list.hpp:87; end of the lifetime of the variable *)
Definition destroy_list (i : nat) : ML unit :=
  clear i ;;; modify (λ s, set_heads (<[i := None]> (heads s)) s).

(** linked_list.hpp:130-147 assign(first, last). *)
Fixpoint assign_loop (fuel : nat) (prev curr : pos) (x : src) : ML (pos * pos * src) :=
  match fuel with
  | O => fail NoFuel
  | S k =>
      if decide (curr = end_) then ret (prev, curr, x) else
      match src_peek x with
      | None => ret (prev, curr, x)
      | Some a =>
          assign_elem curr a ;;;
          prev' <- get_next prev ;;
          curr' <- get_next curr ;;
          x' <- src_step x ;;
          assign_loop k prev' curr' x'
      end
  end.
Definition assign (this : nat) (x : src) : ML unit :=
  curr <- begin_ this ;;
  f <- gets (src_fuel x) ;;
  r <- assign_loop f (before_begin this) curr x ;;
  let '(prev, curr, x') := r in
  match src_peek x' with
  | Some _ => insert_range prev x' ;;; ret tt
  | None => if decide (curr = end_) then ret tt else erase_after_range prev end_
  end.

(** linked_list.hpp:90-93: operator=(const LinkedList&) is assign(other) over
    [other.begin(), other.end()) (lines 155-157) *)
Definition assign_copy (this other : nat) : ML unit :=
  b <- begin_ other ;; assign this (SNodes b end_).
(** linked_list.hpp:96-100 *)
Definition assign_move (this other : nat) : ML unit :=
  clear this ;;;
  p <- get_next (Head this) ;;
  q <- get_next (Head other) ;;
  set_next (Head this) q ;;;
  set_next (Head other) p.

(** linked_list.hpp:231-242 *)
Fixpoint reverse_loop (fuel : nat) (this : nat) (tail : pos) : ML unit :=
  match fuel with
  | O => fail NoFuel
  | S k =>
      tmp <- get_next tail ;;
      if decide (tmp = Nul) then ret tt else
      keep <- get_next (Head this) ;;
      set_next (Head this) tmp ;;;
      q <- get_next tmp ;;
      set_next tail q ;;;
      h <- get_next (Head this) ;;
      set_next h keep ;;;
      reverse_loop k this tail
  end.
Definition reverse (this : nat) : ML unit :=
  h <- get_next (Head this) ;;
  if decide (h = Nul) then ret tt else
  f <- gets (λ s, S (length (nodes s))) ;;
  reverse_loop f this h.

(** Iteration over [begin(), end()): [*it], [++it]. *)
Fixpoint read_loop (fuel : nat) (p : pos) : ML (list V) :=
  match fuel with
  | O => fail NoFuel
  | S k => if decide (p = end_) then ret [] else
           v <- deref p ;; q <- get_next p ;; l <- read_loop k q ;; ret (v :: l)
  end.
Definition to_list (i : nat) : ML (list V) :=
  p <- begin_ i ;; f <- gets (λ s, S (length (nodes s))) ;; read_loop f p.
(** icontainer.hpp:28-45, 79-90 *)
Definition empty (i : nat) : ML bool := p <- begin_ i ;; ret (bool_decide (p = end_)).
Definition front (i : nat) : ML V := p <- begin_ i ;; deref p.
End model.
Arguments node : clear implicits.
Arguments st : clear implicits.
Arguments larg : clear implicits.
Arguments src : clear implicits.
