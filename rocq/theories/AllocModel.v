(** Model of how xme::Array (include/xme/container/array.hpp) and xme::LinkedList
    (include/xme/container/linked_list.hpp) use their allocators, for allocators
    with state.

    Simplifications, valid for every definition below: an array is its data
    members and the number of its elements, a list the sequence of its nodes;
    elements themselves are left out (see ArrayModel and ListModel), but every
    place where an element constructor or assignment may throw is kept. Moving
    elements does not throw. *)
From stdpp Require Import list.
From Verif Require Import Base.
Local Open Scope mon_scope.

(** Allocator values: one the user passed, or the result of default
    construction. Copying and moving an allocator keeps its value. *)
Inductive aid := Given (n : nat) | Dflt (n : nat).
Global Instance aid_eq_dec : EqDecision aid.
Proof. solve_decision. Defined.

(** What is known of an allocator type: std::allocator_traits<Alloc>'s
    propagate_on_container_swap and is_always_equal, and whether two default
    constructed allocators are equal (not so if each owns an arena). *)
Record traits := mkTr { pocs : bool; always_equal : bool; dflt_same : bool }.

Section model.
Context (tr : traits).

Definition aeq (a b : aid) : bool := always_equal tr || bool_decide (a = b).

(** Memory: block -> the allocator it came from and its size; None once freed. *)
Record st (Ob : Type) := mkSt {
  blocks : list (option (aid * nat));
  objs   : list (option Ob);      (* container objects; None once destroyed *)
  next_a : nat;                  (* default constructed allocators so far *)
  oracle : list bool             (* next throwing points; [] = never throws *)
}.
Arguments mkSt {Ob}. Arguments blocks {Ob}. Arguments objs {Ob}. Arguments next_a {Ob}. Arguments oracle {Ob}.

Section prim.
Context {Ob : Type}.
Notation MO := (M (st Ob)).
Definition set_blocks x (s : st Ob) : st Ob := mkSt x (objs s) (next_a s) (oracle s).
Definition set_objs (x : list (option Ob)) (s : st Ob) := mkSt (blocks s) x (next_a s) (oracle s).
Definition set_next x (s : st Ob) := mkSt (blocks s) (objs s) x (oracle s).
Definition set_oracle x (s : st Ob) := mkSt (blocks s) (objs s) (next_a s) x.

Definition tick : MO unit := fun s =>
  match oracle s with
  | [] => Ok tt s
  | true :: o => Throw (set_oracle o s)
  | false :: o => Ok tt (set_oracle o s)
  end.
Fixpoint ticks (n : nat) : MO unit := match n with O => ret tt | S k => tick ;;; ticks k end.

(** [Alloc()], the default argument of the constructors *)
Definition default_alloc : MO aid :=
  if dflt_same tr then ret (Dflt 0)
  else n <- gets next_a ;; modify (set_next (S n)) ;;; ret (Dflt n).

(** [a.allocate(n)] *)
Definition allocate (a : aid) (n : nat) : MO nat :=
  tick ;;;
  b <- gets (λ s, length (blocks s)) ;;
  modify (λ s, set_blocks (blocks s ++ [Some (a, n)]) s) ;;;
  ret b.
(** [a.deallocate(p, n)]: p must come from allocate(n) of an allocator equal to a *)
Definition deallocate (a : aid) (b n : nat) : MO unit := fun s =>
  match blocks s !! b with
  | Some (Some (a', n')) =>
      if aeq a a' && Nat.eqb n n' then Ok tt (set_blocks (<[b := None]> (blocks s)) s) else UB BadDealloc
  | _ => UB BadDealloc
  end.

Definition get_obj (i : nat) : MO Ob := fun s =>
  match objs s !! i with Some (Some x) => Ok x s | _ => UB NoObject end.
Definition put_obj (i : nat) (x : Ob) : MO unit := modify (λ s, set_objs (<[i := Some x]> (objs s)) s).
Definition new_obj (x : Ob) : MO nat :=
  i <- gets (λ s, length (objs s)) ;; modify (λ s, set_objs (objs s ++ [Some x]) s) ;;; ret i.
Definition drop_obj (i : nat) : MO unit := modify (λ s, set_objs (<[i := None]> (objs s)) s).
End prim.

(** An explicit allocator argument, or the default one. *)
Definition arg_alloc {Ob} (x : option nat) : M (st Ob) aid :=
  match x with Some n => ret (Given n) | None => default_alloc end.

(** ** Array *)

(** array.hpp:334-356: m_data and m_allocator; [blk = None]: null pointers. *)
Record arr := mkArr { al : aid; blk : option nat; len : nat; cap : nat }.
Notation MA := (M (st arr)).

(** array.hpp:39, 46 *)
Definition ctor_default (a : aid) : arr := mkArr a None 0 0.
(** array.hpp:49-53 *)
Definition ctor_cap (n : nat) (a : aid) : MA arr := b <- allocate a n ;; ret (mkArr a (Some b) 0 n).
(** array.hpp:78-82 *)
Definition dtor (x : arr) : MA unit :=
  match blk x with Some b => deallocate (al x) b (cap x) | None => ret tt end.
(** array.hpp:56-59 and 65-70: a delegating constructor, whose object is
    destroyed if the body throws; [n] elements are constructed. 41: copy, with
    the allocator of the original. *)
Definition ctor_elems (n : nat) (a : aid) : MA arr :=
  x <- ctor_cap n a ;;
  on_throw (ticks n) (dtor x) ;;;
  ret (mkArr a (blk x) n n).
(** array.hpp:43-44: [(new, moved-from)] *)
Definition ctor_move (x : arr) : arr * arr := (x, mkArr (al x) None 0 0).

(** array.hpp:125-131: [(x.swap(y))]; without propagate_on_container_swap only
    allocators that are always equal are accepted (static_assert) *)
Definition swap (x y : arr) : arr * arr :=
  if pocs tr then (y, x)
  else (mkArr (al x) (blk y) (len y) (cap y), mkArr (al y) (blk x) (len x) (cap x)).
Definition swap_ok : bool := pocs tr || always_equal tr.

(** array.hpp:84-87 *)
Definition assign_copy (this other : nat) : MA unit :=
  o <- get_obj other ;;
  t <- ctor_elems (len o) (al o) ;;
  x <- get_obj this ;;
  put_obj this (snd (swap t x)) ;;; dtor (fst (swap t x)).
(** array.hpp:89-92 *)
Definition assign_move (this other : nat) : MA unit :=
  o <- get_obj other ;;
  put_obj other (snd (ctor_move o)) ;;;
  x <- get_obj this ;;
  put_obj this (snd (swap (fst (ctor_move o)) x)) ;;; dtor (fst (swap (fst (ctor_move o)) x)).
(** array.hpp:94-97 *)
Definition assign_list (this n : nat) : MA unit :=
  a <- default_alloc ;;
  t <- ctor_elems n a ;;
  x <- get_obj this ;;
  put_obj this (snd (swap t x)) ;;; dtor (fst (swap t x)).

(** array.hpp:285-296 *)
Definition grow_storage (this n : nat) : MA unit :=
  x <- get_obj this ;;
  b <- allocate (al x) n ;;
  (match blk x with Some b0 => deallocate (al x) b0 (cap x) | None => ret tt end) ;;;
  put_obj this (mkArr (al x) (Some b) (len x) n).
(** array.hpp:297-307 *)
Definition shrink_storage (this n : nat) : MA unit :=
  x <- get_obj this ;;
  b <- allocate (al x) n ;;
  (match blk x with Some b0 => deallocate (al x) b0 (cap x) | None => fail NullDeref end) ;;;
  put_obj this (mkArr (al x) (Some b) (Nat.min (len x) n) n).
(** array.hpp:141-144 *)
Definition reserve (this n : nat) : MA unit :=
  x <- get_obj this ;; if Nat.ltb (cap x) n then grow_storage this n else ret tt.
(** array.hpp:147-152 *)
Definition resize (this n : nat) : MA unit :=
  x <- get_obj this ;;
  if Nat.ltb (cap x) n then grow_storage this n
  else if Nat.ltb n (cap x) then shrink_storage this n else ret tt.

Definition set_len (this n : nat) : MA unit :=
  x <- get_obj this ;; put_obj this (mkArr (al x) (blk x) n (cap x)).

(** array.hpp:253-261 (and 219-221 push_back) *)
Definition emplace_back (this : nat) : MA unit :=
  x <- get_obj this ;;
  (if Nat.eqb (len x) (cap x) then grow_storage this (len x + Nat.max (len x) 1) else ret tt) ;;;
  tick ;;;
  set_len this (S (len x)).
(** array.hpp:309-331 *)
Definition realloc_insert (this : nat) : MA unit :=
  x <- get_obj this ;;
  b <- allocate (al x) (len x + Nat.max (len x) 1) ;;
  on_throw tick (deallocate (al x) b (len x + Nat.max (len x) 1)) ;;;
  (match blk x with Some b0 => deallocate (al x) b0 (cap x) | None => fail NullDeref end) ;;;
  put_obj this (mkArr (al x) (Some b) (S (len x)) (len x + Nat.max (len x) 1)).
(** array.hpp:158-174 *)
Definition insert (this k : nat) : MA unit :=
  x <- get_obj this ;;
  if Nat.ltb (len x) k then fail OutOfBounds else
  if Nat.eqb k (len x) then emplace_back this else
  if Nat.eqb (len x) (cap x) then realloc_insert this else
  set_len this (S (len x)) ;;; tick.
(** array.hpp:180-207: [n] elements at position [k]; lines 185-198: the
    temporary is made with the default allocator, and m_data alone is swapped
    before its destructor runs. *)
Definition insert_range (this k n : nat) : MA unit :=
  x <- get_obj this ;;
  if Nat.ltb (len x) k then fail OutOfBounds else
  if Nat.ltb (cap x) (len x + n) then
    a <- default_alloc ;;
    t <- ctor_cap (if Nat.eqb (cap x) 0 then n else cap x + n) a ;;
    on_throw (ticks n) (dtor t) ;;;
    put_obj this (mkArr (al x) (blk t) (len x + n) (cap t)) ;;;
    dtor (mkArr (al t) (blk x) (len x) (cap x))
  else
    set_len this (len x + n) ;;; ticks n.
(** array.hpp:226-236 *)
Fixpoint push_loop (this n : nat) : MA unit :=
  match n with
  | O => ret tt
  | S k => tick ;;; x <- get_obj this ;; set_len this (S (len x)) ;;; push_loop this k
  end.
Definition push_range (this n : nat) : MA unit :=
  x <- get_obj this ;;
  (if Nat.ltb (cap x) (len x + n) then grow_storage this (len x + n) else ret tt) ;;;
  push_loop this n.
(** array.hpp:246-250 *)
Definition pop_back (this : nat) : MA unit :=
  x <- get_obj this ;; if Nat.ltb 0 (len x) then set_len this (len x - 1) else fail AssertFail.
(** array.hpp:265-271, 275-282 *)
Definition erase_range (this k m : nat) : MA unit :=
  x <- get_obj this ;;
  if Nat.leb k m && Nat.leb m (len x) then set_len this (len x - (m - k)) else fail OutOfBounds.

(** ** LinkedList *)

(** linked_list.hpp:268-270: the nodes from m_head on, and m_allocator, which
    every constructor default constructs (none has an allocator parameter). *)
Record lst := mkL { lal : aid; lnodes : list nat }.
Notation ML := (M (st lst)).

(** linked_list.hpp:245-257 *)
Definition create_node (a : aid) : ML nat :=
  b <- allocate a 1 ;; on_throw tick (deallocate a b 1) ;;; ret b.
(** linked_list.hpp:42-46, 51-55, 259-266: [n] new nodes; a list under
    construction is not destroyed when one throws, its nodes are lost *)
Fixpoint create_nodes (n : nat) (a : aid) : ML (list nat) :=
  match n with
  | O => ret []
  | S k => b <- create_node a ;; bs <- create_nodes k a ;; ret (b :: bs)
  end.
(** linked_list.hpp:38-79: all constructors but the moving one *)
Definition lctor (n : nat) : ML nat :=
  a <- default_alloc ;; bs <- create_nodes n a ;; new_obj (mkL a bs).
(** linked_list.hpp:82-85 *)
Definition lctor_move (other : nat) : ML nat :=
  a <- default_alloc ;;
  o <- get_obj other ;;
  put_obj other (mkL (lal o) []) ;;;
  new_obj (mkL a (lnodes o)).

(** linked_list.hpp:201-207, 184-188: [n] new nodes after the first [k] *)
Fixpoint insert_after (this k n : nat) : ML unit :=
  match n with
  | O => ret tt
  | S m =>
      x <- get_obj this ;;
      b <- create_node (lal x) ;;
      put_obj this (mkL (lal x) (take k (lnodes x) ++ b :: drop k (lnodes x))) ;;;
      insert_after this (S k) m
  end.
(** linked_list.hpp:210-228: the nodes [k, m) are returned *)
Fixpoint free_nodes (a : aid) (bs : list nat) : ML unit :=
  match bs with [] => ret tt | b :: bs' => deallocate a b 1 ;;; free_nodes a bs' end.
Definition erase_after (this k m : nat) : ML unit :=
  x <- get_obj this ;;
  if Nat.leb k m && Nat.leb m (length (lnodes x)) then
    free_nodes (lal x) (take (m - k) (drop k (lnodes x))) ;;;
    put_obj this (mkL (lal x) (take k (lnodes x) ++ drop m (lnodes x)))
  else fail OutOfBounds.
(** linked_list.hpp:127 *)
Definition lclear (this : nat) : ML unit :=
  x <- get_obj this ;; erase_after this 0 (length (lnodes x)).
(** linked_list.hpp:130-157: [n] elements: overwritten, then appended or the
    rest erased *)
Definition lassign (this n : nat) : ML unit :=
  x <- get_obj this ;;
  ticks (Nat.min n (length (lnodes x))) ;;;
  if Nat.ltb (length (lnodes x)) n then insert_after this (length (lnodes x)) (n - length (lnodes x))
  else erase_after this n (length (lnodes x)).
(** linked_list.hpp:90-93 *)
Definition lassign_copy (this other : nat) : ML unit := o <- get_obj other ;; lassign this (length (lnodes o)).
(** linked_list.hpp:96-100: swaps the heads, not the allocators *)
Definition lassign_move (this other : nat) : ML unit :=
  lclear this ;;;
  x <- get_obj this ;;
  o <- get_obj other ;;
  put_obj other (mkL (lal o) (lnodes x)) ;;;
  put_obj this (mkL (lal x) (lnodes o)).
(** linked_list.hpp:231-242 *)
Definition lreverse (this : nat) : ML unit :=
  x <- get_obj this ;; put_obj this (mkL (lal x) (rev (lnodes x))).
(** linked_list.hpp:87 *)
Definition ldestroy (this : nat) : ML unit := lclear this ;;; drop_obj this.
End model.
Arguments mkSt {Ob}. Arguments blocks {Ob}. Arguments objs {Ob}. Arguments next_a {Ob}. Arguments oracle {Ob}.
