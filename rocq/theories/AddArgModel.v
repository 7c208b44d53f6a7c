(** How the functions of LinkedList, Array, Heap and SPSCQueue that add one element pass their
    argument to the constructor of the element, and how consume passes an element on: which
    objects are made, copied and moved on the way. ListModel.v, ArrayModel.v, HeapModel.v and
    SpscModel.v have the rest of the functions; ArrayCostProps.v counts the elements that are
    relocated. Memory and arguments are those of ForwardModel.v.

    Simplifications: the argument is one object of the element type; allocation, growth, moves
    of other elements and the order in a heap are left out; an argument is not an element of
    the container; the place of a new element is a new address. *)
From stdpp Require Import list.
From Verif Require Import Base ForwardModel BindArgModel TupleArgModel.
Local Open Scope mon_scope.

Section model.
Context {V : Type}.
Notation MF := (M (mem V)).
(** A parameter U&& value or Args&&... args with one argument, and std::forward of it *)
Definition pass1 (e : arg V) : MF (arg V) :=
  a <- init (universal e) e ;; ret (forward (universal e) a).
(** std::ranges::construct_at and std::allocator_traits::construct, as called in
    linked_list.hpp:250, array.hpp:258, 316-317 and spsc_queue_base.hpp:62 *)
Definition construct (e : arg V) : MF nat := e1 <- pass1 e ;; init Val e1.

(** linked_list.hpp:245-257 *)
Definition create_node (e : arg V) : MF nat := e1 <- pass1 e ;; construct e1.
(** linked_list.hpp:200-207 *)
Definition emplace_after (e : arg V) : MF nat := e1 <- pass1 e ;; create_node e1.
(** linked_list.hpp:160 and 162: lvalues take the overload const T&, others T&& *)
Definition push_front (e : arg V) : MF nat :=
  match e with
  | Lv _ _ => a <- init CRef e ;; emplace_after (Lv true a)
  | _ => a <- init Mov e ;; emplace_after (Xv a)
  end.
(** linked_list.hpp:169-172 *)
Definition emplace_front (e : arg V) : MF nat := e1 <- pass1 e ;; emplace_after e1.
(** linked_list.hpp:176-179 *)
Definition insert_after (e : arg V) : MF nat := e1 <- pass1 e ;; emplace_after e1.

(** array.hpp:253-261 *)
Definition emplace_back (e : arg V) : MF nat := e1 <- pass1 e ;; construct e1.
(** array.hpp:220-223 *)
Definition push_back (e : arg V) : MF nat := e1 <- pass1 e ;; emplace_back e1.
(** array.hpp:309-330 *)
Definition realloc_insert (e : arg V) : MF nat := e1 <- pass1 e ;; construct e1.
(** array.hpp:159-174: at the end, in a full array, or elsewhere at the element [p], whose value
    has been moved on *)
Definition insert (at_end full : bool) (p : nat) (e : arg V) : MF nat :=
  e1 <- pass1 e ;;
  if at_end then emplace_back e1
  else if full then realloc_insert e1
  else assign p e1 ;;; ret p.

(** heap.hpp:72-76 *)
Definition heap_push (e : arg V) : MF nat := e1 <- pass1 e ;; push_back e1.
(** heap.hpp:81-85 *)
Definition heap_emplace (e : arg V) : MF nat := e1 <- pass1 e ;; emplace_back e1.

(** spsc_queue_base.hpp:56-65 SPSCQueueBase::emplace: [None] if the queue is full *)
Definition base_emplace (full : bool) (e : arg V) : MF (option nat) :=
  e1 <- pass1 e ;; if full then ret None else a <- construct e1 ;; ret (Some a).
(** spsc_queue_base.hpp:128-131, 184-187 emplace of StaticSPSCQueue and DynamicSPSCQueue *)
Definition sized_emplace (full : bool) (e : arg V) : MF (option nat) := e1 <- pass1 e ;; base_emplace full e1.
(** spsc_queue_base.hpp:123-126, 179-182 push *)
Definition sized_push (full : bool) (e : arg V) : MF (option nat) := e1 <- pass1 e ;; sized_emplace full e1.
(** spsc_queue.hpp:42-45 and 47-50 *)
Definition queue_push (full : bool) (e : arg V) : MF (option nat) := e1 <- pass1 e ;; sized_push full e1.
Definition queue_emplace (full : bool) (e : arg V) : MF (option nat) := e1 <- pass1 e ;; sized_emplace full e1.
(** spsc_queue_base.hpp:75-83 consume of the element at [a]: the address that the function with
    the parameter [f] works with *)
Definition consume (f : par) (a : nat) : MF nat := init f (Xv a).
End model.
