(** How the functions of Tuple and Pair (/repo/include/xme/container/tuple.hpp, pair.hpp) take and pass elements:
    which objects are made, copied and moved on the way. TupleModel.v has their values and
    references as elements, TypesModel.v the calls that compile. Memory, parameters and
    arguments are those of ForwardModel.v.

    Simplifications: as in BindArgModel.v; the elements are objects of one type, not
    references. *)
From stdpp Require Import list.
From Verif Require Import Base ForwardModel BindArgModel.
Local Open Scope mon_scope.

Section model.
Context {V : Type}.
Notation MF := (M (mem V)).
(** tuple.hpp:101-105 make_tuple: the addresses of the elements *)
Definition make_tuple (es : list (arg V)) : MF (list nat) :=
  es1 <- pass es ;; inits (replicate (length es1) Val) es1.
(** tuple.hpp:107-111 forward_as_tuple: the elements are references, here as the arguments that they
    stand for *)
Definition forward_as_tuple (es : list (arg V)) : MF (list (arg V)) := pass es.
(** tuple.hpp:78-94 apply: [c] is the category of the tuple, [fs] are the parameters of the function *)
Definition apply (c : cat) (fs : list par) (tup : list nat) : MF (list nat) :=
  inits fs (map (get c) tup).
(** tuple.hpp:23-31 the conversion to an aggregate with the members [us] *)
Definition convert (us : list par) (tup : list nat) : MF (list nat) := inits us (map (get CL) tup).
(** tuple.hpp:113-150 tuple_cat for tuples that are lvalues, const ([true]) or not *)
Definition tuple_cat (tups : list (bool * list nat)) : MF (list nat) :=
  let es := concat (map (λ t, map (get (if t.1 : bool then CL else L)) t.2) tups) in
  inits (replicate (length es) Val) es.
(** tuple.hpp:44 the assignment operators of the elements *)
Definition assign (a : nat) (e : arg V) : MF unit := λ s,
  match objects s !! a, e with
  | Some _, Lv _ x => match objects s !! x with
                      | Some o => Ok tt (Mem (<[a := o]> (objects s)) (S (copies s)) (moves s))
                      | None => UB Dangling
                      end
  | Some _, Xv x => match objects s !! x with
                    | Some o => Ok tt (Mem (<[a := o]> (<[x := None]> (objects s))) (copies s) (S (moves s)))
                    | None => UB Dangling
                    end
  | _, _ => UB Dangling
  end.
(** tuple.hpp:16-21, 42-45 operator= and assign_tuple_index: from a tuple of the category [c] *)
Fixpoint assign_tuple_index (c : cat) (this tup : list nat) : MF unit :=
  match this, tup with
  | a :: this, x :: tup => assign a (get c x) ;;; assign_tuple_index c this tup
  | _, _ => ret tt
  end.
(** tuple.hpp:37-39, 47-51 swap; std::ranges::swap of elements without a swap of their own:
    a move into a temporary and two move assignments. The temporary stays in the memory. *)
Definition swap_element (a b : nat) : MF unit :=
  t <- init Val (Xv a) ;; assign a (Xv b) ;;; assign b (Xv t).
Fixpoint swap (this tup : list nat) : MF unit :=
  match this, tup with
  | a :: this, b :: tup => swap_element a b ;;; swap this tup
  | _, _ => ret tt
  end.
(** pair.hpp:109-115 make_pair, 11-17 operator= and 71-75 swap; a pair is the addresses of its
    members. ::ranges::swap moves as std::ranges::swap does. *)
Definition make_pair (e1 e2 : arg V) : MF (list nat) := es <- pass [e1; e2] ;; inits [Val; Val] es.
Definition pair_assign (c : cat) (this p : nat * nat) : MF unit :=
  assign this.1 (get c p.1) ;;; assign this.2 (get c p.2).
Definition pair_swap (this p : nat * nat) : MF unit := swap_element this.1 p.1 ;;; swap_element this.2 p.2.
End model.
