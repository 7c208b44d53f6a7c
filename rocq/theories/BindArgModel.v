(** How bind_front and bind_back (/repo/include/xme/core/functional/bind.hpp) take and pass
    arguments: which objects are made, copied and moved on the way. BindModel.v has their
    order and the callable. Memory, parameters and arguments are those of ForwardModel.v.

    Simplifications: as in ForwardModel.v; the elements of the tuple of bound arguments are
    objects one by one and can be accessed (TypesModel.v: with explicit object parameters only
    one can); the call arguments are not const rvalues. *)
From stdpp Require Import list.
From Verif Require Import Base ForwardModel.
Local Open Scope mon_scope.

Section model.
Context {V : Type}.
Notation MF := (M (mem V)).
(** The type that T&& is deduced to for an argument *)
Definition universal (e : arg V) : par :=
  match e with Lv false _ => Ref | Lv true _ => CRef | Xv _ | Pr _ => Mov end.
(** A function with parameters T&&... args that passes std::forward<T>(args)... *)
Definition pass (es : list (arg V)) : MF (list (arg V)) :=
  as_ <- inits (map universal es) es ;; ret (forwards (map universal es) as_).

(** bind.hpp:134-143, 157-166 bind_front and bind_back, 18-23, 81-86 the constructors: the
    addresses of the bound arguments. tuple.hpp:8, tuple_base.hpp:50: a tuple is an aggregate,
    its elements are initialised with the arguments. *)
Definition bind_args (es : list (arg V)) : MF (list nat) :=
  es1 <- pass es ;; es2 <- pass es1 ;; inits (replicate (length es2) Val) es2.

(** How the bound callable is called: as an lvalue, const or not, or as an rvalue *)
Inductive cat := L | CL | X | CX.
(** tuple.hpp:57-70 get; there is no overload for const rvalues, which are taken as const
    lvalues *)
Definition get (c : cat) (a : nat) : arg V :=
  match c with L => Lv false a | CL | CX => Lv true a | X => Xv a end.
(** bind.hpp:29-53 and 91-115 operator(), 55-64 BindFront::call, 117-126 BindBack::call; the
    callable has the parameters [fs]; the result are the addresses that its body works with *)
Definition call_front (c : cat) (fs : list par) (bound : list nat) (es : list (arg V)) : MF (list nat) :=
  es1 <- pass es ;; es2 <- pass es1 ;; inits fs (map (get c) bound ++ es2).
Definition call_back (c : cat) (fs : list par) (bound : list nat) (es : list (arg V)) : MF (list nat) :=
  es1 <- pass es ;; es2 <- pass es1 ;; inits fs (es2 ++ map (get c) bound).
End model.
