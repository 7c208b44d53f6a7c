(** How a call of a Delegate<R(Args...)> passes its arguments to the functor
    (/repo/include/xme/core/functional/delegate.hpp): which objects are made, copied and
    moved on the way. DelegateModel.v has the rest of the call.

    Memory is a list of objects, [None] if moved from; an address is a position. All
    parameters have one object type up to references; arguments are initialised from left
    to right.

    Simplifications: no conversions between object types; const rvalues and parameters of
    type const T are left out; a copy or move of a moved-from object is moved-from; what the
    type checker rejects is the outcome [NoObject]; the call of std::invoke only passes
    references. *)
From stdpp Require Import list.
From Verif Require Import Base.
Local Open Scope mon_scope.

Section model.
Context {V : Type}.
Record mem := Mem { objects : list (option V); copies : nat; moves : nat }.
Notation MF := (M mem).

(** The type of a parameter: T, T&, const T& or T&& *)
Inductive par := Val | Ref | CRef | Mov.
(** An argument: an lvalue, const or not, an xvalue or a prvalue *)
Inductive arg := Lv (const : bool) (a : nat) | Xv (a : nat) | Pr (v : V).

Definition make (o : option V) : MF nat := λ s, Ok (length (objects s)) (Mem (objects s ++ [o]) (copies s) (moves s)).
(** The copy and the move constructor *)
Definition copy (a : nat) : MF nat := λ s,
  match objects s !! a with Some o => make o (Mem (objects s) (S (copies s)) (moves s)) | None => UB Dangling end.
Definition move (a : nat) : MF nat := λ s,
  match objects s !! a with Some o => make o (Mem (<[a := None]> (objects s)) (copies s) (S (moves s))) | None => UB Dangling end.
(** Initialising a parameter: the address of its object or of the one it refers to *)
Definition init (p : par) (e : arg) : MF nat :=
  match p, e with
  | Val, Lv _ a => copy a
  | Val, Xv a => move a
  | Ref, Lv false a | CRef, Lv _ a | CRef, Xv a | Mov, Xv a => ret a
  | Val, Pr v | CRef, Pr v | Mov, Pr v => make (Some v)
  | _, _ => fail NoObject
  end.
Fixpoint inits (ps : list par) (es : list arg) : MF (list nat) :=
  match ps, es with
  | [], [] => ret []
  | p :: ps, e :: es => a <- init p e ;; as_ <- inits ps es ;; ret (a :: as_)
  | _, _ => fail NoObject
  end.
(** std::forward<Args>(args) for the parameter of type [p] at [a] *)
Definition forward (p : par) (a : nat) : arg :=
  match p with Val | Mov => Xv a | Ref => Lv false a | CRef => Lv true a end.
Definition forwards (ps : list par) (as_ : list nat) : list arg := zip_with forward ps as_.

(** delegate.hpp:61-63 invoke: the functor has the parameters [fs]; the result are the
    addresses that its body works with *)
Definition invoke (ps fs : list par) (es : list arg) : MF (list nat) :=
  as_ <- inits ps es ;; inits fs (forwards ps as_).
(** 177-182 operator(), 200 m_callable *)
Definition op_call (ps fs : list par) (es : list arg) : MF (list nat) :=
  as_ <- inits ps es ;; invoke ps fs (forwards ps as_).
End model.
Arguments mem : clear implicits.
Arguments arg : clear implicits.
