(** Model of bind_front and bind_back
    (/repo/include/xme/core/functional/bind.hpp) and of ScopedDelegate
    (/repo/include/xme/core/functional/scoped_delegate.hpp).

    Bound arguments are a Tuple of objects (TupleModel). The templates
    bindFront<f> and bindBack<f> (145-155, 168-178) are left out: they name
    xme::forwardLike, which does not exist. *)
From stdpp Require Import list.
From Verif Require Import Base TupleModel.
Local Open Scope mon_scope.

Section bind.
Context {V R : Type}.
Notation cells := (list (option V)).
Notation MT := (M cells).

(** Anything std::invoke can call: whether it is called as an rvalue, and the
    arguments. Pointers to members are functions of their first argument. *)
Definition callable : Type := bool → list arg → MT R.
(** bind.hpp:66-69, 128-131: m_callable and m_bound_args *)
Record bound := Bound { m_callable : callable; m_bound_args : tuple }.

(** bind.hpp:18-23, 81-86: the constructors; the bound arguments become new
    objects. 134-143, 157-166: bind_front and bind_back. A callable that is
    itself a bound one is moved: its objects keep their addresses. *)
Definition bind_front (func : callable) (args : list V) : MT bound :=
  t <- make_tuple args ;; ret (Bound func t).
Definition bind_back (func : callable) (args : list V) : MT bound :=
  t <- make_tuple args ;; ret (Bound func t).
(** bind.hpp:55-64 BindFront::call, 29-53 operator() for the four categories:
    const does not matter here, [rv] is an rvalue. The index sequence (12) has
    one index per bound argument. *)
Definition call_front (self : bound) : callable := fun rv args =>
  es <- get_all (m_bound_args self) (index_sequence (size (m_bound_args self))) ;;
  m_callable self rv (map (forward rv) es ++ args).
(** bind.hpp:117-126 BindBack::call, 91-115 operator() *)
Definition call_back (self : bound) : callable := fun rv args =>
  es <- get_all (m_bound_args self) (index_sequence (size (m_bound_args self))) ;;
  m_callable self rv (args ++ map (forward rv) es).

(** A client that nests binds: each step binds to the front ([true]) or to the
    back of what it has so far. *)
Fixpoint bind_all (f : callable) (steps : list (bool * list V)) : MT callable :=
  match steps with
  | [] => ret f
  | (true, vs) :: steps' => b <- bind_front f vs ;; bind_all (call_front b) steps'
  | (false, vs) :: steps' => b <- bind_back f vs ;; bind_all (call_back b) steps'
  end.
End bind.
Arguments callable : clear implicits.
Arguments bound : clear implicits.

Section scoped.
Context {S : Type}.
(** scoped_delegate.hpp:10-24: m_callable, a function without parameters *)
Record scoped := Scoped { m_func : M S unit }.
(** scoped_delegate.hpp:12-14: the constructors only store the function *)
Definition scoped_ctor (func : M S unit) : scoped := Scoped func.
(** scoped_delegate.hpp:16: the destructor is noexcept *)
Definition scoped_dtor (this : scoped) : M S unit := fun s =>
  match m_func this s with Throw _ => UB Terminate | r => r end.

(** A client: statements of a scope. A ScopedDelegate is destroyed when the scope
    it is declared in is left, in the reverse order of declaration, whether the
    scope is left normally or by an exception. *)
Inductive stmt := Do (m : M S unit) | Guard (func : M S unit) | Block (ss : list stmt).
Definition finally (m : M S unit) (d : M S unit) : M S unit := fun s =>
  match m s with
  | Ok _ s1 => d s1
  | Throw s1 => match d s1 with Ok _ s2 => Throw s2 | r => r end
  | UB u => UB u
  end.
Fixpoint step (st : stmt) (rest : M S unit) : M S unit :=
  match st with
  | Do m => m ;;; rest
  | Guard func => finally rest (scoped_dtor (scoped_ctor func))
  | Block ss => (fix scope (ss : list stmt) : M S unit :=
                   match ss with [] => ret tt | st' :: ss' => step st' (scope ss') end) ss ;;; rest
  end.
Fixpoint scope (ss : list stmt) : M S unit :=
  match ss with [] => ret tt | st :: ss' => step st (scope ss') end.
End scoped.
Arguments scoped : clear implicits.
Arguments stmt : clear implicits.
