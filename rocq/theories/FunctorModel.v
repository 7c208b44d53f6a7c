(** Model of what a Delegate<R(Args...)> can be made from
    (/repo/include/xme/core/functional/delegate.hpp): the types in its constructors and
    assignments, and its deduction guides. DelegateModel.v has what they do when they compile.

    Outcomes as in LikeModel.v: [Rejected] is seen by overload resolution and by
    is_constructible_v, [Hard] is an error inside of a body or a class.

    Simplifications: which functors can be called with Args..., with what result, what
    converts to R and what is constructible is given by parameters; destructors can be
    called; arguments are not arrays. *)
From stdpp Require Import list.
From Verif Require Import TypesModel LikeModel.

Section functor.
(** The class Delegate<R(Args...)>, and its AnyData *)
Context (self any_data : nat).
(** The type of std::invoke(f, std::forward<Args>(args)...) for an lvalue f of the type *)
Context (invoke : qual → option ty).
(** R, if it is not void, and whether an expression of the given type converts to R *)
Context (r_void : bool) (to_result : ty → bool).
(** Functor{e}, Functor(e) *)
Context (constructs : core → expr → bool).

Definition is_void (t : ty) : bool := match remove_cvref t with Scalar Void => true | _ => false end.
(** return e; in a function with the result R, for a call e with the result [t]
    ([stmt.return]: a function with the result void returns no value) *)
Definition return_ok (t : ty) : bool := if r_void then is_void t else to_result t.

(** delegate.hpp:55-101 FunctorManager<Functor>: line 65 has the type Functor*, which must
    not be a pointer to a reference *)
Definition functor_manager (functor : ty) : outcome qual := match functor with Obj q => Accepted q | _ => Hard end.
(** delegate.hpp:73-81 create_functor *)
Definition create (q : qual) (e : expr) : outcome unit := if constructs (q_core q) e then Accepted tt else Hard.
(** delegate.hpp:61-63 &FunctorManager<Fn>::invoke *)
Definition invoke_fn (q : qual) : outcome unit :=
  match invoke q with Some t => if return_ok t then Accepted tt else Hard | None => Hard end.
(** delegate.hpp:95-100 &FunctorManager<Fn>::manager: the copy is compiled as well *)
Definition manager (q : qual) : outcome unit := create q (Expr q LValue).

(** delegate.hpp:135-143 Delegate(Fn&&), from the expression [e] *)
Definition ctor (e : expr) : outcome unit :=
  let fn := deduce e in
  if c_different_from_self fn (Obj (Q false false (Class self))) then
    and_then (functor_manager fn) (λ q,
    and_then (create q (call (rref fn))) (λ _,
    and_then (invoke_fn q) (λ _, manager q)))
  else Rejected.
(** delegate.hpp:119-125: other.m_manager(m_storage, other.m_storage, copy), whose second
    parameter is an AnyData& *)
Definition ctor_copy : outcome unit :=
  if binds (LRef (Q false false (Class any_data))) (member (Expr (Q true false (Class self)) LValue) (Obj (Q false false (Class any_data))))
  then Accepted tt else Hard.
(** delegate.hpp:127-133 *)
Definition ctor_move : outcome unit := Accepted tt.
(** A Delegate from any expression: the template is no candidate for a Delegate; a const
    rvalue binds to the parameter of the copy constructor. *)
Definition construct (e : expr) : outcome unit :=
  match ctor e with
  | Rejected =>
      match e_type e with
      | Q false false _ => if is_lvalue e then ctor_copy else ctor_move
      | Q true false _ => ctor_copy
      | _ => Rejected
      end
  | o => o
  end.
(** delegate.hpp:152-175: assignment constructs a Delegate; nullptr has an overload of its
    own, which is no template *)
Definition assign (e : expr) : outcome unit :=
  match e_type e with
  | Q _ false (Scalar NullptrT) => Accepted tt
  | _ => construct e
  end.
(** std::is_constructible_v<Delegate, E>: bodies are not compiled *)
Definition is_constructible (e : expr) : bool :=
  c_different_from_self (deduce e) (Obj (Q false false (Class self))) || negb (q_volatile (e_type e)).
End functor.

(** ** Deduction guides *)
Inductive refq := RefNone | RefL | RefR.
(** What &Fn::operator() is: not formed (there is none, or it is overloaded or a template), a
    pointer to a member function with its qualifiers, or a pointer to a function (a static
    operator()) *)
Inductive call_operator := NotFormed | MemberFn (const volatile : bool) (ref : refq) (noexc : bool) (r : ty) (args : list ty)
  | StaticFn (r : ty) (args : list ty).
(** Arguments of the deduction: a function or a pointer to one, any other object *)
Inductive callee := FunctionPtr (noexc : bool) (r : ty) (args : list ty) | Functor (op : call_operator).
(** delegate.hpp:203-227 FunctionGuideHelper: the primary template has no type; the
    specialisations take any noexcept *)
Definition guide_helper (op : call_operator) : option (ty * list ty) :=
  match op with
  | MemberFn false false RefNone _ r args => Some (r, args)
  | MemberFn false false RefL _ r args => Some (r, args)
  | MemberFn true false RefNone _ r args => Some (r, args)
  | MemberFn true false RefL _ r args => Some (r, args)
  | _ => None
  end.
(** delegate.hpp:229-234: the signature of the deduced Delegate *)
Definition deduce_signature (f : callee) : option (ty * list ty) :=
  match f with
  | FunctionPtr _ r args => Some (r, args)
  | Functor op => guide_helper op
  end.
