(** Types, value categories and overload resolution: /repo/include/xme/core/type_traits,
    /repo/include/xme/core/concepts, /repo/include/xme/core/utility/forward_like.hpp, and
    the types that get, tuple_element, tuple_cat and operator= of Tuple and Pair have
    (/repo/private/container/tuple_base.hpp, /repo/include/xme/container/tuple.hpp,
    /repo/include/xme/container/pair.hpp).

    [None] is the outcome of a program that is ill-formed (does not compile).

    Simplifications: arrays, member pointers and bit-fields are left out; class types have
    no conversions between each other. *)
From stdpp Require Import list.
From Coq Require Import ZArith.

(** ** Types *)
Inductive kind := Void | NullptrT | Boolean | Integer (w : Z) (signed : bool) | Floating (w : Z) | Pointer (n : nat).
(** Types without cv-qualifiers; [n] names a type of the program. *)
Inductive core := Scalar (k : kind) | Enum (n : nat) (scoped : bool) (underlying : kind) | Class (n : nat)
  | InitializerList (n : nat) | Function (n : nat).
Record qual := Q { q_const : bool; q_volatile : bool; q_core : core }.
Inductive ty := Obj (q : qual) | LRef (q : qual) | RRef (q : qual).

(** std::remove_reference_t, std::remove_cvref_t, std::add_const_t (no effect on a
    function or a reference) *)
Definition remove_reference (t : ty) : qual := match t with Obj q | LRef q | RRef q => q end.
Definition remove_cvref (t : ty) : core := q_core (remove_reference t).
Definition add_const (q : qual) : qual := match q_core q with Function _ => q | c => Q true (q_volatile q) c end.
Definition add_const_ty (t : ty) : ty := match t with Obj q => Obj (add_const q) | _ => t end.
(** [dcl.ref]: T& and T&& where T may be a reference *)
Definition lref (t : ty) : ty := LRef (remove_reference t).
Definition rref (t : ty) : ty := match t with LRef q => LRef q | Obj q | RRef q => RRef q end.

(** ** Expressions *)
Inductive cat := LValue | XValue | PRValue.
Record expr := Expr { e_type : qual; e_cat : cat }.
Definition is_lvalue (e : expr) : bool := match e_cat e with LValue => true | _ => false end.
(** [temp.deduct.call]: the T deduced for a parameter T&& *)
Definition deduce (e : expr) : ty := if is_lvalue e then LRef (e_type e) else Obj (e_type e).
(** [expr.call]: the call of a function with this result type *)
Definition call (t : ty) : expr :=
  match t with LRef q => Expr q LValue | RRef q => Expr q XValue | Obj q => Expr q PRValue end.
(** [expr.ref]: e.m for a member declared with the type [m] *)
Definition member (e : expr) (m : ty) : expr :=
  match m with
  | LRef q | RRef q => Expr q LValue
  | Obj q =>
      Expr (Q (q_const (e_type e) || q_const q) (q_volatile (e_type e) || q_volatile q) (q_core q))
           (if is_lvalue e then LValue else XValue)
  end.
(** Whether a reference of the type [t] can be bound to [e] directly ([dcl.init.ref]) *)
Definition core_eqb (c d : core) : bool :=
  match c, d with
  | Scalar Void, Scalar Void | Scalar NullptrT, Scalar NullptrT | Scalar Boolean, Scalar Boolean => true
  | Scalar (Integer w s), Scalar (Integer w' s') => (w =? w')%Z && Bool.eqb s s'
  | Scalar (Floating w), Scalar (Floating w') => (w =? w')%Z
  | Scalar (Pointer n), Scalar (Pointer n') | Enum n _ _, Enum n' _ _ | Class n, Class n'
  | InitializerList n, InitializerList n' | Function n, Function n' => n =? n'
  | _, _ => false
  end.
Definition less_qualified (q r : qual) : bool := implb (q_const q) (q_const r) && implb (q_volatile q) (q_volatile r).
Definition binds (t : ty) (e : expr) : bool :=
  core_eqb (remove_cvref t) (q_core (e_type e)) && less_qualified (e_type e) (remove_reference t) &&
  match t with LRef _ => is_lvalue e | RRef _ => negb (is_lvalue e) | Obj _ => true end.
(** return e; in a function with the result type [t], a reference *)
Definition returns (t : ty) (e : expr) : option ty := if binds t e then Some t else None.

(** ** Traits *)
(** is_initializer_list.hpp:5-9: the primary template and a specialisation *)
Definition is_initializer_list (t : ty) : bool :=
  match t with Obj (Q false false (InitializerList _)) => true | _ => false end.
(** std::is_integral_v and std::is_floating_point_v, for any cv-qualifiers *)
Definition is_integral (t : ty) : bool :=
  match t with Obj (Q _ _ (Scalar Boolean)) | Obj (Q _ _ (Scalar (Integer _ _))) => true | _ => false end.
Definition is_floating_point (t : ty) : bool := match t with Obj (Q _ _ (Scalar (Floating _))) => true | _ => false end.
(** T(-1) *)
Definition minus_one (k : kind) : Z :=
  match k with Boolean => 1 | Integer w false => (2 ^ w - 1)%Z | _ => -1 end.
(** std::is_signed_v: arithmetic and T(-1) < T(0); std::is_unsigned_v: arithmetic and T(0) < T(-1) *)
Definition is_signed (t : ty) : bool :=
  (is_integral t || is_floating_point t) && match remove_cvref t with Scalar k => (minus_one k <? 0)%Z | _ => false end.
Definition is_unsigned (t : ty) : bool :=
  (is_integral t || is_floating_point t) && match remove_cvref t with Scalar k => (0 <? minus_one k)%Z | _ => false end.
(** arithmetic.hpp:5-18 *)
Definition c_floating_point := is_floating_point.
Definition c_integral := is_integral.
Definition c_signed_integral (t : ty) : bool := c_integral t && is_signed t.
Definition c_unsigned_integral (t : ty) : bool := c_integral t && is_unsigned t.
Definition c_arithmetic (t : ty) : bool := c_floating_point t || c_integral t.
(** std::is_enum_v, std::underlying_type_t, and std::is_convertible_v from an enumeration
    to an arithmetic type ([conv.prom], [conv.integral]) *)
Definition is_enum (t : ty) : bool := match t with Obj (Q _ _ (Enum _ _ _)) => true | _ => false end.
Definition underlying_type (t : ty) : option ty := match t with Obj (Q _ _ (Enum _ _ k)) => Some (Obj (Q false false (Scalar k))) | _ => None end.
Definition is_convertible (t u : ty) : bool :=
  match remove_cvref t with Enum _ scoped _ => negb scoped && c_arithmetic u | c => core_eqb c (remove_cvref u) end.
(** is_scoped_enum.hpp:5-9: the requirements are checked in order, and one that cannot be
    formed is not met *)
Definition is_scoped_enum (t : ty) : bool :=
  is_enum t && match underlying_type t with Some u => negb (is_convertible t u) | None => false end.
(** different_from.hpp:5-9 *)
Definition ty_eqb (t u : ty) : bool :=
  let same q r := Bool.eqb (q_const q) (q_const r) && Bool.eqb (q_volatile q) (q_volatile r) && core_eqb (q_core q) (q_core r) in
  match t, u with Obj q, Obj r | LRef q, LRef r | RRef q, RRef r => same q r | _, _ => false end.
Definition c_different_from (t u : ty) : bool := negb (ty_eqb t u).
Definition c_different_from_self (t self : ty) : bool := negb (ty_eqb self (Obj (Q false false (remove_cvref t)))).

(** ** forward_like *)
(** forward_like.hpp:6-22: [value] is an lvalue; std::as_const(value) and std::move(value)
    have the types below *)
Definition as_const (e : expr) : ty := LRef (add_const (e_type e)).
Definition move (e : expr) : ty := RRef (e_type e).
Definition forward_like (like : ty) (arg : expr) : ty :=
  let t := deduce arg in
  let value := Expr (remove_reference t) LValue in
  let is_adding_const := q_const (remove_reference like) in
  match like with
  | LRef _ => if is_adding_const then as_const value else lref t
  | _ => if is_adding_const then move (call (as_const value)) else move value
  end.

(** ** Element access *)
(** The object expression that the overloads of get (tuple.hpp:57-70, pair.hpp:86-102) pass
    on: a const rvalue is bound to const Tuple& *)
Definition get_object (const : bool) (c : cat) : bool * cat :=
  match c, const with LValue, _ => (const, LValue) | _, true => (true, LValue) | _, false => (false, XValue) end.
(** tuple_base.hpp:27-40, pair.hpp:34-62: operator[] without explicit object parameters. The
    object has the class type [cl]. *)
Definition index20 (cl : core) (const : bool) (c : cat) (m : ty) : option ty :=
  match const, c with
  | false, LValue => returns (lref m) (member (Expr (Q false false cl) LValue) m)
  | false, _ => returns (rref m) (member (Expr (Q false false cl) XValue) m)
  | true, _ => returns (lref (add_const_ty m)) (member (Expr (Q true false cl) LValue) m)
  end.
(** tuple_base.hpp:19-25, pair.hpp:19-32: operator[] with an explicit object parameter; the
    result type auto&& is deduced from the expression. The object keeps its own type, in
    which the member is looked up: it is found in every one of [bases] base classes, and
    the lookup is ambiguous if there are several. *)
Definition index23 (bases : nat) (cl : core) (const : bool) (c : cat) (m : ty) : option ty :=
  let self := Expr (Q const false cl) c in
  let like := deduce self in
  if bases =? 1 then Some (rref (deduce (member (call (forward_like like (Expr (e_type self) LValue))) m))) else None.
(** get<I>, with the element declared as [m]; [explicit_this] tells whether
    __cpp_explicit_this_parameter is defined, [n] is the number of elements. *)
Definition tuple_get (explicit_this : bool) (n : nat) (cl : core) (const : bool) (c : cat) (m : ty) : option ty :=
  let '(const', c') := get_object const c in
  if explicit_this then index23 n cl const' c' m else index20 cl const' c' m.
(** A pair's members are its own. *)
Definition pair_get (explicit_this : bool) (cl : core) (const : bool) (c : cat) (m : ty) : option ty :=
  let '(const', c') := get_object const c in
  if explicit_this then index23 1 cl const' c' m else index20 cl const' c' m.
(** tuple.hpp:158-161 with tuple_base.hpp:47: decltype of the call of a function that
    returns T. A prvalue of a scalar type has no cv-qualifiers ([expr.type]). *)
Definition tuple_element (m : ty) : ty :=
  match m with
  | Obj (Q _ _ (Scalar k)) => Obj (Q false false (Scalar k))
  | Obj (Q _ _ (Enum n s u)) => Obj (Q false false (Enum n s u))
  | _ => m
  end.
(** pair.hpp:123-131 *)
Definition pair_element (i : nat) (first second : ty) : option ty := match i with 0 => Some first | 1 => Some second | _ => None end.

(** ** tuple_cat *)
(** An argument: an expression of the type Tuple<...>, const or not, with these elements *)
Record targ := TArg { t_const : bool; t_cat : cat; t_elems : list ty; t_class : core }.
(** tuple.hpp:107-111: the element of forward_as_tuple(std::forward<T>(t)...) for the argument *)
Definition forwarded (a : targ) : ty := rref (deduce (Expr (Q (t_const a) false (t_class a)) (t_cat a))).
(** tuple.hpp:136-140: get<Outer>(get<Inner>(std::move(tup))), the types of the
    initialisers of the result; [n] arguments *)
Definition cat_one (explicit_this : bool) (n : nat) (a : targ) : option (list ty) :=
  mapM (λ m,
    r ← tuple_get explicit_this n (Class 0) false XValue (forwarded a);
    let e := call r in
    tuple_get explicit_this (length (t_elems a)) (q_core (e_type e)) (q_const (e_type e)) (e_cat e) m)
  (t_elems a).
(** R{...}: an object is copied or moved, a reference must bind *)
Definition initialises (m r : ty) : bool := match m with Obj _ => true | _ => binds m (call r) end.
(** tuple.hpp:143-150 tuple_cat: the element types of the result, 119-120, and the types of
    their initialisers *)
Definition tuple_cat (explicit_this : bool) (args : list targ) : option (list ty * list ty) :=
  l ← mapM (cat_one explicit_this (length args)) args;
  let types := concat (map (λ a, map tuple_element (t_elems a)) args) in
  let inits := concat l in
  if forallb id (zip_with initialises types inits) then Some (types, inits) else None.

(** ** Assignment *)
(** The source of an assignment: an object of the same type, or another one that is
    tuple-like (pair-like) *)
Inductive source := Same (const : bool) (c : cat) | Other.
Inductive assigned := Copied | Moved | Template.
(** [class.copy.assign]: the implicit operators are deleted if an element is a reference or
    const *)
Definition assignable (m : ty) : bool := match m with Obj q => negb (q_const q) | _ => false end.
(** tuple.hpp:16-21: the template does not take a Tuple that is not const. The deleted copy
    assignment takes part in overload resolution, the deleted move assignment does not. *)
Definition tuple_assign (elems : list ty) (s : source) : option assigned :=
  let implicit := forallb assignable elems in
  match s with
  | Other => Some Template
  | Same true LValue | Same false LValue => if implicit then Some Copied else None
  | Same true _ => Some Template
  | Same false _ => if implicit then Some Moved else None
  end.
(** pair.hpp:11-17: the template takes every pair *)
Definition pair_assign (elems : list ty) (s : source) : option assigned :=
  let implicit := forallb assignable elems in
  match s with
  | Other => Some Template
  | Same true LValue => if implicit then Some Copied else None
  | Same false LValue => Some Template
  | Same true _ => Some Template
  | Same false _ => if implicit then Some Moved else Some Template
  end.

(** ** Constructors guarded by CDifferentFromSelf *)
Inductive chosen := ByCopy | ByMove | ByTemplate.
(** bind.hpp:15-23, 77-85, delegate.hpp:119-143: copy, move, and template<CDifferentFromSelf<
    Self> Fn> Self(Fn&&) for one argument; Self has the type [self]. The best viable
    function: a template is better than a copy if the argument is not a const lvalue, but
    only if its constraint is met. *)
Definition guarded_construct (self : core) (arg : expr) : chosen :=
  if c_different_from_self (deduce arg) (Obj (Q false false self)) then ByTemplate
  else match q_const (e_type arg), e_cat arg with false, (XValue | PRValue) => ByMove | _, _ => ByCopy end.
(** const_iterator.hpp:43-45: CDifferentFrom<ConstIterator> T compares with the deduced T,
    which is a reference for an lvalue; [to_it]: std::convertible_to<T, It> *)
Definition const_iterator_construct (self : core) (to_it : bool) (arg : expr) : chosen :=
  if c_different_from (deduce arg) (Obj (Q false false self)) && to_it &&
     (negb (core_eqb (q_core (e_type arg)) self) || negb (q_const (e_type arg) && is_lvalue arg)) then ByTemplate
  else match q_const (e_type arg), e_cat arg with false, (XValue | PRValue) => ByMove | _, _ => ByCopy end.
