(** Model of the concepts CTupleLike and CPairLike
    (/repo/include/xme/container/concepts.hpp) and of what depends on them: assignment to a
    Tuple and a Pair from other tuple-like objects and the conversion of a Tuple
    (/repo/include/xme/container/tuple.hpp, /repo/include/xme/container/pair.hpp).

    A use of a template has one of three outcomes: its constraints are not met, so that
    overload resolution and is_assignable_v see that it cannot be used; its constraints are
    met but its body does not compile; or it compiles.

    Simplifications: of the standard library's tuple-like types only tuple, pair and array
    are there; which objects can be assigned to, constructed from and initialised by others
    is given by parameters; in U{args...} no argument initialises a whole base class or a
    nested aggregate. *)
From stdpp Require Import list.
From Verif Require Import TypesModel.

Inductive outcome (A : Type) := Rejected | Hard | Accepted (a : A).
Arguments Rejected {A}.
Arguments Hard {A}.
Arguments Accepted {A} a.
Definition and_then {A B} (o : outcome A) (f : A → outcome B) : outcome B :=
  match o with Rejected => Rejected | Hard => Hard | Accepted a => f a end.

(** ** Types *)
(** xme::Tuple, xme::Pair, std::tuple, std::pair, std::array, a struct with these public
    members and no constructors, and any other class *)
Inductive like := XTuple (es : list ty) | XPair (a b : ty) | STuple (es : list ty) | SPair (a b : ty) | SArray (n : nat) (t : ty)
  | Struct (ms : list ty) | Opaque (n : nat).
(** std::tuple_size: tuple.hpp:155-156, pair.hpp:120-121; those of the standard library *)
Definition tuple_size (l : like) : option nat :=
  match l with
  | XTuple es | STuple es => Some (length es)
  | XPair _ _ | SPair _ _ => Some 2
  | SArray n _ => Some n
  | Struct _ | Opaque _ => None
  end.
(** std::tuple_element: tuple.hpp:158-161, pair.hpp:123-131 *)
Definition element (l : like) (i : nat) : option ty :=
  match l with
  | XTuple es => TypesModel.tuple_element <$> es !! i
  | XPair a b | SPair a b => pair_element i a b
  | STuple es => es !! i
  | SArray n t => if i <? n then Some t else None
  | Struct _ | Opaque _ => None
  end.
(** std::get: T&, const T&, T&& and const T&& *)
Definition std_get (const : bool) (c : cat) (m : ty) : ty :=
  let m := if const then add_const_ty m else m in
  match c with LValue => lref m | _ => rref m end.
(** get<I>(t), found by argument-dependent lookup: tuple.hpp:57-70, pair.hpp:86-102; the
    result types are deduced from the bodies, which are compiled for that *)
Definition get (explicit_this : bool) (l : like) (const : bool) (c : cat) (i : nat) : outcome ty :=
  let hard (o : option ty) := match o with Some t => Accepted t | None => Hard end in
  match l with
  | XTuple es => hard (m ← es !! i; tuple_get explicit_this (length es) (Class 0) const c m)
  | XPair a b => hard (m ← pair_element i a b; pair_get explicit_this (Class 0) const c m)
  | STuple _ | SPair _ _ | SArray _ _ => hard (std_get const c <$> element l i)
  | Struct _ | Opaque _ => Rejected
  end.

(** ** Concepts *)
(** std::convertible_to<const E&> *)
Definition converts (t : ty) (e : ty) : bool :=
  let r := remove_reference (lref (add_const_ty e)) in
  core_eqb (q_core r) (remove_cvref t) && less_qualified (remove_reference t) r &&
  (is_lvalue (call t) || q_const r && negb (q_volatile r)).
(** concepts.hpp:17-21 *)
Definition c_tuple_element (explicit_this : bool) (l : like) (i : nat) : outcome unit :=
  match element l i with
  | None => Rejected
  | Some e => and_then (get explicit_this l false LValue i) (λ t, if converts t e then Accepted tt else Rejected)
  end.
(** concepts.hpp:23-26, a fold from left to right *)
Fixpoint tuple_elements (explicit_this : bool) (l : like) (is : list nat) : outcome unit :=
  match is with [] => Accepted tt | i :: is => and_then (c_tuple_element explicit_this l i) (λ _, tuple_elements explicit_this l is) end.
(** concepts.hpp:28-37; cv-qualifiers and references of the type are removed *)
Definition c_tuple_like (explicit_this : bool) (l : like) : outcome unit :=
  match tuple_size l with None => Rejected | Some n => tuple_elements explicit_this l (seq 0 n) end.
(** concepts.hpp:39-40 *)
Definition c_pair_like (explicit_this : bool) (l : like) : outcome unit :=
  and_then (c_tuple_like explicit_this l) (λ _, match tuple_size l with Some 2 => Accepted tt | _ => Rejected end).

(** std::same_as *)
Fixpoint same_types (l k : list ty) : bool :=
  match l, k with [], [] => true | t :: l, u :: k => ty_eqb t u && same_types l k | _, _ => false end.
Definition is_this_tuple (es : list ty) (l : like) : bool := match l with XTuple es' => same_types es es' | _ => false end.

(** ** Assignment *)
Section assign.
(** x = e for an lvalue x of the class or scalar type [c] without qualifiers *)
Context (assigns : core → expr → bool).
Definition assigns_to (m : ty) (t : ty) : bool := negb (q_const (remove_reference m)) && assigns (remove_cvref m) (call t).
(** tuple.hpp:42-45 assign_tuple_index and pair.hpp:14-15: the types of the right operands *)
Fixpoint assign_index (explicit_this : bool) (l : like) (const : bool) (c : cat) (i : nat) (ms : list ty) : outcome (list ty) :=
  match ms with
  | [] => Accepted []
  | m :: ms =>
      match get explicit_this l const c i with
      | Accepted t =>
          if assigns_to m t then and_then (assign_index explicit_this l const c (S i) ms) (λ ts, Accepted (t :: ts)) else Hard
      | _ => Hard
      end
  end.
(** tuple.hpp:16-21: Tuple<es...> = an object of the type [l], const or not *)
Definition assign_tuple (explicit_this : bool) (es : list ty) (l : like) (const : bool) (c : cat) : outcome (list ty) :=
  and_then (c_tuple_like explicit_this l) (λ _,
    if negb const && is_this_tuple es l then Rejected else assign_index explicit_this l const c 0 es).
(** pair.hpp:11-17 *)
Definition assign_pair (explicit_this : bool) (a b : ty) (l : like) (const : bool) (c : cat) : outcome (list ty) :=
  and_then (c_pair_like explicit_this l) (λ _, assign_index explicit_this l const c 0 [a; b]).
End assign.

(** ** Conversion *)
Section convert.
(** Whether an object of the given type can be initialised by an expression in braces
    without narrowing, whether it can be constructed from it, and whether it can be
    initialised by empty braces *)
Context (inits makes : core → expr → bool) (empty : core → bool).
Definition starts (ok : core → expr → bool) (m : ty) (e : expr) : bool := match m with Obj q => ok (q_core q) e | _ => binds m e end.
Definition starts_empty (m : ty) : bool := match m with Obj q => empty (q_core q) | _ => false end.
(** [dcl.init.aggr]: the members that are left over are initialised by empty braces *)
Fixpoint aggregate_init (ms : list ty) (es : list expr) : bool :=
  match ms, es with
  | [], [] => true
  | [], _ => false
  | m :: ms, [] => starts_empty m && aggregate_init ms []
  | m :: ms, e :: es => starts inits m e && aggregate_init ms es
  end.
(** The constructors of std::tuple and std::pair: from as many values, or from none *)
Fixpoint all_made (ms : list ty) (es : list expr) : bool :=
  match ms, es with [], [] => true | m :: ms, e :: es => starts makes m e && all_made ms es | _, _ => false end.
Definition std_init (ms : list ty) (es : list expr) : bool := all_made ms es || (bool_decide (es = []) && forallb starts_empty ms).
(** U{es...} *)
Definition list_init (u : like) (es : list expr) : bool :=
  match u with
  | XTuple ms | Struct ms => aggregate_init ms es
  | XPair a b => aggregate_init [a; b] es
  | SArray n t => aggregate_init (replicate n t) es
  | STuple ms => std_init ms es
  | SPair a b => std_init [a; b] es
  | Opaque _ => false
  end.
Definition is_aggregate (u : like) : bool := match u with STuple _ | SPair _ _ | Opaque _ => false | _ => true end.
(** tuple.hpp:25: the parameters args... are lvalues *)
Definition args (es : list ty) : list expr := map (λ m, Expr (remove_reference m) LValue) es.
(** tuple.hpp:27-30: get<I>(tup)... for the const Tuple *)
Fixpoint get_all (explicit_this : bool) (l : like) (is : list nat) : outcome (list expr) :=
  match is with
  | [] => Accepted []
  | i :: is => match get explicit_this l true LValue i with
               | Accepted t => and_then (get_all explicit_this l is) (λ es, Accepted (call t :: es))
               | _ => Hard
               end
  end.
(** tuple.hpp:23-31: Tuple<es...> to [u]; the result is the initialisers *)
Definition convert_tuple (explicit_this : bool) (es : list ty) (u : like) : outcome (list expr) :=
  and_then (match c_tuple_like explicit_this u with Rejected => if is_aggregate u then Accepted tt else Rejected | o => o end) (λ _,
    if is_this_tuple es u || negb (list_init u (args es)) then Rejected
    else and_then (get_all explicit_this (XTuple es) (seq 0 (length es))) (λ is, if list_init u is then Accepted is else Hard)).
End convert.
