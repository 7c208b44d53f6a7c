(** Which view ArrayView(x) and ArrayView(i, n) are, and which element types Tuple(x...) and
    Pair(x, y) get: the deduction guides of /repo/include/xme/container/array_view.hpp,
    tuple.hpp and pair.hpp.

    Simplifications: element types are those of OverModel.v; guides made from constructors
    are left out where the type of elements cannot be deduced from them, which is all of them
    but the copy deduction candidate. *)
From stdpp Require Import list.
From Verif Require Import OverModel.

(** ** Views *)

(** An argument: a C array or a std::array of n elements, another contiguous and sized range
    whose elements are seen as u (borrowed: as an rvalue), or a view; each const or not (C
    arrays: in their elements) and an lvalue or not. *)
Inductive view_arg :=
| ACArray (u : elem) (n : nat) (lvalue : bool)
| AStdArray (u : elem) (n : nat) (const lvalue : bool)
| ARange (u : elem) (borrowed lvalue : bool)
| AView (u : elem) (size : option nat) (const lvalue : bool).

(** array_view.hpp:213-214, 216-217, 219-220, 225-226, and the copy deduction candidate *)
Inductive guide := GCArray | GStdArray | GConstStdArray | GRange | GCopy.
Definition guides : list guide := [GCArray; GStdArray; GConstStdArray; GRange; GCopy].

(** A reference that binds to the argument: whether it is an rvalue reference, and whether it
    refers to a more const type than the argument. By value: an lvalue reference will do. *)
Record binding := Binding { b_rvalue : bool; b_const : bool }.
(** What is deduced if the guide can be used: the elements and size of the view, and the
    binding.
    - 214: an lvalue reference to an array; an rvalue needs const elements
    - 217: only lvalues that are not const
    - 220: everything
    - 226: the elements of the range as it is seen from an lvalue of its type *)
Definition use (g : guide) (a : view_arg) : option (elem * option nat * binding) :=
  match g, a with
  | GCArray, ACArray u n lv => if lv || el_const u then Some (u, Some n, Binding false false) else None
  | GStdArray, AStdArray u n false true => Some (u, Some n, Binding false false)
  | GConstStdArray, AStdArray u n c lv => Some (Elem (el_core u) true, Some n, Binding false (negb c))
  | GRange, ACArray u n lv => Some (u, None, Binding (negb lv) false)
  | GRange, AStdArray u n c lv => Some (Elem (el_core u) (el_const u || c), None, Binding (negb lv) false)
  | GRange, ARange u b lv => Some (u, None, Binding (negb lv) false)
  | GRange, AView u s c lv => Some (Elem (el_core u) (el_const u || c), None, Binding (negb lv) false)
  | GCopy, AView u s c lv => Some (u, s, Binding false false)
  | _, _ => None
  end.
(** [over.ics.rank] 3.2.3, 3.2.6: an rvalue reference binds better to an rvalue than an
    lvalue reference does; then the less const type is better. A parameter by value is as
    good as a reference to the same type. *)
Definition binds_better (g h : guide) (x y : binding) : bool :=
  match g, h with
  | GCopy, _ | _, GCopy => false
  | _, _ => if Bool.eqb (b_rvalue x) (b_rvalue y) then negb (b_const x) && b_const y else b_rvalue x
  end.
(** [temp.func.order]: arrays and views are more special than any range. *)
Definition more_special (g h : guide) : bool :=
  match g, h with GRange, _ => false | _, GRange => true | _, _ => false end.
Definition guide_beats (g h : guide) (x y : binding) : bool :=
  binds_better g h x y || negb (binds_better h g y x) && more_special g h.
Definition deduce_view (a : view_arg) : option (elem * option nat) :=
  let vs := omap (λ g, '(u, n, b) ← use g a; Some (g, u, n, b)) guides in
  match List.filter (λ '(g, _, _, b), Nat.leb (length (List.filter (λ '(h, _, _, c), negb (guide_beats g h b c)) vs)) 1) vs with
  | (_, u, n, _) :: _ => Some (u, n)
  | [] => None
  end.

(** The constructors, for any argument. Rvalues: array_view.hpp:103 needs an array that binds
    to const, 97 a range that is borrowed; 117 takes std::arrays as const. *)
Definition construct_view (base_of : nat → nat → bool) (t : elem) (size : option nat) (a : view_arg) : outcome :=
  match a with
  | ACArray u n lv => if lv || el_const t then view_ctor base_of t size (FromCArray u n) else NoMatch
  | AStdArray u n c lv => view_ctor base_of t size (FromStdArray u n (c || negb lv))
  | ARange u b lv => view_ctor base_of t size (FromContiguous u (lv || b))
  | AView u s c lv => view_ctor base_of t size (FromView u s)
  end.

(** ArrayView(i, e) for a contiguous iterator i (222-223): [e] is an integer, a sentinel for
    i, or something else. The guide does not ask which (End is any type); constructors 78-84
    and 88-90 do. *)
Inductive last_arg := Count | Sentinel | Other.
Definition deduce_view2 (u : elem) (e : last_arg) : elem * option nat := (u, None).
Definition construct_view2 (base_of : nat → nat → bool) (t u : elem) (e : last_arg) : outcome :=
  match e with Other => NoMatch | _ => if pointer_converts base_of u t then Fine else Error end.

(** ** Tuples and pairs *)

(** Types of arguments: a class or number, an array, a function, a pointer, a
    std::reference_wrapper, a Tuple; each with const *)
Inductive ty :=
| TyClass (n : nat) (const : bool)
| TyArray (t : ty) (n : nat)
| TyFun (r : ty)
| TyPtr (t : ty) (const : bool)
| TyRef (t : ty)
| TyWrap (t : ty) (const : bool)
| TyTuple (l : list ty) (const : bool).
Definition drop_const (t : ty) : ty :=
  match t with
  | TyClass n _ => TyClass n false
  | TyPtr t _ => TyPtr t false
  | TyWrap t _ => TyWrap t false
  | TyTuple l _ => TyTuple l false
  | _ => t
  end.
(** A parameter by value: [temp.deduct.call] *)
Definition by_value (t : ty) : ty :=
  match t with TyArray u _ => TyPtr u false | TyFun _ => TyPtr t false | _ => drop_const t end.
(** std::decay_t and std::unwrap_ref_decay_t *)
Definition decay (t : ty) : ty := match t with TyRef u => by_value u | _ => by_value t end.
Definition unwrap_ref_decay (t : ty) : ty := match decay t with TyWrap u _ => TyRef u | d => d end.
(** tuple.hpp:54-55; a Tuple alone is copied (the copy deduction candidate is more special).
    Arguments are expressions: their types are no references. *)
Definition deduce_tuple (args : list ty) : list ty :=
  match args with
  | [TyTuple l _] => l
  | _ => map unwrap_ref_decay (map by_value args)
  end.
(** pair.hpp:83-84 *)
Definition deduce_pair (a b : ty) : ty * ty := (unwrap_ref_decay (by_value a), unwrap_ref_decay (by_value b)).
