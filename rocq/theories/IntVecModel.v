(** Vectors of integers and of bool: /repo/include/xme/math/vector.hpp,
    vectors/vector2.hpp, vector3.hpp, vector4.hpp, vectors/geometry.hpp and
    vectors/functions.hpp for the element types that CArithmetic
    (/repo/include/xme/core/concepts/arithmetic.hpp:8-18) admits besides the
    floating-point types.

    The operators on components are computed in the promoted type and converted back to
    the element type, as in C++20: int has 32 bits, unsigned arithmetic wraps around,
    signed overflow and division by zero are undefined. The result of an undefined
    operation is [None].

    Simplification: both operands of every operator in these functions have the element
    type or its promoted type, so the usual arithmetic conversions give the promoted type. *)
From stdpp Require Import list list_numbers.
From Coq Require Import ZArith.
From Flocq Require Import Core BinarySingleNaN.
From Verif Require Import VecModel FloatModel.
Local Open Scope Z_scope.

(** bool, or an integer type of [w] bits *)
Inductive ity := Bool | Int (w : Z) (signed : bool).
Definition low (t : ity) : Z := match t with Int w true => - 2 ^ (w - 1) | _ => 0 end.
Definition high (t : ity) : Z := match t with Bool => 1 | Int w true => 2 ^ (w - 1) - 1 | Int w false => 2 ^ w - 1 end.
(** static_cast<T> and implicit conversion, [conv.integral] and [conv.bool] *)
Definition convert (t : ity) (z : Z) : Z :=
  match t with
  | Bool => if z =? 0 then 0 else 1
  | Int w false => z mod 2 ^ w
  | Int w true => (z + 2 ^ (w - 1)) mod 2 ^ w - 2 ^ (w - 1)
  end.
(** [conv.prom]: what fits into int becomes int *)
Definition promote (t : ity) : ity := match t with Bool => Int 32 true | Int w s => if w <? 32 then Int 32 true else t end.
(** The exact result [z] of an operator in the type [p] *)
Definition result (p : ity) (z : Z) : option Z :=
  match p with
  | Int _ true => if (low p <=? z) && (z <=? high p) then Some z else None
  | _ => Some (convert p z)
  end.
Inductive aop := Add | Sub | Mul | Div.
(** a op b for a and b of the type T or its promoted type; the result has the latter *)
Definition arith (t : ity) (op : aop) (a b : Z) : option Z :=
  match op with
  | Add => result (promote t) (a + b)
  | Sub => result (promote t) (a - b)
  | Mul => result (promote t) (a * b)
  | Div => if b =? 0 then None else result (promote t) (Z.quot a b)
  end.
(** T(a op b) *)
Definition elem (t : ity) (op : aop) (a b : option Z) : option Z := x ← a; y ← b; r ← arith t op x y; Some (convert t r).
(** T(-a) *)
Definition elem_neg (t : ity) (a : option Z) : option Z := x ← a; r ← result (promote t) (- x); Some (convert t r).
Definition inum (t : ity) : num (option Z) :=
  Num (Some 0) (Some (convert t 1)) (elem t Add) (elem t Sub) (elem t Mul) (elem t Div) (elem_neg t).
Definition all (v : list Z) : list (option Z) := map Some v.
(** Undefined if a component is *)
Definition defined (r : option (list (option Z))) : option (list Z) := l ← r; mapM id l.

(** vector.hpp:8-36, 62-85 and the same in the specialisations: the operators, with the
    right operand of any integer type *)
Definition int_op (t : ity) (op : aop) (v w : list Z) : option (list Z) :=
  defined (vop (inum t) (elem t op) (fmap (M := option) (convert t)) (all v) (all w)).
Definition int_op_s (t : ity) (op : aop) (v : list Z) (s : Z) : option (list Z) :=
  defined (vop_s (inum t) (elem t op) (fmap (M := option) (convert t)) (all v) (Some s)).
Definition int_self (t : ity) (op : aop) (v w : list Z) : option (list Z) :=
  defined (vself (elem t op) (fmap (M := option) (convert t)) (all v) (all w)).
Definition int_self_s (t : ity) (op : aop) (v : list Z) (s : Z) : option (list Z) :=
  defined (vself_s (elem t op) (fmap (M := option) (convert t)) (all v) (Some s)).
Definition int_neg (t : ity) (v : list Z) : option (list Z) := defined (vneg (inum t) (all v)).

(** geometry.hpp:11-18 dot: result has the type T, the product its promoted type *)
Definition int_dot (t : ity) (v1 v2 : list Z) : option Z :=
  if negb (length v1 =? length v2)%nat then None else
  for_ (length v1) (λ i r, x ← index v1 i; y ← index v2 i; p ← arith t Mul x y; s ← arith t Add r p; Some (convert t s)) 0.
(** geometry.hpp:22-31 cross: the braces call Vector(auto, auto, auto), which converts *)
Definition int_det (t : ity) (a b c d : Z) : option Z :=
  p ← arith t Mul a b; q ← arith t Mul c d; r ← arith t Sub p q; Some (convert t r).
Definition int_cross (t : ity) (v1 v2 : list Z) : option (list Z) :=
  match v1, v2 with
  | [x1; y1; z1], [x2; y2; z2] =>
      x ← int_det t y1 z2 z1 y2; y ← int_det t z1 x2 x1 z2; z ← int_det t x1 y2 y1 x2; Some [x; y; z]
  | _, _ => None
  end.
(** geometry.hpp:63-68 faceforward *)
Definition int_faceforward (t : ity) (v i n : list Z) : option (list Z) :=
  d ← int_dot t n i; if d <? 0 then Some v else int_neg t v.
(** geometry.hpp:70-75 reflect *)
Definition int_reflect (t : ity) (v n : list Z) : option (list Z) :=
  d ← int_dot t v n; a ← int_op_s t Mul n d; b ← int_op_s t Mul a (convert t 2); int_op t Sub v b.
(** scalars/functions.hpp:7-14 and functions.hpp:41-51 sign, for the signed types *)
Definition int_sign (t : ity) (v : list Z) : option (list Z) :=
  vsign (T := Z) (Num 0 1 Z.add Z.sub Z.mul Z.quot Z.opp) Z.ltb (convert t) v.

(** std::sqrt of an integer: converted to double, then the root, rounded *)
Definition double_sqrt (z : Z) : binary_float 53 1024 := Bsqrt mode_NE (float64 z 0).
(** Conversion of a double to T, [conv.fpint]: the fraction is cut off; undefined if the
    value does not fit *)
Definition truncated (t : ity) (d : binary_float 53 1024) : option Z :=
  if is_finite d then
    let z := Btrunc d in
    match t with
    | Bool => match Bcompare d (B754_zero false) with Some Eq => Some 0 | _ => Some 1 end
    | _ => if (low t <=? z) && (z <=? high t) then Some z else None
    end
  else None.
(** vector.hpp:105-111 length(): the sum has the type T *)
Definition int_lengthn (t : ity) (v : list Z) : option Z :=
  r ← for_ (length v) (λ i r, x ← index v i; p ← arith t Mul x x; s ← arith t Add r p; Some (convert t s)) 0;
  truncated t (double_sqrt r).
(** vector2.hpp:94-97, vector3.hpp:107-110: the sum has the promoted type, the result
    is a T. vector4.hpp:124-127: the result is the double, see [int_length4]. *)
Definition int_length2 (t : ity) (x y : Z) : option Z :=
  a ← arith t Mul x x; b ← arith t Mul y y; s ← arith t Add a b; truncated t (double_sqrt s).
Definition int_length3 (t : ity) (x y z : Z) : option Z :=
  a ← arith t Mul x x; b ← arith t Mul y y; c ← arith t Mul z z; s ← arith t Add a b; s' ← arith t Add s c;
  truncated t (double_sqrt s').
Definition int_length4 (t : ity) (x y z w : Z) : option (binary_float 53 1024) :=
  a ← arith t Mul x x; b ← arith t Mul y y; c ← arith t Mul z z; d ← arith t Mul w w;
  s ← arith t Add a b; s' ← arith t Add s c; s'' ← arith t Add s' d; Some (double_sqrt s'').
