(** Comparing vectors, matrices, quaternions and numbers of different types:
    /repo/include/xme/math/vector.hpp, vectors/vector2.hpp, vector3.hpp, vector4.hpp,
    matrix.hpp, matrices/matrix4x4.hpp, quaternion.hpp.

    Every class has two members, operator==(const C&) and operator<=>(const C&). For x == y
    the compiler also considers y == x (in C++20, [over.match.oper]), and for x < y also
    0 < (y <=> x).

    Simplifications: at least one operand is of one of the classes; an operand is a number,
    an object of one of the classes, or of a type that converts to none of them. *)
From stdpp Require Import list.
From Verif Require Import LikeModel CtorModel.
Local Open Scope nat_scope.

Section model.
Context {V : Type}.
(** [cast t u x] is static_cast<t>(x) for x of type u; [zero] the value-initialised number *)
Variables (cast : arith → arith → V → V) (zero : V).

(** The components of an object; those of a matrix by columns *)
Inductive obj := Num (u : arith) (x : V) | VecO (u : arith) (xs : list V)
  | MatO (u : arith) (rows : nat) (cols : list (list V)) | QuatO (u : arith) (xs : list V) | OtherO.
Definition contents (a : obj) : list V :=
  match a with Num _ x => [x] | VecO _ xs | QuatO _ xs => xs | MatO _ _ cols => concat cols | OtherO => [] end.
Definition same_type (a b : obj) : bool :=
  match a, b with
  | Num t _, Num u _ | QuatO t _, QuatO u _ => bool_decide (t = u)
  | VecO t xs, VecO u ys => bool_decide (t = u) && Nat.eqb (length xs) (length ys)
  | MatO t r cs, MatO u s ds => bool_decide (t = u) && Nat.eqb r s && Nat.eqb (length cs) (length ds)
  | _, _ => false
  end.

(** ** Implicit conversions of an object of another type; [Hard]: there is a constructor, but
    it does not compile *)
Definition as_arg (a : obj) : arg arith V := match a with Num u x => Scalar u x | VecO u xs => Vec u xs | _ => Foreign end.
(** To Vector<t, n>: the constructors that are not explicit *)
Definition to_vec (t : arith) (n : nat) (a : obj) : outcome (list V) := construct cast zero t n true [as_arg a].
(** To Matrix<t, cols, rows>. matrix.hpp:64-67: from one column, of any size, which is then
    converted; that there are as many as the matrix has is asserted. matrix4x4.hpp:63-64: from
    one column of size 4; the other columns are value-initialised. The constructors from
    numbers and from matrices are explicit (matrix.hpp:56-57 and 69-70, matrix4x4.hpp:54-55,
    66-67 and 70-71). *)
Definition to_mat (t : arith) (cols rows : nat) (a : obj) : outcome (list V) :=
  match a with
  | VecO u xs =>
      if Nat.eqb cols 4 && Nat.eqb rows 4 then
        if Nat.eqb (length xs) 4 then
          match to_vec t 4 a with Accepted c => Accepted (c ++ replicate 12 zero) | _ => Hard end
        else Rejected
      else match to_vec t rows a with Accepted c => if Nat.eqb cols 1 then Accepted c else Hard | _ => Hard end
  | _ => Rejected
  end.
(** To the class of [l], as the parameter of its member: vector.hpp:99-103, vector2.hpp:88-92,
    vector3.hpp:101-105, vector4.hpp:118-122, matrix.hpp:131-135, matrix4x4.hpp:136-140,
    quaternion.hpp:47-51. A quaternion has no constructor with one parameter
    (quaternion.hpp:10-13). *)
Definition to_class (l a : obj) : outcome (list V) :=
  match l with
  | VecO t xs => to_vec t (length xs) a
  | MatO t r cs => to_mat t (length cs) r a
  | Num _ _ | QuatO _ _ | OtherO => Rejected
  end.

(** ** Overload resolution for l == a and l <=> a: the components that are compared.
    Of objects of the same type the member of [l] is taken, as it is not rewritten. Otherwise
    the member of [l] converts [a] and that of [a] converts [l]: if there are both, neither is
    better. *)
Definition compared (l a : obj) : outcome (list V * list V) :=
  if same_type l a then Accepted (contents l, contents a) else
  match to_class l a, to_class a l with
  | Rejected, Rejected => Rejected
  | Accepted y, Rejected => Accepted (contents l, y)
  | Hard, Rejected => Hard
  | Rejected, Accepted x => Accepted (x, contents a)
  | Rejected, Hard => Hard
  | _, _ => Rejected
  end.

(** The defaulted comparisons: component by component, for vectors and matrices that of
    std::array *)
Variable eqv : V → V → bool.
Fixpoint all_equal (xs ys : list V) : bool :=
  match xs, ys with
  | [], [] => true
  | x :: xs, y :: ys => eqv x y && all_equal xs ys
  | _, _ => false
  end.
Definition equals (l a : obj) : outcome bool :=
  match compared l a with Accepted (x, y) => Accepted (all_equal x y) | Rejected => Rejected | Hard => Hard end.
End model.
Arguments obj : clear implicits.
