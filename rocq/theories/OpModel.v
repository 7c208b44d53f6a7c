(** Operators of vectors, matrices and quaternions by the types of their operands, and the
    names that glsl_mapping.hpp gives to types: /repo/include/xme/math/vector.hpp,
    vectors/vector2.hpp, vector3.hpp, vector4.hpp, matrix.hpp, matrices/matrix4x4.hpp,
    quaternion.hpp, glsl_mapping.hpp.

    [Rejected]: no function matches (a concept can find out); [Hard]: a function is chosen
    whose body does not compile; [Accepted t]: compiles and has type t.

    Simplifications: an operand is a number, a vector, a matrix, a quaternion or of a type
    that converts to none of these. *)
From stdpp Require Import list strings.
From Verif Require Import LikeModel CtorModel.

Inductive operand := ONum (t : arith) | OVec (t : arith) (n : nat) | OMat (t : arith) (cols rows : nat) | OQuat (t : arith) | OForeign.
#[global] Instance operand_eq_dec : EqDecision operand. Proof. solve_decision. Defined.
Inductive op := Add | Sub | Mul | Div.

(** A parameter: auto; const Vector<U, n>&; const Matrix<U, cols, rows>&; const Matrix<U, N,
    rows>& for any N; const Quaternion<U>& *)
Inductive parameter := PAuto | PVec (n : nat) | PMat (cols rows : nat) | PMatRows (rows : nat) | PQuat.
Definition takes (p : parameter) (a : operand) : bool :=
  match p, a with
  | PAuto, _ => true
  | PVec n, OVec _ m => Nat.eqb m n
  | PMat c r, OMat _ c' r' => Nat.eqb c' c && Nat.eqb r' r
  | PMatRows r, OMat _ _ r' => Nat.eqb r' r
  | PQuat, OQuat _ => true
  | _, _ => false
  end.
Definition is_auto (p : parameter) : bool := match p with PAuto => true | _ => false end.
(** All conversions are exact; any other parameter is more specialised than auto
    ([temp.func.order]) *)
Definition select (fs : list (parameter * (operand → outcome operand))) (a : operand) : outcome operand :=
  let vs := List.filter (λ f, takes (fst f) a) fs in
  match List.filter (λ f, negb (is_auto (fst f))) vs, vs with
  | f :: _, _ => snd f a
  | [], f :: _ => snd f a
  | [], [] => Rejected
  end.

(** static_cast<T>(s) in the body of a function that returns [r] *)
Definition cast_then (r : operand) (a : operand) : outcome operand := match a with ONum _ => Accepted r | _ => Hard end.

(** vector.hpp:8-23, vector2.hpp:7-22, vector3.hpp:7-24, vector4.hpp:7-26 VEC_OP and
    vector.hpp:25-37, vector2.hpp:24-35, vector3.hpp:26-39, vector4.hpp:28-43 VEC_SELF_OP, for
    each of the four operators: the elements of another vector are cast, too *)
Definition vec_op (t : arith) (n : nat) (a : operand) : outcome operand :=
  select [(PAuto, cast_then (OVec t n)); (PVec n, λ _, Accepted (OVec t n))] a.
(** matrix.hpp:8-15, matrix4x4.hpp:6-13 MAT_OP1, matrix.hpp:28-33, matrix4x4.hpp:22-27
    MAT_SELF_OP1 *)
Definition mat_op1 (t : arith) (c r : nat) : parameter * (operand → outcome operand) := (PAuto, cast_then (OMat t c r)).
(** matrix.hpp:17-26, matrix4x4.hpp:15-20 MAT_OP2, matrix.hpp:35-42, matrix4x4.hpp:29-36
    MAT_SELF_OP2: the operator of the columns *)
Definition mat_op2 (t : arith) (c r : nat) : list (parameter * (operand → outcome operand)) :=
  [mat_op1 t c r; (PMat c r, λ a, match a with
     | OMat u _ r' => match vec_op t r (OVec u r') with Accepted _ => Accepted (OMat t c r) | _ => Hard end
     | _ => Hard
     end)].
(** geometry.hpp:10-18 dot: one element type and size for both *)
Definition dot_type (t : arith) (n : nat) (u : arith) (m : nat) : outcome arith :=
  if bool_decide (t = u) && Nat.eqb n m then Accepted t else Rejected.
(** matrix.hpp:88-95, matrix4x4.hpp:89-98 operator*(Vector<U, Cols>): dot of rows, which have
    [c] elements, and the vector *)
Definition mat_vec_type (t : arith) (c r : nat) (a : operand) : outcome operand :=
  match a with
  | OVec u n => match dot_type t c u n with Accepted _ => Accepted (OVec t r) | _ => Hard end
  | _ => Hard
  end.
(** matrix.hpp:96-107, matrix4x4.hpp:100-110 operator*(Matrix<U, Rows2, Cols>): dot of rows
    and columns *)
Definition mat_mat_type (t : arith) (c r : nat) (a : operand) : outcome operand :=
  match a with
  | OMat u c' r' => match dot_type t c u r' with Accepted _ => Accepted (OMat t c' r) | _ => Hard end
  | _ => Hard
  end.
(** matrix.hpp:83-107, matrix4x4.hpp:84-110 *)
Definition mat_op (o : op) (t : arith) (c r : nat) (a : operand) : outcome operand :=
  match o with
  | Add | Sub => select (mat_op2 t c r) a
  | Mul => select [mat_op1 t c r; (PVec c, mat_vec_type t c r); (PMatRows c, mat_mat_type t c r)] a
  | Div => select [mat_op1 t c r] a
  end.
(** matrix.hpp:116-119, matrix4x4.hpp:121-124 += -= *= /= *)
Definition mat_self_op (o : op) (t : arith) (c r : nat) (a : operand) : outcome operand :=
  match o with
  | Add | Sub => select (mat_op2 t c r) a
  | Mul | Div => select [mat_op1 t c r] a
  end.
(** quaternion.hpp:14-35; there is no division *)
Definition quat_op (o : op) (t : arith) (a : operand) : outcome operand :=
  match o with
  | Add | Sub | Mul => select [(PQuat, λ _, Accepted (OQuat t))] a
  | Div => Rejected
  end.

(** l o a and l o= a. All operators are members of the left operand. Of numbers they are
    built in and not looked at when the right one is a number, too. *)
Definition binary (o : op) (l a : operand) : outcome operand :=
  match l with
  | OVec t n => vec_op t n a
  | OMat t c r => mat_op o t c r a
  | OQuat t => quat_op o t a
  | ONum _ | OForeign => Rejected
  end.
(** A quaternion has none of these operators. *)
Definition compound (o : op) (l a : operand) : outcome operand :=
  match l with
  | OVec t n => vec_op t n a
  | OMat t c r => mat_self_op o t c r a
  | OQuat _ | ONum _ | OForeign => Rejected
  end.

(** functions.hpp:41-53 transpose, 55-63 outer_product: their return types. The return type
    of outer_product is no Matrix if the elements are integers (matrix.hpp:45). *)
Definition transpose_type (a : operand) : outcome operand := match a with OMat t c r => Accepted (OMat t r c) | _ => Rejected end.
Definition outer_type (a b : operand) : outcome operand :=
  match a, b with
  | OVec t n, OVec u m => if bool_decide (t = u) && negb (is_integral t) then Accepted (OMat t m n) else Rejected
  | _, _ => Rejected
  end.

(** glsl_mapping.hpp:7-57; int32_t is int and uint32_t is unsigned int *)
Definition aliases : list (string * operand) := [
  ("bvec2", OVec TBool 2); ("bvec3", OVec TBool 3); ("bvec4", OVec TBool 4);
  ("ivec2", OVec TInt 2); ("ivec3", OVec TInt 3); ("ivec4", OVec TInt 4);
  ("uvec2", OVec TUInt 2); ("uvec3", OVec TUInt 3); ("uvec4", OVec TUInt 4);
  ("vec2", OVec TFloat 2); ("vec3", OVec TFloat 3); ("vec4", OVec TFloat 4);
  ("dvec2", OVec TDouble 2); ("dvec3", OVec TDouble 3); ("dvec4", OVec TDouble 4);
  ("mat2", OMat TFloat 2 2); ("mat3", OMat TFloat 3 3); ("mat4", OMat TFloat 4 4);
  ("mat2x2", OMat TFloat 2 2); ("mat2x3", OMat TFloat 2 3); ("mat2x4", OMat TFloat 2 4);
  ("mat3x2", OMat TFloat 3 2); ("mat3x3", OMat TFloat 3 3); ("mat3x4", OMat TFloat 3 4);
  ("mat4x2", OMat TFloat 4 2); ("mat4x3", OMat TFloat 4 3); ("mat4x4", OMat TFloat 4 4);
  ("dmat2", OMat TDouble 2 2); ("dmat3", OMat TDouble 3 3); ("dmat4", OMat TDouble 4 4);
  ("dmat2x2", OMat TDouble 2 2); ("dmat2x3", OMat TDouble 2 3); ("dmat2x4", OMat TDouble 2 4);
  ("dmat3x2", OMat TDouble 3 2); ("dmat3x3", OMat TDouble 3 3); ("dmat3x4", OMat TDouble 3 4);
  ("dmat4x2", OMat TDouble 4 2); ("dmat4x3", OMat TDouble 4 3); ("dmat4x4", OMat TDouble 4 4)]%string.
Definition alias (s : string) : option operand := snd <$> List.find (λ p, String.eqb (fst p) s) aliases.
