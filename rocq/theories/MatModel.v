(** Model of xme::math::Matrix and its functions and of Quaternion
    (/repo/include/xme/math/matrix.hpp, matrices/matrix4x4.hpp,
     matrices/functions.hpp, matrices/transformation.hpp,
     matrices/perspective.hpp, quaternion.hpp).

    A matrix is the list of its columns, as the array m_data; [cols] and [rows]
    are the template parameters. Element type, outcomes and simplifications as in
    VecModel; products and sums of two vectors or matrices have one element type,
    as dot requires. *)
From stdpp Require Import list.
From Verif Require Import VecModel.

Section matrices.
Context {T : Type} (N : num T).
Local Notation zero := (n0 N). Local Notation one := (n1 N).
Local Infix "+" := (nadd N). Local Infix "-" := (nsub N).
Local Infix "*" := (nmul N). Local Infix "/" := (ndiv N).
Notation mat := (list (list T)).

(** ** Construction *)
(** matrix.hpp:56-62 Matrix(U s); [s] is already converted *)
Definition matn_fill (cols rows : nat) (s : T) : option mat :=
  for_ (min cols rows) (λ i m, c ← m !! i; c' ← set c i s; set m i c') (replicate cols (replicate rows zero)).
(** matrix4x4.hpp:54-61 *)
Definition mat4_fill (s : T) : mat :=
  [[s; zero; zero; zero]; [zero; s; zero; zero]; [zero; zero; s; zero]; [zero; zero; zero; s]].
Definition mat_fill (cols rows : nat) (s : T) : option mat :=
  if (cols =? 4)%nat && (rows =? 4)%nat then Some (mat4_fill s) else matn_fill cols rows s.
(** matrix.hpp:54, matrix4x4.hpp:52 Matrix() *)
Definition mat_default (cols rows : nat) : option mat := mat_fill cols rows one.
(** matrix4x4.hpp:70-77 Matrix<T,4,4>(const Matrix<U,3,3>&) *)
Definition mat4_of_mat3 (m : mat) : option mat :=
  match m with
  | [[a; b; c]; [d; e; f]; [g; h; i]] => Some [[a; b; c; zero]; [d; e; f; zero]; [g; h; i; zero]; [zero; zero; zero; one]]
  | _ => None
  end.

(** ** Element-wise operators *)
(** matrix.hpp:75-81 operator-() *)
Definition matn_neg (cols rows : nat) (m : mat) : option mat :=
  r ← mat_fill cols rows zero;
  for_ cols (λ i r, c ← m !! i; c' ← vneg N c; set r i c') r.
(** matrix4x4.hpp:79-82 *)
Definition mat_neg (cols rows : nat) (m : mat) : option mat :=
  if (cols =? 4)%nat && (rows =? 4)%nat then
    match m with
    | [c0; c1; c2; c3] => a ← vneg N c0; b ← vneg N c1; c ← vneg N c2; d ← vneg N c3; Some [a; b; c; d]
    | _ => None
    end
  else matn_neg cols rows m.
(** matrix.hpp:9-15 MAT_OP1 *)
Definition matn_op_s {U} (op : T → T → T) (cast : U → T) (cols rows : nat) (m : mat) (s : U) : option mat :=
  r ← mat_fill cols rows zero;
  for_ cols (λ i r, c ← m !! i; c' ← vop_s N op id c (cast s); set r i c') r.
(** matrix4x4.hpp:7-13 *)
Definition mat_op_s {U} (op : T → T → T) (cast : U → T) (cols rows : nat) (m : mat) (s : U) : option mat :=
  if (cols =? 4)%nat && (rows =? 4)%nat then
    match m with
    | [c0; c1; c2; c3] =>
        a ← vop_s N op id c0 (cast s); b ← vop_s N op id c1 (cast s);
        c ← vop_s N op id c2 (cast s); d ← vop_s N op id c3 (cast s); Some [a; b; c; d]
    | _ => None
    end
  else matn_op_s op cast cols rows m s.
(** matrix.hpp:19-26 MAT_OP2 *)
Definition matn_op {U} (op : T → T → T) (cast : U → T) (cols rows : nat) (m : mat) (w : list (list U)) : option mat :=
  r ← mat_fill cols rows zero;
  for_ cols (λ i r, c ← m !! i; d ← w !! i; c' ← vop N op cast c d; set r i c') r.
(** matrix4x4.hpp:17-21 *)
Definition mat_op {U} (op : T → T → T) (cast : U → T) (cols rows : nat) (m : mat) (w : list (list U)) : option mat :=
  if (cols =? 4)%nat && (rows =? 4)%nat then
    match m, w with
    | [c0; c1; c2; c3], [d0; d1; d2; d3] =>
        a ← vop N op cast c0 d0; b ← vop N op cast c1 d1;
        c ← vop N op cast c2 d2; d ← vop N op cast c3 d3; Some [a; b; c; d]
    | _, _ => None
    end
  else matn_op op cast cols rows m w.
(** matrix.hpp:28-42, matrix4x4.hpp:23-37 MAT_SELF_OP1, MAT_SELF_OP2: the new value
    of *this; the same loop in both versions *)
Definition mat_self_s {U} (op : T → T → T) (cast : U → T) (cols : nat) (m : mat) (s : U) : option mat :=
  for_ cols (λ i r, c ← r !! i; c' ← vself_s op id c (cast s); set r i c') m.
Definition mat_self {U} (op : T → T → T) (cast : U → T) (cols : nat) (m : mat) (w : list (list U)) : option mat :=
  for_ cols (λ i r, c ← r !! i; d ← w !! i; c' ← vself op cast c d; set r i c') m.

(** ** Conversion and assignment *)
(** matrix.hpp:69-73, 109-114, matrix4x4.hpp:66-68, 112-119: every column is assigned,
    component by component *)
Definition mat_assign {U} (cast : U → T) (cols : nat) (m : mat) (w : list (list U)) : option mat :=
  for_ cols (λ i r, c ← r !! i; d ← w !! i; c' ← vassign cast c d; set r i c') m.

(** ** Comparison: the defaulted operators of matrix.hpp:131-135 and
    matrix4x4.hpp:136-140 compare the array of columns, column by column *)
Definition mat_eq (eqb : T → T → bool) (m w : mat) : bool := veq (veq eqb) m w.
Definition mat_cmp (cmp : T → T → option comparison) (m w : mat) : option comparison := vcmp (vcmp cmp) m w.

(** ** Rows, columns, products *)
(** matrix.hpp:137-143 row *)
Definition matn_row (cols : nat) (m : mat) (row : nat) : option (list T) :=
  r ← for_ cols (λ i r, c ← m !! i; x ← index c row; set r i (Some x)) (uninit cols); read_all r.
(** matrix4x4.hpp:142-145 *)
Definition mat4_row (m : mat) (row : nat) : option (list T) :=
  match m with
  | [c0; c1; c2; c3] => a ← index c0 row; b ← index c1 row; c ← index c2 row; d ← index c3 row; Some [a; b; c; d]
  | _ => None
  end.
Definition mat_row (cols rows : nat) (m : mat) (row : nat) : option (list T) :=
  if (cols =? 4)%nat && (rows =? 4)%nat then mat4_row m row else matn_row cols m row.
(** matrix.hpp:145-148, matrix4x4.hpp:147-150 column *)
Definition mat_column (m : mat) (column : nat) : option (list T) := m !! column.
(** matrix.hpp:88-95 operator*(Vector) *)
Definition matn_vec (cols rows : nat) (m : mat) (v : list T) : option (list T) :=
  r ← for_ rows (λ i r, w ← mat_row cols rows m i; x ← dot N w v; set r i (Some x)) (uninit rows); read_all r.
(** matrix4x4.hpp:89-98 *)
Definition mat_vec (cols rows : nat) (m : mat) (v : list T) : option (list T) :=
  if (cols =? 4)%nat && (rows =? 4)%nat then
    r0 ← mat4_row m 0; a ← dot N r0 v; r1 ← mat4_row m 1; b ← dot N r1 v;
    r2 ← mat4_row m 2; c ← dot N r2 v; r3 ← mat4_row m 3; d ← dot N r3 v; Some [a; b; c; d]
  else matn_vec cols rows m v.
(** matrix.hpp:96-107, matrix4x4.hpp:100-110 operator*(Matrix<U, Rows2, Cols>): the
    same loops in both versions *)
Definition mat_mul (cols rows rows2 : nat) (m w : mat) : option mat :=
  r ← mat_fill rows2 rows zero;
  for_ rows (λ rowIndex r,
    row ← mat_row cols rows m rowIndex;
    for_ rows2 (λ columnIndex r,
      d ← w !! columnIndex; x ← dot N row d;
      c ← r !! columnIndex; c' ← set c rowIndex x; set r columnIndex c') r) r.

(** ** matrices/functions.hpp *)
(** Entry m[i][j] of a matrix of known shape. *)
Definition at_ (m : mat) (i j : nat) : T := default zero (default [] (m !! i) !! j).
Definition shape (cols rows : nat) (m : mat) : bool :=
  (length m =? cols)%nat && forallb (λ c, length c =? rows)%nat m.
(** 9-13 *)
Definition det2 (m : mat) : option T :=
  if negb (shape 2 2 m) then None else
  let m i j := at_ m i j in
  Some (m 0 0 * m 1 1 - m 1 0 * m 0 1).
(** 14-21 *)
Definition det3 (m : mat) : option T :=
  if negb (shape 3 3 m) then None else
  let m i j := at_ m i j in
  let cofactor01 := (m 0 1 * m 1 2 - m 1 1 * m 0 2) in
  let cofactor12 := (m 1 1 * m 2 2 - m 2 1 * m 1 2) in
  let cofactor02 := (m 0 1 * m 2 2 - m 2 1 * m 0 2) in
  Some (m 0 0 * cofactor12 - (m 1 0 * cofactor02) + (m 2 0 * cofactor01)).
(** 23-38; matrix4x4.hpp:152-155 determinant() calls it *)
Definition det4 (m : mat) : option T :=
  if negb (shape 4 4 m) then None else
  let m i j := at_ m i j in
  let cf01 := (m 0 2 * m 1 3 - m 1 2 * m 0 3) in
  let cf12 := (m 1 2 * m 2 3 - m 2 2 * m 1 3) in
  let cf23 := (m 2 2 * m 3 3 - m 3 2 * m 2 3) in
  let cf02 := (m 0 2 * m 2 3 - m 2 2 * m 0 3) in
  let cf03 := (m 0 2 * m 3 3 - m 3 2 * m 0 3) in
  let cf13 := (m 1 2 * m 3 3 - m 3 2 * m 1 3) in
  let factor0 := (m 0 0 * ((m 1 1 * cf23) - (m 2 1 * cf13) + (m 3 1 * cf12))) in
  let factor1 := (m 1 0 * ((m 0 1 * cf23) - (m 2 1 * cf03) + (m 3 1 * cf02))) in
  let factor2 := (m 2 0 * ((m 0 1 * cf13) - (m 1 1 * cf03) + (m 3 1 * cf01))) in
  let factor3 := (m 3 0 * ((m 0 1 * cf12) - (m 1 1 * cf02) + (m 2 1 * cf01))) in
  Some (factor0 - factor1 + factor2 - factor3).
(** 40-53 transpose; matrix4x4.hpp:157-160 transpose() calls it *)
Definition transpose (cols rows : nat) (m : mat) : option mat :=
  r ← mat_default rows cols;
  for_ cols (λ i r, for_ rows (λ j r,
    c ← m !! i; x ← index c j; d ← r !! j; d' ← set d i x; set r j d') r) r.
(** 55-63 outer_product *)
Definition outer_product (v1 v2 : list T) : option mat :=
  r ← mat_default (length v2) (length v1);
  for_ (length v2) (λ i r, x ← index v2 i; c ← vscale N v1 x; set r i c) r.
(** 65-77 hadamard_product *)
Definition hadamard_product (cols rows : nat) (m1 m2 : mat) : option mat :=
  r ← mat_default cols rows;
  for_ cols (λ i r, a ← m1 !! i; b ← m2 !! i; c ← vmul N a b; set r i c) r.

(** ** matrices/transformation.hpp *)
(** 9-19 translate; the components of [v] are converted from U to T *)
Definition translate {U} (cast : U → T) (m : mat) (v : list U) : option mat :=
  match m, v with
  | [m0; m1; m2; m3], [v0; v1; v2] =>
      a ← vop_s N (nmul N) cast m0 v0; b ← vop_s N (nmul N) cast m1 v1; c ← vop_s N (nmul N) cast m2 v2;
      ab ← vadd N a b; abc ← vadd N ab c; t ← vadd N abc m3;
      Some [m0; m1; m2; t]
  | _, _ => None
  end.
(** 21-31 scale *)
Definition scale {U} (cast : U → T) (m : mat) (v : list U) : option mat :=
  match m, v with
  | [m0; m1; m2; m3], [v0; v1; v2] =>
      a ← vop_s N (nmul N) cast m0 v0; b ← vop_s N (nmul N) cast m1 v1; c ← vop_s N (nmul N) cast m2 v2;
      Some [a; b; c; m3]
  | _, _ => None
  end.
(** 37-65 rotate. The axis has the element type U: [NU] is its arithmetic, [cast]
    converts to T and [back] from T, which the product n * (1 - c) does. *)
Context (sin cos : T → T).
Definition rotate {U} (NU : num U) (cast : U → T) (back : T → U) (m : mat) (angle : T) (n : list U) : option mat :=
  let s := sin angle in
  let c := cos angle in
  nc ← vop_s NU (nmul NU) back n (one - c);
  temp ← vec3_convert cast nc;
  let t i := default zero (temp !! i) in
  let a i := default zero (cast <$> (n !! i)) in
  let r00 := c + t 0 * a 0 in
  let r01 := t 0 * a 1 + s * a 2 in
  let r02 := t 0 * a 2 - s * a 1 in
  let r10 := t 1 * a 0 - s * a 2 in
  let r11 := c + t 1 * a 1 in
  let r12 := t 1 * a 2 + s * a 0 in
  let r20 := t 2 * a 0 + s * a 1 in
  let r21 := t 2 * a 1 - s * a 0 in
  let r22 := c + t 2 * a 2 in
  match m with
  | [m0; m1; m2; m3] =>
      let comb x y z := a ← vscale N m0 x; b ← vscale N m1 y; c ← vscale N m2 z; ab ← vadd N a b; vadd N ab c in
      c0 ← comb r00 r01 r02; c1 ← comb r10 r11 r12; c2 ← comb r20 r21 r22;
      Some [c0; c1; c2; m3]
  | _ => None
  end.

(** ** matrices/perspective.hpp *)
(** m[i][j] = x *)
Definition put (m : mat) (i j : nat) (x : T) : option mat :=
  c ← m !! i; c' ← set c j x; set m i c'.
Context (tan : T → T) (two : T).
Local Notation "- x" := (nneg N x).
(** 11-24 perspective_rh(fov, aspect_ratio, near, far) *)
Definition fov_rh (fov aspect_ratio near far : T) : option mat :=
  let halfTan := tan (fov / two) in
  r ← Some (mat4_fill zero);
  r ← put r 0 0 (one / (aspect_ratio * halfTan));
  r ← put r 1 1 (one / halfTan);
  r ← put r 2 2 (- (far + near) / (far - near));
  r ← put r 2 3 (- one);
  put r 3 2 (- (two * far * near) / (far - near)).
(** 26-39 perspective_lh(fov, aspect_ratio, near, far) *)
Definition fov_lh (fov aspect_ratio near far : T) : option mat :=
  let halfTan := tan (fov / two) in
  r ← Some (mat4_fill zero);
  r ← put r 0 0 (one / (aspect_ratio * halfTan));
  r ← put r 1 1 (one / halfTan);
  r ← put r 2 2 ((far + near) / (far - near));
  r ← put r 2 3 one;
  put r 3 2 (- (two * far * near) / (far - near)).
(** 41-50 perspective(fov, ...); [clip_lh]: XME_MATH_CLIP_LH is defined *)
Definition perspective_fov (clip_lh : bool) (fov aspect_ratio near far : T) : option mat :=
  if clip_lh then fov_rh fov aspect_ratio far near else fov_rh fov aspect_ratio near far.
(** 52-65 perspective_lh(left, ...) *)
Definition frustum_lh (left right bottom top near far : T) : option mat :=
  r ← Some (mat4_fill zero);
  r ← put r 0 0 ((two * near) / (right - left));
  r ← put r 1 1 ((two * near) / (top - bottom));
  r ← put r 2 0 (- (right + left) / (right - near));
  r ← put r 2 1 (- (top + bottom) / (top - bottom));
  r ← put r 2 2 ((far + near) / (far - near));
  r ← put r 2 3 one;
  put r 3 2 (- (two * far * near) / (far - near)).
(** 67-80 perspective_rh(left, ...) *)
Definition frustum_rh (left right bottom top near far : T) : option mat :=
  r ← Some (mat4_fill zero);
  r ← put r 0 0 ((two * near) / (right - left));
  r ← put r 1 1 ((two * near) / (top - bottom));
  r ← put r 2 0 ((right + left) / (right - near));
  r ← put r 2 1 ((top + bottom) / (top - bottom));
  r ← put r 2 2 (- (far + near) / (far - near));
  r ← put r 2 3 (- one);
  put r 3 2 (- (two * far * near) / (far - near)).
(** 82-91 perspective(left, ...) *)
Definition perspective_frustum (clip_lh : bool) (left right bottom top near far : T) : option mat :=
  if clip_lh then frustum_lh left right bottom top near far else frustum_rh left right bottom top near far.
(** 93-105 ortho_lh *)
Definition ortho_lh (left right bottom top near far : T) : option mat :=
  r ← Some (mat4_fill one);
  r ← put r 0 0 (two / (right - left));
  r ← put r 1 1 (two / (top - bottom));
  r ← put r 1 1 (two / (far - near));
  r ← put r 2 0 (- (right + left) / (right - left));
  r ← put r 2 1 (- (top + bottom) / (top - bottom));
  put r 2 2 (- (far + near) / (far - near)).
(** 107-119 ortho_rh *)
Definition ortho_rh (left right bottom top near far : T) : option mat :=
  r ← Some (mat4_fill one);
  r ← put r 0 0 (two / (right - left));
  r ← put r 1 1 (two / (top - bottom));
  r ← put r 1 1 (- two / (far - near));
  r ← put r 2 0 (- (right + left) / (right - left));
  r ← put r 2 1 (- (top + bottom) / (top - bottom));
  put r 2 2 (- (far + near) / (far - near)).
(** 121-130 ortho *)
Definition ortho (clip_lh : bool) (left right bottom top near far : T) : option mat :=
  if clip_lh then ortho_lh left right bottom top near far else ortho_rh left right bottom top near far.

(** ** quaternion.hpp *)
(** 52-55 *)
Record quat := Quat { qw : T; qx : T; qy : T; qz : T }.
(** 13-17 *)
Definition qadd (p q : quat) : quat := Quat (qw p + qw q) (qx p + qx q) (qy p + qy q) (qz p + qz q).
(** 19-23 *)
Definition qsub (p q : quat) : quat := Quat (qw p - qw q) (qx p - qx q) (qy p - qy q) (qz p - qz q).
(** 25-34 *)
Definition qmul (p q : quat) : quat :=
  let '(Quat w x y z) := p in
  Quat (w * qw q - x * qx q - y * qy q - z * qz q)
       (x * qw q + w * qx q + y * qz q - z * qy q)
       (w * qy q - x * qz q + y * qw q + z * qx q)
       (w * qz q + x * qy q - y * qx q + z * qw q).
(** 36-44 operator[]: no assertion; the members are adjacent *)
Definition qindex (q : quat) (i : nat) : option T := [qw q; qx q; qy q; qz q] !! i.
(** 46-50: the defaulted operators compare w, x, y, z in this order *)
Definition qeq (eqb : T → T → bool) (p q : quat) : bool :=
  eqb (qw p) (qw q) && eqb (qx p) (qx q) && eqb (qy p) (qy q) && eqb (qz p) (qz q).
Definition qcmp (cmp : T → T → option comparison) (p q : quat) : option comparison :=
  match cmp (qw p) (qw q) with
  | Some Eq =>
      match cmp (qx p) (qx q) with
      | Some Eq => match cmp (qy p) (qy q) with Some Eq => cmp (qz p) (qz q) | r => r end
      | r => r
      end
  | r => r
  end.
End matrices.
