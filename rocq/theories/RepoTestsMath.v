(** The unit tests of the mathematics library (/repo/tests/math), run on the model with
    the arithmetic of float. See RepoTests.v. EXPECT_EQ is the comparison == of float,
    EXPECT_FLOAT_EQ allows a distance of four units in the last place. *)
From stdpp Require Import list.
From Coq Require Import ZArith.
From Flocq Require Import Core BinarySingleNaN.
From Verif Require Import VecModel MatModel FloatModel.
Local Open Scope Z_scope.

Notation f32 := (binary_float 24 128).
Notation N32 := (fnum 24 128).
Notation sqrt32 := (fsqrt 24 128).
Definition fl (z : Z) : f32 := float32 z 0.          (* an integer *)
Definition qu (z : Z) : f32 := float32 z (-2).       (* a multiple of 1/4 *)
Definition vec (l : list Z) : list f32 := map fl l.
Definition qvec (l : list Z) : list f32 := map qu l.
Definition mat_ (l : list (list Z)) : list (list f32) := map vec l.
Definition feq (x y : f32) : bool := match Bcompare x y with Some Eq => true | _ => false end.
Definition flt (x y : f32) : bool := match Bcompare x y with Some Lt => true | _ => false end.
(** EXPECT_EQ of vectors and of matrices *)
Definition same (r : option (list f32)) (e : list f32) : bool := match r with Some v => veq feq v e | None => false end.
Definition msame (r : option (list (list f32))) (e : list (list f32)) : bool := match r with Some m => mat_eq feq m e | None => false end.
(** The signed position of a float among all floats, for EXPECT_FLOAT_EQ *)
Definition place (x : f32) : option Z :=
  match B2SF x with
  | SpecFloat.S754_zero _ => Some 0
  | SpecFloat.S754_finite s m e => Some (let p := (e + 149) * 2 ^ 23 + Z.pos m in if s then - p else p)
  | _ => None
  end.
Definition near (x y : f32) : bool := match place x, place y with Some a, Some b => Z.abs (a - b) <=? 4 | _, _ => false end.
Definition nears (r : option (list f32)) (e : list f32) : bool := match r with Some v => veq near v e | None => false end.

(** ** vector.cpp. The operators of one test; the operands are of the type float *)
Definition fadd : f32 → f32 → f32 := nadd N32. Definition fsub : f32 → f32 → f32 := nsub N32.
Definition fmul : f32 → f32 → f32 := nmul N32. Definition fdiv : f32 → f32 → f32 := ndiv N32.
(** [v op s] and [v op w] for an int and for a vector *)
Definition op_s (op : f32 → f32 → f32) (v : list f32) (s : Z) : option (list f32) := vop_s N32 op fl v s.
Definition op_v (op : f32 → f32 → f32) (v w : list f32) : option (list f32) := vop N32 op id v w.
Definition self_s (op : f32 → f32 → f32) (v : list f32) (s : Z) : option (list f32) := vself_s op fl v s.
Definition self_v (op : f32 → f32 → f32) (v w : list f32) : option (list f32) := vself op id v w.
(** std::sqrt(n), and v / sqrt(n) as the test computes it *)
Definition len (n : Z) : f32 := sqrt32 (fl n).
Definition over (l : list Z) (n : Z) : list f32 := map (λ z, fdiv (fl z) (len n)) l.

(** :25-108 Vector2 *)
Example vector2_test :
  let v2 := vec [5; 3] in
  (same (vneg N32 v2) (vec [-5; -3]) &&
   same (op_s fadd v2 1) (vec [6; 4]) && same (op_v fadd v2 (vec [1; 2])) (vec [6; 5]) &&
   same (op_s fsub v2 1) (vec [4; 2]) && same (op_v fsub v2 (vec [2; 3])) (vec [3; 0]) &&
   same (op_s fmul v2 2) (vec [10; 6]) && same (op_v fmul v2 (vec [2; 5])) (vec [10; 15]) &&
   same (op_s fdiv v2 2) (qvec [10; 6]) && same (op_v fdiv v2 (vec [2; 1])) (qvec [10; 12])) = true.
Proof. vm_compute. reflexivity. Qed.
Example vector2_assign_test :
  let v0 := vec [5; 3] in
  let v1 := self_s fadd v0 2 in let v2 := v1 ≫= λ v, self_v fadd v (vec [5; 3]) in
  let v3 := v2 ≫= λ v, self_s fsub v 2 in let v4 := v3 ≫= λ v, self_v fsub v (vec [1; 2]) in
  let v5 := v4 ≫= λ v, self_s fmul v 2 in let v6 := v5 ≫= λ v, self_v fmul v (qvec [2; 8]) in
  let v7 := v6 ≫= λ v, self_s fdiv v 2 in let v8 := v7 ≫= λ v, self_v fdiv v (vec [2; 4]) in
  let v9 := v8 ≫= λ v, vassign fl v [2; 7] in
  (same v1 (vec [7; 5]) && same v2 (vec [12; 8]) && same v3 (vec [10; 6]) && same v4 (vec [9; 4]) && same v5 (vec [18; 8]) &&
   same v6 (vec [9; 16]) && same v7 (qvec [18; 32]) && same v8 (qvec [9; 8]) && same v9 (vec [2; 7]) &&
   match v9 ≫= vlength N32 sqrt32 with Some l => near l (len 53) | None => false end &&
   nears (v9 ≫= vnormalize N32 sqrt32) (over [2; 7] 53)) = true.
Proof. vm_compute. reflexivity. Qed.
(** :110-200 Vector3 *)
Example vector3_test :
  let v3 := vec [3; 1; 7] in
  (same (vneg N32 v3) (vec [-3; -1; -7]) &&
   same (op_s fadd v3 1) (vec [4; 2; 8]) && same (op_v fadd v3 (vec [1; 2; 1])) (vec [4; 3; 8]) &&
   same (op_s fsub v3 1) (vec [2; 0; 6]) && same (op_v fsub v3 (vec [2; 3; 1])) (vec [1; -2; 6]) &&
   same (op_s fmul v3 2) (vec [6; 2; 14]) && same (op_v fmul v3 (vec [2; 5; 2])) (vec [6; 5; 14]) &&
   same (op_s fdiv v3 2) (qvec [6; 2; 14]) && same (op_v fdiv v3 (vec [2; 1; 2])) (qvec [6; 4; 14])) = true.
Proof. vm_compute. reflexivity. Qed.
Example vector3_assign_test :
  let v0 := vec [3; 1; 7] in
  let v1 := self_s fadd v0 2 in let v2 := v1 ≫= λ v, self_v fadd v (vec [2; 1; 1]) in
  let v3 := v2 ≫= λ v, self_s fsub v 2 in let v4 := v3 ≫= λ v, self_v fsub v (vec [5; 3; 4]) in
  let v5 := v4 ≫= λ v, self_s fmul v 2 in let v6 := v5 ≫= λ v, self_v fmul v (vec [1; 3; 2]) in
  let v7 := v6 ≫= λ v, self_s fdiv v 2 in let v8 := v7 ≫= λ v, self_v fdiv v (vec [1; 2; 4]) in
  let v9 := v8 ≫= λ v, vassign fl v [2; 7; 4] in
  (same v1 (vec [5; 3; 9]) && same v2 (vec [7; 4; 10]) && same v3 (vec [5; 2; 8]) && same v4 (vec [0; -1; 4]) && same v5 (vec [0; -2; 8]) &&
   same v6 (vec [0; -6; 16]) && same v7 (vec [0; -3; 8]) && same v8 (qvec [0; -6; 8]) && same v9 (vec [2; 7; 4]) &&
   match v9 ≫= vlength N32 sqrt32 with Some l => near l (len 69) | None => false end &&
   nears (v9 ≫= vnormalize N32 sqrt32) (over [2; 7; 4] 69)) = true.
Proof. vm_compute. reflexivity. Qed.
(** :202-294 Vector4; 0 and -0 are equal *)
Example vector4_test :
  let v4 := vec [2; 1; 0; 4] in
  (same (vneg N32 v4) (vec [-2; -1; 0; -4]) &&
   same (op_s fadd v4 1) (vec [3; 2; 1; 5]) && same (op_v fadd v4 (vec [1; 2; 3; 0])) (vec [3; 3; 3; 4]) &&
   same (op_s fsub v4 1) (vec [1; 0; -1; 3]) && same (op_v fsub v4 (vec [2; 3; 1; 2])) (vec [0; -2; -1; 2]) &&
   same (op_s fmul v4 2) (vec [4; 2; 0; 8]) && same (op_v fmul v4 (vec [2; 5; 2; 1])) (vec [4; 5; 0; 4]) &&
   same (op_s fdiv v4 2) (qvec [4; 2; 0; 8]) && same (op_v fdiv v4 (vec [2; 1; 2; 1])) (vec [1; 1; 0; 4])) = true.
Proof. vm_compute. reflexivity. Qed.
Example vector4_assign_test :
  let v0 := vec [2; 1; 0; 4] in
  let v1 := self_s fadd v0 2 in let v2 := v1 ≫= λ v, self_v fadd v (vec [2; 1; 4; 1]) in
  let v3 := v2 ≫= λ v, self_s fsub v 2 in let v4 := v3 ≫= λ v, self_v fsub v (vec [5; 3; 3; 1]) in
  let v5 := v4 ≫= λ v, self_s fmul v 2 in let v6 := v5 ≫= λ v, self_v fmul v (qvec [4; 12; 8; 2]) in
  let v7 := v6 ≫= λ v, self_s fdiv v 2 in let v8 := v7 ≫= λ v, self_v fdiv v (vec [-2; 3; 1; 2]) in
  let v9 := v8 ≫= λ v, vassign fl v [2; 7; 4; 1] in
  (same v1 (vec [4; 3; 2; 6]) && same v2 (vec [6; 4; 6; 7]) && same v3 (vec [4; 2; 4; 5]) && same v4 (vec [-1; -1; 1; 4]) &&
   same v5 (vec [-2; -2; 2; 8]) && same v6 (vec [-2; -6; 4; 4]) && same v7 (vec [-1; -3; 2; 2]) && same v8 (qvec [2; -4; 8; 4]) &&
   same v9 (vec [2; 7; 4; 1]) &&
   match v9 ≫= vlength N32 sqrt32 with Some l => near l (len 70) | None => false end &&
   nears (v9 ≫= vnormalize N32 sqrt32) (over [2; 7; 4; 1] 70)) = true.
Proof. vm_compute. reflexivity. Qed.
(** :296-382 Vector5 *)
Example vector5_test :
  let v5 := vec [2; 1; 0; 4; 8] in
  (same (vneg N32 v5) (vec [-2; -1; 0; -4; -8]) &&
   same (op_s fadd v5 1) (vec [3; 2; 1; 5; 9]) && same (op_v fadd v5 (vec [1; 2; 3; 0; 5])) (vec [3; 3; 3; 4; 13]) &&
   same (op_s fsub v5 1) (vec [1; 0; -1; 3; 7]) && same (op_v fsub v5 (vec [2; 3; 1; 2; 3])) (vec [0; -2; -1; 2; 5]) &&
   same (op_s fmul v5 2) (vec [4; 2; 0; 8; 16]) && same (op_v fmul v5 (qvec [8; 20; 8; 4; 6])) (vec [4; 5; 0; 4; 12]) &&
   same (op_s fdiv v5 2) (qvec [4; 2; 0; 8; 16]) && same (op_v fdiv v5 (vec [2; 1; 2; 1; 4])) (vec [1; 1; 0; 4; 2])) = true.
Proof. vm_compute. reflexivity. Qed.
Example vector5_assign_test :
  let v0 := vec [2; 1; 0; 4; 8] in
  let v1 := self_s fadd v0 2 in let v2 := v1 ≫= λ v, self_v fadd v (vec [2; 1; 4; 1; 4]) in
  let v3 := v2 ≫= λ v, self_s fsub v 2 in let v4 := v3 ≫= λ v, self_v fsub v (vec [5; 3; 3; 1; 5]) in
  let v5 := v4 ≫= λ v, self_s fmul v 2 in let v6 := v5 ≫= λ v, self_v fmul v (qvec [4; 12; 8; 2; 1]) in
  let v7 := v6 ≫= λ v, self_s fdiv v 2 in let v8 := v7 ≫= λ v, self_v fdiv v (qvec [-8; 12; 4; 8; 2]) in
  let v9 := v8 ≫= λ v, vassign fl v [2; 7; 4; 1; 3] in
  (same v1 (vec [4; 3; 2; 6; 10]) && same v2 (vec [6; 4; 6; 7; 14]) && same v3 (vec [4; 2; 4; 5; 12]) && same v4 (vec [-1; -1; 1; 4; 7]) &&
   same v5 (vec [-2; -2; 2; 8; 14]) && same v6 (qvec [-8; -24; 16; 16; 14]) && same v7 (qvec [-4; -12; 8; 8; 7]) &&
   same v8 (qvec [2; -4; 8; 4; 14]) && same v9 (vec [2; 7; 4; 1; 3]) &&
   match v9 ≫= vlength N32 sqrt32 with Some l => near l (len 79) | None => false end &&
   nears (v9 ≫= vnormalize N32 sqrt32) (over [2; 7; 4; 1; 3] 79)) = true.
Proof. vm_compute. reflexivity. Qed.
(** :384-409 Functions *)
Example vector_functions_test :
  let v1 := vec [1; 5; 2] in let v2 := vec [5; 3; 1] in let two := fl 2 in
  (match dot N32 v1 v2 with Some d => feq d (fl 22) | None => false end &&
   same (cross N32 v1 v2) (vec [-1; 9; -22]) &&
   same (lerp N32 id id (λ p, fsub (fl 1) p) v1 v2 (qu 2)) (qvec [12; 16; 6]) &&
   same (lerp N32 fl fl (λ p, 1 - p) v1 v2 0) v1 && same (lerp N32 fl fl (λ p, 1 - p) v1 v2 1) v2 &&
   same (lerp_v N32 id id (λ p, fsub (fl 1) p) v1 v2 (qvec [4; 0; 2])) (qvec [20; 20; 6]) &&
   match distance N32 sqrt32 v1 v1 with Some d => near d (fl 0) | None => false end &&
   match distance N32 sqrt32 v1 v2 with Some d => near d (len 21) | None => false end &&
   same (faceforward N32 flt v1 (vec [1; -1; 0]) (vec [0; 1; 0])) (vec [1; 5; 2]) &&
   same (faceforward N32 flt v1 (vec [1; 1; 0]) (vec [0; 1; 0])) (vec [-1; -5; -2]) &&
   same (reflect N32 two (vec [1; 1; 1]) (vec [1; 0; 0])) (vec [-1; 1; 1])) = true.
Proof. vm_compute. reflexivity. Qed.

(** ** matrix.cpp *)
Definition m_s (op : f32 → f32 → f32) (n : nat) (m : list (list f32)) (s : Z) := mat_op_s N32 op fl n n m s.
Definition m_m (op : f32 → f32 → f32) (n : nat) (m w : list (list f32)) := mat_op N32 op id n n m w.
Definition ms_s (op : f32 → f32 → f32) (n : nat) (m : list (list f32)) (s : Z) := mat_self_s op fl n m s.
Definition ms_m (op : f32 → f32 → f32) (n : nat) (m w : list (list f32)) := mat_self op id n m w.
(** :10-120 Matrix *)
Example matrix2_test :
  let mat := mat_ [[1; 6]; [8; 1]] in
  (msame (m_s fadd 2 mat 2) (mat_ [[3; 8]; [10; 3]]) && msame (m_m fadd 2 mat (mat_ [[1; 4]; [7; 4]])) (mat_ [[2; 10]; [15; 5]]) &&
   msame (m_s fsub 2 mat 2) (mat_ [[-1; 4]; [6; -1]]) && msame (m_m fsub 2 mat (mat_ [[1; 4]; [7; 4]])) (mat_ [[0; 2]; [1; -3]]) &&
   msame (m_s fmul 2 mat 2) (mat_ [[2; 12]; [16; 2]]) && msame (mat_mul N32 2 2 2 mat (mat_ [[2; -1]; [6; 2]])) (mat_ [[-6; 11]; [22; 38]]) &&
   msame (m_s fdiv 2 mat 2) (map qvec [[2; 12]; [16; 2]])) = true.
Proof. vm_compute. reflexivity. Qed.
Example matrix2_assign_test :
  let m0 := mat_ [[1; 6]; [8; 1]] in
  let m1 := ms_s fadd 2 m0 2 in let m2 := m1 ≫= λ m, ms_m fadd 2 m (mat_ [[5; 3]; [1; 0]]) in
  let m3 := m2 ≫= λ m, ms_s fsub 2 m 3 in let m4 := m3 ≫= λ m, ms_m fsub 2 m (mat_ [[5; 3]; [3; -2]]) in
  let m5 := m4 ≫= λ m, ms_s fmul 2 m 2 in let m6 := m5 ≫= λ m, ms_s fdiv 2 m 2 in
  (msame m1 (mat_ [[3; 8]; [10; 3]]) && msame m2 (mat_ [[8; 11]; [11; 3]]) && msame m3 (mat_ [[5; 8]; [8; 0]]) &&
   msame m4 (mat_ [[0; 5]; [5; 2]]) && msame m5 (mat_ [[0; 10]; [10; 4]]) && msame m6 (mat_ [[0; 5]; [5; 2]])) = true.
Proof. vm_compute. reflexivity. Qed.
(** :122-258 Matrix4x4; vec4{2} has four components 2 *)
Definition cols (l : list Z) : list (list f32) := map (λ z, vec4_fill fl z) l.
Example matrix4_test :
  let mat := mat_ [[5; 3; 1; 6]; [1; 0; 3; 1]; [7; 6; 0; 3]; [1; 0; 0; 5]] in
  (msame (m_s fadd 4 mat 2) (mat_ [[7; 5; 3; 8]; [3; 2; 5; 3]; [9; 8; 2; 5]; [3; 2; 2; 7]]) &&
   msame (m_m fadd 4 mat (cols [2; 1; 3; 4])) (mat_ [[7; 5; 3; 8]; [2; 1; 4; 2]; [10; 9; 3; 6]; [5; 4; 4; 9]]) &&
   msame (m_s fsub 4 mat 2) (mat_ [[3; 1; -1; 4]; [-1; -2; 1; -1]; [5; 4; -2; 1]; [-1; -2; -2; 3]]) &&
   msame (m_m fsub 4 mat (cols [0; -2; 3; 1])) (mat_ [[5; 3; 1; 6]; [3; 2; 5; 3]; [4; 3; -3; 0]; [0; -1; -1; 4]]) &&
   msame (m_s fmul 4 mat 2) (mat_ [[10; 6; 2; 12]; [2; 0; 6; 2]; [14; 12; 0; 6]; [2; 0; 0; 10]]) &&
   msame (m_s fdiv 4 mat 2) (map qvec [[10; 6; 2; 12]; [2; 0; 6; 2]; [14; 12; 0; 6]; [2; 0; 0; 10]])) = true.
Proof. vm_compute. reflexivity. Qed.
Example matrix4_assign_test :
  let m0 := mat_ [[5; 3; 1; 6]; [1; 0; 3; 1]; [7; 6; 0; 3]; [1; 0; 0; 5]] in
  let m1 := ms_s fadd 4 m0 2 in let m2 := m1 ≫= λ m, ms_m fadd 4 m (cols [2; 1; 0; -2]) in
  let m3 := m2 ≫= λ m, ms_s fsub 4 m 2 in let m4 := m3 ≫= λ m, ms_m fsub 4 m (cols [0; -2; 0; 1]) in
  let m5 := m4 ≫= λ m, ms_s fmul 4 m 2 in let m6 := m5 ≫= λ m, ms_s fdiv 4 m 2 in
  (msame m1 (mat_ [[7; 5; 3; 8]; [3; 2; 5; 3]; [9; 8; 2; 5]; [3; 2; 2; 7]]) && msame m2 (mat_ [[9; 7; 5; 10]; [4; 3; 6; 4]; [9; 8; 2; 5]; [1; 0; 0; 5]]) &&
   msame m3 (mat_ [[7; 5; 3; 8]; [2; 1; 4; 2]; [7; 6; 0; 3]; [-1; -2; -2; 3]]) && msame m4 (mat_ [[7; 5; 3; 8]; [4; 3; 6; 4]; [7; 6; 0; 3]; [-2; -3; -3; 2]]) &&
   msame m5 (mat_ [[14; 10; 6; 16]; [8; 6; 12; 8]; [14; 12; 0; 6]; [-4; -6; -6; 4]]) && msame m6 (mat_ [[7; 5; 3; 8]; [4; 3; 6; 4]; [7; 6; 0; 3]; [-2; -3; -3; 2]])) = true.
Proof. vm_compute. reflexivity. Qed.
(** :260-304 Functions *)
Example matrix_functions_test :
  let is (r : option f32) (z : Z) := match r with Some d => feq d (fl z) | None => false end in
  (is (det2 N32 (mat_ [[3; 4]; [1; 2]])) 2 && is (det3 N32 (mat_ [[5; 3; 1]; [7; 3; 4]; [9; 7; 8]])) (-58) &&
   is (det4 N32 (mat_ [[5; 3; 1; 2]; [6; 7; 3; 4]; [9; 7; -3; 8]; [9; -8; -3; 1]])) (-498) &&
   msame (outer_product N32 (vec [1; 5; 2]) (vec [5; 3])) (mat_ [[5; 25; 10]; [3; 15; 6]]) &&
   msame (hadamard_product N32 2 2 (mat_ [[1; 5]; [5; 3]]) (mat_ [[1; 5]; [5; 3]])) (mat_ [[1; 25]; [25; 9]])) = true.
Proof. vm_compute. reflexivity. Qed.
(** :306-343 Transformations. sin(pi/2) is 1 and cos(pi/2) is -4.371139e-08, the values
    of the C library for the float closest to pi/2 *)
Example matrix_transform_test :
  let sn := λ _ : f32, fl 1 in let cs := λ _ : f32, float32 (-12303492) (-48) in let eps := float32 1 (-23) in
  match rotate N32 sn cs N32 id id (mat4_fill N32 (fl 1)) (fl 0) (vec [0; 1; 0]) with
  | Some [[a; b; c; d]; y; [e; f; g; h]; w] =>
      flt (Babs a) eps && nears (Some [b; c; d]) (vec [0; -1; 0]) && nears (Some y) (vec [0; 1; 0; 0]) &&
      nears (Some [e; f; h]) (vec [1; 0; 0]) && flt (Babs g) eps && nears (Some w) (vec [0; 0; 0; 1])
  | _ => false
  end = true ∧
  (msame (translate N32 id (mat4_fill N32 (fl 2)) (vec [1; 5; 3])) (mat_ [[2; 0; 0; 0]; [0; 2; 0; 0]; [0; 0; 2; 0]; [2; 10; 6; 2]]) &&
   msame (scale N32 id (mat4_fill N32 (fl 2)) (vec [2; 1; 3])) (mat_ [[4; 0; 0; 0]; [0; 2; 0; 0]; [0; 0; 6; 0]; [0; 0; 0; 2]])) = true.
Proof. vm_compute. done. Qed.

(** ** quaternion.cpp:10-28 *)
Example quaternion_test :
  let q (a b c d : Z) := Quat (fl a) (fl b) (fl c) (fl d) in let quat := q 1 5 3 4 in let tmp := q 3 1 0 3 in
  (qeq feq (qadd N32 quat tmp) (q 4 6 3 7) && qeq feq (qsub N32 quat tmp) (q (-2) 4 3 1) && qeq feq (qmul N32 quat tmp) (q (-14) 25 (-2) 12)) = true.
Proof. vm_compute. reflexivity. Qed.
