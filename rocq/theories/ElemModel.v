(** Where the components of vectors, matrices and quaternions are, and access to them by
    index: /repo/include/xme/math/vector.hpp, vectors/vector2.hpp, vectors/vector3.hpp,
    vectors/vector4.hpp, vectors/geometry.hpp, matrix.hpp, matrices/matrix4x4.hpp,
    quaternion.hpp.

    Classes are laid out as in LayoutModel. [w] and [a] are the size and the alignment of the
    element type. *)
From Coq Require Import ZArith List Bool.
From Verif Require Import LayoutModel.
Import ListNotations.
Local Open Scope Z_scope.

(** The members of a vector: one for each component (vector2.hpp:106-107,
    vector3.hpp:119-121, vector4.hpp:136-139), or an array (vector.hpp:119) *)
Inductive storage := Members (n : nat) | InArray (n : nat).
Definition vector_storage (n : nat) : storage :=
  match n with 2%nat | 3%nat | 4%nat => Members n | _ => InArray n end.
(** quaternion.hpp:53-56: w, x, y, z *)
Definition quaternion_storage : storage := Members 4.
Definition storage_size (s : storage) : nat := match s with Members n | InArray n => n end.
(** std::array<T, n> is laid out like T[n] *)
Definition storage_fields (w a : Z) (s : storage) : list field :=
  match s with
  | Members n => repeat (Field w a) n
  | InArray n => [Field (Z.of_nat n * w) a]
  end.

(** The rules for pointers: [Bytes], addresses; [Objects], those of the standard ([expr.add],
    [basic.compound]), which constant evaluation checks: a pointer to an object that is no
    element of an array can only be moved to the end of that object, and not be used there. *)
Inductive rule := Bytes | Objects.
Inductive result (A : Type) := Done (a : A) | Assert | Undefined.
Arguments Done {A}. Arguments Assert {A}. Arguments Undefined {A}.
Definition andThen {A B} (r : result A) (k : A -> result B) : result B :=
  match r with Done a => k a | Assert => Assert | Undefined => Undefined end.

(** operator[]: the offset of the component inside the object
    - vector2.hpp:77-86, vector3.hpp:90-99, vector4.hpp:107-116: assert, then (&x)[i]
    - vector.hpp:85-94: assert, then m_data[i]
    - quaternion.hpp:37-45: (&w)[i] ([checked] is false)
    [checked]: assertions are there and enabled. *)
Definition index (r : rule) (checked : bool) (w a : Z) (s : storage) (i : nat) : result Z :=
  if checked && negb (Nat.ltb i (storage_size s)) then Assert else
  let first := nth 0 (offsets (storage_fields w a s)) 0 in
  match s, r with
  | Members _, Bytes => Done (first + Z.of_nat i * w)
  | Members _, Objects => if Nat.eqb i 0 then Done first else Undefined
  | InArray n, _ => if Nat.ltb i n then Done (first + Z.of_nat i * w) else Undefined
  end.

(** ** Functions that access components by index: which accesses they make, in order *)
Fixpoint accesses (r : rule) (checked : bool) (w a : Z) (s : storage) (is_ : list nat) : result (list Z) :=
  match is_ with
  | [] => Done []
  | i :: is_ => andThen (index r checked w a s i) (fun o => andThen (accesses r checked w a s is_) (fun os => Done (o :: os)))
  end.
(** geometry.hpp:12-17 dot, of either argument *)
Definition dot_accesses (r : rule) (w a : Z) (n : nat) : result (list Z) := accesses r true w a (vector_storage n) (seq 0 n).
(** matrix.hpp:56-62 Matrix(s), also called by Matrix(): m_data[i][i] for i below the smaller
    of the numbers of columns and rows; matrix4x4.hpp:54-61: none *)
Definition matrix_fill_accesses (r : rule) (w a : Z) (cols rows : nat) : result (list Z) :=
  if Nat.eqb cols 4 && Nat.eqb rows 4 then Done []
  else accesses r true w a (vector_storage rows) (seq 0 (Nat.min cols rows)).
(** matrix.hpp:137-143, matrix4x4.hpp:142-145 row(i): m_data[j][i] for all columns j (the
    accesses to the result are left out) *)
Definition matrix_row_accesses (r : rule) (w a : Z) (cols rows i : nat) : result (list Z) :=
  accesses r true w a (vector_storage rows) (repeat i cols).

(** matrix.hpp:151, matrix4x4.hpp:163: std::array<column_type, Cols>. The offset of the
    component in row [row] of column [col] *)
Definition matrix_fields (w a : Z) (cols rows : nat) : list field :=
  let column := class_field (storage_fields w a (vector_storage rows)) in
  [Field (Z.of_nat cols * f_size column) (f_align column)].
Definition matrix_index (r : rule) (w a : Z) (cols rows col row : nat) : result Z :=
  if Nat.ltb col cols then
    andThen (index r true w a (vector_storage rows) row)
      (fun o => Done (Z.of_nat col * f_size (class_field (storage_fields w a (vector_storage rows))) + o))
  else Undefined.
