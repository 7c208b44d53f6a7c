(** Vocabulary for the theorems about transformations and projections. *)
From stdpp Require Import list.
From Coq Require Import Reals.
From Verif Require Import VecModel VecSpec VecProps.
Local Open Scope R_scope.

Definition delta (j i : nat) : R := if (j =? i)%nat then 1 else 0.
(** Matrices are given by their entries: column, row. *)
Definition translation (v : list R) (j i : nat) : R :=
  if (j =? 3)%nat && (i <? 3)%nat then comp rnum v i else delta j i.
Definition scaling (v : list R) (j i : nat) : R :=
  if (j =? i)%nat then (if (j <? 3)%nat then comp rnum v j else 1) else 0.
(** Component [i] of the product n x e_j of the axis and a unit vector. *)
Definition axis_cross (n : list R) (j i : nat) : R :=
  match j, i with
  | 0, 1 => comp rnum n 2 | 0, 2 => Ropp (comp rnum n 1)
  | 1, 0 => Ropp (comp rnum n 2) | 1, 2 => comp rnum n 0
  | 2, 0 => comp rnum n 1 | 2, 1 => Ropp (comp rnum n 0)
  | _, _ => 0%R
  end%nat.
(** Rodrigues' rotation. *)
Definition rotation (a : R) (n : list R) (j i : nat) : R :=
  if (j <? 3)%nat && (i <? 3)%nat then
    cos a * delta j i + (1 - cos a) * comp rnum n i * comp rnum n j + sin a * axis_cross n j i
  else delta j i.
(** The axis is a unit vector. *)
Definition unit_axis (n : list R) : Prop :=
  length n = 3%nat ∧
  comp rnum n 0 * comp rnum n 0 + comp rnum n 1 * comp rnum n 1 + comp rnum n 2 * comp rnum n 2 = 1.
(** Conversion of a floating-point value to an integer type: towards zero. *)
Definition Rtrunc (x : R) : Z := if Rle_dec 0 x then Int_part x else (- Int_part (- x))%Z.
(** A projection takes the point (x, y, z) to (x', y', z') after the division by w. *)
Definition projects (P : list (list R)) (mv : list (list R) → list R → option (list R)) (x y z x' y' z' : R) : Prop :=
  ∃ w, w ≠ 0 ∧ mv P [x; y; z; 1] = Some [x' * w; y' * w; z' * w; w].
