(** Vocabulary for the theorems about vectors and matrices. *)
From stdpp Require Import list.
From Coq Require Import Ring_theory.
From Verif Require Import VecModel.

(** The sum f 0 + f 1 + ... + f (n - 1), added up from the left, starting with 0. *)
Fixpoint sum {T} (N : num T) (n : nat) (f : nat → T) : T :=
  match n with 0 => n0 N | S n' => nadd N (sum N n' f) (f n') end.
(** The arithmetic of a commutative ring. *)
Definition is_ring {T} (N : num T) : Prop :=
  ring_theory (n0 N) (n1 N) (nadd N) (nmul N) (nsub N) (nneg N) eq.
(** [m] has [cols] columns with [rows] entries; m[j][i] is [f j i]. *)
Definition denotes {T} (m : list (list T)) (cols rows : nat) (f : nat → nat → T) : Prop :=
  length m = cols ∧ ∀ j, j < cols → ∃ c, m !! j = Some c ∧ length c = rows ∧ ∀ i, i < rows → c !! i = Some (f j i).
(** Component [i] of a vector. *)
Definition comp {T} (N : num T) (v : list T) (i : nat) : T := default (n0 N) (v !! i).
(** The determinant, by expansion along the first row: column [k] of [f] is
    [f k]; the minor leaves out row 0 and column [k]. *)
Definition minor {T} (f : nat → nat → T) (k : nat) : nat → nat → T :=
  λ j i, f (if j <? k then j else S j) (S i).
Fixpoint laplace {T} (N : num T) (n : nat) (f : nat → nat → T) : T :=
  match n with
  | 0 => n1 N
  | S n' => sum N n (λ k, (if Nat.even k then id else nneg N) (nmul N (f k 0) (laplace N n' (minor f k))))
  end.
