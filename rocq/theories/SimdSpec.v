(** Specification vocabulary for find and reverse: what a range of elements
    is in memory, and which position is the first match. Independent of the
    model's functions. *)
From stdpp Require Import list.
From Coq Require Import ZArith Lia.
Local Open Scope Z_scope.

(** The [w] bytes of an integer, least significant first (two's complement for
    negative ones). *)
Fixpoint le_bytes (w : nat) (z : Z) : list Z :=
  match w with
  | O => []
  | S w => (z mod 256) :: le_bytes w (z / 256)
  end.

(** Integers of [w] bytes, signed or not. *)
Definition representable (signed : bool) (w : nat) (z : Z) : Prop :=
  if signed then - 2 ^ (8 * Z.of_nat w - 1) <= z < 2 ^ (8 * Z.of_nat w - 1)
  else 0 <= z < 2 ^ (8 * Z.of_nat w).

(** The integer whose bytes are given: operator== on an integer type compares these. *)
Fixpoint le_value (l : list Z) : Z :=
  match l with
  | [] => 0
  | b :: l => b + 256 * le_value l
  end.

(** [k] is the position of the first element satisfying [P], or the length. *)
Definition first_match {A} (P : A → Prop) (l : list A) (k : nat) : Prop :=
  (k <= length l)%nat ∧
  (∀ j a, (j < k)%nat → l !! j = Some a → ¬ P a) ∧
  (∀ a, l !! k = Some a → P a).

(** IEEE-754 equality on bit patterns with [m] mantissa and [e] exponent bits:
    NaNs compare unequal to everything, the two zeros compare equal. *)
Definition magnitude (m e z : Z) : Z := z mod 2 ^ (m + e).
Definition is_nan (m e z : Z) : bool := (2 ^ e - 1) * 2 ^ m <? magnitude m e z.
Definition is_zero (m e z : Z) : bool := magnitude m e z =? 0.
Definition ieee_eq (m e x y : Z) : bool :=
  negb (is_nan m e x) && negb (is_nan m e y) && ((x =? y) || (is_zero m e x && is_zero m e y)).
(** float and double. *)
Definition float_eq (x y : list Z) : bool := ieee_eq 23 8 (le_value x) (le_value y).
Definition double_eq (x y : list Z) : bool := ieee_eq 52 11 (le_value x) (le_value y).
