(** What an ArrayView shows, stated on lists. *)
From stdpp Require Import list.
From Coq Require Import ZArith.
From Verif Require Import Base SimdModel ViewModel.
Local Open Scope Z_scope.

(** Memory that exists on a 64-bit machine: not at address 0, ends below 2^64. *)
Definition real_mem (s : mem) : Prop := 0 < m_base s ∧ m_end s < 2 ^ 64.

(** [v] is a view of elements of [w] bytes; in [s] it shows the elements [ls],
    which start [o] bytes into the allocation. A null view shows no elements. *)
Definition views (w : nat) (v : view) (s : mem) (o : nat) (ls : list (list Z)) : Prop :=
  Forall (λ x, length x = w) ls ∧ size v = Z.of_nat (length ls) ∧
  (ls = [] ∧ v_ptr v = 0 ∨
   ∃ pre post, length pre = o ∧ m_bytes s = pre ++ concat ls ++ post ∧ v_ptr v = m_base s + Z.of_nat o).

Definition slice {A} (off cnt : nat) (l : list A) : list A := take cnt (drop off l).
