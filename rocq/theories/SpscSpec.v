(** Vocabulary of the SPSCQueue theorems: well-behaved threads and what the
    calls they completed say about the queue. *)
From stdpp Require Import list.
From Coq Require Import ZArith.
From Verif Require Import Base Client SpscModel.
Local Open Scope Z_scope.

Section spec.
Context {V : Type}.
Notation log := (list (op V * outcome (out V))).

(** The producer thread pushes and asks for the available room. *)
Fixpoint producer (p : prog (op V) (out V)) : Prop :=
  match p with
  | Done => True
  | Do (OEmplace _) k => (∀ b, producer (k (Ret (RBool b)))) ∧ producer (k Exn)
  | Do OReadAvailable k | Do OWriteAvailable k => ∀ z, producer (k (Ret (RCount z)))
  | _ => False
  end.
(** The consumer thread removes an element only when it has been told, by
    read_available, of elements it has not yet removed ([credit]). *)
Fixpoint consumer (credit : Z) (p : prog (op V) (out V)) : Prop :=
  match p with
  | Done => True
  | Do OPop k => 0 < credit ∧ consumer (credit - 1) (k (Ret RUnit))
  | Do (OConsume _ true) k => 0 < credit ∧ consumer credit (k Exn)
  | Do (OConsume _ false) k => 0 < credit ∧ ∀ v, consumer (credit - 1) (k (Ret (RVal v)))
  | Do OReadAvailable k => ∀ z, consumer z (k (Ret (RCount z)))
  | Do OWriteAvailable k => ∀ z, consumer credit (k (Ret (RCount z)))
  | _ => False
  end.

(** The values successfully pushed, in order. *)
Fixpoint pushed (l : log) : list V :=
  match l with
  | [] => []
  | (OEmplace v, Ret (RBool true)) :: l' => v :: pushed l'
  | _ :: l' => pushed l'
  end.
(** The removals, in order: None for pop, Some x for a consume whose callback
    was given the value x (None if it was moved-from). *)
Fixpoint removed (l : log) : list (option (option V)) :=
  match l with
  | [] => []
  | (OPop, Ret RUnit) :: l' => None :: removed l'
  | (OConsume _ _, Ret (RVal x)) :: l' => Some x :: removed l'
  | _ :: l' => removed l'
  end.
(** Some callback moved the value out and then threw. *)
Definition spoiled (l : log) : Prop := (OConsume true true, Exn) ∈ l.

(** Powers of two that fit in std::size_t. *)
Definition pow2 (cap : nat) : Prop := ∃ e, 0 ≤ e < 64 ∧ Z.of_nat cap = 2 ^ e.
End spec.

(** The states two such threads can reach on a fresh queue. *)
Definition reachable {V} (ndebug : bool) (cap : nat) (p c : prog (op V) (out V)) (s : st V) : Prop :=
  ∃ sched, run ndebug (Z.of_nat cap) sched (start cap p c) = Ok tt s.
(** The state of the slots holding the elements pushed and not yet removed,
    oldest first. *)
Definition contents {V} (cap : nat) (s : st V) : list (option (cell V)) :=
  let n := length (pushed (tlog (thP s))) in let m := length (removed (tlog (thC s))) in
  map (λ i, scell <$> slots s !! Nat.modulo i cap) (seq m (n - m)).
(** The number of steps of thread [t] in a schedule. *)
Global Instance tid_eq_dec : EqDecision tid.
Proof. solve_decision. Defined.
Definition steps_of (t : tid) (sched : list (tid * nat)) : nat := length (filter (λ x, x.1 = t) sched).
