(** Vocabulary of the LinkedList theorems: what a client can observe through
    iterators, and the states reachable by valid calls. *)
From stdpp Require Import list.
From Verif Require Import Base ListModel ListSpec ListRun.

Section obs.
Context {V : Type}.

(** List [i] holds the nodes [xs] (identity and value of each): iterating gives
    the values, begin() designates the first node, and each node's iterator
    dereferences to its value and increments to the following node. *)
Definition lobs (s : st V) (i : nat) (xs : list (nat * V)) : Prop :=
  to_list i s = Ok (vals xs) s ∧
  begin_ i s = Ok (first_pos xs) s ∧
  ∀ a x b, xs = a ++ x :: b →
    deref (Nod x.1) s = Ok x.2 s ∧ get_next (Nod x.1) s = Ok (first_pos b) s.

(** Node [n] is allocated and not yet returned to the allocator. *)
Definition allocated (s : st V) (n : nat) : Prop := ∃ nd, nodes s !! n = Some (Some nd).

(** The identities of all nodes in lists. *)
Definition in_lists (σ : ast V) (n : nat) : Prop :=
  ∃ i xs, get σ i = Some xs ∧ n ∈ xs.*1.

(** [σ] says what is observable of every list, which nodes are leaked, and that
    every allocated node is in exactly one list or leaked. *)
Record view (s : st V) (σ : ast V) : Prop := View {
  vw_len : length (heads s) = length (ls σ);
  vw_list : ∀ i xs, get σ i = Some xs → lobs s i xs;
  vw_dead : ∀ i, ls σ !! i = Some None → begin_ i s = UB NoObject;
  vw_nodup : NoDup (lost σ);
  vw_nodes : ∀ n, allocated s n ↔ in_lists σ n ∨ n ∈ lost σ;
  vw_lost : ∀ n, in_lists σ n → n ∉ lost σ;
  vw_once : ∀ i xs, get σ i = Some xs → NoDup xs.*1;
  vw_disj : ∀ i j xs ys n, i ≠ j → get σ i = Some xs → get σ j = Some ys → n ∈ xs.*1 → n ∉ ys.*1;
  vw_fresh : fresh_id σ = length (nodes s);
  vw_objects : leaked s = 0  (* no element was dropped without its destructor *)
}.

(** States reachable by valid calls, returning or throwing. *)
Inductive reach : st V → Prop :=
| reach_init orc : reach (init orc)
| reach_ret s σ o σ1 r s' :
    reach s → view s σ → spec_step o σ = Some (σ1, r) → run_op o s = Ok r s' → reach s'
| reach_exn s σ o σ1 r s' :
    reach s → view s σ → spec_step o σ = Some (σ1, r) → run_op o s = Throw s' → reach s'.

Definition same_except (i : nat) (s s' : st V) : Prop :=
  ∀ j xs, j ≠ i → lobs s j xs → lobs s' j xs.
Definition same_all (s s' : st V) : Prop := ∀ j xs, lobs s j xs → lobs s' j xs.
(** No node was obtained from or returned to the allocator. *)
Definition same_nodes (s s' : st V) : Prop :=
  length (nodes s') = length (nodes s) ∧ ∀ n, allocated s' n ↔ allocated s n.

(** A call on list [i] is never undefined behaviour; it returns [r] and leaves
    [i] holding [xs'], or throws (only if the environment lets something throw)
    and leaves [i] holding some [xs''] with [P xs'']; other lists are unaffected. *)
Definition call (o : op V) (s : st V) (i : nat) (r : out V) (xs' : list (nat * V))
    (P : list (nat * V) → Prop) : Prop :=
  match run_op o s with
  | Ok r' s' => r' = r ∧ lobs s' i xs' ∧ same_except i s s' ∧ reach s'
  | Throw s' => oracle s ≠ [] ∧ (∃ xs'', P xs'' ∧ lobs s' i xs'') ∧ same_except i s s' ∧ reach s'
  | UB _ => False
  end.
(** The same for a call that never throws and touches the allocator only to
    return the nodes [freed]. *)
Definition quiet_call (o : op V) (s : st V) (i : nat) (r : out V) (xs' : list (nat * V))
    (freed : list nat) : Prop :=
  ∃ s', run_op o s = Ok r s' ∧ lobs s' i xs' ∧ same_except i s s' ∧ reach s' ∧
        length (nodes s') = length (nodes s) ∧
        ∀ n, allocated s' n ↔ allocated s n ∧ n ∉ freed.

(** The nodes a call erases, and those whose value it overwrites. *)
Definition ids (σ : ast V) (i : nat) : list nat := match get σ i with Some xs => xs.*1 | None => [] end.
Definition range_ids (σ : ast V) (j : nat) (f l : pos) : list nat :=
  match get σ j with
  | Some ys => match rng f l ys with Some r => r.*1 | None => [] end
  | None => [] end.
Definition erases (o : op V) (σ : ast V) : list nat :=
  match o with
  | LDestroy i | LClear i | LAssignMove i _ => ids σ i
  | LPopFront i => take 1 (ids σ i)
  | LEraseAfter i p =>
      match get σ i with
      | Some xs => match at_pos i p xs with Some (_, y :: _) => [y.1] | _ => [] end
      | None => [] end
  | LEraseRange i p q =>
      match get σ i with
      | Some xs => match at_pos i p xs with
                   | Some (_, b) => match until q b with Some (ys, _) => ys.*1 | None => [] end
                   | None => [] end
      | None => [] end
  | LAssign i vs => drop (length vs) (ids σ i)
  | LAssignCopy i j => drop (length (ids σ j)) (ids σ i)
  | LAssignNodes i j f l => drop (length (range_ids σ j f l)) (ids σ i)
  | _ => []
  end.
Definition overwrites (o : op V) (σ : ast V) : list nat :=
  match o with
  | LAssign i vs => take (length vs) (ids σ i)
  | LAssignCopy i j => if Nat.eqb i j then [] else take (length (ids σ j)) (ids σ i)
  | LAssignNodes i j f l => take (length (range_ids σ j f l)) (ids σ i)
  | LSet i (Nod n) _ => [n]
  | _ => []
  end.
End obs.
