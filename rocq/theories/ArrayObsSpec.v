(** Vocabulary of the Array theorems: what a client can observe of an array
    through the API, and the states it can reach by calls whose documented
    preconditions hold. *)
From stdpp Require Import list.
From Verif Require Import Base ArrayModel ArraySpec ArrayRun.
Local Open Scope mon_scope.

Section obs.
Context {V : Type}.

(** Array [i] holds the sequence [l] with capacity [c]: iterating over it and
    asking for its capacity succeed, change nothing, and give [l] and [c]. *)
Definition obs (s : st V) (i : nat) (l : list V) (c : nat) : Prop :=
  to_list i s = Ok l s ∧ capacity i s = Ok c s.

(** [σ] lists what is observable of every array. *)
Definition view (s : st V) (σ : astore V) : Prop :=
  length (objs s) = length σ ∧
  ∀ i, match σ !! i with
       | Some (Some (Good l c)) => obs s i l c
       | Some (Some (Broken c)) => capacity i s = Ok c s
       | Some None => capacity i s = UB NoObject
       | None => True
       end.

(** States reachable by valid calls, returning or throwing (trivial T). *)
Inductive reach : st V → Prop :=
| reach_init orc : reach (init orc)
| reach_ret s σ o σ1 r s' :
    reach s → view s σ → spec_step o σ = Some (σ1, r) → run_op true o s = Ok r s' → reach s'
| reach_exn s σ o σ1 r s' :
    reach s → view s σ → spec_step o σ = Some (σ1, r) → run_op true o s = Throw s' → reach s'.

(** Every array other than [i] is observed unchanged. *)
Definition same_except (i : nat) (s s' : st V) : Prop :=
  ∀ j l c, j ≠ i → obs s j l c → obs s' j l c.

(** A call on array [i] never is undefined behaviour; it returns [r] and leaves
    [i] holding [l'] with capacity [c'], or (only if the environment makes an
    allocation or element construction fail) throws and leaves [i] holding some
    [l''], [c''] with [P l'' c'']; other arrays are unaffected. *)
Definition call (o : op V) (s : st V) (i : nat) (r : out V) (l' : list V) (c' : nat)
    (P : list V → nat → Prop) : Prop :=
  match run_op true o s with
  | Ok r' s' => r' = r ∧ obs s' i l' c' ∧ same_except i s s' ∧ reach s'
  | Throw s' => oracle s ≠ [] ∧ (∃ l'' c'', P l'' c'' ∧ obs s' i l'' c'') ∧
                same_except i s s' ∧ reach s'
  | UB _ => False
  end.
Definition never (l : list V) (c : nat) : Prop := False.
End obs.

Section more.
Context {V : Type}.

(** Every array is observed unchanged. *)
Definition same_all (s s' : st V) : Prop := ∀ j l c, obs s j l c → obs s' j l c.

(** A constructor call: creates the array named [length (objs s)]. *)
Definition call_new (o : op V) (s : st V) (l : list V) (c : nat) : Prop :=
  match run_op true o s with
  | Ok r s' => r = RNew (length (objs s)) ∧ obs s' (length (objs s)) l c ∧ same_all s s' ∧ reach s'
  | Throw s' => oracle s ≠ [] ∧ same_all s s' ∧ length (objs s') = length (objs s) ∧ reach s'
  | UB _ => False
  end.

(** An accessor: returns [r], changes nothing, never throws. *)
Definition reads (o : op V) (s : st V) (r : out V) : Prop := run_op true o s = Ok r s.

(** The arrays a call is allowed to change (constructors create a new one). *)
Definition targets (o : op V) : list nat :=
  match o with
  | OMove j => [j]
  | ODestroy i | OAssignCopy i _ | OAssignList i _ | OClear i | OReserve i _ | OResize i _
  | OInsert i _ _ | OInsertRange i _ _ | OPush i _ | OEmplace i _ | OPushRange i _ | OPop i
  | OErase i _ | OEraseRange i _ _ => [i]
  | OAssignMove i j | OSwap i j => [i; j]
  | _ => []
  end.

(** [s'] is reached from [s] by valid calls none of which targets array [j]. *)
Inductive history_avoiding (j : nat) : st V → st V → Prop :=
| ha_refl s : history_avoiding j s s
| ha_step s σ o σ1 r s' s'' :
    view s σ → spec_step o σ = Some (σ1, r) → j ∉ targets o →
    (run_op true o s = Ok r s' ∨ run_op true o s = Throw s') →
    history_avoiding j s' s'' → history_avoiding j s s''.

(** Nothing but the array objects themselves changes: no allocation, no
    element touched. *)
Definition only_objs (s s' : st V) : Prop :=
  heap s' = heap s ∧ oracle s' = oracle s ∧ moved s' = moved s ∧ leaked s' = leaked s.

(** Calls that fit in the present capacity of array [i] holding [l]. *)
Definition fits (o : op V) (i : nat) (l : list V) (c : nat) : Prop :=
  match o with
  | OPush j _ | OEmplace j _ => j = i ∧ length l < c
  | OInsert j k _ => j = i ∧ k ≤ length l ∧ length l < c
  | OReserve j n => j = i ∧ n ≤ c
  | OPushRange j xs => j = i ∧ length l + length xs ≤ c
  | OInsertRange j k xs => j = i ∧ k ≤ length l ∧ length l + length xs ≤ c
  | OPop j => j = i ∧ l ≠ []
  | OClear j => j = i
  | OErase j k => j = i ∧ k < length l
  | OEraseRange j k m => j = i ∧ k ≤ m ∧ m ≤ length l
  | _ => False
  end.
End more.
