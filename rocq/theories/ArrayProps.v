(** Theorems about xme::Array (properties C01-C14). *)
From stdpp Require Import list.
From Verif Require Import Base ArrayModel ArraySpec ArrayRun ArrayObsSpec.
From Verif Require ArrayHistory ArrayObs ArrayTheory ArrayTheory2 ArrayExact.
Local Open Scope mon_scope.

(** A concrete reachable state used by the examples: array 0 is full and holds
    3,1,2; array 1 holds 7,8 with room for three more; array 2 is empty. *)
Definition ex_ops : list (op nat) := [ORange [3;1;2]; OCap 5; OPush 1 7; OPush 1 8; ODefault].
Definition ex_s : st nat :=
  match run_ops true ex_ops (init []) with Ok _ s => s | _ => init [] end.
Example ex_reach : reach ex_s.
Proof.
  apply (ArrayObs.reach_prog ex_ops [RNew 0; RNew 1; RUnit; RUnit; RNew 2]
    [Some (Good [3;1;2] 3); Some (Good [7;8] 5); Some (Good [] 0)]
    [RNew 0; RNew 1; RUnit; RUnit; RNew 2]); vm_compute; reflexivity.
Qed.
Example ex_obs : obs ex_s 0 [3;1;2] 3 ∧ obs ex_s 1 [7;8] 5 ∧ obs ex_s 2 [] 0.
Proof. vm_compute. tauto. Qed.

(** ** C01 *)

(** Every client program whose calls meet their preconditions, whatever the
    allocator and the element constructors do ([orc] decides which of them
    throw), runs without undefined behaviour, its outcomes are outcomes of the
    same program on mathematical lists, and in the end every array is observed
    to hold exactly its list. If nothing throws, no call throws. *)
Theorem array_history {V} (p : prog V) (orc : list bool) : valid p [] →
  ∃ rs s σ, run_prog true p (init orc) = Ok rs s ∧ spec_run p [] rs σ ∧ view s σ ∧
            (orc = [] → Exn ∉ rs).
Proof.
  intros Hp. destruct (ArrayHistory.prog_sim true p eq_refl (init orc) []) as (rs & s & σ & ? & ? & ? & ?);
    [apply ArrayHistory.srs_init|done|].
  exists rs, s, σ. eauto using ArrayObs.srs_view.
Qed.
Fixpoint straight {V} (os : list (op V)) : prog V :=
  match os with [] => Done | o :: os' => Do o (λ _, straight os') end.
Definition ex_prog : prog nat :=
  Do ODefault (λ _, Do (OPush 0 4) (λ r,
    match r with
    | Ret _ => Do (OInsert 0 0 9) (λ _, Do (OToList 0) (λ _, Done))
    | Exn => Do (OPush 0 5) (λ _, Do (ODestroy 0) (λ _, Done))
    end)).
Example array_history_ex :
  run_prog true ex_prog (init []) ≠ UB NullDeref ∧
  (∃ s, run_prog true ex_prog (init []) =
     Ok [Ret (RNew 0); Ret RUnit; Ret (RIdx 0); Ret (RList [9;4])] s) ∧
  (∃ s, run_prog true ex_prog (init [true]) =
     Ok [Ret (RNew 0); Exn; Ret RUnit; Ret RUnit] s).
Proof. split_and!; [done|eexists; vm_compute; reflexivity..]. Qed.
Example array_history_ex_valid : valid ex_prog [].
Proof.
  simpl. split; [|done]. eexists _, _. split; [reflexivity|]. simpl. split.
  - eexists _, _. split; [reflexivity|]. simpl. split.
    + eexists _, _. split; [reflexivity|]. simpl. split; [|done].
      eexists _, _. split; [reflexivity|done].
    + intros σ1 (l & c & Hg & H). injection Hg as <- <-.
      destruct H as [->|[[? _]|(x & _ & Hc & _)]]; [|done|vm_compute in Hc; lia].
      split; [|done]. eexists _, _. split; [reflexivity|done].
  - intros σ1 (l & c & Hg & H). injection Hg as <- <-.
    destruct H as [->| ->]; simpl.
    + split.
      * eexists _, _. split; [reflexivity|]. simpl. split; [|done]. eexists _, _. split; [reflexivity|done].
      * intros σ1 (l & c & Hg & H). injection Hg as <- <-.
        destruct H as [->| ->]; simpl; (split; [|done]); eexists _, _; (split; [reflexivity|done]).
    + split.
      * eexists _, _. split; [reflexivity|]. simpl. split; [|done]. eexists _, _. split; [reflexivity|done].
      * intros σ1 (l & c & Hg & H). injection Hg as <- <-.
        destruct H as [->| ->]; simpl; (split; [|done]); eexists _, _; (split; [reflexivity|done]).
Qed.

(** The straight-line form when nothing throws: the results returned are those
    of the list program. *)
Theorem array_history_straight {V} (os : list (op V)) rs σ : spec_exec os [] = Some (rs, σ) →
  ∃ s, run_ops true os (init []) = Ok rs s ∧ view s σ ∧ reach s.
Proof.
  intros H. destruct (ArrayHistory.ops_sim true os (init []) [] rs σ) as (s & E & Hs & _);
    [apply ArrayHistory.srs_init|done|by left|done|].
  exists s. split_and!; [done|by apply ArrayObs.srs_view|]. by eapply ArrayObs.reach_prog.
Qed.
Example array_history_straight_ex :
  spec_exec (ex_ops ++ [OCopy 0; OInsertRange 3 1 [5;6]; OErase 3 0; OAssignMove 1 3; OToList 1]) []
  = Some ([RNew 0; RNew 1; RUnit; RUnit; RNew 2; RNew 3; RIdx 1; RIdx 0; RUnit; RList [5;6;1;2]],
          [Some (Good [3;1;2] 3); Some (Good [5;6;1;2] 5); Some (Good [] 0); Some (Good [] 0)]).
Proof. reflexivity. Qed.

(** Any state reached by valid calls, including throwing ones, has a consistent
    observation of every array. *)
Theorem array_reach_view {V} (s : st V) : reach s → ∃ σ, view s σ.
Proof. intros [σ H]%ArrayObs.reach_srs. exists σ. by apply ArrayObs.srs_view. Qed.
Example array_reach_view_ex :
  reach ex_s ∧ view ex_s [Some (Good [3;1;2] 3); Some (Good [7;8] 5); Some (Good [] 0)].
Proof.
  split; [apply ex_reach|]. split; [reflexivity|]. intros [|[|[|i]]]; simpl; [apply ex_obs..|done].
Qed.

(** ** C02 *)

(** Every block that is live belongs to exactly one array, starts at its
    begin() and has exactly its capacity. (A deallocation that is not of the
    right block with the right count is undefined behaviour in the model, so
    C01 already excludes it.) *)
Theorem array_blocks_owned {V} (s : st V) b cs : reach s → heap s !! b = Some (Some cs) →
  ∃ i, (begin_ i s = Ok (Ptr b 0) s ∧ capacity i s = Ok (length cs) s) ∧
       ∀ j, begin_ j s = Ok (Ptr b 0) s → j = i.
Proof. apply ArrayTheory.live_block_owned. Qed.
Example array_blocks_owned_ex :
  reach ex_s ∧ heap ex_s !! 1 = Some (Some [Live 7; Live 8; Raw; Raw; Raw]).
Proof. split; [apply ex_reach|vm_compute; reflexivity]. Qed.

(** After all arrays of a history were destroyed no block is outstanding. *)
Theorem array_no_leak {V} (s : st V) : reach s →
  (∀ i, i < length (objs s) → objs s !! i = Some None) → ∀ b cs, heap s !! b ≠ Some (Some cs).
Proof. apply ArrayTheory.all_destroyed_no_block. Qed.
Definition ex_end_ops : list (op nat) :=
  ex_ops ++ [OCopy 0; OReserve 0 9; OInsertRange 1 1 [4;4;4;4]; OResize 1 1;
             ODestroy 0; ODestroy 1; ODestroy 2; ODestroy 3].
Definition ex_end : st nat :=
  match run_ops true ex_end_ops (init []) with Ok _ s => s | _ => ex_s end.
Example array_no_leak_ex : reach ex_end ∧ objs ex_end = [None; None; None; None] ∧
  heap ex_end = [None; None; None; None; None; None].
Proof.
  split; [|split; vm_compute; reflexivity].
  eapply (ArrayObs.reach_prog ex_end_ops); vm_compute; reflexivity.
Qed.

(** ** C03 *)
Theorem array_size_le_capacity {V} (s : st V) i l c : reach s → obs s i l c → length l ≤ c.
Proof. intros Hr Ho. by apply (ArrayTheory.reads_all s i l c Hr Ho). Qed.
Theorem array_reserve {V} (s : st V) i l c n : reach s → obs s i l c →
  call (OReserve i n) s i RUnit l (Nat.max c n) (λ l'' c'', l'' = l ∧ c'' = c).
Proof. apply ArrayTheory.call_reserve. Qed.
Theorem array_resize {V} (s : st V) i l c n : reach s → obs s i l c →
  call (OResize i n) s i RUnit (take n l) n (λ l'' c'', l'' = l ∧ c'' = c).
Proof. apply ArrayTheory.call_resize. Qed.
Theorem array_clear {V} (s : st V) i l c : reach s → obs s i l c →
  call (OClear i) s i RUnit [] c never.
Proof. apply ArrayTheory.call_clear. Qed.
Theorem array_pop_back {V} (s : st V) i l c v : reach s → obs s i (l ++ [v]) c →
  call (OPop i) s i RUnit l c never.
Proof. apply ArrayTheory.call_pop. Qed.
Example array_capacity_ex : reach ex_s ∧ obs ex_s 0 ([3;1] ++ [2]) 3 ∧
  (∃ s, run_ops true [OReserve 0 7; OCapacity 0; OReserve 0 2; OCapacity 0; OPop 0; OCapacity 0;
                      OResize 0 1; OCapacity 0; OToList 0; OClear 0; OCapacity 0] ex_s =
        Ok [RUnit; RNat 7; RUnit; RNat 7; RUnit; RNat 7; RUnit; RNat 1; RList [3]; RUnit; RNat 1] s).
Proof. split_and!; [apply ex_reach|apply ex_obs|eexists; vm_compute; reflexivity]. Qed.

(** ** C04 *)

(** Calls that fit in the capacity keep begin(). *)
Theorem array_no_realloc {V} (o : op V) (s : st V) i l c r s' p : reach s → obs s i l c →
  fits o i l c → run_op true o s = Ok r s' → begin_ i s = Ok p s → begin_ i s' = Ok p s'.
Proof. apply ArrayTheory.no_realloc. Qed.
Example array_no_realloc_ex : reach ex_s ∧ obs ex_s 1 [7;8] 5 ∧
  fits (OInsertRange 1 1 [4;5;6]) 1 [7;8] 5 ∧ fits (OPush 1 3) 1 [7;8] 5 ∧
  begin_ 1 ex_s = Ok (Ptr 1 0) ex_s ∧
  (∃ s, run_op true (OInsertRange 1 1 [4;5;6]) ex_s = Ok (RIdx 1) s ∧ begin_ 1 s = Ok (Ptr 1 0) s).
Proof.
  split_and!; [apply ex_reach|apply ex_obs|simpl; lia|simpl; lia|vm_compute; reflexivity|].
  eexists. split; vm_compute; reflexivity.
Qed.

(** Growing by push_back relocates at most (new capacity - old capacity)
    elements, and the capacity stays below twice the size. *)
Theorem array_push_amortised {V} (vs : list V) (s : st V) i l c rs s' : reach s → obs s i l c →
  run_ops true (map (OPush i) vs) s = Ok rs s' →
  ∃ c', obs s' i (l ++ vs) c' ∧ moved s' + c ≤ moved s + c' ∧
        c ≤ c' ≤ Nat.max c (2 * (length l + length vs) - 1).
Proof. apply ArrayTheory.push_amortised. Qed.
(** From an empty array: fewer than 2k relocations for k push_backs. *)
Theorem array_push_amortised_empty {V} (vs : list V) (s : st V) i rs s' : reach s → obs s i [] 0 →
  vs ≠ [] → run_ops true (map (OPush i) vs) s = Ok rs s' → moved s' < moved s + 2 * length vs.
Proof.
  intros Hr Ho Hne Hrun.
  destruct (ArrayTheory.push_amortised vs s i [] 0 rs s' Hr Ho Hrun) as (c' & _ & H1 & H2).
  destruct vs; [done|]. simpl in *. lia.
Qed.
Example array_push_amortised_ex : reach ex_s ∧ obs ex_s 2 [] 0 ∧
  (∃ rs s, run_ops true (map (OPush 2) [1;2;3;4;5;6;7;8;9]) ex_s = Ok rs s ∧
           moved ex_s = 0 ∧ moved s = 15 ∧ capacity 2 s = Ok 16 s).
Proof. split_and!; [apply ex_reach|apply ex_obs|]. eexists _, _. split_and!; vm_compute; by repeat split. Qed.

(** ** C05 *)
Theorem array_insert {V} (s : st V) i l c k v : reach s → obs s i l c → k ≤ length l →
  call (OInsert i k v) s i (RIdx k) (take k l ++ v :: drop k l) (grown l c)
    (λ l'' _, l'' = l ∨ ∃ x, l !! k = Some x ∧ length l < c ∧ l'' = take k l ++ x :: drop k l).
Proof. apply ArrayTheory.call_insert. Qed.
Theorem array_push_back {V} (s : st V) i l c v : reach s → obs s i l c →
  call (OPush i v) s i RUnit (l ++ [v]) (grown l c) (λ l'' c'', l'' = l ∧ (c'' = c ∨ c'' = grown l c)).
Proof. apply ArrayTheory.call_push. Qed.
Theorem array_emplace_back {V} (s : st V) i l c v : reach s → obs s i l c →
  call (OEmplace i v) s i (RIdx (length l)) (l ++ [v]) (grown l c)
    (λ l'' c'', l'' = l ∧ (c'' = c ∨ c'' = grown l c)).
Proof. apply ArrayTheory.call_emplace. Qed.
Example array_insert_ex : reach ex_s ∧ obs ex_s 0 [3;1;2] 3 ∧ obs ex_s 1 [7;8] 5 ∧
  (∃ s, run_ops true [OInsert 0 1 9; OToList 0; OCapacity 0; OInsert 1 0 9; OToList 1; OInsert 1 3 4;
                      OToList 1; OCapacity 1] ex_s =
     Ok [RIdx 1; RList [3;9;1;2]; RNat 6; RIdx 0; RList [9;7;8]; RIdx 3; RList [9;7;8;4]; RNat 5] s).
Proof. split_and!; [apply ex_reach|apply ex_obs|apply ex_obs|eexists; vm_compute; reflexivity]. Qed.

(** ** C06 *)
Theorem array_insert_range {V} (s : st V) i l c k xs : reach s → obs s i l c → k ≤ length l →
  match run_op true (OInsertRange i k xs) s with
  | Ok r s' => r = RIdx k ∧
      obs s' i (take k l ++ xs ++ drop k l)
        (if Nat.ltb c (length l + length xs) then c + length xs else c) ∧
      same_except i s s' ∧ reach s'
  | Throw s' => oracle s ≠ [] ∧ (c < length l + length xs → obs s' i l c) ∧
      same_except i s s' ∧ reach s'
  | UB _ => False
  end.
Proof. apply ArrayTheory.insert_range_call. Qed.
Theorem array_push_back_range {V} (s : st V) i l c xs : reach s → obs s i l c →
  call (OPushRange i xs) s i RUnit (l ++ xs) (Nat.max c (length l + length xs))
    (λ l'' _, ∃ k, l'' = l ++ take k xs ∧ (k = 0 ∨ k < length xs)).
Proof. apply ArrayTheory.call_push_range. Qed.
Example array_insert_range_ex : reach ex_s ∧ obs ex_s 1 [7;8] 5 ∧
  (∃ s, run_ops true [OInsertRange 1 1 [1;2;3]; OToList 1; OCapacity 1; OInsertRange 1 5 [4;4]; OToList 1;
                      OCapacity 1; OInsertRange 1 0 []; OInsertRange 2 0 [6]; OToList 2; OCapacity 2] ex_s =
     Ok [RIdx 1; RList [7;1;2;3;8]; RNat 5; RIdx 5; RList [7;1;2;3;8;4;4]; RNat 7; RIdx 0; RIdx 0;
         RList [6]; RNat 1] s).
Proof. split_and!; [apply ex_reach|apply ex_obs|eexists; vm_compute; reflexivity]. Qed.

(** ** C07 *)
Theorem array_erase {V} (s : st V) i l c k : reach s → obs s i l c → k < length l →
  call (OErase i k) s i (RIdx k) (take k l ++ drop (S k) l) c never.
Proof. apply ArrayTheory.call_erase. Qed.
Theorem array_erase_range {V} (s : st V) i l c k m : reach s → obs s i l c → k ≤ m → m ≤ length l →
  call (OEraseRange i k m) s i (RIdx k) (take k l ++ drop m l) c never.
Proof. apply ArrayTheory.call_erase_range. Qed.
Example array_erase_ex : reach ex_s ∧ obs ex_s 0 [3;1;2] 3 ∧
  (∃ s, run_ops true [OErase 0 1; OToList 0; OEraseRange 0 0 0; OEraseRange 0 1 2; OToList 0; OCapacity 0] ex_s =
     Ok [RIdx 1; RList [3;2]; RIdx 0; RIdx 1; RList [3]; RNat 3] s).
Proof. split_and!; [apply ex_reach|apply ex_obs|eexists; vm_compute; reflexivity]. Qed.

(** ** C08 *)
Theorem array_copy_construct {V} (s : st V) j l c : reach s → obs s j l c →
  call_new (OCopy j) s l (length l).
Proof. apply ArrayTheory.call_copy. Qed.
Theorem array_copy_assign {V} (s : st V) i j l c l' c' : reach s → obs s i l c → obs s j l' c' →
  call (OAssignCopy i j) s i RUnit l' (length l') (λ l'' c'', l'' = l ∧ c'' = c).
Proof. apply ArrayTheory.call_assign_copy. Qed.
(** No history of calls that do not target array [j] changes it. *)
Theorem array_independent {V} j l c (s s' : st V) : reach s → obs s j l c →
  history_avoiding j s s' → obs s' j l c ∧ reach s'.
Proof. apply ArrayTheory2.independent. Qed.
Example array_copy_ex : reach ex_s ∧ obs ex_s 0 [3;1;2] 3 ∧
  (∃ s, run_ops true [OCopy 0; OAssignCopy 1 0; OErase 3 0; OPush 1 5; OToList 0; OToList 1; OToList 3;
                      OAssignCopy 1 1; OToList 1] ex_s =
     Ok [RNew 3; RUnit; RIdx 0; RUnit; RList [3;1;2]; RList [3;1;2;5]; RList [1;2]; RUnit;
         RList [3;1;2;5]] s).
Proof. split_and!; [apply ex_reach|apply ex_obs|eexists; vm_compute; reflexivity]. Qed.
Example array_independent_ex : ∃ s', history_avoiding 0 ex_s s' ∧ obs s' 0 [3;1;2] 3 ∧ obs s' 1 [8] 5.
Proof.
  eexists. split; [|split].
  - eapply (ha_step 0 ex_s _ (OErase 1 0)); [apply array_reach_view_ex|vm_compute; reflexivity| |left; vm_compute; reflexivity|apply ha_refl].
    simpl. by rewrite elem_of_list_singleton.
  - vm_compute. tauto.
  - vm_compute. tauto.
Qed.

(** ** C09 *)
Theorem array_swap {V} (s : st V) i j li ci lj cj : reach s → obs s i li ci → obs s j lj cj →
  ∃ s', run_op true (OSwap i j) s = Ok RUnit s' ∧ only_objs s s' ∧
        obs s' i lj cj ∧ obs s' j li ci ∧ reach s'.
Proof. apply ArrayTheory2.swap_call. Qed.
Theorem array_move_construct {V} (s : st V) j l c p : reach s → obs s j l c → begin_ j s = Ok p s →
  let n := length (objs s) in
  ∃ s', run_op true (OMove j) s = Ok (RNew n) s' ∧ only_objs s s' ∧
        obs s' n l c ∧ begin_ n s' = Ok p s' ∧ obs s' j [] 0 ∧ reach s'.
Proof. apply ArrayTheory2.move_call. Qed.
(** Move assignment frees the target's old block and touches no other; the
    target takes over the source's storage. *)
Theorem array_move_assign {V} (s : st V) i j li ci lj cj p : reach s → i ≠ j →
  obs s i li ci → obs s j lj cj → begin_ j s = Ok p s →
  ∃ s', run_op true (OAssignMove i j) s = Ok RUnit s' ∧
        obs s' i lj cj ∧ begin_ i s' = Ok p s' ∧ obs s' j [] 0 ∧ reach s' ∧
        length (heap s') = length (heap s) ∧ oracle s' = oracle s ∧ moved s' = moved s ∧
        (∀ b, begin_ i s ≠ Ok (Ptr b 0) s → heap s' !! b = heap s !! b).
Proof. apply ArrayTheory2.assign_move_call. Qed.
Theorem array_self_move {V} (s : st V) i l c : reach s → obs s i l c →
  call (OAssignMove i i) s i RUnit l c never.
Proof. apply ArrayTheory2.assign_move_self_call. Qed.
Example array_move_ex : reach ex_s ∧ obs ex_s 0 [3;1;2] 3 ∧ begin_ 0 ex_s = Ok (Ptr 0 0) ex_s ∧
  (∃ s, run_ops true [OSwap 0 1; OToList 0; OMove 0; OToList 0; OToList 3; OAssignMove 1 3; OToList 1;
                      OAssignMove 1 1; OSwap 1 1; OToList 1; OPush 3 6; OToList 3] ex_s =
     Ok [RUnit; RList [7;8]; RNew 3; RList []; RList [7;8]; RUnit; RList [7;8]; RUnit; RUnit;
         RList [7;8]; RUnit; RList [6]] s).
Proof. split_and!; [apply ex_reach|apply ex_obs|vm_compute; reflexivity|eexists; vm_compute; reflexivity]. Qed.

(** ** C10 *)

(** Array(n, value) for an element type of any kind, from any state whatever:
    no undefined behaviour; if a copy throws, nothing is left behind. *)
Theorem array_fill_throw {V} (triv : bool) (s : st V) n v :
  match run_op triv (OFill n v) s with
  | Ok r s' => r = RNew (length (objs s)) ∧ heap s' = heap s ++ [Some (replicate n (Live v))] ∧
               leaked s' = leaked s
  | Throw s' => oracle s ≠ [] ∧ objs s' = objs s ∧ leaked s' = leaked s ∧
                (heap s' = heap s ∨ heap s' = heap s ++ [None])
  | UB _ => False
  end.
Proof. apply ArrayTheory2.fill_any. Qed.
(** push_back into spare capacity for an element type of any kind whose copy
    constructor may throw. *)
Theorem array_push_throw {V} (triv : bool) (os : list (op V)) rs σ s i l c orc v : all_gentle os [] →
  spec_exec os [] = Some (rs, σ) → run_ops triv os (init []) = Ok rs s →
  σ !! i = Some (Some (Good l c)) → length l < c →
  match push_back triv i (AObj v) (set_oracle orc s) with
  | Ok _ s' => obs s' i (l ++ [v]) c ∧ leaked s' = 0
  | Throw s' => obs s' i l c ∧ leaked s' = 0
  | UB _ => False
  end.
Proof. apply ArrayTheory2.gentle_push_throw. Qed.
Example array_throw_ex :
  (∃ s, run_op false (OFill 3 8) (init (V:=nat) [false; false; false; true]) = Throw s ∧
        heap s = [None] ∧ leaked s = 0 ∧ objs s = []) ∧
  (∃ rs s s', run_ops false [OCap 4; OPush 0 1; OPush 0 2] (init []) = Ok rs s ∧
     push_back false 0 (AObj 3) (set_oracle [true] s) = Throw s' ∧ obs s' 0 [1;2] 4).
Proof.
  split; [eexists; split_and!; vm_compute; by repeat split|]. eexists _, _, _. split_and!; vm_compute; by repeat split.
Qed.
Example array_throw_ex_gentle : all_gentle [OCap 4; OPush 0 1; OPush 0 2] [].
Proof.
  simpl. split; [done|]. intros ? ? [= <- <-]. split; [eexists _, _; split; [done|]; by left|].
  intros ? ? [= <- <-]. split; [eexists _, _; split; [done|]; right; vm_compute; lia|done].
Qed.

(** ** C11 (refuted) *)

(** Allocation failure is clean, and for elements that cannot throw on copy the
    constructor never leaves anything behind. *)
Theorem array_range_throw_partial {V} (s : st V) l : reach s → call_new (ORange l) s l (length l).
Proof. apply ArrayTheory.call_range. Qed.
Example array_range_throw_partial_ex :
  (∃ s, run_op true (ORange [4;5]) (init (V:=nat) []) = Ok (RNew 0) s ∧ obs s 0 [4;5] 2) ∧
  (∃ s, run_op true (ORange [4;5]) (init (V:=nat) [true]) = Throw s ∧ heap s = [] ∧ objs s = []).
Proof. split; eexists; split_and!; vm_compute; by repeat split. Qed.
(** For an element type with a throwing copy constructor, from any state: the
    constructor is fine if neither the allocation nor a copy throws, clean if the
    allocation throws, and undefined behaviour as soon as a copy throws. *)
Theorem array_range_throw_exact {V} (s : st V) l :
  match run_op false (ORange l) s with
  | Ok r s' => true ∉ take (S (length l)) (oracle s) ∧ r = RNew (length (objs s)) ∧
               heap s' = heap s ++ [Some (map Live l)] ∧ leaked s' = leaked s
  | Throw s' => head (oracle s) = Some true ∧ heap s' = heap s ∧ objs s' = objs s ∧ leaked s' = leaked s
  | UB u => u = PtrDiff ∧ head (oracle s) ≠ Some true ∧ true ∈ take (length l) (tail (oracle s))
  end.
Proof. apply ArrayTheory2.range_any. Qed.
Example array_range_throw_exact_ex :
  run_op false (ORange [4;5;6]) (init (V:=nat) [false; false; false; true]) = UB PtrDiff ∧
  (∃ s, run_op false (ORange [4;5;6]) (init (V:=nat) [false; false; false; false; true]) = Ok (RNew 0) s ∧
        heap s = [Some [Live 4; Live 5; Live 6]]) ∧
  (∃ s, run_op false (ORange [4;5;6]) (init (V:=nat) [true; false]) = Throw s ∧ heap s = []).
Proof. split_and!; [vm_compute; reflexivity|eexists; split; vm_compute; reflexivity..]. Qed.
(** Copying two elements of a type whose copy constructor throws on the second:
    the handler runs from a source position to a destination position. *)
Theorem array_range_throw_refuted :
  ∃ orc, run_op false (ORange [4;5]) (init (V:=nat) orc) = UB PtrDiff.
Proof. exists [false; false; true]. vm_compute. reflexivity. Qed.

(** ** C12 (refuted in general) *)

(** What holds for every element type, trivial or not: histories that never
    relocate or shift existing elements only touch objects within their
    lifetime, destroy every object exactly once and leak nothing. *)
Theorem array_nontrivial_gentle_partial {V} (triv : bool) (os : list (op V)) rs σ : all_gentle os [] →
  spec_exec os [] = Some (rs, σ) →
  ∃ s, run_ops triv os (init []) = Ok rs s ∧ leaked s = 0 ∧
       (∀ i l c, σ !! i = Some (Some (Good l c)) → obs s i l c) ∧
       ((∀ i x, σ !! i ≠ Some (Some x)) → ∀ b cs, heap s !! b ≠ Some (Some cs)).
Proof. apply ArrayTheory2.gentle_history. Qed.
Example array_nontrivial_gentle_partial_ex :
  spec_exec [OCap 4; OPush 0 1; OInsert 0 0 2; OCopy 0; OPop 0; OSwap 0 1; OResize 1 0; ODestroy 0; ODestroy 1] [] =
  Some ([RNew 0; RUnit; RIdx 0; RNew 1; RUnit; RUnit; RUnit; RUnit; RUnit], [None; None]) ∧
  all_gentle [OCap 4; OPush 0 1; OInsert 0 0 2] [].
Proof.
  split; [vm_compute; reflexivity|]. simpl. split; [done|]. intros ? ? [= <- <-].
  split; [eexists _, _; split; [done|]; by left|].
  intros ? ? [= <- <-]. split; [eexists _, _; split; [done|]; right; vm_compute; lia|done].
Qed.
(** Exactly these histories: with constructors, assignments and destructors of
    the element's own, a history runs to its end if and only if it is gentle, and
    every other history comes to an assignment to an object that is not alive. *)
Theorem array_nontrivial_exact {V} (os : list (op V)) rs σ : spec_exec os [] = Some (rs, σ) →
  ((∃ s, run_ops false os (init []) = Ok rs s) ↔ all_gentle os []) ∧
  (¬ all_gentle os [] → run_ops false os (init []) = UB AssignRaw).
Proof. apply ArrayExact.exact_history. Qed.
Example array_nontrivial_exact_ex :
  (let os := [ORange [1;2]; OInsertRange 0 0 []; OEraseRange 0 1 1; OErase 0 1; OInsertRange 0 1 [7]] in
   spec_exec os [] = Some ([RNew 0; RIdx 0; RIdx 1; RIdx 1; RIdx 1], [Some (Good [1;7] 2)]) ∧ all_gentle os []) ∧
  (let os := [ORange [1;2]; OErase 0 1; OInsertRange 0 0 [7]] in
   spec_exec os [] = Some ([RNew 0; RIdx 1; RIdx 0], [Some (Good [7;1] 2)]) ∧ ¬ all_gentle os []).
Proof.
  split; (split; [vm_compute; reflexivity|]).
  - simpl. split; [done|]. intros ? ? [= <- <-].
    split; [eexists _, _; split; [done|]; by right; left|]. intros ? ? [= <- <-].
    split; [eexists _, _; split; [done|]; by right|]. intros ? ? [= <- <-].
    split; [eexists _, _; by split|]. intros ? ? [= <- <-].
    split; [|done]. eexists _, _. split; [done|]. right; right. vm_compute. lia.
  - simpl. intros [_ H]. specialize (H _ _ eq_refl) as [_ H]. specialize (H _ _ eq_refl) as [H _].
    destruct H as (l & c & [= <- <-] & [H|[H|[H _]]]); done.
Qed.
(** A second push_back into a full array assigns to raw memory ... *)
Theorem array_grow_nontrivial_refuted :
  ∃ os : list (op nat), spec_exec os [] = Some ([RNew 0; RUnit; RUnit], [Some (Good [1;2] 2)]) ∧
    run_ops false os (init []) = UB AssignRaw.
Proof. exists [ODefault; OPush 0 1; OPush 0 2]. split; vm_compute; reflexivity. Qed.
(** ... reserve on a non-empty array too ... *)
Theorem array_reserve_nontrivial_refuted :
  ∃ os : list (op nat), spec_exec os [] = Some ([RNew 0; RUnit], [Some (Good [1] 4)]) ∧
    run_ops false os (init []) = UB AssignRaw.
Proof. exists [ORange [1]; OReserve 0 4]. split; vm_compute; reflexivity. Qed.
(** ... and erasing an element that is not the last assigns to a destroyed one. *)
Theorem array_erase_nontrivial_refuted :
  ∃ os : list (op nat), spec_exec os [] = Some ([RNew 0; RIdx 0], [Some (Good [2] 2)]) ∧
    run_ops false os (init []) = UB AssignRaw.
Proof. exists [ORange [1;2]; OErase 0 0]. split; vm_compute; reflexivity. Qed.
(** Inserting into the middle of a full array likewise. *)
Theorem array_insert_nontrivial_refuted :
  ∃ os : list (op nat), spec_exec os [] = Some ([RNew 0; RIdx 0], [Some (Good [5;1;2] 4)]) ∧
    ∃ u, run_ops false os (init []) = UB u.
Proof. exists [ORange [1;2]; OInsert 0 0 5]. split; [vm_compute; reflexivity|]. eexists. vm_compute. reflexivity. Qed.

(** If the constructor of the inserted element throws, the handler of the
    reallocating insert destroys an element that was never constructed. *)
Theorem array_insert_throw_refuted :
  ∃ orc (s : st nat), run_op false (ORange [1;2]) (init orc) = Ok (RNew 0) s ∧ obs s 0 [1;2] 2 ∧
    run_op false (OInsert 0 1 5) s = UB DestroyDead.
Proof.
  exists [false; false; false; false; true]. eexists. split; [vm_compute; reflexivity|].
  split; [by vm_compute|]. vm_compute. reflexivity.
Qed.

(** ** C13 (refuted in general) *)

(** push_back(a[j]) into spare capacity. *)
Theorem array_push_own_partial {V} (s : st V) i l c j v p : reach s → obs s i l c →
  l !! j = Some v → length l < c → index i j s = Ok p s →
  match push_back true i (ARef p) s with
  | Ok _ s' => obs s' i (l ++ [v]) c
  | Throw s' => oracle s ≠ [] ∧ obs s' i l c
  | UB _ => False
  end.
Proof. apply ArrayTheory2.push_own_spare. Qed.
(** On a full array it never succeeds: unless the allocation throws, the
    reference is to a freed block when it is read. *)
Theorem array_push_own_full {V} (s : st V) i l c j v p : reach s → obs s i l c →
  l !! j = Some v → length l = c → index i j s = Ok p s →
  match push_back true i (ARef p) s with
  | Ok _ _ => False
  | Throw s' => oracle s ≠ [] ∧ obs s' i l c
  | UB u => u = Dangling
  end.
Proof. apply ArrayTheory2.push_own_full. Qed.
(** insert(pos n, a[j]) when it reallocates, or when a[j] does not lie after pos. *)
Theorem array_insert_own_partial {V} (s : st V) i l c j v n p q : reach s → obs s i l c →
  l !! j = Some v → n < length l → length l = c ∨ j ≤ n →
  index i j s = Ok p s → index i n s = Ok q s →
  match insert true i q (ARef p) s with
  | Ok q' s' => index i n s' = Ok q' s' ∧ obs s' i (take n l ++ v :: drop n l) (grown l c)
  | Throw s' => oracle s ≠ []
  | UB _ => False
  end.
Proof.
  intros Hr Ho Hj Hn Hor. apply ArrayTheory2.insert_own; [done|done|by eapply lookup_lt_Some|done|].
  by rewrite decide_True.
Qed.
(** In all other cases it inserts the element before a[j]. *)
Theorem array_insert_own_after {V} (s : st V) i l c j v n p q : reach s → obs s i l c →
  length l < c → n < j < length l → l !! (j - 1) = Some v →
  index i j s = Ok p s → index i n s = Ok q s →
  match insert true i q (ARef p) s with
  | Ok q' s' => index i n s' = Ok q' s' ∧ obs s' i (take n l ++ v :: drop n l) c
  | Throw s' => oracle s ≠ []
  | UB _ => False
  end.
Proof.
  intros Hr Ho Hc Hn Hj Hp Hq.
  assert (Hs := ArrayTheory2.insert_own s i l c j v n p q Hr Ho).
  rewrite decide_False in Hs by lia. unfold grown in Hs.
  rewrite (proj2 (Nat.eqb_neq _ _)) in Hs by lia. apply Hs; [lia|lia|done..].
Qed.
Example array_insert_own_after_ex : reach ex_s ∧ obs ex_s 1 [7;8] 5 ∧
  index 1 1 ex_s = Ok (Ptr 1 1) ex_s ∧ index 1 0 ex_s = Ok (Ptr 1 0) ex_s ∧ [7;8] !! (1 - 1) = Some 7 ∧
  (∃ s q, insert true 1 (Ptr 1 0) (ARef (Ptr 1 1)) ex_s = Ok q s ∧ obs s 1 [7;7;8] 5) ∧
  push_back true 0 (ARef (Ptr 0 2)) ex_s = UB Dangling.
Proof.
  split_and!; [apply ex_reach|apply ex_obs|vm_compute; reflexivity..| |vm_compute; reflexivity].
  eexists _, _. split; [vm_compute; reflexivity|]. by vm_compute.
Qed.
Example array_own_partial_ex : reach ex_s ∧ obs ex_s 0 [3;1;2] 3 ∧ obs ex_s 1 [7;8] 5 ∧
  index 0 2 ex_s = Ok (Ptr 0 2) ex_s ∧ index 1 0 ex_s = Ok (Ptr 1 0) ex_s ∧
  (∃ s q, insert true 0 (Ptr 0 0) (ARef (Ptr 0 2)) ex_s = Ok q s ∧ obs s 0 [2;3;1;2] 6) ∧
  (∃ s q, insert true 1 (Ptr 1 1) (ARef (Ptr 1 0)) ex_s = Ok q s ∧ obs s 1 [7;7;8] 5) ∧
  (∃ s, push_back true 1 (ARef (Ptr 1 0)) ex_s = Ok tt s ∧ obs s 1 [7;8;7] 5).
Proof.
  split_and!; [apply ex_reach|apply ex_obs|apply ex_obs|vm_compute; reflexivity|vm_compute; reflexivity| | |].
  - eexists _, _. split; [vm_compute; reflexivity|]. by vm_compute.
  - eexists _, _. split; [vm_compute; reflexivity|]. by vm_compute.
  - eexists. split; [vm_compute; reflexivity|]. by vm_compute.
Qed.
(** push_back(a[0]) on a full array reads a freed block. *)
Theorem array_push_own_refuted :
  ∃ (s : st nat) p, reach s ∧ obs s 0 [3;1;2] 3 ∧ index 0 0 s = Ok p s ∧
    push_back true 0 (ARef p) s = UB Dangling.
Proof.
  exists ex_s, (Ptr 0 0). split_and!; [apply ex_reach|apply ex_obs|vm_compute; reflexivity..].
Qed.
(** insert(begin, a[1]) into spare capacity inserts a[0] instead of a[1]. *)
Theorem array_insert_own_refuted :
  ∃ (s s' : st nat) p q r, reach s ∧ obs s 1 [7;8] 5 ∧ index 1 1 s = Ok p s ∧ index 1 0 s = Ok q s ∧
    insert true 1 q (ARef p) s = Ok r s' ∧ obs s' 1 [7;7;8] 5.
Proof.
  exists ex_s. eexists _, (Ptr 1 1), (Ptr 1 0), _.
  split_and!; [apply ex_reach|apply ex_obs|vm_compute; reflexivity|vm_compute; reflexivity|vm_compute; reflexivity|].
  by vm_compute.
Qed.

(** ** C14 *)
Theorem array_access {V} (s : st V) i l c : reach s → obs s i l c →
  reads (OSize i) s (RNat (length l)) ∧
  reads (OCapacity i) s (RNat c) ∧
  reads (OEmpty i) s (RBool (Nat.eqb (length l) 0)) ∧
  reads (OToList i) s (RList l) ∧
  (∀ k v, l !! k = Some v → reads (OGet i k) s (RVal v)) ∧
  (∀ v, head l = Some v → reads (OFront i) s (RVal v)) ∧
  (∀ v, last l = Some v → reads (OBack i) s (RVal v)) ∧
  length l ≤ c ∧
  (∀ k, c ≤ k → ∃ u, run_op true (OGet i k) s = UB u).
Proof. apply ArrayTheory.reads_all. Qed.
Example array_access_ex : reach ex_s ∧ obs ex_s 0 [3;1;2] 3 ∧
  run_op true (OGet 0 1) ex_s = Ok (RVal 1) ex_s ∧ run_op true (OBack 0) ex_s = Ok (RVal 2) ex_s ∧
  run_op true (OGet 0 3) ex_s = UB OutOfBounds ∧ run_op true (OFront 2) ex_s = UB NullDeref.
Proof. split_and!; [apply ex_reach|apply ex_obs|vm_compute; reflexivity..]. Qed.

(** data() points at element 0, the others follow. *)
Theorem array_data {V} (s : st V) i l c : reach s → obs s i l c →
  ∃ p, data i s = Ok p s ∧ (c = 0 ∨ p ≠ Null) ∧
    ∀ k v, l !! k = Some v → ∃ q, padd p k s = Ok q s ∧ load q s = Ok v s.
Proof. apply ArrayTheory2.data_call. Qed.
Example array_data_ex : reach ex_s ∧ obs ex_s 1 [7;8] 5 ∧ data 1 ex_s = Ok (Ptr 1 0) ex_s ∧
  padd (Ptr 1 0) 1 ex_s = Ok (Ptr 1 1) ex_s ∧ load (Ptr 1 1) ex_s = Ok 8 ex_s.
Proof. split_and!; [apply ex_reach|apply ex_obs|vm_compute; reflexivity..]. Qed.

(** Copying a range to raw storage, the function that range construction uses, by itself: as
    many elements as there is room for, and the end of them. *)
Theorem uninitialized_copy {V} (triv : bool) (l l' : list V) (s : st V) b p :
  heap s !! b = Some (Some (p ++ replicate (length l) Raw)) → oracle s = [] →
  ∃ s', uninitialized_copy_a triv (map AObj (l ++ l')) (Ptr b (length p)) (Ptr b (length p + length l)) s =
    Ok (Ptr b (length p + length l)) s' ∧ heap s' = <[b := Some (p ++ map Live l)]> (heap s) ∧ leaked s' = leaked s.
Proof.
  intros Hb Ho. destruct s as [h o r m k]. cbn in *. subst r.
  pose proof (ArrayProofs.uninitialized_copy_short triv (map AObj l) (map AObj l') l h o [] m k b p (replicate (length l) Raw) Hb) as H.
  rewrite <- map_app, replicate_length, map_length in H. specialize (H eq_refl).
  assert (Hok : Forall (ArrayProofs.okc triv) (replicate (length l) (@Raw V))) by (apply Forall_replicate; right; reflexivity).
  assert (Hv : Forall2 (ArrayProofs.aval_out h b) (map AObj l) l) by (clear; induction l; cbn; constructor; done).
  specialize (H Hok Hv (or_introl eq_refl)). destruct (uninitialized_copy_a triv _ _ _ _) as [q s'|s'|u]; [|done..].
  destruct H as (-> & r' & Hr & ->). by eexists.
Qed.
Example uninitialized_copy_ex : ∃ s', let s := mkSt [Some [Live 9; Raw; Raw]] [] [] 0 0 in
  uninitialized_copy_a true (map AObj [1; 2; 3]) (Ptr 0 1) (Ptr 0 3) s = Ok (Ptr 0 3) s' ∧ heap s' = [Some [Live 9; Live 1; Live 2]].
Proof.
  destruct (uninitialized_copy true [1; 2] [3] (mkSt [Some [Live 9; Raw; Raw]] [] [] 0 0) 0 [Live 9] eq_refl eq_refl) as (s' & H & Hh & _).
  exists s'. split; [exact H|exact Hh].
Qed.

(** All theorems of this file together: what they depend on. *)
Definition array_theorems :=
  (@uninitialized_copy,
   @array_history,
   @array_history_straight,
   @array_reach_view,
   @array_blocks_owned,
   @array_no_leak,
   @array_size_le_capacity,
   @array_reserve,
   @array_resize,
   @array_clear,
   @array_pop_back,
   @array_no_realloc,
   @array_push_amortised,
   @array_push_amortised_empty,
   @array_insert,
   @array_push_back,
   @array_emplace_back,
   @array_insert_range,
   @array_push_back_range,
   @array_erase,
   @array_erase_range,
   @array_copy_construct,
   @array_copy_assign,
   @array_independent,
   @array_swap,
   @array_move_construct,
   @array_move_assign,
   @array_self_move,
   @array_fill_throw,
   @array_push_throw,
   @array_range_throw_partial,
   @array_range_throw_exact,
   @array_range_throw_refuted,
   @array_nontrivial_gentle_partial, @array_nontrivial_exact,
   @array_grow_nontrivial_refuted,
   @array_reserve_nontrivial_refuted,
   @array_erase_nontrivial_refuted,
   @array_insert_nontrivial_refuted,
   @array_insert_throw_refuted,
   @array_push_own_partial,
   @array_push_own_full,
   @array_insert_own_partial,
   @array_insert_own_after,
   @array_push_own_refuted,
   @array_insert_own_refuted,
   @array_access,
   @array_data).
Print Assumptions array_theorems.
