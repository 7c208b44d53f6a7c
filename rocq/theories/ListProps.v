(** Theorems about xme::LinkedList (properties C15-C22). *)
From stdpp Require Import list.
From Coq Require Import Lia.
From Verif Require Import Base Client ListModel ListSpec ListRun ListObsSpec.
From Verif Require Import ListTheory.
From Verif Require ListSim ListHistory ListObs ListChain ListChain2.

(** A concrete reachable state for the examples: list 0 holds 5,3,1 in nodes
    2,1,0; list 1 holds 8,9 in nodes 3,4; node 5 was erased; list 2 is empty. *)
Definition ex_ops : list (op nat) :=
  [LDefault; LPushFront 0 1; LPushFront 0 3; LPushFront 0 5; LRange [8;9]; LDefault; LPushFront 2 4; LPopFront 2].
Definition ex_run (o : list bool) : st nat :=
  match run_ops run_op ex_ops (init []) with
  | Ok _ s => mkSt (nodes s) (heads s) o (leaked s) | _ => init [] end.
Definition ex_s := ex_run [].
Definition ex_a : ast nat := mkA [Some [(2,5);(1,3);(0,1)]; Some [(3,8);(4,9)]; Some []] 6 [].

(** Straight-line programs reach their final state. *)
Lemma reach_straight {V} (os : list (op V)) : ∀ s σ rs σ', reach s → ListSim.R s σ → oracle s = [] →
  spec_exec spec_step os σ = Some (rs, σ') →
  ∃ s', run_ops run_op os s = Ok rs s' ∧ reach s' ∧ ListSim.R s' σ' ∧ oracle s' = [].
Proof.
  induction os as [|o os IH]; intros s σ rs σ' Hr HR Hc Hsp; cbn [spec_exec] in Hsp.
  - injection Hsp as <- <-. by exists s.
  - destruct (spec_step o σ) as [[σ1 r]|] eqn:Hst; [|done]. cbn in Hsp.
    destruct (spec_exec spec_step os σ1) as [[rs1 σ2]|] eqn:Hs2; [|done]. cbn in Hsp. injection Hsp as <- <-.
    assert (Hp := ListObs.step_R s σ o σ1 r Hr HR Hst). cbn [run_ops]. unfold bind at 1.
    destruct (run_op o s) as [r' s'|s'|u]; [| |done].
    + destruct Hp as (-> & HR' & Hr' & Hc'). destruct (IH s' σ1 rs1 σ2 Hr' HR' (Hc' Hc) Hs2) as (s2 & E & ? & ? & ?).
      exists s2. unfold bind. by rewrite E.
    + by destruct Hp.
Qed.
Example ex_reach : reach ex_s ∧ view ex_s ex_a.
Proof.
  destruct (reach_straight ex_ops (init []) ainit [RNew 0; RUnit; RUnit; RUnit; RNew 1; RNew 2; RUnit; RUnit] ex_a)
    as (s' & E & Hr & HR & _); [constructor|apply ListHistory.R_init|done|reflexivity|].
  assert (s' = ex_s) as -> by (vm_compute in E; injection E as <-; vm_compute; reflexivity).
  split; [done|]. by apply ListObs.R_view.
Qed.
Lemma ex_lobs : lobs ex_s 0 [(2,5);(1,3);(0,1)] ∧ lobs ex_s 1 [(3,8);(4,9)] ∧ lobs ex_s 2 [].
Proof.
  destruct ex_reach as [_ Hv]. split_and!; apply (vw_list _ _ Hv); reflexivity.
Qed.

(** ** C15 *)

(** Every client program whose calls meet their preconditions, whatever the
    allocator and the element operations throw ([orc]), runs without undefined
    behaviour, behaves as on mathematical lists, and ends in lists observed to
    hold exactly those. If nothing throws, no call throws. *)
Theorem list_history {V} (p : prog (op V) (out V)) (orc : list bool) : valid spec_step spec_throw p ainit →
  ∃ rs s σ, run_prog run_op p (init orc) = Ok rs s ∧ spec_run spec_step spec_throw p ainit rs σ ∧ view s σ ∧
            (orc = [] → Exn ∉ rs).
Proof.
  intros Hp.
  destruct (client_sim _ _ _ _ _ ListHistory.list_simulates p (init orc) ainit (ListHistory.R_init orc) Hp)
    as (rs & s & σ & ? & ? & ? & ?).
  exists rs, s, σ. split_and!; auto. by apply ListObs.R_view.
Qed.
(** A program that inserts and, if that throws, destroys the list. *)
Definition ex_prog : prog (op nat) (out nat) :=
  Do LDefault (λ _, Do (LPushFront 0 4) (λ r,
    match r with
    | Ret _ => Do (LInsertAfter 0 (Nod 0) 9) (λ _, Do (LToList 0) (λ _, Done))
    | Exn => Do (LDestroy 0) (λ _, Done)
    end)).
Example list_history_ex :
  (∃ s, run_prog run_op ex_prog (init []) =
     Ok [Ret (RNew 0); Ret RUnit; Ret (RIter (Nod 1)); Ret (RList [4;9])] s) ∧
  (∃ s, run_prog run_op ex_prog (init [false; true]) = Ok [Ret (RNew 0); Exn; Ret RUnit] s) ∧
  valid spec_step spec_throw ex_prog ainit.
Proof.
  split_and!; [eexists; vm_compute; reflexivity..|]. split; [|done]. eexists _, _. split; [reflexivity|].
  split.
  - eexists _, _. split; [reflexivity|]. split.
    + eexists _, _. split; [reflexivity|]. split; [|done].
      eexists _, _. split; [reflexivity|done].
    + intros [l f lo] (E & _ & _). simpl in E. subst l. split; [|done].
      eexists _, _. split; [reflexivity|done].
  - intros [l f lo] (E & _ & _). simpl in E. subst l. split; [|done].
    eexists _, _. split; [reflexivity|done].
Qed.
Theorem list_history_straight {V} (os : list (op V)) rs σ : spec_exec spec_step os ainit = Some (rs, σ) →
  ∃ s, run_ops run_op os (init []) = Ok rs s ∧ view s σ ∧ reach s.
Proof.
  intros H. destruct (reach_straight os (init []) ainit rs σ) as (s & ? & ? & ? & ?);
    [constructor|apply ListHistory.R_init|done|done|]. exists s. split_and!; auto. by apply ListObs.R_view.
Qed.
Example list_history_straight_ex :
  spec_exec spec_step (ex_ops ++ [LInsertRange 0 (Nod 1) [7;7]; LReverse 0; LAssignCopy 2 0; LEraseAfter 2 (Head 2);
     LToList 0; LToList 2]) ainit =
  Some ([RNew 0; RUnit; RUnit; RUnit; RNew 1; RNew 2; RUnit; RUnit; RIter (Nod 7); RUnit; RUnit; RUnit;
         RList [1;7;7;3;5]; RList [7;7;3;5]],
        mkA [Some [(0,1);(7,7);(6,7);(1,3);(2,5)]; Some [(3,8);(4,9)]; Some [(9,7);(10,7);(11,3);(12,5)]] 13 []).
Proof. reflexivity. Qed.

(** From any reachable state, every valid call does what the specification of
    single calls says, or throws and leaves a state that it allows. *)
Theorem list_step {V} (s : st V) σ o σ1 r : reach s → view s σ → spec_step o σ = Some (σ1, r) →
  match run_op o s with
  | Ok r' s' => r' = r ∧ view s' σ1 ∧ reach s'
  | Throw s' => oracle s ≠ [] ∧ (∃ σ', spec_throw o σ σ' ∧ view s' σ') ∧ reach s'
  | UB _ => False
  end.
Proof. apply ListObs.step_view. Qed.
Example list_step_ex : spec_step (LInsertElem 0 (Nod 1) 1 (Nod 4)) ex_a =
  Some (mkA [Some [(2,5);(1,3);(6,9);(0,1)]; Some [(3,8);(4,9)]; Some []] 7 [], RIter (Nod 6)).
Proof. reflexivity. Qed.
Theorem list_reach_view {V} (s : st V) : reach s → ∃ σ, view s σ.
Proof. intros (σ & ? & _)%ListObs.reach_view. eauto. Qed.
Example list_reach_view_ex : reach ex_s.
Proof. apply ex_reach. Qed.

(** ** C16 *)

Ltac start Hr Hl σ HR Hg :=
  destruct (ListObs.reach_R _ Hr) as [σ HR]; pose proof (proj1 (ListObs.R_lobs _ _ _ _ HR) Hl) as Hg.


(** An iterator to node [n] with value [v] still dereferences to [v] after any
    call, returning or throwing, that neither erases the node nor overwrites its
    value. [erases] is empty for every insertion, for reverse, push_front,
    copies, reads and move construction: these invalidate nothing. *)
Theorem list_iterators {V} (s : st V) σ o σ1 r i xs n v :
  reach s → view s σ → spec_step o σ = Some (σ1, r) → get σ i = Some xs → (n, v) ∈ xs →
  n ∉ erases o σ → n ∉ overwrites o σ →
  match run_op o s with
  | Ok _ s' | Throw s' => deref (Nod n) s' = Ok v s' ∧ ∃ j ys, lobs s' j ys ∧ (n, v) ∈ ys
  | UB _ => False
  end.
Proof.
  intros Hr Hv Hst Hg Hn He Hw. assert (Hp := ListObs.step_view s σ o σ1 r Hr Hv Hst).
  assert (Hk : ∀ s' σ', view s' σ' → kept σ' n v → deref (Nod n) s' = Ok v s' ∧ ∃ j ys, lobs s' j ys ∧ (n, v) ∈ ys).
  { intros s' σ' Hv' (j & ys & Hgj & Hin). assert (Hl := vw_list _ _ Hv' _ _ Hgj). split; [|eauto].
    apply elem_of_list_split in Hin as (a & b & ->). destruct Hl as (_ & _ & Hl). by destruct (Hl a (n, v) b eq_refl). }
  destruct (run_op o s) as [r' s'|s'|u]; [| |done].
  - destruct Hp as (_ & Hv' & _). eapply Hk; [exact Hv'|].
    eapply (kept_step o σ σ1 r i xs n v); try done; [by apply (vw_once _ _ Hv)|].
    intros j ys Hj Hgj. eapply (vw_disj _ _ Hv i j); [congruence|done|done|]. by eapply in_fst.
  - destruct Hp as (_ & (σ' & Ht & Hv') & _). eapply Hk; [exact Hv'|]. by eapply kept_throw.
Qed.
Example list_iterators_ex :
  erases (LInsertRange 0 (Nod 1) [7;7]) ex_a = [] ∧ overwrites (LInsertRange 0 (Nod 1) [7;7]) ex_a = [] ∧
  erases (LReverse 0) ex_a = [] ∧ erases (LEraseAfter 0 (Nod 2)) ex_a = [1] ∧
  (∃ s', run_op (LReverse 0) ex_s = Ok RUnit s' ∧ deref (Nod 1) s' = Ok 3 s') ∧
  (∃ s', run_op (LEraseAfter 0 (Nod 2)) ex_s = Ok RUnit s' ∧ deref (Nod 1) s' = UB Dangling ∧ deref (Nod 0) s' = Ok 1 s').
Proof. split_and!; try (vm_compute; reflexivity); eexists; vm_compute; by repeat split. Qed.

(** What can be dereferenced: the elements of the lists, and the nodes that a constructor lost
    (C18); not before_begin(), end() or an erased node. Reading changes nothing. *)
Theorem list_deref {V} (s : st V) σ p v s' : reach s → view s σ → deref p s = Ok v s' →
  s' = s ∧ ∃ n, p = Nod n ∧ ((∃ i xs, lobs s i xs ∧ (n, v) ∈ xs) ∨ n ∈ lost σ).
Proof.
  intros Hr Hv Hd. destruct p as [|i|n]; cbn in Hd; [done..|].
  destruct (nodes s !! n) as [[nd|]|] eqn:Hn; unfold bind, get_node in Hd; rewrite ?Hn in Hd; cbn in Hd; [|done..].
  destruct (n_val nd) as [w|] eqn:Hw; [|done]. injection Hd as -> ->. split; [done|]. exists n. split; [done|].
  destruct (proj1 (vw_nodes _ _ Hv n)) as [(i & xs & Hg & Hin)|]; [by exists nd| |by right]. left. exists i, xs.
  assert (Hl := vw_list _ _ Hv _ _ Hg). split; [done|]. apply elem_of_list_fmap in Hin as ([n' u] & -> & Hin). cbn in *.
  pose proof Hin as Hin'. apply elem_of_list_split in Hin as (a & b & ->). destruct Hl as (_ & _ & Hl).
  destruct (Hl a (n', u) b eq_refl) as [Hd _]. cbn in Hd. unfold bind, get_node in Hd. rewrite Hn in Hd. cbn in Hd.
  rewrite Hw in Hd. injection Hd as ->. done.
Qed.
Example list_deref_ex : deref (Nod 1) ex_s = Ok 3 ex_s ∧ deref (Head 0) ex_s = UB OutOfBounds ∧ deref (@Nul) ex_s = UB NullDeref.
Proof. split_and!; vm_compute; reflexivity. Qed.

(** ** C17 *)

Theorem list_reverse {V} (s : st V) i xs : reach s → lobs s i xs →
  quiet_call (LReverse i) s i RUnit (rev xs) [].
Proof.
  intros Hr Hl. start Hr Hl σ HR Hg. eapply (ListObs.quiet_call_intro s σ _ i RUnit xs); try done.
  - cbn [spec_step]. by rewrite Hg.
  - intros σ' Ht. done.
  - intros n. rewrite !elem_of_list_fmap. split.
    + intros (y & -> & Hy). split; [|by intros ?%elem_of_nil]. exists y. split; [done|].
      apply elem_of_list_In, in_rev. by apply elem_of_list_In.
    + intros [(y & -> & Hy) _]. exists y. split; [done|]. apply elem_of_list_In. rewrite <- in_rev. by apply elem_of_list_In.
  - by intros n ?%elem_of_nil.
Qed.
Example list_reverse_ex : reach ex_s ∧ lobs ex_s 0 [(2,5);(1,3);(0,1)] ∧
  ∃ s', run_op (LReverse 0) ex_s = Ok RUnit s' ∧ to_list 0 s' = Ok [1;3;5] s' ∧ length (nodes s') = 6.
Proof. split_and!; [apply ex_reach|apply ex_lobs|]. eexists; vm_compute; by repeat split. Qed.

(** ** C18 *)

(** assign over a range of values: the list holds the range; the first nodes
    are reused, surplus ones erased, missing ones created. A throwing element
    operation leaves a prefix assigned. *)
Theorem list_assign {V} (s : st V) i xs vs : reach s → lobs s i xs →
  let reused := zip xs.*1 vs in
  let created := new_nodes (length (nodes s)) (drop (length xs) vs) in
  vals (reused ++ created) = vs ∧
  call (LAssign i vs) s i RUnit (reused ++ created)
    (λ xs'', ∃ m, m < length vs ∧
       xs'' = zip xs.*1 (take m vs) ++ drop m xs ++ new_nodes (length (nodes s)) (drop (length xs) (take m vs))).
Proof.
  intros Hr Hl reused created. start Hr Hl σ HR Hg. split.
  { unfold vals, reused, created, new_nodes. rewrite fmap_app.
    rewrite (snd_zip (seq _ _)) by by rewrite seq_length.
    destruct (decide (length vs ≤ length xs)).
    - rewrite snd_zip by by rewrite fmap_length. rewrite drop_ge by done. apply app_nil_r.
    - rewrite <- (zip_with_take_r' _ (length xs) xs.*1 vs) by (rewrite fmap_length; lia).
      rewrite snd_zip by (rewrite take_length, fmap_length; lia). apply take_drop. }
  unfold reused, created. rewrite <- (ListSim.R_fresh _ _ HR).
  eapply (ListObs.call_intro s σ); [done|done|cbn [spec_step]; by rewrite Hg| | |].
  - simpl. apply ListSim.get_Some in Hg. apply ListSim.get_Some. simpl. by rewrite list_lookup_insert by (by eapply lookup_lt_Some).
  - intros j Hj. simpl. unfold get. simpl. by rewrite list_lookup_insert_ne.
  - intros σ' (xs0 & Hg0 & Ht). rewrite Hg in Hg0. injection Hg0 as <-.
    assert (Hput : ∀ zs, only_list i zs σ σ' → get σ' i = Some zs ∧ ∀ j, j ≠ i → get σ' j = get σ j).
    { intros zs (E & _). apply ListSim.get_Some in Hg. unfold get. rewrite E. split.
      - by rewrite list_lookup_insert by (by eapply lookup_lt_Some).
      - intros j Hj. by rewrite list_lookup_insert_ne. }
    destruct Ht as [(m & Hm1 & Hm2 & Ho)|(m & Hm & Ho)]; apply Hput in Ho as [Hgi Hoth].
    + split; [|done]. eexists; split; [|exact Hgi]. exists m. split; [done|].
      rewrite (drop_ge (take m vs)) by (rewrite take_length; lia). rewrite ListChain.new_nodes_nil, app_nil_r. done.
    + split; [|done]. eexists; split; [|exact Hgi]. exists (length xs + m). split; [lia|].
      rewrite (drop_ge xs) by lia. simpl.
      rewrite <- take_take_drop, drop_app_alt by (rewrite take_length; lia).
      f_equal. unfold overwrite. rewrite take_take_drop. symmetry. apply zip_with_take_r'. rewrite fmap_length. lia.
Qed.
Example list_assign_ex : reach ex_s ∧ lobs ex_s 0 [(2,5);(1,3);(0,1)] ∧
  (∃ s', run_op (LAssign 0 [7;8]) ex_s = Ok RUnit s' ∧ to_list 0 s' = Ok [7;8] s') ∧
  (∃ s', run_op (LAssign 0 [7;8;9;4;4]) ex_s = Ok RUnit s' ∧ to_list 0 s' = Ok [7;8;9;4;4] s' ∧ length (nodes s') = 8) ∧
  (∃ s', run_op (LAssign 0 [7;8;9;4;4]) (ex_run [false;true]) = Throw s' ∧ to_list 0 s' = Ok [7;3;1] s').
Proof. split_and!; [apply ex_reach|apply ex_lobs|eexists; vm_compute; by repeat split..]. Qed.

(** Copy assignment from another list leaves the source alone. *)
Theorem list_copy_assign {V} (s : st V) i j xs ys : reach s → lobs s i xs → lobs s j ys → i ≠ j →
  call (LAssignCopy i j) s i RUnit
    (zip xs.*1 (vals ys) ++ new_nodes (length (nodes s)) (drop (length xs) (vals ys)))
    (λ xs'', ∃ m, m < length ys ∧
       xs'' = zip xs.*1 (take m (vals ys)) ++ drop m xs ++
              new_nodes (length (nodes s)) (drop (length xs) (take m (vals ys)))).
Proof.
  intros Hr Hl Hlj Hij. start Hr Hl σ HR Hg. pose proof (proj1 (ListObs.R_lobs _ _ _ _ HR) Hlj) as Hgj.
  rewrite <- (ListSim.R_fresh _ _ HR).
  eapply (ListObs.call_intro s σ); [done|done|cbn [spec_step]; rewrite Hg; cbn [mbind option_bind]; by rewrite Hgj| | |].
  - simpl. apply ListSim.get_Some in Hg. apply ListSim.get_Some. simpl. by rewrite list_lookup_insert by (by eapply lookup_lt_Some).
  - intros k Hk. simpl. unfold get. simpl. by rewrite list_lookup_insert_ne.
  - intros σ' (ys0 & Hgj0 & xs0 & Hg0 & Ht). rewrite Hg in Hg0. injection Hg0 as <-. rewrite Hgj in Hgj0. injection Hgj0 as <-.
    assert (Hput : ∀ zs, only_list i zs σ σ' → get σ' i = Some zs ∧ ∀ j, j ≠ i → get σ' j = get σ j).
    { intros zs (E & _). apply ListSim.get_Some in Hg. unfold get. rewrite E. split.
      - by rewrite list_lookup_insert by (by eapply lookup_lt_Some).
      - intros k Hk. by rewrite list_lookup_insert_ne. }
    assert (Hlen : length (vals ys) = length ys) by apply fmap_length.
    destruct Ht as [(m & Hm1 & Hm2 & Ho)|(m & Hm & Ho)]; apply Hput in Ho as [Hgi Hoth].
    + split; [|done]. eexists; split; [|exact Hgi]. exists m. split; [lia|].
      rewrite (drop_ge (take m (vals ys))) by (rewrite take_length; lia). rewrite ListChain.new_nodes_nil, app_nil_r. done.
    + split; [|done]. eexists; split; [|exact Hgi]. exists (length xs + m). split; [lia|].
      rewrite (drop_ge xs) by lia. simpl.
      rewrite <- take_take_drop, drop_app_alt by (rewrite take_length; lia).
      f_equal. unfold overwrite. rewrite take_take_drop. symmetry. apply zip_with_take_r'. rewrite fmap_length. lia.
Qed.
Example list_copy_assign_ex : reach ex_s ∧ lobs ex_s 0 [(2,5);(1,3);(0,1)] ∧ lobs ex_s 1 [(3,8);(4,9)] ∧
  ∃ s', run_op (LAssignCopy 1 0) ex_s = Ok RUnit s' ∧ to_list 1 s' = Ok [5;3;1] s' ∧ to_list 0 s' = Ok [5;3;1] s'.
Proof. split_and!; [apply ex_reach|apply ex_lobs|apply ex_lobs|eexists; vm_compute; by repeat split]. Qed.

(** Copy-assigning a list to itself changes nothing, even if an element
    assignment throws. *)
Theorem list_self_assign {V} (s : st V) i xs : reach s → lobs s i xs →
  call (LAssignCopy i i) s i RUnit xs (λ xs'', xs'' = xs).
Proof.
  intros Hr Hl. start Hr Hl σ HR Hg.
  eapply (ListObs.call_intro s σ); [done|done|cbn [spec_step]; rewrite Hg; reflexivity| | |].
  - rewrite ListHistory.overwrite_self. simpl. apply ListSim.get_Some in Hg. apply ListSim.get_Some. simpl.
    by rewrite list_lookup_insert by (by eapply lookup_lt_Some).
  - intros k Hk. unfold get. simpl. by rewrite list_lookup_insert_ne.
  - intros σ' (ys0 & Hg1 & xs0 & Hg0 & Ht). rewrite Hg in Hg0, Hg1. injection Hg0 as <-. injection Hg1 as <-.
    assert (Hput : ∀ zs, only_list i zs σ σ' → get σ' i = Some zs ∧ ∀ j, j ≠ i → get σ' j = get σ j).
    { intros zs (E & _). apply ListSim.get_Some in Hg. unfold get. rewrite E. split.
      - by rewrite list_lookup_insert by (by eapply lookup_lt_Some).
      - intros k Hk. by rewrite list_lookup_insert_ne. }
    destruct Ht as [(m & Hm1 & Hm2 & Ho)|(m & Hm & Ho)]; apply Hput in Ho as [Hgi Hoth].
    + split; [|done]. eexists; split; [|exact Hgi]. apply overwrite_take_self.
    + exfalso. unfold vals in Hm. rewrite fmap_length in Hm. lia.
Qed.
Example list_self_assign_ex : reach ex_s ∧ lobs ex_s 0 [(2,5);(1,3);(0,1)] ∧
  ∃ s', run_op (LAssignCopy 0 0) ex_s = Ok RUnit s' ∧ to_list 0 s' = Ok [5;3;1] s'.
Proof. split_and!; [apply ex_reach|apply ex_lobs|eexists; vm_compute; by repeat split]. Qed.

(** ** C19 *)

(** [p] is the position of the last element of [a], or before the first. *)
Definition pos_after {V} (i : nat) (a : list (nat * V)) : pos :=
  match last a with None => Head i | Some x => Nod x.1 end.
Lemma at_pos_after {V} i (a b : list (nat * V)) : NoDup (a ++ b).*1 → at_pos i (pos_after i a) (a ++ b) = Some (a, b).
Proof.
  intros Hnd. unfold pos_after. destruct (last a) as [x|] eqn:E.
  - apply last_Some in E as [a' ->]. rewrite <- app_assoc in *. simpl in *. clear i.
    induction a' as [|y a' IH]; simpl.
    + by rewrite Nat.eqb_refl.
    + simpl in Hnd. apply NoDup_cons in Hnd as [Hy Hnd].
      destruct (Nat.eqb_spec y.1 x.1) as [E|_].
      * exfalso. apply Hy. rewrite fmap_app, elem_of_app. right. simpl. rewrite E, elem_of_cons. by left.
      * simpl in IH. rewrite IH by done. done.
  - apply last_None in E. subst a. simpl. by rewrite Nat.eqb_refl.
Qed.
Lemma until_first {V} (b c : list (nat * V)) : NoDup (b ++ c).*1 → until (first_pos c) (b ++ c) = Some (b, c).
Proof.
  intros Hnd. destruct c as [|x c]; simpl; [by rewrite app_nil_r|].
  induction b as [|y b IH]; simpl.
  - by rewrite Nat.eqb_refl.
  - simpl in Hnd. apply NoDup_cons in Hnd as [Hy Hnd].
    destruct (Nat.eqb_spec y.1 x.1) as [E|_].
    + exfalso. apply Hy. rewrite fmap_app, elem_of_app. right. simpl. rewrite E, elem_of_cons. by left.
    + by rewrite IH.
Qed.
Lemma rng_first {V} (e zs c : list (nat * V)) : NoDup (e ++ zs ++ c).*1 →
  rng (first_pos (zs ++ c)) (first_pos c) (e ++ zs ++ c) = Some zs.
Proof.
  intros Hnd. unfold rng. rewrite until_first by done. cbn. rewrite until_first; [done|].
  rewrite fmap_app, NoDup_app in Hnd. apply Hnd.
Qed.
Lemma lobs_nodup {V} (s : st V) i xs : reach s → lobs s i xs → NoDup xs.*1.
Proof. intros Hr Hl. start Hr Hl σ HR Hg. by apply (vw_once _ _ (ListObs.R_view _ _ HR) i). Qed.
Lemma ids_erase {V} (a b c : list (nat * V)) n : NoDup (a ++ b ++ c).*1 →
  n ∈ (a ++ c).*1 ↔ n ∈ (a ++ b ++ c).*1 ∧ n ∉ b.*1.
Proof.
  rewrite !fmap_app, !NoDup_app, !elem_of_app. intros (_ & H1 & _ & H2 & _). split.
  - intros [Ha|Hc]; (split; [tauto|]).
    + intros Hb. apply (H1 n Ha). rewrite elem_of_app. by left.
    + intros Hb. by apply (H2 n Hb).
  - tauto.
Qed.

(** The elements between [pos] and [last] are erased and their nodes freed. *)
Theorem list_erase_range {V} (s : st V) i (a b c : list (nat * V)) : reach s → lobs s i (a ++ b ++ c) →
  quiet_call (LEraseRange i (pos_after i a) (first_pos c)) s i RUnit (a ++ c) b.*1.
Proof.
  intros Hr Hl. assert (Hnd := lobs_nodup _ _ _ Hr Hl). start Hr Hl σ HR Hg.
  eapply (ListObs.quiet_call_intro s σ _ i RUnit (a ++ b ++ c)); try done.
  - cbn [spec_step]. rewrite Hg. cbn [mbind option_bind]. rewrite at_pos_after by done. cbn [mbind option_bind].
    rewrite until_first; [done|]. rewrite fmap_app, NoDup_app in Hnd. apply Hnd.
  - by intros σ' Ht.
  - intros n. by apply ids_erase.
  - intros n Hn. rewrite !fmap_app, !elem_of_app. tauto.
Qed.
Example list_erase_range_ex : reach ex_s ∧ lobs ex_s 0 ([] ++ [(2,5);(1,3)] ++ [(0,1)]) ∧
  ∃ s', run_op (LEraseRange 0 (Head 0) (Nod 0)) ex_s = Ok RUnit s' ∧ to_list 0 s' = Ok [1] s'.
Proof. split_and!; [apply ex_reach|apply ex_lobs|eexists; vm_compute; by repeat split]. Qed.
Theorem list_erase_after {V} (s : st V) i (a c : list (nat * V)) x : reach s → lobs s i (a ++ x :: c) →
  quiet_call (LEraseAfter i (pos_after i a)) s i RUnit (a ++ c) [x.1].
Proof.
  intros Hr Hl. assert (Hnd := lobs_nodup _ _ _ Hr Hl). start Hr Hl σ HR Hg.
  eapply (ListObs.quiet_call_intro s σ _ i RUnit (a ++ [x] ++ c)); try done.
  - cbn [spec_step]. rewrite Hg. cbn [mbind option_bind]. by rewrite at_pos_after by done.
  - by intros σ' Ht.
  - intros n. by apply (ids_erase a [x] c).
  - intros n Hn. rewrite !fmap_app, !elem_of_app. tauto.
Qed.
Example list_erase_after_ex : lobs ex_s 0 ([(2,5)] ++ (1,3) :: [(0,1)]) ∧
  ∃ s', run_op (LEraseAfter 0 (Nod 2)) ex_s = Ok RUnit s' ∧ to_list 0 s' = Ok [5;1] s'.
Proof. split_and!; [apply ex_lobs|eexists; vm_compute; by repeat split]. Qed.
Theorem list_pop_front {V} (s : st V) i x (c : list (nat * V)) : reach s → lobs s i (x :: c) →
  quiet_call (LPopFront i) s i RUnit c [x.1].
Proof.
  intros Hr Hl. assert (Hnd := lobs_nodup _ _ _ Hr Hl). start Hr Hl σ HR Hg.
  eapply (ListObs.quiet_call_intro s σ _ i RUnit ([] ++ [x] ++ c)); try done.
  - cbn [spec_step]. by rewrite Hg.
  - by intros σ' Ht.
  - intros n. by apply (ids_erase [] [x] c).
  - intros n Hn. rewrite !fmap_app, !elem_of_app. tauto.
Qed.
Example list_pop_front_ex : lobs ex_s 1 [(3,8);(4,9)] ∧
  ∃ s', run_op (LPopFront 1) ex_s = Ok RUnit s' ∧ to_list 1 s' = Ok [9] s'.
Proof. split_and!; [apply ex_lobs|eexists; vm_compute; by repeat split]. Qed.
Theorem list_clear {V} (s : st V) i (xs : list (nat * V)) : reach s → lobs s i xs →
  quiet_call (LClear i) s i RUnit [] xs.*1.
Proof.
  intros Hr Hl. assert (Hnd := lobs_nodup _ _ _ Hr Hl). start Hr Hl σ HR Hg.
  eapply (ListObs.quiet_call_intro s σ _ i RUnit xs); try done.
  - cbn [spec_step]. by rewrite Hg.
  - by intros σ' Ht.
  - intros n. simpl. rewrite elem_of_nil. tauto.
Qed.
Example list_clear_ex : lobs ex_s 0 [(2,5);(1,3);(0,1)] ∧
  ∃ s', run_op (LClear 0) ex_s = Ok RUnit s' ∧ nodes s' !! 0 = Some None ∧ to_list 0 s' = Ok [] s'.
Proof. split_and!; [apply ex_lobs|eexists; vm_compute; by repeat split]. Qed.

(** ** C20 *)

(** In every reachable state each allocated node is in exactly one list, or was
    leaked by a constructor that threw; no element lost its storage without
    being destroyed. (Freeing a node twice, freeing a node holding a live
    element and touching a freed node are undefined behaviour or leaks in the
    model and are excluded by [list_history].) *)
Theorem list_nodes_owned {V} (s : st V) : reach s →
  ∃ σ, view s σ ∧ leaked s = 0 ∧
    (∀ n, allocated s n ↔ in_lists σ n ∨ n ∈ lost σ) ∧ (∀ n, in_lists σ n → n ∉ lost σ) ∧
    (∀ i xs, get σ i = Some xs → NoDup xs.*1) ∧
    (∀ i j xs ys n, i ≠ j → get σ i = Some xs → get σ j = Some ys → n ∈ xs.*1 → n ∉ ys.*1).
Proof.
  intros (σ & Hv & _)%ListObs.reach_view. exists σ. destruct Hv. by split_and!.
Qed.
Example list_nodes_owned_ex : reach ex_s ∧ allocated ex_s 4 ∧ ¬ allocated ex_s 5.
Proof. split_and!; [apply ex_reach|eexists; vm_compute; reflexivity|]. intros [nd H]. vm_compute in H. discriminate H. Qed.

(** Histories in which no constructor throws lose no node. *)
Lemma spec_run_lost {V} (p : prog (op V) (out V)) σ rs σ' :
  spec_run spec_step spec_throw p σ rs σ' →
  Exn ∉ rs → lost σ = [] → lost σ' = [].
Proof.
  induction 1 as [|o k σ σ1 r rs σ2 Hst _ IH|o k σ σ1 rs σ2 Ht _ IH]; [done| |].
  - intros Hn Hl. rewrite not_elem_of_cons in Hn. apply IH; [tauto|]. rewrite <- Hl. clear -Hst.
    destruct o; cbn [spec_step] in Hst;
      repeat (match type of Hst with
              | context [get ?s ?i] => destruct (get s i) as [?|]; cbn [mbind option_bind] in Hst; [|done]
              | context [at_pos ?i ?p ?x] => destruct (at_pos i p x) as [[? ?]|]; cbn [mbind option_bind] in Hst; [|done]
              | context [rng ?f ?l ?x] => destruct (rng f l x) as [?|]; cbn [mbind option_bind] in Hst; [|done]
              | context [pos_in ?p ?x] => destruct (pos_in p x); [done|]
              | context [until ?i ?p] => destruct (until i p) as [[? ?]|]; cbn [mbind option_bind] in Hst; [|done]
              | context [last ?c] => destruct (last c) as [[? ?]|]; cbn [mbind option_bind] in Hst; [|done]
              | context [match ?l with [] => None | _ :: _ => _ end] => destruct l; [done|]
              | context [Nat.eqb ?i ?j] => destruct (Nat.eqb i j)
              end); by injection Hst as <- _.
  - intros Hn. exfalso. apply Hn. rewrite elem_of_cons. by left.
Qed.
(** After every list has been destroyed, nothing is outstanding. *)
Theorem list_no_leak {V} (p : prog (op V) (out V)) : valid spec_step spec_throw p ainit →
  ∃ rs s σ, run_prog run_op p (init []) = Ok rs s ∧ spec_run spec_step spec_throw p ainit rs σ ∧
    ((∀ i, get σ i = None) → ∀ n, ¬ allocated s n) ∧ leaked s = 0.
Proof.
  intros Hp. destruct (list_history p [] Hp) as (rs & s & σ & E & Hs & Hv & Hn). exists rs, s, σ.
  split_and!; [done|done| |apply (vw_objects _ _ Hv)].
  intros Hd n [(i & xs & Hg & _)|Hlo]%(vw_nodes _ _ Hv); [by rewrite Hd in Hg|].
  rewrite (spec_run_lost _ _ _ _ Hs (Hn eq_refl) eq_refl) in Hlo. by apply elem_of_nil in Hlo.
Qed.
Example list_no_leak_ex : ∃ rs s,
  run_ops run_op (ex_ops ++ [LDestroy 0; LDestroy 2; LDestroy 1]) (init []) = Ok rs s ∧
  nodes s = [None;None;None;None;None;None].
Proof. eexists _, _; vm_compute; by repeat split. Qed.

(** ** C21 *)

(** push_front, emplace_front, emplace_after and insert_after: the node is
    inserted, or the call throws and every list is as before. *)
Theorem list_insert_after {V} (s : st V) i (a b : list (nat * V)) v : reach s → lobs s i (a ++ b) →
  call (LInsertAfter i (pos_after i a) v) s i (RIter (Nod (length (nodes s))))
    (a ++ (length (nodes s), v) :: b) (λ xs'', xs'' = a ++ b).
Proof.
  intros Hr Hl. assert (Hnd := lobs_nodup _ _ _ Hr Hl). start Hr Hl σ HR Hg. rewrite <- (ListSim.R_fresh _ _ HR).
  eapply (ListObs.call_intro s σ); [done|done| | | |].
  - cbn [spec_step]. rewrite Hg. cbn [mbind option_bind]. by rewrite at_pos_after by done.
  - apply (ListHistory.get_put σ i _ _ Hg).
  - intros j Hj. by apply ListHistory.get_put_ne.
  - intros σ' (E & _). unfold get in *. rewrite E. split; [|done]. exists (a ++ b). done.
Qed.
Example list_insert_after_ex : lobs ex_s 0 ([(2,5)] ++ [(1,3);(0,1)]) ∧
  (∃ s', run_op (LInsertAfter 0 (Nod 2) 9) ex_s = Ok (RIter (Nod 6)) s' ∧ to_list 0 s' = Ok [5;9;3;1] s') ∧
  (∃ s', run_op (LInsertAfter 0 (Nod 2) 9) (ex_run [false;true]) = Throw s' ∧ to_list 0 s' = Ok [5;3;1] s' ∧
         nodes s' !! 6 = Some None).
Proof. split_and!; [apply ex_lobs|eexists; vm_compute; by repeat split..]. Qed.
Theorem list_push_front {V} (s : st V) i (xs : list (nat * V)) v : reach s → lobs s i xs →
  call (LPushFront i v) s i RUnit ((length (nodes s), v) :: xs) (λ xs'', xs'' = xs) ∧
  call (LEmplaceFront i v) s i (RIter (Nod (length (nodes s)))) ((length (nodes s), v) :: xs) (λ xs'', xs'' = xs).
Proof.
  intros Hr Hl. start Hr Hl σ HR Hg. rewrite <- (ListSim.R_fresh _ _ HR).
  split; (eapply (ListObs.call_intro s σ);
    [done|done|cbn [spec_step]; by rewrite Hg|apply (ListHistory.get_put σ i _ _ Hg)|
     intros j Hj; by apply ListHistory.get_put_ne|]);
  (intros σ' (E & _); unfold get in *; rewrite E; split; [|done]; exists xs; done).
Qed.
Example list_push_front_ex : lobs ex_s 2 [] ∧
  (∃ s', run_op (LPushFront 2 9) ex_s = Ok RUnit s' ∧ to_list 2 s' = Ok [9] s') ∧
  (∃ s', run_op (LPushFront 2 9) (ex_run [true]) = Throw s' ∧ to_list 2 s' = Ok [] s').
Proof. split_and!; [apply ex_lobs|eexists; vm_compute; by repeat split..]. Qed.
(** A range: all of it, or a prefix followed by an exception. The returned
    iterator designates the last inserted element, or [pos] for an empty range. *)
Theorem list_insert_range {V} (s : st V) i (a b : list (nat * V)) vs : reach s → lobs s i (a ++ b) →
  let N := length (nodes s) in
  call (LInsertRange i (pos_after i a) vs) s i (RIter (last_id (pos_after i a) (new_nodes N vs)))
    (a ++ new_nodes N vs ++ b)
    (λ xs'', ∃ m, m < length vs ∧ xs'' = a ++ new_nodes N (take m vs) ++ b).
Proof.
  intros Hr Hl N. assert (Hnd := lobs_nodup _ _ _ Hr Hl). start Hr Hl σ HR Hg. unfold N. rewrite <- (ListSim.R_fresh _ _ HR).
  eapply (ListObs.call_intro s σ); [done|done| | | |].
  - cbn [spec_step]. rewrite Hg. cbn [mbind option_bind]. by rewrite at_pos_after by done.
  - apply (ListHistory.get_put σ i _ _ Hg).
  - intros j Hj. by apply ListHistory.get_put_ne.
  - intros σ' (xs0 & a0 & b0 & m & Hg0 & Hp & Hm & E & _). rewrite Hg in Hg0. injection Hg0 as <-.
    rewrite at_pos_after in Hp by done. injection Hp as <- <-. apply ListSim.get_Some in Hg. unfold get. rewrite E. split.
    + eexists. split; [by exists m|]. by rewrite list_lookup_insert by (by eapply lookup_lt_Some).
    + intros j Hj. by rewrite list_lookup_insert_ne.
Qed.
Example list_insert_range_ex : lobs ex_s 0 ([(2,5)] ++ [(1,3);(0,1)]) ∧
  (∃ s', run_op (LInsertRange 0 (Nod 2) [7;8]) ex_s = Ok (RIter (Nod 7)) s' ∧ to_list 0 s' = Ok [5;7;8;3;1] s') ∧
  (∃ s', run_op (LInsertRange 0 (Nod 2) [7;8]) (ex_run [false;false;false;true]) = Throw s' ∧
         to_list 0 s' = Ok [5;7;3;1] s').
Proof. split_and!; [apply ex_lobs|eexists; vm_compute; by repeat split..]. Qed.

(** Constructors. What holds: a constructor either builds the list or throws;
    a throw leaves every list as before. What is missing (and false, see
    [list_ctor_throw_refuted]): that no node is lost; exactly those built before
    the throw are. *)
Theorem list_ctor_throw_partial {V} (s : st V) (o : op V) vs : reach s →
  (o = LRange vs ∨ (∃ n v, o = LFill n v ∧ vs = replicate n v) ∨
   (∃ j xs, o = LCopy j ∧ lobs s j xs ∧ vs = vals xs) ∨
   (∃ j e zs c, o = LRangeNodes j (first_pos (zs ++ c)) (first_pos c) ∧ lobs s j (e ++ zs ++ c) ∧ vs = vals zs)) →
  match run_op o s with
  | Ok r s' => r = RNew (length (heads s)) ∧ lobs s' (length (heads s)) (new_nodes (length (nodes s)) vs) ∧
               same_all s s' ∧ reach s'
  | Throw s' => oracle s ≠ [] ∧ same_all s s' ∧ length (heads s') = length (heads s) ∧ reach s' ∧
      ∃ m, m ≤ length vs ∧ (∀ n, allocated s' n ↔ allocated s n ∨ length (nodes s) ≤ n < length (nodes s) + m)
  | UB _ => False
  end.
Proof.
  intros Hr Ho. destruct (ListObs.reach_R _ Hr) as [σ HR].
  assert (Hlen := ListHistory.heads_len _ _ HR).
  assert (Hst : spec_step o σ = Some (bump (length vs) (add σ (new_nodes (fresh_id σ) vs)), RNew (length (ls σ))) ∧
                ∀ σ', spec_throw o σ σ' → ctor_throw (length vs) σ σ').
  { destruct Ho as [->|[(n & v & -> & ->)|[(j & xs & -> & Hj & ->)|(j & e & zs & c & -> & Hj & ->)]]].
    - done.
    - rewrite replicate_length. done.
    - apply (ListObs.R_lobs _ _ _ _ HR) in Hj. cbn [spec_step spec_throw]. rewrite Hj.
      assert (El : length (vals xs) = length xs) by apply fmap_length. rewrite El. split; [done|]. intros σ' (xs' & [= <-] & ?). done.
    - assert (Hnd := lobs_nodup _ _ _ Hr Hj). apply (ListObs.R_lobs _ _ _ _ HR) in Hj. cbn [spec_step spec_throw].
      rewrite Hj. cbn [mbind option_bind]. rewrite rng_first by done.
      assert (El : length (vals zs) = length zs) by apply fmap_length. rewrite El. split; [done|].
      intros σ' (xs' & zs' & [= <-] & Hz & ?). rewrite rng_first in Hz by done. by injection Hz as <-. }
  destruct Hst as [Hst Hct].
  assert (Hp := ListObs.step_R s σ o _ _ Hr HR Hst). destruct (run_op o s) as [r s'|s'|u]; [| |done].
  - destruct Hp as (-> & HR' & Hr' & _). rewrite Hlen, <- (ListSim.R_fresh _ _ HR). split_and!; [done| | |done].
    + apply (ListObs.R_lobs _ _ _ _ HR'). apply ListSim.get_Some. simpl. by apply list_lookup_middle.
    + intros j xs Hj%(ListObs.R_lobs _ _ _ _ HR). apply (ListObs.R_lobs _ _ _ _ HR'). apply ListSim.get_Some in Hj.
      apply ListSim.get_Some. simpl. rewrite lookup_app_l; [done|]. by eapply lookup_lt_Some.
  - destruct Hp as (Hnc & (σ' & Ht & HR') & Hr'). apply Hct in Ht as (m & Hm & Els & Elo & _).
    split_and!; [done| | |done|].
    + intros j xs Hj%(ListObs.R_lobs _ _ _ _ HR). apply (ListObs.R_lobs _ _ _ _ HR'). unfold get in *. by rewrite Els.
    + by rewrite (ListHistory.heads_len _ _ HR'), Els.
    + exists m. split; [done|]. intros n.
      rewrite (ListObs.in_lists_alloc s' σ' n HR'), (ListObs.in_lists_alloc s σ n HR), Elo, elem_of_app.
      assert (Hin : in_lists σ' n ↔ in_lists σ n) by (unfold in_lists, get; by rewrite Els).
      rewrite Hin. assert (Hseq : n ∈ seq (fresh_id σ) m ↔ fresh_id σ ≤ n < fresh_id σ + m).
      { by rewrite elem_of_list_In, in_seq. }
      rewrite Hseq, (ListSim.R_fresh _ _ HR). tauto.
Qed.
Example list_ctor_throw_partial_ex : reach ex_s ∧
  (∃ s', run_op (LCopy 0) ex_s = Ok (RNew 3) s' ∧ to_list 3 s' = Ok [5;3;1] s') ∧
  (∃ s', run_op (LRangeNodes 0 (Nod 2) (Nod 0)) ex_s = Ok (RNew 3) s' ∧ to_list 3 s' = Ok [5;3] s') ∧
  (∃ s', run_op (LCopy 0) (ex_run [false;false;false;true]) = Throw s' ∧ to_list 0 s' = Ok [5;3;1] s').
Proof. split_and!; [apply ex_reach|eexists; vm_compute; by repeat split..]. Qed.
(** linked_list.hpp:41-85: the constructors are not delegating, so nothing frees
    the nodes already linked when an element constructor throws. After
    constructing from [1;2] with a throw at the second element there is no list
    at all, and node 0 is never freed. *)
Theorem list_ctor_throw_refuted : ∃ (o : op nat) (orc : list bool) (s' : st nat),
  run_op o (init orc) = Throw s' ∧ heads s' = [] ∧ ∃ n, allocated s' n.
Proof.
  exists (LRange [1;2]), [false;false;false;true]. eexists. split; [vm_compute; reflexivity|].
  split; [reflexivity|]. exists 0. eexists. vm_compute. reflexivity.
Qed.

(** ** C22 *)

(** Move construction: the new list has the very nodes, the source is empty, no
    node is allocated, freed or copied. *)
Theorem list_move_construct {V} (s : st V) j (ys : list (nat * V)) : reach s → lobs s j ys →
  ∃ s', run_op (LMove j) s = Ok (RNew (length (heads s))) s' ∧
    lobs s' (length (heads s)) ys ∧ lobs s' j [] ∧ same_except j s s' ∧ nodes s' = nodes s ∧
    oracle s' = oracle s ∧ reach s'.
Proof.
  intros Hr Hl. start Hr Hl σ HR Hg.
  assert (Hp := ListObs.step_R s σ (LMove j) (add (put σ j []) ys) (RNew (length (ls σ))) Hr HR).
  cbn [spec_step] in Hp. rewrite Hg in Hp. specialize (Hp eq_refl).
  assert (Hn : ∀ r s', run_op (LMove j) s = Ok r s' → nodes s' = nodes s ∧ oracle s' = oracle s).
  { intros r s'. cbn [run_op]. unfold ctor_move, new_list, on_throw, bind, gets, modify, ret, get_next, set_next. cbn [heads set_heads].
    repeat case_match; try done; intros [= <- <-]; simplify_eq; done. }
  destruct (run_op (LMove j) s) as [r s'|s'|u]; [| |done].
  2:{ destruct Hp as (_ & (σ' & Ht & _) & _). done. }
  destruct Hp as (-> & HR' & Hr' & _). destruct (Hn _ _ eq_refl) as [Hn1 Hn2].
  assert (Hlen := ListHistory.heads_len _ _ HR). rewrite Hlen. exists s'.
  assert (Hlt : j < length (ls σ)) by (apply ListSim.get_Some in Hg; by eapply lookup_lt_Some).
  split_and!; try done.
  - apply (ListObs.R_lobs _ _ _ _ HR'). apply ListSim.get_Some. simpl.
    rewrite lookup_app_r by (rewrite insert_length; lia). by rewrite insert_length, Nat.sub_diag.
  - apply (ListObs.R_lobs _ _ _ _ HR'). apply ListSim.get_Some. simpl.
    rewrite lookup_app_l by (rewrite insert_length; lia). by rewrite list_lookup_insert.
  - intros k xs Hk Hlk%(ListObs.R_lobs _ _ _ _ HR). apply (ListObs.R_lobs _ _ _ _ HR'). apply ListSim.get_Some in Hlk.
    apply ListSim.get_Some. simpl. rewrite lookup_app_l by (rewrite insert_length; by eapply lookup_lt_Some).
    by rewrite list_lookup_insert_ne.
Qed.
Example list_move_construct_ex : lobs ex_s 0 [(2,5);(1,3);(0,1)] ∧
  ∃ s', run_op (LMove 0) ex_s = Ok (RNew 3) s' ∧ to_list 3 s' = Ok [5;3;1] s' ∧ to_list 0 s' = Ok [] s'.
Proof. split_and!; [apply ex_lobs|eexists; vm_compute; by repeat split]. Qed.

(** Move assignment: exactly the target's former nodes are freed, nothing is
    allocated, the source is empty. *)
Theorem list_move_assign {V} (s : st V) i j (xs ys : list (nat * V)) : reach s → lobs s i xs → lobs s j ys → i ≠ j →
  ∃ s', run_op (LAssignMove i j) s = Ok RUnit s' ∧ lobs s' i ys ∧ lobs s' j [] ∧
    (∀ k zs, k ≠ i → k ≠ j → lobs s k zs → lobs s' k zs) ∧ length (nodes s') = length (nodes s) ∧
    (∀ n, allocated s' n ↔ allocated s n ∧ n ∉ xs.*1) ∧ reach s'.
Proof.
  intros Hr Hl Hlj Hij. start Hr Hl σ HR Hg. pose proof (proj1 (ListObs.R_lobs _ _ _ _ HR) Hlj) as Hgj.
  assert (Hp := ListObs.step_R s σ (LAssignMove i j) (put (put σ i ys) j []) RUnit Hr HR).
  cbn [spec_step] in Hp. rewrite Hg in Hp. cbn [mbind option_bind] in Hp. rewrite Hgj in Hp.
  rewrite (proj2 (Nat.eqb_neq i j) Hij) in Hp. specialize (Hp eq_refl).
  destruct (run_op (LAssignMove i j) s) as [r s'|s'|u]; [| |done].
  2:{ destruct Hp as (_ & (σ' & Ht & _) & _). done. }
  destruct Hp as (-> & HR' & Hr' & _). exists s'.
  assert (Hgi' : get (put (put σ i ys) j []) i = Some ys).
  { rewrite ListHistory.get_put_ne by done. by eapply ListHistory.get_put. }
  assert (Hgj' : get (put (put σ i ys) j []) j = Some []).
  { eapply ListHistory.get_put. rewrite ListHistory.get_put_ne; done. }
  split_and!; try done.
  - by apply (ListObs.R_lobs _ _ _ _ HR').
  - by apply (ListObs.R_lobs _ _ _ _ HR').
  - intros k zs Hki Hkj Hk%(ListObs.R_lobs _ _ _ _ HR). apply (ListObs.R_lobs _ _ _ _ HR').
    by rewrite !ListHistory.get_put_ne by done.
  - by rewrite <- (ListSim.R_fresh _ _ HR), <- (ListSim.R_fresh _ _ HR').
  - intros n. rewrite (ListObs.in_lists_alloc s' _ n HR'), (ListObs.in_lists_alloc s σ n HR). simpl. split.
    + intros [(k & zs & Hk & Hn)|Hn].
      * destruct (decide (k = i)) as [->|Hki].
        -- rewrite Hgi' in Hk. injection Hk as <-. split; [left; by exists j, ys|].
           by eapply (ListSim.R_disjoint s σ i j).
        -- destruct (decide (k = j)) as [->|Hkj].
           ++ rewrite Hgj' in Hk. injection Hk as <-. by apply elem_of_nil in Hn.
           ++ rewrite !ListHistory.get_put_ne in Hk by done. split; [left; by exists k, zs|].
              eapply (ListSim.R_disjoint s σ i k); eauto.
      * split; [by right|]. intros Hx. apply (vw_lost _ _ (ListObs.R_view _ _ HR) n); [by exists i, xs|done].
    + intros [[(k & zs & Hk & Hn)|Hn] Hx]; [|by right]. left.
      destruct (decide (k = i)) as [->|Hki]; [congruence|].
      destruct (decide (k = j)) as [->|Hkj].
      * rewrite Hgj in Hk. injection Hk as <-. by exists i, ys.
      * exists k, zs. by rewrite !ListHistory.get_put_ne by done.
Qed.
Example list_move_assign_ex : lobs ex_s 0 [(2,5);(1,3);(0,1)] ∧ lobs ex_s 1 [(3,8);(4,9)] ∧
  ∃ s', run_op (LAssignMove 0 1) ex_s = Ok RUnit s' ∧ to_list 0 s' = Ok [8;9] s' ∧ to_list 1 s' = Ok [] s' ∧
        nodes s' !! 2 = Some None.
Proof. split_and!; [apply ex_lobs|apply ex_lobs|eexists; vm_compute; by repeat split]. Qed.
(** Moving a list onto itself leaves a valid, empty list and frees its nodes. *)
Theorem list_self_move {V} (s : st V) i (xs : list (nat * V)) : reach s → lobs s i xs →
  quiet_call (LAssignMove i i) s i RUnit [] xs.*1.
Proof.
  intros Hr Hl. start Hr Hl σ HR Hg. eapply (ListObs.quiet_call_intro s σ _ i RUnit xs); try done.
  - cbn [spec_step]. rewrite Hg. cbn [mbind option_bind]. by rewrite Nat.eqb_refl.
  - by intros σ' Ht.
  - intros n. simpl. rewrite elem_of_nil. tauto.
Qed.
Example list_self_move_ex : lobs ex_s 0 [(2,5);(1,3);(0,1)] ∧
  ∃ s', run_op (LAssignMove 0 0) ex_s = Ok RUnit s' ∧ to_list 0 s' = Ok [] s'.
Proof. split_and!; [apply ex_lobs|eexists; vm_compute; by repeat split]. Qed.

(** ** C72 *)

(** Inserting an element of a list into a list, possibly the same one, inserts
    a copy of its value, whatever the positions. *)
Theorem list_insert_own {V} (s : st V) i j (a b c d : list (nat * V)) x :
  reach s → lobs s i (a ++ b) → lobs s j (c ++ x :: d) →
  call (LInsertElem i (pos_after i a) j (Nod x.1)) s i (RIter (Nod (length (nodes s))))
    (a ++ (length (nodes s), x.2) :: b) (λ xs'', xs'' = a ++ b).
Proof.
  intros Hr Hl Hlj. assert (Hnd := lobs_nodup _ _ _ Hr Hl). assert (Hndj := lobs_nodup _ _ _ Hr Hlj).
  start Hr Hl σ HR Hg. pose proof (proj1 (ListObs.R_lobs _ _ _ _ HR) Hlj) as Hgj. rewrite <- (ListSim.R_fresh _ _ HR).
  assert (Hat : at_pos j (Nod x.1) (c ++ x :: d) = Some (c ++ [x], d)).
  { assert (H := at_pos_after j (c ++ [x]) d). rewrite <- app_assoc in H. simpl in H. specialize (H Hndj).
    unfold pos_after in H. by rewrite last_snoc in H. }
  eapply (ListObs.call_intro s σ); [done|done| | | |].
  - cbn [spec_step]. rewrite Hg. cbn [mbind option_bind]. rewrite at_pos_after by done. cbn [mbind option_bind].
    rewrite Hgj. cbn [mbind option_bind]. rewrite Hat. cbn [mbind option_bind]. rewrite last_snoc. done.
  - apply (ListHistory.get_put σ i _ _ Hg).
  - intros k Hk. by apply ListHistory.get_put_ne.
  - intros σ' (E & _). unfold get in *. rewrite E. split; [|done]. exists (a ++ b). done.
Qed.
Example list_insert_own_ex : lobs ex_s 0 ([] ++ [(2,5);(1,3);(0,1)]) ∧ lobs ex_s 0 ([(2,5)] ++ (1,3) :: [(0,1)]) ∧
  ∃ s', run_op (LInsertElem 0 (Head 0) 0 (Nod 1)) ex_s = Ok (RIter (Nod 6)) s' ∧ to_list 0 s' = Ok [3;5;3;1] s'.
Proof. split_and!; [apply ex_lobs|apply ex_lobs|eexists; vm_compute; by repeat split]. Qed.

(** ** C116 *)

(** assign(f, l) from any range of elements of any list, the same one included:
    the values the range had before the call. *)
Theorem list_assign_nodes {V} (s : st V) i j (xs e zs c : list (nat * V)) :
  reach s → lobs s i xs → lobs s j (e ++ zs ++ c) →
  call (LAssignNodes i j (first_pos (zs ++ c)) (first_pos c)) s i RUnit
    (zip xs.*1 (vals zs) ++ new_nodes (length (nodes s)) (drop (length xs) (vals zs)))
    (λ xs'', ∃ m, m < length zs ∧
       xs'' = zip xs.*1 (take m (vals zs)) ++ drop m xs ++
              new_nodes (length (nodes s)) (drop (length xs) (take m (vals zs)))).
Proof.
  intros Hr Hl Hlj. assert (Hndj := lobs_nodup _ _ _ Hr Hlj). start Hr Hl σ HR Hg.
  pose proof (proj1 (ListObs.R_lobs _ _ _ _ HR) Hlj) as Hgj. rewrite <- (ListSim.R_fresh _ _ HR).
  eapply (ListObs.call_intro s σ); [done|done| | | |].
  - cbn [spec_step]; rewrite Hg; cbn [mbind option_bind]; rewrite Hgj. cbn [mbind option_bind].
    by rewrite rng_first.
  - simpl. apply ListSim.get_Some in Hg. apply ListSim.get_Some. simpl. by rewrite list_lookup_insert by (by eapply lookup_lt_Some).
  - intros k Hk. simpl. unfold get. simpl. by rewrite list_lookup_insert_ne.
  - intros σ' (ys0 & zs0 & Hgj0 & Hz & xs0 & Hg0 & Ht). rewrite Hg in Hg0. injection Hg0 as <-. rewrite Hgj in Hgj0. injection Hgj0 as <-.
    rewrite rng_first in Hz by done. injection Hz as <-.
    assert (Hput : ∀ us, only_list i us σ σ' → get σ' i = Some us ∧ ∀ j, j ≠ i → get σ' j = get σ j).
    { intros us (E & _). apply ListSim.get_Some in Hg. unfold get. rewrite E. split.
      - by rewrite list_lookup_insert by (by eapply lookup_lt_Some).
      - intros k Hk. by rewrite list_lookup_insert_ne. }
    assert (Hlen : length (vals zs) = length zs) by apply fmap_length.
    destruct Ht as [(m & Hm1 & Hm2 & Ho)|(m & Hm & Ho)]; apply Hput in Ho as [Hgi Hoth].
    + split; [|done]. eexists; split; [|exact Hgi]. exists m. split; [lia|].
      rewrite (drop_ge (take m (vals zs))) by (rewrite take_length; lia). rewrite ListChain.new_nodes_nil, app_nil_r. done.
    + split; [|done]. eexists; split; [|exact Hgi]. exists (length xs + m). split; [lia|].
      rewrite (drop_ge xs) by lia. simpl.
      rewrite <- take_take_drop, drop_app_alt by (rewrite take_length; lia).
      f_equal. unfold overwrite. rewrite take_take_drop. symmetry. apply zip_with_take_r'. rewrite fmap_length. lia.
Qed.
Example list_assign_nodes_ex : reach ex_s ∧ lobs ex_s 0 ([(2,5)] ++ [(1,3);(0,1)] ++ []) ∧
  (∃ s', run_op (LAssignNodes 0 0 (Nod 1) Nul) ex_s = Ok RUnit s' ∧ to_list 0 s' = Ok [3;1] s' ∧
         allocated s' 2 ∧ ¬ allocated s' 0) ∧
  (∃ s', run_op (LAssignNodes 1 0 (Nod 2) (Nod 0)) ex_s = Ok RUnit s' ∧ to_list 1 s' = Ok [5;3] s').
Proof.
  split_and!; [apply ex_reach|apply ex_lobs| |eexists; vm_compute; by repeat split].
  eexists. split_and!; [vm_compute; reflexivity..|by eexists|]. intros [nd H]. vm_compute in H. discriminate H.
Qed.

(** insert_after(pos, f, l) from any range of elements of any list inserts
    copies of their values. Missing: the case that [pos] designates one of the
    elements of the range, which never returns (see
    [list_insert_nodes_diverges]). *)
Theorem list_insert_nodes_partial {V} (s : st V) i j (a b e zs c : list (nat * V)) :
  reach s → lobs s i (a ++ b) → lobs s j (e ++ zs ++ c) → (∀ n, n ∈ zs.*1 → pos_after i a ≠ Nod n) →
  let N := length (nodes s) in
  call (LInsertNodes i (pos_after i a) j (first_pos (zs ++ c)) (first_pos c)) s i
    (RIter (last_id (pos_after i a) (new_nodes N (vals zs))))
    (a ++ new_nodes N (vals zs) ++ b)
    (λ xs'', ∃ m, m < length zs ∧ xs'' = a ++ new_nodes N (take m (vals zs)) ++ b).
Proof.
  intros Hr Hl Hlj Hp N. assert (Hnd := lobs_nodup _ _ _ Hr Hl). assert (Hndj := lobs_nodup _ _ _ Hr Hlj).
  start Hr Hl σ HR Hg. pose proof (proj1 (ListObs.R_lobs _ _ _ _ HR) Hlj) as Hgj.
  unfold N. rewrite <- (ListSim.R_fresh _ _ HR).
  assert (Hpi : pos_in (pos_after i a) zs = false).
  { destruct (pos_in _ _) eqn:E; [|done]. apply ListSim.pos_in_spec in E as (n & Hn & E). by apply Hp in Hn. }
  eapply (ListObs.call_intro s σ); [done|done| | | |].
  - cbn [spec_step]. rewrite Hg. cbn [mbind option_bind]. rewrite at_pos_after by done. cbn [mbind option_bind].
    rewrite Hgj. cbn [mbind option_bind]. rewrite rng_first by done. cbn [mbind option_bind]. by rewrite Hpi.
  - apply (ListHistory.get_put σ i _ _ Hg).
  - intros k Hk. by apply ListHistory.get_put_ne.
  - intros σ' (xs0 & a0 & b0 & ys0 & zs0 & m & Hg0 & Hp0 & Hgj0 & Hz & Hm & E & _). rewrite Hg in Hg0. injection Hg0 as <-.
    rewrite Hgj in Hgj0. injection Hgj0 as <-. rewrite rng_first in Hz by done. injection Hz as <-.
    rewrite at_pos_after in Hp0 by done. injection Hp0 as <- <-. apply ListSim.get_Some in Hg. unfold get. rewrite E. split.
    + eexists. split; [by exists m|]. by rewrite list_lookup_insert by (by eapply lookup_lt_Some).
    + intros k Hk. by rewrite list_lookup_insert_ne.
Qed.
Example list_insert_nodes_partial_ex : lobs ex_s 0 ([] ++ [(2,5);(1,3);(0,1)] ++ []) ∧
  (∃ s', run_op (LInsertNodes 0 (Head 0) 0 (Nod 2) Nul) ex_s = Ok (RIter (Nod 8)) s' ∧ to_list 0 s' = Ok [5;3;1;5;3;1] s') ∧
  (∃ s', run_op (LInsertNodes 0 (Nod 0) 0 (Nod 2) (Nod 0)) ex_s = Ok (RIter (Nod 7)) s' ∧ to_list 0 s' = Ok [5;3;1;5;3] s') ∧
  (∃ s', run_op (LInsertNodes 1 (Nod 3) 0 (Nod 1) Nul) ex_s = Ok (RIter (Nod 7)) s' ∧ to_list 1 s' = Ok [8;3;1;9] s').
Proof. split_and!; [apply ex_lobs|eexists; vm_compute; by repeat split..]. Qed.

(** If [pos] designates an element of the range, the loop of insert_after keeps
    appending copies in front of its own end iterator: it returns for no number
    of iterations, and stops only if an allocation or a copy throws. *)
Theorem list_insert_nodes_diverges {V} (s : st V) i (e z1 z2 c : list (nat * V)) x fuel :
  reach s → lobs s i (e ++ (z1 ++ x :: z2) ++ c) →
  match insert_loop fuel (Nod x.1) (SNodes (first_pos (z1 ++ [x])) (first_pos c)) s with
  | Ok _ _ => False
  | Throw _ => oracle s ≠ []
  | UB u => u = NoFuel
  end.
Proof.
  intros Hr Hl. start Hr Hl σ HR Hg. assert (Ho := ListSim.R_owned _ _ _ _ HR Hg).
  assert (Hz : ∃ n v z, z1 ++ [x] = (n, v) :: z).
  { destruct z1 as [|[n v] z1]; [destruct x as [n v]; by exists n, v, []|]. by exists n, v, (z1 ++ [x]). }
  destruct Hz as (n & v & z & Ez). rewrite Ez.
  assert (El : e ++ (z1 ++ x :: z2) ++ c = (e ++ (n, v) :: z) ++ z2 ++ c).
  { rewrite <- Ez, <- !app_assoc. by simpl. }
  rewrite El in Ho. assert (Ho2 := Ho). destruct Ho2 as [Hc Hnd].
  assert (HD := ListChain2.insert_inside_diverges fuel s i e (z2 ++ c) n v z (first_pos c) Ho).
  assert (Hlp : ListChain.lastpos (Head i) (e ++ (n, v) :: z) = Nod x.1).
  { rewrite <- Ez, app_assoc. by rewrite ListChain.lastpos_app. }
  rewrite Hlp in HD. apply HD. intros m Hm. destruct c as [|[k w] c]; [done|]. intros [= ->].
  destruct Hm as [Hm|Hm].
  - rewrite fmap_app, NoDup_app in Hnd. destruct Hnd as (_ & Hnd & _). apply (Hnd m Hm).
    rewrite fmap_app, elem_of_app. right. simpl. rewrite elem_of_cons. by left.
  - assert (m < length (nodes s)); [|lia]. eapply ListChain.owned_lt; [exact Ho|].
    rewrite !fmap_app, !elem_of_app. right. right. simpl. rewrite elem_of_cons. by left.
Qed.
Example list_insert_nodes_diverges_ex : lobs ex_s 0 ([(2,5)] ++ ([] ++ (1,3) :: [(0,1)]) ++ []) ∧
  insert_loop 40 (Nod 1) (SNodes (Nod 1) Nul) ex_s = UB NoFuel ∧
  match insert_loop 40 (Nod 1) (SNodes (Nod 1) Nul) (ex_run (replicate 20 false ++ [true])) with
  | Throw s' => to_list 0 s' = Ok [5;3;3;3;3;3;3;3;3;3;3;3;1] s' | _ => False end.
Proof. split_and!; [apply ex_lobs|vm_compute; reflexivity|vm_compute; reflexivity]. Qed.
(** So l.insert_after(l.begin(), l.begin(), l.end()) never inserts the copies. *)
Theorem list_insert_nodes_refuted : ∃ (s : st nat) i p q (xs : list (nat * nat)),
  reach s ∧ lobs s i xs ∧ p ∈ Nod <$> xs.*1 ∧ q = first_pos xs ∧
  ∀ fuel, insert_loop fuel p (SNodes q Nul) s = UB NoFuel.
Proof.
  exists ex_s, 0, (Nod 2), (Nod 2), [(2,5);(1,3);(0,1)]. split_and!; [apply ex_reach|apply ex_lobs| |done|].
  - simpl. rewrite elem_of_cons. by left.
  - intros fuel. assert (H := list_insert_nodes_diverges ex_s 0 [] [] [(1,3);(0,1)] [] (2,5) fuel
                             (proj1 ex_reach) (proj1 ex_lobs)).
    cbn [fst app first_pos] in H. revert H.
    destruct (insert_loop fuel (Nod 2) (SNodes (Nod 2) Nul) ex_s) as [r s'|s'|u]; [done| |by intros ->].
    intros H. exfalso. apply H. vm_compute. reflexivity.
Qed.

Definition list_theorems :=
  (@list_history, @list_history_straight, @list_step, @list_reach_view, @list_iterators, @list_deref, @list_reverse,
   @list_assign, @list_copy_assign, @list_self_assign, @list_erase_range, @list_erase_after, @list_pop_front,
   @list_clear, @list_nodes_owned, @list_no_leak, @list_insert_after, @list_push_front, @list_insert_range,
   @list_ctor_throw_partial, @list_ctor_throw_refuted, @list_move_construct, @list_move_assign, @list_self_move,
   @list_insert_own, @list_assign_nodes, @list_insert_nodes_partial, @list_insert_nodes_diverges,
   @list_insert_nodes_refuted).
Print Assumptions list_theorems.
