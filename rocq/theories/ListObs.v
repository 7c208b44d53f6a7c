(** LinkedList: from the representation relation to observations. *)
From stdpp Require Import list.
From Coq Require Import Lia.
From Verif Require Import Base Client ListModel ListSpec ListRun ListPrim ListChain ListChain2 ListSim ListHistory ListObsSpec.

Section obs.
Context {V : Type}.
Implicit Types (s : st V) (n m i j : nat) (p q : pos) (xs ys a b c : list (nat * V)) (σ : ast V).

Lemma allocated_val s n : allocated s n ↔ valof s n ≠ None.
Proof.
  unfold allocated, valof. destruct (nodes s !! n) as [[nd|]|]; split; try done; eauto.
  - by intros [? ?].
  - by intros [? ?].
Qed.
Lemma owned_lobs s i xs : owned s i xs → lobs s i xs.
Proof.
  intros Ho. split_and!; [by apply to_list_eq| |].
  - destruct Ho as [Hc _]. unfold begin_. rewrite (get_next_eq _ _ _ (chain_next _ _ _ _ Hc)). by rewrite first_pos_spec.
  - destruct Ho as [Hc _]. intros a x b ->. apply chain_app in Hc as [_ (_ & Hv & Hc)].
    rewrite (deref_eq _ _ _ Hv). split; [done|]. by rewrite (get_next_eq _ _ _ (chain_next _ _ _ _ Hc)), first_pos_spec.
Qed.
Lemma lobs_seg s xs ys : seg s ys Nul → first_pos xs = dest ys Nul →
  (∀ a x b, xs = a ++ x :: b → deref (Nod x.1) s = Ok x.2 s ∧ get_next (Nod x.1) s = Ok (first_pos b) s) →
  xs = ys.
Proof.
  revert ys. induction xs as [|[n v] xs IH]; intros ys Hs Hf Hx.
  - by destruct ys.
  - destruct ys as [|[m w] ys]; [done|]. simpl in Hf. injection Hf as ->. destruct Hs as [Hv Hc]. simpl in Hv, Hc.
    destruct (Hx [] (m, v) xs eq_refl) as [Hd Hn]. cbn [fst snd] in Hd, Hn.
    rewrite (deref_eq _ _ _ Hv) in Hd. injection Hd as ->.
    rewrite (get_next_eq _ _ _ (chain_next _ _ _ _ Hc)) in Hn. injection Hn as Hn.
    f_equal. apply IH; [by eapply chain_seg|done|]. intros a x b ->. by apply (Hx ((m, v) :: a)).
Qed.
Lemma lobs_unique s i xs ys : owned s i ys → lobs s i xs → xs = ys.
Proof.
  intros [Hc _] (_ & Hb & Hx). eapply lobs_seg; [by eapply chain_seg| |done].
  unfold begin_ in Hb. rewrite (get_next_eq _ _ _ (chain_next _ _ _ _ Hc)) in Hb. congruence.
Qed.
Lemma nextof_begin s i : nextof s (Head i) = None ↔ begin_ i s = UB NoObject.
Proof. unfold begin_. simpl. destruct (heads s !! i) as [[?|]|]; done. Qed.

Lemma R_lobs s σ i xs : R s σ → lobs s i xs ↔ get σ i = Some xs.
Proof.
  intros HR. split.
  - intros Hl. destruct (get σ i) as [ys|] eqn:Hg.
    + f_equal. symmetry. eapply lobs_unique; [by eapply R_owned|done].
    + exfalso. destruct Hl as (_ & Hb & _). assert (Hn : nextof s (Head i) = None).
      { destruct HR as [w H]. unfold get in Hg. destruct (ls σ !! i) as [[?|]|] eqn:E; [done| |].
        - by apply (rp_dead _ _ _ H).
        - apply nextof_head_ge. rewrite (rp_len _ _ _ H). by apply lookup_ge_None. }
      apply nextof_begin in Hn. congruence.
  - intros Hg. apply owned_lobs. by eapply R_owned.
Qed.

Lemma R_view s σ : R s σ → view s σ.
Proof.
  intros HR. assert (HR2 := HR). destruct HR2 as [w H].
  assert (Hin : ∀ n, in_lists σ n ↔ ∃ i, w n = Some (Some i)).
  { intros n. split.
    - intros (i & xs & Hg%get_Some & Hn). exists i. by apply (rp_w _ _ _ H i xs n Hg).
    - intros (i & Hw). destruct (rp_wi _ _ _ H n i Hw) as (xs & Hg). exists i, xs. split; [by apply get_Some|].
      by apply (rp_w _ _ _ H i xs n Hg). }
  constructor.
  - apply (rp_len _ _ _ H).
  - intros i xs Hg. by eapply R_lobs.
  - intros i Hi. apply nextof_begin. by apply (rp_dead _ _ _ H).
  - apply (rp_nodup _ _ _ H).
  - intros n. rewrite allocated_val, Hin, (rp_live _ _ _ H), (rp_lost _ _ _ H).
    destruct (w n) as [[i|]|]; split; eauto; try done.
    intros [(i & ?)|?]; done.
  - intros n (i & Hw)%Hin Hl%(rp_lost _ _ _ H). congruence.
  - intros i xs Hg%get_Some. by destruct (rp_own _ _ _ H i xs Hg).
  - intros i j xs ys n Hij Hi Hj Hn Hn2. eapply (R_disjoint s σ i j); eauto.
  - apply (rp_fresh _ _ _ H).
  - apply (rp_leak _ _ _ H).
Qed.

Lemma ls_get σ σ' : length (ls σ) = length (ls σ') → (∀ i xs, get σ i = Some xs ↔ get σ' i = Some xs) → ls σ = ls σ'.
Proof.
  intros Hl Hg. apply list_eq. intros i. destruct (decide (i < length (ls σ))) as [Hi|Hi].
  - destruct (lookup_lt_is_Some_2 (ls σ) i Hi) as [x Hx].
    destruct (lookup_lt_is_Some_2 (ls σ') i ltac:(lia)) as [y Hy]. rewrite Hx, Hy.
    destruct x as [xs|].
    + apply get_Some, Hg, get_Some in Hx. congruence.
    + destruct y as [ys|]; [|done]. apply get_Some, Hg, get_Some in Hy. congruence.
  - rewrite !lookup_ge_None_2; [done|lia|lia].
Qed.
Lemma view_R s σ σ0 : R s σ0 → view s σ → R s σ.
Proof.
  intros HR Hv. assert (Hv0 := R_view _ _ HR).
  assert (Hls : ls σ = ls σ0).
  { apply ls_get.
    - by rewrite <- (vw_len _ _ Hv), <- (vw_len _ _ Hv0).
    - intros i xs. split; intros Hg.
      + apply (R_lobs s σ0 i xs HR). by apply (vw_list _ _ Hv).
      + assert (Hl := vw_list _ _ Hv0 _ _ Hg). destruct (get σ i) as [ys|] eqn:Hg2.
        * f_equal. assert (Hl2 := vw_list _ _ Hv _ _ Hg2). eapply lobs_unique; [by eapply R_owned|done].
        * exfalso. assert (Hlt : i < length (ls σ)).
          { rewrite <- (vw_len _ _ Hv), (vw_len _ _ Hv0). apply get_Some in Hg. by eapply lookup_lt_Some. }
          destruct (lookup_lt_is_Some_2 _ _ Hlt) as [[ys|] Hx].
          -- apply get_Some in Hx. congruence.
          -- apply (vw_dead _ _ Hv) in Hx. destruct Hl as (_ & Hb & _). congruence. }
  assert (Hin : ∀ n, in_lists σ n ↔ in_lists σ0 n).
  { intros n. unfold in_lists, get. by rewrite Hls. }
  assert (Hlo : ∀ n, n ∈ lost σ ↔ n ∈ lost σ0).
  { intros n. split; intros Hn.
    - assert (Ha : allocated s n) by (apply (vw_nodes _ _ Hv); by right).
      apply (vw_nodes _ _ Hv0) in Ha as [Ha|Ha]; [|done]. exfalso. apply Hin in Ha. by apply (vw_lost _ _ Hv n).
    - assert (Ha : allocated s n) by (apply (vw_nodes _ _ Hv0); by right).
      apply (vw_nodes _ _ Hv) in Ha as [Ha|Ha]; [|done]. exfalso. apply Hin in Ha. by apply (vw_lost _ _ Hv0 n). }
  destruct HR as [w H]. exists w. destruct H as [h1 h2 h3 h4 h5 h6 h7 h8 h9 h10].
  constructor; rewrite ?Hls; auto.
  - intros n. by rewrite Hlo.
  - apply (vw_nodup _ _ Hv).
  - apply (vw_fresh _ _ Hv).
Qed.

Lemma reach_R s : reach s → ∃ σ, R s σ.
Proof.
  induction 1 as [orc|s σ o σ1 r s' _ [σ0 HR] Hv Hst Hrun|s σ o σ1 r s' _ [σ0 HR] Hv Hst Hrun].
  - eexists. apply R_init.
  - assert (HR1 := view_R _ _ _ HR Hv). assert (Hp := list_simulates o s σ σ1 r HR1 Hst).
    rewrite Hrun in Hp. simpl in Hp. destruct Hp as (_ & ? & _). eauto.
  - assert (HR1 := view_R _ _ _ HR Hv). assert (Hp := list_simulates o s σ σ1 r HR1 Hst).
    rewrite Hrun in Hp. simpl in Hp. destruct Hp as (_ & σ' & _ & ?). eauto.
Qed.
Lemma reach_view s : reach s → ∃ σ, view s σ ∧ R s σ.
Proof. intros [σ HR]%reach_R. exists σ. split; [by apply R_view|done]. Qed.

(** One call. *)
Lemma step_R s σ o σ1 r : reach s → R s σ → spec_step o σ = Some (σ1, r) →
  match run_op o s with
  | Ok r' s' => r' = r ∧ R s' σ1 ∧ reach s' ∧ (oracle s = [] → oracle s' = [])
  | Throw s' => oracle s ≠ [] ∧ (∃ σ', spec_throw o σ σ' ∧ R s' σ') ∧ reach s'
  | UB _ => False
  end.
Proof.
  intros Hr HR Hst. assert (Hp := list_simulates o s σ σ1 r HR Hst). assert (Hv := R_view _ _ HR).
  destruct (run_op o s) as [r' s'|s'|u] eqn:E; simpl in Hp; [| |done].
  - destruct Hp as (-> & HR' & Hc). split_and!; [done|done|by eapply reach_ret|done].
  - destruct Hp as (Hnc & σ' & Ht & HR'). split_and!; [done|eauto|by eapply reach_exn].
Qed.
Lemma step_view s σ o σ1 r : reach s → view s σ → spec_step o σ = Some (σ1, r) →
  match run_op o s with
  | Ok r' s' => r' = r ∧ view s' σ1 ∧ reach s'
  | Throw s' => oracle s ≠ [] ∧ (∃ σ', spec_throw o σ σ' ∧ view s' σ') ∧ reach s'
  | UB _ => False
  end.
Proof.
  intros Hr Hv Hst. destruct (reach_R _ Hr) as [σ0 HR0]. assert (HR := view_R _ _ _ HR0 Hv).
  assert (Hp := step_R s σ o σ1 r Hr HR Hst). destruct (run_op o s) as [r' s'|s'|u]; [| |done].
  - destruct Hp as (? & ? & ? & _). eauto using R_view.
  - destruct Hp as (? & (σ' & ? & ?) & ?). split_and!; eauto using R_view.
Qed.

(** Calls on one list. *)
Lemma call_intro s σ o i r σ1 xs' (P : list (nat * V) → Prop) :
  reach s → R s σ → spec_step o σ = Some (σ1, r) → get σ1 i = Some xs' →
  (∀ j, j ≠ i → get σ1 j = get σ j) →
  (∀ σ', spec_throw o σ σ' → (∃ xs'', P xs'' ∧ get σ' i = Some xs'') ∧ ∀ j, j ≠ i → get σ' j = get σ j) →
  call o s i r xs' P.
Proof.
  intros Hr HR Hst Hg Hoth Hex. unfold call. assert (Hp := step_R s σ o σ1 r Hr HR Hst).
  destruct (run_op o s) as [r' s'|s'|u]; [| |done].
  - destruct Hp as (-> & HR' & Hr' & _). split_and!; [done|by eapply R_lobs| |done].
    intros j xs Hj Hl. apply (R_lobs s' σ1 j xs HR'). rewrite Hoth by done. by apply (R_lobs s σ j xs HR).
  - destruct Hp as (Hnc & (σ' & Ht & HR') & Hr'). destruct (Hex _ Ht) as ((xs'' & HP & Hg'') & Ho).
    split_and!; [done| | |done].
    + exists xs''. split; [done|]. by eapply R_lobs.
    + intros j xs Hj Hl. apply (R_lobs s' σ' j xs HR'). rewrite Ho by done. by apply (R_lobs s σ j xs HR).
Qed.
Lemma in_lists_alloc s σ n : R s σ → allocated s n ↔ in_lists σ n ∨ n ∈ lost σ.
Proof. intros HR. apply (vw_nodes _ _ (R_view _ _ HR)). Qed.

Lemma get_put_eq σ i xs ys : get σ i = Some xs → get (put σ i ys) i = Some ys.
Proof. apply get_put. Qed.

(** Calls that only drop nodes of one list. *)
Lemma quiet_call_intro s σ o i r xs xs' fr :
  reach s → R s σ → get σ i = Some xs → spec_step o σ = Some (put σ i xs', r) →
  (∀ σ', ¬ spec_throw o σ σ') → (∀ n, n ∈ xs'.*1 ↔ n ∈ xs.*1 ∧ n ∉ fr) → (∀ n, n ∈ fr → n ∈ xs.*1) →
  quiet_call o s i r xs' fr.
Proof.
  intros Hr HR Hg Hst Hnt Hids Hfr. assert (Hp := step_R s σ o _ r Hr HR Hst).
  destruct (run_op o s) as [r' s'|s'|u] eqn:E; [| |done].
  2:{ destruct Hp as (_ & (σ' & Ht & _) & _). by apply Hnt in Ht. }
  destruct Hp as (-> & HR' & Hr' & _). exists s'. split; [done|].
  assert (Hg' := get_put σ i xs xs' Hg).
  split; [by eapply R_lobs|]. split.
  { intros j ys Hj Hl. apply (R_lobs s' _ j ys HR'). rewrite get_put_ne by done. by apply (R_lobs s σ j ys HR). }
  split; [done|]. split.
  { rewrite <- (R_fresh _ _ HR), <- (R_fresh _ _ HR'). done. }
  intros n. rewrite (in_lists_alloc s' _ n HR'), (in_lists_alloc s σ n HR). simpl. split.
  - intros [(j & ys & Hgj & Hn)|Hn].
    + destruct (decide (i = j)) as [<-|Hne].
      * rewrite Hg' in Hgj. injection Hgj as <-. apply Hids in Hn as [Hn Hf]. split; [|done]. left. by exists i, xs.
      * rewrite get_put_ne in Hgj by done. split; [left; by exists j, ys|].
        intros Hf%Hfr. by apply (R_disjoint s σ i j xs ys n HR Hg Hgj Hne Hn).
    + split; [by right|]. intros Hf%Hfr. apply (vw_lost _ _ (R_view _ _ HR) n); [|done]. by exists i, xs.
  - intros [[(j & ys & Hgj & Hn)|Hn] Hf]; [|by right].
    left. destruct (decide (i = j)) as [<-|Hne].
    + rewrite Hg in Hgj. injection Hgj as <-. exists i, xs'. split; [done|]. by apply Hids.
    + exists j, ys. by rewrite get_put_ne.
Qed.
End obs.
