(** LinkedList: every call simulates its specification. *)
From stdpp Require Import list.
From Coq Require Import Lia.
From Verif Require Import Base Client ListModel ListSpec ListRun ListPrim ListChain ListChain2 ListSim.

Section hist.
Context {V : Type}.
Implicit Types (s : st V) (n m i j : nat) (p q : pos) (xs ys a b c : list (nat * V)) (σ : ast V).
Local Arguments new_nodes : simpl never.
Notation SIM o := (∀ s σ σ1 r, R s σ → spec_step o σ = Some (σ1, r) →
  post (run_op o s)
    (λ r' s', r' = r ∧ R s' σ1 ∧ (calm s → calm s'))
    (λ s', ¬ calm s ∧ ∃ σ', spec_throw o σ σ' ∧ R s' σ')).

Lemma spec_mk σ i xs k : mkA (<[i := Some xs]> (ls σ)) (k + fresh_id σ) (lost σ) = bump k (put σ i xs).
Proof. done. Qed.

(** Updates of one list. *)
Lemma R_step s s' σ i xs xs' k : R s σ → get σ i = Some xs → step_ok s s' i xs xs' →
  length (nodes s') = k + length (nodes s) → R s' (bump k (put σ i xs')).
Proof.
  intros HR Hg Hok Hl. assert (H := R_upd _ _ _ _ _ _ HR Hg Hok). rewrite Hl, <- (R_fresh _ _ HR) in H. done.
Qed.
Lemma R_only s s' σ i xs xs' : R s σ → get σ i = Some xs → step_ok s s' i xs xs' →
  ∃ σ', only_list i xs' σ σ' ∧ R s' σ'.
Proof.
  intros HR Hg Hok. eexists; split; [|by eapply R_upd]. unfold only_list. simpl. split_and!; [done|done|].
  rewrite (R_fresh _ _ HR). apply (so_len _ _ _ _ _ Hok).
Qed.
Lemma R_samelists s s' σ : R s σ → quiet s s' → ∃ σ', same_lists σ σ' ∧ R s' σ'.
Proof.
  intros HR Hq. eexists; split; [|by eapply R_quiet]. unfold same_lists. simpl. split_and!; [done|done|].
  rewrite (R_fresh _ _ HR). apply (qt_len _ _ Hq).
Qed.
Lemma bump0 σ : bump 0 σ = σ.
Proof. by destruct σ. Qed.

Lemma heads_len s σ : R s σ → length (heads s) = length (ls σ).
Proof. intros [w H]. apply (rp_len _ _ _ H). Qed.

(** Constructors. *)
Lemma ctor_sim (body : nat → ML unit) s σ vs n :
  R s σ →
  (∀ s0, (calm s ↔ calm s0) → nodes s0 = nodes s → R s0 (add σ []) → owned s0 (length (ls σ)) [] →
     (∀ p, p ≠ Head (length (ls σ)) → nextof s0 p = nextof s p) → (∀ n, valof s0 n = valof s n) →
     post (body (length (ls σ)) s0)
       (λ _ s', length (nodes s') = length vs + length (nodes s) ∧
          step_ok s0 s' (length (ls σ)) [] (new_nodes (length (nodes s)) vs))
       (λ s', ¬ calm s0 ∧ ∃ m, m ≤ n ∧ ∃ vs', length vs' = m ∧
          step_ok s0 s' (length (ls σ)) [] (new_nodes (length (nodes s)) vs'))) →
  post (new_list body s)
    (λ i s', i = length (ls σ) ∧ R s' (bump (length vs) (add σ (new_nodes (fresh_id σ) vs))) ∧ (calm s → calm s'))
    (λ s', ¬ calm s ∧ ∃ σ', ctor_throw n σ σ' ∧ R s' σ').
Proof.
  intros HR Hb. unfold new_list, bind at 1, gets. rewrite (heads_len _ _ HR).
  set (s0 := set_heads (heads s ++ [Some Nul]) s). unfold bind at 1, modify. fold s0.
  assert (HR0 : R s0 (add σ [])) by by apply R_push.
  assert (Hg0 : get (add σ []) (length (ls σ)) = Some []).
  { apply get_Some. simpl. by apply list_lookup_middle. }
  apply post_bind. apply post_on_throw. 
  eapply post_conseq; [apply Hb; [done|done|done| | |]| |].
  - by eapply R_owned.
  - intros p Hp. apply nextof_push. by rewrite (heads_len _ _ HR).
  - done.
  - intros [] s1 (Hl1 & Hok). simpl. split; [done|].
    assert (HR1 := R_step s0 s1 _ _ _ _ (length vs) HR0 Hg0 Hok Hl1).
    rewrite (R_fresh _ _ HR). split; [|intros Hc; by apply (so_calm _ _ _ _ _ Hok)].
    assert (Heq : bump (length vs) (put (add σ []) (length (ls σ)) (new_nodes (length (nodes s)) vs)) =
                  bump (length vs) (add σ (new_nodes (length (nodes s)) vs))).
    { unfold put, add, bump. simpl. f_equal.
      rewrite insert_app_r_alt by lia. by rewrite Nat.sub_diag. }
    by rewrite <- Heq.
  - intros s1 (Hnc & m & Hm & vs' & Hvs & Hok). simpl. split; [done|].
    destruct (R_only s0 s1 _ _ _ _ HR0 Hg0 Hok) as (σ1 & (Hls & Hlo & Hfr) & HR1).
    simpl in Hls, Hlo, Hfr. rewrite insert_app_r_alt, Nat.sub_diag in Hls by lia. simpl in Hls.
    assert (Hf1 := R_fresh _ _ HR1).
    destruct σ1 as [l1 f1 lo1]. simpl in Hls, Hlo, Hfr, Hf1. subst l1 lo1.
    apply R_abandon in HR1. eexists; split; [|exact HR1].
    exists m. split; [done|]. simpl. split; [done|].
    assert (Hfst : (new_nodes (length (nodes s)) vs').*1 = seq (fresh_id σ) m).
    { unfold new_nodes. rewrite fst_zip by by rewrite seq_length. by rewrite Hvs, (R_fresh _ _ HR). }
    split; [by rewrite Hfst|].
    destruct (decide (m = 0)) as [->|Hm0]; [lia|].
    assert (Hin : fresh_id σ + (m - 1) < length (nodes s1)); [|lia].
    eapply owned_lt; [apply (so_owned _ _ _ _ _ Hok)|]. rewrite Hfst. apply elem_of_list_In, in_seq. lia.
Qed.

Lemma sim_ctor_fill n v : SIM (LFill n v).
Proof.
  intros s σ σ1 r HR [= <- <-]. cbn [run_op spec_throw]. apply post_bind. unfold ctor_fill.
  eapply post_conseq; [apply (ctor_sim _ s σ (replicate n v) n HR)| |done].
  - intros s0 Hcm Hn0 HR0 Ho0 _ _. assert (H := fill_loop_post n s0 (length (ls σ)) [] v Ho0).
    cbn [lastpos app] in H. cbv zeta in H. rewrite Hn0 in H. rewrite replicate_length.
    eapply post_conseq; [exact H|done|]. intros s1 (Hnc & m & Hm & Hok). split; [done|].
    exists m. split; [lia|]. exists (replicate m v). by rewrite replicate_length.
  - intros i s1 (-> & HR1 & Hc). rewrite replicate_length in HR1. done.
Qed.
Lemma sim_ctor_range vs : SIM (LRange vs).
Proof.
  intros s σ σ1 r HR [= <- <-]. cbn [run_op spec_throw]. apply post_bind. unfold ctor_range.
  eapply post_conseq; [apply (ctor_sim _ s σ vs (length vs) HR)| |done].
  - intros s0 Hcm Hn0 HR0 Ho0 _ _. unfold range_initialize, bind, gets.
    assert (H := range_loop_post (src_fuel (SVals vs) s0) s0 (length (ls σ)) [] (SVals vs) vs Ho0 eq_refl ltac:(simpl; lia)).
    cbn [lastpos app] in H. cbv zeta in H. rewrite Hn0 in H.
    eapply post_conseq; [exact H|done|]. intros s1 (Hnc & m & Hm & Hok). split; [done|].
    exists m. split; [lia|]. exists (take m vs). split; [rewrite take_length; lia|done].
  - intros i s1 (-> & HR1 & Hc). done.
Qed.
Lemma sim_ctor_copy j : SIM (LCopy j).
Proof.
  intros s σ σ1 r HR. cbn [spec_step]. destruct (get σ j) as [xs|] eqn:Hg; [|done]. intros [= <- <-].
  cbn [run_op spec_throw]. unfold ctor_copy. apply post_bind.
  assert (Ho := R_owned _ _ _ _ HR Hg). assert (Ho2 := Ho). destruct Ho2 as [Hc Hnd].
  unfold bind at 1, begin_. rewrite (get_next_eq _ _ _ (chain_next _ _ _ _ Hc)). unfold ctor_range.
  assert (Hlj : j < length (ls σ)) by (apply get_Some in Hg; by eapply lookup_lt_Some).
  eapply post_conseq; [apply (ctor_sim _ s σ (vals xs) (length xs) HR)| |].
  - intros s0 Hcm Hn0 HR0 Ho0 Hnx Hv0. unfold range_initialize, bind, gets.
    assert (Hsrc : srcv s0 [] (SNodes (dest xs Nul) end_) (vals xs)).
    { exists xs. split_and!; [done|done| |done|done|by intros ? _ ?%elem_of_nil].
      eapply seg_frame; [by eapply chain_seg|]. intros n _. split; [by apply Hnx|apply Hv0]. }
    assert (H := range_loop_post _ s0 (length (ls σ)) [] _ _ Ho0 Hsrc (srcv_fuel _ _ _ _ Hsrc)).
    cbn [lastpos app] in H. cbv zeta in H. rewrite Hn0 in H.
    eapply post_conseq; [exact H|done|]. intros s1 (Hnc & m & Hm & Hok). split; [done|].
    unfold vals in Hm. rewrite fmap_length in Hm.
    exists m. split; [lia|]. exists (take m (vals xs)). split; [|done].
    unfold vals. rewrite take_length, fmap_length. lia.
  - intros i s1 (-> & HR1 & Hcm). unfold vals in HR1 at 1. rewrite fmap_length in HR1. done.
  - intros s1 (Hnc & σ' & Ht & HR1). split; [done|]. exists σ'. split; [|done]. by exists xs.
Qed.
Lemma sim_range_nodes j f l : SIM (LRangeNodes j f l).
Proof.
  intros s σ σ1 r HR. cbn [spec_step]. destruct (get σ j) as [xs|] eqn:Hg; [|done]. cbn [mbind option_bind].
  destruct (rng f l xs) as [zs|] eqn:Hr; [|done]. intros [= <- <-].
  cbn [run_op spec_throw]. unfold ctor_range. apply post_bind.
  destruct (rng_seg s j f l xs zs) as (? & Hs & ? & ? & _); [by eapply R_owned|done|].
  assert (El : length (vals zs) = length zs) by apply fmap_length.
  eapply post_conseq; [apply (ctor_sim _ s σ (vals zs) (length zs) HR)| |].
  - intros s0 Hcm Hn0 HR0 Ho0 Hnx Hv0. unfold range_initialize, bind, gets.
    assert (Hsrc : srcv s0 [] (SNodes f l) (vals zs)).
    { exists zs. split_and!; [done|done| |done|done|by intros ? _ ?%elem_of_nil].
      eapply seg_frame; [exact Hs|]. intros n _. split; [by apply Hnx|apply Hv0]. }
    assert (H2 := range_loop_post _ s0 (length (ls σ)) [] _ _ Ho0 Hsrc (srcv_fuel _ _ _ _ Hsrc)).
    cbn [lastpos app] in H2. cbv zeta in H2. rewrite Hn0 in H2.
    eapply post_conseq; [exact H2|done|]. intros s1 (Hnc & m & Hm & Hok). split; [done|].
    rewrite El in Hm. exists m. split; [lia|]. exists (take m (vals zs)). split; [|done].
    rewrite take_length, El. lia.
  - intros i s1 (-> & HR1 & Hcm). rewrite El in HR1. done.
  - intros s1 (Hnc & σ' & Ht & HR1). split; [done|]. exists σ'. split; [|done]. by exists xs, zs.
Qed.
Lemma sim_default : SIM LDefault.
Proof.
  intros s σ σ1 r HR [= <- <-]. cbn [run_op spec_throw]. unfold new_list, on_throw, bind, gets, modify, ret. simpl.
  rewrite (heads_len _ _ HR). split; [done|]. split; [|done]. by apply R_push.
Qed.
Lemma sim_ctor_move j : SIM (LMove j).
Proof.
  intros s σ σ1 r HR. cbn [spec_step]. destruct (get σ j) as [ys|] eqn:Hg; [|done]. intros [= <- <-].
  cbn [run_op spec_throw]. unfold ctor_move, new_list, on_throw. unfold bind at 2, gets. unfold bind at 2, modify.
  set (s0 := set_heads (heads s ++ [Some Nul]) s).
  assert (HR0 : R s0 (add σ [])) by by apply R_push.
  assert (Hlj : j < length (ls σ)) by (apply get_Some in Hg; by eapply lookup_lt_Some).
  assert (Hg0 : get (add σ []) j = Some ys).
  { apply get_Some in Hg. apply get_Some. simpl. by rewrite lookup_app_l. }
  assert (Hgi : get (add σ []) (length (ls σ)) = Some []).
  { apply get_Some. simpl. by apply list_lookup_middle. }
  destruct (R_owned _ _ _ _ HR0 Hg0) as [Hc Hnd]. destruct (R_owned _ _ _ _ HR0 Hgi) as [Hci _].
  unfold bind. fold s0. rewrite (heads_len _ _ HR). rewrite (get_next_eq _ _ _ (chain_next _ _ _ _ Hc)).
  destruct (set_next_eff s0 (Head (length (ls σ))) (dest ys Nul) _ (chain_next _ _ _ _ Hci)) as (s1 & -> & He1).
  destruct (set_next_eff s1 (Head j) Nul (dest ys Nul)) as (s2 & -> & He2).
  { rewrite (ef_next _ _ _ _ _ He1). unfold upd_next. rewrite decide_False; [by apply chain_next in Hc|].
    intros [= ->]. lia. }
  simpl. split; [done|]. split.
  - assert (HR2 : R s2 (put (put (add σ []) (length (ls σ)) ys) j [])).
    { eapply R_transfer; [exact HR0|lia|done|done|]. constructor.
      - intros p. rewrite (ef_next _ _ _ _ _ He2). unfold upd_next at 1 2. case_decide; [done|].
        by rewrite (ef_next _ _ _ _ _ He1).
      - intros n. by rewrite (ef_val _ _ _ _ _ He2), (ef_val _ _ _ _ _ He1).
      - by rewrite (ef_len _ _ _ _ _ He2), (ef_len _ _ _ _ _ He1).
      - by rewrite (ef_heads _ _ _ _ _ He2), (ef_heads _ _ _ _ _ He1).
      - by rewrite (ef_leak _ _ _ _ _ He2), (ef_leak _ _ _ _ _ He1).
      - intros Hcm. by apply (ef_calm _ _ _ _ _ He2), (ef_calm _ _ _ _ _ He1). }
    assert (Heq : put (put (add σ []) (length (ls σ)) ys) j [] = add (put σ j []) ys).
    { unfold put, add. simpl. f_equal. rewrite insert_app_r_alt by lia. rewrite Nat.sub_diag. simpl.
      by rewrite insert_app_l. }
    by rewrite <- Heq.
  - intros Hcm. by apply (ef_calm _ _ _ _ _ He2), (ef_calm _ _ _ _ _ He1).
Qed.

(** clear, destructor, move assignment. *)
Lemma clear_eq s σ i xs : R s σ → get σ i = Some xs →
  ∃ s', clear i s = Ok tt s' ∧ R s' (put σ i []) ∧ (calm s → calm s').
Proof.
  intros HR Hg. assert (Ho := R_owned _ _ _ _ HR Hg).
  destruct (erase_range_eq s i [] xs []) as (s' & E & Hl & Hok); [by rewrite app_nil_r|].
  cbn [lastpos dest app] in E. exists s'. split; [exact E|]. rewrite app_nil_r in Hok. simpl in Hok.
  split; [|apply (so_calm _ _ _ _ _ Hok)]. rewrite <- (bump0 (put σ i [])). by eapply R_step.
Qed.
Lemma get_put σ i xs ys : get σ i = Some xs → get (put σ i ys) i = Some ys.
Proof.
  intros Hg%get_Some. apply get_Some. simpl. rewrite list_lookup_insert; [done|]. by eapply lookup_lt_Some.
Qed.
Lemma get_put_ne σ i j ys : i ≠ j → get (put σ i ys) j = get σ j.
Proof. intros Hne. unfold get. simpl. by rewrite list_lookup_insert_ne. Qed.
Lemma sim_clear i : SIM (LClear i).
Proof.
  intros s σ σ1 r HR. cbn [spec_step]. destruct (get σ i) as [xs|] eqn:Hg; [|done]. intros [= <- <-].
  cbn [run_op]. destruct (clear_eq s σ i xs HR Hg) as (s' & E & HR' & Hc). unfold bind. rewrite E. done.
Qed.
Lemma sim_destroy i : SIM (LDestroy i).
Proof.
  intros s σ σ1 r HR. cbn [spec_step]. destruct (get σ i) as [xs|] eqn:Hg; [|done]. intros [= <- <-].
  cbn [run_op]. unfold destroy_list. destruct (clear_eq s σ i xs HR Hg) as (s' & E & HR' & Hc). unfold bind.
  rewrite E. simpl. split; [done|]. split; [|done].
  assert (HK := R_kill s' (put σ i []) i HR' (get_put _ _ _ _ Hg)). simpl in HK.
  rewrite list_insert_insert in HK. done.
Qed.
Lemma sim_assign_move i j : SIM (LAssignMove i j).
Proof.
  intros s σ σ1 r HR. cbn [spec_step]. destruct (get σ i) as [xs|] eqn:Hg; [|done]. cbn [mbind option_bind].
  destruct (get σ j) as [ys|] eqn:Hgj; [|done]. intros [= <- <-].
  cbn [run_op]. unfold assign_move. destruct (clear_eq s σ i xs HR Hg) as (s1 & E & HR1 & Hc1). unfold bind.
  rewrite E.
  assert (Hg1 := get_put σ i xs [] Hg). destruct (R_owned _ _ _ _ HR1 Hg1) as [Hci _].
  assert (Hni := chain_next _ _ _ _ Hci). simpl in Hni.
  assert (Hni' : nextof s1 (Head i) = Some Nul) by done.
  rewrite (get_next_eq _ _ _ Hni'). destruct (Nat.eqb_spec i j) as [<-|Hne].
  - rewrite (get_next_eq _ _ _ Hni').
    destruct (set_next_eff s1 (Head i) Nul _ Hni') as (s2 & -> & He2).
    destruct (set_next_eff s2 (Head i) Nul Nul) as (s3 & -> & He3).
    { rewrite (ef_next _ _ _ _ _ He2). unfold upd_next. by rewrite decide_True. }
    simpl. split; [done|].
    assert (Hq : quiet s1 s3).
    { constructor.
      - intros p. rewrite (ef_next _ _ _ _ _ He3). unfold upd_next. case_decide; [by subst|].
        rewrite (ef_next _ _ _ _ _ He2). unfold upd_next. by rewrite decide_False.
      - intros n. by rewrite (ef_val _ _ _ _ _ He3), (ef_val _ _ _ _ _ He2).
      - by rewrite (ef_len _ _ _ _ _ He3), (ef_len _ _ _ _ _ He2).
      - by rewrite (ef_heads _ _ _ _ _ He3), (ef_heads _ _ _ _ _ He2).
      - by rewrite (ef_leak _ _ _ _ _ He3), (ef_leak _ _ _ _ _ He2).
      - intros Hcm. by apply (ef_calm _ _ _ _ _ He3), (ef_calm _ _ _ _ _ He2). }
    split; [|intros Hcm; by apply (qt_calm _ _ Hq), Hc1].
    eapply R_same; [done|done|]. by rewrite (ef_len _ _ _ _ _ He3), (ef_len _ _ _ _ _ He2).
  - assert (Hgj1 : get (put σ i []) j = Some ys) by by rewrite get_put_ne.
    destruct (R_owned _ _ _ _ HR1 Hgj1) as [Hcj _].
    rewrite (get_next_eq _ _ _ (chain_next _ _ _ _ Hcj)).
    destruct (set_next_eff s1 (Head i) (dest ys Nul) _ Hni') as (s2 & -> & He2).
    destruct (set_next_eff s2 (Head j) Nul (dest ys Nul)) as (s3 & -> & He3).
    { rewrite (ef_next _ _ _ _ _ He2). unfold upd_next. rewrite decide_False by congruence. by apply chain_next in Hcj. }
    simpl. split; [done|]. split.
    + assert (HR3 : R s3 (put (put (put σ i []) i ys) j [])).
      { eapply R_transfer; [exact HR1|done|done|done|]. constructor.
        - intros p. rewrite (ef_next _ _ _ _ _ He3). unfold upd_next at 1 2. case_decide; [done|].
          by rewrite (ef_next _ _ _ _ _ He2).
        - intros n. by rewrite (ef_val _ _ _ _ _ He3), (ef_val _ _ _ _ _ He2).
        - by rewrite (ef_len _ _ _ _ _ He3), (ef_len _ _ _ _ _ He2).
        - by rewrite (ef_heads _ _ _ _ _ He3), (ef_heads _ _ _ _ _ He2).
        - by rewrite (ef_leak _ _ _ _ _ He3), (ef_leak _ _ _ _ _ He2).
        - intros Hcm. by apply (ef_calm _ _ _ _ _ He3), (ef_calm _ _ _ _ _ He2). }
      assert (Heq : put (put (put σ i []) i ys) j [] = put (put σ i ys) j []).
      { unfold put. simpl. by rewrite list_insert_insert. }
      by rewrite <- Heq.
    + intros Hcm. by apply (ef_calm _ _ _ _ _ He3), (ef_calm _ _ _ _ _ He2), Hc1.
Qed.

(** Insertion. *)
Lemma sim_emplace i p x v s σ xs a b : R s σ → get σ i = Some xs → at_pos i p xs = Some (a, b) → argv s x v →
  post (emplace_after p x s)
    (λ q s', q = Nod (fresh_id σ) ∧ R s' (bump 1 (put σ i (a ++ (fresh_id σ, v) :: b))) ∧ (calm s → calm s'))
    (λ s', ¬ calm s ∧ ∃ σ', same_lists σ σ' ∧ R s' σ').
Proof.
  intros HR Hg (-> & ->)%at_pos_spec Hx. assert (Ho := R_owned _ _ _ _ HR Hg).
  eapply post_conseq; [apply (emplace_after_post s i a b x v Ho Hx)| |].
  - intros q s' (-> & Hl & Hok & _). rewrite (R_fresh _ _ HR). split; [done|].
    split; [|apply (so_calm _ _ _ _ _ Hok)]. by eapply R_step.
  - intros s' [Hnc Hq]. split; [done|]. by eapply R_samelists.
Qed.
Lemma at_head i xs : at_pos i (Head i) xs = Some ([], xs).
Proof. simpl. by rewrite Nat.eqb_refl. Qed.
Lemma sim_push_front i v : SIM (LPushFront i v).
Proof.
  intros s σ σ1 r HR. cbn [spec_step]. destruct (get σ i) as [xs|] eqn:Hg; [|done]. intros [= <- <-].
  cbn [run_op spec_throw]. unfold push_front. apply post_bind, post_bind.
  eapply post_conseq; [apply (sim_emplace i (Head i) (LVal v) v s σ xs [] xs HR Hg (at_head _ _) eq_refl)| |done].
  by intros q s' (-> & HR' & Hc).
Qed.
Lemma sim_emplace_front i v : SIM (LEmplaceFront i v).
Proof.
  intros s σ σ1 r HR. cbn [spec_step]. destruct (get σ i) as [xs|] eqn:Hg; [|done]. intros [= <- <-].
  cbn [run_op spec_throw]. unfold emplace_front. apply post_bind.
  eapply post_conseq; [apply (sim_emplace i (Head i) (LVal v) v s σ xs [] xs HR Hg (at_head _ _) eq_refl)| |done].
  by intros q s' (-> & HR' & Hc).
Qed.
Lemma sim_insert_after i p v : SIM (LInsertAfter i p v).
Proof.
  intros s σ σ1 r HR. cbn [spec_step]. destruct (get σ i) as [xs|] eqn:Hg; [|done]. cbn [mbind option_bind].
  destruct (at_pos i p xs) as [[a b]|] eqn:Hp; [|done]. intros [= <- <-].
  cbn [run_op spec_throw]. apply post_bind.
  eapply post_conseq; [apply (sim_emplace i p (LVal v) v s σ xs a b HR Hg Hp eq_refl)| |done].
  by intros q s' (-> & HR' & Hc).
Qed.
Lemma sim_insert_elem i p j q : SIM (LInsertElem i p j q).
Proof.
  intros s σ σ1 r HR. cbn [spec_step]. destruct (get σ i) as [xs|] eqn:Hg; [|done]. cbn [mbind option_bind].
  destruct (at_pos i p xs) as [[a b]|] eqn:Hp; [|done]. cbn [mbind option_bind].
  destruct (get σ j) as [ys|] eqn:Hgj; [|done]. cbn [mbind option_bind].
  destruct (at_pos j q ys) as [[c d]|] eqn:Hq; [|done]. cbn [mbind option_bind].
  destruct (last c) as [y|] eqn:Hy; [|done]. intros [= <- <-].
  cbn [run_op spec_throw]. apply post_bind.
  assert (Hx : argv s (LRef q) y.2).
  { apply at_pos_spec in Hq as (-> & ->). apply last_snoc in Hy. exists y.1. rewrite Hy, lastpos_app. split; [done|].
    destruct (R_owned _ _ _ _ HR Hgj) as [Hc _]. eapply chain_val; [exact Hc|]. destruct y as [n w]. simpl.
    rewrite elem_of_app. left. rewrite Hy, elem_of_app. right. by rewrite elem_of_list_singleton. }
  eapply post_conseq; [apply (sim_emplace i p (LRef q) y.2 s σ xs a b HR Hg Hp Hx)| |done].
  by intros q' s' (-> & HR' & Hc).
Qed.
Lemma sim_insert_range i p vs : SIM (LInsertRange i p vs).
Proof.
  intros s σ σ1 r HR. cbn [spec_step]. destruct (get σ i) as [xs|] eqn:Hg; [|done]. cbn [mbind option_bind].
  destruct (at_pos i p xs) as [[a b]|] eqn:Hp; [|done]. intros [= <- <-].
  cbn [run_op spec_throw]. apply post_bind. unfold insert_range, bind, gets.
  assert (Hp2 := Hp). apply at_pos_spec in Hp2 as (-> & ->). assert (Ho := R_owned _ _ _ _ HR Hg).
  rewrite last_id_spec, <- lastpos_app. rewrite (R_fresh _ _ HR).
  eapply post_conseq; [apply (insert_loop_post (S (length vs)) s i a b (SVals vs) vs Ho eq_refl ltac:(simpl; lia))| |].
  - intros q s' (-> & Hl & Hok). simpl. split; [done|]. split; [|apply (so_calm _ _ _ _ _ Hok)]. by eapply R_step.
  - intros s' (Hnc & m & Hm & Hok). split; [done|].
    destruct (R_only _ _ _ _ _ _ HR Hg Hok) as (σ' & Ht & HR'). exists σ'. split; [|done].
    exists (a ++ b), a, b, m. done.
Qed.

Lemma sim_insert_nodes i p j f l : SIM (LInsertNodes i p j f l).
Proof.
  intros s σ σ1 r HR. cbn [spec_step]. destruct (get σ i) as [xs|] eqn:Hg; [|done]. cbn [mbind option_bind].
  destruct (at_pos i p xs) as [[a b]|] eqn:Hp; [|done]. cbn [mbind option_bind].
  destruct (get σ j) as [ys|] eqn:Hgj; [|done]. cbn [mbind option_bind].
  destruct (rng f l ys) as [zs|] eqn:Hr; [|done]. cbn [mbind option_bind].
  destruct (pos_in p zs) eqn:Hin; [done|]. intros [= <- <-].
  cbn [run_op spec_throw]. apply post_bind. unfold insert_range, bind, gets.
  assert (Hp2 := Hp). apply at_pos_spec in Hp2 as (-> & ->). assert (Ho := R_owned _ _ _ _ HR Hg).
  assert (El : length (vals zs) = length zs) by apply fmap_length.
  assert (Hx : srcp s (lastpos (Head i) a) (SNodes f l) (vals zs)).
  { destruct (rng_seg s j f l ys zs) as (? & ? & ? & ? & _); [by eapply R_owned|done|]. exists zs. split_and!; try done.
    intros n Hn E. assert (pos_in (lastpos (Head i) a) zs = true); [|congruence]. apply pos_in_spec. eauto. }
  rewrite last_id_spec, <- lastpos_app. rewrite (R_fresh _ _ HR).
  eapply post_conseq; [apply (insert_loop_post _ s i a b _ _ Ho Hx (srcp_fuel _ _ _ _ Hx))| |].
  - intros q s' (-> & Hl & Hok). simpl. split; [done|]. split; [|apply (so_calm _ _ _ _ _ Hok)].
    rewrite El in Hl. by eapply R_step.
  - intros s' (Hnc & m & Hm & Hok). split; [done|].
    destruct (R_only _ _ _ _ _ _ HR Hg Hok) as (σ' & Ht & HR'). exists σ'. split; [|done].
    rewrite El in Hm. by exists (a ++ b), a, b, ys, zs, m.
Qed.

(** Erasing. *)
Lemma sim_erase_after i p : SIM (LEraseAfter i p).
Proof.
  intros s σ σ1 r HR. cbn [spec_step]. destruct (get σ i) as [xs|] eqn:Hg; [|done]. cbn [mbind option_bind].
  destruct (at_pos i p xs) as [[a b]|] eqn:Hp; [|done]. cbn [mbind option_bind]. destruct b as [|y b]; [done|]. intros [= <- <-].
  apply at_pos_spec in Hp as (-> & ->). assert (Ho := R_owned _ _ _ _ HR Hg).
  destruct (erase_after_eq s i a y b Ho) as (s' & E & Hl & Hok). cbn [run_op]. unfold bind. rewrite E.
  simpl. split; [done|]. split; [|apply (so_calm _ _ _ _ _ Hok)]. rewrite <- (bump0 (put _ _ _)). by eapply R_step.
Qed.
Lemma sim_pop_front i : SIM (LPopFront i).
Proof.
  intros s σ σ1 r HR. cbn [spec_step]. destruct (get σ i) as [xs|] eqn:Hg; [|done]. cbn [mbind option_bind].
  simpl. destruct xs as [|y b]; [done|]. intros [= <- <-].
  assert (Ho := R_owned _ _ _ _ HR Hg).
  destruct (erase_after_eq s i [] y b Ho) as (s' & E & Hl & Hok). cbn [run_op]. unfold pop_front, bind.
  cbn [lastpos] in E. rewrite E.
  simpl. split; [done|]. split; [|apply (so_calm _ _ _ _ _ Hok)]. rewrite <- (bump0 (put _ _ _)). by eapply R_step.
Qed.
Lemma sim_erase_range i p q : SIM (LEraseRange i p q).
Proof.
  intros s σ σ1 r HR. cbn [spec_step]. destruct (get σ i) as [xs|] eqn:Hg; [|done]. cbn [mbind option_bind].
  destruct (at_pos i p xs) as [[a b]|] eqn:Hp; [|done]. cbn [mbind option_bind].
  destruct (until q b) as [[ys c]|] eqn:Hq; [|done]. cbn [mbind option_bind]. intros [= <- <-].
  apply at_pos_spec in Hp as (-> & ->). apply until_spec in Hq as (-> & ->). assert (Ho := R_owned _ _ _ _ HR Hg).
  destruct (erase_range_eq s i a ys c Ho) as (s' & E & Hl & Hok). cbn [run_op]. unfold bind. rewrite E.
  simpl. split; [done|]. split; [|apply (so_calm _ _ _ _ _ Hok)]. rewrite <- (bump0 (put _ _ _)). by eapply R_step.
Qed.
Lemma sim_reverse i : SIM (LReverse i).
Proof.
  intros s σ σ1 r HR. cbn [spec_step]. destruct (get σ i) as [xs|] eqn:Hg; [|done]. intros [= <- <-].
  assert (Ho := R_owned _ _ _ _ HR Hg).
  destruct (reverse_eq s i xs Ho) as (s' & E & Hl & Hok). cbn [run_op]. unfold bind. rewrite E.
  simpl. split; [done|]. split; [|apply (so_calm _ _ _ _ _ Hok)]. rewrite <- (bump0 (put _ _ _)). by eapply R_step.
Qed.

(** Assignment. *)
Lemma sim_assign_src i x vs s σ xs : R s σ → get σ i = Some xs → srcv s xs x vs →
  post (assign i x s)
    (λ _ s', R s' (bump (length vs - length xs) (put σ i (assigned xs (fresh_id σ) vs))) ∧ (calm s → calm s'))
    (λ s', ¬ calm s ∧ ∃ σ', assign_throw i vs σ σ' ∧ R s' σ').
Proof.
  intros HR Hg Hx. assert (Ho := R_owned _ _ _ _ HR Hg).
  eapply post_conseq; [apply (assign_post s i xs x vs Ho Hx)| |].
  - intros [] s' (Hl & Hok). rewrite (R_fresh _ _ HR). split; [|apply (so_calm _ _ _ _ _ Hok)]. by eapply R_step.
  - intros s' (Hnc & Hor). split; [done|]. destruct Hor as [(m & H1 & H2 & Hok)|(m & H1 & Hok)].
    + destruct (R_only _ _ _ _ _ _ HR Hg Hok) as (σ' & Ht & HR'). exists σ'. split; [|done].
      exists xs. split; [done|]. left. by exists m.
    + destruct (R_only _ _ _ _ _ _ HR Hg Hok) as (σ' & Ht & HR'). exists σ'. split; [|done].
      exists xs. split; [done|]. right. exists m. by rewrite (R_fresh _ _ HR).
Qed.
Lemma sim_assign i vs : SIM (LAssign i vs).
Proof.
  intros s σ σ1 r HR. cbn [spec_step]. destruct (get σ i) as [xs|] eqn:Hg; [|done]. intros [= <- <-].
  cbn [run_op spec_throw]. apply post_bind.
  eapply post_conseq; [apply (sim_assign_src i (SVals vs) vs s σ xs HR Hg eq_refl)| |done].
  by intros [] s' [? ?].
Qed.
Lemma overwrite_self xs k : assigned xs k (vals xs) = xs.
Proof.
  unfold assigned, overwrite, vals. rewrite drop_ge by by rewrite fmap_length.
  rewrite new_nodes_nil, app_nil_r. apply zip_fst_snd.
Qed.
Lemma put_same σ i xs : get σ i = Some xs → put σ i xs = σ.
Proof. intros Hg%get_Some. unfold put. rewrite list_insert_id by done. by destruct σ. Qed.
Lemma sim_assign_copy i j : SIM (LAssignCopy i j).
Proof.
  intros s σ σ1 r HR. cbn [spec_step]. destruct (get σ i) as [xs|] eqn:Hg; [|done]. cbn [mbind option_bind].
  destruct (get σ j) as [ys|] eqn:Hgj; [|done]. intros [= <- <-].
  cbn [run_op spec_throw]. apply post_bind. unfold assign_copy, bind at 1, begin_.
  destruct (R_owned _ _ _ _ HR Hgj) as [Hc Hnd].
  rewrite (get_next_eq _ _ _ (chain_next _ _ _ _ Hc)).
  destruct (decide (i = j)) as [<-|Hne].
  - rewrite Hg in Hgj. injection Hgj as <-. rewrite overwrite_self, Nat.sub_diag, (put_same σ i xs Hg), bump0.
    eapply post_conseq; [apply (assign_self_post s i xs); by eapply R_owned| |].
    + intros [] s' [Hq Hl]. simpl. split; [done|]. split; [|apply (qt_calm _ _ Hq)]. by eapply R_same.
    + intros s' (Hnc & Hxs & Hq). split; [done|]. destruct (R_samelists _ _ _ HR Hq) as (σ' & (Hls & Hlo & Hfr) & HR').
      exists σ'. split; [|done]. exists xs. split; [done|]. exists xs. split; [done|]. left. exists 0.
      assert (0 < length xs) by (destruct xs; [done|simpl; lia]).
      split; [done|]. split; [unfold vals; by rewrite fmap_length|]. unfold only_list.
      simpl. unfold overwrite. rewrite take_0, zip_with_nil_r, drop_0. simpl.
      apply get_Some in Hg. by rewrite list_insert_id.
  - assert (Hx : srcv s xs (SNodes (dest ys Nul) end_) (vals ys)).
    { exists ys. split_and!; [done|done|by eapply chain_seg|done|done|].
      intros n. by eapply R_disjoint. }
    eapply post_conseq; [apply (sim_assign_src i _ _ s σ xs HR Hg Hx)| |].
    + intros [] s' [HR' Hcm]. unfold vals in HR' at 1. rewrite fmap_length in HR'. done.
    + intros s' (Hnc & σ' & Ht & HR'). split; [done|]. exists σ'. split; [|done]. by exists ys.
Qed.

Lemma sim_assign_nodes i j f l : SIM (LAssignNodes i j f l).
Proof.
  intros s σ σ1 r HR. cbn [spec_step]. destruct (get σ i) as [xs|] eqn:Hg; [|done]. cbn [mbind option_bind].
  destruct (get σ j) as [ys|] eqn:Hgj; [|done]. cbn [mbind option_bind].
  destruct (rng f l ys) as [zs|] eqn:Hr; [|done]. intros [= <- <-].
  cbn [run_op spec_throw]. apply post_bind.
  assert (El : length (vals zs) = length zs) by apply fmap_length.
  destruct (decide (i = j)) as [<-|Hne].
  - rewrite Hg in Hgj. injection Hgj as <-. assert (Ho := R_owned _ _ _ _ HR Hg). assert (Hr2 := Hr).
    apply rng_spec in Hr2 as (e & c & -> & -> & ->).
    assert (Hle : length (vals zs) ≤ length (e ++ zs ++ c)) by (rewrite El, !app_length; lia).
    eapply post_conseq; [apply (assign_part_post s i e zs c Ho)| |].
    + intros [] s' (Hl & Hok). simpl. split; [done|]. split; [|apply (so_calm _ _ _ _ _ Hok)].
      unfold assigned. rewrite drop_ge by done. rewrite new_nodes_nil, app_nil_r.
      replace (length zs - length (e ++ zs ++ c)) with 0 by lia. by eapply R_step.
    + intros s' (Hnc & m & Hm & Hok). split; [done|].
      destruct (R_only _ _ _ _ _ _ HR Hg Hok) as (σ' & Ht & HR'). exists σ'. split; [|done].
      exists (e ++ zs ++ c), zs. split_and!; [done|done|]. exists (e ++ zs ++ c). split; [done|]. left. exists m.
      split_and!; [lia|lia|done].
  - destruct (rng_seg s j f l ys zs) as (? & Hs & ? & ? & Hin); [by eapply R_owned|done|].
    assert (Hx : srcv s xs (SNodes f l) (vals zs)).
    { exists zs. split_and!; try done. intros n Hn%Hin. by eapply R_disjoint. }
    eapply post_conseq; [apply (sim_assign_src i _ _ s σ xs HR Hg Hx)| |].
    + intros [] s' [HR' Hcm]. rewrite El in HR'. done.
    + intros s' (Hnc & σ' & Ht & HR'). split; [done|]. exists σ'. split; [|done]. by exists ys, zs.
Qed.

(** Element access. *)
Lemma sim_set i p v : SIM (LSet i p v).
Proof.
  intros s σ σ1 r HR. cbn [spec_step]. destruct (get σ i) as [xs|] eqn:Hg; [|done]. cbn [mbind option_bind].
  destruct (at_pos i p xs) as [[a b]|] eqn:Hp; [|done]. cbn [mbind option_bind].
  destruct (last a) as [[n w]|] eqn:Hy; [|done]. cbn [mbind option_bind fst snd]. intros [= <- <-].
  apply at_pos_spec in Hp as (-> & ->). assert (Ho := R_owned _ _ _ _ HR Hg).
  apply last_snoc in Hy. set (a' := take (length a - 1) a) in *. clearbody a'. subst a.
  rewrite lastpos_app. cbn [lastpos fst]. rewrite <- app_assoc in Ho, Hg. simpl in Ho, Hg.
  assert (Hv : valof s n = Some (Some w)).
  { destruct Ho as [Hc _]. eapply chain_val; [exact Hc|]. rewrite elem_of_app, elem_of_cons. auto. }
  apply post_bind. eapply post_conseq; [apply (assign_elem_post s n (LVal v) v w eq_refl Hv)| |].
  - intros [] s' He. assert (Hok := set_step s s' i a' n v w b Ho He). simpl. split; [done|].
    split; [|apply (so_calm _ _ _ _ _ Hok)]. rewrite <- (bump0 (put _ _ _)). eapply R_step; [done|done|done|].
    apply (ef_len _ _ _ _ _ He).
  - intros s' [Hnc Hq]. split; [done|]. by eapply R_samelists.
Qed.
Lemma sim_deref i p : SIM (LDeref i p).
Proof.
  intros s σ σ1 r HR. cbn [spec_step]. destruct (get σ i) as [xs|] eqn:Hg; [|done]. cbn [mbind option_bind].
  destruct (at_pos i p xs) as [[a b]|] eqn:Hp; [|done]. cbn [mbind option_bind].
  destruct (last a) as [[n w]|] eqn:Hy; [|done]. cbn [mbind option_bind fst snd]. intros [= <- <-].
  apply at_pos_spec in Hp as (-> & ->). destruct (R_owned _ _ _ _ HR Hg) as [Hc _].
  apply last_snoc in Hy. set (a' := take (length a - 1) a) in *. clearbody a'. subst a.
  rewrite lastpos_app. cbn [lastpos fst]. cbn [run_op]. unfold bind. rewrite (deref_eq s n w); [done|].
  eapply chain_val; [exact Hc|]. rewrite !elem_of_app, elem_of_list_singleton. auto.
Qed.
Lemma sim_incr i p : SIM (LIncr i p).
Proof.
  intros s σ σ1 r HR. cbn [spec_step]. destruct (get σ i) as [xs|] eqn:Hg; [|done]. cbn [mbind option_bind].
  destruct (at_pos i p xs) as [[a b]|] eqn:Hp; [|done]. cbn [mbind option_bind]. intros [= <- <-].
  apply at_pos_spec in Hp as (-> & ->). destruct (R_owned _ _ _ _ HR Hg) as [Hc _].
  apply chain_app in Hc as [_ Hc]. cbn [run_op]. unfold bind. rewrite (get_next_eq _ _ _ (chain_next _ _ _ _ Hc)).
  by rewrite first_pos_spec.
Qed.

Theorem list_simulates : simulates (@spec_step V) spec_throw run_op R calm.
Proof.
  intros o. destruct o; try (apply sim_ctor_fill || apply sim_ctor_range || apply sim_ctor_copy || apply sim_default
    || apply sim_ctor_move || apply sim_clear || apply sim_destroy || apply sim_assign_move || apply sim_push_front
    || apply sim_emplace_front || apply sim_insert_after || apply sim_insert_elem || apply sim_insert_range
    || apply sim_erase_after || apply sim_pop_front || apply sim_erase_range || apply sim_reverse || apply sim_assign
    || apply sim_assign_copy || apply sim_range_nodes || apply sim_insert_nodes || apply sim_assign_nodes || apply sim_set || apply sim_deref || apply sim_incr);
  intros s σ σ1 r HR; cbn [spec_step]; destruct (get σ i) as [xs|] eqn:Hg; try done;
  destruct (R_owned _ _ _ _ HR Hg) as [Hc Hnd]; assert (Hn := get_next_eq _ _ _ (chain_next _ _ _ _ Hc)).
  - intros [= <- <-]. cbn [run_op]. unfold begin_, bind. by rewrite Hn.
  - intros [= <- <-]. cbn [run_op]. unfold begin_, bind. rewrite Hn. simpl. by rewrite first_pos_spec.
  - intros [= <- <-]. cbn [run_op]. unfold bind. rewrite (to_list_eq s i xs); [done|]. by split.
  - intros [= <- <-]. cbn [run_op]. unfold empty, begin_, bind. rewrite Hn. simpl. split; [|done].
    f_equal. by destruct xs.
  - destruct xs as [|[n v] xs]; [done|]. intros [= <- <-]. cbn [run_op]. unfold front, begin_, bind. rewrite Hn.
    cbn [dest fst]. destruct Hc as (_ & Hv & _). simpl in Hv. by rewrite (deref_eq _ _ _ Hv).
Qed.

Lemma R_init orc : R (init (V:=V) orc) ainit.
Proof.
  exists (λ _, None). constructor; simpl; try done.
  - split; [by intros ?%elem_of_nil|done].
  - apply NoDup_nil_2.
Qed.
End hist.
