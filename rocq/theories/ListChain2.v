(** LinkedList: erasing, reversing, assigning and reading one list. *)
From stdpp Require Import list.
From Coq Require Import Lia.
From Verif Require Import Base ListModel ListSpec ListPrim ListChain.

Section chain.
Context {V : Type}.
Implicit Types (s : st V) (n m i : nat) (p q r : pos) (xs ys a b c d : list (nat * V)).
Local Arguments new_nodes : simpl never.

(** The nodes [ys] between position [L] and [c] are gone. *)
Lemma unlink_step s s' i a ys c :
  let L := lastpos (Head i) a in
  owned s i (a ++ ys ++ c) →
  eff s s' (λ r, if decide (r = L) then Some (dest c Nul)
                 else if decide (r ∈ Nod <$> ys.*1) then None else nextof s r)
           (λ n, if decide (n ∈ ys.*1) then None else valof s n) (length (nodes s)) →
  step_ok s s' i (a ++ ys ++ c) (a ++ c).
Proof.
  intros L Ho [Hn Hv Hl Hh Hk Hcm]. assert (Ho2 := Ho). destruct Ho2 as [Hc Hnd].
  assert (Hin3 : ∀ n, n ∈ (a ++ ys ++ c).*1 ↔ n ∈ a.*1 ∨ n ∈ ys.*1 ∨ n ∈ c.*1).
  { intros n. rewrite !fmap_app, !elem_of_app. tauto. }
  assert (Hin2 : ∀ n, n ∈ (a ++ c).*1 ↔ n ∈ a.*1 ∨ n ∈ c.*1).
  { intros n. rewrite !fmap_app, !elem_of_app. tauto. }
  apply chain_app in Hc as [Hca Hcb]. apply chain_app in Hcb as [Hcy Hcc].
  apply NoDup_fst_app in Hnd as (Hnda & Hdisj & Hndb). apply NoDup_fst_app in Hndb as (Hndy & Hdisj2 & Hndc).
  assert (Hay : ∀ n, n ∈ a.*1 → n ∉ ys.*1).
  { intros n Hna Hny. apply (Hdisj n Hna). rewrite fmap_app, elem_of_app. by left. }
  assert (Hac : ∀ n, n ∈ a.*1 → n ∉ c.*1).
  { intros n Hna Hny. apply (Hdisj n Hna). rewrite fmap_app, elem_of_app. by right. }
  assert (Hnn : ∀ n, Nod n ∈ Nod <$> ys.*1 → n ∈ ys.*1).
  { intros n (m & [= ->] & ?)%elem_of_list_fmap. done. }
  constructor; try done.
  - lia.
  - intros j Hj. rewrite Hn, !decide_False; [done| |].
    + intros (m & ? & _)%elem_of_list_fmap. done.
    + intros E. by symmetry in E; apply pos_of_head in E.
  - intros n Hlt Hin. rewrite Hin3 in Hin. rewrite Hn, !decide_False; [done| |].
    + intros ?%Hnn. tauto.
    + intros E. symmetry in E. apply pos_of_last in E. tauto.
  - intros n Hlt Hin. rewrite Hin3 in Hin. rewrite Hv, decide_False by tauto. done.
  - split.
    + apply chain_app. split.
      * eapply chain_relink; [exact Hca|done|done|..].
        -- intros Hne. rewrite Hn, !decide_False; [done| |done]. intros (m & ? & _)%elem_of_list_fmap. done.
        -- intros n Hin Hne. rewrite Hn, !decide_False; [done| |done]. intros ?%Hnn. by apply (Hay n).
        -- rewrite Hn. by rewrite decide_True.
        -- intros n Hin. rewrite Hv, decide_False; [done|]. by apply Hay.
      * eapply chain_frame; [exact Hcc| |].
        -- rewrite Hn, decide_True by done. by apply chain_next in Hcc.
        -- intros n Hin. rewrite Hn, Hv, !decide_False; [done| | |].
           ++ intros ?. by apply (Hdisj2 n).
           ++ intros ?%Hnn. by apply (Hdisj2 n).
           ++ intros E. symmetry in E. apply pos_of_last in E. by apply (Hac n).
    + apply NoDup_fst_app. done.
  - intros n Hor Hnin. rewrite Hin3 in Hor. rewrite Hin2 in Hnin. rewrite Hv. case_decide; [done|].
    destruct Hor as [?|?]; [tauto|by apply valof_ge].
  - intros n Hin. rewrite Hin3. rewrite Hin2 in Hin. tauto.
Qed.

Lemma erase_loop_eff fuel : ∀ s ys q,
  seg s ys q → NoDup ys.*1 → (∀ n, n ∈ ys.*1 → q ≠ Nod n) → length ys ≤ fuel →
  ∃ s', erase_loop fuel (dest ys q) q s = Ok tt s' ∧
    eff s s' (λ r, if decide (r ∈ Nod <$> ys.*1) then None else nextof s r)
             (λ n, if decide (n ∈ ys.*1) then None else valof s n) (length (nodes s)).
Proof.
  induction fuel as [|fuel IH]; intros s ys q Hs Hnd Hq Hf.
  - destruct ys as [|]; [|simpl in Hf; lia]. simpl. rewrite decide_True by done. exists s. by constructor.
  - destruct ys as [|[n v] ys]; cbn [dest erase_loop fst].
    + rewrite decide_True by done. exists s. by constructor.
    + rewrite decide_False. 2:{ intros E. eapply Hq; [|by symmetry]. simpl. rewrite elem_of_cons. by left. }
      destruct Hs as [Hv Hc]. simpl in Hv, Hc, Hnd. apply NoDup_cons in Hnd as [Hn Hnd].
      unfold bind. rewrite (get_next_eq _ _ _ (chain_next _ _ _ _ Hc)). simpl.
      destruct (destroy_elem_eff s n v Hv) as (s1 & -> & He1).
      destruct (dealloc_eff s1 n) as (s2 & -> & He2).
      { rewrite (ef_val _ _ _ _ _ He1). unfold upd_val. by rewrite decide_True. }
      assert (Hn2 : ∀ r, nextof s2 r = if decide (r = Nod n) then None else nextof s r).
      { intros r. rewrite (ef_next _ _ _ _ _ He2). unfold upd_next. case_decide; [done|].
        apply (ef_next _ _ _ _ _ He1). }
      assert (Hv2 : ∀ m, valof s2 m = if decide (m = n) then None else valof s m).
      { intros m. rewrite (ef_val _ _ _ _ _ He2). unfold upd_val. case_decide; [done|].
        rewrite (ef_val _ _ _ _ _ He1). unfold upd_val. by rewrite decide_False. }
      destruct (IH s2 ys q) as (s3 & -> & He3).
      * eapply seg_frame; [by eapply chain_seg|]. intros m Hm. rewrite Hn2, Hv2.
        assert (m ≠ n) by (intros ->; done). by rewrite !decide_False by congruence.
      * done.
      * intros m Hm. apply Hq. simpl. rewrite elem_of_cons. by right.
      * simpl in Hf. lia.
      * exists s3. split; [done|]. constructor.
        -- intros r. rewrite (ef_next _ _ _ _ _ He3). simpl.
           destruct (decide (r ∈ Nod <$> ys.*1)) as [Hr|Hr].
           ++ rewrite decide_True; [done|]. rewrite elem_of_cons. by right.
           ++ rewrite Hn2. destruct (decide (r = Nod n)) as [->|Hrn].
              ** rewrite decide_True; [done|]. rewrite elem_of_cons. by left.
              ** rewrite decide_False; [done|]. rewrite elem_of_cons. by intros [?|?].
        -- intros m. rewrite (ef_val _ _ _ _ _ He3). simpl.
           destruct (decide (m ∈ ys.*1)) as [Hr|Hr].
           ++ rewrite decide_True; [done|]. rewrite elem_of_cons. by right.
           ++ rewrite Hv2. destruct (decide (m = n)) as [->|Hrn].
              ** rewrite decide_True; [done|]. rewrite elem_of_cons. by left.
              ** rewrite decide_False; [done|]. rewrite elem_of_cons. by intros [?|?].
        -- by rewrite (ef_len _ _ _ _ _ He3), (ef_len _ _ _ _ _ He2), (ef_len _ _ _ _ _ He1).
        -- by rewrite (ef_heads _ _ _ _ _ He3), (ef_heads _ _ _ _ _ He2), (ef_heads _ _ _ _ _ He1).
        -- by rewrite (ef_leak _ _ _ _ _ He3), (ef_leak _ _ _ _ _ He2), (ef_leak _ _ _ _ _ He1).
        -- intros Hcm. by apply (ef_calm _ _ _ _ _ He3), (ef_calm _ _ _ _ _ He2), (ef_calm _ _ _ _ _ He1).
Qed.

(** linked_list.hpp:218-228 *)
Lemma erase_range_eq s i a ys c : owned s i (a ++ ys ++ c) →
  ∃ s', erase_after_range (lastpos (Head i) a) (dest c Nul) s = Ok tt s' ∧
        length (nodes s') = length (nodes s) ∧ step_ok s s' i (a ++ ys ++ c) (a ++ c).
Proof.
  intros Ho. assert (Ho2 := Ho). destruct Ho2 as [Hc Hnd].
  apply chain_app in Hc as [Hca Hcb]. apply chain_app in Hcb as [Hcy Hcc].
  assert (Hla := last_not_after i _ _ Hnd).
  apply NoDup_fst_app in Hnd as (Hnda & Hdisj & Hndb). apply NoDup_fst_app in Hndb as (Hndy & Hdisj2 & Hndc).
  unfold erase_after_range, bind, gets.
  rewrite (get_next_eq _ _ _ (chain_next _ _ _ _ Hcy)).
  destruct (erase_loop_eff (S (length (nodes s))) s ys (dest c Nul)) as (s1 & -> & He1).
  - by eapply chain_seg.
  - done.
  - intros n Hn. destruct c as [|x c]; [done|]. intros [= <-]. apply (Hdisj2 x.1 Hn). simpl. rewrite elem_of_cons. by left.
  - rewrite <- (fmap_length fst). assert (length ys.*1 ≤ length (nodes s)); [|lia].
    apply NoDup_bound; [done|]. intros n. by eapply chain_lt.
  - assert (HLy : lastpos (Head i) a ∉ Nod <$> ys.*1).
    { intros (m & E & Hm)%elem_of_list_fmap. apply (Hla m); [|done]. rewrite fmap_app, elem_of_app. by left. }
    destruct (set_next_eff s1 (lastpos (Head i) a) (dest c Nul) (dest ys (dest c Nul))) as (s2 & -> & He2).
    { rewrite (ef_next _ _ _ _ _ He1), decide_False by done. by apply chain_next in Hcy. }
    exists s2. split; [done|]. split; [by rewrite (ef_len _ _ _ _ _ He2), (ef_len _ _ _ _ _ He1)|].
    apply unlink_step; [done|]. constructor.
    + intros r. rewrite (ef_next _ _ _ _ _ He2). unfold upd_next. case_decide; [done|]. apply (ef_next _ _ _ _ _ He1).
    + intros n. rewrite (ef_val _ _ _ _ _ He2). apply (ef_val _ _ _ _ _ He1).
    + by rewrite (ef_len _ _ _ _ _ He2), (ef_len _ _ _ _ _ He1).
    + by rewrite (ef_heads _ _ _ _ _ He2), (ef_heads _ _ _ _ _ He1).
    + by rewrite (ef_leak _ _ _ _ _ He2), (ef_leak _ _ _ _ _ He1).
    + intros Hcm. by apply (ef_calm _ _ _ _ _ He2), (ef_calm _ _ _ _ _ He1).
Qed.

(** linked_list.hpp:210-215 *)
Lemma erase_after_eq s i a y c : owned s i (a ++ y :: c) →
  ∃ s', erase_after (lastpos (Head i) a) s = Ok tt s' ∧
        length (nodes s') = length (nodes s) ∧ step_ok s s' i (a ++ y :: c) (a ++ c).
Proof.
  intros Ho. assert (Ho2 := Ho). destruct Ho2 as [Hc Hnd].
  apply chain_app in Hc as [Hca Hcb]. assert (Hcb2 := Hcb). destruct Hcb2 as (HL & Hv & Hcc). simpl in HL.
  assert (Hla := last_not_after i _ _ Hnd). simpl in Hla.
  unfold erase_after, bind.
  rewrite (get_next_eq _ _ _ HL), (get_next_eq _ _ _ (chain_next _ _ _ _ Hcc)).
  destruct (set_next_eff s (lastpos (Head i) a) (dest c Nul) _ HL) as (s1 & -> & He1).
  destruct (destroy_elem_eff s1 y.1 y.2) as (s2 & -> & He2).
  { by rewrite (ef_val _ _ _ _ _ He1). }
  destruct (dealloc_eff s2 y.1) as (s3 & -> & He3).
  { rewrite (ef_val _ _ _ _ _ He2). unfold upd_val. by rewrite decide_True. }
  assert (Hl3 : length (nodes s3) = length (nodes s)).
  { by rewrite (ef_len _ _ _ _ _ He3), (ef_len _ _ _ _ _ He2), (ef_len _ _ _ _ _ He1). }
  exists s3. split; [done|]. split; [done|].
  apply (unlink_step s s3 i a [y] c Ho). constructor; try done.
  - intros r. rewrite (ef_next _ _ _ _ _ He3). unfold upd_next.
    destruct (decide (r = Nod y.1)) as [->|Hr].
    + rewrite decide_False; [|apply Hla; rewrite elem_of_cons; by left].
      rewrite decide_True; [done|]. simpl. by rewrite elem_of_list_singleton.
    + rewrite (ef_next _ _ _ _ _ He2), (ef_next _ _ _ _ _ He1). unfold upd_next. case_decide; [done|].
      rewrite decide_False; [done|]. simpl. by rewrite elem_of_list_singleton.
  - intros n. rewrite (ef_val _ _ _ _ _ He3). unfold upd_val. simpl.
    destruct (decide (n = y.1)) as [->|Hr].
    + rewrite decide_True; [done|]. by rewrite elem_of_list_singleton.
    + rewrite decide_False by by rewrite elem_of_list_singleton.
      rewrite (ef_val _ _ _ _ _ He2). unfold upd_val. rewrite decide_False by done. apply (ef_val _ _ _ _ _ He1).
  - by rewrite (ef_heads _ _ _ _ _ He3), (ef_heads _ _ _ _ _ He2), (ef_heads _ _ _ _ _ He1).
  - by rewrite (ef_leak _ _ _ _ _ He3), (ef_leak _ _ _ _ _ He2), (ef_leak _ _ _ _ _ He1).
  - intros Hcm. by apply (ef_calm _ _ _ _ _ He3), (ef_calm _ _ _ _ _ He2), (ef_calm _ _ _ _ _ He1).
Qed.

Lemma chain_relink' s s' p p' xs q q' : xs ≠ [] →
  chain s p xs q → NoDup xs.*1 → nextof s' p' = nextof s p →
  (∀ n, n ∈ xs.*1 → Nod n ≠ lastpos p xs → nextof s' (Nod n) = nextof s (Nod n)) →
  nextof s' (lastpos p xs) = Some q' →
  (∀ n, n ∈ xs.*1 → valof s' n = valof s n) → chain s' p' xs q'.
Proof.
  destruct xs as [|x xs]; [done|]. intros _ (Hn & Hv & Hc) Hnd Hp Hf Hl Hvs. simpl in *.
  apply NoDup_cons in Hnd as [Hx Hnd].
  split; [by rewrite Hp|]. split; [rewrite Hvs; [done|rewrite elem_of_cons; by left]|].
  eapply chain_relink; [exact Hc|done|..].
  - intros n Hin [= <-]. done.
  - intros Hne. apply Hf; [rewrite elem_of_cons; by left|done].
  - intros n Hin. apply Hf. rewrite elem_of_cons. by right.
  - done.
  - intros n Hin. apply Hvs. rewrite elem_of_cons. by right.
Qed.

(** linked_list.hpp:234-240: one round moves the node after the (old) first
    node [t] to the front. *)
Lemma reverse_loop_eq fuel : ∀ s i d t b, owned s i (d ++ t :: b) → length b < fuel →
  ∃ s', reverse_loop fuel i (Nod t.1) s = Ok tt s' ∧ length (nodes s') = length (nodes s) ∧
        step_ok s s' i (d ++ t :: b) (rev b ++ d ++ [t]).
Proof.
  induction fuel as [|fuel IH]; intros s i d t b Ho Hf; [lia|]. cbn [reverse_loop].
  assert (Ho2 := Ho). destruct Ho2 as [Hc Hnd].
  assert (Hct : nextof s (Nod t.1) = Some (dest b Nul)).
  { apply chain_app in Hc as [_ (_ & _ & Hc)]. by apply chain_next in Hc. }
  unfold bind at 1. rewrite (get_next_eq _ _ _ Hct).
  destruct b as [|y b]; cbn [dest].
  - rewrite decide_True by done. exists s. split; [done|]. split; [done|]. by apply step_refl.
  - rewrite decide_False by done.
    assert (Hc2 : chain s (Head i) ((d ++ [t]) ++ y :: b) Nul) by by rewrite <- app_assoc.
    apply chain_app in Hc2 as [Hcd Hcy]. destruct Hcy as (_ & Hvy & Hcb). simpl in Hcd, Hvy.
    assert (Hnd2 : NoDup ((d ++ [t]) ++ y :: b).*1) by by rewrite <- app_assoc.
    apply NoDup_fst_app in Hnd2 as (Hnd1 & Hdj & Hndy). simpl in Hndy. apply NoDup_cons in Hndy as [Hyb Hndb].
    set (F := dest (d ++ [t]) (Nod y.1)).
    assert (HF : nextof s (Head i) = Some F) by (by apply chain_next in Hcd).
    assert (Hty : t.1 ≠ y.1).
    { intros E. apply (Hdj t.1); [rewrite fmap_app, elem_of_app; right; simpl; by rewrite elem_of_list_singleton|].
      simpl. rewrite elem_of_cons. by left. }
    unfold bind at 1. rewrite (get_next_eq _ _ _ HF).
    destruct (set_next_eff s (Head i) (Nod y.1) _ HF) as (s1 & E1 & He1). unfold bind at 1. rewrite E1.
    assert (Hny1 : nextof s1 (Nod y.1) = Some (dest b Nul)).
    { rewrite (ef_next _ _ _ _ _ He1). unfold upd_next. rewrite decide_False by done. by apply chain_next in Hcb. }
    unfold bind at 1. rewrite (get_next_eq _ _ _ Hny1).
    assert (Hnt1 : nextof s1 (Nod t.1) = Some (Nod y.1)).
    { rewrite (ef_next _ _ _ _ _ He1). unfold upd_next. by rewrite decide_False by done. }
    destruct (set_next_eff s1 (Nod t.1) (dest b Nul) _ Hnt1) as (s2 & E2 & He2). unfold bind at 1. rewrite E2.
    assert (Hnh2 : nextof s2 (Head i) = Some (Nod y.1)).
    { rewrite (ef_next _ _ _ _ _ He2). unfold upd_next. rewrite decide_False by done.
      rewrite (ef_next _ _ _ _ _ He1). unfold upd_next. by rewrite decide_True. }
    unfold bind at 1. rewrite (get_next_eq _ _ _ Hnh2).
    assert (Hny2 : nextof s2 (Nod y.1) = Some (dest b Nul)).
    { rewrite (ef_next _ _ _ _ _ He2). unfold upd_next. by rewrite decide_False by congruence. }
    destruct (set_next_eff s2 (Nod y.1) F _ Hny2) as (s3 & E3 & He3). unfold bind at 1. rewrite E3.
    assert (Hn3 : ∀ r, nextof s3 r = if decide (r = Nod y.1) then Some F
              else if decide (r = Nod t.1) then Some (dest b Nul)
              else if decide (r = Head i) then Some (Nod y.1) else nextof s r).
    { intros r. rewrite (ef_next _ _ _ _ _ He3). unfold upd_next. case_decide; [done|].
      rewrite (ef_next _ _ _ _ _ He2). unfold upd_next. case_decide; [done|].
      rewrite (ef_next _ _ _ _ _ He1). done. }
    assert (Hv3 : ∀ n, valof s3 n = valof s n).
    { intros n. by rewrite (ef_val _ _ _ _ _ He3), (ef_val _ _ _ _ _ He2), (ef_val _ _ _ _ _ He1). }
    assert (Hl3 : length (nodes s3) = length (nodes s)).
    { by rewrite (ef_len _ _ _ _ _ He3), (ef_len _ _ _ _ _ He2), (ef_len _ _ _ _ _ He1). }
    assert (Hperm : ∀ n, n ∈ ((y :: d) ++ t :: b).*1 ↔ n ∈ (d ++ t :: y :: b).*1).
    { intros n. simpl. rewrite !elem_of_cons, !fmap_app, !elem_of_app. simpl. rewrite !elem_of_cons. tauto. }
    assert (Hlast : lastpos (Head i) (d ++ [t]) = Nod t.1) by (rewrite lastpos_app; done).
    assert (Hstep : step_ok s s3 i (d ++ t :: y :: b) ((y :: d) ++ t :: b)).
    { constructor.
      - by rewrite (ef_heads _ _ _ _ _ He3), (ef_heads _ _ _ _ _ He2), (ef_heads _ _ _ _ _ He1).
      - lia.
      - by rewrite (ef_leak _ _ _ _ _ He3), (ef_leak _ _ _ _ _ He2), (ef_leak _ _ _ _ _ He1).
      - intros Hcm. by apply (ef_calm _ _ _ _ _ He3), (ef_calm _ _ _ _ _ He2), (ef_calm _ _ _ _ _ He1).
      - intros j Hj. rewrite Hn3, !decide_False; congruence.
      - intros n Hlt Hin. rewrite fmap_app, elem_of_app in Hin. simpl in Hin. rewrite !elem_of_cons in Hin.
        rewrite Hn3, !decide_False; [done|done|intros [= ->]; tauto|intros [= ->]; tauto].
      - intros n _ _. apply Hv3.
      - split.
        + change ((y :: d) ++ t :: b) with (y :: d ++ [t] ++ b). rewrite app_assoc.
          split; [rewrite Hn3; do 2 (rewrite decide_False by done); by rewrite decide_True|].
          split; [by rewrite Hv3|].
          apply chain_app. split.
          * eapply chain_relink'; [by destruct d|exact Hcd|done|..].
            -- rewrite Hn3, decide_True; done.
            -- intros n Hin Hne. rewrite Hlast in Hne. rewrite Hn3, !decide_False; [done|done|done|].
               intros [= ->]. apply (Hdj y.1); [done|]. simpl. rewrite elem_of_cons. by left.
            -- rewrite Hlast, Hn3, decide_False, decide_True; [done|done|congruence].
            -- intros n _. apply Hv3.
          * rewrite lastpos_app. simpl. eapply chain_frame; [exact Hcb| |].
            -- rewrite Hn3, decide_False, decide_True; [|done|congruence]. by apply chain_next in Hcb.
            -- intros n Hin. split; [|apply Hv3]. rewrite Hn3, !decide_False; [done|done| |].
               ++ intros [= ->]. apply (Hdj t.1); [rewrite fmap_app, elem_of_app; right; simpl; by rewrite elem_of_list_singleton|].
                  simpl. rewrite elem_of_cons. by right.
               ++ intros [= ->]. done.
        + simpl. apply NoDup_cons. rewrite fmap_app, elem_of_app, NoDup_app. simpl.
          rewrite fmap_app in Hnd1. simpl in Hnd1. rewrite !NoDup_app in Hnd1. destruct Hnd1 as (Hndd & Hdt & _).
          split; [|split; [done|split]].
          * intros [Hin|Hin].
            -- apply (Hdj y.1); [rewrite fmap_app, elem_of_app; by left|]. simpl. rewrite elem_of_cons. by left.
            -- apply elem_of_cons in Hin as [?|?]; [congruence|done].
          * intros n Hin. rewrite elem_of_cons. intros [->|Hin2].
            -- apply (Hdt t.1 Hin). by rewrite elem_of_list_singleton.
            -- apply (Hdj n); [rewrite fmap_app, elem_of_app; by left|]. simpl. rewrite elem_of_cons. by right.
          * apply NoDup_cons. split; [|done]. intros Hin. 
            apply (Hdj t.1); [rewrite fmap_app, elem_of_app; right; simpl; by rewrite elem_of_list_singleton|].
            simpl. rewrite elem_of_cons. by right.
      - intros n Hor Hnin. rewrite Hperm in Hnin. destruct Hor as [?|?]; [done|]. rewrite Hv3. by apply valof_ge.
      - intros n Hin. left. by apply Hperm. }
    destruct (IH s3 i (y :: d) t b (so_owned _ _ _ _ _ Hstep) ltac:(simpl in Hf; lia)) as (s4 & E4 & Hl4 & Hok4).
    exists s4. split; [done|]. split; [congruence|].
    simpl rev. rewrite <- app_assoc. by eapply step_trans.
Qed.

Lemma owned_length s i xs : owned s i xs → length xs ≤ length (nodes s).
Proof.
  intros [Hc Hnd]. rewrite <- (fmap_length fst). apply NoDup_bound; [done|]. intros n. by eapply chain_lt.
Qed.

(** linked_list.hpp:231-242 *)
Lemma reverse_eq s i xs : owned s i xs →
  ∃ s', reverse i s = Ok tt s' ∧ length (nodes s') = length (nodes s) ∧ step_ok s s' i xs (rev xs).
Proof.
  intros Ho. unfold reverse, bind, gets. assert (Ho2 := Ho). destruct Ho2 as [Hc _].
  rewrite (get_next_eq _ _ _ (chain_next _ _ _ _ Hc)). destruct xs as [|t b].
  - cbn [dest]. rewrite decide_True by done. exists s. split; [done|]. split; [done|]. by apply step_refl.
  - cbn [dest]. rewrite decide_False by done.
    assert (Hl := owned_length _ _ _ Ho). simpl in Hl.
    apply (reverse_loop_eq (S (length (nodes s))) s i [] t b); [done|lia].
Qed.

(** Overwriting the value of one node. *)
Lemma set_step s s' i a n v w b : owned s i (a ++ (n, w) :: b) →
  eff s s' (nextof s) (upd_val (valof s) n (Some (Some v))) (length (nodes s)) →
  step_ok s s' i (a ++ (n, w) :: b) (a ++ (n, v) :: b).
Proof.
  intros Ho [Hn Hv Hl Hh Hk Hcm]. assert (Ho2 := Ho). destruct Ho2 as [Hc Hnd].
  assert (Hin3 : ∀ m x, m ∈ (a ++ (n, x) :: b).*1 ↔ m ∈ a.*1 ∨ m = n ∨ m ∈ b.*1).
  { intros m x. rewrite fmap_app, elem_of_app. simpl. by rewrite elem_of_cons. }
  apply chain_app in Hc as [Hca Hcb]. destruct Hcb as (HL & Hvn & Hcb). simpl in HL, Hvn, Hcb.
  unfold upd_val in Hv.
  assert (Hnd' := Hnd). apply NoDup_fst_app in Hnd' as (Hnda & Hdj & Hndb). simpl in Hndb.
  apply NoDup_cons in Hndb as [Hnb Hndb].
  constructor; try done.
  - lia.
  - intros m Hlt Hin. rewrite Hin3 in Hin. rewrite Hv, decide_False; [done|tauto].
  - split.
    + apply chain_app. split; [|split; [|split]]; simpl.
      * eapply chain_frame; [exact Hca|done|]. intros m Hm. rewrite Hn, Hv, decide_False; [done|].
        intros ->. apply (Hdj n Hm). simpl. rewrite elem_of_cons. by left.
      * by rewrite Hn.
      * by rewrite Hv, decide_True.
      * eapply chain_frame; [exact Hcb|done|]. intros m Hm. rewrite Hn, Hv, decide_False; [done|]. by intros ->.
    + rewrite fmap_app in Hnd |- *. done.
  - intros m Hor Hnin. rewrite Hin3 in Hor, Hnin. destruct Hor as [?|?]; [done|].
    rewrite Hv, decide_False; [by apply valof_ge|tauto].
  - intros m Hin. rewrite Hin3 in Hin |- *. by left.
Qed.

(** linked_list.hpp:133-139 *)
Lemma assign_loop_post fuel : ∀ s i a b x vs,
  owned s i (a ++ b) → srcv s (a ++ b) x vs → length vs < fuel →
  post (assign_loop fuel (lastpos (Head i) a) (dest b Nul) x s)
    (λ z s', ∃ x', z = (lastpos (Head i) (a ++ overwrite b vs), dest (drop (length vs) b) Nul, x') ∧
             length (nodes s') = length (nodes s) ∧
             step_ok s s' i (a ++ b) (a ++ overwrite b vs ++ drop (length vs) b) ∧
             srcv s' (a ++ overwrite b vs ++ drop (length vs) b) x' (drop (length b) vs))
    (λ s', ¬ calm s ∧ ∃ m, m < length b ∧ m < length vs ∧ 
       step_ok s s' i (a ++ b) (a ++ overwrite b (take m vs) ++ drop m b)).
Proof.
  induction fuel as [|fuel IH]; intros s i a b x vs Ho Hx Hf; [lia|]. cbn [assign_loop].
  assert (Hp := srcv_peek _ _ _ _ Hx). destruct b as [|[n w] b].
  - cbn [dest fst]. rewrite decide_True by done. simpl. exists x. rewrite drop_nil. unfold overwrite. simpl.
    rewrite !app_nil_r in *. rewrite drop_0. split_and!; [done|done|by apply step_refl|done].
  - cbn [dest fst]. rewrite decide_False by done. destruct vs as [|v vs].
    + rewrite Hp. simpl. exists x. unfold overwrite. simpl. rewrite app_nil_r.
      split_and!; [done|done|by apply step_refl|done].
    + destruct Hp as (y & -> & Hy). assert (Ho2 := Ho). destruct Ho2 as [Hc _].
      apply chain_app in Hc as [Hca (HL & Hvn & Hcb)]. simpl in HL, Hvn, Hcb.
      apply post_bind. eapply post_conseq; [apply (assign_elem_post s n y v w Hy Hvn)| |].
      2:{ intros s' [Hnc Hq]. split; [done|]. exists 0. simpl. split; [lia|]. split; [lia|]. by apply step_quiet. }
      intros [] s1 He1. assert (Hok1 := set_step s s1 i a n v w b Ho He1).
      assert (HL1 : nextof s1 (lastpos (Head i) a) = Some (Nod n)) by by rewrite (ef_next _ _ _ _ _ He1).
      assert (Hn1 : nextof s1 (Nod n) = Some (dest b Nul)).
      { rewrite (ef_next _ _ _ _ _ He1). by apply chain_next in Hcb. }
      unfold bind at 1. rewrite (get_next_eq _ _ _ HL1). unfold bind at 1. rewrite (get_next_eq _ _ _ Hn1).
      destruct (srcv_next s1 (a ++ (n, v) :: b) x v vs) as (x' & Ex & Hx'); [by eapply srcv_step|].
      unfold bind at 1. rewrite Ex.
      assert (HI := IH s1 i (a ++ [(n, v)]) b x' vs).
      rewrite <- (app_assoc a [(n, v)] b) in HI. simpl in HI.
      specialize (HI (so_owned _ _ _ _ _ Hok1) Hx' ltac:(simpl in Hf; lia)).
      rewrite lastpos_app in HI. simpl in HI. eapply post_conseq; [exact HI| |].
      * intros r s2 (x2 & -> & Hl2 & Hok2 & Hx2). exists x2. rewrite <- !app_assoc in *. simpl in *.
        split_and!; [done| |by eapply step_trans|done].
        rewrite Hl2. apply (ef_len _ _ _ _ _ He1).
      * intros s2 (Hnc & m & Hm1 & Hm2 & Hok2). split; [intros Hcm; by apply Hnc, (so_calm _ _ _ _ _ Hok1)|].
        exists (S m). simpl. split; [lia|]. split; [lia|]. rewrite <- app_assoc in Hok2. simpl in Hok2.
        by eapply step_trans.
Qed.

(** linked_list.hpp:130-147 *)
Lemma assign_post s i xs x vs : owned s i xs → srcv s xs x vs →
  let N := length (nodes s) in
  post (assign i x s)
    (λ _ s', length (nodes s') = length vs - length xs + N ∧ step_ok s s' i xs (assigned xs N vs))
    (λ s', ¬ calm s ∧
       ((∃ m, m < length xs ∧ m < length vs ∧ step_ok s s' i xs (overwrite xs (take m vs) ++ drop m xs)) ∨
        (∃ m, length xs + m < length vs ∧
           step_ok s s' i xs (overwrite xs vs ++ new_nodes N (take m (drop (length xs) vs)))))).
Proof.
  intros Ho Hx N. unfold assign. assert (Ho2 := Ho). destruct Ho2 as [Hc _].
  unfold bind at 1, begin_. rewrite (get_next_eq _ _ _ (chain_next _ _ _ _ Hc)).
  unfold bind at 1, gets. apply post_bind.
  assert (HA := assign_loop_post (src_fuel x s) s i [] xs x vs Ho Hx (srcv_fuel _ _ _ _ Hx)).
  cbn [lastpos] in HA. unfold before_begin. eapply post_conseq; [exact HA| |].
  2:{ intros s1 (Hnc & m & Hm1 & Hm2 & Hok). split; [done|]. left. by exists m. }
  intros r s1 (x' & -> & Hl1 & Hok1 & Hx1). cbn [app] in *.
  assert (Hp := srcv_peek _ _ _ _ Hx1). unfold assigned.
  destruct (drop (length xs) vs) as [|v vs'] eqn:Ed.
  - rewrite Hp. rewrite new_nodes_nil, app_nil_r.
    assert (Hle : length vs ≤ length xs).
    { apply (f_equal length) in Ed. rewrite drop_length in Ed. simpl in Ed. lia. }
    destruct (drop (length vs) xs) as [|t ys] eqn:Ed2; cbn [dest].
    + rewrite decide_True by done. simpl. rewrite app_nil_r in Hok1. split; [lia|done].
    + rewrite decide_False by done.
      assert (Ho1 : owned s1 i (overwrite xs vs ++ (t :: ys) ++ [])).
      { rewrite app_nil_r. apply (so_owned _ _ _ _ _ Hok1). }
      destruct (erase_range_eq s1 i _ _ _ Ho1) as (s2 & E2 & Hl2 & Hok2).
      cbn [dest fst] in E2. unfold end_. rewrite E2. simpl.
      rewrite !app_nil_r in Hok2. split; [lia|]. by eapply step_trans.
  - destruct Hp as (y & Ey & Hy). rewrite Ey.
    assert (Hlt : length xs < length vs).
    { apply (f_equal length) in Ed. rewrite drop_length in Ed. simpl in Ed. lia. }
    rewrite drop_ge in Hok1, Hx1 by lia. 
    assert (HI := insert_loop_post (src_fuel x' s1) s1 i (overwrite xs vs) [] x' (v :: vs')
                    (so_owned _ _ _ _ _ Hok1) (srcv_srcp _ _ _ _ _ _ Hx1) (srcv_fuel _ _ _ _ Hx1)).
    cbv zeta in HI. rewrite Hl1 in HI. fold N in HI. unfold insert_range.
    apply post_bind. unfold bind at 1, gets. eapply post_conseq; [exact HI| |].
    + intros r s2 (_ & Hl2 & Hok2). rewrite app_nil_r in Hok1, Hok2.
      assert (El : length (v :: vs') = length vs - length xs) by by rewrite <- Ed, drop_length.
      simpl post. split; [lia|]. rewrite app_nil_r in Hok2. by eapply step_trans.
    + intros s2 (Hnc & m & Hm & Hok2). split; [intros Hcm; by apply Hnc, (so_calm _ _ _ _ _ Hok1)|].
      right. exists m. rewrite <- Ed in Hm. rewrite drop_length in Hm. split; [lia|].
      rewrite !app_nil_r in Hok1, Hok2. rewrite app_nil_r in Hok2. by eapply step_trans.
Qed.

(** Assigning a list to itself. *)
Lemma quiet_eff s s' n v : valof s n = Some (Some v) →
  eff s s' (nextof s) (upd_val (valof s) n (Some (Some v))) (length (nodes s)) → quiet s s'.
Proof.
  intros Hv [a b c d e f]. constructor; auto; [|lia]. intros m. rewrite b. unfold upd_val.
  case_decide; [by subst|done].
Qed.
Lemma assign_self_loop fuel : ∀ s i a b, owned s i (a ++ b) → length b < fuel →
  post (assign_loop fuel (lastpos (Head i) a) (dest b Nul) (SNodes (dest b Nul) Nul) s)
    (λ z s', (∃ p, z = (p, Nul, SNodes Nul Nul)) ∧ quiet s s' ∧ length (nodes s') = length (nodes s))
    (λ s', ¬ calm s ∧ b ≠ [] ∧ quiet s s').
Proof.
  induction fuel as [|fuel IH]; intros s i a b Ho Hf; [lia|]. cbn [assign_loop].
  destruct b as [|[n w] b].
  - cbn [dest fst]. rewrite decide_True by done. simpl. split; [by eexists|]. split; [apply quiet_refl|done].
  - cbn [dest fst]. rewrite decide_False by done. cbn [src_peek]. rewrite decide_False by done.
    assert (Ho2 := Ho). destruct Ho2 as [Hc _].
    apply chain_app in Hc as [Hca (HL & Hvn & Hcb)]. simpl in HL, Hvn, Hcb.
    apply post_bind. eapply post_conseq; [apply (assign_elem_post s n (LRef (Nod n)) w w)| |].
    { by exists n. } { done. }
    2:{ intros s' [Hnc Hq]. done. }
    intros [] s1 He1. assert (Hq1 := quiet_eff _ _ _ _ Hvn He1).
    assert (HL1 : nextof s1 (lastpos (Head i) a) = Some (Nod n)) by by rewrite (ef_next _ _ _ _ _ He1).
    assert (Hn1 : nextof s1 (Nod n) = Some (dest b Nul)).
    { rewrite (ef_next _ _ _ _ _ He1). by apply chain_next in Hcb. }
    unfold bind at 1. rewrite (get_next_eq _ _ _ HL1). unfold bind at 1. rewrite (get_next_eq _ _ _ Hn1).
    unfold bind at 1, src_step, bind at 1. rewrite (get_next_eq _ _ _ Hn1). unfold ret.
    assert (HI := IH s1 i (a ++ [(n, w)]) b). rewrite lastpos_app, <- app_assoc in HI. simpl in HI.
    specialize (HI (owned_quiet _ _ _ _ Ho Hq1) ltac:(simpl in Hf; lia)).
    eapply post_conseq; [exact HI| |].
    + intros r s2 (Hr & Hq2 & Hl2). split; [done|]. split; [by eapply quiet_trans|].
      rewrite Hl2. apply (ef_len _ _ _ _ _ He1).
    + intros s2 (Hnc & _ & Hq2). split; [intros Hcm; by apply Hnc, (qt_calm _ _ Hq1)|].
      split; [done|]. by eapply quiet_trans.
Qed.
Lemma assign_self_post s i xs : owned s i xs →
  post (assign i (SNodes (dest xs Nul) Nul) s)
    (λ _ s', quiet s s' ∧ length (nodes s') = length (nodes s)) (λ s', ¬ calm s ∧ xs ≠ [] ∧ quiet s s').
Proof.
  intros Ho. unfold assign. assert (Ho2 := Ho). destruct Ho2 as [Hc _].
  unfold bind at 1, begin_. rewrite (get_next_eq _ _ _ (chain_next _ _ _ _ Hc)).
  unfold bind at 1, gets. apply post_bind. assert (Hl := owned_length _ _ _ Ho).
  assert (HA := assign_self_loop (src_fuel (SNodes (dest xs Nul) Nul) s) s i [] xs Ho ltac:(simpl; lia)).
  eapply post_conseq; [exact HA| |done].
  intros r s1 ([p ->] & Hq & Hl1). done.
Qed.

(** Assigning a part [ys] of a list to the list. *)
Lemma overwrite_cons n (w v : V) b vs : overwrite ((n, w) :: b) (v :: vs) = (n, v) :: overwrite b vs.
Proof. done. Qed.
Lemma assign_part_loop fuel : ∀ s i d e ys c,
  owned s i (d ++ e ++ ys ++ c) → length ys < fuel →
  let b := e ++ ys ++ c in let q := dest c Nul in
  post (assign_loop fuel (lastpos (Head i) d) (dest b Nul) (SNodes (dest ys q) q) s)
    (λ z s', z = (lastpos (Head i) (d ++ overwrite b (vals ys)), dest (drop (length ys) b) Nul, SNodes q q) ∧
             length (nodes s') = length (nodes s) ∧
             step_ok s s' i (d ++ b) (d ++ overwrite b (vals ys) ++ drop (length ys) b))
    (λ s', ¬ calm s ∧ ∃ m, m < length ys ∧
       step_ok s s' i (d ++ b) (d ++ overwrite b (take m (vals ys)) ++ drop m b)).
Proof.
  induction fuel as [|fuel IH]; intros s i d e ys c Ho Hf b q; [lia|]. cbn [assign_loop].
  destruct ys as [|[m v] ys].
  - assert (Ez : (d ++ overwrite b (vals [])) = d).
    { unfold overwrite, vals. simpl. by rewrite zip_with_nil_r, app_nil_r. }
    assert (Hz : step_ok s s i (d ++ b) (d ++ overwrite b (vals []) ++ drop 0 b)).
    { rewrite app_assoc, Ez. by apply step_refl. }
    destruct b as [|[n w] b'] eqn:Eb; cbn [dest fst].
    + rewrite decide_True by done. cbn [post ret]. rewrite Ez. split_and!; done.
    + rewrite decide_False by done. cbn [src_peek]. rewrite decide_True by done.
      cbn [post ret]. rewrite Ez. split_and!; done.
  - assert (Ho2 := Ho). destruct Ho2 as [Hc Hnd].
    assert (Hvm : valof s m = Some (Some v)).
    { eapply chain_val; [exact Hc|]. rewrite !elem_of_app, elem_of_cons. auto. }
    assert (Hnm : nextof s (Nod m) = Some (dest ys q)).
    { rewrite app_assoc in Hc. apply chain_app in Hc as [_ Hc]. destruct Hc as (_ & _ & Hc).
      apply chain_next in Hc. by rewrite dest_app in Hc. }
    assert (Hqm : q ≠ Nod m).
    { unfold q. destruct c as [|[k u] c]; [done|]. intros [= ->]. rewrite !fmap_app in Hnd. simpl in Hnd.
      apply NoDup_app in Hnd as (_ & _ & Hnd). apply NoDup_app in Hnd as (_ & _ & Hnd).
      apply NoDup_cons in Hnd as [Hnd _]. apply Hnd. rewrite elem_of_app. right. simpl.
      rewrite elem_of_cons. by left. }
    destruct b as [|[n w] b'] eqn:Eb; [by destruct e|].
    cbn [dest fst]. rewrite decide_False by done. cbn [src_peek]. rewrite decide_False by done.
    assert (Hb' : ∃ e', b' = e' ++ ys ++ c).
    { unfold b in Eb. destruct e as [|x e]; simpl in Eb; injection Eb as -> <-; [by exists []|].
      exists (e ++ [(m, v)]). by rewrite <- app_assoc. }
    destruct Hb' as (e' & ->). unfold b in Eb. rewrite Eb in Ho, Hc.
    apply chain_app in Hc as [Hca (HL & Hvn & Hcb)]. simpl in HL, Hvn, Hcb.
    apply post_bind. eapply post_conseq; [apply (assign_elem_post s n (LRef (Nod m)) v w)| |].
    { by exists m. } { done. }
    2:{ intros s' [Hnc Hq]. split; [done|]. exists 0. simpl. split; [lia|]. unfold overwrite.
        rewrite ?zip_with_nil_r, ?drop_0. simpl. by apply step_quiet. }
    intros [] s1 He1. assert (Hok1 := set_step s s1 i d n v w _ Ho He1).
    assert (HL1 : nextof s1 (lastpos (Head i) d) = Some (Nod n)) by by rewrite (ef_next _ _ _ _ _ He1).
    assert (Hn1 : nextof s1 (Nod n) = Some (dest (e' ++ ys ++ c) Nul)).
    { rewrite (ef_next _ _ _ _ _ He1). by apply chain_next in Hcb. }
    assert (Hm1 : nextof s1 (Nod m) = Some (dest ys q)) by by rewrite (ef_next _ _ _ _ _ He1).
    unfold bind at 1. rewrite (get_next_eq _ _ _ HL1). unfold bind at 1. rewrite (get_next_eq _ _ _ Hn1).
    unfold bind at 1, src_step, bind at 1. rewrite (get_next_eq _ _ _ Hm1). unfold ret.
    assert (HI := IH s1 i (d ++ [(n, v)]) e' ys c). rewrite lastpos_app, <- !app_assoc in HI. simpl in HI.
    specialize (HI (so_owned _ _ _ _ _ Hok1) ltac:(simpl in Hf; lia)).
    eapply post_conseq; [exact HI| |].
    + intros r s2 (-> & Hl2 & Hok2). unfold vals in *. simpl. rewrite overwrite_cons. rewrite <- app_assoc. split_and!; [done| |].
      * rewrite Hl2. apply (ef_len _ _ _ _ _ He1).
      * rewrite <- ?app_assoc in Hok2. simpl in Hok2. by eapply step_trans.
    + intros s2 (Hnc & k & Hk & Hok2). split; [intros Hcm; by apply Hnc, (so_calm _ _ _ _ _ Hok1)|].
      exists (S k). split; [simpl; lia|].
      rewrite <- ?app_assoc in Hok2. simpl in Hok2. eapply step_trans; [exact Hok1|exact Hok2].
Qed.
Lemma assign_part_post s i e ys c : owned s i (e ++ ys ++ c) →
  let xs := e ++ ys ++ c in let q := dest c Nul in
  post (assign i (SNodes (dest ys q) q) s)
    (λ _ s', length (nodes s') = length (nodes s) ∧ step_ok s s' i xs (overwrite xs (vals ys)))
    (λ s', ¬ calm s ∧ ∃ m, m < length ys ∧ step_ok s s' i xs (overwrite xs (take m (vals ys)) ++ drop m xs)).
Proof.
  intros Ho xs q. unfold assign. assert (Ho2 := Ho). destruct Ho2 as [Hc Hnd].
  assert (Hl := owned_length _ _ _ Ho). rewrite !app_length in Hl.
  unfold bind at 1, begin_. rewrite (get_next_eq _ _ _ (chain_next _ _ _ _ Hc)).
  unfold bind at 1, gets. apply post_bind.
  assert (HA := assign_part_loop (src_fuel (SNodes (dest ys q) q) s) s i [] e ys c Ho ltac:(simpl; lia)).
  cbn [lastpos app] in HA. unfold before_begin. eapply post_conseq; [exact HA| |done].
  intros r s1 (-> & Hl1 & Hok1). fold xs q in Hok1 |- *. cbn [src_peek]. rewrite decide_True by done.
  destruct (drop (length ys) xs) as [|t zs] eqn:Ed; cbn [dest].
  - rewrite decide_True by done. rewrite app_nil_r in Hok1. done.
  - rewrite decide_False by done.
    assert (Ho1 : owned s1 i (overwrite xs (vals ys) ++ (t :: zs) ++ [])).
    { rewrite app_nil_r. apply (so_owned _ _ _ _ _ Hok1). }
    destruct (erase_range_eq s1 i _ _ _ Ho1) as (s2 & E2 & Hl2 & Hok2).
    cbn [dest fst] in E2. unfold end_. rewrite E2. simpl.
    rewrite !app_nil_r in Hok2. split; [lia|]. by eapply step_trans.
Qed.

(** Inserting a range that contains the position never ends. *)
Lemma insert_inside_diverges fuel : ∀ s i a b n v c q,
  owned s i ((a ++ (n, v) :: c) ++ b) → (∀ m, m ∈ (a ++ (n, v) :: c).*1 ∨ length (nodes s) ≤ m → q ≠ Nod m) →
  match insert_loop fuel (lastpos (Head i) (a ++ (n, v) :: c)) (SNodes (Nod n) q) s with
  | Ok _ _ => False | Throw _ => ¬ calm s | UB u => u = NoFuel
  end.
Proof.
  induction fuel as [|fuel IH]; intros s i a b n v c q Ho Hq; [done|]. cbn [insert_loop src_peek].
  rewrite decide_False.
  2:{ intros E. apply (Hq n); [|done]. left. rewrite fmap_app, elem_of_app. right. simpl. rewrite elem_of_cons. by left. }
  assert (Hx : argv s (LRef (Nod n)) v).
  { exists n. split; [done|]. destruct Ho as [Hc _]. eapply chain_val; [exact Hc|].
    rewrite !elem_of_app, elem_of_cons. auto. }
  assert (He := emplace_after_post s i _ _ _ _ Ho Hx). unfold bind at 1.
  destruct (emplace_after _ _ s) as [r s1|s1|u]; [|by destruct He|done].
  destruct He as (-> & Hl1 & Hok1 & _). set (N := length (nodes s)) in *. unfold src_step.
  assert (Ho1 := so_owned _ _ _ _ _ Hok1). assert (Ho2 := Ho1). destruct Ho2 as [Hc1 _].
  assert (Hn1 : ∃ n' v' c', c ++ [(N, v)] = (n', v') :: c').
  { destruct c as [|[n' v'] c]; [by exists N, v, []|]. by exists n', v', (c ++ [(N, v)]). }
  destruct Hn1 as (n' & v' & c' & Ec).
  assert (Elist : (a ++ (n, v) :: c) ++ (N, v) :: b = ((a ++ [(n, v)]) ++ (n', v') :: c') ++ b).
  { rewrite <- Ec. by rewrite <- !app_assoc. }
  assert (Hnx : nextof s1 (Nod n) = Some (Nod n')).
  { rewrite Elist, <- !app_assoc in Hc1. apply chain_app in Hc1 as [_ Hc1]. simpl in Hc1. by destruct Hc1 as (_ & _ & ? & _). }
  unfold bind at 1, bind at 1. rewrite (get_next_eq _ _ _ Hnx). unfold ret.
  assert (HI := IH s1 i (a ++ [(n, v)]) b n' v' c' q). rewrite <- Elist in HI. specialize (HI Ho1).
  assert (Hlp : lastpos (Head i) ((a ++ [(n, v)]) ++ (n', v') :: c') = Nod N).
  { rewrite <- Ec, app_assoc. by rewrite lastpos_app. }
  rewrite Hlp in HI.
  assert (Hq' : ∀ m, m ∈ ((a ++ [(n, v)]) ++ (n', v') :: c').*1 ∨ length (nodes s1) ≤ m → q ≠ Nod m).
  { intros m [Hm|Hm]; apply Hq; [|right; lia]. rewrite <- Ec in Hm. 
    assert (El : (a ++ [(n, v)]) ++ c ++ [(N, v)] = (a ++ (n, v) :: c) ++ [(N, v)]) by by rewrite <- !app_assoc.
    rewrite El, fmap_app, elem_of_app in Hm. destruct Hm as [Hm|Hm]; [by left|]. right.
    simpl in Hm. apply elem_of_list_singleton in Hm. lia. }
  specialize (HI Hq'). destruct (insert_loop fuel (Nod N) (SNodes (Nod n') q) s1); try done.
  intros Hcm. by apply HI, (so_calm _ _ _ _ _ Hok1).
Qed.

(** Reading. *)
Lemma read_loop_eq s fuel : ∀ b, seg s b Nul → length b < fuel → read_loop fuel (dest b Nul) s = Ok (vals b) s.
Proof.
  induction fuel as [|fuel IH]; intros b Hs Hf; [lia|]. cbn [read_loop]. destruct b as [|[n w] b].
  - cbn [dest fst]. by rewrite decide_True by done.
  - cbn [dest fst]. rewrite decide_False by done. destruct Hs as [Hv Hc]. simpl in Hv, Hc.
    unfold bind at 1. rewrite (deref_eq _ _ _ Hv). unfold bind at 1.
    rewrite (get_next_eq _ _ _ (chain_next _ _ _ _ Hc)). unfold bind at 1.
    rewrite IH; [done|by eapply chain_seg|simpl in Hf; lia].
Qed.
Lemma to_list_eq s i xs : owned s i xs → to_list i s = Ok (vals xs) s.
Proof.
  intros Ho. assert (Hl := owned_length _ _ _ Ho). destruct Ho as [Hc _].
  unfold to_list, begin_, bind, gets. rewrite (get_next_eq _ _ _ (chain_next _ _ _ _ Hc)).
  apply read_loop_eq; [by eapply chain_seg|lia].
Qed.
End chain.
