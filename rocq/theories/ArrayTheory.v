(** Proofs of the Array theorems stated in ArrayProps.v. *)
From stdpp Require Import list list_numbers functions.
From Verif Require Import Base ArrayModel ArraySpec ArrayRun ArrayProofs ArrayOps ArrayOps2 ArrayOps3 ArrayOps4 ArrayHistory ArrayObsSpec ArrayObs.
Local Open Scope mon_scope.

Section theory.
Context {V : Type}.
Implicit Types (l : list V) (cs : list (cell V)) (s : st V) (σ : astore V).
Notation heapT := (list (option (list (cell V)))).
Notation S_ h o r m k := (@mkSt V h o r m k).

Ltac spec1 :=
  intros σ Hσ; unfold spec_step; rewrite ?(good_get σ _ _ _ Hσ), ?(good_any σ _ _ _ Hσ); simpl.
Ltac throw1 :=
  intros σ σ' Hσ Ht; simpl in Ht;
  try (destruct Ht as (l0 & c0 & Hg & Ht); rewrite (good_get σ _ _ _ Hσ) in Hg; injection Hg as <- <-).
Local Ltac kp k l := assert (E : Nat.leb k (length l) = true) by (by apply Nat.leb_le).

Lemma obs_fun s i l c l' c' : obs s i l c → obs s i l' c' → l = l' ∧ c = c'.
Proof. intros [H1 H2] [H3 H4]. rewrite H1 in H3. rewrite H2 in H4. by simplify_eq. Qed.

(** ** Single-array calls *)
Lemma call_push s i l c v : reach s → obs s i l c →
  call (OPush i v) s i RUnit (l ++ [v]) (grown l c) (λ l'' c'', l'' = l ∧ (c'' = c ∨ c'' = grown l c)).
Proof.
  intros Hr Ho. eapply call_intro; [done..| |].
  - by spec1.
  - throw1. destruct Ht as [->| ->]; [exists l, c; split; [auto|by apply upd_same]|exists l, (grown l c); auto].
Qed.
Lemma call_emplace s i l c v : reach s → obs s i l c →
  call (OEmplace i v) s i (RIdx (length l)) (l ++ [v]) (grown l c)
    (λ l'' c'', l'' = l ∧ (c'' = c ∨ c'' = grown l c)).
Proof.
  intros Hr Ho. eapply call_intro; [done..| |].
  - by spec1.
  - throw1. destruct Ht as [->| ->]; [exists l, c; split; [auto|by apply upd_same]|exists l, (grown l c); auto].
Qed.
Lemma call_push_range s i l c xs : reach s → obs s i l c →
  call (OPushRange i xs) s i RUnit (l ++ xs) (Nat.max c (length l + length xs))
    (λ l'' _, ∃ k, l'' = l ++ take k xs ∧ (k = 0 ∨ k < length xs)).
Proof.
  intros Hr Ho. eapply call_intro; [done..| |].
  - by spec1.
  - throw1. destruct Ht as [->|(k & Hk & ->)].
    + exists l, c. split; [|by apply upd_same]. exists 0. simpl. rewrite app_nil_r. auto.
    + eexists _, _. split; [|done]. eauto.
Qed.
Lemma call_insert s i l c k v : reach s → obs s i l c → k ≤ length l →
  call (OInsert i k v) s i (RIdx k) (take k l ++ v :: drop k l) (grown l c)
    (λ l'' _, l'' = l ∨ ∃ x, l !! k = Some x ∧ length l < c ∧ l'' = take k l ++ x :: drop k l).
Proof.
  intros Hr Ho Hk. eapply call_intro; [done..| |].
  - spec1. kp k l. by rewrite E.
  - throw1. destruct Ht as [->|[[-> ->]|(x & Hx & Hc & ->)]].
    + exists l, c. split; [auto|by apply upd_same].
    + exists l, (grown l c). auto.
    + exists (take k l ++ x :: drop k l), c. split; [|done]. right. eauto.
Qed.
Lemma call_erase s i l c k : reach s → obs s i l c → k < length l →
  call (OErase i k) s i (RIdx k) (take k l ++ drop (S k) l) c never.
Proof.
  intros Hr Ho Hk. eapply call_intro; [done..| |].
  - spec1. assert (E : Nat.ltb k (length l) = true) by (by apply Nat.ltb_lt). by rewrite E.
  - by throw1.
Qed.
Lemma call_erase_range s i l c k m : reach s → obs s i l c → k ≤ m → m ≤ length l →
  call (OEraseRange i k m) s i (RIdx k) (take k l ++ drop m l) c never.
Proof.
  intros Hr Ho Hk Hm. eapply call_intro; [done..| |].
  - spec1. assert (E : Nat.leb k m && Nat.leb m (length l) = true).
    { apply andb_true_intro. split; by apply Nat.leb_le. } by rewrite E.
  - by throw1.
Qed.
Lemma call_pop s i l c v : reach s → obs s i (l ++ [v]) c → call (OPop i) s i RUnit l c never.
Proof.
  intros Hr Ho. eapply call_intro; [done..| |].
  - spec1. assert (E : Nat.ltb 0 (length (l ++ [v])) = true).
    { apply Nat.ltb_lt. rewrite app_length. simpl. lia. } rewrite E. simpl.
    rewrite app_length. simpl. rewrite take_app_alt; [done|lia].
  - by throw1.
Qed.
Lemma call_clear s i l c : reach s → obs s i l c → call (OClear i) s i RUnit [] c never.
Proof. intros Hr Ho. eapply call_intro; [done..| |]; [by spec1|by throw1]. Qed.
Lemma call_reserve s i l c n : reach s → obs s i l c →
  call (OReserve i n) s i RUnit l (Nat.max c n) (λ l'' c'', l'' = l ∧ c'' = c).
Proof.
  intros Hr Ho. eapply call_intro; [done..| |]; [by spec1|].
  throw1. subst. exists l, c. split; [done|by apply upd_same].
Qed.
Lemma call_resize s i l c n : reach s → obs s i l c →
  call (OResize i n) s i RUnit (take n l) n (λ l'' c'', l'' = l ∧ c'' = c).
Proof.
  intros Hr Ho. eapply call_intro; [done..| |]; [by spec1|].
  throw1. subst. exists l, c. split; [done|by apply upd_same].
Qed.
Lemma call_assign_list s i l c xs : reach s → obs s i l c →
  call (OAssignList i xs) s i RUnit xs (length xs) (λ l'' c'', l'' = l ∧ c'' = c).
Proof.
  intros Hr Ho. eapply call_intro; [done..| |]; [by spec1|].
  throw1. subst. exists l, c. split; [done|by apply upd_same].
Qed.

(** The range insert may leave the array in an unspecified state when it does
    not reallocate, so its throwing outcome is stated separately. *)
Lemma insert_range_call s i l c k xs : reach s → obs s i l c → k ≤ length l →
  match run_op true (OInsertRange i k xs) s with
  | Ok r s' => r = RIdx k ∧
      obs s' i (take k l ++ xs ++ drop k l)
        (if Nat.ltb c (length l + length xs) then c + length xs else c) ∧
      same_except i s s' ∧ reach s'
  | Throw s' => oracle s ≠ [] ∧ (c < length l + length xs → obs s' i l c) ∧
      same_except i s s' ∧ reach s'
  | UB _ => False
  end.
Proof.
  intros Hr Ho Hk.
  assert (Hsp : ∀ σ, σ !! i = Some (Some (Good l c)) → spec_step (OInsertRange i k xs) σ =
     Some (upd σ i (Good (take k l ++ xs ++ drop k l) (grown_mid l c (length xs))), RIdx k)).
  { spec1. kp k l. by rewrite E. }
  destruct (obs_get s i l c Hr Ho) as (σ & Hs & Hv & Hi).
  assert (Hst := step_sim true _ s σ _ _ Hs (or_introl eq_refl) (Hsp σ Hi)).
  assert (Hil : i < length σ) by (by eapply lookup_lt_Some).
  destruct (run_op true (OInsertRange i k xs) s) as [r' s'|s'|u] eqn:E; simpl in Hst; [| |done].
  - destruct Hst as (-> & Hs' & _). split_and!; [done| | |].
    + eapply srs_obs; [done|]. by apply list_lookup_insert.
    + intros j lj cj Hne Hj.
      destruct (obs_get2 s i l c j lj cj Hr (not_eq_sym Hne) Ho Hj) as (σ2 & Hs2 & _ & Hi2 & Hj2).
      assert (Hst := step_sim true _ s σ2 _ _ Hs2 (or_introl eq_refl) (Hsp σ2 Hi2)).
      rewrite E in Hst. destruct Hst as (_ & Hs2' & _).
      eapply srs_obs; [done|]. unfold upd. by rewrite list_lookup_insert_ne.
    + eapply reach_ret; [done|exact Hv|by apply Hsp|done].
  - destruct Hst as (Hor & _ & _ & σ' & Hth & Hs'). split_and!; [done| | |].
    + intros Hc. destruct Hth as (l0 & c0 & Hg & Hth). rewrite (good_get σ _ _ _ Hi) in Hg.
      injection Hg as <- <-. assert (Hb : Nat.ltb c (length l + length xs) = true) by (by apply Nat.ltb_lt).
      rewrite Hb in Hth. subst. by eapply srs_obs.
    + intros j lj cj Hne Hj.
      destruct (obs_get2 s i l c j lj cj Hr (not_eq_sym Hne) Ho Hj) as (σ2 & Hs2 & _ & Hi2 & Hj2).
      assert (Hst := step_sim true _ s σ2 _ _ Hs2 (or_introl eq_refl) (Hsp σ2 Hi2)).
      rewrite E in Hst. destruct Hst as (_ & _ & _ & σ2' & Hsth2 & Hs2').
      destruct Hsth2 as (l0 & c0 & Hg & Hth2). rewrite (good_get σ2 _ _ _ Hi2) in Hg.
      injection Hg as <- <-. eapply srs_obs; [done|].
      destruct (Nat.ltb c (length l + length xs)); subst; [done|].
      unfold upd. by rewrite list_lookup_insert_ne.
    + eapply reach_exn; [done|exact Hv|by apply Hsp|done].
Qed.

(** ** Constructors *)
Lemma call_new_intro (o : op V) s l c (Q : astore V → Prop) : reach s →
  (∃ σ, srs true s σ ∧ Q σ) →
  (∀ j lj cj, obs s j lj cj → ∃ σ, srs true s σ ∧ Q σ ∧ σ !! j = Some (Some (Good lj cj))) →
  (∀ σ, Q σ → spec_step o σ = Some (σ ++ [Some (Good l c)], RNew (length σ))) →
  (∀ σ σ', spec_throw o σ σ' → σ' = σ) →
  call_new o s l c.
Proof.
  intros Hr (σ & Hs & HQ) Hj Hsp Hth. unfold call_new.
  assert (Hst := step_sim true o s σ _ _ Hs (or_introl eq_refl) (Hsp σ HQ)).
  assert (Hlen : ∀ s σ, srs true s σ → length (objs s) = length σ).
  { intros s0 σ0 Hv%srs_view. apply Hv. }
  destruct (run_op true o s) as [r' s'|s'|u] eqn:E; simpl in Hst; [| |done].
  - destruct Hst as (-> & Hs' & _). rewrite (Hlen s σ Hs). split_and!; [done| | |].
    + eapply srs_obs; [done|]. by rewrite lookup_app_r, Nat.sub_diag by done.
    + intros j lj cj Ho. destruct (Hj j lj cj Ho) as (σ2 & Hs2 & HQ2 & Hj2).
      assert (Hst := step_sim true o s σ2 _ _ Hs2 (or_introl eq_refl) (Hsp σ2 HQ2)).
      rewrite E in Hst. destruct Hst as (_ & Hs2' & _).
      eapply srs_obs; [done|]. by apply lookup_app_l_Some.
    + eapply reach_ret; [done|by apply srs_view|by apply Hsp|done].
  - destruct Hst as (Hor & _ & _ & σ' & Ht & Hs'). apply Hth in Ht as ->. split_and!; [done| | |].
    + intros j lj cj Ho. destruct (Hj j lj cj Ho) as (σ2 & Hs2 & HQ2 & Hj2).
      assert (Hst := step_sim true o s σ2 _ _ Hs2 (or_introl eq_refl) (Hsp σ2 HQ2)).
      rewrite E in Hst. destruct Hst as (_ & _ & _ & σ' & Ht & Hs2').
      apply Hth in Ht as ->. by eapply srs_obs.
    + by rewrite (Hlen _ _ Hs), (Hlen _ _ Hs').
    + eapply reach_exn; [done|by apply srs_view|by apply Hsp|done].
Qed.
Lemma call_new_plain (o : op V) s l c : reach s →
  (∀ σ, spec_step o σ = Some (σ ++ [Some (Good l c)], RNew (length σ))) →
  (∀ σ σ', spec_throw o σ σ' → σ' = σ) → call_new o s l c.
Proof.
  intros Hr Hsp Hth. apply (call_new_intro _ _ _ _ (λ _, True)); [done| | |auto|auto].
  - destruct (reach_srs s Hr) as [σ ?]. eauto.
  - intros j lj cj Ho. destruct (obs_get s j lj cj Hr Ho) as (σ & ? & ? & ?). eauto.
Qed.
Lemma call_default s : reach s → call_new ODefault s [] 0.
Proof. intros. by apply call_new_plain. Qed.
Lemma call_cap s n : reach s → call_new (OCap n) s [] n.
Proof. intros. by apply call_new_plain. Qed.
Lemma call_fill s n v : reach s → call_new (OFill n v) s (replicate n v) n.
Proof. intros. by apply call_new_plain. Qed.
Lemma call_range s l : reach s → call_new (ORange l) s l (length l).
Proof. intros. by apply call_new_plain. Qed.
Lemma call_copy s j l c : reach s → obs s j l c → call_new (OCopy j) s l (length l).
Proof.
  intros Hr Ho. apply (call_new_intro _ _ _ _ (λ σ, σ !! j = Some (Some (Good l c)))); [done| | | |auto].
  - destruct (obs_get s j l c Hr Ho) as (σ & ? & ? & ?). eauto.
  - intros j' lj cj Hj'. destruct (decide (j = j')) as [<-|Hne].
    + destruct (obs_get s j l c Hr Ho) as (σ & ? & ? & ?). exists σ. split_and!; [done..|].
      by destruct (obs_fun _ _ _ _ _ _ Ho Hj') as [<- <-].
    + destruct (obs_get2 s j l c j' lj cj Hr Hne Ho Hj') as (σ & ? & ? & ? & ?). eauto.
  - intros σ Hσ. simpl. by rewrite (good_get σ _ _ _ Hσ).
Qed.


Lemma call_assign_copy s i j l c l' c' : reach s → obs s i l c → obs s j l' c' →
  call (OAssignCopy i j) s i RUnit l' (length l') (λ l'' c'', l'' = l ∧ c'' = c).
Proof.
  intros Hr Hi Hj. unfold call.
  assert (Hsp : ∀ σ, σ !! i = Some (Some (Good l c)) → σ !! j = Some (Some (Good l' c')) →
     spec_step (OAssignCopy i j) σ = Some (upd σ i (Good l' (length l')), RUnit)).
  { intros σ Hσi Hσj. simpl. by rewrite (good_any σ _ _ _ Hσi), (good_get σ _ _ _ Hσj). }
  assert (Hg : ∃ σ, srs true s σ ∧ σ !! i = Some (Some (Good l c)) ∧ σ !! j = Some (Some (Good l' c'))).
  { destruct (decide (i = j)) as [<-|Hne].
    - destruct (obs_fun _ _ _ _ _ _ Hi Hj) as [<- <-]. destruct (obs_get s i l c Hr Hi) as (σ & ? & ? & ?). eauto.
    - destruct (obs_get2 s i l c j l' c' Hr Hne Hi Hj) as (σ & ? & ? & ? & ?). eauto. }
  assert (Hg3 : ∀ n ln cn, obs s n ln cn → ∃ σ, srs true s σ ∧ σ !! i = Some (Some (Good l c)) ∧
      σ !! j = Some (Some (Good l' c')) ∧ σ !! n = Some (Some (Good ln cn))).
  { intros n ln cn Hn. destruct Hg as (σ & Hs & Hσi & Hσj).
    destruct (obs_upd s σ n ln cn (srs_view _ _ Hs) Hn) as [Hv Hnl].
    exists (upd σ n (Good ln cn)). split_and!; [by eapply view_srs| | |by apply list_lookup_insert].
    - unfold upd. destruct (decide (n = i)) as [->|]; [|by rewrite list_lookup_insert_ne].
      destruct (obs_fun _ _ _ _ _ _ Hi Hn) as [<- <-]. by rewrite list_lookup_insert.
    - unfold upd. destruct (decide (n = j)) as [->|]; [|by rewrite list_lookup_insert_ne].
      destruct (obs_fun _ _ _ _ _ _ Hj Hn) as [<- <-]. by rewrite list_lookup_insert. }
  destruct Hg as (σ & Hs & Hσi & Hσj).
  assert (Hst := step_sim true _ s σ _ _ Hs (or_introl eq_refl) (Hsp σ Hσi Hσj)).
  assert (Hil : i < length σ) by (by eapply lookup_lt_Some).
  destruct (run_op true (OAssignCopy i j) s) as [r' s'|s'|u] eqn:E; simpl in Hst; [| |done].
  - destruct Hst as (-> & Hs' & _). split_and!; [done| | |].
    + eapply srs_obs; [done|]. by apply list_lookup_insert.
    + intros n ln cn Hne Hn. destruct (Hg3 n ln cn Hn) as (σ2 & Hs2 & Hi2 & Hj2 & Hn2).
      assert (Hst := step_sim true _ s σ2 _ _ Hs2 (or_introl eq_refl) (Hsp σ2 Hi2 Hj2)).
      rewrite E in Hst. destruct Hst as (_ & Hs2' & _).
      eapply srs_obs; [done|]. unfold upd. by rewrite list_lookup_insert_ne.
    + eapply reach_ret; [done|by apply srs_view|by apply Hsp|done].
  - destruct Hst as (Hor & _ & _ & σ' & -> & Hs'). split_and!; [done| | |].
    + exists l, c. split; [done|]. by eapply srs_obs.
    + intros n ln cn Hne Hn. destruct (Hg3 n ln cn Hn) as (σ2 & Hs2 & Hi2 & Hj2 & Hn2).
      assert (Hst := step_sim true _ s σ2 _ _ Hs2 (or_introl eq_refl) (Hsp σ2 Hi2 Hj2)).
      rewrite E in Hst. destruct Hst as (_ & _ & _ & σ' & -> & Hs2'). by eapply srs_obs.
    + eapply reach_exn; [done|by apply srs_view|by apply Hsp|done].
Qed.

(** ** Accessors *)
Lemma reads_all s i l c : reach s → obs s i l c →
  reads (OSize i) s (RNat (length l)) ∧
  reads (OCapacity i) s (RNat c) ∧
  reads (OEmpty i) s (RBool (Nat.eqb (length l) 0)) ∧
  reads (OToList i) s (RList l) ∧
  (∀ k v, l !! k = Some v → reads (OGet i k) s (RVal v)) ∧
  (∀ v, head l = Some v → reads (OFront i) s (RVal v)) ∧
  (∀ v, list.last l = Some v → reads (OBack i) s (RVal v)) ∧
  length l ≤ c ∧
  (∀ k, c ≤ k → ∃ u, run_op true (OGet i k) s = UB u).
Proof.
  intros Hr Ho. destruct (obs_rep s i l c Hr Ho) as (a & own & Ha & HR).
  destruct s as [h o r m k]. simpl in *. unfold reads, run_op.
  assert (Hat : ∀ k0 v, l !! k0 = Some v → at_ i k0 (S_ h o r m k) = Ok v (S_ h o r m k)).
  { intros k0 v Hk. unfold at_, bind. erewrite index_eq; [|done..|].
    2:{ apply lookup_lt_Some in Hk. lia. }
    destruct own as [b|]; simpl in HR; [|destruct HR as (_ & -> & _); done]. simpl.
    destruct HR as (tl & _ & Hh & _).
    unfold load, bind. rewrite (get_cell_eq _ _ _ _ _ _ _ _ (Live v) Hh); [done|].
    apply lookup_app_l_Some. by rewrite list_lookup_fmap, Hk. }
  split_and!.
  - unfold bind. by erewrite size_eq_rep.
  - unfold bind. by erewrite capacity_eq_rep.
  - unfold bind, empty, bind. by erewrite size_eq_rep.
  - unfold bind. by erewrite to_list_eq.
  - intros k0 v Hk. unfold bind. by rewrite (Hat k0 v).
  - intros v Hv. destruct l as [|w l]; [done|]. injection Hv as ->.
    assert (H0 := Hat 0 v eq_refl). unfold front. unfold at_, index in H0.
    unfold bind in *. erewrite begin_eq in H0 |- * by done.
    destruct own as [b|]; simpl in HR; [|by destruct HR as (_ & ? & _)]. destruct HR as (tl & -> & Hh & _).
    simpl in H0 |- *. unfold padd in H0. simpl in H0. rewrite Hh in H0. simpl in H0. by rewrite H0.
  - intros v Hv. destruct (exists_last (l := l)) as (l0 & w & El); [by intros ->|].
    subst l. rewrite last_snoc in Hv. injection Hv as ->.
    assert (H0 := Hat (length l0) v). rewrite lookup_app_r, Nat.sub_diag in H0 by done.
    specialize (H0 eq_refl). unfold back, end_. unfold at_ in H0. unfold bind in *.
    erewrite index_eq in H0; [|done..|]. 2:{ rewrite app_length. simpl. lia. }
    erewrite get_arr_eq by done. unfold ret at 1.
    destruct own as [b|]; simpl in HR; [|destruct HR as (_ & ? & _); by destruct l0].
    destruct HR as (tl & -> & Hh & _). cbn [a_end]. rewrite app_length. simpl.
    unfold psub. simpl. rewrite Hh. rewrite Nat.add_1_r. simpl. simpl in H0. rewrite Nat.sub_0_r. by rewrite H0.
  - destruct own as [b|]; simpl in HR; [destruct HR as (tl & _ & _ & -> & _); lia|].
    destruct HR as (_ & -> & ->). done.
  - intros n Hn. unfold bind at 1, at_, index, bind at 1 2. erewrite begin_eq by done.
    destruct own as [b|]; simpl in HR.
    + destruct HR as (tl & _ & Hh & -> & _). unfold padd. simpl. rewrite Hh.
      destruct (Nat.leb _ _); [|eauto].
      unfold load, bind, get_cell. simpl. rewrite Hh. rewrite lookup_ge_None_2; [eauto|].
      by rewrite app_length, map_length.
    + simpl. unfold padd. destruct (Nat.eqb n 0); simpl; eauto.
Qed.

(** ** Ownership of memory *)
Lemma live_block_owned s b cs : reach s → heap s !! b = Some (Some cs) →
  ∃ i, (begin_ i s = Ok (Ptr b 0) s ∧ capacity i s = Ok (length cs) s) ∧
       ∀ j, begin_ j s = Ok (Ptr b 0) s → j = i.
Proof.
  intros Hr Hb. destruct (reach_srs s Hr) as [σ [ow H]].
  destruct (sr_all _ _ _ _ _ H b cs Hb) as [i Hi].
  assert (Hobj : ∀ j, begin_ j s = Ok (Ptr b 0) s → ow j = Some b).
  { intros j Hj. destruct s as [h o r m k]. simpl in *.
    unfold begin_, bind, get_arr in Hj. simpl in Hj. destruct (o !! j) as [[a|]|] eqn:Ea; try done.
    assert (Hlt := lookup_lt_Some _ _ _ Ea). rewrite (sr_len _ _ _ _ _ H) in Hlt.
    destruct (lookup_lt_is_Some_2 σ j Hlt) as [[x|] Hx].
    - destruct (sr_obj _ _ _ _ _ H j x Hx) as (a' & Ha' & HR). simplify_eq.
      injection Hj as Hj. destruct x as [l c|c]; simpl in HR.
      + destruct (ow j); simpl in HR; [destruct HR as (tl & -> & _)|destruct HR as (-> & _)]; by simplify_eq/=.
      + destruct HR as (_ & n & HR).
        destruct (ow j); simpl in HR; [destruct HR as (tl & -> & _)|destruct HR as (-> & _)]; by simplify_eq/=.
    - destruct (sr_dead _ _ _ _ _ H j Hx) as (Ha' & _). by simplify_eq. }
  exists i. split.
  - destruct (lookup_lt_is_Some_2 σ i) as [[x|] Hx].
    { destruct (decide (i < length σ)); [done|]. rewrite (sr_dom _ _ _ _ _ H i) in Hi; [done|lia]. }
    + destruct (sr_obj _ _ _ _ _ H i x Hx) as (a & Ha & HR). rewrite Hi in HR.
      destruct s as [h o r m k]. simpl in *. unfold begin_, capacity, bind. erewrite get_arr_eq by done.
      destruct x as [l c|c]; simpl in HR.
      * destruct HR as (tl & -> & Hh & -> & _). rewrite Hb in Hh. simplify_eq. simpl.
        unfold pdiff. simpl. rewrite Nat.eqb_refl, Nat.sub_0_r, app_length, map_length. done.
      * destruct HR as (_ & n & tl & -> & Hh & -> & _). rewrite Hb in Hh. simplify_eq. simpl.
        unfold pdiff. simpl. by rewrite Nat.eqb_refl, Nat.sub_0_r.
    + destruct (sr_dead _ _ _ _ _ H i Hx) as (_ & ?). by simplify_eq.
  - intros j Hj. eapply (sr_inj _ _ _ _ _ H); [by apply Hobj|done].
Qed.

Lemma all_destroyed_no_block s : reach s → (∀ i, i < length (objs s) → objs s !! i = Some None) →
  ∀ b cs, heap s !! b ≠ Some (Some cs).
Proof.
  intros Hr Hd b cs Hb. destruct (live_block_owned s b cs Hr Hb) as (i & [Hi _] & _).
  unfold begin_, bind, get_arr in Hi. destruct (objs s !! i) as [[a|]|] eqn:E; try done.
  specialize (Hd i (lookup_lt_Some _ _ _ E)). by simplify_eq.
Qed.

(** ** No reallocation, amortisation *)
Lemma result_begin i (h : heapT) o r k own l' c' own' s' :
  i < length o → result true i h o r k own l' c' own' s' → begin_ i s' = Ok (pos_ptr own' 0) s'.
Proof.
  intros Hi (a' & Ho & _ & _ & _ & HR). destruct s' as [h' o' r' m' k']. simpl in *.
  eapply begin_eq; [|done]. rewrite Ho. by apply list_lookup_insert.
Qed.

Lemma no_realloc (o : op V) s i l c r s' p : reach s → obs s i l c → fits o i l c →
  run_op true o s = Ok r s' → begin_ i s = Ok p s → begin_ i s' = Ok p s'.
Proof.
  intros Hr Ho Hf Hrun Hb. destruct (obs_rep s i l c Hr Ho) as (a & own & Ha & HR).
  destruct s as [h ob rc m k]. simpl in *. assert (Hil := lookup_lt_Some _ _ _ Ha).
  erewrite begin_eq in Hb by done. injection Hb as <-.
  assert (Hidx : ∀ q s0, idx_of i q s0 = Ok r s' → s0 = s').
  { intros q s0. unfold idx_of, begin_, bind, get_arr, pdiff, ret, fail. repeat case_match; congruence. }
  destruct o; simpl in Hf; try done; simpl in Hrun.
  - (* clear *) subst. unfold bind at 1 in Hrun.
    assert (Hs := clear_post true i a own l c h ob rc m k Ha HR). 
    destruct Hs as (s1 & E1 & Hres & _).
    rewrite E1 in Hrun. unfold ret in Hrun. injection Hrun as <- <-. by eapply result_begin.
  - (* reserve *) destruct Hf as [-> Hn]. unfold bind at 1 in Hrun.
    assert (Hs := reserve_post true i n a own l c h ob rc m k Ha HR (or_introl eq_refl)).
    destruct (reserve true i n (S_ h ob rc m k)); simpl in Hs; try done.
    destruct Hs as (own' & Hres & Heq). unfold ret in Hrun. injection Hrun as <- <-.
    rewrite Heq in Hres by done. by eapply result_begin.
  - (* insert *) destruct Hf as (-> & Hk & Hc). unfold bind at 1 in Hrun.
    erewrite index_eq in Hrun by done. unfold bind at 1 in Hrun.
    assert (Hs := insert_post true i k0 v a own l c h ob rc m k Ha HR Hk (or_introl eq_refl)).
    destruct (insert true i (pos_ptr own k0) (AVal v) (S_ h ob rc m k)); simpl in Hs; try done.
    destruct Hs as (b' & Hres & -> & Heq). apply Hidx in Hrun as ->. rewrite (Heq Hc). by eapply result_begin.
  - (* insert range *) destruct Hf as (-> & Hk & Hc). unfold bind at 1 in Hrun.
    erewrite index_eq in Hrun by done. unfold bind at 1 in Hrun.
    assert (Hs := insert_range_post i k0 (map AVal l0) l0 a own l c h ob rc m k Ha HR Hk).
    destruct (insert_range true i (pos_ptr own k0) (map AVal l0) (S_ h ob rc m k)); simpl in Hs; try done.
    + destruct Hs as (own' & Hres & -> & Heq).
      { intros h' b' _ _. clear. induction l0; simpl; constructor; done. }
      { by rewrite map_length. }
      apply Hidx in Hrun as ->. rewrite map_length in Heq. rewrite <-(Heq Hc). by eapply result_begin.
  - (* push *) destruct Hf as (-> & Hc). unfold bind at 1, push_back, bind at 1 in Hrun.
    assert (Hs := emplace_back_post true i (AVal v) v a own l c h ob rc m k Ha HR (or_introl eq_refl) eq_refl).
    destruct (emplace_back true i (AVal v) (S_ h ob rc m k)); simpl in Hs; [|done..].
    destruct Hs as (b' & Hres & -> & Heq & _); [done|]. unfold ret in Hrun. injection Hrun as <- <-.
    rewrite (Heq Hc). by eapply result_begin.
  - (* emplace *) destruct Hf as (-> & Hc). unfold bind at 1 in Hrun.
    assert (Hs := emplace_back_post true i (AVal v) v a own l c h ob rc m k Ha HR (or_introl eq_refl) eq_refl).
    destruct (emplace_back true i (AVal v) (S_ h ob rc m k)); simpl in Hs; [|done..].
    destruct Hs as (b' & Hres & -> & Heq & _); [done|]. apply Hidx in Hrun as ->.
    rewrite (Heq Hc). by eapply result_begin.
  - (* push range *) destruct Hf as (-> & Hc). unfold bind at 1 in Hrun.
    assert (Hs := push_back_range_post true i (map AVal l0) l0 a own l c h ob rc m k Ha HR (or_introl eq_refl)).
    destruct (push_back_range true i (map AVal l0) (S_ h ob rc m k)); simpl in Hs; [|done..].
    destruct Hs as (own' & Hres & Heq).
    { intros h' b' _. clear. induction l0; simpl; constructor; done. }
    { by rewrite map_length. }
    rewrite map_length in Heq. unfold ret in Hrun. injection Hrun as <- <-.
    rewrite <-(Heq Hc). by eapply result_begin.
  - (* pop *) destruct Hf as (-> & Hne). destruct (exists_last Hne) as (l0 & v & ->).
    destruct (pop_back_post true i a own l0 v c h ob rc m k Ha HR) as (s1 & E1 & Hres & _).
    unfold bind at 1 in Hrun. rewrite E1 in Hrun. unfold ret in Hrun. injection Hrun as <- <-. by eapply result_begin.
  - (* erase *) destruct Hf as (-> & Hk). unfold bind at 1 in Hrun.
    erewrite index_eq in Hrun; [|done|done|lia]. destruct own as [b|].
    2:{ simpl in HR. destruct HR as (_ & -> & _). simpl in Hk. lia. }
    destruct (lookup_lt_is_Some_2 l k0 Hk) as [v Hv].
    rewrite <-(take_drop_middle l k0 v Hv) in HR.
    destruct (erase_post true i a b _ _ _ c h ob rc m k Ha HR (or_introl eq_refl)) as (s1 & E1 & Hres & _).
    rewrite take_length_le in E1 by lia. simpl in Hrun. unfold bind at 1 in Hrun.
    rewrite E1 in Hrun. apply Hidx in Hrun as ->. by eapply (result_begin _ _ _ _ _ _ _ _ (Some b)).
  - (* erase range *) destruct Hf as (-> & Hk & Hm). unfold bind at 1 in Hrun.
    erewrite index_eq in Hrun; [|done|done|lia]. unfold bind at 1 in Hrun.
    erewrite index_eq in Hrun; [|done|done|lia]. destruct own as [b|].
    + assert (El : l = take k0 l ++ take (m0 - k0) (drop k0 l) ++ drop m0 l).
      { rewrite <-(take_drop k0 l) at 1. f_equal. rewrite <-(take_drop (m0 - k0) (drop k0 l)) at 1.
        f_equal. rewrite drop_drop. f_equal. lia. }
      rewrite El in HR.
      destruct (erase_range_post true i a b _ _ _ c h ob rc m k Ha HR (or_introl eq_refl)) as (s1 & E1 & Hres & _).
      rewrite !app_length in E1 || idtac.
      rewrite take_length_le in E1 by lia. rewrite take_length_le in E1 by (rewrite drop_length; lia).
      replace (k0 + (m0 - k0)) with m0 in E1 by lia.
      simpl in Hrun. unfold bind at 1 in Hrun. rewrite E1 in Hrun. apply Hidx in Hrun as ->.
      by eapply (result_begin _ _ _ _ _ _ _ _ (Some b)).
    + simpl in HR. destruct HR as (-> & -> & ->). simpl in Hm, Hrun.
      assert (m0 = 0) as -> by lia.
      unfold bind at 1 in Hrun. erewrite erase_range_null in Hrun by done.
      apply Hidx in Hrun as <-. unfold begin_, bind, get_arr. simpl. by rewrite list_lookup_insert.
Qed.

Lemma push_amortised vs : ∀ s i l c rs s', reach s → obs s i l c →
  run_ops true (map (OPush i) vs) s = Ok rs s' →
  ∃ c', obs s' i (l ++ vs) c' ∧
        moved s' + c ≤ moved s + c' ∧ c ≤ c' ≤ Nat.max c (2 * (length l + length vs) - 1).
Proof.
  induction vs as [|v vs IH]; intros s i l c rs s' Hr Ho Hrun; cbn [map run_ops] in Hrun.
  - unfold ret in Hrun. injection Hrun as <- <-. exists c. rewrite app_nil_r. split; [done|]. simpl. lia.
  - unfold bind at 1 in Hrun. assert (Hc := call_push s i l c v Hr Ho). unfold call in Hc.
    destruct (run_op true (OPush i v) s) as [r1 s1|s1|u] eqn:E; try done.
    destruct Hc as (-> & Ho1 & _ & Hr1).
    unfold bind in Hrun. destruct (run_ops true (map (OPush i) vs) s1) as [rs2 s2|s2|u] eqn:E2; try done.
    unfold ret in Hrun. injection Hrun as _ <-.
    destruct (IH s1 i _ _ _ _ Hr1 Ho1 E2) as (c' & Ho' & Hm & Hle & Hc'). exists c'.
    rewrite <-(assoc_L app) in Ho'. split; [done|].
    assert (Hmv : moved s1 = (if length l =? c then length l else 0) + moved s ∧ length l ≤ c).
    { destruct (obs_rep s i l c Hr Ho) as (a & own & Ha & HR). destruct s as [h o r m k]. simpl in *.
      unfold run_op, bind at 1, push_back, bind at 1 in E.
      assert (Hs := emplace_back_post true i (AVal v) v a own l c h o r m k Ha HR (or_introl eq_refl) eq_refl).
      destruct (emplace_back true i (AVal v) (S_ h o r m k)); simpl in Hs; [|done..].
      destruct Hs as (b' & Hres & -> & Heq & Hm1); [done|]. unfold ret in E. injection E as <-. split; [done|].
      destruct own as [b|]; simpl in HR; [destruct HR as (tl & _ & _ & -> & _); lia|].
      destruct HR as (_ & -> & ->). done. }
    destruct Hmv as [Hmv Hlc]. rewrite app_length in Hc'. simpl in Hc'. unfold grown in *.
    destruct (length l =? c) eqn:El; [apply Nat.eqb_eq in El|]; simpl; lia.
Qed.

(** ** Independence *)
Lemma spec_frame (o : op V) σ σ1 r j x : spec_step o σ = Some (σ1, r) → j ∉ targets o →
  σ !! j = Some x → σ1 !! j = Some x.
Proof.
  intros Hs Ht Hj. assert (Hjl := lookup_lt_Some _ _ _ Hj).
  destruct o; simpl in Hs, Ht; unfold guard_ in Hs;
  repeat match goal with
  | H : (match ?e with _ => _ end) = Some _ |- _ => destruct e eqn:?; try done
  | H : mbind _ ?e = Some _ |- _ => destruct e eqn:?; simpl in H; try done
  | p : _ * _ |- _ => destruct p
  end; simplify_eq; unfold upd;
  rewrite ?elem_of_cons in Ht;
  rewrite ?list_lookup_insert_ne by (intros ->; apply Ht; auto);
  try done; try (by apply lookup_app_l_Some);
  apply lookup_app_l_Some; rewrite ?list_lookup_insert_ne by (intros ->; apply Ht; auto); done.
Qed.
Lemma throw_frame (o : op V) σ σ' j x : spec_throw o σ σ' → j ∉ targets o →
  σ !! j = Some x → σ' !! j = Some x.
Proof.
  intros Hs Ht Hj.
  destruct o; simpl in Hs, Ht; try done; subst; try done; rewrite ?elem_of_cons in Ht;
  destruct Hs as (l0 & c0 & _ & Hs); repeat (case_match; try done); naive_solver eauto using list_lookup_insert_ne || 
  (unfold upd in *; destruct_or?; destruct_and?; naive_solver (rewrite ?list_lookup_insert_ne by (intros ->; apply Ht; auto); done)).
Qed.
End theory.
