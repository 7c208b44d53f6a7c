From stdpp Require Import list list_numbers functions.
From Verif Require Import Base ArrayModel ArraySpec ArrayRun ArrayProofs ArrayOps ArrayOps2 ArrayOps3 ArrayOps4 ArrayHistory ArrayObsSpec.
Local Open Scope mon_scope.

Section obs.
Context {V : Type}.
Implicit Types (l : list V) (cs : list (cell V)) (s : st V) (σ : astore V).
Notation heapT := (list (option (list (cell V)))).
Notation S_ h o r m k := (@mkSt V h o r m k).

Lemma to_list_eq triv (h : heapT) o r m k i a own l c :
  o !! i = Some (Some a) → arr_rep triv h a own l c →
  to_list i (S_ h o r m k) = Ok l (S_ h o r m k).
Proof.
  intros Ha HR. unfold to_list. unfold bind at 1. erewrite size_eq_rep by eauto.
  unfold bind at 1, begin_, bind at 1. erewrite get_arr_eq by done. simpl.
  destruct own as [b|]; simpl in HR.
  - destruct HR as (tl & -> & Hh & _). simpl. change (Ptr b 0) with (Ptr b (length (@nil (cell V)))).
    by erewrite read_loop_eq.
  - destruct HR as (-> & -> & _). done.
Qed.

Lemma read_loop_inv (h : heapT) o r m k b cs n : ∀ p l s',
  h !! b = Some (Some cs) → p + n ≤ length cs →
  read_loop n (Ptr b p) (S_ h o r m k) = Ok l s' →
  take n (drop p cs) = map Live l.
Proof.
  induction n as [|n IH]; intros p l s' Hh Hle; simpl.
  - unfold ret. intros [= <- _]. done.
  - unfold bind at 1. destruct (lookup_lt_is_Some_2 cs p) as [c Hc]; [lia|].
    unfold load, bind at 1. erewrite get_cell_eq by done. destruct c as [|v|]; try done. simpl.
    unfold bind at 1. erewrite padd_eq; [|exact Hh|lia].
    unfold bind at 1. destruct (read_loop n (Ptr b (p + 1)) (S_ h o r m k)) as [l1 s1|s1|u] eqn:E; try done.
    intros [= <- _]. apply IH in E; [|done|lia].
    rewrite (drop_S cs (Live v) p) by done. simpl. rewrite Nat.add_1_r in E. by rewrite E.
Qed.

Lemma view_cap s σ i x : view s σ → σ !! i = Some (Some x) → capacity i s = Ok (acap x) s.
Proof. intros [_ Hv] Hi. specialize (Hv i). rewrite Hi in Hv. destruct x; [apply Hv|done]. Qed.

Lemma capacity_obj (h : heapT) o r m k i c s' :
  capacity i (S_ h o r m k) = Ok c s' → ∃ a, o !! i = Some (Some a).
Proof. unfold capacity, bind, get_arr. simpl. destruct (o !! i) as [[a|]|]; try done. eauto. Qed.

Lemma srs_view s σ : srs true s σ → view s σ.
Proof.
  intros [ow H]. split; [apply (sr_len _ _ _ _ _ H)|]. intros i.
  destruct s as [h o r m k]. destruct (σ !! i) as [[x|]|] eqn:E; [|..].
  - destruct (sr_obj _ _ _ _ _ H i x E) as (a & Ha & HR). simpl in Ha. destruct x as [l c|c]; simpl in HR.
    + split; [by eapply to_list_eq|by eapply capacity_eq_rep].
    + destruct HR as (_ & n & HR). by eapply capacity_eq.
  - destruct (sr_dead _ _ _ _ _ H i E) as (Ha & _). simpl in Ha.
    unfold capacity, bind, get_arr. simpl. by rewrite Ha.
  - done.
Qed.

Lemma view_srs s σ0 σ : srs true s σ0 → view s σ → srs true s σ.
Proof.
  intros [ow H] [Hlen Hv]. exists ow. destruct s as [h o r m k]. simpl in *.
  assert (Hlen0 := sr_len _ _ _ _ _ H).
  assert (Hx0 : ∀ i a, o !! i = Some (Some a) → ∃ x, σ0 !! i = Some (Some x) ∧ obj_rep true h a (ow i) x).
  { intros i a Ha. destruct (lookup_lt_is_Some_2 σ0 i) as [[x|] Hx].
    { apply lookup_lt_Some in Ha. lia. }
    - destruct (sr_obj _ _ _ _ _ H i x Hx) as (a' & Ha' & HR). simplify_eq. eauto.
    - destruct (sr_dead _ _ _ _ _ H i Hx) as (Ha' & _). simplify_eq. }
  split; [done| | | |apply (sr_inj _ _ _ _ _ H)|apply (sr_all _ _ _ _ _ H)].
  - intros i x Hx. specialize (Hv i). rewrite Hx in Hv. destruct x as [l c|c].
    + destruct Hv as [Hl Hc]. destruct (capacity_obj _ _ _ _ _ _ _ _ Hc) as [a Ha].
      exists a. split; [done|]. destruct (Hx0 i a Ha) as (x & _ & HR). simpl.
      destruct x as [l0 c0|c0]; simpl in HR.
      * erewrite to_list_eq in Hl by done. erewrite capacity_eq_rep in Hc by done. by simplify_eq.
      * destruct HR as (_ & n & HR). erewrite capacity_eq in Hc by done. simplify_eq.
        unfold to_list, bind at 1 in Hl. erewrite size_eq in Hl by done.
        unfold begin_, bind at 1 2 in Hl. erewrite get_arr_eq in Hl by done. simpl in Hl.
        destruct (ow i) as [b|]; simpl in HR.
        -- destruct HR as (cs & -> & Hh & -> & Hn). simpl in Hl.
           apply (read_loop_inv _ _ _ _ _ _ cs) in Hl; [|done|simpl; lia].
           rewrite drop_0 in Hl. assert (Hln : length l = n).
           { apply (f_equal length) in Hl. rewrite take_length, map_length in Hl. lia. }
           exists (drop n cs). rewrite <-Hl, take_drop, drop_length, Hln. split_and!; [done|done|lia|done].
        -- destruct HR as (-> & -> & ->). simpl in Hl. injection Hl as <-. done.
    + destruct (capacity_obj _ _ _ _ _ _ _ _ Hv) as [a Ha]. exists a. split; [done|].
      destruct (Hx0 i a Ha) as (x & _ & HR). simpl. split; [done|].
      destruct x as [l0 c0|c0]; simpl in HR.
      * erewrite capacity_eq_rep in Hv by done. simplify_eq. eexists. by eapply rep_shape.
      * destruct HR as (_ & n & HR). erewrite capacity_eq in Hv by done. simplify_eq. eauto.
  - intros i Hi. specialize (Hv i). rewrite Hi in Hv.
    destruct (lookup_lt_is_Some_2 σ0 i) as [[x|] Hx]; [apply lookup_lt_Some in Hi; lia| |].
    + exfalso. destruct (sr_obj _ _ _ _ _ H i x Hx) as (a & Ha & HR).
      unfold capacity, bind, get_arr in Hv. simpl in Hv. rewrite Ha in Hv. simpl in Hv.
      unfold pdiff in Hv. repeat (case_match; try done).
    + by apply (sr_dead _ _ _ _ _ H).
  - intros i Hi. apply (sr_dom _ _ _ _ _ H). lia.
Qed.

Lemma reach_srs s : reach s → ∃ σ, srs true s σ.
Proof.
  induction 1 as [orc|s σ o σ1 r s' Hr [σ0 IH] Hv Hsp E|s σ o σ1 r s' Hr [σ0 IH] Hv Hsp E].
  - exists []. apply srs_init.
  - assert (Hst := step_sim true o s σ σ1 r (view_srs _ _ _ IH Hv) (or_introl eq_refl) Hsp).
    rewrite E in Hst. destruct Hst as (_ & ? & _). eauto.
  - assert (Hst := step_sim true o s σ σ1 r (view_srs _ _ _ IH Hv) (or_introl eq_refl) Hsp).
    rewrite E in Hst. destruct Hst as (_ & _ & _ & σ' & _ & ?). eauto.
Qed.

Lemma obs_upd s σ i l c : view s σ → obs s i l c → view s (upd σ i (Good l c)) ∧ i < length σ.
Proof.
  intros [Hlen Hv] Ho. assert (i < length σ).
  { destruct s as [h o r m k]. destruct Ho as [_ Hc]. apply capacity_obj in Hc as [a Ha].
    apply lookup_lt_Some in Ha. simpl in *. lia. }
  split; [|done]. split; [unfold upd; by rewrite insert_length|]. intros j. unfold upd.
  destruct (decide (j = i)) as [->|Hne].
  - by rewrite list_lookup_insert.
  - rewrite list_lookup_insert_ne by done. apply Hv.
Qed.

Lemma obs_get s i l c : reach s → obs s i l c →
  ∃ σ, srs true s σ ∧ view s σ ∧ σ !! i = Some (Some (Good l c)).
Proof.
  intros [σ Hs]%reach_srs Ho. destruct (obs_upd s σ i l c (srs_view _ _ Hs) Ho) as [Hv Hi].
  exists (upd σ i (Good l c)). split_and!; [by eapply view_srs|done|by apply list_lookup_insert].
Qed.
Lemma obs_get2 s i l c j lj cj : reach s → i ≠ j → obs s i l c → obs s j lj cj →
  ∃ σ, srs true s σ ∧ view s σ ∧ σ !! i = Some (Some (Good l c)) ∧ σ !! j = Some (Some (Good lj cj)).
Proof.
  intros Hr Hne Ho Ho'. destruct (obs_get s i l c Hr Ho) as (σ & Hs & Hv & Hi).
  destruct (obs_upd s σ j lj cj Hv Ho') as [Hv' Hj].
  exists (upd σ j (Good lj cj)). split_and!; [by eapply view_srs|done| |by apply list_lookup_insert].
  unfold upd. by rewrite list_lookup_insert_ne.
Qed.
Lemma srs_obs s σ i l c : srs true s σ → σ !! i = Some (Some (Good l c)) → obs s i l c.
Proof. intros [_ Hv]%srs_view Hi. specialize (Hv i). by rewrite Hi in Hv. Qed.

(** The observable effect of a call on one array, from its list specification. *)
Lemma call_intro (o : op V) s i l c r l' c' P : reach s → obs s i l c →
  (∀ σ, σ !! i = Some (Some (Good l c)) → spec_step o σ = Some (upd σ i (Good l' c'), r)) →
  (∀ σ σ', σ !! i = Some (Some (Good l c)) → spec_throw o σ σ' →
     ∃ l'' c'', P l'' c'' ∧ σ' = upd σ i (Good l'' c'')) →
  call o s i r l' c' P.
Proof.
  intros Hr Ho Hsp Hth. unfold call.
  destruct (obs_get s i l c Hr Ho) as (σ & Hs & Hv & Hi).
  assert (Hst := step_sim true o s σ _ r Hs (or_introl eq_refl) (Hsp σ Hi)).
  assert (Hil : i < length σ) by (by eapply lookup_lt_Some).
  destruct (run_op true o s) as [r' s'|s'|u] eqn:E; simpl in Hst; [| |done].
  - destruct Hst as (-> & Hs' & _). split_and!; [done| | |].
    + eapply srs_obs; [done|]. by apply list_lookup_insert.
    + intros j lj cj Hne Hj.
      destruct (obs_get2 s i l c j lj cj Hr (not_eq_sym Hne) Ho Hj) as (σ2 & Hs2 & _ & Hi2 & Hj2).
      assert (Hst := step_sim true o s σ2 _ r Hs2 (or_introl eq_refl) (Hsp σ2 Hi2)).
      rewrite E in Hst. destruct Hst as (_ & Hs2' & _).
      eapply srs_obs; [done|]. unfold upd. by rewrite list_lookup_insert_ne.
    + eapply reach_ret; [done|exact Hv|by apply Hsp|done].
  - destruct Hst as (Hor & _ & _ & σ' & Hsth & Hs'). split_and!; [done| | |].
    + destruct (Hth σ σ' Hi Hsth) as (l'' & c'' & HP & ->). exists l'', c''. split; [done|].
      eapply srs_obs; [done|]. by apply list_lookup_insert.
    + intros j lj cj Hne Hj.
      destruct (obs_get2 s i l c j lj cj Hr (not_eq_sym Hne) Ho Hj) as (σ2 & Hs2 & _ & Hi2 & Hj2).
      assert (Hst := step_sim true o s σ2 _ r Hs2 (or_introl eq_refl) (Hsp σ2 Hi2)).
      rewrite E in Hst. destruct Hst as (_ & _ & _ & σ2' & Hsth2 & Hs2').
      destruct (Hth σ2 σ2' Hi2 Hsth2) as (l'' & c'' & HP & ->).
      eapply srs_obs; [done|]. unfold upd. by rewrite list_lookup_insert_ne.
    + eapply reach_exn; [done|exact Hv|by apply Hsp|done].
Qed.

(** Reachability of the final state of a straight-line program. *)
Lemma reach_ops (os : list (op V)) : ∀ s σ rs σ' rs' s', reach s → view s σ → 
  spec_exec os σ = Some (rs, σ') → run_ops true os s = Ok rs' s' → reach s' ∧ view s' σ'.
Proof.
  induction os as [|o os IH]; intros s σ rs σ' rs' s' Hr Hv Hsp Hrun; simpl in *.
  - injection Hsp as <- <-. unfold ret in Hrun. injection Hrun as <- <-. done.
  - destruct (spec_step o σ) as [[σ1 r]|] eqn:E1; [|done]. simpl in Hsp.
    destruct (spec_exec os σ1) as [[rs1 σ2]|] eqn:E2; [|done]. simpl in Hsp. injection Hsp as <- <-.
    destruct (reach_srs s Hr) as [σ0 Hs0].
    assert (Hst := step_sim true o s σ σ1 r (view_srs _ _ _ Hs0 Hv) (or_introl eq_refl) E1).
    unfold bind at 1 in Hrun. destruct (run_op true o s) as [r' s1|s1|u] eqn:E; simpl in Hst; try done.
    destruct Hst as (-> & Hs1 & _).
    unfold bind in Hrun. destruct (run_ops true os s1) as [rs2 s2|s2|u] eqn:E3; try done.
    injection Hrun as _ <-. eapply IH; [|by apply srs_view|exact E2|exact E3].
    by eapply reach_ret.
Qed.

Lemma reach_prog (os : list (op V)) rs σ rs' s :
  spec_exec os [] = Some (rs, σ) → run_ops true os (init []) = Ok rs' s → reach s ∧ view s σ.
Proof.
  intros H1 H2. eapply reach_ops; [apply (reach_init [])| |exact H1|exact H2].
  apply srs_view, srs_init.
Qed.

Lemma good_get σ i l c : σ !! i = Some (Some (Good l c)) → get_good σ i = Some (l, c).
Proof. apply get_good_Some. Qed.
Lemma good_any σ i l c : σ !! i = Some (Some (Good l c)) → get_any σ i = Some (Good l c).
Proof. apply get_any_Some. Qed.
Lemma upd_same σ i l c : σ !! i = Some (Some (Good l c)) → σ = upd σ i (Good l c).
Proof. intros. symmetry. by apply upd_id. Qed.

Lemma begin_eq triv (h : heapT) o r m k i a own l c :
  o !! i = Some (Some a) → arr_rep triv h a own l c →
  begin_ i (S_ h o r m k) = Ok (pos_ptr own 0) (S_ h o r m k).
Proof.
  intros Ha HR. unfold begin_, bind. erewrite get_arr_eq by done. unfold ret. do 2 f_equal.
  destruct own; simpl in HR; [by destruct HR as (tl & -> & _)|by destruct HR as (-> & _)].
Qed.
Lemma obs_rep s i l c : reach s → obs s i l c →
  ∃ a own, objs s !! i = Some (Some a) ∧ arr_rep true (heap s) a own l c.
Proof.
  intros Hr Ho. destruct (obs_get s i l c Hr Ho) as (σ & [ow H] & _ & Hi).
  destruct (sr_obj _ _ _ _ _ H i _ Hi) as (a & Ha & HR). eauto.
Qed.
End obs.
