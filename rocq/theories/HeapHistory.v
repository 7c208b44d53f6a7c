(** Client programs over heaps refine the specification. *)
From stdpp Require Import list list_numbers functions.
From Coq Require Import Lia.
From Verif Require Import Base Client ArrayModel ArraySpec ArrayProofs ArrayOps ArrayOps4 ArrayHistory.
From Verif Require ArrayRun ArrayObs.
From Verif Require Import HeapModel HeapSpec HeapRun HeapOrder HeapProofs.
Local Open Scope mon_scope.
Local Arguments heapfy_up_loop : simpl never.
Local Arguments heapfy_down_rec : simpl never.

Section history.
Context {V : Type} (lt : V → V → bool).
Implicit Types (l : list V) (s : st V) (σA : astore V) (σ : hst V).
Notation srs := (srs true).

Lemma sr_drop h o y σA ow : sr (V:=V) true h (o ++ [y]) (σA ++ [Some (Good [] 0)]) ow → ow (length σA) = None →
  sr true h o σA ow.
Proof.
  intros H Hn. assert (Hlen := sr_len _ _ _ _ _ H). rewrite !app_length in Hlen. simpl in Hlen. split.
  - lia.
  - intros i x Hi. assert (i < length σA) by (by eapply lookup_lt_Some).
    destruct (sr_obj _ _ _ _ _ H i x) as (a & Ha & HR); [by rewrite lookup_app_l|].
    rewrite lookup_app_l in Ha by lia. eauto.
  - intros i Hi. assert (i < length σA) by (by eapply lookup_lt_Some).
    destruct (sr_dead _ _ _ _ _ H i) as [Ha ?]; [by rewrite lookup_app_l|].
    rewrite lookup_app_l in Ha by lia. done.
  - intros i Hi. destruct (decide (i = length σA)) as [->|]; [done|].
    apply (sr_dom _ _ _ _ _ H). rewrite app_length. simpl. lia.
  - apply (sr_inj _ _ _ _ _ H).
  - apply (sr_all _ _ _ _ _ H).
Qed.
Lemma drop_last s σA x : srs s (σA ++ [Some x]) →
  ∃ s1 s', dtor true (length σA) s = Ok tt s1 ∧ pop_obj s1 = Ok tt s' ∧ srs s' σA ∧ oracle s' = oracle s ∧ leaked s' = leaked s.
Proof.
  intros [ow H]. destruct s as [h o r m k]. simpl in H.
  assert (Hi : (σA ++ [Some x]) !! length σA = Some (Some x)) by (by apply list_lookup_middle).
  destruct (sr_obj _ _ _ _ _ H _ _ Hi) as (a & Ha & HR).
  assert (Hlen := sr_len _ _ _ _ _ H). rewrite app_length in Hlen. simpl in Hlen.
  eexists _, _. split; [eapply dtor_any_eq; [exact Ha|by eapply obj_any]|]. split; [reflexivity|].
  split; [|done]. exists (<[length σA := None]> ow). simpl.
  assert (Hu := sr_upd true h o _ ow _ x (free (ow (length σA)) h) _ null_arr None (Good [] 0) H Hi eq_refl
                  (hframe_free _ _ (obj_valid true _ _ _ _ HR)) ltac:(done)).
  unfold upd in Hu. rewrite insert_app_r_alt, Nat.sub_diag in Hu by lia. simpl in Hu.
  assert (Ho : <[length σA := Some null_arr]> o = take (length o - 1) o ++ [Some null_arr]).
  { replace (length o - 1) with (length σA) by lia. rewrite insert_take_drop by lia. rewrite drop_ge by lia. done. }
  rewrite Ho in Hu. eapply sr_drop; [exact Hu|]. by rewrite fn_lookup_insert.
Qed.
Lemma new_obj s σA : srs s σA →
  srs (set_objs (objs s ++ [Some null_arr]) s) (σA ++ [Some (Good [] 0)]) ∧ length (objs s) = length σA.
Proof. intros [ow H]. split; [|apply (sr_len _ _ _ _ _ H)]. exists ow. by apply sr_new. Qed.

Lemma push_all_post vs : ∀ s σA i l c, srs s σA → σA !! i = Some (Some (Good l c)) →
  post (push_all lt i (map AVal vs) s)
    (λ _ s', ∃ l' c', srs s' (upd σA i (Good l' c')) ∧ l' ≡ₚ vs ++ l ∧ (strict_weak lt → hp lt l → hp lt l') ∧
       oracle s' `suffix_of` oracle s ∧ leaked s' = leaked s)
    (λ s', oracle s ≠ [] ∧ oracle s' `suffix_of` oracle s ∧ leaked s' = leaked s ∧ ∃ l' c', srs s' (upd σA i (Good l' c'))).
Proof.
  induction vs as [|v vs IH]; intros s σA i l c Hs Hi; simpl.
  - exists l, c. unfold upd. rewrite list_insert_id by done. done.
  - apply post_bind. eapply post_conseq; [by apply (push_post lt s σA i l c)| |].
    + intros n s1 (l1 & c1 & Hs1 & Hpm & _ & Hh & Ho & Hl).
      eapply post_conseq; [apply (IH s1 (upd σA i (Good l1 c1)) i l1 c1 Hs1); by eapply upd_look| |].
      * intros _ s2 (l2 & c2 & Hs2 & Hpm2 & Hh2 & Ho2 & Hl2). rewrite upd_upd in Hs2. exists l2, c2.
        split_and!; [done| |auto|by etrans|congruence].
        rewrite Hpm2, Hpm. symmetry. apply Permutation_middle.
      * intros s2 (Hne & Ho2 & Hl2 & l2 & c2 & Hs2). rewrite upd_upd in Hs2. split_and!; [|by etrans|congruence|eauto].
        intros E. rewrite E in Ho. apply suffix_nil_inv in Ho. done.
    + intros s1 (? & ? & ? & c' & ?). split_and!; eauto.
Qed.

Lemma reserve_post s σA i l c n : srs s σA → σA !! i = Some (Some (Good l c)) →
  post (reserve true i n s)
    (λ _ s', srs s' (upd σA i (Good l (Nat.max c n))) ∧ oracle s' `suffix_of` oracle s ∧ leaked s' = leaked s)
    (λ s', oracle s ≠ [] ∧ oracle s' `suffix_of` oracle s ∧ leaked s' = leaked s ∧ srs s' σA).
Proof.
  intros Hs Hi. assert (Hst := step_sim true (OReserve i n) s σA (upd σA i (Good l (Nat.max c n))) ArraySpec.RUnit Hs (or_introl eq_refl)).
  simpl in Hst. rewrite (proj2 (get_good_Some _ _ _ _) Hi) in Hst. specialize (Hst eq_refl).
  apply (post_map_inv (reserve true i n) (λ _, ArraySpec.RUnit)) in Hst.
  eapply post_conseq; [exact Hst| |].
  - intros [] s1 (_ & ? & ? & ?). done.
  - intros s1 (? & ? & ? & σ' & Hth & ?). simpl in Hth. subst σ'. done.
Qed.

Lemma upd_last σA x y : upd (σA ++ [Some x]) (length σA) y = σA ++ [Some (y : aobj V)].
Proof. unfold upd. rewrite insert_app_r_alt, Nat.sub_diag by lia. done. Qed.

(** The constructor from a range. *)
Lemma ctor_heap_post s σA known vs : srs s σA →
  post (new_array (λ i, ctor_heap lt i known (map AVal vs)) s)
    (λ i s', i = length σA ∧ ∃ l' c', srs s' (σA ++ [Some (Good l' c')]) ∧ l' ≡ₚ vs ∧ (strict_weak lt → hp lt l') ∧
       oracle s' `suffix_of` oracle s ∧ leaked s' = leaked s)
    (λ s', oracle s ≠ [] ∧ oracle s' `suffix_of` oracle s ∧ leaked s' = leaked s ∧ srs s' σA).
Proof.
  intros Hs. destruct (new_obj s σA Hs) as [Hs0 Hlen]. set (s0 := set_objs (objs s ++ [Some null_arr]) s) in *.
  assert (Hi : (σA ++ [Some (Good [] 0)]) !! length σA = Some (Some (Good (V:=V) [] 0))) by (by apply list_lookup_middle).
  assert (Hundo : ∀ s1 x, srs s1 (σA ++ [Some x]) → oracle s ≠ [] → oracle s1 `suffix_of` oracle s → leaked s1 = leaked s →
    post (dtor true (length σA) s1)
      (λ _ s2, post (pop_obj s2) (λ _ s', oracle s ≠ [] ∧ oracle s' `suffix_of` oracle s ∧ leaked s' = leaked s ∧ srs s' σA)
                    (λ s', oracle s ≠ [] ∧ oracle s' `suffix_of` oracle s ∧ leaked s' = leaked s ∧ srs s' σA))
      (λ s2, post (pop_obj s2) (λ _ s', oracle s ≠ [] ∧ oracle s' `suffix_of` oracle s ∧ leaked s' = leaked s ∧ srs s' σA)
                    (λ s', oracle s ≠ [] ∧ oracle s' `suffix_of` oracle s ∧ leaked s' = leaked s ∧ srs s' σA))).
  { intros s1 x Hs1 Hne Ho Hl. destruct (drop_last s1 σA x Hs1) as (s2 & s3 & E2 & E3 & Hs3 & Ho3 & Hl3).
    rewrite E2. cbn [post]. rewrite E3. cbn [post]. rewrite Ho3, Hl3. done. }
  unfold new_array. unfold bind at 1. cbn [push_obj]. unfold push_obj at 1, bind at 1, gets, modify at 1, ret at 1, bind at 1. 
  cbv iota beta. fold s0. rewrite Hlen. apply post_bind. apply post_on_throw. unfold ctor_heap. apply post_on_throw.
  assert (Hrest : ∀ s1 c, srs s1 (σA ++ [Some (Good [] c)]) → oracle s1 `suffix_of` oracle s → leaked s1 = leaked s →
    post (push_all lt (length σA) (map AVal vs) s1)
      (λ _ s', ∃ l' c', srs s' (σA ++ [Some (Good l' c')]) ∧ l' ≡ₚ vs ∧ (strict_weak lt → hp lt l') ∧
         oracle s' `suffix_of` oracle s ∧ leaked s' = leaked s)
      (λ s', oracle s ≠ [] ∧ oracle s' `suffix_of` oracle s ∧ leaked s' = leaked s ∧ ∃ l' c', srs s' (σA ++ [Some (Good l' c')]))).
  { intros s1 c Hs1 Ho1 Hl1. eapply post_conseq; [apply (push_all_post vs s1 _ (length σA) [] c Hs1); by apply list_lookup_middle| |].
    - intros _ s2 (l' & c' & Hs2 & Hpm & Hh & Ho2 & Hl2). rewrite upd_last in Hs2. rewrite app_nil_r in Hpm.
      exists l', c'. split_and!; [done|done| |by etrans|congruence].
      intros SW. apply Hh; [done|]. by intros k x y _ Hx.
    - intros s2 (Hne & Ho2 & Hl2 & l' & c' & Hs2). rewrite upd_last in Hs2. split_and!; [|by etrans|congruence|eauto].
      intros E. rewrite E in Ho1. apply suffix_nil_inv in Ho1. done. }
  apply post_bind. destruct known.
  - eapply post_conseq; [apply (reserve_post s0 _ (length σA) [] 0 _ Hs0 Hi)| |].
    + intros _ s1 (Hs1 & Ho1 & Hl1). rewrite upd_last in Hs1.
      eapply post_conseq; [by apply (Hrest s1 _ Hs1)| |].
      * intros u s2 H2. split; [done|exact H2].
      * intros s2 (Hne & Ho2 & Hl2 & l' & c' & Hs2). by eapply Hundo.
    + intros s1 (Hne & Ho1 & Hl1 & Hs1). by eapply Hundo.
  - cbn [post ret]. unfold ret. cbn [post]. eapply post_conseq; [by apply (Hrest s0 _ Hs0)| |].
    + intros u s2 H2. split; [done|exact H2].
    + intros s2 (Hne & Ho2 & Hl2 & l' & c' & Hs2). by eapply Hundo.
Qed.

(** ** The simulation relation *)
Definition cell_rel (a : option (aobj V)) (h : option (list V)) : Prop :=
  match h with
  | None => a = None
  | Some l => (∃ c, a = Some (Good l c)) ∧ (strict_weak lt → hp lt l)
  end.
Definition R s σ : Prop := ∃ σA, srs s σA ∧ Forall2 cell_rel σA σ ∧ leaked s = 0.
Definition calm s : Prop := oracle s = [].

Lemma get_Some σ i l : get σ i = Some l ↔ σ !! i = Some (Some l).
Proof. unfold get. destruct (σ !! i) as [[]|]; naive_solver. Qed.
Lemma rel_get σA σ i l : Forall2 cell_rel σA σ → get σ i = Some l →
  (∃ c, σA !! i = Some (Some (Good l c))) ∧ (strict_weak lt → hp lt l).
Proof.
  intros HF Hi%get_Some. destruct (Forall2_lookup_r _ _ _ _ _ HF Hi) as (a & Ha & [c ->] & Hh). eauto.
Qed.
Lemma rel_put σA σ i l c : Forall2 cell_rel σA σ → (strict_weak lt → hp lt l) →
  Forall2 cell_rel (upd σA i (Good l c)) (put σ i l).
Proof. intros. apply Forall2_insert; [done|]. split; [by eexists|done]. Qed.
Lemma rel_add σA σ l c : Forall2 cell_rel σA σ → (strict_weak lt → hp lt l) →
  Forall2 cell_rel (σA ++ [Some (Good l c)]) (σ ++ [Some l]).
Proof. intros. apply Forall2_app; [done|]. constructor; [|constructor]. split; [by eexists|done]. Qed.
Lemma hp_nil : hp lt [].
Proof. intros k x y _ Hx. done. Qed.
Lemma suffix_calm s s' : oracle s' `suffix_of` oracle s → calm s → calm s'.
Proof. unfold calm. intros Ho E. rewrite E in Ho. by apply suffix_nil_inv in Ho. Qed.
Lemma hp_heap_of l l' : l' ≡ₚ l → (strict_weak lt → hp lt l') → heap_of lt l l'.
Proof. intros Hp Hh. split; [done|]. intros SW. apply hp_max; auto. Qed.

(** Calls that are the Array's own. *)
Lemma array_step (oA : ArraySpec.op V) σA σA1 rA {A} (m : MA A) (f : A → ArraySpec.out V) s :
  srs s σA → spec_step oA σA = Some (σA1, rA) → ArrayRun.run_op true oA = bind m (λ a, ret (f a)) →
  post (m s) (λ a s', f a = rA ∧ srs s' σA1 ∧ oracle s' `suffix_of` oracle s ∧ leaked s' = leaked s)
             (λ s', oracle s ≠ [] ∧ oracle s' `suffix_of` oracle s ∧ leaked s' = leaked s ∧ ∃ σB : astore V, spec_throw oA σA σB ∧ srs s' σB).
Proof.
  intros Hs Hst E. assert (H := step_sim true oA s σA σA1 rA Hs (or_introl eq_refl) Hst). rewrite E in H.
  apply post_map_inv in H. exact H.
Qed.

Theorem heap_simulates : rsimulates pre (rstep lt) exn (run_op lt) R calm.
Proof.
  intros o s σ (σA & Hs & HF & Hlk) Hpre.
  assert (HlenF : length σA = length σ) by (by eapply Forall2_length).
  destruct o; simpl in Hpre; cbn [run_op].
  - (* HDefault *)
    assert (H := array_step ODefault σA _ _ (new_array (λ _, ret tt)) ArraySpec.RNew s Hs eq_refl eq_refl).
    apply post_bind. eapply post_conseq; [exact H| |by intros s1 (_ & _ & _ & σ' & [] & _)].
    intros i s1 (Er & Hs1 & Ho & Hl). injection Er as ->. unfold ret. cbn [post].
    exists (σ ++ [Some []]). split_and!; [by rewrite HlenF| |by apply suffix_calm].
    eexists. split_and!; [exact Hs1| |congruence]. apply rel_add; [done|]. intros _. apply hp_nil.
  - (* HRange *)
    apply post_bind. eapply post_conseq; [by apply ctor_heap_post| |].
    + intros i s1 (-> & l' & c' & Hs1 & Hpm & Hh & Ho & Hl). unfold ret. cbn [post].
      exists (σ ++ [Some l']). split_and!; [rewrite HlenF; split; [done|]; exists l'; split; [by apply hp_heap_of|done]| |by apply suffix_calm].
      eexists. split_and!; [exact Hs1| |congruence]. by apply rel_add.
    + intros s1 (Hne & Ho & Hl & Hs1). split; [done|]. exists σ. split; [done|]. exists σA. split_and!; try done. congruence.
  - (* HCopy *)
    destruct Hpre as [l Hg]. destruct (rel_get _ _ _ _ HF Hg) as [[c Hi] Hh].
    assert (H := array_step (OCopy j) σA (σA ++ [Some (Good l (length l))]) (ArraySpec.RNew (length σA))
                   (new_array (λ i, ctor_copy true i j)) ArraySpec.RNew s Hs).
    simpl in H. rewrite (proj2 (get_good_Some _ _ _ _) Hi) in H. specialize (H eq_refl eq_refl).
    apply post_bind. eapply post_conseq; [exact H| |].
    + intros i s1 (Er & Hs1 & Ho & Hl). injection Er as ->. unfold ret. cbn [post].
      exists (σ ++ [Some l]). split_and!; [rewrite HlenF; cbn [rstep]; eauto| |by apply suffix_calm].
      eexists. split_and!; [exact Hs1| |congruence]. by apply rel_add.
    + intros s1 (Hne & Ho & Hl & σ' & Hth & Hs1). simpl in Hth. subst σ'. split; [done|]. exists σ. split; [done|].
      exists σA. split_and!; try done. congruence.
  - (* HMove *)
    destruct Hpre as [l Hg]. destruct (rel_get _ _ _ _ HF Hg) as [[c Hi] Hh].
    assert (H := array_step (OMove j) σA (upd σA j (Good [] 0) ++ [Some (Good l c)]) (ArraySpec.RNew (length σA))
                   (new_array (λ i, ctor_move i j)) ArraySpec.RNew s Hs).
    simpl in H. rewrite (proj2 (get_any_Some _ _ _) Hi) in H. specialize (H eq_refl eq_refl).
    apply post_bind. eapply post_conseq; [exact H| |by intros s1 (_ & _ & _ & σ' & [] & _)].
    intros i s1 (Er & Hs1 & Ho & Hl). injection Er as ->. unfold ret. cbn [post].
    exists (put σ j [] ++ [Some l]). split_and!; [rewrite HlenF; cbn [rstep]; eauto| |by apply suffix_calm].
    eexists. split_and!; [exact Hs1| |congruence]. apply rel_add; [|done]. apply rel_put; [done|]. intros _. apply hp_nil.
  - (* HDestroy *)
    destruct Hpre as [l Hg]. destruct (rel_get _ _ _ _ HF Hg) as [[c Hi] Hh].
    assert (H := array_step (ODestroy i) σA (<[i := None]> σA) ArraySpec.RUnit
                   (destroy_array true i) (λ _, ArraySpec.RUnit) s Hs).
    simpl in H. rewrite (proj2 (get_any_Some _ _ _) Hi) in H. specialize (H eq_refl eq_refl).
    apply post_bind. eapply post_conseq; [exact H| |by intros s1 (_ & _ & _ & σ' & [] & _)].
    intros [] s1 (_ & Hs1 & Ho & Hl). unfold ret. cbn [post].
    exists (<[i := None]> σ). split_and!; [done| |by apply suffix_calm].
    eexists. split_and!; [exact Hs1| |congruence]. by apply Forall2_insert.
  - (* HAssignCopy *)
    destruct Hpre as [[l0 Hg0] [l Hg]]. destruct (rel_get _ _ _ _ HF Hg) as [[c Hi] Hh].
    destruct (rel_get _ _ _ _ HF Hg0) as [[c0 Hi0] _].
    assert (H := array_step (OAssignCopy i j) σA (upd σA i (Good l (length l))) ArraySpec.RUnit
                   (assign_copy_arr true i j) (λ _, ArraySpec.RUnit) s Hs).
    simpl in H. rewrite (proj2 (get_any_Some _ _ _) Hi0), (proj2 (get_good_Some _ _ _ _) Hi) in H. specialize (H eq_refl eq_refl).
    apply post_bind. eapply post_conseq; [exact H| |].
    + intros [] s1 (_ & Hs1 & Ho & Hl). unfold ret. cbn [post].
      exists (put σ i l). split_and!; [cbn [rstep]; eauto| |by apply suffix_calm].
      eexists. split_and!; [exact Hs1| |congruence]. by apply rel_put.
    + intros s1 (Hne & Ho & Hl & σ' & Hth & Hs1). simpl in Hth. subst σ'. split; [done|]. exists σ. split; [done|].
      exists σA. split_and!; try done. congruence.
  - (* HAssignMove *)
    destruct Hpre as [[l0 Hg0] [l Hg]]. destruct (rel_get _ _ _ _ HF Hg) as [[c Hi] Hh].
    destruct (rel_get _ _ _ _ HF Hg0) as [[c0 Hi0] _].
    assert (H := array_step (OAssignMove i j) σA (upd (upd σA j (Good [] 0)) i (Good l c)) ArraySpec.RUnit
                   (assign_move_arr true i j) (λ _, ArraySpec.RUnit) s Hs).
    simpl in H. rewrite (proj2 (get_any_Some _ _ _) Hi0), (proj2 (get_any_Some _ _ _) Hi) in H. specialize (H eq_refl eq_refl).
    apply post_bind. eapply post_conseq; [exact H| |by intros s1 (_ & _ & _ & σ' & [] & _)].
    intros [] s1 (_ & Hs1 & Ho & Hl). unfold ret. cbn [post].
    exists (put (put σ j []) i l). split_and!; [cbn [rstep]; eauto| |by apply suffix_calm].
    eexists. split_and!; [exact Hs1| |congruence]. apply rel_put; [|done]. apply rel_put; [done|]. intros _. apply hp_nil.
  - (* HPush *)
    destruct Hpre as [l Hg]. destruct (rel_get _ _ _ _ HF Hg) as [[c Hi] Hh].
    apply post_bind. eapply post_conseq; [by apply (push_post lt s σA i l c v)| |].
    + intros n s1 (l' & c' & Hs1 & Hpm & _ & Hh' & Ho & Hl). unfold ret. cbn [post].
      exists (put σ i l'). split_and!; [split; [done|]; exists l, l'; split_and!; [done|apply hp_heap_of; auto|done]| |by apply suffix_calm].
      eexists. split_and!; [exact Hs1| |congruence]. apply rel_put; auto.
    + intros s1 (Hne & Ho & Hl & c' & Hs1). split; [done|]. exists σ. split; [done|].
      eexists. split_and!; [exact Hs1| |congruence]. apply get_Some in Hg.
      rewrite <- (list_insert_id σ i (Some l)) by done. by apply rel_put.
  - (* HEmplace *)
    destruct Hpre as [l Hg]. destruct (rel_get _ _ _ _ HF Hg) as [[c Hi] Hh].
    apply post_bind. eapply post_conseq; [by apply (emplace_post lt s σA i l c v)| |].
    + intros n s1 (l' & c' & Hs1 & Hpm & _ & Hh' & Ho & Hl). unfold ret. cbn [post].
      exists (put σ i l'). split_and!; [split; [done|]; exists l, l'; split_and!; [done|apply hp_heap_of; auto|done]| |by apply suffix_calm].
      eexists. split_and!; [exact Hs1| |congruence]. apply rel_put; auto.
    + intros s1 (Hne & Ho & Hl & c' & Hs1). split; [done|]. exists σ. split; [done|].
      eexists. split_and!; [exact Hs1| |congruence]. apply get_Some in Hg.
      rewrite <- (list_insert_id σ i (Some l)) by done. by apply rel_put.
  - (* HPop *)
    destruct Hpre as (l & Hg & Hne). destruct l as [|x l]; [done|]. destruct (rel_get _ _ _ _ HF Hg) as [[c Hi] Hh].
    destruct (pop_post lt s σA i x l c Hs Hi) as (n & s1 & l' & E & Hs1 & Hpm & _ & Hh' & Ho & Hl).
    unfold bind. rewrite E. unfold ret. cbn [post].
    exists (put σ i l'). split_and!; [split; [done|]; exists x, l, l'; split_and!; [done|apply hp_heap_of; auto|done]| |by apply suffix_calm].
    eexists. split_and!; [exact Hs1| |congruence]. apply rel_put; auto.
  - (* HFront *)
    destruct Hpre as (l & Hg & Hne). destruct l as [|x l]; [done|]. destruct (rel_get _ _ _ _ HF Hg) as [[c Hi] Hh].
    assert (H := array_step (OFront i) σA σA (ArraySpec.RVal x) (front i) ArraySpec.RVal s Hs).
    simpl in H. rewrite (proj2 (get_good_Some _ _ _ _) Hi) in H. specialize (H eq_refl eq_refl).
    apply post_bind. eapply post_conseq; [exact H| |by intros s1 (_ & _ & _ & σ' & [] & _)].
    intros y s1 (Ey & Hs1 & Ho & Hl). injection Ey as ->. unfold ret. cbn [post].
    exists σ. split_and!; [cbn [rstep]; eauto| |by apply suffix_calm]. exists σA. split_and!; try done. congruence.
  - (* HSize *)
    destruct Hpre as (l & Hg). destruct (rel_get _ _ _ _ HF Hg) as [[c Hi] Hh].
    unfold bind. rewrite (size_srs _ _ _ _ _ Hs Hi). unfold ret. cbn [post].
    exists σ. split_and!; [cbn [rstep]; eauto| |done]. by exists σA.
  - (* HEmpty *)
    destruct Hpre as (l & Hg). destruct (rel_get _ _ _ _ HF Hg) as [[c Hi] Hh].
    unfold empty, bind. rewrite (size_srs _ _ _ _ _ Hs Hi). unfold ret. cbn [post].
    exists σ. split_and!; [cbn [rstep]; eauto| |done]. by exists σA.
  - (* HToList *)
    destruct Hpre as (l & Hg). destruct (rel_get _ _ _ _ HF Hg) as [[c Hi] Hh].
    unfold bind. destruct (ArrayObs.srs_obs _ _ _ _ _ Hs Hi) as [-> _]. unfold ret. cbn [post].
    exists σ. split_and!; [cbn [rstep]; eauto| |done]. by exists σA.
Qed.

Lemma R_init orc : R (init orc) [].
Proof. exists []. split_and!; [apply srs_init|constructor|done]. Qed.
End history.
