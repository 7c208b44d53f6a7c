From stdpp Require Import list list_numbers.
From Verif Require Import Base ArrayModel ArraySpec ArrayRun ArrayProofs ArrayOps.
Local Open Scope mon_scope.

Ltac arr_eq := match goal with
  | |- Some _ = Some _ => f_equal; arr_eq
  | |- mkArr _ _ _ = mkArr _ _ _ => f_equal; arr_eq
  | |- Ptr _ _ = Ptr _ _ => f_equal; arr_eq
  | |- @eq nat _ _ => rewrite ?app_length, ?map_length, ?replicate_length, ?take_length; simpl; lia
  | |- _ => try done
  end.

Section ops.
Context {V : Type}.
Implicit Types (l : list V) (cs : list (cell V)) (s : st V).
Notation heapT := (list (option (list (cell V)))).
Notation S_ h o r m k := (@mkSt V h o r m k).

(** Outcome of an operation on array [this]: it now represents [l'] with
    capacity [cap'] in block [own'], nothing else changed. *)
Definition result (triv : bool) (this : nat) (h : heapT) (o : list (option arr)) (r : list bool) (k : nat)
    (own : option nat) l' (cap' : nat) (own' : option nat) (s' : st V) : Prop :=
  ∃ a', objs s' = <[this := Some a']> o ∧ oracle s' `suffix_of` r ∧ leaked s' = k ∧
        hframe h (heap s') own own' ∧ arr_rep triv (heap s') a' own' l' cap'.

Lemma result_same triv this a own l cap (h : heapT) o r r' m k :
  o !! this = Some (Some a) → arr_rep triv h a own l cap → r' `suffix_of` r →
  result triv this h o r k own l cap own (S_ h o r' m k).
Proof.
  intros Ho HR Hr. exists a. simpl. rewrite list_insert_id by done. split_and!; try done.
  apply hframe_refl. by eapply rep_valid.
Qed.

Lemma rep_full triv (h : heapT) a own l cap : arr_rep triv h a own l cap →
  ptr_eqb (a_end a) (a_stor a) = Nat.eqb (length l) cap.
Proof.
  destruct own as [b|]; simpl.
  - intros (tl & -> & _ & _). simpl. by rewrite Nat.eqb_refl.
  - by intros (-> & -> & ->).
Qed.

(** construct at end(), ++end() when there is room *)
Lemma emplace_tail_post triv this x v b tl l (h : heapT) o r m k :
  o !! this = Some (Some (mkArr (Ptr b 0) (Ptr b (length l)) (Ptr b (length l + length tl)))) →
  h !! b = Some (Some (map Live l ++ tl)) → 0 < length tl →
  (triv = false → Forall (λ c, c = Raw) tl) → aval h x v →
  post ((a' <- get_arr this ;; construct triv (a_end a') x ;;; e <- padd (a_end a') 1 ;; set_end this e)
          (S_ h o r m k))
    (λ _ s', ∃ r' tl', r' `suffix_of` r ∧ length tl = S (length tl') ∧
       (triv = false → Forall (λ c, c = Raw) tl') ∧
       s' = S_ (<[b := Some (map Live (l ++ [v]) ++ tl')]> h)
               (<[this := Some (mkArr (Ptr b 0) (Ptr b (length l + 1)) (Ptr b (length l + length tl)))]> o) r' m k)
    (λ s', can_throw triv x ∧ ∃ r', r' `suffix_of` r ∧ r ≠ [] ∧ s' = S_ h o r' m k).
Proof.
  intros Ho Hh Htl Hraw Hx. unfold bind at 1. erewrite get_arr_eq by done. simpl a_end.
  assert (Hl : b < length h) by (by eapply lookup_lt_Some).
  destruct tl as [|c tl]; [simpl in Htl; lia|].
  apply post_bind.
  eapply post_conseq; [eapply (construct_post' triv x v); [|exact Hh| |done]| |].
  - by rewrite map_length.
  - destruct triv; [by left|]. right. specialize (Hraw eq_refl).
    apply Forall_cons in Hraw as [-> _]. done.
  - intros _ s (r1 & Hr1 & ->).
    unfold bind at 1. erewrite padd_eq; [|by apply list_lookup_insert|rewrite app_length, map_length; simpl; lia].
    erewrite set_end_eq by done. simpl.
    exists r1, tl. split_and!; [done|done| |].
    + intros ->. specialize (Hraw eq_refl). by apply Forall_cons in Hraw as [_ ?].
    + rewrite map_app, <-app_assoc. done.
  - intros s (? & r1 & ? & ? & ->). eauto.
Qed.

Lemma emplace_back_post triv this x v a own l cap (h : heapT) o r m k :
  o !! this = Some (Some a) → arr_rep triv h a own l cap →
  (triv = true ∨ l = [] ∨ length l < cap) →
  aval h x v → (length l = cap → aval (free own h) x v) →
  post (emplace_back triv this x (S_ h o r m k))
    (λ p s', ∃ b', result triv this h o r k own (l ++ [v]) (grown l cap) (Some b') s' ∧
       p = Ptr b' (length l) ∧ (length l < cap → own = Some b') ∧
       moved s' = (if Nat.eqb (length l) cap then length l else 0) + m)
    (λ s', r ≠ [] ∧ ∃ own' cap', (cap' = cap ∨ cap' = grown l cap) ∧
       (length l < cap → own' = own) ∧
       result triv this h o r k own l cap' own' s').
Proof.
  intros Ho HR Ht Hx Hxf. unfold emplace_back.
  unfold bind at 1. erewrite get_arr_eq by done.
  assert (Hthis : this < length o) by (by eapply lookup_lt_Some).
  assert (Hfull := rep_full _ _ _ _ _ _ HR). rewrite Hfull.
  assert (Hle := rep_le _ _ _ _ _ _ HR).
  unfold grown. 
  (* tail: construct, ++end, back() *)
  assert (Htail : ∀ (h1 : heapT) o1 r1 m1 b tl,
    o1 !! this = Some (Some (mkArr (Ptr b 0) (Ptr b (length l)) (Ptr b (length l + length tl)))) →
    h1 !! b = Some (Some (map Live l ++ tl)) → 0 < length tl →
    (triv = false → Forall (λ c, c = Raw) tl) → aval h1 x v →
    post ((a' <- get_arr this ;; construct triv (a_end a') x ;;; e <- padd (a_end a') 1 ;;
           set_end this e ;;; e' <- end_ this ;; psub e' 1) (S_ h1 o1 r1 m1 k))
      (λ p s', p = Ptr b (length l) ∧ ∃ r' tl', r' `suffix_of` r1 ∧ length tl = S (length tl') ∧
       (triv = false → Forall (λ c, c = Raw) tl') ∧
       s' = S_ (<[b := Some (map Live (l ++ [v]) ++ tl')]> h1)
               (<[this := Some (mkArr (Ptr b 0) (Ptr b (length l + 1)) (Ptr b (length l + length tl)))]> o1) r' m1 k)
      (λ s', can_throw triv x ∧ ∃ r', r' `suffix_of` r1 ∧ r1 ≠ [] ∧ s' = S_ h1 o1 r' m1 k)).
  { intros h1 o1 r1 m1 b tl Ho1 Hh1 Htl Hraw Hx1.
    assert (HT := emplace_tail_post triv this x v b tl l h1 o1 r1 m1 k Ho1 Hh1 Htl Hraw Hx1).
    assert (Hb : b < length h1) by (by eapply lookup_lt_Some).
    assert (this < length o1) by (by eapply lookup_lt_Some).
    revert HT. unfold bind at 1. erewrite get_arr_eq by done. intros HT.
    unfold bind at 1. erewrite get_arr_eq by done. simpl a_end in *.
    unfold bind at 1. unfold bind at 1 in HT.
    destruct (construct triv (Ptr b (length l)) x (S_ h1 o1 r1 m1 k)) as [[] s1|s1|u]; [|done|done].
    unfold bind at 1. unfold bind at 1 in HT.
    destruct (padd (Ptr b (length l)) 1 s1) as [e s2|s2|u]; [|done|done].
    unfold bind at 1. destruct (set_end this e s2) as [[] s3|s3|u]; [|done|done].
    simpl in HT. destruct HT as (r' & tl' & Hr' & Hlt & Hraw' & ->).
    unfold bind at 1, end_, bind at 1. erewrite get_arr_eq by (by apply list_lookup_insert).
    simpl. unfold ret. erewrite psub_eq; [|by apply list_lookup_insert|lia].
    simpl. split; [f_equal; lia|]. eauto 10. }
  destruct (Nat.eqb_spec (length l) cap) as [Heq|Hne].
  - (* full *)
    unfold bind at 1. unfold bind at 1. erewrite size_eq_rep by eauto.
    eapply post_bind with (m := λ s, grow_storage triv this (length l + length l `max` 1) s).
    assert (Ht' : triv = true ∨ l = []) by (destruct Ht as [|[|]]; [auto|auto|lia]).
    eapply post_conseq; [eapply grow_storage_post; [done|done|lia|done]| |].
    + intros _ s (r1 & Hr1 & ->).
      set (n := length l + length l `max` 1).
      eapply post_conseq; [eapply (Htail _ _ _ _ (length h) (replicate (n - length l) Raw))| |].
      * rewrite list_lookup_insert by done. arr_eq.
      * rewrite <-(free_length own h). apply lookup_last.
      * rewrite replicate_length. lia.
      * intros _. apply Forall_raw_replicate.
      * destruct x as [w|w|[|b i]]; simpl in *; try done.
        destruct (Hxf Heq) as (cs & H1 & H2). exists cs. split; [|done].
        rewrite lookup_app_l; [done|by eapply lookup_lt_Some].
      * intros p s (-> & r2 & tl' & Hr2 & Hlt & Hraw & ->). exists (length h).
        split_and!; [|done|lia|done].
        eexists. simpl. rewrite list_insert_insert. split_and!; [done|by etrans|done| |].
        -- rewrite <-(free_length own h) at 1. rewrite insert_last.
           apply hframe_realloc. by eapply rep_valid.
        -- exists tl'. rewrite replicate_length in *. split_and!.
           ++ arr_eq.
           ++ apply list_lookup_insert. rewrite app_length, free_length; simpl; lia.
           ++ rewrite app_length. simpl. lia.
           ++ done.
      * intros s (Hct & r2 & Hr2 & Hne & ->). split.
        { intros ->. apply suffix_nil_inv in Hr1. done. }
        exists (Some (length h)), n. split_and!; [by right|lia|].
        eexists. simpl. split_and!; [done|by etrans|done| |].
        -- apply hframe_realloc. by eapply rep_valid.
        -- exists (replicate (n - length l) Raw). split_and!; [done| | |].
           ++ rewrite <-(free_length own h). apply lookup_last.
           ++ rewrite replicate_length. lia.
           ++ intros _. apply Forall_raw_replicate.
    + intros s (r1 & Hr1 & Hne & ->). split; [done|]. exists own, cap. split_and!; [by left|done|].
      by eapply result_same.
  - (* room *)
    unfold bind at 1. simpl.
    destruct own as [b|]; simpl in HR; [|destruct HR as (-> & -> & ->); simpl in *; lia].
    destruct HR as (tl & -> & Hh & -> & Hraw).
    eapply post_conseq; [eapply (Htail h o r m b tl); [done|done|lia|done|done]| |].
    + intros p s (-> & r2 & tl' & Hr2 & Hlt & Hraw' & ->). exists b.
      split_and!; [|done|done|done].
      eexists. simpl. split_and!; [done|done|done|by eapply hframe_upd|].
      exists tl'. split_and!.
      * arr_eq.
      * rewrite list_lookup_insert; [done|by eapply lookup_lt_Some].
      * rewrite app_length. simpl. lia.
      * done.
    + intros s (Hct & r2 & Hr2 & Hne' & ->). split; [done|].
      exists (Some b), (length l + length tl). split_and!; [by left|done|].
      eapply result_same; [done| |done]. exists tl. done.
Qed.

Lemma push_loop_post triv this xs : ∀ vs b tl l (h : heapT) o r m k,
  o !! this = Some (Some (mkArr (Ptr b 0) (Ptr b (length l)) (Ptr b (length l + length tl)))) →
  h !! b = Some (Some (map Live l ++ tl)) → length xs ≤ length tl →
  (triv = false → Forall (λ c, c = Raw) tl) → Forall2 (aval_out h b) xs vs →
  post (push_loop triv this xs (S_ h o r m k))
    (λ _ s', ∃ r' tl', r' `suffix_of` r ∧ length tl = length xs + length tl' ∧
       (triv = false → Forall (λ c, c = Raw) tl') ∧
       s' = S_ (<[b := Some (map Live (l ++ vs) ++ tl')]> h)
               (<[this := Some (mkArr (Ptr b 0) (Ptr b (length (l ++ vs))) (Ptr b (length l + length tl)))]> o) r' m k)
    (λ s', r ≠ [] ∧ ∃ r' tl' j, j < length xs ∧ r' `suffix_of` r ∧ length tl = j + length tl' ∧
       (triv = false → Forall (λ c, c = Raw) tl') ∧
       s' = S_ (<[b := Some (map Live (l ++ take j vs) ++ tl')]> h)
               (<[this := Some (mkArr (Ptr b 0) (Ptr b (length (l ++ take j vs))) (Ptr b (length l + length tl)))]> o) r' m k).
Proof.
  induction xs as [|x xs IH]; intros vs b tl l h o r m k Ho Hh Hle Hraw HF.
  - apply Forall2_nil_inv_l in HF as ->. simpl. rewrite app_nil_r. exists r, tl.
    split_and!; [done|done|done|]. rewrite !list_insert_id; done.
  - apply Forall2_cons_inv_l in HF as (v & vs' & Hx & HF & ->).
    assert (Hb : b < length h) by (by eapply lookup_lt_Some).
    assert (this < length o) by (by eapply lookup_lt_Some).
    simpl in Hle. simpl push_loop.
    assert (HT := emplace_tail_post triv this x v b tl l h o r m k Ho Hh ltac:(lia) Hraw (proj1 Hx)).
    revert HT. unfold bind at 1. erewrite get_arr_eq by done. intros HT.
    unfold bind at 1. erewrite get_arr_eq by done. simpl a_end in *.
    unfold bind at 1. unfold bind at 1 in HT.
    destruct (construct triv (Ptr b (length l)) x (S_ h o r m k)) as [[] s1|s1|u]; [| |done].
    2:{ simpl in HT |- *. destruct HT as (_ & r' & Hr & Hne & ->). split; [done|].
        exists r', tl, 0. rewrite app_nil_r. split_and!; [lia|done|done|done|].
        rewrite !list_insert_id; done. }
    unfold bind at 1. unfold bind at 1 in HT.
    destruct (padd (Ptr b (length l)) 1 s1) as [e s2|s2|u]; [| |done].
    2:{ simpl in HT |- *. destruct HT as (_ & r' & Hr & Hne & ->). split; [done|].
        exists r', tl, 0. rewrite app_nil_r. split_and!; [lia|done|done|done|].
        rewrite !list_insert_id; done. }
    unfold bind at 1. destruct (set_end this e s2) as [[] s3|s3|u]; [| |done].
    2:{ simpl in HT |- *. destruct HT as (_ & r' & Hr & Hne & ->). split; [done|].
        exists r', tl, 0. rewrite app_nil_r. split_and!; [lia|done|done|done|].
        rewrite !list_insert_id; done. }
    simpl in HT. destruct HT as (r1 & tl1 & Hr1 & Hlt1 & Hraw1 & ->).
    assert (Hcap : length l + length tl = length (l ++ [v]) + length tl1).
    { rewrite app_length. simpl. lia. }
    eapply post_conseq; [apply (IH vs' b tl1 (l ++ [v]))| |].
    + rewrite list_lookup_insert by done. arr_eq.
    + by rewrite list_lookup_insert.
    + lia.
    + done.
    + eapply Forall2_impl; [exact HF|]. intros. by apply aval_out_upd.
    + intros _ s (r2 & tl2 & Hr2 & Hlt2 & Hraw2 & ->). exists r2, tl2.
      split_and!; [by etrans|simpl; lia|done|].
      rewrite !list_insert_insert, <-!app_assoc, Hcap. done.
    + intros s (Hne & r2 & tl2 & j & Hj & Hr2 & Hlt2 & Hraw2 & ->). split.
      { intros ->. apply suffix_nil_inv in Hr1. done. }
      exists r2, tl2, (S j). simpl. split_and!; [lia|by etrans|lia|done|].
      rewrite !list_insert_insert, <-!app_assoc, Hcap. done.
Qed.

Lemma push_back_range_post triv this xs vs a own l cap (h : heapT) o r m k :
  o !! this = Some (Some a) → arr_rep triv h a own l cap →
  (triv = true ∨ l = [] ∨ length l + length xs ≤ cap) →
  (∀ h' b', hframe h h' own (Some b') → Forall2 (aval_out h' b') xs vs) →
  length vs = length xs →
  post (push_back_range triv this xs (S_ h o r m k))
    (λ _ s', ∃ own', result triv this h o r k own (l ++ vs) (grown_end l cap (length xs)) own' s' ∧
       (length l + length xs ≤ cap → own' = own))
    (λ s', r ≠ [] ∧ ∃ own',
       (result triv this h o r k own l cap own' s' ∨
        ∃ j, j < length xs ∧
          result triv this h o r k own (l ++ take j vs) (grown_end l cap (length xs)) own' s')).
Proof.
  intros Ho HR Ht HF Hvs. unfold push_back_range, grown_end.
  assert (Hthis : this < length o) by (by eapply lookup_lt_Some).
  assert (Hle := rep_le _ _ _ _ _ _ HR).
  unfold bind at 1. erewrite size_eq_rep by eauto.
  unfold bind at 1. erewrite capacity_eq_rep by eauto.
  destruct (Nat.ltb_spec cap (length l + length xs)) as [Hgrow|Hroom].
  - rewrite Nat.max_r by lia.
    apply post_bind.
    assert (Ht' : triv = true ∨ l = []) by (destruct Ht as [|[|]]; [auto|auto|lia]).
    eapply post_conseq; [eapply grow_storage_post; [done|done|lia|done]| |].
    + intros _ s (r1 & Hr1 & ->).
      assert (Hfr := hframe_realloc h own (map Live l ++ replicate (length l + length xs - length l) Raw)
        (rep_valid _ _ _ _ _ _ HR)).
      eapply post_conseq; [eapply (push_loop_post triv this xs vs (length h)
        (replicate (length l + length xs - length l) Raw) l)| |].
      * rewrite list_lookup_insert by done. arr_eq.
      * rewrite <-(free_length own h). apply lookup_last.
      * rewrite replicate_length. lia.
      * intros _. apply Forall_raw_replicate.
      * by apply HF.
      * intros _ s (r2 & tl & Hr2 & Hlt & Hraw & ->). rewrite replicate_length in *.
        rewrite list_insert_insert.
        exists (Some (length h)). split; [|lia]. eexists. simpl.
        split_and!; [done|by etrans|done| |].
        -- eapply hframe_trans; [exact Hfr|]. eapply hframe_upd.
           rewrite <-(free_length own h). apply lookup_last.
        -- exists tl. split_and!; [arr_eq| |rewrite app_length; lia|done].
           apply list_lookup_insert. rewrite app_length, free_length; simpl; lia.
      * intros s (Hne & r2 & tl & j & Hj & Hr2 & Hlt & Hraw & ->). rewrite replicate_length in *.
        rewrite list_insert_insert. split.
        { intros ->. apply suffix_nil_inv in Hr1. done. }
        exists (Some (length h)). right. exists j. split; [done|]. eexists. simpl.
        split_and!; [done|by etrans|done| |].
        -- eapply hframe_trans; [exact Hfr|]. eapply hframe_upd.
           rewrite <-(free_length own h). apply lookup_last.
        -- exists tl. split_and!; [arr_eq| |rewrite app_length, take_length; lia|done].
           apply list_lookup_insert. rewrite app_length, free_length; simpl; lia.
    + intros s (r1 & Hr1 & Hne & ->). split; [done|]. exists own. left. by eapply result_same.
  - rewrite Nat.max_l by lia. unfold bind at 1. simpl.
    destruct own as [b|]; simpl in HR.
    + destruct HR as (tl & -> & Hh & -> & Hraw).
      assert (Hfr : hframe h h (Some b) (Some b)).
      { apply hframe_refl. intros ? [= <-]. by eapply lookup_lt_Some. }
      assert (Hb : b < length h) by (by eapply lookup_lt_Some).
      eapply post_conseq; [eapply (push_loop_post triv this xs vs b tl l); [done|done|lia|done|by apply HF]| |].
      * intros _ s (r2 & tl' & Hr2 & Hlt & Hraw' & ->). exists (Some b). split; [|done].
        eexists. simpl. split_and!; [done|done|done|by eapply hframe_upd|].
        exists tl'. split_and!; [done|by rewrite list_lookup_insert|rewrite app_length; lia|done].
      * intros s (Hne & r2 & tl' & j & Hj & Hr2 & Hlt & Hraw' & ->). split; [done|].
        exists (Some b). right. exists j. split; [done|].
        eexists. simpl. split_and!; [done|done|done|by eapply hframe_upd|].
        exists tl'. split_and!; [done|by rewrite list_lookup_insert|rewrite app_length, take_length; lia|done].
    + destruct HR as (-> & -> & ->). destruct xs; simpl in *; [|lia].
      destruct vs; [|done]. exists None. split; [|done].
      apply (result_same triv this null_arr None [] 0); done.
Qed.

Lemma pop_back_post triv this a own l v cap (h : heapT) o r m k :
  o !! this = Some (Some a) → arr_rep triv h a own (l ++ [v]) cap →
  ∃ s', pop_back triv this (S_ h o r m k) = Ok tt s' ∧
        result triv this h o r k own l cap own s' ∧ oracle s' = r ∧ moved s' = m.
Proof.
  intros Ho HR. unfold pop_back.
  assert (Hthis : this < length o) by (by eapply lookup_lt_Some).
  unfold bind at 1. erewrite size_eq_rep by eauto.
  rewrite app_length; simpl. rewrite (proj2 (Nat.ltb_lt _ _)) by lia.
  unfold bind at 1. simpl. unfold bind at 1. erewrite get_arr_eq by done.
  destruct own as [b|]; simpl in HR; [|by destruct HR as (_ & ? & _); destruct l].
  destruct HR as (tl & -> & Hh & -> & Hraw). simpl a_end.
  assert (Hb : b < length h) by (by eapply lookup_lt_Some).
  rewrite app_length in *. simpl in *.
  unfold bind at 1. erewrite psub_eq; [|done|lia].
  unfold bind at 1. erewrite set_end_eq by done. simpl.
  replace (length l + 1 - 1) with (length (map (@Live V) l)) by (rewrite map_length; lia).
  rewrite map_app, <-app_assoc in Hh. simpl in Hh.
  erewrite destroy_eq; [|exact Hh|by right].
  eexists. split; [done|]. split; [|done]. eexists. simpl.
  split_and!; [done|done|done|by eapply hframe_upd|].
  exists (Raw :: tl). split_and!.
  - by rewrite map_length.
  - by rewrite list_lookup_insert.
  - simpl. lia.
  - intros ->. constructor; auto.
Qed.

Lemma clear_post triv this a own l cap (h : heapT) o r m k :
  o !! this = Some (Some a) → arr_rep triv h a own l cap →
  ∃ s', clear triv this (S_ h o r m k) = Ok tt s' ∧
        result triv this h o r k own [] cap own s' ∧ oracle s' = r ∧ moved s' = m.
Proof.
  intros Ho HR. unfold clear. unfold bind at 1. erewrite get_arr_eq by done.
  assert (Hthis : this < length o) by (by eapply lookup_lt_Some).
  destruct own as [b|]; simpl in HR.
  - destruct HR as (tl & -> & Hh & -> & Hraw). simpl a_end; simpl a_begin.
    assert (Hb : b < length h) by (by eapply lookup_lt_Some).
    assert (HD := destroy_a_eq triv (map Live l) h o r m k b [] tl Hh (Forall_okd_live triv l)).
    simpl in HD. rewrite map_length in HD. unfold bind at 1. rewrite HD.
    erewrite set_end_eq by done. simpl. eexists. split; [done|]. split; [|done].
    eexists. simpl. split_and!; [done|done|done|by eapply hframe_upd|].
    exists (replicate (length l) Raw ++ tl). split_and!; [done|by rewrite list_lookup_insert| |].
    + by rewrite app_length, replicate_length.
    + intros ->. apply Forall_app. split; [apply Forall_raw_replicate|auto].
  - destruct HR as (-> & -> & ->). simpl. unfold bind at 1. simpl.
    erewrite set_end_eq by done. simpl. eexists. split; [done|]. split; [|done].
    eexists. simpl. split_and!; try done; by apply hframe_refl.
Qed.
(** clear() of an array in any shape (trivial types) *)
Lemma clear_shape_post this a own n cap (h : heapT) o r m k :
  o !! this = Some (Some a) → arr_shape h a own n cap →
  ∃ s', clear true this (S_ h o r m k) = Ok tt s' ∧
        result true this h o r k own [] cap own s'.
Proof.
  intros Ho HR. unfold clear. unfold bind at 1. erewrite get_arr_eq by done.
  assert (Hthis : this < length o) by (by eapply lookup_lt_Some).
  destruct own as [b|]; simpl in HR.
  - destruct HR as (cs & -> & Hh & -> & Hn). simpl a_end; simpl a_begin.
    assert (Hb : b < length h) by (by eapply lookup_lt_Some).
    assert (HD := destroy_a_eq true (take n cs) h o r m k b [] (drop n cs)).
    simpl in HD. rewrite take_drop, take_length_le in HD by done.
    unfold bind at 1. rewrite HD; [|done|by apply Forall_true; left].
    erewrite set_end_eq by done. simpl. eexists. split; [done|].
    eexists. simpl. split_and!; [done|done|done|by eapply hframe_upd|].
    eexists. split_and!; [done|by rewrite list_lookup_insert| |done].
    rewrite app_length, replicate_length, drop_length. simpl. lia.
  - destruct HR as (-> & -> & ->). simpl. unfold bind at 1. simpl.
    erewrite set_end_eq by done. simpl. eexists. split; [done|].
    eexists. simpl. split_and!; try done; by apply hframe_refl.
Qed.

Lemma reserve_post triv this n a own l cap (h : heapT) o r m k :
  o !! this = Some (Some a) → arr_rep triv h a own l cap → (triv = true ∨ l = [] ∨ n ≤ cap) →
  post (reserve triv this n (S_ h o r m k))
    (λ _ s', ∃ own', result triv this h o r k own l (Nat.max cap n) own' s' ∧ (n ≤ cap → own' = own))
    (λ s', r ≠ [] ∧ result triv this h o r k own l cap own s').
Proof.
  intros Ho HR Ht. unfold reserve. unfold bind at 1. erewrite capacity_eq_rep by eauto.
  assert (Hle := rep_le _ _ _ _ _ _ HR).
  destruct (Nat.ltb_spec cap n).
  - eapply post_conseq; [eapply grow_storage_post; [done|done|lia|destruct Ht as [?|[?|?]]; auto; lia]| |].
    + intros _ s (r1 & Hr1 & ->). exists (Some (length h)). split; [|lia].
      eexists. simpl. split_and!; [done|done|done|by eapply hframe_realloc, rep_valid|].
      exists (replicate (n - length l) Raw). split_and!.
      * arr_eq.
      * rewrite <-(free_length own h). apply lookup_last.
      * rewrite replicate_length. lia.
      * intros _. apply Forall_raw_replicate.
    + intros s (r1 & Hr1 & Hne & ->). split; [done|]. by eapply result_same.
  - rewrite Nat.max_l by lia. exists own. split; [|done]. by eapply result_same.
Qed.

Lemma resize_post triv this n a own l cap (h : heapT) o r m k :
  o !! this = Some (Some a) → arr_rep triv h a own l cap →
  (triv = true ∨ l = [] ∨ n = 0 ∨ n = cap) →
  post (resize triv this n (S_ h o r m k))
    (λ _ s', ∃ own', result triv this h o r k own (take n l) n own' s' ∧ (n = cap → own' = own))
    (λ s', r ≠ [] ∧ result triv this h o r k own l cap own s').
Proof.
  intros Ho HR Ht. unfold resize. unfold bind at 1. erewrite capacity_eq_rep by eauto.
  assert (Hle := rep_le _ _ _ _ _ _ HR).
  destruct (Nat.ltb_spec cap n).
  - eapply post_conseq; [eapply grow_storage_post; [done|done|lia|destruct Ht as [?|[?|[?|?]]]; auto; lia]| |].
    + intros _ s (r1 & Hr1 & ->). exists (Some (length h)). split; [|lia].
      rewrite take_ge by lia.
      eexists. simpl. split_and!; [done|done|done|by eapply hframe_realloc, rep_valid|].
      exists (replicate (n - length l) Raw). split_and!; [done| | |intros _; apply Forall_raw_replicate].
      * rewrite <-(free_length own h). apply lookup_last.
      * rewrite replicate_length. lia.
    + intros s (r1 & Hr1 & Hne & ->). split; [done|]. by eapply result_same.
  - destruct (Nat.ltb_spec n cap).
    + eapply post_conseq; [eapply shrink_storage_post; [done|done|done|]| |].
      { destruct Ht as [?|[->|[->|?]]]; [by left|right; by rewrite take_nil|by right|lia]. }
      * intros _ s (r1 & Hr1 & ->). exists (Some (length h)). split; [|lia].
        eexists. simpl. split_and!; [done|done|done|by eapply hframe_realloc, rep_valid|].
        exists (replicate (n - length l) Raw). split_and!; [done| | |intros _; apply Forall_raw_replicate].
        -- rewrite <-(free_length own h). apply lookup_last.
        -- rewrite replicate_length, take_length. lia.
      * intros s (r1 & Hr1 & Hne & ->). split; [done|]. by eapply result_same.
    + assert (n = cap) as -> by lia. rewrite take_ge by lia.
      exists own. split; [|done]. by eapply result_same.
Qed.
End ops.
