(** The Heap model refines its specification. *)
From stdpp Require Import list list_numbers.
From Coq Require Import Lia.
From Verif Require Import Base Client ArrayModel ArraySpec ArrayProofs ArrayOps ArrayOps4 ArrayHistory.
From Verif Require ArrayRun ArrayObs.
From Verif Require Import HeapModel HeapSpec HeapRun HeapOrder.
Local Open Scope mon_scope.

Section proofs.
Context {V : Type} (lt : V → V → bool).
Implicit Types (l : list V) (s : st V) (σA : astore V) (σ : hst V).
Notation srs := (srs true).

Lemma post_map_inv {A B} (m : M (st V) A) (f : A → B) s Q E :
  post (bind m (λ a, ret (f a)) s) Q E → post (m s) (λ a s', Q (f a) s') E.
Proof. unfold bind, ret. by destruct (m s). Qed.

Lemma at_eq s σA i l c k v : srs s σA → σA !! i = Some (Some (Good l c)) → l !! k = Some v →
  at_ i k s = Ok v s ∧ ∃ b, index i k s = Ok (Ptr b k) s ∧ ∃ cs, heap s !! b = Some (Some cs) ∧ cs !! k = Some (Live v).
Proof.
  intros [ow H] Hi Hk. destruct s as [h o r m kk]. simpl in H.
  destruct (sr_obj _ _ _ _ _ H i _ Hi) as (a & Ha & HR). simpl in HR.
  assert (Hlt : k < length l) by (by eapply lookup_lt_Some).
  unfold at_. unfold bind. erewrite index_eq by (eauto; lia).
  destruct (ow i) as [b|]; simpl in HR; [|destruct HR as (_ & -> & _); done].
  destruct HR as (tl & -> & Hh & _). simpl.
  assert (Hc : (map Live l ++ tl) !! k = Some (Live v)).
  { rewrite lookup_app_l by (by rewrite map_length). change (map Live l) with (Live <$> l). by rewrite list_lookup_fmap, Hk. }
  split; [by erewrite load_eq|]. exists b. split; [done|]. eauto.
Qed.

Lemma size_srs s σA i l c : srs s σA → σA !! i = Some (Some (Good l c)) → size i s = Ok (length l) s.
Proof.
  intros [ow H] Hi. destruct s as [h o r m kk]. simpl in H.
  destruct (sr_obj _ _ _ _ _ H i _ Hi) as (a & Ha & HR). by eapply size_eq_rep.
Qed.

(** Two stores into an array. *)
Lemma swap_srs s σA i l c j k a b : srs s σA → σA !! i = Some (Some (Good l c)) → l !! j = Some a → l !! k = Some b →
  ∃ p q s', index i j s = Ok p s ∧ index i k s = Ok q s ∧ swap_refs p q s = Ok tt s' ∧
    srs s' (upd σA i (Good (sw l j k) c)) ∧ oracle s' = oracle s ∧ leaked s' = leaked s.
Proof.
  intros Hs Hi Hj Hk. assert (Hs' := Hs). destruct Hs' as [ow H]. destruct s as [h o r m kk]. simpl in H.
  destruct (sr_obj _ _ _ _ _ H i _ Hi) as (ar & Ha & HR). assert (HR0 := HR). simpl in HR.
  assert (Hlj : j < length l) by (by eapply lookup_lt_Some). assert (Hlk : k < length l) by (by eapply lookup_lt_Some).
  destruct (ow i) as [bl|] eqn:Eo; simpl in HR; [|destruct HR as (_ & -> & _); done].
  destruct HR as (tl & -> & Hh & Hc & Ht).
  exists (Ptr bl j), (Ptr bl k).
  rewrite (index_eq true i j _ (Some bl) l c h o r m kk Ha HR0) by lia.
  rewrite (index_eq true i k _ (Some bl) l c h o r m kk Ha HR0) by lia. simpl.
  assert (Hcj : (map Live l ++ tl) !! j = Some (Live a)).
  { rewrite lookup_app_l by (by rewrite map_length). change (map Live l) with (Live <$> l). by rewrite list_lookup_fmap, Hj. }
  assert (Hck : (map Live l ++ tl) !! k = Some (Live b)).
  { rewrite lookup_app_l by (by rewrite map_length). change (map Live l) with (Live <$> l). by rewrite list_lookup_fmap, Hk. }
  assert (Hb : bl < length h) by (by eapply lookup_lt_Some).
  set (cs1 := <[j := Live b]> (map Live l ++ tl)).
  assert (Hck1 : ∃ x, cs1 !! k = Some x).
  { apply lookup_lt_is_Some_2. subst cs1. rewrite insert_length. by eapply lookup_lt_Some. }
  destruct Hck1 as [x Hx].
  set (s' := mkSt (<[bl := Some (<[k := Live a]> cs1)]> (<[bl := Some cs1]> h)) o r m kk).
  exists s'. split_and!; [done|done| | |done|done].
  - unfold swap_refs. unfold bind at 1. erewrite load_eq by eauto. unfold bind at 1. erewrite load_eq by eauto.
    unfold bind at 1. erewrite set_cell_eq by eauto. erewrite set_cell_eq; [done| |exact Hx].
    by rewrite list_lookup_insert.
  - exists (<[i := Some bl]> ow). eapply (sr_upd true h o σA ow i (Good l c)); [exact H|exact Hi| | |].
    + simpl. symmetry. by apply list_insert_id.
    + rewrite Eo. subst s'. simpl. rewrite list_insert_insert. eapply hframe_upd. exact Hh.
    + simpl. exists tl. rewrite sw_length. split_and!; [done| |done|done].
      rewrite list_insert_insert, list_lookup_insert by done. do 2 f_equal. subst cs1. unfold sw. rewrite Hj, Hk.
      rewrite insert_app_l by (by rewrite map_length). rewrite insert_app_l by (by rewrite insert_length, map_length).
      f_equal. change (map Live) with (@fmap list _ _ _ (@Live V)). by rewrite !list_fmap_insert.
Qed.

Lemma upd_upd σA i x y : upd (upd σA i x) i y = upd σA i y.
Proof. unfold upd. by rewrite list_insert_insert. Qed.
Lemma upd_look σA i x y : σA !! i = Some (Some x) → upd σA i y !! i = Some (Some y).
Proof. intros H. unfold upd. apply list_lookup_insert. by eapply lookup_lt_Some. Qed.

(** What heapfy_* establish. *)
Definition fixed s σA i l c (n : nat) (bound : nat) (P : list V → Prop) s' : Prop :=
  ∃ l', srs s' (upd σA i (Good l' c)) ∧ l' ≡ₚ l ∧ n ≤ bound ∧ P l' ∧ oracle s' = oracle s ∧ leaked s' = leaked s.

Lemma up_post fuel : ∀ s σA i l c k, srs s σA → σA !! i = Some (Some (Good l c)) → k < length l → k < fuel →
  ∃ n s', heapfy_up_loop lt fuel i k (parent k) s = Ok n s' ∧
    fixed s σA i l c n (Nat.log2 (k + 1)) (λ l', strict_weak lt → hp_up lt l k → hp lt l') s'.
Proof.
  induction fuel as [|fuel IH]; intros s σA i l c k Hs Hi Hk Hf; [lia|].
  cbn [heapfy_up_loop]. destruct (Nat.eqb_spec k 0) as [->|Hk0].
  { exists 0, s. split; [done|]. exists l. unfold upd. rewrite list_insert_id by done.
    split_and!; try done; try lia. intros SW Hh. by apply hp_up_zero. }
  assert (Hp := parent_lt k ltac:(lia)).
  destruct (lookup_lt_is_Some_2 l k Hk) as [b Hb]. destruct (lookup_lt_is_Some_2 l (parent k)) as [a Ha]; [lia|].
  unfold bind at 1. rewrite (proj1 (at_eq _ _ _ _ _ _ _ Hs Hi Ha)).
  unfold bind at 1. rewrite (proj1 (at_eq _ _ _ _ _ _ _ Hs Hi Hb)).
  rewrite (parent_log k) by lia. destruct (lt a b) eqn:Hab; simpl.
  - destruct (swap_srs _ _ _ _ _ _ _ _ _ Hs Hi Ha Hb) as (p & q & s1 & Ep & Eq & Es & Hs1 & Ho1 & Hl1).
    unfold bind at 1. rewrite Ep. unfold bind at 1. rewrite Eq. unfold bind at 1. rewrite Es.
    destruct (IH s1 _ i (sw l (parent k) k) c (parent k) Hs1 ltac:(by eapply upd_look)) as (n & s2 & E2 & l2 & Hs2 & Hpm & Hn & Hh & Ho2 & Hl2).
    { rewrite sw_length. lia. } { lia. }
    unfold bind. rewrite E2. exists (S n), s2. split; [done|]. exists l2. rewrite upd_upd in Hs2.
    split_and!; [done| |lia| |congruence|congruence].
    + rewrite Hpm. apply sw_perm.
    + intros SW Hup. apply Hh; [done|]. eapply hp_up_step; try done. lia.
  - exists 1, s. split; [done|]. exists l. unfold upd. rewrite list_insert_id by done.
    split_and!; try done; try lia. intros SW Hh. by eapply hp_up_done.
Qed.

Lemma pick_eq s σA i l c j ch v : srs s σA → σA !! i = Some (Some (Good l c)) → l !! j = Some v →
  pick_child lt i j ch s =
  Ok (match l !! ch with Some w => (if lt v w then ch else j, 1) | None => (j, 0) end) s.
Proof.
  intros Hs Hi Hj. unfold pick_child, bind. rewrite (size_srs _ _ _ _ _ Hs Hi).
  destruct (Nat.ltb_spec ch (length l)) as [Hlt|Hge].
  - destruct (lookup_lt_is_Some_2 l ch Hlt) as [w Hw]. rewrite Hw.
    rewrite (proj1 (at_eq _ _ _ _ _ _ _ Hs Hi Hj)), (proj1 (at_eq _ _ _ _ _ _ _ Hs Hi Hw)). done.
  - rewrite (lookup_ge_None_2 l ch) by done. done.
Qed.

Lemma down_post fuel : ∀ s σA i l c k, srs s σA → σA !! i = Some (Some (Good l c)) → k < length l → length l ≤ fuel + k →
  ∃ n s', heapfy_down_rec lt fuel i k s = Ok n s' ∧
    fixed s σA i l c n (2 * (Nat.log2 (length l) - Nat.log2 (k + 1))) (λ l', strict_weak lt → hp_down lt l k → hp lt l') s'.
Proof.
  induction fuel as [|fuel IH]; intros s σA i l c k Hs Hi Hk Hf; [lia|].
  cbn [heapfy_down_rec]. destruct (lookup_lt_is_Some_2 l k Hk) as [v Hv].
  unfold bind at 1. rewrite (pick_eq _ _ _ _ _ _ _ _ Hs Hi Hv).
  set (L := match l !! left_child k with Some w => (if lt v w then left_child k else k, 1) | None => (k, 0) end).
  assert (HL : ∃ w, l !! fst L = Some w ∧ snd L ≤ 1).
  { subst L. destruct (l !! left_child k) as [w|] eqn:El; [|by exists v; simpl; eauto].
    destruct (lt v w); simpl; eauto. }
  destruct HL as (w & Hw & HLn).
  unfold bind at 1. rewrite (pick_eq _ _ _ _ _ _ _ _ Hs Hi Hw).
  set (R := match l !! right_child k with Some x => (if lt w x then right_child k else fst L, 1) | None => (fst L, 0) end).
  assert (Hlog : ∀ ch, ch < length l → 0 < ch → parent ch = k → S (Nat.log2 (k + 1)) ≤ Nat.log2 (length l)).
  { intros ch Hch H0 Hpc. rewrite <- (child_log ch k H0 Hpc). apply Nat.log2_le_mono. lia. }
  assert (Hbound : snd L + snd R ≤ 2 * (Nat.log2 (length l) - Nat.log2 (k + 1))).
  { destruct (decide (left_child k < length l)) as [Hl|Hl].
    - specialize (Hlog _ Hl ltac:(unfold left_child; lia) (parent_left k)).
      assert (snd R ≤ 1). { subst R. destruct (l !! right_child k); simpl; lia. } lia.
    - subst L R. rewrite (lookup_ge_None_2 l (left_child k)) by lia.
      rewrite (lookup_ge_None_2 l (right_child k)) by (unfold left_child, right_child in *; lia). simpl. lia. }
  assert (HR : ∃ y, l !! fst R = Some y ∧
     (fst R = k ∨ (fst R = left_child k ∨ fst R = right_child k)) ∧
     (strict_weak lt → ∀ ch x, 0 < ch → parent ch = k → l !! ch = Some x → ge lt y x) ∧
     (fst R ≠ k → strict_weak lt → lt v y = true)).
  { assert (Hch : ∀ (P : nat → V → Prop), (∀ x, l !! left_child k = Some x → P (left_child k) x) →
        (∀ x, l !! right_child k = Some x → P (right_child k) x) →
        ∀ ch x, 0 < ch → parent ch = k → l !! ch = Some x → P ch x).
    { intros P H1 H2 ch x H0 Hp Hx. destruct (parent_child ch k H0 Hp) as [-> | ->]; auto. }
    subst L R. destruct (l !! left_child k) as [a|] eqn:Ea.
    - destruct (lt v a) eqn:Hva; simpl in *.
      + assert (w = a) as -> by congruence. destruct (l !! right_child k) as [b|] eqn:Eb.
        * destruct (lt a b) eqn:Hab; simpl.
          -- exists b. split_and!; [done|by right; right| |].
             ++ intros SW. apply (Hch (λ _ x, ge lt b x)); intros x Hx; injection Hx as <-; [by apply lt_ge|by apply ge_refl].
             ++ intros _ SW. by eapply SW.
          -- exists a. split_and!; [done|by right; left| |done].
             intros SW. apply (Hch (λ _ x, ge lt a x)); intros x Hx; injection Hx as <-; [by apply ge_refl|done].
        * exists a. split_and!; [done|by right; left| |done].
          intros SW. apply (Hch (λ _ x, ge lt a x)); intros x Hx; [injection Hx as <-; by apply ge_refl|done].
      + assert (w = v) as -> by congruence. destruct (l !! right_child k) as [b|] eqn:Eb.
        * destruct (lt v b) eqn:Hvb; simpl.
          -- exists b. split_and!; [done|by right; right| |done].
             intros SW. apply (Hch (λ _ x, ge lt b x)); intros x Hx; injection Hx as <-; [|by apply ge_refl].
             eapply ge_trans; [done|by apply lt_ge|done].
          -- exists v. split_and!; [done|by left| |done].
             intros SW. apply (Hch (λ _ x, ge lt v x)); intros x Hx; injection Hx as <-; done.
        * exists v. split_and!; [done|by left| |done].
          intros SW. apply (Hch (λ _ x, ge lt v x)); intros x Hx; [injection Hx as <-; done|done].
    - simpl in *. assert (w = v) as -> by congruence.
      assert (l !! right_child k = None) as ->.
      { apply lookup_ge_None. apply lookup_ge_None in Ea. unfold left_child, right_child in *. lia. }
      simpl. exists v. split_and!; [done|by left| |done].
      intros SW. apply (Hch (λ _ x, ge lt v x)); [done|]. intros x Hx. exfalso.
      apply lookup_lt_Some in Hx. apply lookup_ge_None in Ea. unfold left_child, right_child in *. lia. }
  destruct HR as (y & Hy & Hcase & Hmax & Hlt).
  assert (HRn : snd R ≤ 1). { subst R. destruct (l !! right_child k); simpl; lia. }
  clearbody L R.
  destruct (Nat.eqb_spec (fst R) k) as [Ek|Ek].
  - exists (snd L + snd R), s. split; [done|]. exists l. unfold upd. rewrite list_insert_id by done.
    split_and!; try done. intros SW Hh. rewrite Ek in Hy. eapply hp_down_done; [done|exact Hy|by apply Hmax].
  - destruct Hcase as [?|Hcase]; [done|].
    assert (HcR : 0 < fst R ∧ parent (fst R) = k).
    { destruct Hcase as [-> | ->]; [rewrite parent_left; unfold left_child|rewrite parent_right; unfold right_child]; lia. }
    destruct HcR as [HR0 HRp]. assert (HRk := parent_lt _ HR0). rewrite HRp in HRk.
    assert (HRl : fst R < length l) by (by eapply lookup_lt_Some).
    destruct (swap_srs _ _ _ _ _ _ _ _ _ Hs Hi Hv Hy) as (p & q & s1 & Ep & Eq & Es & Hs1 & Ho1 & Hl1).
    unfold bind at 1. rewrite Ep. unfold bind at 1. rewrite Eq. unfold bind at 1. rewrite Es.
    destruct (IH s1 _ i (sw l k (fst R)) c (fst R) Hs1 ltac:(by eapply upd_look)) as (n & s2 & E2 & l2 & Hs2 & Hpm & Hn & Hh & Ho2 & Hl2).
    { by rewrite sw_length. } { rewrite sw_length. lia. }
    unfold bind. rewrite E2. exists (snd L + snd R + n), s2. split; [done|]. exists l2. rewrite upd_upd in Hs2.
    rewrite sw_length in Hn. rewrite (child_log _ _ HR0 HRp) in Hn.
    split_and!; [done| | | |congruence|congruence].
    + rewrite Hpm. apply sw_perm.
    + specialize (Hlog _ HRl HR0 HRp). lia.
    + intros SW Hup. apply Hh; [done|]. eapply hp_down_step; try done; eauto.
Qed.

Local Arguments heapfy_up_loop : simpl never.
Local Arguments heapfy_down_rec : simpl never.
Definition pushed s σA i l v n s' : Prop :=
  ∃ l' c', srs s' (upd σA i (Good l' c')) ∧ l' ≡ₚ v :: l ∧ n ≤ Nat.log2 (length l + 1) ∧
    (strict_weak lt → hp lt l → hp lt l') ∧ oracle s' `suffix_of` oracle s ∧ leaked s' = leaked s.
Definition unpushed s σA i l s' : Prop :=
  oracle s ≠ [] ∧ oracle s' `suffix_of` oracle s ∧ leaked s' = leaked s ∧ ∃ c', srs s' (upd σA i (Good l c')).

Lemma after_push s σA i l c v s1 : srs s1 (upd σA i (Good (l ++ [v]) c)) → σA !! i = Some (Some (Good l 0)) ∨ i < length σA →
  oracle s1 `suffix_of` oracle s → leaked s1 = leaked s →
  post ((sz <- size i ;; heapfy_up lt i (sz - 1)) s1) (λ n s', pushed s σA i l v n s') (λ s', unpushed s σA i l s').
Proof.
  intros Hs1 Hi Ho Hl. assert (Hi1 : upd σA i (Good (l ++ [v]) c) !! i = Some (Some (Good (l ++ [v]) c))).
  { unfold upd. apply list_lookup_insert. destruct Hi as [Hi|]; [by eapply lookup_lt_Some|done]. }
  unfold bind at 1. rewrite (size_srs _ _ _ _ _ Hs1 Hi1). unfold heapfy_up.
  rewrite app_length. simpl. replace (length l + 1 - 1) with (length l) by lia.
  destruct (up_post (S (length l)) s1 _ i (l ++ [v]) c (length l) Hs1 Hi1) as (n & s' & E & l' & Hs' & Hpm & Hn & Hh & Ho' & Hl').
  { rewrite app_length. simpl. lia. } { lia. }
  rewrite E. simpl. rewrite upd_upd in Hs'. exists l', c. split_and!; [done| |done| |by rewrite Ho'|congruence].
  - rewrite Hpm. symmetry. apply Permutation_cons_append.
  - intros SW Hp. apply Hh; [done|]. by apply hp_push.
Qed.

Lemma push_post s σA i l c v : srs s σA → σA !! i = Some (Some (Good l c)) →
  post (push lt i (AVal v) s) (λ n s', pushed s σA i l v n s') (λ s', unpushed s σA i l s').
Proof.
  intros Hs Hi. assert (Hgg : get_good σA i = Some (l, c)) by (by apply get_good_Some).
  assert (Hst := step_sim true (OPush i v) s σA (upd σA i (Good (l ++ [v]) (grown l c))) ArraySpec.RUnit Hs (or_introl eq_refl)).
  simpl in Hst. rewrite Hgg in Hst. specialize (Hst eq_refl).
  apply (post_map_inv (push_back true i (AVal v)) (λ _, ArraySpec.RUnit)) in Hst.
  unfold push. apply post_bind. eapply post_conseq; [exact Hst| |].
  - intros [] s1 (_ & Hs1 & Ho1 & Hl1). eapply after_push; try done. right. by eapply lookup_lt_Some.
  - intros s1 (Hno & Ho1 & Hl1 & σ' & (l0 & c0 & Hg0 & Hσ) & Hs1). simpl in Hg0. rewrite Hgg in Hg0. injection Hg0 as <- <-.
    split_and!; try done. destruct Hσ as [-> | ->]; [|by eexists]. exists c. unfold upd. by rewrite list_insert_id.
Qed.
Lemma emplace_post s σA i l c v : srs s σA → σA !! i = Some (Some (Good l c)) →
  post (emplace lt i (AVal v) s) (λ n s', pushed s σA i l v n s') (λ s', unpushed s σA i l s').
Proof.
  intros Hs Hi. assert (H := push_post s σA i l c v Hs Hi).
  assert (E : push lt i (AVal v) s = emplace lt i (AVal v) s); [|by rewrite <- E].
  unfold push, emplace, push_back, bind, ret. by destruct (emplace_back true i (AVal v) s).
Qed.

Lemma pop_post s σA i x l c : srs s σA → σA !! i = Some (Some (Good (x :: l) c)) →
  ∃ n s' l', pop lt i s = Ok n s' ∧ srs s' (upd σA i (Good l' c)) ∧ l' ≡ₚ l ∧ n ≤ 2 * Nat.log2 (length l) ∧
    (strict_weak lt → hp lt (x :: l) → hp lt l') ∧ oracle s' `suffix_of` oracle s ∧ leaked s' = leaked s.
Proof.
  intros Hs Hi. unfold pop. unfold bind at 1. rewrite (size_srs _ _ _ _ _ Hs Hi). unfold bind at 1.
  change ((if 0 <? length (x :: l) then ret () else fail AssertFail) s) with (Ok (St:=st V) tt s). cbv iota beta.
  destruct (exists_last (l:=x :: l)) as (l0 & y & El); [done|].
  assert (Hy : (x :: l) !! length l = Some y).
  { rewrite El. assert (length l = length l0) as ->.
    { apply (f_equal length) in El. rewrite app_length in El. simpl in El. lia. }
    by apply list_lookup_middle. }
  assert (Hx : (x :: l) !! 0 = Some x) by done.
  destruct (swap_srs _ _ _ _ _ _ _ _ _ Hs Hi Hx Hy) as (p & q & s1 & Ep & Eq & Es & Hs1 & Ho1 & Hl1).
  assert (Hbe : begin_ i s = Ok p s ∧ (e <- end_ i ;; psub e 1) s = Ok q s).
  { destruct Hs as [ow H]. destruct s as [h o r m kk]. simpl in H.
    destruct (sr_obj _ _ _ _ _ H i _ Hi) as (a & Ha & HR).
    assert (HR0 := HR). simpl in HR. destruct (ow i) as [b|]; simpl in HR; [|by destruct HR as (_ & ? & _)].
    rewrite (index_eq true i 0 _ (Some b) (x :: l) c h o r m kk Ha HR0) in Ep by lia.
    rewrite (index_eq true i (length l) _ (Some b) (x :: l) c h o r m kk Ha HR0) in Eq by (simpl; lia).
    destruct HR as (tl & -> & Hh & _). injection Ep as <-. injection Eq as <-.
    unfold begin_, end_. unfold bind. rewrite !(get_arr_eq _ _ _ _ _ _ _ Ha). simpl. split; [done|].
    erewrite psub_eq; [|exact Hh|lia]. simpl. by rewrite Nat.sub_0_r. }
  destruct Hbe as [Hb He]. unfold bind at 1. rewrite Hb.
  unfold bind in He. unfold bind at 1. destruct (end_ i s) as [e se|?|?]; [|done..].
  unfold bind at 1. rewrite He. unfold bind at 1. rewrite Es.
  set (l1 := sw (x :: l) 0 (length l)).
  assert (Hl1e : ∃ l2, l1 = l2 ++ [x] ∧ l2 ≡ₚ l ∧ (hp lt (x :: l) → length l2 = 0 ∨ hp_down lt l2 0)).
  { subst l1. destruct l as [|z l] using rev_ind.
    - exists []. simpl in *. rewrite sw_id. split_and!; [done|done|]. by left.
    - clear IHl. rewrite app_length. simpl.
      assert (z = y) as ->. { rewrite app_length in Hy. simpl in Hy. replace (length l + 1) with (S (length l)) in Hy by lia. simpl in Hy.
        rewrite list_lookup_middle in Hy by done. congruence. }
      exists (y :: l). assert (E := sw_split [] l [] x y). simpl in E. replace (length l + 1) with (S (length l)) by lia.
      rewrite E. split_and!; [done| |].
      + apply Permutation_cons_append.
      + intros Hh. right. by eapply hp_pop. }
  destruct Hl1e as (l2 & El1 & Hpm2 & Hd2). fold l1 in Hs1. rewrite El1 in Hs1. clearbody l1.
  set (σ1 := upd σA i (Good (l2 ++ [x]) c)) in *.
  assert (Hi1 : σ1 !! i = Some (Some (Good (l2 ++ [x]) c))) by (by eapply upd_look).
  assert (Hst := step_sim true (OPop i) s1 σ1 (upd σ1 i (Good l2 c)) ArraySpec.RUnit Hs1 (or_introl eq_refl)).
  simpl in Hst. rewrite (proj2 (get_good_Some _ _ _ _) Hi1) in Hst. simpl in Hst.
  rewrite app_length in Hst. simpl in Hst. rewrite (proj2 (Nat.ltb_lt 0 (length l2 + 1))) in Hst by lia. simpl in Hst.
  replace (length l2 + 1 - 1) with (length l2) in Hst by lia. rewrite take_app in Hst. specialize (Hst eq_refl).
  apply (post_map_inv (pop_back true i) (λ _, ArraySpec.RUnit)) in Hst.
  unfold bind at 1. destruct (pop_back true i s1) as [[] s2|s2|?]; simpl in Hst; [| |done].
  2:{ destruct Hst as (_ & _ & _ & σ' & Hf & _). done. }
  destruct Hst as (_ & Hs2 & Ho2 & Hlk2). subst σ1. rewrite upd_upd in Hs2.
  assert (Hi2 : upd σA i (Good l2 c) !! i = Some (Some (Good l2 c))) by (by eapply upd_look).
  unfold heapfy_down. unfold bind at 1. rewrite (size_srs _ _ _ _ _ Hs2 Hi2).
  assert (Hlen2 : length l2 = length l) by (by apply Permutation_length).
  destruct (decide (l2 = [])) as [->|Hne].
  - simpl in Hlen2. destruct l; [|done].
    exists 0, s2, []. split_and!; [|done|done|simpl; lia| |rewrite <- Ho1; done|congruence].
    + cbv [heapfy_down_rec length]. unfold pick_child, bind. rewrite (size_srs _ _ _ _ _ Hs2 Hi2). simpl. unfold ret.
      by rewrite (size_srs _ _ _ _ _ Hs2 Hi2).
    + intros _ _ k a b Hk Ha. done.
  - destruct (down_post (S (length l2)) s2 _ i l2 c 0 Hs2 Hi2) as (n & s3 & E3 & l3 & Hs3 & Hpm3 & Hn & Hh3 & Ho3 & Hl3).
    { destruct l2; [done|simpl; lia]. } { lia. }
    exists n, s3, l3. rewrite upd_upd in Hs3. split_and!; [done|done| | | | |congruence].
    + by rewrite Hpm3.
    + rewrite <- Hlen2. simpl in Hn |- *. lia.
    + intros SW Hh. apply Hh3; [done|]. destruct (Hd2 Hh) as [?|]; [|done]. by destruct l2.
    + rewrite Ho3, <- Ho1. done.
Qed.
End proofs.
