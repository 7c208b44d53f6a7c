(** What insert does when the range holds fewer elements than it was counted to
    hold: the places of the missing ones keep whatever they contained. *)
From stdpp Require Import list list_numbers.
From Verif Require Import Base ArrayModel ArraySpec ArrayRun ArrayProofs ArrayOps ArrayOps2 ArrayOps3 ArrayOps4 InputProofs.
Local Open Scope mon_scope.

Section ops.
Context {V : Type}.
Implicit Types (l : list V) (cs : list (cell V)) (s : st V).
Notation heapT := (list (option (list (cell V)))).
Notation S_ h o r m k := (@mkSt V h o r m k).

Definition holds (this : nat) (cs : list (cell V)) (s : st V) : Prop :=
  ∃ b e rest, objs s !! this = Some (Some (mkArr (Ptr b 0) (Ptr b (length cs)) e)) ∧
              heap s !! b = Some (Some (cs ++ rest)).

Lemma insert_counted_post this i n xs vs a own l cap (h : heapT) o r m k :
  o !! this = Some (Some a) → arr_rep true h a own l cap → i ≤ length l →
  (∀ h' b', Forall2 (aval_out h' b') xs vs) →
  length vs = length xs → length xs < n →
  post (insert_counted true this (pos_ptr own i) n xs (S_ h o r m k))
    (λ _ s', if Nat.ltb cap (length l + n)
       then holds this (map Live (take i l ++ vs) ++ replicate (n - length vs) Raw ++ map Live (drop i l)) s'
       else ∃ rest, holds this (map Live (take i l ++ vs) ++ drop (length vs) (take n (map Live (drop i l) ++ rest)) ++
                                map Live (drop i l)) s')
    (λ s', r ≠ []).
Proof.
  intros Ho HR Hi Hxs Hlen Hn.
  assert (Hthis : this < length o) by (by eapply lookup_lt_Some).
  assert (Hle := rep_le _ _ _ _ _ _ HR).
  unfold insert_counted. unfold bind at 1. erewrite size_eq_rep by eauto.
  unfold bind at 1. erewrite capacity_eq_rep by eauto.
  assert (Hgr : (if cap =? 0 then n else cap + n) = cap + n) by (by destruct cap).
  rewrite Hgr. clear Hgr.
  set (l1 := take i l). set (l2 := drop i l).
  assert (Hl : l = l1 ++ l2) by (symmetry; apply take_drop).
  assert (Hl1 : length l1 = i) by (unfold l1; rewrite take_length; lia).
  assert (Hll2 : length l = i + length l2) by (unfold l2; rewrite drop_length; lia).
  set (g := n - length vs).
  destruct (Nat.ltb_spec cap (length l + n)) as [Hbig|Hfit].
  - (* reallocation through a temporary *)
    unfold with_tmp. apply post_bind. unfold new_array. apply post_bind. simpl.
    apply post_bind. apply post_on_throw. unfold set_objs; simpl.
    eapply post_conseq; [apply ctor_cap_post| |].
    2:{ intros s (r1 & Hr1 & Hne & ->). done. }
    intros _ s (r1 & Hr1 & ->). rewrite insert_last. simpl.
    set (h1 := h ++ [Some (replicate (cap + n) Raw)]).
    set (ta := mkArr (Ptr (length h) 0) (Ptr (length h) 0) (Ptr (length h) (cap + n))).
    set (o1 := o ++ [Some ta]).
    assert (Hot : o1 !! length o = Some (Some ta)) by apply lookup_last.
    assert (Hoi : o1 !! this = Some (Some a)) by (unfold o1; by rewrite lookup_app_l).
    set (rest := cap + n - (length l + n)).
    assert (Hnew : h1 !! length h = Some (Some (replicate i Raw ++ replicate (length xs) Raw ++ (replicate g Raw ++ replicate (length l2) Raw ++ replicate rest Raw)))).
    { unfold h1. rewrite lookup_last. rewrite <-!replicate_add. do 3 f_equal.
      subst rest g. lia. }
    assert (Hpos : ∀ s, pdiff (pos_ptr own i) (a_begin a) s = Ok i s).
    { intros s. destruct own as [b|]; simpl in HR.
      - destruct HR as (tl & -> & _). simpl. rewrite pdiff_eq by lia. by rewrite Nat.sub_0_r.
      - destruct HR as (-> & Hl0 & _). simpl. rewrite Hl0 in Hi. simpl in Hi. by replace i with 0 by lia. }
    apply post_bind. apply post_on_throw.
    unfold bind at 1. erewrite get_arr_eq by exact Hoi.
    unfold bind at 1. rewrite Hpos.
    unfold bind at 1. erewrite get_arr_eq by exact Hot. change (a_begin ta) with (Ptr (length h) 0).
    unfold bind at 1. erewrite padd_eq; [|exact Hnew|].
    2:{ rewrite app_length, replicate_length. lia. }
    rewrite Nat.add_0_l. apply post_bind.
    replace (Ptr (length h) i) with (Ptr (length h) (length (replicate i (@Raw V)))) by (by rewrite replicate_length).
    eapply post_conseq; [eapply (construct_range_post true xs vs); [exact Hnew|by rewrite replicate_length|apply Forall_true; by left| ]| |].
    + apply Hxs.
    + intros _ s (r2 & Hr2 & ->). unfold h1. rewrite insert_last. 
      set (h2 := h ++ [Some _]).
      unfold bind at 1. rewrite Hpos.
      (* copy the prefix *)
      assert (HC1 : copy_fwd true i (a_begin a) (Ptr (length h) 0) (S_ h2 o1 r2 m k) =
        Ok tt (S_ (h ++ [Some (map Live l1 ++ map Live vs ++ replicate g Raw ++ replicate (length l2) Raw ++ replicate rest Raw)]) o1 r2 (i + m) k)).
      { destruct own as [b|]; simpl in HR.
        - destruct HR as (tl & -> & Hh & _). cbn [a_begin].
          assert (b < length h) by (by eapply lookup_lt_Some).
          rewrite Hl, map_live_split in Hh.
          pose proof (copy_fwd_eq true l1 h2 o1 r2 m k b (length h) [] (map Live l2 ++ tl) [] (replicate i Raw)
                    (map Live vs ++ replicate g Raw ++ replicate (length l2) Raw ++ replicate rest Raw)) as E.
          cbn [length] in E. rewrite Hl1 in E. rewrite E; clear E.
          + unfold h2. by rewrite insert_last.
          + lia.
          + unfold h2. rewrite lookup_app_l by done. by rewrite Hh.
          + unfold h2. by rewrite lookup_last.
          + by rewrite replicate_length.
          + apply Forall_true. by left.
        - destruct HR as (-> & Hl0 & _). assert (i = 0) as -> by (rewrite Hl0 in Hi; simpl in Hi; lia).
          unfold h2. done. }
      unfold bind at 1. rewrite HC1. clear HC1. set (h3 := h ++ [Some _]).
      assert (Hk2 : pdiff (a_end a) (pos_ptr own i) (S_ h3 o1 r2 (i + m) k) = Ok (length l2) (S_ h3 o1 r2 (i + m) k)).
      { destruct own as [b|]; simpl in HR.
        - destruct HR as (tl & -> & Hh & _). simpl. rewrite pdiff_eq by lia.
          unfold l2. by rewrite drop_length.
        - destruct HR as (-> & Hl0 & _). unfold l2. rewrite Hl0. by rewrite drop_nil. }
      unfold bind at 1. rewrite Hk2.
      assert (Hnew3 : h3 !! length h = Some (Some ((map Live l1 ++ map Live vs ++ replicate g Raw) ++ replicate (length l2) Raw ++ replicate rest Raw))).
      { unfold h3. rewrite lookup_last. by rewrite <-!app_assoc. }
      unfold bind at 1. erewrite padd_eq; [|exact Hnew3|].
      2:{ rewrite !app_length, !map_length, !replicate_length. lia. }
      rewrite Nat.add_0_l.
      assert (HC2 : copy_fwd true (length l2) (pos_ptr own i) (Ptr (length h) (i + n)) (S_ h3 o1 r2 (i + m) k) =
        Ok tt (S_ (h ++ [Some ((map Live l1 ++ map Live vs ++ replicate g Raw) ++ map Live l2 ++ replicate rest Raw)]) o1 r2 (length l2 + (i + m)) k)).
      { destruct own as [b|]; simpl in HR.
        - destruct HR as (tl & -> & Hh & _). simpl.
          assert (b < length h) by (by eapply lookup_lt_Some).
          rewrite Hl, map_live_split in Hh.
          replace (Ptr b i) with (Ptr b (length (map (@Live V) l1))) by (by rewrite map_length, Hl1).
          replace (Ptr (length h) (i + n)) with (Ptr (length h) (length (map (@Live V) l1 ++ map Live vs ++ replicate g Raw)))
            by (f_equal; rewrite !app_length, !map_length, replicate_length, Hl1; subst g; lia).
          rewrite (copy_fwd_eq true l2 h3 o1 r2 (i + m) k b (length h) (map Live l1) tl (map Live l1 ++ map Live vs ++ replicate g Raw)
              (replicate (length l2) Raw) (replicate rest Raw)).
          + unfold h3. by rewrite insert_last.
          + lia.
          + unfold h3. rewrite lookup_app_l by done. by rewrite Hh.
          + done.
          + by rewrite replicate_length.
          + apply Forall_true. by left.
        - destruct HR as (-> & Hl0 & _). assert (l2 = []) as -> by (unfold l2; rewrite Hl0; apply drop_nil).
          unfold h3. simpl. by rewrite <-!app_assoc. }
      unfold bind at 1. rewrite HC2. clear HC2. set (h4 := h ++ [Some _]).
      assert (HR4 : arr_rep true h4 a own l cap).
      { eapply rep_frame; [|exact HR]. intros b Hb. unfold h4. rewrite lookup_app_l; [done|]. by eapply rep_valid. }
      unfold bind at 1. erewrite size_eq_rep; [|exact Hoi|exact HR4].
      assert (Hnew4 : h4 !! length h = Some (Some ((map Live (l1 ++ vs) ++ replicate g Raw ++ map Live l2) ++ replicate rest Raw))).
      { unfold h4. rewrite lookup_last. rewrite !map_app. by rewrite <-!app_assoc. }
      assert (Hlen4 : length (map Live (l1 ++ vs) ++ replicate g Raw ++ map Live l2 : list (cell V)) = length l + n).
      { rewrite !app_length, !map_length, replicate_length, app_length. subst g. lia. }
      unfold bind at 1. erewrite padd_eq; [|exact Hnew4|].
      2:{ rewrite app_length, Hlen4, replicate_length. lia. }
      rewrite Nat.add_0_l.
      unfold bind at 1. erewrite set_end_eq by exact Hot. unfold o1. rewrite insert_last.
      unfold ta; cbn [a_begin a_stor].
      unfold bind at 1. erewrite swap_eq; [|lia|by rewrite lookup_app_l|by apply lookup_last].
      rewrite insert_app_l by done.
      rewrite insert_last' by (by rewrite insert_length).
      unfold bind at 1, begin_, bind at 1. erewrite get_arr_eq.
      2:{ rewrite lookup_app_l by (by rewrite insert_length). by apply list_lookup_insert. }
      cbn [a_begin]. unfold ret at 1.
      erewrite padd_eq; [|exact Hnew4|].
      2:{ rewrite app_length, Hlen4, replicate_length. lia. }
      rewrite Nat.add_0_l. simpl post.
      unfold bind at 1. erewrite dtor_eq; [| |exact HR4].
      2:{ apply lookup_last'. by rewrite ?insert_length. }
      unfold bind, pop_obj, modify, ret. simpl. unfold set_objs; simpl. rewrite take_pop.
      exists (length h), (Ptr (length h) (cap + n)), (replicate rest Raw). cbn [objs heap]. split.
      * rewrite list_lookup_insert by done. rewrite Hlen4. done.
      * unfold h4. rewrite free_app by (by eapply rep_valid). rewrite <-(free_length own h), lookup_last.
        rewrite !map_app. by rewrite <-!app_assoc.
    + intros s (r2 & j & Hr2 & Hne & Hj & _ & ->).
      unfold h1. rewrite insert_last. set (h2 := h ++ [Some _]).
      assert (Hsh : arr_shape h2 ta (Some (length h)) 0 (cap + n)).
      { eexists. split_and!; [done|unfold h2; by apply lookup_last| |lia].
        rewrite !app_length, map_length, drop_length, take_length, !replicate_length.
        subst rest. lia. }
      unfold bind at 1. erewrite dtor_shape_eq; [|exact Hot|exact Hsh].
      assert (r ≠ []). { intros ->. apply suffix_nil_inv in Hr1. done. }
      done.
  - (* in place *)
    unfold bind at 1. erewrite get_arr_eq by done.
    destruct own as [b|]; simpl in HR.
    2:{ (* no storage: nothing to insert *)
        destruct HR as (-> & Hl0 & ->). lia. }
    destruct HR as (tl & -> & Hh & -> & _). cbn [a_end]. simpl pos_ptr.
    assert (Hb : b < length h) by (by eapply lookup_lt_Some).
    unfold bind at 1. rewrite pdiff_eq by lia.
    unfold bind at 1. erewrite padd_eq; [|exact Hh|rewrite app_length, map_length; lia].
    replace (length l - i) with (length l2) by (unfold l2; by rewrite drop_length).
    set (tl1 := take n tl). set (tl2 := drop n tl).
    assert (Htl : tl = tl1 ++ tl2) by (symmetry; apply take_drop).
    assert (Htl1 : length tl1 = n) by (unfold tl1; rewrite take_length; lia).
    assert (Hh' : h !! b = Some (Some (map Live l1 ++ map Live l2 ++ tl1 ++ tl2))).
    { rewrite Hh. rewrite Htl at 1. rewrite Hl at 1. by rewrite map_live_split. }
    assert (Hll : length l = length (map (@Live V) l1) + length l2).
    { rewrite map_length. rewrite Hl at 1. by rewrite app_length. }
    unfold bind at 1.
    replace (Ptr b (length l)) with (Ptr b (length (map (@Live V) l1) + length l2)) by (by rewrite <-Hll).
    replace (Ptr b (length l + n)) with (Ptr b (length (map (@Live V) l1) + length l2 + length tl1)) by (by rewrite <-Hll, Htl1).
    erewrite (copy_bwd_up_eq true l2); [|by left|exact Hh'].
    rewrite <-Hll, Htl1. set (mid := take n _).
    set (h1 := <[b:=_]> h).
    assert (Hh1 : h1 !! b = Some (Some (map Live l1 ++ mid ++ map Live l2 ++ tl2))) by (unfold h1; by apply list_lookup_insert).
    assert (Hmid : length mid = n).
    { unfold mid. rewrite take_length, app_length, map_length. lia. }
    unfold bind at 1. erewrite set_end_eq by done. cbn [a_begin a_stor].
    apply post_bind.
    assert (Hpi : Ptr b i = Ptr b (length (map (@Live V) l1))) by (by rewrite map_length, Hl1).
    rewrite Hpi at 1.
    rewrite <- (take_drop (length vs) mid) in Hh1. rewrite <- app_assoc in Hh1.
    eapply post_conseq; [eapply (construct_range_post true xs vs); [exact Hh1| |apply Forall_true; by left|apply Hxs]| |].
    + rewrite take_length. lia.
    + intros _ s (r2 & Hr2 & ->). exists tl1. fold mid.
      exists b, (Ptr b (length l + length tl)), tl2. cbn [objs heap ret]. split.
      * rewrite list_lookup_insert by done. do 4 f_equal.
        rewrite !app_length, !map_length, drop_length, app_length. lia.
      * rewrite list_lookup_insert by (unfold h1; by rewrite insert_length). rewrite !map_app. by rewrite <-!app_assoc.
    + by intros s (r2 & j & Hr2 & Hne & _).
Qed.
Lemma read_loop_raw l : ∀ (h : heapT) o r m k b p q n,
  h !! b = Some (Some (p ++ map Live l ++ Raw :: q)) → length l < n →
  read_loop n (Ptr b (length p)) (S_ h o r m k) = UB ReadRaw.
Proof.
  induction l as [|v l IH]; intros h o r m k b p q n H Hn; (destruct n as [|n]; [simpl in *; lia|]); simpl.
  - unfold bind at 1, load, bind. erewrite get_cell_eq; [|exact H|by apply lookup_mid]. done.
  - unfold bind at 1. erewrite load_eq; [|exact H|by apply lookup_mid].
    unfold bind at 1. erewrite padd_eq; [|exact H|rewrite !app_length; simpl; lia].
    unfold bind at 1.
    replace (length p + 1) with (length (p ++ [@Live V v])) by (rewrite app_length; simpl; lia).
    erewrite (IH h o r m k b (p ++ [Live v]) q n); [done| |simpl in Hn; lia]. by rewrite <-app_assoc.
Qed.
Lemma holds_size this cs s : holds this cs s → ∃ b e rest, to_list this s = read_loop (length cs) (Ptr b 0) s ∧ heap s !! b = Some (Some (cs ++ rest)) ∧
  objs s !! this = Some (Some (mkArr (Ptr b 0) (Ptr b (length cs)) e)).
Proof.
  intros (b & e & rest & Ho & Hh). exists b, e, rest. split_and!; [|done|done].
  unfold to_list, size, begin_, bind, get_arr. rewrite Ho. cbn [a_end a_begin]. unfold pdiff.
  rewrite Nat.eqb_refl. simpl. unfold ret. rewrite Nat.sub_0_r. by rewrite Ho.
Qed.
Lemma holds_raw this l g cs s : holds this (map Live l ++ replicate g Raw ++ cs) s → 0 < g → to_list this s = UB ReadRaw.
Proof.
  intros (b & e & rest & -> & Hh & _)%holds_size Hg. destruct g as [|g]; [lia|]. destruct s as [h o r m k].
  apply (read_loop_raw l h o r m k b [] (replicate g Raw ++ cs ++ rest)).
  - simpl in *. rewrite Hh, <- app_assoc. simpl. by rewrite <- app_assoc.
  - rewrite !app_length, map_length. simpl. lia.
Qed.
Lemma holds_live this l s : holds this (map Live l) s → to_list this s = Ok l s.
Proof.
  intros (b & e & rest & -> & Hh & _)%holds_size. destruct s as [h o r m k]. rewrite map_length.
  by apply (read_loop_eq l h o r m k b [] rest).
Qed.
End ops.
