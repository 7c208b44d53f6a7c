From stdpp Require Import list list_numbers.
From Verif Require Import Base ArrayModel ArraySpec ArrayRun ArrayProofs ArrayOps ArrayOps2.
Local Open Scope mon_scope.

Section ops.
Context {V : Type}.
Implicit Types (l : list V) (cs : list (cell V)) (s : st V).
Notation heapT := (list (option (list (cell V)))).
Notation S_ h o r m k := (@mkSt V h o r m k).

Lemma map_live_split l1 l2 tl : map (@Live V) (l1 ++ l2) ++ tl = map Live l1 ++ map Live l2 ++ tl.
Proof. by rewrite map_app, <-app_assoc. Qed.

(** ** erase *)
Lemma erase_post triv this a b l1 v l2 cap (h : heapT) o r m k :
  o !! this = Some (Some a) → arr_rep triv h a (Some b) (l1 ++ v :: l2) cap →
  (triv = true ∨ l2 = []) →
  ∃ s', erase triv this (Ptr b (length l1)) (S_ h o r m k) = Ok (Ptr b (length l1)) s' ∧
        result triv this h o r k (Some b) (l1 ++ l2) cap (Some b) s' ∧ oracle s' = r.
Proof.
  intros Ho HR Ht. simpl in HR. destruct HR as (tl & -> & Hh & -> & Hraw).
  rewrite map_live_split in Hh. simpl in Hh.
  assert (Hb : b < length h) by (by eapply lookup_lt_Some).
  unfold erase.
  replace (Ptr b (length l1)) with (Ptr b (length (map (@Live V) l1))) by (by rewrite map_length).
  unfold bind at 1. erewrite destroy_eq; [|exact Hh|by right].
  set (h1 := <[b:=_]> h).
  assert (Hh1 : h1 !! b = Some (Some (map Live l1 ++ [Raw] ++ map Live l2 ++ tl))).
  { subst h1. by rewrite list_lookup_insert. }
  unfold bind at 1. erewrite padd_eq; [|exact Hh1|rewrite !app_length; simpl; lia].
  unfold bind at 1. erewrite get_arr_eq by done. simpl a_end.
  unfold bind at 1. rewrite pdiff_eq by (rewrite map_length, app_length; simpl; lia).
  replace (length (l1 ++ v :: l2) - (length (map Live l1) + 1)) with (length l2)
    by (rewrite map_length, app_length; simpl; lia).
  assert (HC : copy_fwd triv (length l2) (Ptr b (length (map (@Live V) l1) + 1)) (Ptr b (length (map (@Live V) l1)))
    (S_ h1 o r m k) = Ok tt (S_ (<[b := Some (map Live l1 ++ map Live l2 ++
       drop (length l2) ([Raw] ++ map Live l2) ++ tl)]> h1) o r (length l2 + m) k)).
  { destruct Ht as [-> | ->].
    - by apply (copy_fwd_down_eq true l2 h1 o r m k b (map Live l1) [Raw] tl); [left|].
    - simpl. unfold ret. simpl in Hh1. by rewrite list_insert_id. }
  unfold bind at 1. rewrite HC. clear HC.
  unfold h1. rewrite list_insert_insert. set (h2 := <[b:=_]> h).
  unfold bind at 1. erewrite psub_eq; [|by apply list_lookup_insert|rewrite app_length; simpl; lia].
  unfold bind at 1. erewrite set_end_eq by done. simpl.
  eexists. split; [done|]. split; [|done].
  eexists. simpl. split_and!; [done|done|done|by eapply hframe_upd|].
  exists (drop (length l2) ([Raw] ++ map Live l2) ++ tl). split_and!.
  - arr_eq.
  - unfold h2. rewrite list_lookup_insert by done. by rewrite map_live_split.
  - rewrite !app_length, drop_length. simpl. rewrite map_length. lia.
  - intros ->. destruct Ht as [? | ->]; [done|]. simpl. constructor; auto.
Qed.

Lemma erase_range_post triv this a b l1 l2 l3 cap (h : heapT) o r m k :
  o !! this = Some (Some a) → arr_rep triv h a (Some b) (l1 ++ l2 ++ l3) cap →
  (triv = true ∨ l3 = [] ∨ l2 = []) →
  ∃ s', erase_range triv this (Ptr b (length l1)) (Ptr b (length l1 + length l2)) (S_ h o r m k)
          = Ok (Ptr b (length l1)) s' ∧
        result triv this h o r k (Some b) (l1 ++ l3) cap (Some b) s' ∧ oracle s' = r.
Proof.
  intros Ho HR Ht. simpl in HR. destruct HR as (tl & -> & Hh & -> & Hraw).
  rewrite !map_live_split in Hh.
  assert (Hb : b < length h) by (by eapply lookup_lt_Some).
  unfold erase_range. unfold bind at 1. rewrite pdiff_eq by lia.
  replace (length l1 + length l2 - length l1) with (length (map (@Live V) l2)) by (rewrite map_length; lia).
  replace (Ptr b (length l1)) with (Ptr b (length (map (@Live V) l1))) by (by rewrite map_length).
  unfold bind at 1. erewrite destroy_n_eq; [|exact Hh|apply Forall_okd_live].
  rewrite !map_length. set (h1 := <[b:=_]> h).
  assert (Hh1 : h1 !! b = Some (Some (map Live l1 ++ replicate (length l2) Raw ++ map Live l3 ++ tl))).
  { subst h1. by rewrite list_lookup_insert. }
  unfold bind at 1. erewrite padd_eq; [|exact Hh1|rewrite !app_length, replicate_length, !map_length; lia].
  unfold bind at 1. erewrite get_arr_eq by done. simpl a_end.
  unfold bind at 1. rewrite pdiff_eq by (rewrite !app_length; simpl; lia).
  replace (length (l1 ++ l2 ++ l3) - (length l1 + length l2)) with (length l3)
    by (rewrite !app_length; simpl; lia).
  assert (HC : copy_fwd triv (length l3) (Ptr b (length l1 + length l2)) (Ptr b (length l1))
    (S_ h1 o r m k) = Ok tt (S_ (<[b := Some (map Live l1 ++ map Live l3 ++
       drop (length l3) (replicate (length l2) Raw ++ map Live l3) ++ tl)]> h1) o r (length l3 + m) k)).
  { assert (l3 = [] ∨ triv = true ∨ l2 = []) as [-> | Ht2] by tauto.
    - simpl. unfold ret. simpl in Hh1. rewrite app_nil_r. by rewrite list_insert_id.
    - assert (Hm : triv = true ∨ replicate (length l2) (@Raw V) = [])
        by (destruct Ht2 as [?| ->]; [by left|by right]).
      assert (HC := copy_fwd_down_eq triv l3 h1 o r m k b (map Live l1) (replicate (length l2) Raw) tl Hm Hh1).
      by rewrite map_length, replicate_length in HC. }
  unfold bind at 1. rewrite HC. clear HC.
  unfold h1. rewrite list_insert_insert. set (h2 := <[b:=_]> h).
  unfold bind at 1. erewrite psub_eq; [|by apply list_lookup_insert|rewrite !app_length; simpl; lia].
  unfold bind at 1. erewrite set_end_eq by done. simpl.
  eexists. split; [done|]. split; [|done].
  eexists. simpl. split_and!; [done|done|done|by eapply hframe_upd|].
  exists (drop (length l3) (replicate (length l2) Raw ++ map Live l3) ++ tl). split_and!.
  - arr_eq.
  - unfold h2. rewrite list_lookup_insert by done. by rewrite map_live_split.
  - rewrite !app_length, drop_length, app_length, replicate_length, map_length. lia.
  - intros ->. destruct Ht as [? | [-> | ->]]; [done| |].
    + simpl. rewrite app_nil_r. apply Forall_app. split; [apply Forall_raw_replicate|auto].
    + simpl. rewrite drop_ge by (rewrite map_length; lia). auto.
Qed.
(** erase(begin(), begin()) of an array without storage *)
Lemma erase_range_null triv this (h : heapT) o r m k :
  o !! this = Some (Some null_arr) →
  erase_range triv this Null Null (S_ h o r m k) = Ok Null (S_ h (<[this := Some null_arr]> o) r m k).
Proof.
  intros Ho. unfold erase_range. unfold bind at 1. simpl. unfold bind at 1. simpl.
  unfold bind at 1. simpl. unfold bind at 1. erewrite get_arr_eq by done. simpl.
  unfold bind at 1. simpl. unfold bind at 1. simpl. unfold bind at 1. simpl.
  unfold bind at 1. erewrite set_end_eq by done. done.
Qed.

(** ** insert *)
Lemma realloc_insert_post this x v a b l1 l2 (h : heapT) o r m k :
  o !! this = Some (Some a) → arr_rep true h a (Some b) (l1 ++ l2) (length (l1 ++ l2)) →
  aval h x v →
  post (realloc_insert true this (Ptr b (length l1)) x (S_ h o r m k))
    (λ p s', p = Ptr (length h) (length l1) ∧
       result true this h o r k (Some b) (l1 ++ v :: l2)
         (length (l1 ++ l2) + Nat.max (length (l1 ++ l2)) 1) (Some (length h)) s')
    (λ s', r ≠ [] ∧ result true this h o r k (Some b) (l1 ++ l2) (length (l1 ++ l2)) (Some b) s').
Proof.
  intros Ho HR0 Hx. assert (HR := HR0). simpl in HR. destruct HR as (tl & -> & Hh & Hc & _).
  assert (tl = []) as -> by (apply length_zero_iff_nil; lia).
  rewrite map_live_split in Hh.
  assert (Hb : b < length h) by (by eapply lookup_lt_Some).
  assert (Hthis : this < length o) by (by eapply lookup_lt_Some).
  unfold realloc_insert. unfold bind at 1. erewrite get_arr_eq by done. simpl a_begin; simpl a_end.
  unfold bind at 1. rewrite pdiff_eq by lia. rewrite Nat.sub_0_r.
  unfold bind at 1. erewrite size_eq_rep by eauto.
  set (n := length (l1 ++ l2) + length (l1 ++ l2) `max` 1).
  assert (Hn : length l1 + length l2 < n) by (unfold n; rewrite app_length; lia).
  apply post_bind. eapply post_conseq; [apply alloc_post| |].
  2:{ intros s (r1 & Hr1 & Hne & ->). split; [done|]. by eapply result_same. }
  intros p s (-> & r1 & Hr1 & ->).
  set (h1 := h ++ [Some (replicate n Raw)]).
  set (rest := n - (length l1 + length l2 + 1)).
  assert (Hnew : h1 !! length h = Some (Some (replicate (length l1) Raw ++ Raw ::
            (replicate (length l2) Raw ++ replicate rest Raw)))).
  { subst h1. rewrite lookup_last.
    change (Raw :: (replicate (length l2) Raw ++ replicate rest Raw)) with
      (replicate (S (length l2)) Raw ++ replicate rest (@Raw V)).
    rewrite <-!replicate_add. do 3 f_equal. subst rest. lia. }
  unfold bind at 1. erewrite padd_eq; [|exact Hnew|rewrite app_length, replicate_length; simpl; lia].
  rewrite Nat.add_0_l.
  apply post_bind. apply post_on_throw. apply post_bind.
  assert (Hx1 : aval h1 x v).
  { apply (aval_app h (Some (replicate n Raw))) in Hx. by destruct Hx. }
  eapply post_conseq; [eapply (construct_post' true x v); [by rewrite (replicate_length (length l1) (@Raw V))|exact Hnew|by left|exact Hx1]| |].
  - intros _ s (r2 & Hr2 & ->).
    set (h2 := <[length h:=_]> h1).
    assert (Hnb : b ≠ length h) by lia.
    assert (Hh1 : length h < length h1) by (subst h1; rewrite app_length; simpl; lia).
    assert (Hold2 : h2 !! b = Some (Some ([] ++ map Live l1 ++ (map Live l2 ++ [])))).
    { subst h2 h1. rewrite list_lookup_insert_ne by done. by rewrite lookup_app_l. }
    assert (Hnew2 : h2 !! length h = Some (Some ([] ++ replicate (length l1) Raw ++
        (Live v :: replicate (length l2) Raw ++ replicate rest Raw)))).
    { subst h2. by rewrite list_lookup_insert. }
    unfold bind at 1. rewrite pdiff_eq by lia. rewrite Nat.sub_0_r.
    unfold bind at 1.
    change (Ptr b 0) with (Ptr b (length (@nil (cell V)))).
    change (Ptr (length h) 0) with (Ptr (length h) (length (@nil (cell V)))).
    erewrite (move_fwd_eq true l1 h2); [|exact Hnb|exact Hold2|exact Hnew2|by rewrite replicate_length|by apply Forall_true; left].
    simpl app. set (h3 := <[length h:=_]> _).
    assert (Hlen2 : length h2 = length h1) by (subst h2; by rewrite insert_length).
    assert (Hold3 : h3 !! b = Some (Some (map Live l1 ++ map Live l2 ++ []))).
    { subst h3. rewrite list_lookup_insert_ne by done. rewrite list_lookup_insert; [done|].
      rewrite Hlen2. lia. }
    assert (Hnew3 : h3 !! length h = Some (Some ((map Live l1 ++ [Live v]) ++ replicate (length l2) Raw ++ replicate rest Raw))).
    { subst h3. rewrite list_lookup_insert by (rewrite insert_length; lia). by rewrite <-app_assoc. }
    unfold bind at 1. rewrite pdiff_eq by (rewrite app_length; lia).
    replace (length (l1 ++ l2) - length l1) with (length l2) by (rewrite app_length; lia).
    unfold bind at 1. change (length (@nil (cell V))) with 0.
    erewrite padd_eq; [|exact Hnew3|rewrite !app_length, !replicate_length, map_length; simpl; lia].
    rewrite Nat.add_0_l.
    replace (Ptr b (length l1)) with (Ptr b (length (map (@Live V) l1))) by (by rewrite map_length).
    replace (Ptr (length h) (length l1 + 1)) with (Ptr (length h) (length (map Live l1 ++ [@Live V v])))
      by (by rewrite app_length, map_length).
    erewrite (move_fwd_eq true l2 h3); [|exact Hnb|exact Hold3|exact Hnew3|by rewrite replicate_length|by apply Forall_true; left].
    simpl post. set (h4 := <[length h:=_]> _).
    assert (Hlen3 : length h3 = length h1) by (subst h3; rewrite !insert_length; done).
    assert (Hold4 : h4 !! b = Some (Some (map Live l1 ++ map (moved_cell true) l2 ++ []))).
    { subst h4. rewrite list_lookup_insert_ne by done. rewrite list_lookup_insert; [done|].
      rewrite Hlen3. lia. }
    unfold bind at 1. unfold capacity, bind at 1. erewrite get_arr_eq by done. simpl. rewrite pdiff_eq by lia.
    unfold bind at 1. erewrite (dealloc_eq true h4); [|exact Hold4| |done].
    2:{ rewrite !app_length, !map_length. simpl. lia. }
    assert (Hfin : <[b:=None]> h4 = <[b:=None]> h ++
        [Some ((map Live l1 ++ [Live v]) ++ map Live l2 ++ replicate rest Raw)]).
    { subst h4 h3 h2 h1. rewrite !(list_insert_commute _ b (length h)) by lia.
      rewrite !list_insert_insert. rewrite insert_app_l by lia.
      rewrite <-(insert_length h b None) at 1. by rewrite insert_last. }
    rewrite Hfin.
    set (h5 := <[b:=None]> h ++ _).
    assert (Hlast : h5 !! length h = Some (Some ((map Live l1 ++ [Live v]) ++ map Live l2 ++ replicate rest Raw))).
    { subst h5. rewrite <-(insert_length h b None). apply lookup_last. }
    assert (Hln : length ((map Live l1 ++ [Live v]) ++ map Live l2 ++ replicate rest Raw) = n).
    { rewrite !app_length, !map_length, replicate_length. simpl. subst rest. lia. }
    unfold bind at 1. erewrite padd_eq; [|exact Hlast|rewrite Hln, app_length; simpl; lia].
    unfold bind at 1. erewrite padd_eq; [|exact Hlast|rewrite Hln; simpl; lia].
    unfold bind at 1. rewrite set_arr_eq. simpl.
    unfold bind at 1, begin_, bind at 1. erewrite get_arr_eq by (by apply list_lookup_insert). simpl.
    unfold ret. erewrite padd_eq; [|exact Hlast|rewrite Hln; simpl; lia].
    simpl. split; [done|]. eexists. simpl. split_and!; [done|by etrans|done| |].
    + subst h5. apply (hframe_realloc h (Some b)). intros ? [= <-]. done.
    + exists (replicate rest Raw). split_and!; [| | |done].
      * arr_eq.
      * rewrite Hlast. rewrite map_app. simpl. by rewrite <-!app_assoc.
      * rewrite !app_length, replicate_length in *. simpl. subst rest. lia.
  - intros s (_ & r2 & Hr2 & Hne & ->).
    unfold bind at 1.
    replace (Ptr (length h) (length l1)) with (Ptr (length h) (length (replicate (length l1) (@Raw V))))
      by (by rewrite replicate_length).
    erewrite destroy_eq; [|exact Hnew|by left].
    erewrite dealloc_eq; [|by (rewrite list_lookup_insert by (subst h1; rewrite app_length; simpl; lia))| |done].
    2:{ rewrite app_length. simpl. rewrite app_length, !replicate_length. subst rest. lia. }
    simpl. split.
    { intros ->. apply suffix_nil_inv in Hr1. done. }
    eexists. simpl. rewrite list_insert_insert. unfold h1. rewrite insert_last.
    split_and!; [by rewrite list_insert_id|by etrans|done| |].
    + apply hframe_tmp. intros ? [= <-]. done.
    + apply (rep_frame true h _ _ (Some b)); [|exact HR0]. intros ? [= <-]. by rewrite lookup_app_l.
Qed.

(** Single insertion at index [length l1]. [x] must denote the same value in
    every state in which the code evaluates it: before anything else when the
    storage is exchanged or when appending with room, after the shift otherwise. *)
Lemma insert_shift_post triv this x v a b l1 w l2 cap (h : heapT) o r m k :
  o !! this = Some (Some a) → arr_rep triv h a (Some b) (l1 ++ w :: l2) cap →
  length (l1 ++ w :: l2) < cap →
  (∀ h', hframe h h' (Some b) (Some b) →
     (triv = true → ∃ tl, h' !! b = Some (Some (map Live (l1 ++ w :: w :: l2) ++ tl))) → aval h' x v) →
  post (insert triv this (Ptr b (length l1)) x (S_ h o r m k))
    (λ p s', p = Ptr b (length l1) ∧
       result triv this h o r k (Some b) (l1 ++ v :: w :: l2) cap (Some b) s')
    (λ s', r ≠ [] ∧
       (triv = true → result triv this h o r k (Some b) (l1 ++ w :: w :: l2) cap (Some b) s')).
Proof.
  intros Ho HR Hlt Hx. assert (HR0 := HR). simpl in HR.
  destruct HR as (tl & -> & Hh & -> & Hraw).
  assert (Hb : b < length h) by (by eapply lookup_lt_Some).
  assert (Hthis : this < length o) by (by eapply lookup_lt_Some).
  unfold insert. unfold bind at 1. erewrite get_arr_eq by done. simpl a_end; simpl a_stor.
  rewrite ptr_eqb_neq by (intros [= E]; rewrite app_length in E; simpl in E; lia).
  rewrite ptr_eqb_neq by (intros [= E]; lia).
  destruct tl as [|c tl]; [simpl in Hlt; lia|].
  set (L := l1 ++ w :: l2) in *.
  (* split off the last element *)
  assert (∃ L' z, L = L' ++ [z]) as (L' & z & HL).
  { assert (L ≠ []) as Hne by (unfold L; by destruct l1).
    destruct (exists_last Hne) as (? & ? & ?). eauto. }
  assert (HlenL : length L = S (length L')) by (rewrite HL, app_length; simpl; lia).
  assert (HlenL2 : length L = S (length l1 + length l2)) by (unfold L; rewrite app_length; simpl; lia).
  unfold bind at 1. cbn [a_end]. erewrite psub_eq; [|exact Hh|lia].
  rewrite HL, map_app, <-app_assoc in Hh. simpl in Hh.
  assert (Hz : (map Live L' ++ Live z :: c :: tl) !! (length L - 1) = Some (Live z)).
  { apply lookup_mid. rewrite map_length. lia. }
  assert (Hc : (map Live L' ++ Live z :: c :: tl) !! length L = Some c).
  { rewrite cons_middle, app_assoc. apply lookup_mid. rewrite app_length, map_length. simpl. lia. }
  (* move-construct at end *)
  unfold bind at 1. unfold move_construct.
  unfold bind at 1. erewrite get_cell_eq; [|exact Hh|exact Hc].
  unfold bind at 1. erewrite load_eq; [|exact Hh|exact Hz].
  assert (Hck : negb triv && cell_alive c = false).
  { destruct triv; [done|]. specialize (Hraw eq_refl). apply Forall_cons in Hraw as [-> _]. done. }
  rewrite Hck. unfold bind at 1. simpl.
  unfold bind at 1. erewrite set_cell_eq; [|exact Hh|exact Hz].
  rewrite insert_mid' by (rewrite map_length; lia).
  unfold bind at 1. simpl.
  unfold add_moved; simpl.
  erewrite set_cell_eq; [|by apply list_lookup_insert|].
  2:{ rewrite cons_middle, app_assoc. apply lookup_mid. rewrite app_length, map_length. simpl. lia. }
  rewrite list_insert_insert.
  assert (Hins : <[length L:=Live z]> (map Live L' ++ moved_cell triv z :: c :: tl) =
     map Live L' ++ moved_cell triv z :: Live z :: tl).
  { rewrite cons_middle, app_assoc. rewrite insert_mid' by (rewrite app_length, map_length; simpl; lia).
    by rewrite <-app_assoc. }
  rewrite Hins. clear Hins.
  set (h1 := <[b:=_]> h).
  assert (Hh1 : h1 !! b = Some (Some (map Live L' ++ moved_cell triv z :: Live z :: tl))).
  { subst h1. by rewrite list_lookup_insert. }
  unfold bind at 1. erewrite padd_eq; [|exact Hh1|rewrite app_length, map_length; simpl; lia].
  unfold bind at 1. erewrite set_end_eq by done. simpl.
  set (o1 := <[this:=_]> o).
  unfold bind at 1. erewrite get_arr_eq by (by apply list_lookup_insert). simpl.
  unfold bind at 1. erewrite psub_eq; [|exact Hh1|lia].
  unfold bind at 1. erewrite psub_eq; [|exact Hh1|lia].
  unfold bind at 1. rewrite pdiff_eq by lia.
  (* L' = l1 ++ l2' where w :: l2 = l2' ++ [z] *)
  assert (∃ l2', w :: l2 = l2' ++ [z] ∧ L' = l1 ++ l2') as (l2' & Hl2 & HL').
  { assert (w :: l2 ≠ []) as Hne by done.
    destruct (exists_last Hne) as (q & z' & E).
    unfold L in HL. rewrite E, app_assoc in HL. apply app_inj_tail in HL as [HL ->]. eauto. }
  assert (Hlen2 : length l2 = length l2').
  { apply (f_equal length) in Hl2. rewrite app_length in Hl2. simpl in Hl2. lia. }
  replace (length L + 1 - 2 - length l1) with (length l2') by lia.
  replace (Ptr b (length L + 1 - 2)) with (Ptr b (length (map (@Live V) l1) + length l2'))
    by (rewrite map_length; f_equal; lia).
  replace (Ptr b (length L + 1 - 1)) with (Ptr b (length (map (@Live V) l1) + length l2' + 1))
    by (rewrite map_length; f_equal; lia).
  rewrite HL', map_app, <-app_assoc in Hh1.
  unfold bind at 1. erewrite move_bwd_one_eq; [|exact Hh1|].
  2:{ unfold moved_cell, okd. destruct triv; [by left|by right]. }
  set (hd := match l2' with [] => moved_cell triv z | v0 :: _ => moved_cell triv v0 end).
  assert (Hhd : hd = moved_cell triv w).
  { subst hd. destruct l2' as [|y l2']; simpl in Hl2; congruence. }
  rewrite Hhd. clear hd Hhd.
  unfold h1. rewrite list_insert_insert.
  set (h2 := <[b:=_]> h).
  assert (Hshift : map Live l2' ++ Live z :: tl = map Live (w :: l2) ++ tl).
  { rewrite Hl2, map_app, <-app_assoc. done. }
  assert (Hh2 : h2 !! b = Some (Some (map Live l1 ++ moved_cell triv w :: map Live (w :: l2) ++ tl))).
  { subst h2. rewrite list_lookup_insert by done. by rewrite Hshift. }
  assert (Hfr : hframe h h2 (Some b) (Some b)) by (by eapply hframe_upd).
  assert (Hxv : aval h2 x v).
  { apply Hx; [done|]. intros ->. exists tl. rewrite Hh2. rewrite map_app, <-app_assoc. done. }
  (* assign *)
  unfold assign_arg. apply post_bind. apply post_bind.
  eapply post_conseq; [by apply (eval_arg_post triv x v)| |].
  - intros v' s (-> & r2 & Hr2 & ->).
    unfold bind at 1. unfold assign_check, bind at 1.
    assert (Hp : (map Live l1 ++ moved_cell triv w :: map Live (w :: l2) ++ tl) !! length l1 = Some (moved_cell triv w)).
    { apply lookup_mid. by rewrite map_length. }
    erewrite get_cell_eq; [|exact Hh2|exact Hp].
    assert (Hchk : (match moved_cell triv w with
      | Raw => if triv then ret tt else fail AssignRaw
      | _ => ret tt
      end) (S_ h2 o1 r2 (length l2' + S m) k) = Ok tt (S_ h2 o1 r2 (length l2' + S m) k)).
    { unfold moved_cell. by destruct triv. }
    rewrite Hchk. erewrite set_cell_eq; [|exact Hh2|exact Hp].
    rewrite insert_mid' by (by rewrite map_length).
    simpl. split; [done|]. eexists. simpl. split_and!; [done|done|done| |].
    + eapply hframe_trans; [exact Hfr|]. by eapply hframe_upd.
    + exists tl. split_and!.
      * unfold o1. simpl in *. arr_eq.
      * rewrite list_lookup_insert by (subst h2; by rewrite insert_length).
        rewrite map_app, <-app_assoc. done.
      * rewrite !app_length in *. simpl in *. lia.
      * intros Ht. specialize (Hraw Ht). by apply Forall_cons in Hraw as [_ ?].
  - intros s (_ & r2 & Hr2 & Hne & ->). split; [done|]. intros ->.
    eexists. simpl. split_and!; [done|done|done|done|].
    exists tl. split_and!.
    + arr_eq.
    + rewrite Hh2. rewrite map_app, <-app_assoc. done.
    + rewrite !app_length in *. simpl in *. lia.
    + done.
Qed.
End ops.
