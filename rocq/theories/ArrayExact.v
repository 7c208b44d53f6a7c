(** Element types with constructors of their own: every call outside
    [ArraySpec.gentle] assigns to an object whose lifetime has not begun. *)
From stdpp Require Import list list_numbers.
From Verif Require Import Base ArrayModel ArraySpec ArrayRun ArrayProofs ArrayOps ArrayOps2 ArrayOps3 ArrayOps4 ArrayHistory ArrayObsSpec ArrayObs ArrayTheory ArrayTheory2.
Local Open Scope mon_scope.

Section exact.
Context {V : Type}.
Implicit Types (l : list V) (cs : list (cell V)) (s : st V).
Notation heapT := (list (option (list (cell V)))).
Notation S_ h o r m k := (@mkSt V h o r m k).
Implicit Types (σ : astore V).

Lemma ub_bind {A B} (m : MA A) (f : A → MA B) s u : m s = UB u → bind (St := st V) m f s = UB u.
Proof. unfold bind. by intros ->. Qed.
Lemma post_ok {A} (x : res (st V) A) Q E : post x Q E → (∀ s, E s → False) →
  ∃ a s, x = Ok a s ∧ Q a s.
Proof. destruct x; simpl; intros H HE; [eauto|by apply HE in H|done]. Qed.

Lemma alloc_nil (n : nat) (h : heapT) o m k :
  alloc n (S_ h o [] m k) = Ok (Ptr (length h) 0) (S_ (h ++ [Some (replicate n Raw)]) o [] m k).
Proof. done. Qed.

Lemma load_eq (h : heapT) o r m k b i cs v :
  h !! b = Some (Some cs) → cs !! i = Some (Live v) → load (Ptr b i) (S_ h o r m k) = Ok v (S_ h o r m k).
Proof. intros H Hi. unfold load, bind, get_cell. simpl. by rewrite H, Hi. Qed.
Lemma assign_check_raw (h : heapT) o r m k b i cs :
  h !! b = Some (Some cs) → cs !! i = Some Raw →
  assign_check false (Ptr b i) (S_ h o r m k) = UB AssignRaw.
Proof. intros H Hi. unfold assign_check, bind, get_cell. simpl. by rewrite H, Hi. Qed.

Lemma move_fwd_raw n (h : heapT) o r m k b i b' j cs cs' v : n ≠ 0 →
  h !! b = Some (Some cs) → cs !! i = Some (Live v) →
  h !! b' = Some (Some cs') → cs' !! j = Some Raw →
  move_fwd false n (Ptr b i) (Ptr b' j) (S_ h o r m k) = UB AssignRaw.
Proof.
  intros Hn H1 H2 H3 H4. destruct n as [|n]; [done|]. simpl. apply ub_bind. unfold assign_move.
  unfold bind at 1. erewrite load_eq by done. apply ub_bind. by eapply assign_check_raw.
Qed.
Lemma copy_fwd_raw n (h : heapT) o r m k b i b' j cs cs' v : n ≠ 0 →
  h !! b = Some (Some cs) → cs !! i = Some (Live v) →
  h !! b' = Some (Some cs') → cs' !! j = Some Raw →
  copy_fwd false n (Ptr b i) (Ptr b' j) (S_ h o r m k) = UB AssignRaw.
Proof.
  intros Hn H1 H2 H3 H4. destruct n as [|n]; [done|]. simpl. apply ub_bind. unfold assign_copy.
  unfold bind at 1. erewrite load_eq by done. apply ub_bind. by eapply assign_check_raw.
Qed.
Lemma copy_bwd_raw n (h : heapT) o r m k b i j cs v : n ≠ 0 →
  h !! b = Some (Some cs) → 0 < i → 0 < j → cs !! (i - 1) = Some (Live v) → cs !! (j - 1) = Some Raw →
  copy_bwd false n (Ptr b i) (Ptr b j) (S_ h o r m k) = UB AssignRaw.
Proof.
  intros Hn H1 Hi Hj H2 H3. destruct n as [|n]; [done|]. simpl.
  unfold bind at 1. erewrite psub_eq; [|exact H1|lia].
  unfold bind at 1. erewrite psub_eq; [|exact H1|lia].
  apply ub_bind. unfold assign_copy.
  unfold bind at 1. erewrite load_eq by done. apply ub_bind. by eapply assign_check_raw.
Qed.

(** A non-empty array owns a block that starts with its first element. *)
Lemma rep_cons (h : heapT) a own l cap : arr_rep false h a own l cap → l ≠ [] →
  ∃ b tl, own = Some b ∧ a = mkArr (Ptr b 0) (Ptr b (length l)) (Ptr b cap) ∧
    h !! b = Some (Some (map Live l ++ tl)) ∧ cap = length l + length tl ∧ Forall (λ c, c = Raw) tl.
Proof.
  destruct own as [b|]; simpl.
  - intros (tl & -> & H & Hc & Hr) _. exists b, tl. split_and!; auto.
  - by intros (_ & -> & _).
Qed.
Lemma live_lookup l tl i v : l !! i = Some v → (map (@Live V) l ++ tl) !! i = Some (Live v).
Proof.
  intros H. rewrite lookup_app_l by (rewrite map_length; by eapply lookup_lt_Some).
  by rewrite list_lookup_fmap, H.
Qed.
Lemma lookup_replicate_raw n i : i < n → replicate n (@Raw V) !! i = Some Raw.
Proof. intros. by apply lookup_replicate_2. Qed.

Lemma grow_harsh this n a own l cap (h : heapT) o m k :
  o !! this = Some (Some a) → arr_rep false h a own l cap → l ≠ [] → 0 < n →
  grow_storage false this n (S_ h o [] m k) = UB AssignRaw.
Proof.
  intros Ho HR Hl Hn. unfold grow_storage. unfold bind at 1. erewrite size_eq_rep by eauto.
  unfold bind at 1. rewrite alloc_nil. unfold bind at 1. erewrite get_arr_eq by done.
  destruct (rep_cons _ _ _ _ _ HR Hl) as (b & tl & -> & -> & Hh & -> & Hraw). simpl a_begin; simpl a_end.
  unfold bind at 1. rewrite pdiff_eq by lia. apply ub_bind.
  destruct l as [|v l]; [done|].
  eapply move_fwd_raw; [simpl; lia| | | |].
  - rewrite lookup_app_l by (by eapply lookup_lt_Some). exact Hh.
  - by apply live_lookup.
  - apply lookup_last.
  - by apply lookup_replicate_raw.
Qed.

Lemma shrink_harsh this n a own l cap (h : heapT) o m k :
  o !! this = Some (Some a) → arr_rep false h a own l cap → l ≠ [] → 0 < n →
  shrink_storage false this n (S_ h o [] m k) = UB AssignRaw.
Proof.
  intros Ho HR Hl Hn. unfold shrink_storage. unfold bind at 1. erewrite size_eq_rep by eauto.
  unfold bind at 1. rewrite alloc_nil. unfold bind at 1. erewrite get_arr_eq by done.
  destruct (rep_cons _ _ _ _ _ HR Hl) as (b & tl & -> & -> & Hh & -> & Hraw). simpl a_begin; simpl a_end.
  assert (Hh' : (h ++ [Some (replicate n Raw)]) !! b = Some (Some (map Live l ++ tl))).
  { rewrite lookup_app_l by (by eapply lookup_lt_Some). exact Hh. }
  unfold bind at 1. erewrite padd_eq; [|exact Hh'|rewrite app_length, map_length; lia].
  unfold bind at 1. rewrite pdiff_eq by lia. apply ub_bind.
  assert (Hl0 : 0 < length l) by (destruct l; [done|simpl; lia]).
  destruct l as [|v l]; [done|].
  eapply move_fwd_raw; [lia|exact Hh'|by apply live_lookup| |].
  - apply lookup_last.
  - by apply lookup_replicate_raw.
Qed.

Lemma emplace_harsh this x a own l cap (h : heapT) o m k :
  o !! this = Some (Some a) → arr_rep false h a own l cap → l ≠ [] → cap ≤ length l →
  emplace_back false this x (S_ h o [] m k) = UB AssignRaw.
Proof.
  intros Ho HR Hl Hc. assert (Hle := rep_le _ _ _ _ _ _ HR).
  unfold emplace_back. unfold bind at 1. erewrite get_arr_eq by done.
  rewrite (rep_full _ _ _ _ _ _ HR). replace (length l =? cap) with true by (symmetry; apply Nat.eqb_eq; lia).
  apply ub_bind. unfold bind at 1. erewrite size_eq_rep by eauto.
  eapply grow_harsh; [done|done|done|]. destruct l; [done|simpl; lia].
Qed.

Lemma insert_harsh this i v a own l cap (h : heapT) o m k :
  o !! this = Some (Some a) → arr_rep false h a own l cap → l ≠ [] → cap ≤ length l → i ≤ length l →
  insert false this (pos_ptr own i) (AVal v) (S_ h o [] m k) = UB AssignRaw.
Proof.
  intros Ho HR Hl Hc Hi. assert (Hle := rep_le _ _ _ _ _ _ HR).
  unfold insert. unfold bind at 1. erewrite get_arr_eq by done.
  destruct (ptr_eqb (pos_ptr own i) (a_end a)) eqn:Ee.
  { apply ub_bind. by eapply emplace_harsh. }
  rewrite (rep_full _ _ _ _ _ _ HR). replace (length l =? cap) with true by (symmetry; apply Nat.eqb_eq; lia).
  unfold realloc_insert. unfold bind at 1. erewrite get_arr_eq by done.
  assert (HR0 := HR).
  destruct (rep_cons _ _ _ _ _ HR Hl) as (b & tl & -> & -> & Hh & -> & Hraw). simpl a_begin; simpl a_end.
  simpl in Ee. rewrite Nat.eqb_refl in Ee. simpl in Ee. apply Nat.eqb_neq in Ee.
  simpl pos_ptr. unfold bind at 1. rewrite pdiff_eq by lia. rewrite Nat.sub_0_r.
  unfold bind at 1. erewrite size_eq_rep by eauto.
  set (ns := length l + length l `max` 1).
  unfold bind at 1. rewrite alloc_nil. set (h1 := h ++ [Some (replicate ns Raw)]).
  assert (Hl0 : 0 < length l) by (destruct l; [done|simpl; lia]).
  assert (Hnew : h1 !! length h = Some (Some (replicate i Raw ++ Raw :: replicate (ns - S i) Raw))).
  { unfold h1. rewrite lookup_last. do 2 f_equal.
    change (Raw :: replicate (ns - S i) (@Raw V)) with (replicate (S (ns - S i)) (@Raw V)).
    rewrite <-replicate_add. f_equal. unfold ns. lia. }
  unfold bind at 1. erewrite padd_eq; [|exact Hnew|].
  2:{ rewrite app_length. simpl. rewrite !replicate_length. lia. }
  rewrite Nat.add_0_l. apply ub_bind. unfold on_throw.
  assert (Hu : ∀ (X : MA unit), (construct false (Ptr (length h) i) (AVal v) ;;; X) (S_ h1 o [] m k) =
     X (S_ (<[length h := Some (replicate i Raw ++ Live v :: replicate (ns - S i) Raw)]> h1) o [] m k)).
  { intros X.
    assert (Hp := construct_post' false (AVal v) v h1 o [] m k (length h) (replicate i Raw) Raw (replicate (ns - S i) Raw) i).
    destruct (post_ok _ _ _ (Hp ltac:(by rewrite replicate_length) Hnew (or_intror eq_refl) eq_refl)) as ([] & s & E & r' & Hr' & ->).
    { intros s (_ & r' & _ & Hn & _). done. }
    apply suffix_nil_inv in Hr' as ->. unfold bind. by rewrite E. }
  rewrite Hu. clear Hu. set (h2 := <[length h:=_]> h1).
  assert (Hb : b < length h) by (by eapply lookup_lt_Some).
  assert (Hh2 : h2 !! b = Some (Some (map Live l ++ tl))).
  { unfold h2, h1. rewrite list_lookup_insert_ne by lia. by rewrite lookup_app_l. }
  assert (Hn2 : h2 !! length h = Some (Some (replicate i Raw ++ Live v :: replicate (ns - S i) Raw))).
  { unfold h2, h1. rewrite list_lookup_insert; [done|]. rewrite app_length. simpl. lia. }
  unfold bind at 1. rewrite pdiff_eq by lia. rewrite Nat.sub_0_r.
  destruct (decide (i = 0)) as [-> | Hi0].
  - simpl. unfold bind at 1. unfold ret at 1. unfold bind at 1. rewrite pdiff_eq by lia.
    unfold bind at 1. erewrite padd_eq; [|exact Hn2|simpl; rewrite replicate_length; unfold ns; lia].
    destruct l as [|x l]; [done|].
    erewrite move_fwd_raw; [done|simpl; lia|exact Hh2|by apply live_lookup|exact Hn2|].
    simpl. apply lookup_replicate_raw. unfold ns. simpl. lia.
  - destruct l as [|x l]; [done|].
    unfold bind at 1.
    erewrite move_fwd_raw; [done|done|exact Hh2|by apply live_lookup|exact Hn2|].
    rewrite lookup_app_l by (rewrite replicate_length; lia). apply lookup_replicate_raw. lia.
Qed.

Lemma insert_range_harsh this i xs a own l cap (h : heapT) o m k :
  o !! this = Some (Some a) → arr_rep false h a own l cap → l ≠ [] → xs ≠ [] →
  (i < length l ∨ cap < length l + length xs) → i ≤ length l →
  insert_range false this (pos_ptr own i) (map AVal xs) (S_ h o [] m k) = UB AssignRaw.
Proof.
  intros Ho HR Hl Hx Hh0 Hi. assert (Hle := rep_le _ _ _ _ _ _ HR).
  assert (Hthis : this < length o) by (by eapply lookup_lt_Some).
  unfold insert_range. rewrite map_length. unfold bind at 1. erewrite size_eq_rep by eauto.
  unfold bind at 1. erewrite capacity_eq_rep by eauto.
  set (n := length xs) in *. assert (Hn0 : 0 < n) by (unfold n; destruct xs; [done|simpl; lia]).
  assert (Hl0 : 0 < length l) by (destruct l; [done|simpl; lia]).
  assert (Hgr : (if cap =? 0 then n else cap + n) = cap + n) by (by destruct cap).
  rewrite Hgr. clear Hgr.
  destruct (rep_cons _ _ _ _ _ HR Hl) as (b & tl & -> & -> & Hh & Hcap & Hraw).
  assert (Hb : b < length h) by (by eapply lookup_lt_Some).
  destruct (Nat.ltb_spec cap (length l + n)) as [Hbig|Hfit].
  - unfold with_tmp. unfold bind at 1. unfold new_array. unfold bind at 1. simpl push_obj.
    unfold push_obj, gets, modify, ret. unfold bind at 1. simpl.
    unfold bind at 1. unfold set_objs; simpl. unfold bind at 1.
    destruct (post_ok _ _ _ (ctor_cap_post (length o) (cap + n) h (o ++ [Some null_arr]) [] m k)) as ([] & s & E & r' & Hr' & ->).
    { intros s (r' & _ & Hne & _). done. }
    apply suffix_nil_inv in Hr' as ->. unfold on_throw at 1. rewrite E. clear E.
    rewrite insert_last. unfold bind at 1. unfold on_throw at 1.
    set (h1 := h ++ [Some (replicate (cap + n) Raw)]).
    set (ta := mkArr (Ptr (length h) 0) (Ptr (length h) 0) (Ptr (length h) (cap + n))).
    set (o1 := o ++ [Some ta]).
    assert (Hot : o1 !! length o = Some (Some ta)) by apply lookup_last.
    assert (Hoi : o1 !! this = Some (Some (mkArr (Ptr b 0) (Ptr b (length l)) (Ptr b cap)))) by (unfold o1; by rewrite lookup_app_l).
    set (rest := cap - i).
    assert (Hnew : h1 !! length h = Some (Some (replicate i Raw ++ replicate n Raw ++ replicate rest Raw))).
    { unfold h1. rewrite lookup_last. rewrite <-!replicate_add. do 3 f_equal. subst rest. lia. }
    unfold bind at 1. erewrite get_arr_eq by exact Hoi. simpl a_begin. simpl pos_ptr.
    unfold bind at 1. rewrite pdiff_eq by lia. rewrite Nat.sub_0_r.
    unfold bind at 1. erewrite get_arr_eq by exact Hot. change (a_begin ta) with (Ptr (length h) 0).
    unfold bind at 1. erewrite padd_eq; [|exact Hnew|].
    2:{ rewrite app_length, replicate_length. lia. }
    rewrite Nat.add_0_l.
    assert (Hu : construct_range false (Ptr (length h) i) (map AVal xs) (S_ h1 o1 [] m k) =
       Ok tt (S_ (<[length h := Some (replicate i Raw ++ map Live xs ++ replicate rest Raw)]> h1) o1 [] m k)).
    {
      assert (Hp := construct_range_post false (map AVal xs) xs h1 o1 [] m k (length h) (replicate i Raw) (replicate n Raw) (replicate rest Raw) Hnew).
      rewrite !replicate_length, map_length in Hp.
      destruct (post_ok _ _ _ (Hp eq_refl (Forall_replicate (okc false) n (@Raw V) (or_intror eq_refl)) (AVal_vals_out _ _ _))) as ([] & s & E & r' & Hr' & ->).
      { intros s (r' & j & _ & Hn & _). done. }
      by apply suffix_nil_inv in Hr' as ->. }
    rewrite Hu. clear Hu. set (h2 := <[length h:=_]> h1).
    assert (Hh2 : h2 !! b = Some (Some (map Live l ++ tl))).
    { unfold h2, h1. rewrite list_lookup_insert_ne by lia. by rewrite lookup_app_l. }
    assert (Hn2 : h2 !! length h = Some (Some (replicate i Raw ++ map Live xs ++ replicate rest Raw))).
    { unfold h2, h1. rewrite list_lookup_insert; [done|]. rewrite app_length. simpl. lia. }
    unfold bind at 1. rewrite pdiff_eq by lia. rewrite Nat.sub_0_r.
    destruct (decide (i = 0)) as [-> | Hi0].
    + simpl. unfold bind at 1. unfold ret at 1. unfold bind at 1. rewrite pdiff_eq by lia.
      unfold bind at 1. erewrite padd_eq; [|exact Hn2|simpl; rewrite app_length, map_length; fold n; lia].
      destruct l as [|x l]; [done|].
      unfold bind at 1.
      erewrite copy_fwd_raw; [done|simpl; lia|exact Hh2|by apply live_lookup|exact Hn2|].
      simpl. rewrite lookup_app_r by (rewrite map_length; fold n; lia).
      apply lookup_replicate_raw. rewrite map_length. unfold rest. fold n. simpl in Hcap. lia.
    + destruct l as [|x l]; [done|].
      unfold bind at 1.
      erewrite copy_fwd_raw; [done|done|exact Hh2|by apply live_lookup|exact Hn2|].
      rewrite lookup_app_l by (rewrite replicate_length; lia). apply lookup_replicate_raw. lia.
  - unfold bind at 1. erewrite get_arr_eq by done. simpl a_end. simpl pos_ptr.
    unfold bind at 1. rewrite pdiff_eq by lia.
    unfold bind at 1. erewrite padd_eq; [|exact Hh|rewrite app_length, map_length; lia].
    apply ub_bind.
    destruct (lookup_lt_is_Some_2 l (length l - 1)) as [v Hv]; [lia|].
    eapply copy_bwd_raw; [lia|exact Hh|lia|lia|by apply live_lookup|].
    rewrite lookup_app_r by (rewrite map_length; lia). rewrite map_length.
    destruct (lookup_lt_is_Some_2 tl (length l + n - 1 - length l)) as [c Hc]; [lia|].
    rewrite Hc. f_equal. by eapply (Forall_lookup_1 _ _ _ _ Hraw).
Qed.

Lemma push_range_harsh this xs a own l cap (h : heapT) o m k :
  o !! this = Some (Some a) → arr_rep false h a own l cap → l ≠ [] → cap < length l + length xs →
  push_back_range false this (map AVal xs) (S_ h o [] m k) = UB AssignRaw.
Proof.
  intros Ho HR Hl Hc. unfold push_back_range. rewrite map_length.
  unfold bind at 1. erewrite size_eq_rep by eauto.
  unfold bind at 1. erewrite capacity_eq_rep by eauto.
  replace (cap <? length l + length xs) with true by (symmetry; apply Nat.ltb_lt; lia).
  apply ub_bind. eapply grow_harsh; [done|done|done|]. lia.
Qed.

Lemma erase_harsh this i a own l cap (h : heapT) o m k :
  o !! this = Some (Some a) → arr_rep false h a own l cap → S i < length l →
  erase false this (pos_ptr own i) (S_ h o [] m k) = UB AssignRaw.
Proof.
  intros Ho HR Hi.
  assert (Hl : l ≠ []) by (intros ->; simpl in Hi; lia).
  destruct (rep_cons _ _ _ _ _ HR Hl) as (b & tl & -> & -> & Hh & Hcap & Hraw).
  assert (Hb : b < length h) by (by eapply lookup_lt_Some).
  destruct (lookup_lt_is_Some_2 l i) as [v Hv]; [lia|].
  destruct (lookup_lt_is_Some_2 l (S i)) as [w Hw]; [lia|].
  assert (Hs : l = take i l ++ v :: drop (S i) l) by (symmetry; by apply take_drop_middle).
  assert (Hti : length (take i l) = i) by (rewrite take_length; lia).
  assert (Hh' : h !! b = Some (Some (map Live (take i l) ++ Live v :: (map Live (drop (S i) l) ++ tl)))).
  { rewrite Hh. rewrite Hs at 1. by rewrite map_app, <-app_assoc. }
  unfold erase. simpl pos_ptr. unfold bind at 1.
  replace (Ptr b i) with (Ptr b (length (map (@Live V) (take i l)))) by (by rewrite map_length, Hti).
  erewrite destroy_eq; [|exact Hh'|by right]. rewrite map_length, Hti.
  set (cs := map Live (take i l) ++ Raw :: _). set (h1 := <[b:=_]> h).
  assert (Hh1 : h1 !! b = Some (Some cs)) by (unfold h1; by apply list_lookup_insert).
  assert (Hlen : length cs = length l + length tl).
  { unfold cs. rewrite app_length. simpl. rewrite app_length, !map_length, drop_length. lia. }
  unfold bind at 1. erewrite padd_eq; [|exact Hh1|lia].
  unfold bind at 1. erewrite get_arr_eq by done. simpl a_end.
  unfold bind at 1. rewrite pdiff_eq by lia. apply ub_bind.
  eapply (copy_fwd_raw _ _ _ _ _ _ _ _ _ _ _ _ w); [lia|exact Hh1| |exact Hh1|].
  - unfold cs. rewrite lookup_app_r by (rewrite map_length; lia). rewrite map_length, Hti.
    replace (i + 1 - i) with 1 by lia. simpl. apply live_lookup. rewrite lookup_drop.
    by replace (S i + 0) with (S i) by lia.
  - unfold cs. apply lookup_mid. by rewrite map_length.
Qed.

Lemma erase_range_harsh this i j a own l cap (h : heapT) o m k :
  o !! this = Some (Some a) → arr_rep false h a own l cap → i < j → j < length l →
  erase_range false this (pos_ptr own i) (pos_ptr own j) (S_ h o [] m k) = UB AssignRaw.
Proof.
  intros Ho HR Hij Hj.
  assert (Hl : l ≠ []) by (intros ->; simpl in Hj; lia).
  destruct (rep_cons _ _ _ _ _ HR Hl) as (b & tl & -> & -> & Hh & Hcap & Hraw).
  assert (Hb : b < length h) by (by eapply lookup_lt_Some).
  destruct (lookup_lt_is_Some_2 l j) as [w Hw]; [lia|].
  assert (Hs : l = take i l ++ take (j - i) (drop i l) ++ drop j l).
  { rewrite <-(take_drop i l) at 1. f_equal. rewrite <-(take_drop (j - i) (drop i l)) at 1. f_equal.
    rewrite drop_drop. f_equal. lia. }
  set (mid := take (j - i) (drop i l)) in *.
  assert (Hti : length (take i l) = i) by (rewrite take_length; lia).
  assert (Hmid : length mid = j - i) by (unfold mid; rewrite take_length, drop_length; lia).
  assert (Hh' : h !! b = Some (Some (map Live (take i l) ++ map Live mid ++ (map Live (drop j l) ++ tl)))).
  { rewrite Hh. rewrite Hs at 1. by rewrite !map_app, <-!app_assoc. }
  unfold erase_range. simpl pos_ptr. unfold bind at 1. rewrite pdiff_eq by lia.
  unfold bind at 1.
  replace (Ptr b i) with (Ptr b (length (map (@Live V) (take i l)))) at 1 by (by rewrite map_length, Hti).
  replace (j - i) with (length (map (@Live V) mid)) at 1 by (by rewrite map_length).
  erewrite destroy_n_eq; [|exact Hh'|apply Forall_okd_live]. rewrite map_length, Hmid.
  set (cs := map Live (take i l) ++ replicate _ Raw ++ _). set (h1 := <[b:=_]> h).
  assert (Hh1 : h1 !! b = Some (Some cs)) by (unfold h1; by apply list_lookup_insert).
  assert (Hlen : length cs = length l + length tl).
  { unfold cs. rewrite !app_length, replicate_length, !map_length, drop_length. lia. }
  unfold bind at 1. erewrite padd_eq; [|exact Hh1|lia].
  unfold bind at 1. erewrite get_arr_eq by done. simpl a_end.
  unfold bind at 1. rewrite pdiff_eq by lia. apply ub_bind.
  eapply (copy_fwd_raw _ _ _ _ _ _ _ _ _ _ _ _ w); [lia|exact Hh1| |exact Hh1|].
  - unfold cs. rewrite lookup_app_r by (rewrite map_length; lia). rewrite map_length, Hti.
    rewrite lookup_app_r by (rewrite replicate_length; lia). rewrite replicate_length.
    apply live_lookup. rewrite lookup_drop. rewrite <-Hw. f_equal. lia.
  - unfold cs. rewrite lookup_app_r by (rewrite map_length; lia). rewrite map_length, Hti.
    rewrite lookup_app_l by (rewrite replicate_length; lia). apply lookup_replicate_raw. lia.
Qed.

(** Which of the two cases a call is in can be decided. *)
Lemma gentle_dec (o : op V) σ σ1 r : spec_step o σ = Some (σ1, r) → gentle o σ ∨ ¬ gentle o σ.
Proof.
  intros Hsp.
  assert (HD : ∀ l0 c0 (P : list V → nat → Prop), (∀ l c, Decision (P l c)) →
    (∃ l c, Some (l0, c0) = Some (l, c) ∧ P l c) ∨ ¬ (∃ l c, Some (l0, c0) = Some (l, c) ∧ P l c)).
  { intros l0 c0 P HP. destruct (decide (P l0 c0)) as [H|H]; [left; eauto|right].
    intros (l' & c' & Hg' & H'). by simplify_eq. }
  assert (Hnil : ∀ {A} (l : list A), Decision (l = [])).
  { intros A [|x l]; [by left|by right]. }
  destruct o; simpl; try (by left); simpl in Hsp;
    (destruct (get_good σ _) as [[l0 c0]|]; [|done]); apply HD; intros; apply _.
Qed.

Lemma step_harsh (op : op V) s σ σ1 r : srs false s σ → oracle s = [] →
  spec_step op σ = Some (σ1, r) → ¬ gentle op σ → run_op false op s = UB AssignRaw.
Proof.
  intros [ow H] Hor Hsp Hng. destruct s as [h o rr m k]. simpl in H, Hor. subst rr.
  assert (Hex : ∀ (P : list V → nat → Prop) l0 c0,
    ¬ (∃ l c, Some (l0, c0) = Some (l, c) ∧ P l c) → ¬ P l0 c0).
  { intros P l0 c0 Hn HP. apply Hn. eauto. }
  destruct op as [| | | | | | | | | | | |i n|i n|i k0 v|i k0 xs|i v|i v|i xs| |i k0|i k0 m0| | | | | | |];
    simpl in Hsp, Hng; try (exfalso; by apply Hng);
    (destruct (get_good σ i) as [[l c]|] eqn:Eg; [|done]); simpl in Hsp;
    apply (Hex (λ l c, _)) in Hng;
    apply get_good_Some in Eg; destruct (sr_obj _ _ _ _ _ H _ _ Eg) as (a & Ha & HR); simpl in HR;
    unfold run_op; assert (Hle := rep_le _ _ _ _ _ _ HR).
  - (* OReserve *) apply ub_bind. unfold reserve, bind. erewrite capacity_eq_rep by eauto.
    replace (c <? n) with true by (symmetry; apply Nat.ltb_lt; lia).
    eapply grow_harsh; [done|done| |lia]. auto.
  - (* OResize *) apply ub_bind. unfold resize, bind. erewrite capacity_eq_rep by eauto.
    destruct (Nat.ltb_spec c n).
    + eapply grow_harsh; [done|done| |lia]. auto.
    + replace (n <? c) with true by (symmetry; apply Nat.ltb_lt; lia).
      eapply shrink_harsh; [done|done| |lia]. auto.
  - (* OInsert *) destruct (k0 <=? length l) eqn:Ek; [|done]. apply Nat.leb_le in Ek.
    unfold bind at 1. erewrite index_eq by eauto. apply ub_bind.
    eapply insert_harsh; [done|done| |lia|done]. auto.
  - (* OInsertRange *) destruct (k0 <=? length l) eqn:Ek; [|done]. apply Nat.leb_le in Ek.
    unfold bind at 1. erewrite index_eq by eauto. apply ub_bind.
    eapply insert_range_harsh; [done|done|auto|auto| |done].
    destruct (decide (k0 < length l)); [by left|right].
    destruct (decide (length l + length xs ≤ c)); [|lia]. exfalso. apply Hng. right; right. lia.
  - (* OPush *) apply ub_bind. unfold push_back. apply ub_bind. eapply emplace_harsh; [done|done| |lia]. auto.
  - (* OEmplace *) apply ub_bind. eapply emplace_harsh; [done|done| |lia]. auto.
  - (* OPushRange *) apply ub_bind. eapply push_range_harsh; [done|done| |lia]. auto.
  - (* OErase *) destruct (k0 <? length l) eqn:Ek; [|done]. apply Nat.ltb_lt in Ek.
    unfold bind at 1. erewrite index_eq; [|exact Ha|exact HR|lia]. apply ub_bind.
    eapply erase_harsh; [done|done|lia].
  - (* OEraseRange *) destruct ((k0 <=? m0) && (m0 <=? length l)) eqn:Ek; [|done].
    apply andb_true_iff in Ek as [Ek1 Ek2]. apply Nat.leb_le in Ek1, Ek2.
    unfold bind at 1. erewrite index_eq; [|exact Ha|exact HR|lia].
    unfold bind at 1. erewrite index_eq; [|exact Ha|exact HR|lia]. apply ub_bind.
    eapply erase_range_harsh; [done|done|lia|lia].
Qed.

Lemma ops_harsh (os : list (op V)) : ∀ s σ rs σ', srs false s σ → oracle s = [] →
  spec_exec os σ = Some (rs, σ') → ¬ all_gentle os σ → run_ops false os s = UB AssignRaw.
Proof.
  induction os as [|o os IH]; intros s σ rs σ' Hs Hor Hsp Hng; simpl in *; [by exfalso; apply Hng|].
  destruct (spec_step o σ) as [[σ1 r]|] eqn:E1; [|done]. simpl in Hsp.
  destruct (spec_exec os σ1) as [[rs' σ2]|] eqn:E2; [|done]. simpl in Hsp.
  destruct (gentle_dec o σ σ1 r E1) as [Hg|Hg].
  - assert (Hst := step_sim false o s σ σ1 r Hs (or_intror (conj Hor Hg)) E1).
    unfold bind at 1. destruct (run_op false o s) as [r' s'|s'|u] eqn:E; simpl in Hst; [| |done].
    + destruct Hst as (-> & Hs1 & Hor' & _). rewrite Hor in Hor'. apply suffix_nil_inv in Hor'.
      unfold bind at 1. erewrite IH; [done|exact Hs1|done|exact E2|].
      intros Ha. apply Hng. split; [done|]. intros σ3 r3 E3. by simplify_eq.
    + destruct Hst as (Hr & _). by rewrite Hor in Hr.
  - unfold bind at 1. by erewrite step_harsh.
Qed.

Lemma all_gentle_dec (os : list (op V)) : ∀ σ rs σ', spec_exec os σ = Some (rs, σ') →
  all_gentle os σ ∨ ¬ all_gentle os σ.
Proof.
  induction os as [|o os IH]; intros σ rs σ' Hsp; simpl in *; [by left|].
  destruct (spec_step o σ) as [[σ1 r]|] eqn:E1; [|done]. simpl in Hsp.
  destruct (spec_exec os σ1) as [[rs' σ2]|] eqn:E2; [|done].
  destruct (gentle_dec o σ σ1 r E1) as [Hg|Hg]; [|right; tauto].
  destruct (IH _ _ _ E2) as [Ha|Ha].
  - left. split; [done|]. intros σ3 r3 E3. by simplify_eq.
  - right. intros [_ H]. by apply Ha, (H _ r).
Qed.

Lemma harsh_history (os : list (op V)) rs σ : spec_exec os [] = Some (rs, σ) → ¬ all_gentle os [] →
  run_ops false os (init []) = UB AssignRaw.
Proof. intros Hsp Hng. eapply ops_harsh; [apply srs_init|done|exact Hsp|done]. Qed.
Lemma exact_history (os : list (op V)) rs σ : spec_exec os [] = Some (rs, σ) →
  ((∃ s, run_ops false os (init []) = Ok rs s) ↔ all_gentle os []) ∧
  (¬ all_gentle os [] → run_ops false os (init []) = UB AssignRaw).
Proof.
  intros Hsp. split; [|by apply harsh_history with rs σ]. split.
  - intros [s Hs]. destruct (all_gentle_dec os [] rs σ Hsp) as [?|Hn]; [done|].
    rewrite (harsh_history _ _ _ Hsp Hn) in Hs. done.
  - intros Hg. destruct (gentle_history false os rs σ Hg Hsp) as (s & E & _). eauto.
Qed.
End exact.
