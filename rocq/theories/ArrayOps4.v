From stdpp Require Import list list_numbers.
From Verif Require Import Base ArrayModel ArraySpec ArrayRun ArrayProofs ArrayOps ArrayOps2 ArrayOps3.
Local Open Scope mon_scope.

Section ops.
Context {V : Type}.
Implicit Types (l : list V) (cs : list (cell V)) (s : st V).
Notation heapT := (list (option (list (cell V)))).
Notation S_ h o r m k := (@mkSt V h o r m k).

(** pointer to position [i] of an array *)
Definition pos_ptr (own : option nat) (i : nat) : ptr :=
  match own with Some b => Ptr b i | None => Null end.

Lemma index_eq triv this i a own l cap (h : heapT) o r m k :
  o !! this = Some (Some a) → arr_rep triv h a own l cap → i ≤ length l →
  index this i (S_ h o r m k) = Ok (pos_ptr own i) (S_ h o r m k).
Proof.
  intros Ho HR Hi. unfold index, begin_. unfold bind at 1 2. erewrite get_arr_eq by done. simpl.
  destruct own as [b|]; simpl in HR.
  - destruct HR as (tl & -> & Hh & -> & _). simpl.
    erewrite padd_eq; [done|exact Hh|]. rewrite app_length, map_length. lia.
  - destruct HR as (-> & -> & ->). simpl in *. by replace i with 0 by lia.
Qed.
Lemma idx_of_eq triv this i a own l cap (h : heapT) o r m k :
  o !! this = Some (Some a) → arr_rep triv h a own l cap → (own = None → i = 0) →
  idx_of this (pos_ptr own i) (S_ h o r m k) = Ok (RIdx i) (S_ h o r m k).
Proof.
  intros Ho HR Hi. unfold idx_of, begin_. unfold bind at 1 2. erewrite get_arr_eq by done. simpl.
  destruct own as [b|]; simpl in HR.
  - destruct HR as (tl & -> & Hh & -> & _). simpl. unfold bind. rewrite pdiff_eq by lia.
    by rewrite Nat.sub_0_r.
  - destruct HR as (-> & -> & ->). simpl. by rewrite Hi.
Qed.

Lemma take_drop_mid l i v : l !! i = Some v → l = take i l ++ v :: drop (S i) l.
Proof. intros. symmetry. by apply take_drop_middle. Qed.

(** insert(pos, value), value outside the array *)
Lemma insert_post triv this i v a own l cap (h : heapT) o r m k :
  o !! this = Some (Some a) → arr_rep triv h a own l cap → i ≤ length l →
  (triv = true ∨ l = [] ∨ length l < cap) →
  post (insert triv this (pos_ptr own i) (AVal v) (S_ h o r m k))
    (λ p s', ∃ b', result triv this h o r k own (take i l ++ v :: drop i l) (grown l cap) (Some b') s' ∧
       p = Ptr b' i ∧ (length l < cap → own = Some b'))
    (λ s', r ≠ [] ∧ (triv = true → ∃ own' l' cap', result triv this h o r k own l' cap' own' s' ∧
       ((l' = l ∧ cap' = cap) ∨ (i = length l ∧ l' = l ∧ cap' = grown l cap) ∨
        (∃ x, l !! i = Some x ∧ length l < cap ∧ l' = take i l ++ x :: drop i l ∧ cap' = cap)))).
Proof.
  intros Ho HR Hi Ht. destruct (decide (i = length l)) as [->|Hne].
  - (* append *)
    assert (Hend : a_end a = pos_ptr own (length l)).
    { destruct own; simpl in HR; [by destruct HR as (tl & -> & _)|by destruct HR as (-> & -> & _)]. }
    unfold insert. unfold bind at 1. erewrite get_arr_eq by done.
    rewrite <-Hend, ptr_eqb_refl.
    apply post_bind. eapply post_conseq; [eapply (emplace_back_post triv this (AVal v) v); [done|exact HR|done|done|done]| |].
    + intros p s (b' & Hres & -> & Hcap & _). destruct s as [h' o' r' m' k'].
      assert (Hres' := Hres). destruct Hres as (a' & Hobj & Hor & Hlk & Hfr & HR'). simpl in *. subst o'.
      assert (this < length o) by (by eapply lookup_lt_Some).
      destruct HR' as (tl & -> & Hh & _ & _).
      unfold end_, bind at 1 2. erewrite get_arr_eq by (by apply list_lookup_insert). simpl.
      erewrite psub_eq; [|exact Hh|rewrite app_length; simpl; lia]. simpl.
      exists b'. rewrite take_ge, drop_ge by lia. split_and!; [done| |done].
      f_equal. rewrite app_length. simpl. lia.
    + intros s (Hr & own' & cap' & Hc & _ & Hres). split; [done|]. intros _. exists own', l, cap'.
      split; [done|]. destruct Hc as [-> | ->]; [by left|by right; left].
  - destruct (lookup_lt_is_Some_2 l i) as [w Hw]; [lia|].
    assert (Hl := take_drop_mid l i w Hw).
    assert (Hd : drop i l = w :: drop (S i) l) by (by apply drop_S).
    set (l1 := take i l) in *. set (l2 := drop (S i) l) in *.
    assert (Hl1 : length l1 = i) by (unfold l1; rewrite take_length; lia).
    destruct own as [b|]; [|simpl in HR; destruct HR as (_ & -> & _); done]. simpl pos_ptr.
    destruct (decide (length l = cap)) as [Hfull|Hnf].
    + (* full: realloc_insert *)
      assert (triv = true) as -> by (destruct Ht as [?|[->|?]]; [done| |lia]; by rewrite lookup_nil in Hw).
      unfold insert. unfold bind at 1. erewrite get_arr_eq by done.
      assert (Ha : a = mkArr (Ptr b 0) (Ptr b (length l)) (Ptr b cap))
        by (simpl in HR; by destruct HR as (tl & -> & _)).
      rewrite Ha. cbn [a_end a_stor]. rewrite (ptr_eqb_neq (Ptr b i)) by (intros [= ?]; lia).
      rewrite Hfull, ptr_eqb_refl.
      rewrite <-Hl1 at 1.
      eapply post_conseq; [eapply (realloc_insert_post this (AVal v) v a b l1 (w :: l2)); [done| |done]| |].
      * rewrite <-Hl, Hfull. done.
      * rewrite <-Hl. intros p s (-> & Hres). exists (length h).
        unfold grown. rewrite (proj2 (Nat.eqb_eq _ _) Hfull). rewrite Hd. rewrite Hl1. split_and!; [done|done|lia].
      * rewrite <-Hl. intros s (Hr & Hres). split; [done|]. intros ?. exists (Some b), l, (length l).
        split; [done|]. left. done.
    + assert (Hlt : length l < cap) by (apply rep_le in HR; lia).
      rewrite <-Hl1 at 1.
      eapply post_conseq; [eapply (insert_shift_post triv this (AVal v) v a b l1 w l2 cap); [done| | |done]| |].
      * by rewrite <-Hl.
      * by rewrite <-Hl.
      * intros p s (-> & Hres). exists b. unfold grown.
        rewrite (proj2 (Nat.eqb_neq _ _) Hnf). rewrite Hd, Hl1. done.
      * intros s (Hr & Hres). split; [done|]. intros ?. exists (Some b), (l1 ++ w :: w :: l2), cap.
        split; [by apply Hres|]. right; right. exists w. rewrite Hd. done.
Qed.

Lemma lookup_last' {A} i (h : list A) x : i = length h → (h ++ [x]) !! i = Some x.
Proof. intros ->. apply lookup_last. Qed.
Lemma insert_last' {A} i (h : list A) x y : i = length h → <[i := y]> (h ++ [x]) = h ++ [y].
Proof. intros ->. apply insert_last. Qed.

(** ** Exchanging representations *)
Lemma swap_eq i j a b (h : heapT) o r m k :
  i ≠ j → o !! i = Some (Some a) → o !! j = Some (Some b) →
  swap i j (S_ h o r m k) = Ok tt (S_ h (<[j := Some a]> (<[i := Some b]> o)) r m k).
Proof.
  intros Hij Hi Hj. assert (i < length o) by (by eapply lookup_lt_Some).
  unfold swap. unfold bind at 1. erewrite get_arr_eq by done.
  unfold bind at 1. rewrite set_arr_eq.
  unfold bind at 1. erewrite get_arr_eq by (by apply list_lookup_insert).
  unfold bind at 1. erewrite get_arr_eq by (by rewrite list_lookup_insert_ne).
  unfold bind at 1. rewrite set_arr_eq. unfold bind at 1. rewrite set_arr_eq.
  rewrite (proj2 (Nat.eqb_neq _ _) Hij). unfold bind at 1. simpl. rewrite set_arr_eq.
  by rewrite !list_insert_insert.
Qed.
Lemma swap_self i a (h : heapT) o r m k :
  o !! i = Some (Some a) → swap i i (S_ h o r m k) = Ok tt (S_ h o r m k).
Proof.
  intros Hi. assert (i < length o) by (by eapply lookup_lt_Some).
  unfold swap. unfold bind at 1. erewrite get_arr_eq by done.
  unfold bind at 1. rewrite set_arr_eq.
  unfold bind at 1. erewrite get_arr_eq by (by apply list_lookup_insert).
  unfold bind at 1. erewrite get_arr_eq by (by apply list_lookup_insert).
  unfold bind at 1. rewrite set_arr_eq. unfold bind at 1. rewrite set_arr_eq.
  rewrite Nat.eqb_refl. unfold bind at 1. rewrite !set_arr_eq.
  rewrite !list_insert_insert. by rewrite list_insert_id.
Qed.
Lemma ctor_move_eq i j b (h : heapT) o r m k :
  o !! j = Some (Some b) →
  ctor_move i j (S_ h o r m k) = Ok tt (S_ h (<[i := Some b]> (<[j := Some null_arr]> o)) r m k).
Proof.
  intros Hj. unfold ctor_move. unfold bind at 1. erewrite get_arr_eq by done.
  unfold bind at 1. rewrite set_arr_eq. by rewrite set_arr_eq.
Qed.

(** A destructible array: represents some list, or (trivial T) any cells. *)
Definition arr_any (triv : bool) (h : heapT) (a : arr) (own : option nat) : Prop :=
  (∃ l cap, arr_rep triv h a own l cap) ∨ (triv = true ∧ ∃ n cap, arr_shape h a own n cap).
Lemma dtor_any_eq triv (h : heapT) o r m k this a own :
  o !! this = Some (Some a) → arr_any triv h a own →
  dtor triv this (S_ h o r m k) = Ok tt (S_ (free own h) o r m k).
Proof.
  intros Ho [(l & cap & HR)|(-> & n & cap & HR)]; [by eapply dtor_eq|by eapply dtor_shape_eq].
Qed.
Lemma any_valid triv h a own : arr_any triv h a own → ∀ b, own = Some b → b < length h.
Proof. intros [(l & cap & HR)|(-> & n & cap & HR)]; [by eapply rep_valid|by eapply shape_valid]. Qed.
Lemma any_frame triv h h' a own :
  (∀ b, own = Some b → h' !! b = h !! b) → arr_any triv h a own → arr_any triv h' a own.
Proof.
  intros Hf [(l & cap & HR)|(-> & n & cap & HR)].
  - left. exists l, cap. by eapply rep_frame.
  - right. split; [done|]. exists n, cap. by eapply shape_frame.
Qed.
Lemma free_app own (h : heapT) x : (∀ b, own = Some b → b < length h) →
  free own (h ++ [x]) = free own h ++ [x].
Proof. destruct own; simpl; [|done]. intros Hb. by rewrite insert_app_l by (by apply Hb). Qed.

Lemma take_pop {A} (o : list A) x : take (length (o ++ [x]) - 1) (o ++ [x]) = o.
Proof. rewrite app_length. simpl. replace (length o + 1 - 1) with (length o) by lia. by rewrite take_app. Qed.

(** The copy-and-swap idiom with a freshly built array. *)
Lemma with_tmp_swap_post triv this (ctor : nat → @MA V unit) a own l (h : heapT) o r m k :
  o !! this = Some (Some a) → arr_any triv h a own →
  post (ctor (length o) (S_ h (o ++ [Some null_arr]) r m k))
    (λ _ s', ∃ r', r' `suffix_of` r ∧
       s' = S_ (h ++ [Some (map Live l)])
               (<[length o := Some (mkArr (Ptr (length h) 0) (Ptr (length h) (length l)) (Ptr (length h) (length l)))]> (o ++ [Some null_arr])) r' m k)
    (λ s', ∃ r', r' `suffix_of` r ∧ r ≠ [] ∧ s' = S_ h (o ++ [Some null_arr]) r' m k) →
  post (with_tmp triv ctor (λ t, swap t this) (S_ h o r m k))
    (λ _ s', result triv this h o r k own l (length l) (Some (length h)) s' ∧ moved s' = m)
    (λ s', ∃ r', r' `suffix_of` r ∧ r ≠ [] ∧ s' = S_ h o r' m k).
Proof.
  intros Ho Hany Hctor. assert (Hthis : this < length o) by (by eapply lookup_lt_Some).
  unfold with_tmp. apply post_bind. unfold new_array. apply post_bind. simpl.
  apply post_bind. apply post_on_throw. eapply post_conseq; [exact Hctor| |].
  - intros _ s (r' & Hr & ->). rewrite insert_last. simpl.
    unfold bind at 1, on_throw at 1.
    erewrite swap_eq; [|lia|by rewrite lookup_last|by rewrite lookup_app_l].
    rewrite insert_last. rewrite insert_app_l by done.
    unfold bind at 1. erewrite dtor_any_eq.
    2:{ apply lookup_last'. by rewrite ?insert_length. }
    2:{ eapply any_frame; [|exact Hany]. intros b' Hb. rewrite lookup_app_l; [done|]. eapply any_valid; eauto. }
    unfold bind, pop_obj, modify, ret. simpl. unfold set_objs; simpl. rewrite take_pop. split; [|done].
    eexists. simpl. split_and!; [done|done|done| |].
    + rewrite free_app by (by eapply any_valid). apply hframe_realloc. by eapply any_valid.
    + exists []. split_and!.
      * arr_eq.
      * rewrite free_app by (by eapply any_valid). rewrite <-(free_length own h), lookup_last.
        by rewrite app_nil_r.
      * simpl. lia.
      * done.
  - intros s (r' & Hr & Hne & ->). unfold pop_obj, modify. simpl. exists r'.
    unfold set_objs. simpl. rewrite take_pop. done.
Qed.

Lemma assign_copy_post triv this other a b own own' l cap (h : heapT) o r m k :
  o !! this = Some (Some a) → arr_any triv h a own →
  o !! other = Some (Some b) → arr_rep triv h b own' l cap → (r = [] ∨ triv = true) →
  post (assign_copy_arr triv this other (S_ h o r m k))
    (λ _ s', result triv this h o r k own l (length l) (Some (length h)) s' ∧ moved s' = m)
    (λ s', ∃ r', r' `suffix_of` r ∧ r ≠ [] ∧ s' = S_ h o r' m k).
Proof.
  intros Ho Hany Hoth HR Ht. unfold assign_copy_arr. eapply with_tmp_swap_post; [done|done|].
  assert (other < length o) by (by eapply lookup_lt_Some).
  apply (ctor_copy_post triv (length o) other b own' l cap); [rewrite app_length; simpl; lia|by rewrite lookup_app_l|done|done].
Qed.
Lemma assign_list_post triv this a own xs l (h : heapT) o r m k :
  o !! this = Some (Some a) → arr_any triv h a own →
  Forall2 (aval h) xs l → (r = [] ∨ Forall (λ a, ¬ can_throw triv a) xs) →
  post (assign_list triv this xs (S_ h o r m k))
    (λ _ s', result triv this h o r k own l (length l) (Some (length h)) s' ∧ moved s' = m)
    (λ s', ∃ r', r' `suffix_of` r ∧ r ≠ [] ∧ s' = S_ h o r' m k).
Proof.
  intros Ho Hany Hx Ht. unfold assign_list. eapply with_tmp_swap_post; [done|done|].
  apply ctor_range_post; [rewrite app_length; simpl; lia|done|done].
Qed.

Lemma assign_move_eq triv this other a b own (h : heapT) o r m k :
  this ≠ other → o !! this = Some (Some a) → arr_any triv h a own → o !! other = Some (Some b) →
  assign_move_arr triv this other (S_ h o r m k) =
  Ok tt (S_ (free own h) (<[this := Some b]> (<[other := Some null_arr]> o)) r m k).
Proof.
  intros Hne Ho Hany Hoth.
  assert (Hthis : this < length o) by (by eapply lookup_lt_Some).
  assert (Hother : other < length o) by (by eapply lookup_lt_Some).
  unfold assign_move_arr, with_tmp, new_array. unfold bind at 1 2. simpl. unfold bind at 1, on_throw at 1.
  unfold set_objs; simpl. erewrite ctor_move_eq by (by rewrite lookup_app_l).
  rewrite insert_app_l by done.
  rewrite insert_last' by (by rewrite insert_length).
  unfold bind at 1, on_throw at 1. simpl.
  erewrite swap_eq; [|lia|by (apply lookup_last'; rewrite insert_length)|].
  2:{ rewrite lookup_app_l by (by rewrite insert_length). by rewrite list_lookup_insert_ne. }
  rewrite insert_last', insert_app_l by (by rewrite insert_length).
  unfold bind at 1. erewrite dtor_any_eq; [| |exact Hany].
  2:{ apply lookup_last'. by rewrite ?insert_length. }
  unfold bind, pop_obj, modify, ret. simpl. unfold set_objs; simpl. by rewrite take_pop.
Qed.
Lemma assign_move_self triv this a (h : heapT) o r m k :
  o !! this = Some (Some a) →
  assign_move_arr triv this this (S_ h o r m k) = Ok tt (S_ h o r m k).
Proof.
  intros Ho. assert (Hthis : this < length o) by (by eapply lookup_lt_Some).
  unfold assign_move_arr, with_tmp, new_array. unfold bind at 1 2. simpl. unfold bind at 1, on_throw at 1.
  unfold set_objs; simpl. erewrite ctor_move_eq by (by rewrite lookup_app_l).
  rewrite insert_app_l by done.
  rewrite insert_last' by (by rewrite insert_length).
  unfold bind at 1, on_throw at 1. simpl.
  erewrite swap_eq; [|lia|by (apply lookup_last'; rewrite insert_length)|].
  2:{ rewrite lookup_app_l by (by rewrite insert_length). by rewrite list_lookup_insert. }
  rewrite insert_last', insert_app_l by (by rewrite insert_length).
  unfold bind at 1. erewrite (dtor_eq triv h _ _ _ _ _ null_arr None []).
  2:{ apply lookup_last'. by rewrite ?insert_length. }
  2:{ done. }
  unfold bind, pop_obj, modify, ret. simpl. unfold set_objs; simpl. rewrite take_pop.
  rewrite list_insert_insert. by rewrite list_insert_id.
Qed.

(** ** insert(pos, range) *)
Lemma insert_range_post' triv this i xs vs a own l cap (h : heapT) o r m k :
  (triv = true ∨ (r = [] ∧ (l = [] ∨ xs = [] ∨ (i = length l ∧ length l + length xs ≤ cap)))) →
  o !! this = Some (Some a) → arr_rep triv h a own l cap → i ≤ length l →
  (∀ h' b', (∀ b, b < length h → own ≠ Some b → h' !! b = h !! b) →
            (own = Some b' ∨ (b' = length h ∧ (∀ b, b < length h → h' !! b = h !! b))) →
            Forall2 (aval_out h' b') xs vs) →
  length vs = length xs →
  post (insert_range triv this (pos_ptr own i) xs (S_ h o r m k))
    (λ p s', ∃ own', result triv this h o r k own (take i l ++ vs ++ drop i l) (grown_mid l cap (length xs)) own' s' ∧
       p = pos_ptr own' i ∧ (length l + length xs ≤ cap → own' = own))
    (λ s', r ≠ [] ∧
       if Nat.ltb cap (length l + length xs) then
         ∃ own', result triv this h o r k own l cap own' s'
       else ∃ a' n, objs s' = <[this := Some a']> o ∧ oracle s' `suffix_of` r ∧ leaked s' = k ∧
         hframe h (heap s') own own ∧ arr_shape (heap s') a' own n cap).
Proof.
  intros Ht Ho HR Hi Hxs Hlen.
  assert (Hthis : this < length o) by (by eapply lookup_lt_Some).
  assert (Hle := rep_le _ _ _ _ _ _ HR).
  unfold insert_range. unfold bind at 1. erewrite size_eq_rep by eauto.
  unfold bind at 1. erewrite capacity_eq_rep by eauto.
  set (n := length xs) in *.
  assert (Hgr : (if cap =? 0 then n else cap + n) = cap + n) by (by destruct cap).
  rewrite Hgr. clear Hgr.
  set (l1 := take i l). set (l2 := drop i l).
  assert (Hl : l = l1 ++ l2) by (symmetry; apply take_drop).
  assert (Hl1 : length l1 = i) by (unfold l1; rewrite take_length; lia).
  assert (Hll2 : length l = i + length l2) by (unfold l2; rewrite drop_length; lia).
  unfold grown_mid. destruct (Nat.ltb_spec cap (length l + n)) as [Hbig|Hfit].
  - (* reallocation through a temporary *)
    assert (Hte : triv = true ∨ l = []).
    { destruct Ht as [?|[_ [?|[Hx|[_ ?]]]]]; [by left|by right| |lia].
      exfalso. unfold n in Hbig. rewrite Hx in Hbig. simpl in Hbig. lia. }
    unfold with_tmp. apply post_bind. unfold new_array. apply post_bind. simpl.
    apply post_bind. apply post_on_throw. unfold set_objs; simpl.
    eapply post_conseq; [apply ctor_cap_post| |].
    2:{ intros s (r1 & Hr1 & Hne & ->). unfold pop_obj, modify. simpl. split; [done|].
        unfold set_objs; simpl. rewrite take_pop. exists own. by eapply result_same. }
    intros _ s (r1 & Hr1 & ->). rewrite insert_last. simpl.
    set (h1 := h ++ [Some (replicate (cap + n) Raw)]).
    set (ta := mkArr (Ptr (length h) 0) (Ptr (length h) 0) (Ptr (length h) (cap + n))).
    set (o1 := o ++ [Some ta]).
    assert (Hot : o1 !! length o = Some (Some ta)) by apply lookup_last.
    assert (Hoi : o1 !! this = Some (Some a)) by (unfold o1; by rewrite lookup_app_l).
    set (rest := cap + n - (length l + n)).
    assert (Hnew : h1 !! length h = Some (Some (replicate i Raw ++ replicate n Raw ++ (replicate (length l2) Raw ++ replicate rest Raw)))).
    { unfold h1. rewrite lookup_last. rewrite <-!replicate_add. do 3 f_equal.
      subst rest. lia. }
    assert (Hpos : ∀ s, pdiff (pos_ptr own i) (a_begin a) s = Ok i s).
    { intros s. destruct own as [b|]; simpl in HR.
      - destruct HR as (tl & -> & _). simpl. rewrite pdiff_eq by lia. by rewrite Nat.sub_0_r.
      - destruct HR as (-> & Hl0 & _). simpl. rewrite Hl0 in Hi. simpl in Hi. by replace i with 0 by lia. }
    apply post_bind. apply post_on_throw.
    unfold bind at 1. erewrite get_arr_eq by exact Hoi.
    unfold bind at 1. rewrite Hpos.
    unfold bind at 1. erewrite get_arr_eq by exact Hot. change (a_begin ta) with (Ptr (length h) 0).
    unfold bind at 1. erewrite padd_eq; [|exact Hnew|].
    2:{ rewrite app_length, replicate_length. lia. }
    rewrite Nat.add_0_l. apply post_bind.
    replace (Ptr (length h) i) with (Ptr (length h) (length (replicate i (@Raw V)))) by (by rewrite replicate_length).
    eapply post_conseq; [eapply (construct_range_post triv xs vs); [exact Hnew|by rewrite replicate_length|apply Forall_replicate; by right| ]| |].
    + apply Hxs; [|right; split; [done|]].
      * intros b Hb _. unfold h1. by rewrite lookup_app_l.
      * intros b Hb. unfold h1. by rewrite lookup_app_l.
    + intros _ s (r2 & Hr2 & ->). unfold h1. rewrite insert_last. 
      set (h2 := h ++ [Some _]).
      unfold bind at 1. rewrite Hpos.
      (* copy the prefix *)
      assert (HC1 : copy_fwd triv i (a_begin a) (Ptr (length h) 0) (S_ h2 o1 r2 m k) =
        Ok tt (S_ (h ++ [Some (map Live l1 ++ map Live vs ++ replicate (length l2) Raw ++ replicate rest Raw)]) o1 r2 (i + m) k)).
      { destruct own as [b|]; simpl in HR.
        - destruct HR as (tl & -> & Hh & _). cbn [a_begin].
          assert (b < length h) by (by eapply lookup_lt_Some).
          rewrite Hl, map_live_split in Hh.
          pose proof (copy_fwd_eq triv l1 h2 o1 r2 m k b (length h) [] (map Live l2 ++ tl) [] (replicate i Raw)
                    (map Live vs ++ replicate (length l2) Raw ++ replicate rest Raw)) as E.
          cbn [length] in E. rewrite Hl1 in E. rewrite E; clear E.
          + unfold h2. by rewrite insert_last.
          + lia.
          + unfold h2. rewrite lookup_app_l by done. by rewrite Hh.
          + unfold h2. by rewrite lookup_last.
          + by rewrite replicate_length.
          + destruct Hte as [-> |Hl0]; [apply Forall_true; by left|].
            rewrite Hl0 in Hi. simpl in Hi. replace i with 0 by lia. constructor.
        - destruct HR as (-> & Hl0 & _). assert (i = 0) as -> by (rewrite Hl0 in Hi; simpl in Hi; lia).
          unfold h2. done. }
      unfold bind at 1. rewrite HC1. clear HC1. set (h3 := h ++ [Some _]).
      assert (Hk2 : pdiff (a_end a) (pos_ptr own i) (S_ h3 o1 r2 (i + m) k) = Ok (length l2) (S_ h3 o1 r2 (i + m) k)).
      { destruct own as [b|]; simpl in HR.
        - destruct HR as (tl & -> & Hh & _). simpl. rewrite pdiff_eq by lia.
          unfold l2. by rewrite drop_length.
        - destruct HR as (-> & Hl0 & _). unfold l2. rewrite Hl0. by rewrite drop_nil. }
      unfold bind at 1. rewrite Hk2.
      assert (Hnew3 : h3 !! length h = Some (Some ((map Live l1 ++ map Live vs) ++ replicate (length l2) Raw ++ replicate rest Raw))).
      { unfold h3. rewrite lookup_last. by rewrite <-app_assoc. }
      unfold bind at 1. erewrite padd_eq; [|exact Hnew3|].
      2:{ rewrite !app_length, !map_length, !replicate_length. lia. }
      rewrite Nat.add_0_l.
      assert (HC2 : copy_fwd triv (length l2) (pos_ptr own i) (Ptr (length h) (i + n)) (S_ h3 o1 r2 (i + m) k) =
        Ok tt (S_ (h ++ [Some ((map Live l1 ++ map Live vs) ++ map Live l2 ++ replicate rest Raw)]) o1 r2 (length l2 + (i + m)) k)).
      { destruct own as [b|]; simpl in HR.
        - destruct HR as (tl & -> & Hh & _). simpl.
          assert (b < length h) by (by eapply lookup_lt_Some).
          rewrite Hl, map_live_split in Hh.
          replace (Ptr b i) with (Ptr b (length (map (@Live V) l1))) by (by rewrite map_length, Hl1).
          replace (Ptr (length h) (i + n)) with (Ptr (length h) (length (map (@Live V) l1 ++ map Live vs)))
            by (by rewrite app_length, !map_length, Hl1, Hlen).
          rewrite (copy_fwd_eq triv l2 h3 o1 r2 (i + m) k b (length h) (map Live l1) tl (map Live l1 ++ map Live vs)
              (replicate (length l2) Raw) (replicate rest Raw)).
          + unfold h3. by rewrite insert_last.
          + lia.
          + unfold h3. rewrite lookup_app_l by done. by rewrite Hh.
          + done.
          + by rewrite replicate_length.
          + destruct Hte as [-> |Hl0]; [apply Forall_true; by left|].
            rewrite Hl0 in Hll2. simpl in Hll2. replace (length l2) with 0 by lia. constructor.
        - destruct HR as (-> & Hl0 & _). assert (l2 = []) as -> by (unfold l2; rewrite Hl0; apply drop_nil).
          unfold h3. simpl. by rewrite <-app_assoc. }
      unfold bind at 1. rewrite HC2. clear HC2. set (h4 := h ++ [Some _]).
      assert (HR4 : arr_rep triv h4 a own l cap).
      { eapply rep_frame; [|exact HR]. intros b Hb. unfold h4. rewrite lookup_app_l; [done|]. by eapply rep_valid. }
      unfold bind at 1. erewrite size_eq_rep; [|exact Hoi|exact HR4].
      assert (Hnew4 : h4 !! length h = Some (Some (map Live (l1 ++ vs ++ l2) ++ replicate rest Raw))).
      { unfold h4. rewrite lookup_last. rewrite !map_app. by rewrite <-!app_assoc. }
      unfold bind at 1. erewrite padd_eq; [|exact Hnew4|].
      2:{ rewrite app_length, map_length, replicate_length, !app_length. lia. }
      rewrite Nat.add_0_l.
      unfold bind at 1. erewrite set_end_eq by exact Hot. unfold o1. rewrite insert_last.
      unfold ta; cbn [a_begin a_stor].
      unfold bind at 1. erewrite swap_eq; [|lia|by rewrite lookup_app_l|by apply lookup_last].
      rewrite insert_app_l by done.
      rewrite insert_last' by (by rewrite insert_length).
      unfold bind at 1, begin_, bind at 1. erewrite get_arr_eq.
      2:{ rewrite lookup_app_l by (by rewrite insert_length). by apply list_lookup_insert. }
      cbn [a_begin]. unfold ret at 1.
      erewrite padd_eq; [|exact Hnew4|].
      2:{ rewrite app_length, map_length, replicate_length, !app_length. lia. }
      rewrite Nat.add_0_l. simpl post.
      unfold bind at 1. erewrite dtor_eq; [| |exact HR4].
      2:{ apply lookup_last'. by rewrite ?insert_length. }
      unfold bind, pop_obj, modify, ret. simpl. unfold set_objs; simpl. rewrite take_pop.
      exists (Some (length h)). split_and!; [|done|lia].
      eexists. simpl. split_and!; [done|by etrans|done| |].
      * unfold h4. rewrite free_app by (by eapply rep_valid). apply hframe_realloc. by eapply rep_valid.
      * exists (replicate rest Raw). split_and!; [| | |intros _; apply Forall_raw_replicate].
        -- arr_eq.
        -- unfold h4. rewrite free_app by (by eapply rep_valid).
           rewrite <-(free_length own h), lookup_last. rewrite !map_app. by rewrite <-!app_assoc.
        -- rewrite replicate_length, !app_length. subst rest. lia.
    + intros s (r2 & j & Hr2 & Hne & Hj & _ & ->).
      assert (triv = true) as -> by (destruct Ht as [?|[-> _]]; [done|apply suffix_nil_inv in Hr1; done]).
      unfold h1. rewrite insert_last. set (h2 := h ++ [Some _]).
      assert (Hsh : arr_shape h2 ta (Some (length h)) 0 (cap + n)).
      { eexists. split_and!; [done|unfold h2; by apply lookup_last| |lia].
        rewrite !app_length, map_length, drop_length, take_length, !replicate_length.
        subst rest. lia. }
      unfold bind at 1. erewrite dtor_shape_eq; [|exact Hot|exact Hsh].
      unfold pop_obj, modify. simpl. unfold set_objs; simpl. unfold o1. rewrite take_pop.
      assert (r ≠ []). { intros ->. apply suffix_nil_inv in Hr1. done. }
      split; [done|]. exists own. eexists. simpl. unfold h2. rewrite insert_last.
      split_and!; [by rewrite list_insert_id|by etrans|done|apply hframe_tmp; by eapply rep_valid|].
      eapply rep_frame; [|exact HR]. intros b Hb. rewrite lookup_app_l; [done|]. by eapply rep_valid.
  - (* in place *)
    unfold bind at 1. erewrite get_arr_eq by done.
    destruct own as [b|]; simpl in HR.
    2:{ (* no storage: nothing to insert *)
        destruct HR as (-> & Hl0 & ->). simpl.
        assert (length l = 0) as Hl00 by (by rewrite Hl0). assert (n = 0) by lia.
        assert (xs = []) as -> by (by apply length_zero_iff_nil).
        assert (vs = []) as -> by (by apply length_zero_iff_nil).
        unfold bind at 1. simpl. unfold bind at 1. simpl. unfold bind at 1. simpl.
        unfold bind at 1. erewrite set_end_eq by done. simpl. unfold bind. simpl.
        exists None. split_and!; [|done|done]. eexists. simpl.
        split_and!; try done; [by apply hframe_refl|]. rewrite <-Hl. done. }
    destruct HR as (tl & -> & Hh & -> & Hraw). cbn [a_end]. simpl pos_ptr.
    assert (Hb : b < length h) by (by eapply lookup_lt_Some).
    unfold bind at 1. rewrite pdiff_eq by lia.
    unfold bind at 1. erewrite padd_eq; [|exact Hh|rewrite app_length, map_length; lia].
    replace (length l - i) with (length l2) by (unfold l2; by rewrite drop_length).
    set (tl1 := take n tl). set (tl2 := drop n tl).
    assert (Htl : tl = tl1 ++ tl2) by (symmetry; apply take_drop).
    assert (Htl1 : length tl1 = n) by (unfold tl1; rewrite take_length; lia).
    assert (Hh' : h !! b = Some (Some (map Live l1 ++ map Live l2 ++ tl1 ++ tl2))).
    { rewrite Hh. rewrite Htl at 1. rewrite Hl at 1. by rewrite map_live_split. }
    assert (Hll : length l = length (map (@Live V) l1) + length l2).
    { rewrite map_length. rewrite Hl at 1. by rewrite app_length. }
    unfold bind at 1.
    replace (Ptr b (length l)) with (Ptr b (length (map (@Live V) l1) + length l2)) by (by rewrite <-Hll).
    replace (Ptr b (length l + n)) with (Ptr b (length (map (@Live V) l1) + length l2 + length tl1)) by (by rewrite <-Hll, Htl1).
    assert (Htc : triv = true ∨ tl1 = [] ∨ l2 = []).
    { destruct Ht as [?|[_ [Hl0|[Hx|[Hie _]]]]]; [by left| | |].
      - right; right. unfold l2. by rewrite Hl0, drop_nil.
      - right; left. apply length_zero_iff_nil. rewrite Htl1. unfold n. by rewrite Hx.
      - right; right. apply length_zero_iff_nil. lia. }
    erewrite (copy_bwd_up_eq triv l2); [|exact Htc|exact Hh'].
    rewrite <-Hll, Htl1. set (mid := take n _).
    set (h1 := <[b:=_]> h).
    assert (Hh1 : h1 !! b = Some (Some (map Live l1 ++ mid ++ map Live l2 ++ tl2))) by (unfold h1; by apply list_lookup_insert).
    assert (Hmid : length mid = n).
    { unfold mid. rewrite take_length, app_length, map_length. lia. }
    assert (Hokm : Forall (okc triv) mid).
    { destruct triv; [apply Forall_true; by left|]. specialize (Hraw eq_refl).
      destruct Htc as [?|[Ht0|Hl20]]; [done| |].
      - unfold mid. rewrite Ht0 in Htl1. simpl in Htl1. rewrite <-Htl1. constructor.
      - unfold mid. rewrite Hl20. simpl. apply Forall_take. rewrite Htl in Hraw.
        apply Forall_app in Hraw as [Hr1 _]. eapply Forall_impl; [exact Hr1|]. intros c ->. by right. }
    unfold bind at 1. erewrite set_end_eq by done. cbn [a_begin a_stor].
    apply post_bind.
    assert (Hpi : Ptr b i = Ptr b (length (map (@Live V) l1))) by (by rewrite map_length, Hl1).
    rewrite Hpi at 1.
    eapply post_conseq; [eapply (construct_range_post triv xs vs); [exact Hh1|done|exact Hokm|]| |].
    + apply Hxs; [|by left]. intros b' Hb' Hne'. unfold h1. rewrite list_lookup_insert_ne; congruence.
    + intros _ s (r2 & Hr2 & ->). simpl. exists (Some b). split_and!; [|done|done].
      eexists. simpl. split_and!; [done|done|done| |].
      * eapply hframe_trans; by eapply hframe_upd.
      * exists tl2. split_and!; [| | |intros Htf; specialize (Hraw Htf); rewrite Htl in Hraw; by apply Forall_app in Hraw as [_ ?]].
        -- arr_eq.
        -- rewrite list_lookup_insert by (unfold h1; by rewrite insert_length).
           rewrite !map_app. by rewrite <-!app_assoc.
        -- rewrite !app_length. apply (f_equal length) in Hl, Htl. rewrite !app_length in Hl, Htl. lia.
    + intros s (r2 & j & Hr2 & Hne & Hj & _ & ->). split; [done|]. eexists _, _. simpl.
      split_and!; [done|done|done| |].
      * eapply hframe_trans; by eapply hframe_upd.
      * eexists. split_and!; [done|by (rewrite list_lookup_insert by (unfold h1; by rewrite insert_length))| |].
        -- rewrite !app_length, !map_length, drop_length, take_length.
           apply (f_equal length) in Hl, Htl. rewrite !app_length in Hl, Htl. lia.
        -- lia.
Qed.
Lemma insert_range_post this i xs vs a own l cap (h : heapT) o r m k :
  o !! this = Some (Some a) → arr_rep true h a own l cap → i ≤ length l →
  (∀ h' b', (∀ b, b < length h → own ≠ Some b → h' !! b = h !! b) →
            (own = Some b' ∨ (b' = length h ∧ (∀ b, b < length h → h' !! b = h !! b))) →
            Forall2 (aval_out h' b') xs vs) →
  length vs = length xs →
  post (insert_range true this (pos_ptr own i) xs (S_ h o r m k))
    (λ p s', ∃ own', result true this h o r k own (take i l ++ vs ++ drop i l) (grown_mid l cap (length xs)) own' s' ∧
       p = pos_ptr own' i ∧ (length l + length xs ≤ cap → own' = own))
    (λ s', r ≠ [] ∧
       if Nat.ltb cap (length l + length xs) then
         ∃ own', result true this h o r k own l cap own' s'
       else ∃ a' n, objs s' = <[this := Some a']> o ∧ oracle s' `suffix_of` r ∧ leaked s' = k ∧
         hframe h (heap s') own own ∧ arr_shape (heap s') a' own n cap).
Proof. apply insert_range_post'. by left. Qed.
End ops.
