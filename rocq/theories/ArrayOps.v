From stdpp Require Import list list_numbers.
From Verif Require Import Base ArrayModel ArraySpec ArrayRun ArrayProofs.
Local Open Scope mon_scope.

Section ops.
Context {V : Type}.
Implicit Types (l : list V) (cs : list (cell V)) (s : st V).
Notation heapT := (list (option (list (cell V)))).
Notation S_ h o r m k := (@mkSt V h o r m k).

(** ** Representation *)
Definition arr_rep (triv : bool) (h : heapT) (a : arr) (own : option nat) l (cap : nat) : Prop :=
  match own with
  | None => a = null_arr ∧ l = [] ∧ cap = 0
  | Some b => ∃ tl, a = mkArr (Ptr b 0) (Ptr b (length l)) (Ptr b cap) ∧
      h !! b = Some (Some (map Live l ++ tl)) ∧ cap = length l + length tl ∧
      (triv = false → Forall (λ c, c = Raw) tl)
  end.

(** Effect of an operation on the heap seen from one array: blocks other than
    the owned one are untouched, the old block is freed if no longer owned, and
    the only live new block is the owned one. *)
Record hframe (h h' : heapT) (o o' : option nat) : Prop := {
  hf_valid : ∀ b, o = Some b → b < length h;
  hf_len : length h ≤ length h';
  hf_other : ∀ b, b < length h → o ≠ Some b → h' !! b = h !! b;
  hf_freed : ∀ b, o = Some b → o' ≠ Some b → h' !! b = Some None;
  hf_fresh : ∀ b c, length h ≤ b → h' !! b = Some (Some c) → o' = Some b;
  hf_own : ∀ b, o' = Some b → o = Some b ∨ length h ≤ b }.

Lemma hframe_trans h h1 h2 o o1 o2 :
  hframe h h1 o o1 → hframe h1 h2 o1 o2 → hframe h h2 o o2.
Proof.
  intros [V1 L1 O1 F1 R1 W1] [V2 L2 O2 F2 R2 W2]. split.
  - done.
  - lia.
  - intros b Hb Hne. rewrite O2; [by apply O1|lia|].
    intros E. destruct (W1 _ E) as [|]; [done|lia].
  - intros b -> Hne. specialize (V1 b eq_refl).
    destruct (decide (o1 = Some b)) as [->|Hn]; [by apply F2|].
    rewrite O2; [by apply F1|lia|done].
  - intros b c Hb Hc. destruct (decide (b < length h1)) as [Hlt|].
    + destruct (decide (o1 = Some b)) as [->|Hn].
      * destruct (decide (o2 = Some b)) as [|Hn2]; [done|].
        rewrite (F2 b) in Hc; done.
      * rewrite O2 in Hc by done. exfalso. apply Hn. eapply R1; eauto.
    + eapply R2; eauto. lia.
  - intros b E. destruct (W2 _ E) as [E1|]; [|right; lia]. destruct (W1 _ E1); auto.
Qed.

Lemma hframe_refl h o : (∀ b, o = Some b → b < length h) → hframe h h o o.
Proof.
  intros Hv. split; auto; try done.
  intros b c Hb Hc. apply lookup_lt_Some in Hc. lia.
Qed.
Lemma hframe_upd h b cs cs' : h !! b = Some (Some cs) →
  hframe h (<[b := Some cs']> h) (Some b) (Some b).
Proof.
  intros H. assert (b < length h) by (by eapply lookup_lt_Some). split; try done.
  - intros ? [= <-]. done.
  - by rewrite insert_length.
  - intros b' Hb' Hne. rewrite list_lookup_insert_ne; [done|congruence].
  - intros b' c Hb' Hc. apply lookup_lt_Some in Hc. rewrite insert_length in Hc. lia.
  - auto.
Qed.
Definition free (own : option nat) (h : heapT) : heapT :=
  match own with Some b => <[b := None]> h | None => h end.
Lemma free_length own h : length (free own h) = length h.
Proof. destruct own; simpl; [apply insert_length|done]. Qed.
Lemma hframe_free h own : (∀ b, own = Some b → b < length h) → hframe h (free own h) own None.
Proof.
  intros Hv. split; try done.
  - by rewrite free_length.
  - intros b Hb Hne. destruct own as [b'|]; simpl; [|done].
    rewrite list_lookup_insert_ne; [done|congruence].
  - intros b -> _. simpl. apply list_lookup_insert. auto.
  - intros b c Hb Hc. apply lookup_lt_Some in Hc. rewrite free_length in Hc. lia.
Qed.
Lemma hframe_alloc h cs : hframe h (h ++ [Some cs]) None (Some (length h)).
Proof.
  split; try done.
  - rewrite app_length; simpl; lia.
  - intros b Hb _. by rewrite lookup_app_l.
  - intros b c Hb Hc. assert (b < length (h ++ [Some cs])) as Hl by (by eapply lookup_lt_Some).
    rewrite app_length in Hl. simpl in Hl. f_equal. lia.
  - intros b [= <-]. right. done.
Qed.
Lemma hframe_realloc h own cs : (∀ b, own = Some b → b < length h) →
  hframe h (free own h ++ [Some cs]) own (Some (length h)).
Proof.
  intros Hv. eapply hframe_trans; [by apply hframe_free|].
  rewrite <-(free_length own h). apply hframe_alloc.
Qed.
Lemma hframe_tmp h own : (∀ b, own = Some b → b < length h) → hframe h (h ++ [None]) own own.
Proof.
  intros Hv. split; auto; try done.
  - rewrite app_length; simpl; lia.
  - intros b Hb _. by rewrite lookup_app_l.
  - intros b c Hb Hc. rewrite lookup_app_r in Hc by done.
    destruct (b - length h) eqn:E; simpl in Hc; [done|]. by destruct n.
Qed.

(** Shapes: the part of [arr_rep] that does not mention contents. *)
Definition arr_shape (h : heapT) (a : arr) (own : option nat) (n cap : nat) : Prop :=
  match own with
  | None => a = null_arr ∧ n = 0 ∧ cap = 0
  | Some b => ∃ cs, a = mkArr (Ptr b 0) (Ptr b n) (Ptr b cap) ∧
      h !! b = Some (Some cs) ∧ cap = length cs ∧ n ≤ cap
  end.
Lemma rep_shape triv h a own l cap : arr_rep triv h a own l cap → arr_shape h a own (length l) cap.
Proof.
  destruct own as [b|]; simpl.
  - intros (tl & -> & H & Hc & _). eexists. split_and!; [done|exact H| |lia].
    rewrite app_length, map_length. done.
  - by intros (-> & -> & ->).
Qed.
Lemma shape_valid h a own n cap : arr_shape h a own n cap → ∀ b, own = Some b → b < length h.
Proof. intros H b ->. destruct H as (cs & _ & H & _). by eapply lookup_lt_Some. Qed.
Lemma rep_valid triv h a own l cap : arr_rep triv h a own l cap → ∀ b, own = Some b → b < length h.
Proof. intros H. eapply shape_valid, rep_shape, H. Qed.
Lemma shape_le h a own n cap : arr_shape h a own n cap → n ≤ cap.
Proof. destruct own; simpl; [intros (?&?&?&?&?); lia|lia]. Qed.
Lemma rep_le triv h a own l cap : arr_rep triv h a own l cap → length l ≤ cap.
Proof. intros H. eapply shape_le, rep_shape, H. Qed.

Lemma rep_frame triv h h' a own l cap :
  (∀ b, own = Some b → h' !! b = h !! b) → arr_rep triv h a own l cap → arr_rep triv h' a own l cap.
Proof.
  intros Hb. destruct own as [b|]; simpl; [|done].
  intros (tl & ? & ? & ? & ?). exists tl. by rewrite Hb.
Qed.
Lemma shape_frame h h' a own n cap :
  (∀ b, own = Some b → h' !! b = h !! b) → arr_shape h a own n cap → arr_shape h' a own n cap.
Proof.
  intros Hb. destruct own as [b|]; simpl; [|done].
  intros (cs & ? & ? & ? & ?). exists cs. by rewrite Hb.
Qed.

Lemma get_arr_eq (h : heapT) o r m k this a :
  o !! this = Some (Some a) → get_arr this (S_ h o r m k) = Ok a (S_ h o r m k).
Proof. intros H. unfold get_arr; simpl. by rewrite H. Qed.
Lemma set_arr_eq (h : heapT) o r m k this a :
  set_arr this a (S_ h o r m k) = Ok tt (S_ h (<[this := Some a]> o) r m k).
Proof. done. Qed.
Lemma set_end_eq (h : heapT) o r m k this a p :
  o !! this = Some (Some a) →
  set_end this p (S_ h o r m k) = Ok tt (S_ h (<[this := Some (mkArr (a_begin a) p (a_stor a))]> o) r m k).
Proof. intros H. unfold set_end, bind. by erewrite get_arr_eq. Qed.

Lemma size_eq (h : heapT) o r m k this a own n cap :
  o !! this = Some (Some a) → arr_shape h a own n cap →
  size this (S_ h o r m k) = Ok n (S_ h o r m k).
Proof.
  intros H HR. unfold size, bind. erewrite get_arr_eq by eauto.
  destruct own as [b|]; simpl in HR.
  - destruct HR as (cs & -> & _). simpl. rewrite pdiff_eq by lia. f_equal. lia.
  - by destruct HR as (-> & -> & _).
Qed.
Lemma capacity_eq (h : heapT) o r m k this a own n cap :
  o !! this = Some (Some a) → arr_shape h a own n cap →
  capacity this (S_ h o r m k) = Ok cap (S_ h o r m k).
Proof.
  intros H HR. unfold capacity, bind. erewrite get_arr_eq by eauto.
  destruct own as [b|]; simpl in HR.
  - destruct HR as (cs & -> & _). simpl. rewrite pdiff_eq by lia. f_equal. lia.
  - by destruct HR as (-> & _ & ->).
Qed.
Lemma size_eq_rep triv (h : heapT) o r m k this a own l cap :
  o !! this = Some (Some a) → arr_rep triv h a own l cap →
  size this (S_ h o r m k) = Ok (length l) (S_ h o r m k).
Proof. intros H HR. eapply size_eq; [done|by eapply rep_shape]. Qed.
Lemma capacity_eq_rep triv (h : heapT) o r m k this a own l cap :
  o !! this = Some (Some a) → arr_rep triv h a own l cap →
  capacity this (S_ h o r m k) = Ok cap (S_ h o r m k).
Proof. intros H HR. eapply capacity_eq; [done|by eapply rep_shape]. Qed.

Lemma live_count_raw cs : Forall (λ c, c = Raw) cs → live_count cs = 0.
Proof.
  unfold live_count. induction 1 as [|c cs -> _ IH]; [done|].
  rewrite filter_cons_False by (simpl; auto). done.
Qed.
Lemma dealloc_eq triv (h : heapT) o r m k b cs n :
  h !! b = Some (Some cs) → n = length cs → (triv = false → Forall (λ c, c = Raw) cs) →
  dealloc triv (Ptr b 0) n (S_ h o r m k) = Ok tt (S_ (<[b := None]> h) o r m k).
Proof.
  intros H -> Hraw. unfold dealloc; simpl. rewrite H, Nat.eqb_refl.
  unfold add_leaked, set_heap; simpl.
  replace (if triv then 0 else live_count cs) with 0; [done|].
  destruct triv; [done|]. by rewrite live_count_raw by auto.
Qed.

Lemma Forall_okd_live triv l : Forall (okd triv) (map (@Live V) l).
Proof. apply Forall_forall. intros x Hx. apply elem_of_list_fmap in Hx as (y & -> & _). by right. Qed.
Lemma Forall_raw_replicate n : Forall (λ c : cell V, c = Raw) (replicate n Raw).
Proof. apply Forall_replicate. done. Qed.
Lemma Forall_okc_raw triv n : Forall (okc triv) (replicate n (@Raw V)).
Proof. apply Forall_replicate. by right. Qed.
Lemma Forall_true {A} (P : A → Prop) (l : list A) : (∀ x, P x) → Forall P l.
Proof. intros H. apply Forall_forall. auto. Qed.

(** The destructor of an array in any shape, for trivial types. *)
Lemma dtor_shape_eq (h : heapT) o r m k this a own n cap :
  o !! this = Some (Some a) → arr_shape h a own n cap →
  dtor true this (S_ h o r m k) = Ok tt (S_ (free own h) o r m k).
Proof.
  intros H HR. unfold dtor. unfold bind at 1. erewrite get_arr_eq by eauto.
  destruct own as [b|]; simpl in HR.
  - destruct HR as (cs & -> & Hh & -> & Hn). simpl.
    assert (Hl : b < length h) by (by eapply lookup_lt_Some).
    assert (HD := destroy_a_eq true (take n cs) h o r m k b [] (drop n cs)).
    simpl in HD. rewrite take_drop, take_length_le in HD by done.
    unfold bind at 1. rewrite HD; [|done|by apply Forall_true; left].
    unfold bind, capacity. unfold bind. erewrite get_arr_eq by done. simpl.
    rewrite pdiff_eq by lia.
    erewrite dealloc_eq; [|by rewrite list_lookup_insert| |done].
    + by rewrite list_insert_insert.
    + rewrite app_length, replicate_length, drop_length. lia.
  - by destruct HR as (-> & -> & ->).
Qed.
Lemma dtor_eq triv (h : heapT) o r m k this a own l cap :
  o !! this = Some (Some a) → arr_rep triv h a own l cap →
  dtor triv this (S_ h o r m k) = Ok tt (S_ (free own h) o r m k).
Proof.
  intros H HR. unfold dtor. unfold bind at 1. erewrite get_arr_eq by eauto.
  destruct own as [b|]; simpl in HR.
  - destruct HR as (tl & -> & Hh & -> & Hraw). simpl.
    assert (Hl : b < length h) by (by eapply lookup_lt_Some).
    assert (HD := destroy_a_eq triv (map Live l) h o r m k b [] tl Hh (Forall_okd_live triv l)).
    simpl in HD. rewrite map_length in HD. unfold bind at 1. rewrite HD.
    unfold bind, capacity. unfold bind. erewrite get_arr_eq by done. simpl.
    rewrite pdiff_eq by lia.
    erewrite dealloc_eq; [|by rewrite list_lookup_insert| |].
    + by rewrite list_insert_insert.
    + rewrite app_length, replicate_length. lia.
    + intros ->. apply Forall_app. split; [apply Forall_raw_replicate|auto].
  - by destruct HR as (-> & -> & ->).
Qed.

Lemma lookup_last {A} (h : list A) x : (h ++ [x]) !! length h = Some x.
Proof. by apply lookup_mid. Qed.
Lemma insert_last {A} (h : list A) x y : <[length h := y]> (h ++ [x]) = h ++ [y].
Proof. apply insert_mid. Qed.

(** ** Constructors *)
Lemma ctor_cap_post this n (h : heapT) o r m k :
  post (ctor_cap this n (S_ h o r m k))
    (λ _ s', ∃ r', r' `suffix_of` r ∧
       s' = S_ (h ++ [Some (replicate n Raw)])
               (<[this := Some (mkArr (Ptr (length h) 0) (Ptr (length h) 0) (Ptr (length h) n))]> o) r' m k)
    (λ s', ∃ r', r' `suffix_of` r ∧ r ≠ [] ∧ s' = S_ h o r' m k).
Proof.
  unfold ctor_cap. apply post_bind. eapply post_conseq; [apply alloc_post| |done].
  intros p s (-> & r' & Hr & ->).
  unfold bind at 1. erewrite padd_eq; [|apply lookup_last|by rewrite replicate_length].
  rewrite set_arr_eq. simpl. eauto.
Qed.

Lemma ctor_fill_post triv this n v (h : heapT) o r m k :
  this < length o →
  post (ctor_fill triv this n v (S_ h o r m k))
    (λ _ s', ∃ r', r' `suffix_of` r ∧
       s' = S_ (h ++ [Some (map Live (replicate n v))])
               (<[this := Some (mkArr (Ptr (length h) 0) (Ptr (length h) n) (Ptr (length h) n))]> o) r' m k)
    (λ s', ∃ r', r' `suffix_of` r ∧ r ≠ [] ∧
       (s' = S_ h o r' m k ∨
        triv = false ∧
        s' = S_ (h ++ [None]) (<[this := Some (mkArr (Ptr (length h) 0) (Ptr (length h) 0) (Ptr (length h) n))]> o) r' m k)).
Proof.
  intros Hthis. unfold ctor_fill. apply post_bind.
  eapply post_conseq; [apply ctor_cap_post| |].
  2:{ intros s (r' & ? & ? & ->). eauto 10. }
  intros _ s (r1 & Hr1 & ->). apply post_on_throw.
  unfold bind at 1. erewrite get_arr_eq by (by apply list_lookup_insert). simpl.
  apply post_bind. unfold uninitialized_fill_n_a.
  eapply post_conseq; [apply (fill_loop_post triv n v 0 _ _ _ _ _ (length h) (replicate n Raw))| |].
  - apply lookup_last.
  - apply replicate_length.
  - apply Forall_okc_raw.
  - intros e s (-> & r2 & Hr2 & ->). rewrite insert_last. simpl.
    erewrite set_end_eq by (by apply list_lookup_insert). simpl.
    rewrite list_insert_insert. exists r2. split; [by etrans|done].
  - intros s (-> & r2 & Hr2 & Hne & ->). rewrite insert_last. simpl.
    erewrite (dtor_eq false _ _ _ _ _ this _ (Some (length h)) [] n); [| by apply list_lookup_insert |].
    + simpl. rewrite insert_last. exists r2. split_and!; [by etrans| |by right].
      intros ->. by apply suffix_nil_inv in Hr1.
    + simpl. exists (replicate n Raw). split_and!; [done|apply lookup_last|by rewrite replicate_length|].
      intros _. apply Forall_raw_replicate.
Qed.

Lemma aval_app (h : heapT) x a v : aval h a v → aval_out (h ++ [x]) (length h) a v.
Proof.
  destruct a as [w|w|[|b i]]; simpl; try done.
  intros (cs & H1 & H2). assert (b < length h) by (by eapply lookup_lt_Some).
  split; [|lia]. exists cs. by rewrite lookup_app_l.
Qed.

Lemma ctor_range_post triv this xs vs (h : heapT) o r m k :
  this < length o → Forall2 (aval h) xs vs →
  (r = [] ∨ Forall (λ a, ¬ can_throw triv a) xs) →
  post (ctor_range triv this xs (S_ h o r m k))
    (λ _ s', ∃ r', r' `suffix_of` r ∧
       s' = S_ (h ++ [Some (map Live vs)])
               (<[this := Some (mkArr (Ptr (length h) 0) (Ptr (length h) (length vs)) (Ptr (length h) (length vs)))]> o) r' m k)
    (λ s', ∃ r', r' `suffix_of` r ∧ r ≠ [] ∧ s' = S_ h o r' m k).
Proof.
  intros Hthis HF Hnt. assert (Hlen := Forall2_length _ _ _ HF).
  unfold ctor_range. apply post_bind.
  eapply post_conseq; [apply ctor_cap_post| |].
  2:{ intros s (r' & ? & ? & ->). eauto 10. }
  intros _ s (r1 & Hr1 & ->). apply post_on_throw.
  unfold bind at 1. erewrite get_arr_eq by (by apply list_lookup_insert). simpl.
  apply post_bind.
  assert (HU := uninitialized_copy_post triv xs vs (h ++ [Some (replicate (length xs) Raw)])
    (<[this:=Some (mkArr (Ptr (length h) 0) (Ptr (length h) 0) (Ptr (length h) (length xs)))]> o)
    r1 m k (length h) [] (replicate (length xs) Raw)).
  simpl in HU. rewrite replicate_length in HU.
  eapply post_conseq; [apply HU| |].
  - apply lookup_last.
  - done.
  - apply Forall_okc_raw.
  - eapply Forall2_impl; [exact HF|]. intros. by apply aval_app.
  - destruct Hnt as [->|]; [left; by apply suffix_nil_inv in Hr1|by right].
  - intros e s (-> & r2 & Hr2 & ->). rewrite insert_last.
    erewrite set_end_eq by (by apply list_lookup_insert). simpl.
    rewrite list_insert_insert. exists r2. rewrite Hlen. split; [by etrans|done].
  - done.
Qed.

Local Arguments refs : simpl never.
Lemma refs_vals (h : heapT) b l tl : h !! b = Some (Some (map Live l ++ tl)) →
  Forall2 (aval h) (refs (Ptr b 0) (length l)) l.
Proof.
  intros H. unfold refs. apply Forall2_same_length_lookup_2.
  - by rewrite map_length, seq_length.
  - intros i a v Ha Hv. rewrite list_lookup_fmap in Ha.
    assert (i < length l) by (by eapply lookup_lt_Some).
    rewrite lookup_seq_lt in Ha by done. simpl in Ha. injection Ha as <-.
    exists (map Live l ++ tl). split; [done|].
    rewrite lookup_app_l by (by rewrite map_length). rewrite list_lookup_fmap, Hv. done.
Qed.
Lemma refs_nothrow p n : Forall (λ a, ¬ can_throw (V:=V) true a) (refs p n).
Proof.
  apply Forall_forall. intros a Ha [?|[v ->]]; [done|].
  destruct p; unfold refs in Ha; [by apply elem_of_nil in Ha|].
  apply elem_of_list_fmap in Ha as (? & ? & _). done.
Qed.
Lemma AObj_nothrow l : Forall (λ a, ¬ can_throw (V:=V) true a) (map AObj l).
Proof.
  apply Forall_forall. intros a Ha [?|[v ->]]; [done|].
  apply elem_of_list_fmap in Ha as (? & ? & _). done.
Qed.
Lemma AObj_vals (h : heapT) l : Forall2 (aval h) (map AObj l) l.
Proof. induction l; simpl; constructor; done. Qed.
Lemma AVal_vals (h : heapT) l : Forall2 (aval h) (map AVal l) l.
Proof. induction l; simpl; constructor; done. Qed.
Lemma AVal_vals_out (h : heapT) b l : Forall2 (aval_out h b) (map AVal l) l.
Proof. induction l; simpl; constructor; done. Qed.

(** Copy construction from [other]. *)
Lemma ctor_copy_post triv this other a own l cap (h : heapT) o r m k :
  this < length o → o !! other = Some (Some a) → arr_rep triv h a own l cap →
  (r = [] ∨ triv = true) →
  post (ctor_copy triv this other (S_ h o r m k))
    (λ _ s', ∃ r', r' `suffix_of` r ∧
       s' = S_ (h ++ [Some (map Live l)])
               (<[this := Some (mkArr (Ptr (length h) 0) (Ptr (length h) (length l)) (Ptr (length h) (length l)))]> o) r' m k)
    (λ s', ∃ r', r' `suffix_of` r ∧ r ≠ [] ∧ s' = S_ h o r' m k).
Proof.
  intros Hthis Ho HR Hnt. unfold ctor_copy.
  unfold bind at 1. erewrite get_arr_eq by done.
  destruct own as [b|]; simpl in HR.
  - destruct HR as (tl & -> & Hh & _). simpl.
    unfold bind at 1. rewrite pdiff_eq by lia. rewrite Nat.sub_0_r.
    apply ctor_range_post; [done|by eapply refs_vals|].
    destruct Hnt as [->| ->]; [by left|right; apply (refs_nothrow (Ptr b 0))].
  - destruct HR as (-> & -> & ->). simpl. unfold bind at 1. simpl.
    apply (ctor_range_post triv this [] []); [done|constructor|by right].
Qed.

(** ** Reallocation *)
Lemma grow_storage_post triv this n a own l cap (h : heapT) o r m k :
  o !! this = Some (Some a) → arr_rep triv h a own l cap → length l ≤ n →
  (triv = true ∨ l = []) →
  post (grow_storage triv this n (S_ h o r m k))
    (λ _ s', ∃ r', r' `suffix_of` r ∧
       s' = S_ (free own h ++ [Some (map Live l ++ replicate (n - length l) Raw)])
               (<[this := Some (mkArr (Ptr (length h) 0) (Ptr (length h) (length l)) (Ptr (length h) n))]> o)
               r' (length l + m) k)
    (λ s', ∃ r', r' `suffix_of` r ∧ r ≠ [] ∧ s' = S_ h o r' m k).
Proof.
  intros Ho HR Hn Ht. unfold grow_storage.
  unfold bind at 1. erewrite size_eq_rep by eauto.
  apply post_bind. eapply post_conseq; [apply alloc_post| |done].
  intros p s (-> & r1 & Hr1 & ->).
  unfold bind at 1. erewrite get_arr_eq by done.
  set (h1 := h ++ [Some (replicate n Raw)]).
  assert (Hnew : h1 !! length h = Some (Some ([] ++ replicate (length l) Raw ++ replicate (n - length l) Raw))).
  { subst h1. rewrite lookup_last. simpl. rewrite <-replicate_add. do 3 f_equal. lia. }
  destruct own as [b|]; simpl in HR.
  - destruct HR as (tl & -> & Hh & Hc & Hraw). simpl a_begin; simpl a_end; simpl a_stor.
    assert (Hl : b < length h) by (by eapply lookup_lt_Some).
    unfold bind at 1. rewrite pdiff_eq by lia. rewrite Nat.sub_0_r.
    assert (Hold : h1 !! b = Some (Some ([] ++ map Live l ++ tl))).
    { subst h1. by rewrite lookup_app_l. }
    unfold bind at 1.
    change (Ptr b 0) with (Ptr b (length (@nil (cell V)))).
    change (Ptr (length h) 0) with (Ptr (length h) (length (@nil (cell V)))).
    erewrite (move_fwd_eq triv l h1 o r1 m k b (length h) [] tl [] _ _);
      [|lia|exact Hold|exact Hnew|by rewrite replicate_length|].
    2:{ destruct Ht as [-> | ->]; [by apply Forall_true; left|constructor]. }
    simpl length. cbv beta iota.
    set (h2 := <[length h:=_]> _).
    assert (Hh2 : h2 = <[b := Some (map (moved_cell triv) l ++ tl)]> h ++
                       [Some (map Live l ++ replicate (n - length l) Raw)]).
    { subst h2 h1. simpl. rewrite insert_app_l by done.
      rewrite <-(insert_length h b (Some (map (moved_cell triv) l ++ tl))) at 1.
      by rewrite insert_last. }
    unfold bind at 1. unfold bind at 1.
    unfold capacity, bind at 1. erewrite get_arr_eq by done. simpl. rewrite pdiff_eq by lia.
    erewrite (dealloc_eq triv h2).
    2:{ rewrite Hh2. rewrite lookup_app_l by (by rewrite insert_length).
        by rewrite list_lookup_insert. }
    2:{ rewrite app_length, map_length. lia. }
    2:{ intros ->. destruct Ht as [? | ->]; [done|]. simpl. auto. }
    assert (Hh3 : <[b:=None]> h2 = <[b:=None]> h ++
                       [Some (map Live l ++ replicate (n - length l) Raw)]).
    { rewrite Hh2. rewrite insert_app_l by (by rewrite insert_length). by rewrite list_insert_insert. }
    rewrite Hh3.
    assert (Hlast : (<[b:=None]> h ++ [Some (map Live l ++ replicate (n - length l) Raw)]) !! length h =
      Some (Some (map Live l ++ replicate (n - length l) Raw))).
    { rewrite <-(insert_length h b None). apply lookup_last. }
    unfold bind at 1. erewrite padd_eq; [|exact Hlast|rewrite app_length, map_length, replicate_length; lia].
    unfold bind at 1. erewrite padd_eq; [|exact Hlast|rewrite app_length, map_length, replicate_length; lia].
    rewrite set_arr_eq. simpl. exists r1. split; done.
  - destruct HR as (-> & -> & ->). simpl.
    unfold bind at 1. simpl. unfold bind at 1. simpl. unfold bind at 1. simpl.
    simpl in Hnew.
    unfold bind at 1. erewrite padd_eq; [|exact Hnew|simpl; lia].
    unfold bind at 1. erewrite padd_eq; [|exact Hnew|rewrite replicate_length; lia].
    rewrite set_arr_eq. simpl. exists r1. split; [done|]. by rewrite Nat.sub_0_r.
Qed.

Lemma shrink_storage_post triv this n a own l cap (h : heapT) o r m k :
  o !! this = Some (Some a) → arr_rep triv h a own l cap → n < cap →
  (triv = true ∨ take n l = []) →
  post (shrink_storage triv this n (S_ h o r m k))
    (λ _ s', ∃ r', r' `suffix_of` r ∧
       s' = S_ (free own h ++ [Some (map Live (take n l) ++ replicate (n - length l) Raw)])
               (<[this := Some (mkArr (Ptr (length h) 0) (Ptr (length h) (length (take n l))) (Ptr (length h) n))]> o)
               r' (length (take n l) + m) k)
    (λ s', ∃ r', r' `suffix_of` r ∧ r ≠ [] ∧ s' = S_ h o r' m k).
Proof.
  intros Ho HR Hn Ht. unfold shrink_storage.
  unfold bind at 1. erewrite size_eq_rep by eauto.
  apply post_bind. eapply post_conseq; [apply alloc_post| |done].
  intros p s (-> & r1 & Hr1 & ->).
  unfold bind at 1. erewrite get_arr_eq by done.
  set (h1 := h ++ [Some (replicate n Raw)]).
  set (l1 := take n l). set (l2 := drop n l).
  assert (Hl1 : length l1 = Nat.min (length l) n) by (subst l1; rewrite take_length; lia).
  assert (Hll : l = l1 ++ l2) by (symmetry; apply take_drop).
  assert (Hnew : h1 !! length h = Some (Some ([] ++ replicate (length l1) Raw ++ replicate (n - length l) Raw))).
  { subst h1. rewrite lookup_last. simpl. rewrite <-replicate_add. do 3 f_equal. lia. }
  destruct own as [b|]; simpl in HR; [|lia].
  destruct HR as (tl & -> & Hh & Hc & Hraw). simpl a_begin; simpl a_end; simpl a_stor.
  assert (Hl : b < length h) by (by eapply lookup_lt_Some).
  assert (Hold : h1 !! b = Some (Some ([] ++ map Live l1 ++ (map Live l2 ++ tl)))).
  { subst h1. rewrite lookup_app_l by done. rewrite Hh. simpl.
    rewrite Hll at 1. by rewrite map_app, <-app_assoc. }
  unfold bind at 1. erewrite padd_eq; [|exact Hold|rewrite !app_length, !map_length; simpl; lia].
  unfold bind at 1. rewrite pdiff_eq by lia. rewrite Nat.sub_0_r, Nat.add_0_l, <-Hl1.
  unfold bind at 1.
  change (Ptr b 0) with (Ptr b (length (@nil (cell V)))).
  change (Ptr (length h) 0) with (Ptr (length h) (length (@nil (cell V)))).
  erewrite (move_fwd_eq triv l1 h1 o r1 m k b (length h) [] _ [] _ _);
    [|lia|exact Hold|exact Hnew|by rewrite replicate_length|destruct Ht as [-> | Ht]; [by apply Forall_true; left|unfold l1; rewrite Ht; constructor]].
  simpl length. cbv beta iota. 
  set (h2 := <[length h:=_]> _).
  assert (Hm : map (moved_cell triv) l1 = map (@Live V) l1)
    by (destruct Ht as [-> | Ht]; [done|unfold l1; by rewrite Ht]).
  assert (Hh2 : h2 = <[b := Some (map Live l1 ++ map Live l2 ++ tl)]> h ++
                     [Some (map Live l1 ++ replicate (n - length l) Raw)]).
  { subst h2 h1. simpl. rewrite insert_app_l by done. rewrite Hm.
    rewrite <-(insert_length h b (Some (map Live l1 ++ map Live l2 ++ tl))) at 1.
    by rewrite insert_last. }
  unfold bind at 1.
  replace (Ptr b (length l)) with (Ptr b (length (map (@Live V) l1) + length (map (@Live V) l2)))
    by (f_equal; rewrite Hll at 1; by rewrite !map_length, app_length).
  replace (Ptr b (length l1)) with (Ptr b (length (map (@Live V) l1))) by (by rewrite map_length).
  erewrite (destroy_a_eq triv (map Live l2)); [| |apply Forall_okd_live].
  2:{ rewrite Hh2. rewrite lookup_app_l by (by rewrite insert_length).
      by rewrite list_lookup_insert. }
  cbv beta iota. set (h3 := <[b:=_]> h2).
  unfold bind at 1. unfold capacity, bind at 1. erewrite get_arr_eq by done. simpl. rewrite pdiff_eq by lia.
  unfold bind at 1.
  erewrite (dealloc_eq triv h3).
  2:{ subst h3. rewrite list_lookup_insert; [reflexivity|]. rewrite Hh2, app_length, insert_length. lia. }
  2:{ rewrite !app_length, replicate_length, !map_length. rewrite Hll, app_length in Hc. lia. }
  2:{ intros ->. destruct Ht as [? | Ht]; [done|]. unfold l1. rewrite Ht. simpl.
      apply Forall_app. split; [apply Forall_raw_replicate|auto]. }
  assert (Hh4 : <[b:=None]> h3 = <[b:=None]> h ++
                     [Some (map Live l1 ++ replicate (n - length l) Raw)]).
  { subst h3. rewrite list_insert_insert, Hh2. rewrite insert_app_l by (by rewrite insert_length). by rewrite list_insert_insert. }
  rewrite Hh4.
  assert (Hlast : (<[b:=None]> h ++ [Some (map Live l1 ++ replicate (n - length l) Raw)]) !! length h =
    Some (Some (map Live l1 ++ replicate (n - length l) Raw))).
  { rewrite <-(insert_length h b None). apply lookup_last. }
  unfold bind at 1. erewrite padd_eq; [|exact Hlast|rewrite app_length, map_length, replicate_length; lia].
  unfold bind at 1. erewrite padd_eq; [|exact Hlast|rewrite app_length, map_length, replicate_length; lia].
  rewrite set_arr_eq. simpl. exists r1. split; [done|]. rewrite Hl1. done.
Qed.
End ops.
