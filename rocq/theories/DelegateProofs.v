(** Proofs about the model of xme::Delegate. *)
From stdpp Require Import list gmap.
From Coq Require Import Lia.
From Verif Require Import Base Client DelegateModel DelegateSpec.
Local Open Scope mon_scope.

(** ** Lists *)
Lemma omap_perm {A B} (f : A → option B) l l' : l ≡ₚ l' → omap f l ≡ₚ omap f l'.
Proof. intros H. by rewrite H. Qed.
Lemma insert_perm {A} (l : list A) i a b : l !! i = Some a → <[i:=b]> l ≡ₚ b :: delete i l.
Proof.
  intros H. rewrite (delete_Permutation (<[i:=b]> l) i b).
  - f_equiv. rewrite !delete_take_drop, take_insert by lia. by rewrite drop_insert_gt by lia.
  - apply list_lookup_insert. by eapply lookup_lt_Some.
Qed.
Lemma swap_perm {A} (l : list A) i j a b : l !! i = Some a → l !! j = Some b →
  <[j:=a]> (<[i:=b]> l) ≡ₚ l.
Proof.
  intros Hi Hj. destruct (decide (i = j)) as [->|n].
  - rewrite Hi in Hj. injection Hj as <-. by rewrite list_insert_insert, list_insert_id.
  - assert (Hj' : <[i:=b]> l !! j = Some b) by (by rewrite list_lookup_insert_ne).
    rewrite (insert_perm _ j b a Hj').
    assert (H : b :: delete j (<[i:=b]> l) ≡ₚ b :: delete i l).
    { by rewrite <- (delete_Permutation _ _ _ Hj'), (insert_perm l i a b Hi). }
    apply Permutation_cons_inv in H. by rewrite H, <- (delete_Permutation l i a Hi).
Qed.
Lemma omap_NoDup_inj {A B} (f : A → option B) l i j a b x : NoDup (omap f l) →
  l !! i = Some a → l !! j = Some b → f a = Some x → f b = Some x → i = j.
Proof.
  revert i j. induction l as [|c l IH]; intros i j Hnd Hi Hj Ha Hb; [done|].
  simpl in Hnd.
  assert (Hin : ∀ k d, l !! k = Some d → f d = Some x → x ∈ omap f l).
  { intros k d Hk Hd. apply elem_of_list_omap. exists d. split; [by eapply elem_of_list_lookup_2|done]. }
  destruct i as [|i], j as [|j]; simpl in Hi, Hj.
  - done.
  - injection Hi as ->. rewrite Ha in Hnd. apply NoDup_cons in Hnd as [Hn _]. destruct Hn. eauto.
  - injection Hj as ->. rewrite Hb in Hnd. apply NoDup_cons in Hnd as [Hn _]. destruct Hn. eauto.
  - f_equal. eapply IH; eauto. destruct (f c); [by apply NoDup_cons in Hnd as [_ ?]|done].
Qed.
Lemma seq_perm l n : l ≡ₚ seq 0 n → n :: l ≡ₚ seq 0 (S n).
Proof. intros ->. rewrite seq_S. simpl. by rewrite Permutation_app_comm. Qed.

Section proofs.
Context {Ty S A R : Type} `{EqDecision Ty}.
Context (big pinned : Ty → bool) (is_null : Ty → S → bool).
Context (call : Ty → S → A → S * option R).
Context (Hpin : ∀ ty, big ty = false → pinned ty = false).
Notation st := (st Ty S). Notation delegate := (delegate Ty S).
Local Arguments St {_ _}. Local Arguments Delegate {_ _}.
Local Arguments objs {_ _}. Local Arguments heap {_ _}. Local Arguments next {_ _}.
Local Arguments born {_ _}. Local Arguments dead {_ _}. Local Arguments thrown {_ _}.
Local Arguments m_storage {_ _}. Local Arguments m_callable {_ _}. Local Arguments m_manager {_ _}.

(** What delegate [x] holds: [k] is the object number and, for big functors, the
    heap address. *)
Notation tag := (option (nat * option nat)).
Definition holds (h : gmap nat (Ty * S * nat)) (x : delegate) (f : option (Ty * S)) (k : tag) : Prop :=
  match f with
  | None => m_manager x = None ∧ k = None
  | Some (ty, v) =>
      m_manager x = Some ty ∧ m_callable x = Some ty ∧ ∃ id,
      if big ty then ∃ p, m_storage x = Ptr p ∧ h !! p = Some (ty, v, id) ∧ k = Some (id, Some p)
      else (∃ home, m_storage x = Inline ty v id home) ∧ k = Some (id, None)
  end.
Definition slot h (o : option delegate) (a : option (option (Ty * S))) (k : tag) : Prop :=
  match o, a with
  | None, None => k = None
  | Some x, Some f => holds h x f k
  | _, _ => False
  end.
Definition shape (os : list (option delegate)) h (τ : dst Ty S) (ks : list tag) : Prop :=
  length τ = length os ∧ length ks = length os ∧
  ∀ i o a k, os !! i = Some o → τ !! i = Some a → ks !! i = Some k → slot h o a k.
Definition ids (ks : list tag) : list nat := omap (fmap fst) ks.
Definition ptrs (ks : list tag) : list nat := omap (λ k, k ≫= snd) ks.
Definition ledger (s : st) (ks : list tag) : Prop :=
  ids ks ++ dead s ≡ₚ seq 0 (born s) ∧
  ptrs ks ≡ₚ (map_to_list (heap s)).*1 ∧
  ∀ p, is_Some (heap s !! p) → p < next s.
Definition inv (s : st) (τ : dst Ty S) (ks : list tag) : Prop := shape (objs s) (heap s) τ ks ∧ ledger s ks.
Definition Inv (s : st) (τ : dst Ty S) : Prop := ∃ ks, inv s τ ks.

Definition with_objs (s : st) os : st := St os (heap s) (next s) (born s) (dead s) (thrown s).

Lemma get_Ok d x (s : st) : objs s !! d = Some (Some x) → get d s = Ok x s.
Proof. intros H. unfold get. by rewrite H. Qed.
Lemma inv_at s τ ks d a : inv s τ ks → τ !! d = Some a →
  ∃ o k, objs s !! d = Some o ∧ ks !! d = Some k ∧ slot (heap s) o a k.
Proof.
  intros [(L1 & L2 & H) _] Ha. assert (Hl := lookup_lt_Some _ _ _ Ha).
  destruct (lookup_lt_is_Some_2 (objs s) d) as [o Ho]; [lia|].
  destruct (lookup_lt_is_Some_2 ks d) as [k Hk]; [lia|]. eauto 10.
Qed.
Lemma inv_live s τ ks d f : inv s τ ks → τ !! d = Some (Some f) →
  ∃ x k, objs s !! d = Some (Some x) ∧ ks !! d = Some k ∧ holds (heap s) x f k.
Proof.
  intros H Hd. destruct (inv_at _ _ _ _ _ H Hd) as ([x|] & k & ? & ? & ?); [|done]. eauto.
Qed.
Lemma inv_free s τ ks d : inv s τ ks → τ !! d = Some None →
  objs s !! d = Some None ∧ ks !! d = Some None.
Proof.
  intros H Hd. destruct (inv_at _ _ _ _ _ H Hd) as ([x|] & k & ? & ? & Hs); [done|].
  simpl in Hs. by subst k.
Qed.
(** Changing slot [d], and the heap only where nobody else owns it. *)
Lemma shape_upd os h h' τ ks d o a k : shape os h τ ks →
  (∀ i k' p, i ≠ d → ks !! i = Some k' → k' ≫= snd = Some p → h' !! p = h !! p) →
  slot h' o a k → shape (<[d:=o]> os) h' (<[d:=a]> τ) (<[d:=k]> ks).
Proof.
  intros (L1 & L2 & H) Hh Hs. split_and!; rewrite ?insert_length; [done..|].
  intros i o' a' k' Ho Ha Hk. destruct (decide (i = d)) as [->|n].
  - assert (Hl := lookup_lt_Some _ _ _ Ho). rewrite insert_length in Hl.
    rewrite list_lookup_insert in Ho by lia. rewrite list_lookup_insert in Ha by lia.
    rewrite list_lookup_insert in Hk by lia. by simplify_eq.
  - rewrite list_lookup_insert_ne in Ho by done. rewrite list_lookup_insert_ne in Ha by done.
    rewrite list_lookup_insert_ne in Hk by done.
    specialize (H i o' a' k' Ho Ha Hk). specialize (Hh i k').
    destruct o' as [x|], a' as [[[ty v]|]|]; simpl in *; try done.
    destruct H as (? & ? & id & H). split_and!; [done..|]. exists id.
    destruct (big ty); [|done]. destruct H as (p & ? & ? & ->). exists p. split_and!; [done| |done].
    rewrite (Hh p); done.
Qed.
Lemma shape_put os h τ ks d o a k : shape os h τ ks → slot h o a k →
  shape (<[d:=o]> os) h (<[d:=a]> τ) (<[d:=k]> ks).
Proof. intros H Hs. by apply (shape_upd os h). Qed.
Lemma shape_app os h τ ks o a k : shape os h τ ks → slot h o a k →
  shape (os ++ [o]) h (τ ++ [a]) (ks ++ [k]).
Proof.
  intros (L1 & L2 & H) Hs. split_and!; rewrite ?app_length; [simpl; lia..|].
  intros i o' a' k' Ho Ha Hk.
  assert (Hl := lookup_lt_Some _ _ _ Ho). rewrite app_length in Hl. simpl in Hl.
  destruct (decide (i < length os)) as [Hi|Hi].
  - rewrite lookup_app_l in Ho by lia. rewrite lookup_app_l in Ha by lia. rewrite lookup_app_l in Hk by lia. eauto.
  - assert (i = length os) as -> by lia.
    rewrite list_lookup_middle in Ho by done. rewrite list_lookup_middle in Ha by done.
    rewrite list_lookup_middle in Hk by done. by simplify_eq.
Qed.
Lemma ledger_nodup s ks : ledger s ks → NoDup (ids ks ++ dead s) ∧ NoDup (ptrs ks).
Proof.
  intros (H1 & H2 & _). split.
  - rewrite H1. apply NoDup_seq.
  - rewrite H2. apply NoDup_fst_map_to_list.
Qed.
Lemma ids_insert ks d k0 k : ks !! d = Some k0 →
  ∃ r, ids ks ≡ₚ option_list (fst <$> k0) ++ r ∧ ids (<[d:=k]> ks) ≡ₚ option_list (fst <$> k) ++ r.
Proof.
  intros H. exists (ids (delete d ks)). unfold ids. split.
  - rewrite (omap_perm _ _ _ (delete_Permutation _ _ _ H)) at 1. simpl. by destruct k0.
  - rewrite (omap_perm _ _ _ (insert_perm _ _ _ k H)). simpl. by destruct k.
Qed.
Lemma ptrs_insert ks d k0 k : ks !! d = Some k0 →
  ∃ r, ptrs ks ≡ₚ option_list (k0 ≫= snd) ++ r ∧ ptrs (<[d:=k]> ks) ≡ₚ option_list (k ≫= snd) ++ r.
Proof.
  intros H. exists (ptrs (delete d ks)). unfold ptrs. split.
  - rewrite (omap_perm _ _ _ (delete_Permutation _ _ _ H)) at 1. simpl. by destruct (k0 ≫= snd).
  - rewrite (omap_perm _ _ _ (insert_perm _ _ _ k H)). simpl. by destruct (k ≫= snd).
Qed.
Lemma alive_id s ks d id p : ledger s ks → ks !! d = Some (Some (id, p)) → id ∉ dead s.
Proof.
  intros HL Hk Hin. destruct (ledger_nodup _ _ HL) as [Hnd _].
  apply NoDup_app in Hnd as (_ & Hnd & _). eapply Hnd; [|exact Hin].
  apply elem_of_list_omap. eexists. split; [by eapply elem_of_list_lookup_2|done].
Qed.

(** ** Destroying the functor of a delegate *)
Lemma destroy_post s τ ks d ty v : inv s τ ks → τ !! d = Some (Some (Some (ty, v))) →
  ∃ s', destroy_functor big pinned ty d s = Ok tt s' ∧ objs s' = objs s ∧
    ∀ o a, slot (heap s') o a None →
      inv (with_objs s' (<[d:=o]> (objs s))) (<[d:=a]> τ) (<[d:=None]> ks).
Proof.
  intros Hinv Hd. destruct (inv_live _ _ _ _ _ Hinv Hd) as (x & k & Hx & Hk & Hm & Hc & id & Hh).
  destruct Hinv as [HS HL]. unfold destroy_functor. destruct (big ty) eqn:Hb.
  - destruct Hh as (p & Hst & Hp & ->).
    exists (St (objs s) (delete p (heap s)) (next s) (born s) (id :: dead s) (thrown s)).
    split_and!; [|done|].
    + unfold pointer, on_heap, hread, death, hfree, bind. rewrite (get_Ok _ _ _ Hx). simpl.
      rewrite Hst. simpl. rewrite Hp. simpl. rewrite decide_True by done. simpl.
      rewrite decide_False by (by eapply alive_id). simpl. by rewrite Hp.
    + intros o a Hs. split.
      * eapply shape_upd; [exact HS| |exact Hs]. intros i k' q n Hk' Hq.
        apply lookup_delete_ne. intros <-. apply n.
        eapply (omap_NoDup_inj (λ k : tag, k ≫= snd)); [by apply (ledger_nodup _ _ HL)|exact Hk'|exact Hk|done..].
      * destruct HL as (H1 & H2 & H3). destruct (ids_insert ks d _ None Hk) as (r & E1 & E2).
        destruct (ptrs_insert ks d _ None Hk) as (r' & E1' & E2'). simpl in *. split_and!; simpl.
        -- rewrite E2. rewrite <- H1, E1. simpl. symmetry. apply Permutation_middle.
        -- rewrite E2'. rewrite E1' in H2.
           rewrite <- (insert_delete (heap s) p (ty, v, id) Hp), map_to_list_insert in H2 by apply lookup_delete.
           simpl in H2. by apply Permutation_cons_inv in H2.
        -- intros q Hq. apply H3. destruct (decide (p = q)) as [->|n].
           ++ by rewrite Hp.
           ++ by rewrite lookup_delete_ne in Hq.
  - destruct Hh as ((home & Hst) & ->).
    exists (St (objs s) (heap s) (next s) (born s) (id :: dead s) (thrown s)).
    split_and!; [|done|].
    + unfold inline, alive, death, bind. rewrite (get_Ok _ _ _ Hx), Hst. simpl.
      rewrite decide_True by done. rewrite decide_False by (by eapply alive_id). simpl.
      rewrite (Hpin ty Hb). simpl. by rewrite decide_False by (by eapply alive_id).
    + intros o a Hs. split; [by apply shape_put|].
      destruct HL as (H1 & H2 & H3). destruct (ids_insert ks d _ None Hk) as (r & E1 & E2).
      destruct (ptrs_insert ks d _ None Hk) as (r' & E1' & E2'). simpl in *. split_and!; simpl; [| |done].
      * rewrite E2. rewrite <- H1, E1. simpl. symmetry. apply Permutation_middle.
      * by rewrite E2', <- E1'.
Qed.

(** ** The member functions *)
Lemma put_Ok d o (s : st) : put d o s = Ok tt (with_objs s (<[d:=o]> (objs s))).
Proof. done. Qed.
Lemma dtor_post s τ d f : Inv s τ → τ !! d = Some (Some f) →
  post (dtor big pinned d s) (λ _ s', Inv s' (<[d:=None]> τ)) (λ _, False).
Proof.
  intros [ks Hinv] Hd. destruct (inv_live _ _ _ _ _ Hinv Hd) as (x & k & Hx & Hk & Hh).
  unfold dtor, bind. rewrite (get_Ok _ _ _ Hx). destruct f as [[ty v]|].
  - destruct Hh as (Hm & _ & _). rewrite Hm.
    destruct (destroy_post _ _ _ _ _ _ Hinv Hd) as (s' & E & Eo & Hs'). rewrite E.
    rewrite put_Ok. simpl. rewrite Eo. eexists. by apply Hs'.
  - destruct Hh as [Hm ->]. rewrite Hm. simpl. destruct Hinv as [HS HL].
    exists ks. split; simpl; [|done]. rewrite <- (list_insert_id ks d None Hk). by apply shape_put.
Qed.
Lemma assign_null_post s τ d f : Inv s τ → τ !! d = Some (Some f) →
  post (assign_null big pinned d s) (λ _ s', Inv s' (<[d:=Some None]> τ)) (λ _, False).
Proof.
  intros [ks Hinv] Hd. destruct (inv_live _ _ _ _ _ Hinv Hd) as (x & k & Hx & Hk & Hh).
  unfold assign_null, bind. rewrite (get_Ok _ _ _ Hx). destruct f as [[ty v]|].
  - destruct Hh as (Hm & _ & _). rewrite Hm.
    destruct (destroy_post _ _ _ _ _ _ Hinv Hd) as (s' & E & Eo & Hs'). rewrite E.
    unfold set_manager, set_callable, bind. rewrite (get_Ok d x s') by (by rewrite Eo).
    rewrite put_Ok.
    rewrite (get_Ok d (Delegate (m_storage x) (m_callable x) None)).
    2:{ simpl. rewrite Eo. apply list_lookup_insert. by eapply lookup_lt_Some. }
    rewrite put_Ok. simpl. rewrite Eo, list_insert_insert. eexists. by apply Hs'.
  - destruct Hh as [Hm ->]. rewrite Hm. simpl. exists ks. by rewrite list_insert_id.
Qed.
Lemma ctor_default_post s τ d : Inv s τ → τ !! d = Some None →
  post (ctor_default d s) (λ _ s', Inv s' (<[d:=Some None]> τ)) (λ _, False).
Proof.
  intros [ks Hinv] Hd. destruct (inv_free _ _ _ _ Hinv Hd) as [Ho Hk].
  simpl. destruct Hinv as [HS HL]. exists ks. split; [|done]. simpl.
  rewrite <- (list_insert_id ks d None Hk). by apply shape_put.
Qed.
Lemma ctor_fn_post s τ d ty v t : Inv s τ → τ !! d = Some None →
  post (ctor_fn big is_null d ty v t s)
    (λ _ s', t && negb (is_null ty v) = false ∧ Inv s' (<[d:=Some (given is_null ty v)]> τ))
    (λ s', t && negb (is_null ty v) = true ∧ Inv s' τ ∧ thrown s' = Some FunctorExn).
Proof.
  intros [ks Hinv] Hd. destruct (inv_free _ _ _ _ Hinv Hd) as [Ho Hk].
  assert (Hlt := lookup_lt_Some _ _ _ Ho). destruct Hinv as [HS HL].
  unfold ctor_fn, given. unfold bind at 1. simpl. destruct (is_null ty v); simpl.
  { split; [by destruct t|]. exists ks. split; [|done]. simpl.
    rewrite <- (list_insert_id ks d None Hk). by apply shape_put. }
  unfold create_functor, on_throw. destruct t; simpl.
  { split_and!; [done| |done]. exists ks. split; [|done]. simpl.
    by rewrite list_insert_insert, list_insert_id. }
  unfold birth, halloc, set_storage, set_callable, set_manager, get, put, bind. simpl.
  destruct (big ty) eqn:Hb; simpl.
  - repeat (rewrite list_lookup_insert by (rewrite ?insert_length; lia); simpl).
    rewrite !list_insert_insert. split; [done|].
    exists (<[d:=Some (born s, Some (next s))]> ks).
    destruct HL as (H1 & H2 & H3).
    assert (Hfr : heap s !! next s = None).
    { destruct (heap s !! next s) eqn:E; [|done]. assert (next s < next s) by (apply H3; eauto). lia. }
    split; simpl.
    + eapply shape_upd; [exact HS| |].
      * intros i k' p n Hk' Hp. apply lookup_insert_ne. intros <-.
        assert (Hin : next s ∈ ptrs ks).
        { apply elem_of_list_omap. exists k'. split; [by eapply elem_of_list_lookup_2|done]. }
        rewrite H2 in Hin. apply elem_of_list_fmap in Hin as ([p o] & Ep & Hin).
        apply elem_of_map_to_list in Hin. simpl in *. congruence.
      * simpl. split_and!; [done..|]. exists (born s). rewrite Hb. exists (next s).
        by rewrite lookup_insert.
    + destruct (ids_insert ks d _ (Some (born s, Some (next s))) Hk) as (r & E1 & E2).
      destruct (ptrs_insert ks d _ (Some (born s, Some (next s))) Hk) as (r' & E1' & E2').
      simpl in *. split_and!; simpl.
      * rewrite E2. simpl. apply seq_perm. by rewrite <- E1.
      * rewrite E2', map_to_list_insert by done. simpl. by rewrite <- E1', H2.
      * intros p [o Hp]. destruct (decide (p = next s)) as [->|n]; [lia|].
        rewrite lookup_insert_ne in Hp by done. assert (p < next s) by (apply H3; eauto). lia.
  - repeat (rewrite list_lookup_insert by (rewrite ?insert_length; lia); simpl).
    rewrite !list_insert_insert. split; [done|].
    exists (<[d:=Some (born s, None)]> ks). destruct HL as (H1 & H2 & H3). split; simpl.
    + apply shape_put; [done|]. simpl. split_and!; [done..|]. exists (born s). rewrite Hb. eauto.
    + destruct (ids_insert ks d _ (Some (born s, None)) Hk) as (r & E1 & E2).
      destruct (ptrs_insert ks d _ (Some (born s, None)) Hk) as (r' & E1' & E2').
      simpl in *. split_and!; simpl; [| |done].
      * rewrite E2. simpl. apply seq_perm. by rewrite <- E1.
      * by rewrite E2', <- E1'.
Qed.
Lemma ledger_perm s s' ks ks' : ledger s ks → ks' ≡ₚ ks → heap s' = heap s → next s' = next s →
  born s' = born s → dead s' = dead s → ledger s' ks'.
Proof.
  intros (H1 & H2 & H3) Hp Eh En Eb Ed. unfold ledger. rewrite Eh, En, Eb, Ed. unfold ids, ptrs. 
  split_and!; [|by rewrite Hp|done]. by rewrite (omap_perm _ _ _ Hp).
Qed.
Lemma ctor_move_post s τ d e f : Inv s τ → τ !! d = Some None → τ !! e = Some (Some f) →
  post (ctor_move d e s) (λ _ s', Inv s' (<[d:=Some f]> (<[e:=Some None]> τ))) (λ _, False).
Proof.
  intros [ks Hinv] Hd He. destruct (inv_free _ _ _ _ Hinv Hd) as [Hod Hkd].
  destruct (inv_live _ _ _ _ _ Hinv He) as (y & k & Hy & Hk & Hh).
  assert (n : d ≠ e) by congruence. assert (Hlt := lookup_lt_Some _ _ _ Hod).
  unfold ctor_move, set_manager, set_storage, bind. rewrite (get_Ok _ _ _ Hy), put_Ok.
  rewrite (get_Ok e y) by (simpl; by rewrite list_lookup_insert_ne).
  destruct Hinv as [HS HL]. destruct f as [[ty v]|].
  - destruct Hh as (Hm & Hc & id & Hh). rewrite Hm.
    unfold get, put. simpl. rewrite list_lookup_insert by lia. simpl.
    rewrite list_lookup_insert by (rewrite insert_length; lia). simpl.
    rewrite !list_insert_insert. rewrite list_lookup_insert_ne by done. rewrite Hy. simpl.
    exists (<[d:=k]> (<[e:=None]> ks)). split; simpl.
    + rewrite list_insert_commute by done. apply shape_put; [apply shape_put; [done|by split]|].
      simpl. split_and!; [done..|]. exists id. exact Hh.
    + eapply ledger_perm; [exact HL| |done..]. by apply swap_perm.
  - destruct Hh as [Hm ->]. rewrite Hm. simpl. exists ks. split; simpl; [|done].
    rewrite (list_insert_id τ e) by done. rewrite <- (list_insert_id ks d None Hkd). by apply shape_put.
Qed.
Lemma bind_Ok {B C} (m : M st B) (k : B → M st C) s b s' : m s = Ok b s' → bind m k s = k b s'.
Proof. unfold bind. by intros ->. Qed.
Lemma set_storage_Ok d v x (s : st) : objs s !! d = Some (Some x) →
  set_storage d v s = Ok tt (with_objs s (<[d:=Some (Delegate v (m_callable x) (m_manager x))]> (objs s))).
Proof. intros H. unfold set_storage. by erewrite bind_Ok by (by apply get_Ok). Qed.
Lemma set_callable_Ok d v x (s : st) : objs s !! d = Some (Some x) →
  set_callable d v s = Ok tt (with_objs s (<[d:=Some (Delegate (m_storage x) v (m_manager x))]> (objs s))).
Proof. intros H. unfold set_callable. by erewrite bind_Ok by (by apply get_Ok). Qed.
Lemma set_manager_Ok d v x (s : st) : objs s !! d = Some (Some x) →
  set_manager d v s = Ok tt (with_objs s (<[d:=Some (Delegate (m_storage x) (m_callable x) v)]> (objs s))).
Proof. intros H. unfold set_manager. by erewrite bind_Ok by (by apply get_Ok). Qed.
Local Ltac look := simpl; first [ eassumption
  | rewrite list_lookup_insert by (rewrite ?insert_length; lia); reflexivity
  | rewrite list_lookup_insert_ne by done; look ].
Lemma swap_eq d e x y (s : st) : objs s !! d = Some (Some x) → objs s !! e = Some (Some y) →
  swap d e s = Ok tt (with_objs s (<[e:=Some x]> (<[d:=Some y]> (objs s)))).
Proof.
  intros Hx Hy. assert (Hlt := lookup_lt_Some _ _ _ Hx). assert (Hlt' := lookup_lt_Some _ _ _ Hy).
  destruct (decide (d = e)) as [->|n].
  - rewrite Hx in Hy. injection Hy as <-. unfold swap.
    repeat first [ erewrite bind_Ok by (apply get_Ok; look)
                 | erewrite bind_Ok by (apply set_storage_Ok; look)
                 | erewrite bind_Ok by (apply set_callable_Ok; look)
                 | erewrite bind_Ok by (apply set_manager_Ok; look) ].
    erewrite set_manager_Ok by look. unfold with_objs. simpl.
    rewrite !list_insert_insert. by destruct x.
  - unfold swap.
    repeat first [ erewrite bind_Ok by (apply get_Ok; look)
                 | erewrite bind_Ok by (apply set_storage_Ok; look)
                 | erewrite bind_Ok by (apply set_callable_Ok; look)
                 | erewrite bind_Ok by (apply set_manager_Ok; look) ].
    erewrite set_manager_Ok by look. unfold with_objs. simpl. do 2 f_equal.
    apply list_eq. intros i. destruct (decide (i = e)) as [->|n1]; [|destruct (decide (i = d)) as [->|n2]].
    + rewrite !list_lookup_insert by (rewrite ?insert_length; lia). by destruct x.
    + repeat first [rewrite list_lookup_insert by (rewrite ?insert_length; lia) | rewrite list_lookup_insert_ne by done].
      by destruct y.
    + by rewrite !list_lookup_insert_ne by done.
Qed.
Lemma swap_post s τ d e f g : Inv s τ → τ !! d = Some (Some f) → τ !! e = Some (Some g) →
  post (swap d e s) (λ _ s', Inv s' (<[e:=Some f]> (<[d:=Some g]> τ))) (λ _, False).
Proof.
  intros [ks Hinv] Hd He.
  destruct (inv_live _ _ _ _ _ Hinv Hd) as (x & k & Hx & Hk & Hh).
  destruct (inv_live _ _ _ _ _ Hinv He) as (y & k' & Hy & Hk' & Hh').
  rewrite (swap_eq _ _ _ _ _ Hx Hy). simpl. destruct Hinv as [HS HL]. exists (<[e:=k]> (<[d:=k']> ks)). split; simpl.
  - apply shape_put; [by apply shape_put|done].
  - eapply ledger_perm; [exact HL| |done..]. by apply swap_perm.
Qed.
Lemma assign_move_post s τ i j f g : Inv s τ → τ !! 0 = Some None → τ !! i = Some (Some f) → τ !! j = Some (Some g) →
  post (assign_move big pinned i j s) (λ _ s', Inv s' (<[i:=Some g]> (<[j:=Some None]> τ))) (λ _, False).
Proof.
  intros HI H0 Hi Hj. unfold assign_move.
  assert (i ≠ 0) by congruence. assert (j ≠ 0) by congruence.
  assert (L0 := lookup_lt_Some _ _ _ H0). assert (Li := lookup_lt_Some _ _ _ Hi).
  set (f' := if decide (i = j) then None else f).
  assert (Hi' : <[j:=Some None]> τ !! i = Some (Some f')).
  { unfold f'. destruct (decide (i = j)) as [->|n]; [by rewrite list_lookup_insert|by rewrite list_lookup_insert_ne]. }
  apply post_bind. eapply post_conseq; [by eapply ctor_move_post| |done]. simpl. intros _ s1 HI1.
  apply post_bind. eapply post_conseq; [eapply (swap_post s1 _ 0 i g f'); [exact HI1| |]| |done].
  { apply list_lookup_insert. by rewrite insert_length. }
  { by rewrite list_lookup_insert_ne. }
  intros [] s2 HI2. simpl in HI2. eapply post_conseq; [eapply (dtor_post s2 _ 0 f'); [exact HI2|]| |done].
  { rewrite list_lookup_insert_ne by done. apply list_lookup_insert. by rewrite !insert_length. }
  simpl. intros _ s3 HI3.
  replace (<[i:=Some g]> (<[j:=Some None]> τ)) with
    (<[0:=None]> (<[i:=Some g]> (<[0:=Some f']> (<[0:=Some g]> (<[j:=Some None]> τ))))); [done|].
  rewrite list_insert_insert, (list_insert_commute _ 0 i), list_insert_insert by done.
  f_equal. apply list_insert_id. by rewrite list_lookup_insert_ne.
Qed.
Lemma assign_fn_post s τ i ty v t f : Inv s τ → τ !! 0 = Some None → τ !! i = Some (Some f) →
  t && negb (is_null ty v) = false →
  post (assign_fn big pinned is_null i ty v t s) (λ _ s', Inv s' (<[i:=Some (given is_null ty v)]> τ)) (λ _, False).
Proof.
  intros HI H0 Hi Ht. assert (i ≠ 0) by congruence.
  assert (L0 := lookup_lt_Some _ _ _ H0). unfold assign_fn.
  assert (Hp : post ((ctor_fn big is_null 0 ty v t ;;; swap 0 i ;;; dtor big pinned 0) s)
    (λ _ s', Inv s' (<[i:=Some (given is_null ty v)]> τ)) (λ _, False)).
  { apply post_bind. eapply post_conseq; [by eapply ctor_fn_post| |]; simpl.
    2:{ intros s1 (Ht' & _). congruence. }
    intros _ s1 [_ HI1].
    apply post_bind. eapply post_conseq; [eapply (swap_post s1 _ 0 i _ f); [exact HI1| |]| |done].
    { by apply list_lookup_insert. }
    { by rewrite list_lookup_insert_ne. }
    intros [] s2 HI2. simpl in HI2. eapply post_conseq; [eapply (dtor_post s2 _ 0 f); [exact HI2|]| |done].
    { rewrite list_lookup_insert_ne by done. apply list_lookup_insert. by rewrite !insert_length. }
    simpl. intros _ s3 HI3.
    replace (<[i:=Some (given is_null ty v)]> τ) with
      (<[0:=None]> (<[i:=Some (given is_null ty v)]> (<[0:=Some f]> (<[0:=Some (given is_null ty v)]> τ)))); [done|].
    rewrite list_insert_insert, (list_insert_commute _ 0 i), list_insert_insert by done.
    f_equal. by apply list_insert_id. }
  by destruct ((ctor_fn big is_null 0 ty v t ;;; swap 0 i ;;; dtor big pinned 0) s).
Qed.
Lemma call_post s τ d f a : Inv s τ → τ !! d = Some (Some f) →
  post (op_call big pinned call d a s)
    (λ r s', ∃ ty v, f = Some (ty, v) ∧ (call ty v a).2 = Some r ∧ Inv s' (<[d:=Some (Some (ty, (call ty v a).1))]> τ))
    (λ s', match f with
           | None => thrown s' = Some BadFunctionCall ∧ Inv s' τ
           | Some (ty, v) => (call ty v a).2 = None ∧ thrown s' = Some FunctorExn ∧
                             Inv s' (<[d:=Some (Some (ty, (call ty v a).1))]> τ)
           end).
Proof.
  intros [ks Hinv] Hd. destruct (inv_live _ _ _ _ _ Hinv Hd) as (x & k & Hx & Hk & Hh).
  unfold op_call. unfold bind at 1. rewrite (get_Ok _ _ _ Hx). destruct Hinv as [HS HL].
  destruct f as [[ty v]|].
  2:{ destruct Hh as [Hm ->]. rewrite Hm. simpl. split; [done|]. by exists ks. }
  destruct Hh as (Hm & Hc & id & Hh). rewrite Hm, Hc. unfold invoke.
  destruct (call ty v a) as [v' r] eqn:Ec. destruct (big ty) eqn:Hb.
  - destruct Hh as (p & Hst & Hp & ->). unfold pointer, on_heap, hread, bind.
    rewrite (get_Ok _ _ _ Hx), Hst. simpl. rewrite Hp. simpl. rewrite decide_True by done. simpl.
    rewrite Ec. simpl.
    assert (HI : ∀ t, Inv (St (objs s) (<[p:=(ty, v', id)]> (heap s)) (next s) (born s) (dead s) t)
                      (<[d:=Some (Some (ty, v'))]> τ)).
    { intros t. exists (<[d:=Some (id, Some p)]> ks). split; simpl.
      - rewrite <- (list_insert_id (objs s) d (Some x)) by done. eapply shape_upd; [exact HS| |].
        + intros i k' q n Hk' Hq. apply lookup_insert_ne. intros <-. apply n.
          eapply (omap_NoDup_inj (λ k : tag, k ≫= snd)); [by apply (ledger_nodup _ _ HL)|exact Hk'|exact Hk|done..].
        + simpl. split_and!; [done..|]. exists id. rewrite Hb. exists p. by rewrite lookup_insert.
      - rewrite list_insert_id by done. destruct HL as (H1 & H2 & H3). split_and!; simpl; [done| |].
        + rewrite H2. rewrite <- (insert_delete (heap s) p (ty, v, id) Hp) at 1.
          rewrite map_to_list_insert by apply lookup_delete.
          rewrite <- insert_delete_insert, map_to_list_insert by apply lookup_delete. done.
        + intros q [o Hq]. apply H3. destruct (decide (p = q)) as [->|n]; [by rewrite Hp|].
          rewrite lookup_insert_ne in Hq by done. by rewrite Hq. }
    destruct r as [r|]; simpl.
    + exists ty, v. rewrite Ec. split_and!; [done..|apply HI].
    + split_and!; [done..|apply HI].
  - destruct Hh as ((home & Hst) & ->). unfold inline, alive, bind.
    rewrite (get_Ok _ _ _ Hx), Hst. simpl. rewrite decide_True by done.
    rewrite decide_False by (by eapply alive_id). simpl. rewrite (Hpin ty Hb). simpl. rewrite Ec. simpl.
    unfold set_storage, bind. rewrite (get_Ok _ _ _ Hx). simpl.
    assert (HI : ∀ t, Inv (St (<[d:=Some (Delegate (Inline ty v' id home) (m_callable x) (m_manager x))]> (objs s))
                             (heap s) (next s) (born s) (dead s) t)
                      (<[d:=Some (Some (ty, v'))]> τ)).
    { intros t. exists (<[d:=Some (id, None)]> ks). split; simpl.
      - apply shape_put; [done|]. simpl. split_and!; [done..|]. exists id. rewrite Hb. eauto.
      - rewrite (list_insert_id ks) by done. exact HL. }
    destruct r as [r|]; simpl.
    + exists ty, v. rewrite Ec. split_and!; [done..|apply HI].
    + split_and!; [done..|apply HI].
Qed.
Lemma bool_post s τ d f : Inv s τ → τ !! d = Some (Some f) →
  op_bool d s = Ok (match f with Some _ => true | None => false end) s.
Proof.
  intros [ks Hinv] Hd. destruct (inv_live _ _ _ _ _ Hinv Hd) as (x & k & Hx & Hk & Hh).
  unfold op_bool, bind. rewrite (get_Ok _ _ _ Hx). destruct f as [[ty v]|].
  - destruct Hh as (-> & _). done.
  - by destruct Hh as [-> _].
Qed.
Lemma handle_post s τ d f ty : Inv s τ → τ !! d = Some (Some f) →
  handle ty d s = Ok (match f with Some (ty', _) => if decide (ty' = ty) then Some d else None | None => None end) s.
Proof.
  intros [ks Hinv] Hd. destruct (inv_live _ _ _ _ _ Hinv Hd) as (x & k & Hx & Hk & Hh).
  unfold handle, bind. rewrite (get_Ok _ _ _ Hx). destruct f as [[ty' v]|].
  - destruct Hh as (-> & _). unfold ret. f_equal.
    destruct (decide (ty' = ty)) as [->|n]; [by rewrite decide_True|].
    rewrite decide_False; [done|]. congruence.
  - destruct Hh as [-> _]. unfold ret. by rewrite decide_False.
Qed.
Lemma handle_read_post s τ d f ty : Inv s τ → τ !! d = Some (Some f) → (∀ v, f = Some (ty, v) → big ty = false) →
  handle_read pinned ty d s =
    Ok (match f with Some (ty', v) => if decide (ty' = ty) then Some v else None | None => None end) s.
Proof.
  intros HI Hd Hf. unfold handle_read. unfold bind at 1. rewrite (handle_post _ _ _ _ _ HI Hd).
  destruct f as [[ty' v]|]; [|done]. destruct (decide (ty' = ty)) as [->|n]; [|done].
  specialize (Hf v eq_refl). destruct HI as [ks Hinv].
  destruct (inv_live _ _ _ _ _ Hinv Hd) as (x & k & Hx & Hk & Hm & Hc & id & Hh). rewrite Hf in Hh.
  destruct Hh as ((home & Hst) & ->). unfold inline, alive, bind.
  rewrite (get_Ok _ _ _ Hx), Hst. simpl. rewrite decide_True by done.
  rewrite decide_False by (eapply alive_id; [apply Hinv|done]). simpl. by rewrite (Hpin ty Hf).
Qed.

(** ** Clients *)
Definition Rel (s : st) (σ : dst Ty S) : Prop := Inv s (None :: σ).
Lemma has_Some (σ : dst Ty S) i f : has σ i = Some f → (None :: σ) !! (1 + i) = Some (Some f).
Proof. unfold has. simpl. destruct (σ !! i) as [[g|]|]; simpl; by intros; simplify_eq. Qed.
Lemma Inv_grow s τ : Inv s τ →
  Inv (St (objs s ++ [None]) (heap s) (next s) (born s) (dead s) (thrown s)) (τ ++ [None]).
Proof.
  intros [ks [HS HL]]. exists (ks ++ [None]). split; simpl; [by apply shape_app|].
  destruct HL as (H1 & H2 & H3). unfold ledger, ids, ptrs in *. simpl.
  split_and!; [| |done].
  - rewrite omap_app. simpl. by rewrite app_nil_r.
  - rewrite omap_app. simpl. by rewrite app_nil_r.
Qed.
Lemma Inv_len s τ : Inv s τ → length (objs s) = length τ.
Proof. by intros (ks & (L & _) & _). Qed.
Lemma insert_snoc {B} (l : list B) n x y : n = length l → <[n := x]> (l ++ [y]) = l ++ [x].
Proof. intros ->. induction l as [|z l IH]; simpl; [done|]. by rewrite IH. Qed.
Lemma new_var_post s σ ctor a σ' (P : Prop) (E : st → Prop) : Rel s σ →
  (∀ s1, Inv s1 ((None :: σ) ++ [None]) →
     post (ctor (Datatypes.S (length σ)) s1) (λ _ s', P ∧ Inv s' ((None :: σ') ++ [a])) E) →
  post (new_var ctor s) (λ r s', P ∧ r = RNew (S := S) (R := R) (length σ) ∧ Rel s' (σ' ++ [a])) E.
Proof.
  intros HR Hc. unfold new_var. unfold bind at 1. simpl. unfold bind at 1. simpl.
  rewrite (Inv_len _ _ HR). simpl. apply post_bind.
  eapply post_conseq; [apply Hc|..]; simpl; [by apply Inv_grow in HR|by intros _ s' [? ?]|done].
Qed.
Lemma delegate_simulates :
  simulates (step big is_null call) (λ _ _ _, False) (run_op big pinned is_null call) Rel (λ _, True).
Proof.
  intros o s σ σ1 r HR Hst.
  assert (H0 : (None :: σ) !! 0 = Some None) by done.
  assert (Hcatch : ∀ m : M st (out S R),
    post (m s) (λ r' s', r' = r ∧ Rel s' σ1) (λ s', ∃ e, thrown s' = Some e ∧ r = RExn e ∧ Rel s' σ1) →
    post (catch m s) (λ r' s', r' = r ∧ Rel s' σ1 ∧ (True → True)) (λ s', ¬ True ∧ ∃ σ', False ∧ Rel s' σ')).
  { intros m Hp. unfold catch. destruct (m s) as [r' s'|s'|u]; simpl in *; [by destruct Hp| |done].
    destruct Hp as (e & -> & -> & ?). by split_and!. }
  unfold run_op. apply Hcatch. clear Hcatch.
  assert (Hunit : ∀ m : M st unit, r = RUnit →
    post (m s) (λ _ s', Rel s' σ1) (λ _, False) →
    post ((m ;;; ret RUnit) s) (λ r' s', r' = r ∧ Rel s' σ1) (λ s', ∃ e, thrown s' = Some e ∧ r = RExn e ∧ Rel s' σ1)).
  { intros m -> Hp. apply post_bind. eapply post_conseq; [exact Hp|by split|done]. }
  assert (Hnew : ((None :: σ) ++ [None]) !! Datatypes.S (length σ) = Some None) by by apply list_lookup_middle.
  destruct o as [|ty v t|j|i|i j|i|i ty v t|i j|i a|i|i ty]; cbn [step] in Hst.
  - injection Hst as <- <-.
    eapply post_conseq; [apply (new_var_post _ σ _ (Some None) σ True (λ _, False)); [done|]|by simpl; intros ?? [_ ?]|done].
    intros s1 HI. eapply post_conseq; [eapply ctor_default_post; [exact HI|by apply Hnew]| |done].
    intros [] s' HI'. cbv beta in HI'. split; [done|]. by rewrite (insert_snoc (None :: σ)) in HI' by done.
  - destruct (t && negb (is_null ty v)) eqn:Ht; injection Hst as <- <-.
    + eapply post_conseq; [apply (new_var_post _ σ _ (Some None) σ False
        (λ s', thrown s' = Some FunctorExn ∧ Rel s' (σ ++ [None]))); [done|]| |].
      * intros s1 HI. eapply post_conseq; [eapply ctor_fn_post; [exact HI|by apply Hnew]|..]; simpl.
        -- intros _ s' [? _]. congruence.
        -- by intros s' (_ & ? & ?).
      * by intros ?? [].
      * simpl. intros s' [? ?]. eauto.
    + eapply post_conseq; [apply (new_var_post _ σ _ (Some (given is_null ty v)) σ True (λ _, False)); [done|]|by simpl; intros ?? [_ ?]|done].
      intros s1 HI. eapply post_conseq; [eapply ctor_fn_post; [exact HI|by apply Hnew]|..]; cbv beta.
      * intros [] s' [_ HI']. split; [done|]. by rewrite (insert_snoc (None :: σ)) in HI' by done.
      * intros s' [? _]. congruence.
  - destruct (has σ j) as [f|] eqn:Hj; simpl in Hst; [|done]. injection Hst as <- <-.
    apply has_Some in Hj. assert (Hjl := lookup_lt_Some _ _ _ Hj).
    eapply post_conseq; [apply (new_var_post _ σ _ (Some f) (set σ j None) True (λ _, False)); [done|]|by simpl; intros ?? [_ ?]|done].
    intros s1 HI. eapply post_conseq; [eapply ctor_move_post; [exact HI|by apply Hnew|]| |done].
    { by rewrite lookup_app_l. }
    intros [] s' HI'. cbv beta in HI'. rewrite insert_app_l in HI' by done.
    split; [done|]. by rewrite insert_snoc in HI' by (by rewrite insert_length).
  - destruct (has σ i) as [f|] eqn:Hi; simpl in Hst; [|done]. injection Hst as <- <-.
    apply Hunit; [done|]. eapply post_conseq; [eapply dtor_post; [exact HR|by apply has_Some]|done|done].
  - destruct (has σ j) as [g|] eqn:Hj; simpl in Hst; [|done].
    destruct (has σ i) as [f|] eqn:Hi; simpl in Hst; [|done]. injection Hst as <- <-.
    apply Hunit; [done|]. eapply post_conseq; [eapply assign_move_post; [exact HR|done|by apply has_Some..]|done|done].
  - destruct (has σ i) as [f|] eqn:Hi; simpl in Hst; [|done]. injection Hst as <- <-.
    apply Hunit; [done|]. eapply post_conseq; [eapply assign_null_post; [exact HR|by apply has_Some]|done|done].
  - destruct (has σ i) as [f|] eqn:Hi; simpl in Hst; [|done].
    destruct (t && negb (is_null ty v)) eqn:Ht; [done|]. injection Hst as <- <-.
    apply Hunit; [done|]. eapply post_conseq; [eapply assign_fn_post; [exact HR|done|by apply has_Some|done]|done|done].
  - destruct (has σ i) as [f|] eqn:Hi; simpl in Hst; [|done].
    destruct (has σ j) as [g|] eqn:Hj; simpl in Hst; [|done]. injection Hst as <- <-.
    apply Hunit; [done|]. eapply post_conseq; [eapply swap_post; [exact HR|by apply has_Some..]|done|done].
  - destruct (has σ i) as [f|] eqn:Hi; simpl in Hst; [|done].
    apply post_bind. eapply post_conseq; [eapply call_post; [exact HR|by apply has_Some]|..]; simpl.
    + intros v s' (ty & w & -> & Er & HI). injection Hst as <- <-. by rewrite Er.
    + intros s' Hs'. destruct f as [[ty w]|]; injection Hst as <- <-.
      * destruct Hs' as (Er & ? & ?). rewrite Er. eauto.
      * destruct Hs'. eauto.
  - destruct (has σ i) as [f|] eqn:Hi; simpl in Hst; [|done]. injection Hst as <- <-.
    apply post_bind. erewrite bool_post by (done || by apply has_Some). by simpl.
  - destruct (has σ i) as [f|] eqn:Hi; simpl in Hst; [|done].
    apply post_bind. erewrite handle_read_post; [|exact HR|by apply has_Some|].
    + simpl. destruct f as [[ty' v]|]; simplify_eq; [|done]. case_decide; [|by simplify_eq].
      destruct (big ty); by simplify_eq.
    + intros v ->. rewrite decide_True in Hst by done. by destruct (big ty).
Qed.
End proofs.
