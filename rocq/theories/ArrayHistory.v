(** Refinement of client programs: the memory model implements the list
    specification (trivially copyable element types). *)
From stdpp Require Import list list_numbers functions.
From Verif Require Import Base ArrayModel ArraySpec ArrayRun ArrayProofs ArrayOps ArrayOps2 ArrayOps3 ArrayOps4.
Local Open Scope mon_scope.

Section history.
Context {V : Type} (triv : bool).
Implicit Types (l : list V) (cs : list (cell V)) (s : st V).
Notation heapT := (list (option (list (cell V)))).
Notation S_ h o r m k := (@mkSt V h o r m k).
Implicit Types (σ : astore V).

Definition obj_rep (h : heapT) (a : arr) (own : option nat) (x : aobj V) : Prop :=
  match x with
  | Good l cap => arr_rep triv h a own l cap
  | Broken cap => triv = true ∧ ∃ n, arr_shape h a own n cap
  end.
Lemma obj_valid h a own x : obj_rep h a own x → ∀ b, own = Some b → b < length h.
Proof. destruct x; simpl; [eapply rep_valid|intros [_ [n ?]]; by eapply shape_valid]. Qed.
Lemma obj_frame h h' a own x :
  (∀ b, own = Some b → h' !! b = h !! b) → obj_rep h a own x → obj_rep h' a own x.
Proof. destruct x; simpl; [apply rep_frame|intros Hf [? [n ?]]; split; [done|]; exists n; by eapply shape_frame]. Qed.
Lemma obj_any h a own x : obj_rep h a own x → arr_any triv h a own.
Proof.
  destruct x; simpl; intros H; [left; eauto|]. right. destruct H as [-> [n H]]. eauto.
Qed.

Record sr (h : heapT) (o : list (option arr)) σ (ow : nat → option nat) : Prop := {
  sr_len : length o = length σ;
  sr_obj : ∀ i x, σ !! i = Some (Some x) → ∃ a, o !! i = Some (Some a) ∧ obj_rep h a (ow i) x;
  sr_dead : ∀ i, σ !! i = Some None → o !! i = Some None ∧ ow i = None;
  sr_dom : ∀ i, length σ ≤ i → ow i = None;
  sr_inj : ∀ i j b, ow i = Some b → ow j = Some b → i = j;
  sr_all : ∀ b cs, h !! b = Some (Some cs) → ∃ i, ow i = Some b }.

Ltac sra H := first [by apply (sr_len _ _ _ _ H) | by apply (sr_obj _ _ _ _ H) | by apply (sr_dead _ _ _ _ H)
  | apply (sr_dom _ _ _ _ H); lia | by apply (sr_inj _ _ _ _ H) | by apply (sr_all _ _ _ _ H)].
Lemma sr_live h o σ ow i b : sr h o σ ow → ow i = Some b →
  ∃ x a, σ !! i = Some (Some x) ∧ o !! i = Some (Some a) ∧ obj_rep h a (Some b) x ∧ b < length h.
Proof.
  intros H Hi. destruct (decide (length σ ≤ i)) as [Hl|Hl].
  { apply (sr_dom _ _ _ _ H) in Hl. congruence. }
  destruct (lookup_lt_is_Some_2 σ i) as [[x|] Hx]; [lia| |].
  - destruct (sr_obj _ _ _ _ H i x Hx) as (a & Ha & Hr). rewrite Hi in Hr. exists x, a.
    split_and!; try done. by eapply obj_valid.
  - destruct (sr_dead _ _ _ _ H i Hx). congruence.
Qed.

Lemma sr_upd h o σ ow i x0 h' o' a' own' x' : sr h o σ ow → σ !! i = Some (Some x0) →
  o' = <[i := Some a']> o → hframe h h' (ow i) own' → obj_rep h' a' own' x' →
  sr h' o' (upd σ i x') (<[i := own']> ow).
Proof.
  intros H Hi -> Hf Hr.
  assert (Hil : i < length σ) by (by eapply lookup_lt_Some).
  assert (Hio : i < length o) by (by rewrite (sr_len _ _ _ _ H)).
  split.
  - unfold upd. rewrite !insert_length. sra H.
  - intros j x Hj. unfold upd in Hj. destruct (decide (j = i)) as [->|Hne].
    + rewrite list_lookup_insert in Hj by done. injection Hj as <-.
      rewrite fn_lookup_insert. exists a'. split; [by apply list_lookup_insert|done].
    + rewrite list_lookup_insert_ne in Hj by done.
      destruct (sr_obj _ _ _ _ H j x Hj) as (a & Ha & Hra). exists a.
      rewrite list_lookup_insert_ne by done. rewrite fn_lookup_insert_ne by done. split; [done|].
      eapply obj_frame; [|exact Hra]. intros b Hb.
      apply (hf_other _ _ _ _ Hf); [by eapply obj_valid|].
      intros Hb'. apply Hne. by eapply (sr_inj _ _ _ _ H).
  - intros j Hj. unfold upd in Hj. destruct (decide (j = i)) as [->|Hne].
    { by rewrite list_lookup_insert in Hj. }
    rewrite list_lookup_insert_ne in Hj by done.
    rewrite list_lookup_insert_ne by done. rewrite fn_lookup_insert_ne by done. sra H.
  - intros j Hj. unfold upd in Hj. rewrite insert_length in Hj.
    rewrite fn_lookup_insert_ne by lia. sra H.
  - assert (Haux : ∀ j b, j ≠ i → own' = Some b → ow j = Some b → False).
    { intros j b Hne Ho' Hj. destruct (hf_own _ _ _ _ Hf b Ho') as [Hb|Hb].
      - apply Hne. by eapply (sr_inj _ _ _ _ H).
      - destruct (sr_live _ _ _ _ _ _ H Hj) as (_ & _ & _ & _ & _ & ?). lia. }
    intros j1 j2 b. destruct (decide (j1 = i)) as [->|Hn1], (decide (j2 = i)) as [->|Hn2];
      rewrite ?fn_lookup_insert, ?fn_lookup_insert_ne by done; intros H1 H2; try done.
    + exfalso. by eapply (Haux j2).
    + exfalso. by eapply (Haux j1).
    + by eapply (sr_inj _ _ _ _ H).
  - intros b cs Hb. destruct (decide (length h ≤ b)) as [Hge|Hlt].
    { exists i. rewrite fn_lookup_insert. by eapply (hf_fresh _ _ _ _ Hf). }
    destruct (decide (ow i = Some b)) as [Hob|Hob].
    + destruct (decide (own' = Some b)) as [->|Hn].
      * exists i. by rewrite fn_lookup_insert.
      * rewrite (hf_freed _ _ _ _ Hf b Hob Hn) in Hb. done.
    + rewrite (hf_other _ _ _ _ Hf b) in Hb; [|lia|done].
      destruct (sr_all _ _ _ _ H b cs Hb) as [j Hj]. exists j.
      rewrite fn_lookup_insert_ne; [done|]. intros <-. done.
Qed.

Lemma sr_new h o σ ow : sr h o σ ow →
  sr h (o ++ [Some null_arr]) (σ ++ [Some (Good [] 0)]) ow.
Proof.
  intros H. assert (Hlen := sr_len _ _ _ _ H). split.
  - rewrite !app_length. simpl. lia.
  - intros i x Hi. destruct (decide (i < length σ)) as [Hl|Hl].
    + rewrite lookup_app_l in Hi by done. rewrite lookup_app_l by lia. sra H.
    + assert (i = length σ) as ->.
      { apply lookup_lt_Some in Hi. rewrite app_length in Hi. simpl in Hi. lia. }
      rewrite lookup_last in Hi. injection Hi as <-. rewrite <-Hlen, lookup_last.
      exists null_arr. split; [done|]. rewrite (sr_dom _ _ _ _ H) by lia. done.
  - intros i Hi. destruct (decide (i < length σ)) as [Hl|Hl].
    + rewrite lookup_app_l in Hi by done. rewrite lookup_app_l by lia. sra H.
    + assert (i = length σ) as ->.
      { apply lookup_lt_Some in Hi. rewrite app_length in Hi. simpl in Hi. lia. }
      by rewrite lookup_last in Hi.
  - intros i Hi. rewrite app_length in Hi. simpl in Hi. sra H.
  - sra H.
  - sra H.
Qed.

Lemma sr_kill h o σ ow i : sr h o σ ow → ow i = None →
  sr h (<[i := None]> o) (<[i := None]> σ) ow.
Proof.
  intros H Hn. assert (Hlen := sr_len _ _ _ _ H). split; [by rewrite !insert_length| | |rewrite insert_length; sra H|sra H|sra H].
  - intros j x Hj. destruct (decide (j = i)) as [->|Hne].
    { apply list_lookup_insert_Some in Hj as [(? & ? & ?)|(? & ?)]; done. }
    rewrite list_lookup_insert_ne in Hj by done. rewrite list_lookup_insert_ne by done. sra H.
  - intros j Hj. destruct (decide (j = i)) as [->|Hne].
    { rewrite list_lookup_insert; [done|]. apply lookup_lt_Some in Hj. rewrite insert_length in Hj. lia. }
    rewrite list_lookup_insert_ne in Hj by done. rewrite list_lookup_insert_ne by done. sra H.
Qed.

Lemma sr_swap h o σ ow i j a b x y : sr h o σ ow → i ≠ j →
  σ !! i = Some (Some x) → σ !! j = Some (Some y) →
  o !! i = Some (Some a) → o !! j = Some (Some b) →
  sr h (<[j := Some a]> (<[i := Some b]> o)) (upd (upd σ i y) j x) (<[j := ow i]> (<[i := ow j]> ow)).
Proof.
  intros H Hij Hi Hj Ha Hb. assert (Hlen := sr_len _ _ _ _ H).
  assert (Hil : i < length σ) by (by eapply lookup_lt_Some).
  assert (Hjl : j < length σ) by (by eapply lookup_lt_Some).
  destruct (sr_obj _ _ _ _ H i x Hi) as (a' & Ha' & Hra).
  destruct (sr_obj _ _ _ _ H j y Hj) as (b' & Hb' & Hrb).
  assert (a' = a) as -> by congruence. assert (b' = b) as -> by congruence.
  unfold upd. split.
  - by rewrite !insert_length.
  - intros k z Hk. destruct (decide (k = j)) as [->|Hkj].
    + rewrite list_lookup_insert in Hk by (by rewrite insert_length). injection Hk as <-.
      rewrite list_lookup_insert by (rewrite insert_length; lia). rewrite fn_lookup_insert. eauto.
    + rewrite list_lookup_insert_ne in Hk by done. rewrite list_lookup_insert_ne by done.
      rewrite fn_lookup_insert_ne by done. destruct (decide (k = i)) as [->|Hki].
      * rewrite list_lookup_insert in Hk by done. injection Hk as <-.
        rewrite list_lookup_insert by lia. rewrite fn_lookup_insert. eauto.
      * rewrite list_lookup_insert_ne in Hk by done. rewrite list_lookup_insert_ne by done.
        rewrite fn_lookup_insert_ne by done. sra H.
  - intros k Hk. destruct (decide (k = j)) as [->|Hkj].
    { by rewrite list_lookup_insert in Hk by (by rewrite insert_length). }
    rewrite list_lookup_insert_ne in Hk by done. destruct (decide (k = i)) as [->|Hki].
    { by rewrite list_lookup_insert in Hk. }
    rewrite list_lookup_insert_ne in Hk by done. rewrite !list_lookup_insert_ne by done.
    rewrite !fn_lookup_insert_ne by done. sra H.
  - intros k Hk. rewrite !insert_length in Hk. rewrite !fn_lookup_insert_ne by lia. sra H.
  - assert (Hsw : ∀ k, (<[j:=ow i]> (<[i:=ow j]> ow)) k = ow (if decide (k = j) then i else if decide (k = i) then j else k)).
    { intros k. destruct (decide (k = j)) as [->|?]; [by rewrite fn_lookup_insert|].
      rewrite fn_lookup_insert_ne by done. destruct (decide (k = i)) as [->|?]; [by rewrite fn_lookup_insert|].
      by rewrite fn_lookup_insert_ne. }
    intros k1 k2 c. rewrite !Hsw. intros H1 H2.
    assert (E := sr_inj _ _ _ _ H _ _ _ H1 H2).
    repeat case_decide; congruence.
  - intros c cs Hc. destruct (sr_all _ _ _ _ H c cs Hc) as [k Hk].
    destruct (decide (k = i)) as [->|Hki]; [|destruct (decide (k = j)) as [->|Hkj]].
    + exists j. by rewrite fn_lookup_insert.
    + exists i. rewrite fn_lookup_insert_ne by done. by rewrite fn_lookup_insert.
    + exists k. by rewrite !fn_lookup_insert_ne.
Qed.

(** The relation between model states and specification stores. *)
Definition srs s σ : Prop := ∃ ow, sr (heap s) (objs s) σ ow.

Lemma srs_result (h : heapT) o r k σ ow i x0 own l' cap' own' s' :
  sr h o σ ow → σ !! i = Some (Some x0) → own = ow i →
  result triv i h o r k own l' cap' own' s' →
  srs s' (upd σ i (Good l' cap')) ∧ oracle s' `suffix_of` r ∧ leaked s' = k.
Proof.
  intros H Hi -> (a' & Ho & Hr & Hk & Hf & HR). split; [|done].
  eexists. by eapply sr_upd.
Qed.

Lemma get_good_Some σ i l c : get_good σ i = Some (l, c) ↔ σ !! i = Some (Some (Good l c)).
Proof. unfold get_good. destruct (σ !! i) as [[[]|]|]; naive_solver. Qed.
Lemma get_any_Some σ i x : get_any σ i = Some x ↔ σ !! i = Some (Some x).
Proof. unfold get_any. destruct (σ !! i) as [[]|]; naive_solver. Qed.
Lemma upd_id σ i x : σ !! i = Some (Some x) → upd σ i x = σ.
Proof. apply list_insert_id. Qed.

Definition good_step (o : op V) σ σ1 r (s : st V) (r' : out V) (s' : st V) : Prop :=
  r' = r ∧ srs s' σ1 ∧ oracle s' `suffix_of` oracle s ∧ leaked s' = leaked s.
(** Calls covered for the element type at hand. *)
Definition covered (o : op V) σ s : Prop := triv = true ∨ (oracle s = [] ∧ gentle o σ).
Definition bad_step (o : op V) σ (s : st V) (s' : st V) : Prop :=
  oracle s ≠ [] ∧ oracle s' `suffix_of` oracle s ∧ leaked s' = leaked s ∧ ∃ σ', spec_throw o σ σ' ∧ srs s' σ'.

Lemma post_ret_unit {A B} (m : M (st V) A) (x : B) s Q E :
  post (m s) (λ _ s', Q x s') E → post ((m ;;; ret x) s) Q E.
Proof. intros H. apply post_bind. eapply post_conseq; [exact H| |done]. intros; done. Qed.

(** Constructors of new arrays. *)
Lemma new_array_post (h : heapT) o r m k σ ow ctor x l' cap' :
  sr h o σ ow → x = Good l' cap' →
  post (ctor (length o) (S_ h (o ++ [Some null_arr]) r m k))
    (λ _ s', result triv (length o) h (o ++ [Some null_arr]) r k None l' cap' (Some (length h)) s' ∨
             (result triv (length o) h (o ++ [Some null_arr]) r k None l' cap' None s'))
    (λ s', r ≠ [] ∧ ∃ r', r' `suffix_of` r ∧ s' = S_ h (o ++ [Some null_arr]) r' m k) →
  post (new_array ctor (S_ h o r m k))
    (λ i s', i = length σ ∧ srs s' (σ ++ [Some x]) ∧ oracle s' `suffix_of` r ∧ leaked s' = k)
    (λ s', r ≠ [] ∧ oracle s' `suffix_of` r ∧ leaked s' = k ∧ srs s' σ).
Proof.
  intros H -> Hc. unfold new_array. apply post_bind. simpl. unfold set_objs; simpl.
  assert (Hlen := sr_len _ _ _ _ H).
  apply post_bind. apply post_on_throw. eapply post_conseq; [exact Hc| |].
  - intros ? s Hres. simpl in Hres. split; [done|].
    assert (Hn := sr_new _ _ _ _ H).
    assert (Hlk : (σ ++ [Some (Good [] 0)]) !! length o = Some (Some (Good (V:=V) [] 0))) by (rewrite Hlen; apply lookup_last).
    assert (Hupd : upd (σ ++ [Some (Good [] 0)]) (length o) (Good l' cap') = σ ++ [Some (Good l' cap')]).
    { unfold upd. rewrite Hlen. apply insert_last. }
    rewrite <-Hupd.
    destruct Hres as [Hres|Hres]; (eapply srs_result; [exact Hn|exact Hlk| |exact Hres]); symmetry; apply (sr_dom _ _ _ _ H); lia.
  - intros s (Hr & r' & Hr' & ->). unfold pop_obj, modify; simpl. unfold set_objs; simpl.
    rewrite take_pop. split_and!; [done|done|done|]. eexists. exact H.
Qed.

Lemma step_new (h : heapT) o r m k σ ow op ctor x l' cap' :
  sr h o σ ow → x = Good l' cap' → (spec_throw op σ σ) →
  post (ctor (length o) (S_ h (o ++ [Some null_arr]) r m k))
    (λ _ s', result triv (length o) h (o ++ [Some null_arr]) r k None l' cap' (Some (length h)) s' ∨
             (result triv (length o) h (o ++ [Some null_arr]) r k None l' cap' None s'))
    (λ s', r ≠ [] ∧ ∃ r', r' `suffix_of` r ∧ s' = S_ h (o ++ [Some null_arr]) r' m k) →
  post ((i <- new_array ctor ;; ret (RNew i)) (S_ h o r m k))
    (good_step op σ (σ ++ [Some x]) (RNew (length σ)) (S_ h o r m k))
    (bad_step op σ (S_ h o r m k)).
Proof.
  intros H Hx Ht Hc. apply post_bind. eapply post_conseq; [by eapply new_array_post| |].
  - intros i s (-> & Hs & Hor & Hk). done.
  - intros s (Hr & Hor & Hk & Hs). split_and!; try done. exists σ. done.
Qed.

(** The fresh array built by a constructor. *)
Lemma fresh_result (h : heapT) (o : list (option arr)) r m k n l tl cap :
  n = length o → cap = length l + length tl → (triv = false → Forall (λ c, c = Raw) tl) →
  result triv n h (o ++ [Some null_arr]) r k None l cap (Some (length h))
    (S_ (h ++ [Some (map Live l ++ tl)])
        (<[n := Some (mkArr (Ptr (length h) 0) (Ptr (length h) (length l)) (Ptr (length h) cap))]> (o ++ [Some null_arr]))
        r m k).
Proof.
  intros -> -> Htl. eexists. simpl. split_and!; [done|done|done|apply hframe_alloc|].
  exists tl. split_and!; [done|apply lookup_last|done|done].
Qed.
Lemma result_suffix t this (h : heapT) o r r' k own l cap own' s :
  result t this h o r' k own l cap own' s → r' `suffix_of` r →
  result t this h o r k own l cap own' s.
Proof. intros (a & ? & ? & ?) ?. exists a. split; [done|]. split; [by etrans|done]. Qed.

Ltac inv_spec := repeat match goal with
  | H : _ ≫= _ = Some _ |- _ => apply bind_Some in H as (? & ? & ?)
  | H : guard_ ?b _ = Some _ |- _ => unfold guard_ in H; destruct b eqn:?; [|done]
  | p : _ * _ |- _ => destruct p; simplify_eq/=
  | H : get_good _ _ = Some _ |- _ => apply get_good_Some in H
  | H : get_any _ _ = Some _ |- _ => apply get_any_Some in H
  | H : Some _ = Some _ |- _ => injection H as <- <-
  end.

Lemma covered_false (o : op V) σ s : covered o σ s → triv = false → oracle s = [] ∧ gentle o σ.
Proof. unfold covered. intros [->|]; done. Qed.
Lemma covered_good (o : op V) σ s l c i P : covered o σ s → get_good σ i = Some (l, c) →
  (gentle o σ → ∃ l c, get_good σ i = Some (l, c) ∧ P l c) → triv = true ∨ (oracle s = [] ∧ P l c).
Proof. intros [?|[? Hg]] Hi HP; [by left|right]. destruct (HP Hg) as (? & ? & ? & ?). simplify_eq. done. Qed.

Lemma covered_or (o : op V) σ s : covered o σ s → oracle s = [] ∨ triv = true.
Proof. intros [?|[? _]]; auto. Qed.
Lemma nothrow_objs (o : op V) σ s l : covered o σ s →
  oracle s = [] ∨ Forall (λ a, ¬ can_throw triv a) (map (@AObj V) l).
Proof. intros [->|[? _]]; [right; apply AObj_nothrow|auto]. Qed.

Lemma step_sim (op : op V) s σ σ1 r :
  srs s σ → covered op σ s → spec_step op σ = Some (σ1, r) →
  post (run_op triv op s) (good_step op σ σ1 r s) (bad_step op σ s).
Proof.
  intros [ow H] Hcov Hsp. destruct s as [h o rr m k]. simpl in H.
  destruct op; simpl in Hsp; inv_spec; unfold run_op.
  - (* ODefault *) apply post_bind. unfold new_array. apply post_bind. simpl. unfold set_objs; simpl.
    split_and!; [f_equal; apply H| |done|done]. eexists. by apply sr_new.
  - (* OCap *) eapply step_new; [done|done|done|].
    eapply post_conseq; [apply ctor_cap_post| |].
    + intros _ s (r' & Hr & ->). left. eapply result_suffix; [|exact Hr].
      by apply (fresh_result h o r' m k _ [] (replicate n Raw) n); [|rewrite replicate_length|intros; apply Forall_raw_replicate].
    + intros s (r' & Hr & Hne & ->). eauto.
  - (* OFill *) eapply step_new; [done|done|done|].
    eapply post_conseq; [apply ctor_fill_post; rewrite app_length; simpl; lia| |].
    + intros _ s (r' & Hr & ->). left. eapply result_suffix; [|exact Hr].
      assert (Hres := fresh_result h o r' m k (length o) (replicate n v) [] n).
      rewrite app_nil_r, replicate_length in Hres. apply Hres; simpl; [lia|lia|done].
    + intros s (r' & Hr & Hne & [->|[? _]]); [eauto|]. by destruct (covered_false _ _ _ Hcov) as [? _].
  - (* ORange *) eapply step_new; [done|done|done|].
    eapply post_conseq; [apply ctor_range_post; [rewrite app_length; simpl; lia|apply AObj_vals|by apply nothrow_objs with (1 := Hcov)]| |].
    + intros _ s (r' & Hr & ->). left. eapply result_suffix; [|exact Hr].
      assert (Hres := fresh_result h o r' m k (length o) l [] (length l)).
      rewrite app_nil_r in Hres. apply Hres; simpl; [lia|lia|done].
    + intros s (r' & Hr & Hne & ->). eauto.
  - (* OCopy *) eapply step_new; [done|done|done|].
    destruct (sr_obj _ _ _ _ H _ _ H0) as (a & Ha & HR).
    assert (j < length o) by (by eapply lookup_lt_Some).
    eapply post_conseq; [eapply ctor_copy_post; [rewrite app_length; simpl; lia|by rewrite lookup_app_l|exact HR|by apply covered_or with (1 := Hcov)]| |].
    + intros _ s (r' & Hr & ->). left. eapply result_suffix; [|exact Hr].
      assert (Hres := fresh_result h o r' m k (length o) l [] (length l)).
      rewrite app_nil_r in Hres. apply Hres; simpl; [lia|lia|done].
    + intros s (r' & Hr & Hne & ->). eauto.
  - (* OMove *)
    destruct (sr_obj _ _ _ _ H _ _ H0) as (a & Ha & HR).
    assert (Hlen := sr_len _ _ _ _ H).
    assert (j < length o) by (by eapply lookup_lt_Some).
    apply post_bind. unfold new_array. apply post_bind. simpl. unfold set_objs; simpl.
    apply post_bind. apply post_on_throw.
    erewrite ctor_move_eq by (by rewrite lookup_app_l). simpl.
    split_and!; [by rewrite Hlen| |done|done].
    assert (Hn := sr_new _ _ _ _ H).
    eexists. simpl.
    assert (E : upd σ j (Good [] 0) ++ [Some x] = upd (upd (σ ++ [Some (Good [] 0)]) j (Good [] 0)) (length o) x).
    { unfold upd. rewrite insert_app_l by lia. rewrite Hlen. symmetry. apply insert_last'. by rewrite insert_length. }
    rewrite E. eapply sr_swap; [exact Hn|lia| | | |].
    + rewrite lookup_app_l by lia. done.
    + rewrite Hlen. apply lookup_last.
    + by rewrite lookup_app_l.
    + apply lookup_last.
  - (* ODestroy *)
    destruct (sr_obj _ _ _ _ H _ _ H0) as (a & Ha & HR).
    apply post_ret_unit. unfold destroy_array. unfold bind at 1.
    erewrite dtor_any_eq; [|exact Ha|by eapply obj_any]. simpl. split_and!; [done| |done|done].
    assert (Hu : sr (free (ow i) h) (<[i := Some null_arr]> o) (upd σ i (Good [] 0)) (<[i := None]> ow)).
    { eapply sr_upd; [done|done|done| |done]. apply hframe_free. by eapply obj_valid. }
    apply (sr_kill _ _ _ _ i) in Hu; [|by rewrite fn_lookup_insert].
    unfold upd in Hu. rewrite !list_insert_insert in Hu. eexists. exact Hu.
  - (* OAssignCopy *)
    destruct (sr_obj _ _ _ _ H _ _ H0) as (a & Ha & HR).
    destruct (sr_obj _ _ _ _ H _ _ H1) as (b & Hb & HRb).
    apply post_ret_unit. eapply post_conseq; [eapply assign_copy_post; [done|by eapply obj_any|done|exact HRb|by apply covered_or with (1 := Hcov)]| |].
    + intros _ s [Hres _]. split; [done|]. by eapply srs_result.
    + intros s (r' & Hr & Hne & ->). split_and!; try done. exists σ. split; [done|]. by eexists.
  - (* OAssignMove *)
    destruct (sr_obj _ _ _ _ H _ _ H0) as (a & Ha & HR).
    destruct (sr_obj _ _ _ _ H _ _ H1) as (b & Hb & HRb).
    apply post_ret_unit. destruct (decide (i = j)) as [->|Hij].
    + erewrite assign_move_self by done. split_and!; [done| |done|done].
      simplify_eq. unfold upd. rewrite list_insert_insert, list_insert_id by done. by eexists.
    + erewrite assign_move_eq; [|done|done|by eapply obj_any|done]. split_and!; [done| |done|done].
      assert (Hsw := sr_swap _ _ _ _ _ _ _ _ _ _ H Hij H0 H1 Ha Hb).
      assert (Hj : j < length o) by (by eapply lookup_lt_Some).
      assert (Hlen := sr_len _ _ _ _ H).
      eapply (sr_upd _ _ _ _ j x (free (ow i) h) _ null_arr None (Good [] 0)) in Hsw; [|by (unfold upd; apply list_lookup_insert; rewrite insert_length; lia)|done| |done].
      2:{ rewrite fn_lookup_insert. apply hframe_free. by eapply obj_valid. }
      eexists. simpl. unfold upd in Hsw. rewrite !list_insert_insert in Hsw.
      unfold upd. rewrite (list_insert_commute _ i j) by done. rewrite (list_insert_commute σ i j) by done. exact Hsw.
  - (* OAssignList *)
    destruct (sr_obj _ _ _ _ H _ _ H0) as (a & Ha & HR).
    apply post_ret_unit. eapply post_conseq; [eapply assign_list_post; [done|by eapply obj_any|apply AObj_vals|by apply nothrow_objs with (1 := Hcov)]| |].
    + intros _ s [Hres _]. split; [done|]. by eapply srs_result.
    + intros s (r' & Hr & Hne & ->). split_and!; try done. exists σ. split; [done|]. by eexists.
  - (* OSwap *)
    destruct (sr_obj _ _ _ _ H _ _ H0) as (a & Ha & HR).
    destruct (sr_obj _ _ _ _ H _ _ H1) as (b & Hb & HRb).
    apply post_ret_unit. destruct (decide (i = j)) as [->|Hij].
    + erewrite swap_self by done. split_and!; [done| |done|done].
      simplify_eq. unfold upd. rewrite list_insert_insert, list_insert_id by done. by eexists.
    + erewrite swap_eq by done. split_and!; [done| |done|done]. eexists. by eapply sr_swap.
  - (* OClear *)
    destruct (sr_obj _ _ _ _ H _ _ H0) as (a & Ha & HR).
    apply post_ret_unit. destruct x as [l c|c]; simpl in HR.
    + destruct (clear_post triv i a (ow i) l c h o rr m k Ha HR) as (s' & -> & Hres & _).
      split; [done|]. by eapply srs_result.
    + destruct HR as [Ht [n HR]]. destruct (clear_shape_post i a (ow i) n c h o rr m k Ha HR) as (s' & E & Hres).
      rewrite Ht at 1. rewrite E. split; [done|]. eapply srs_result; [done|done|done|]. by rewrite Ht.
  - (* OReserve *)
    destruct (sr_obj _ _ _ _ H _ _ H0) as (a & Ha & HR).
    pose proof (covered_good _ _ _ _ _ i (λ l c, l = [] ∨ n ≤ c) Hcov (proj2 (get_good_Some _ _ _ _) H0) id) as Hg.
    apply post_ret_unit. eapply post_conseq; [eapply reserve_post; [done|exact HR|]| |].
    { destruct Hg as [?|[_ ?]]; auto. }
    + intros _ s (own' & Hres & _). split; [done|]. by eapply srs_result.
    + intros s (Hr & Hres). destruct (srs_result _ _ _ _ _ _ _ _ _ _ _ _ _ H H0 eq_refl Hres) as (Hs & Hor & Hlk).
      split_and!; try done. exists σ. split; [done|]. by rewrite upd_id in Hs.
  - (* OResize *)
    destruct (sr_obj _ _ _ _ H _ _ H0) as (a & Ha & HR).
    pose proof (covered_good _ _ _ _ _ i (λ l c, l = [] ∨ n = 0 ∨ n = c) Hcov (proj2 (get_good_Some _ _ _ _) H0) id) as Hg.
    apply post_ret_unit. eapply post_conseq; [eapply resize_post; [done|exact HR|]| |].
    { destruct Hg as [?|[_ ?]]; auto. }
    + intros _ s (own' & Hres & _). split; [done|]. by eapply srs_result.
    + intros s (Hr & Hres). destruct (srs_result _ _ _ _ _ _ _ _ _ _ _ _ _ H H0 eq_refl Hres) as (Hs & Hor & Hlk).
      split_and!; try done. exists σ. split; [done|]. by rewrite upd_id in Hs.
  - (* OInsert *)
    apply Nat.leb_le in Heqb.
    destruct (sr_obj _ _ _ _ H _ _ H0) as (a & Ha & HR). simpl in HR.
    unfold bind at 1. erewrite index_eq; [|exact Ha|exact HR|done].
    pose proof (covered_good _ _ _ _ _ i (λ l c, l = [] ∨ length l < c) Hcov (proj2 (get_good_Some _ _ _ _) H0) id) as Hg.
    apply post_bind. eapply post_conseq; [eapply insert_post; [done|exact HR|done|]| |].
    { destruct Hg as [?|[_ ?]]; auto. }
    + intros p s (b' & Hres & -> & _). assert (Hres' := Hres). destruct Hres as (a' & Ho' & _ & _ & _ & HR').
      destruct s as [h' o' r' m' k']. simpl in Ho', HR'.
      change (Ptr b' k0) with (pos_ptr (Some b') k0).
      erewrite idx_of_eq; [|rewrite Ho'; apply list_lookup_insert; by eapply lookup_lt_Some|exact HR'|done].
      split; [done|]. by eapply srs_result.
    + intros s (Hr & Hres). destruct Hg as [Hg|[? _]]; [|done]. destruct (Hres Hg) as (own' & l' & cap' & Hres' & Hc). clear Hres; rename Hres' into Hres.
      destruct (srs_result _ _ _ _ _ _ _ _ _ _ _ _ _ H H0 eq_refl Hres) as (Hs & Hor & Hlk).
      split_and!; try done. eexists. split; [|exact Hs]. simpl.
      eexists _, _. split; [by apply get_good_Some|].
      destruct Hc as [[-> ->]|[(-> & -> & ->)|(x & Hx & Hlt & -> & ->)]].
      * left. by apply upd_id.
      * right; left. done.
      * right; right. exists x. done.
  - (* OInsertRange *)
    apply Nat.leb_le in Heqb.
    pose proof (covered_good _ _ _ _ _ i (λ l0 c, l0 = [] ∨ l = [] ∨ (k0 = length l0 ∧ length l0 + length l ≤ c)) Hcov (proj2 (get_good_Some _ _ _ _) H0) id) as Hg.
    destruct (sr_obj _ _ _ _ H _ _ H0) as (a & Ha & HR). simpl in HR.
    unfold bind at 1. erewrite index_eq; [|exact Ha|exact HR|done].
    apply post_bind. eapply post_conseq; [eapply (insert_range_post' triv i k0 (map AVal l) l); [|done|exact HR|done| |by rewrite map_length]| |].
    { destruct Hg as [?|[? [?|[?|?]]]]; [by left| | |]; right; (split; [done|]); rewrite map_length; subst; auto. }
    + intros h' b' _ _. apply AVal_vals_out.
    + intros p s (b' & Hres & -> & _). assert (Hres' := Hres). destruct Hres as (a' & Ho' & _ & _ & _ & HR').
      destruct s as [h' o' r' m' k']. simpl in Ho', HR'.
      erewrite idx_of_eq; [|rewrite Ho'; apply list_lookup_insert; by eapply lookup_lt_Some|exact HR'|].
      2:{ intros ->. simpl in HR'. destruct HR' as (_ & Hnil & _).
          apply (f_equal length) in Hnil. rewrite !app_length, take_length in Hnil. simpl in Hnil. lia. }
      split; [done|]. rewrite map_length in Hres'. by eapply srs_result.
    + intros s (Hr & Hc). rewrite map_length in Hc. destruct (_ <? _) eqn:Elt.
      * destruct Hc as [own' Hres].
        destruct (srs_result _ _ _ _ _ _ _ _ _ _ _ _ _ H H0 eq_refl Hres) as (Hs & Hor & Hlk).
        rewrite upd_id in Hs by done. split_and!; try done. exists σ. split; [|done]. simpl.
        eexists _, _. split; [by apply get_good_Some|]. by rewrite Elt.
      * destruct Hc as (a' & n' & Ho' & Hor & Hk & Hf & Hsh). split_and!; try done.
        eexists. split; simpl.
        -- eexists _, _. split; [by apply get_good_Some|]. rewrite Elt. done.
        -- eexists. eapply sr_upd; [done|done|done|done|]. simpl. split; [|eauto].
           destruct Hg as [?|[? _]]; done.
  - (* OPush *)
    destruct (sr_obj _ _ _ _ H _ _ H0) as (a & Ha & HR).
    apply post_ret_unit. apply post_ret_unit.
    pose proof (covered_good _ _ _ _ _ i (λ l c, l = [] ∨ length l < c) Hcov (proj2 (get_good_Some _ _ _ _) H0) id) as Hg.
    eapply post_conseq; [eapply (emplace_back_post triv i (AVal v) v); [done|exact HR| |done|done]| |].
    { destruct Hg as [?|[_ ?]]; auto. }
    + intros p s (b' & Hres & _). split; [done|]. by eapply srs_result.
    + intros s (Hr & own' & cap' & Hc & _ & Hres).
      destruct (srs_result _ _ _ _ _ _ _ _ _ _ _ _ _ H H0 eq_refl Hres) as (Hs & Hor & Hlk).
      split_and!; try done. eexists. split; [|exact Hs]. simpl. eexists _, _. split; [by apply get_good_Some|].
      destruct Hc as [-> | ->]; [left; by apply upd_id|by right].
  - (* OEmplace *)
    destruct (sr_obj _ _ _ _ H _ _ H0) as (a & Ha & HR). apply post_bind.
    pose proof (covered_good _ _ _ _ _ i (λ l c, l = [] ∨ length l < c) Hcov (proj2 (get_good_Some _ _ _ _) H0) id) as Hg.
    eapply post_conseq; [eapply (emplace_back_post triv i (AVal v) v); [done|exact HR| |done|done]| |].
    { destruct Hg as [?|[_ ?]]; auto. }
    + intros p s (b' & Hres & -> & _ & _). assert (Hres' := Hres). destruct Hres as (a' & Ho' & _ & _ & _ & HR').
      destruct s as [h' o' r' m' k']. simpl in Ho', HR'.
      change (Ptr b' (length l)) with (pos_ptr (Some b') (length l)).
      erewrite idx_of_eq; [|rewrite Ho'; apply list_lookup_insert; by eapply lookup_lt_Some|exact HR'|done].
      split; [done|]. by eapply srs_result.
    + intros s (Hr & own' & cap' & Hc & _ & Hres).
      destruct (srs_result _ _ _ _ _ _ _ _ _ _ _ _ _ H H0 eq_refl Hres) as (Hs & Hor & Hlk).
      split_and!; try done. eexists. split; [|exact Hs]. simpl. eexists _, _. split; [by apply get_good_Some|].
      destruct Hc as [-> | ->]; [left; by apply upd_id|by right].
  - (* OPushRange *)
    destruct (sr_obj _ _ _ _ H _ _ H0) as (a & Ha & HR). apply post_ret_unit.
    pose proof (covered_good _ _ _ _ _ i (λ l' c, l' = [] ∨ length l' + length l ≤ c) Hcov (proj2 (get_good_Some _ _ _ _) H0) id) as Hg.
    eapply post_conseq; [eapply (push_back_range_post triv i (map AVal l) l); [done|exact HR| | |by rewrite map_length]| |].
    { rewrite map_length. destruct Hg as [?|[_ ?]]; auto. }
    + intros h' b' _. apply AVal_vals_out.
    + intros p s (own' & Hres & _). split; [done|]. rewrite map_length in Hres. by eapply srs_result.
    + intros s (Hr & own' & Hc). rewrite map_length in Hc. destruct Hc as [Hres|(j & Hj & Hres)];
        destruct (srs_result _ _ _ _ _ _ _ _ _ _ _ _ _ H H0 eq_refl Hres) as (Hs & Hor & Hlk);
        split_and!; try done; eexists; (split; [|exact Hs]); simpl; eexists _, _; (split; [by apply get_good_Some|]).
      * left. by apply upd_id.
      * right. exists j. done.
  - (* OPop *)
    apply Nat.ltb_lt in Heqb.
    destruct (sr_obj _ _ _ _ H _ _ H0) as (a & Ha & HR). simpl in HR. apply post_ret_unit.
    assert (l ≠ []) as Hne by (intros ->; simpl in Heqb; lia).
    destruct (exists_last Hne) as (l0 & z & Hl). rewrite Hl in HR.
    destruct (pop_back_post triv i a (ow i) l0 z n h o rr m k Ha HR) as (s' & -> & Hres & _).
    split; [done|]. rewrite Hl, app_length. simpl. replace (length l0 + 1 - 1) with (length l0) by lia.
    rewrite take_app. by eapply srs_result.
  - (* OErase *)
    apply Nat.ltb_lt in Heqb.
    destruct (sr_obj _ _ _ _ H _ _ H0) as (a & Ha & HR). simpl in HR.
    unfold bind at 1. erewrite index_eq; [|exact Ha|exact HR|lia].
    destruct (lookup_lt_is_Some_2 l k0) as [w Hw]; [lia|].
    assert (Hl := take_drop_mid l k0 w Hw).
    destruct (ow i) as [b|] eqn:Ei; [|simpl in HR; destruct HR as (_ & -> & _); done].
    assert (HR2 := HR). rewrite Hl in HR2.
    pose proof (covered_good _ _ _ _ _ i (λ l c, S k0 = length l) Hcov (proj2 (get_good_Some _ _ _ _) H0) id) as Hg.
    destruct (erase_post triv i a b (take k0 l) w (drop (S k0) l) n h o rr m k Ha HR2) as (s' & He & Hres & _).
    { destruct Hg as [?|[_ ?]]; [auto|]. right. apply drop_ge. lia. }
    rewrite take_length, Nat.min_l in He by lia.
    unfold bind at 1. simpl pos_ptr. rewrite He.
    assert (Hres' := Hres). destruct Hres as (a' & Ho' & _ & _ & _ & HR').
    destruct s' as [h' o' r' m' k']. simpl in Ho', HR'.
    change (Ptr b k0) with (pos_ptr (Some b) k0).
    erewrite idx_of_eq; [|rewrite Ho'; apply list_lookup_insert; by eapply lookup_lt_Some|exact HR'|done].
    split; [done|]. by eapply srs_result.
  - (* OEraseRange *)
    apply andb_true_iff in Heqb as [Hk Hm]. apply Nat.leb_le in Hk, Hm.
    destruct (sr_obj _ _ _ _ H _ _ H0) as (a & Ha & HR). simpl in HR.
    unfold bind at 1. erewrite index_eq; [|exact Ha|exact HR|lia].
    unfold bind at 1. erewrite index_eq; [|exact Ha|exact HR|lia].
    destruct (ow i) as [b|] eqn:Ei.
    + assert (Hl : l = take k0 l ++ take (m0 - k0) (drop k0 l) ++ drop m0 l).
      { rewrite <-(take_drop k0 l) at 1. f_equal. rewrite <-(take_drop (m0 - k0) (drop k0 l)) at 1. f_equal.
        rewrite drop_drop. f_equal. lia. }
      assert (HR2 := HR). rewrite Hl in HR2.
      pose proof (covered_good _ _ _ _ _ i (λ l c, m0 = length l ∨ k0 = m0) Hcov (proj2 (get_good_Some _ _ _ _) H0) id) as Hg.
      destruct (erase_range_post triv i a b _ _ _ n h o rr m k Ha HR2) as (s' & He & Hres & _).
      { destruct Hg as [?|[_ [?| ->]]]; [auto| |].
        - right. left. apply drop_ge. lia.
        - right. right. by rewrite Nat.sub_diag. }
      rewrite !take_length, drop_length in He.
      rewrite (Nat.min_l k0), (Nat.min_l (m0 - k0)) in He by lia.
      replace (k0 + (m0 - k0)) with m0 in He by lia.
      unfold bind at 1. simpl pos_ptr. rewrite He.
      assert (Hres' := Hres). destruct Hres as (a' & Ho' & _ & _ & _ & HR').
      destruct s' as [h' o' r' m' k']. simpl in Ho', HR'.
      change (Ptr b k0) with (pos_ptr (Some b) k0).
      erewrite idx_of_eq; [|rewrite Ho'; apply list_lookup_insert; by eapply lookup_lt_Some|exact HR'|done].
      split; [done|]. by eapply srs_result.
    + assert (HR2 := HR). simpl in HR. destruct HR as (-> & -> & ->). simpl in Hm.
      assert (m0 = 0) as -> by lia. assert (k0 = 0) as -> by lia. simpl pos_ptr.
      unfold bind at 1. erewrite erase_range_null by done. rewrite list_insert_id by done.
      change Null with (pos_ptr None 0). erewrite idx_of_eq; [|exact Ha|exact HR2|done].
      split_and!; [done| |done|done]. simpl. rewrite upd_id by done. by eexists.
  - (* OGet *)
    destruct (sr_obj _ _ _ _ H _ _ H0) as (a & Ha & HR). simpl in HR.
    assert (k0 < length l) by (by eapply lookup_lt_Some).
    apply post_bind. unfold at_. unfold bind at 1. erewrite index_eq; [|exact Ha|exact HR|lia].
    destruct (ow i) as [b|] eqn:Ei; [|simpl in HR; destruct HR as (_ & -> & _); done].
    simpl in HR. destruct HR as (tl & -> & Hh & _). simpl pos_ptr.
    erewrite load_eq; [|exact Hh|]. 2:{ rewrite lookup_app_l by (by rewrite map_length). by rewrite list_lookup_fmap, H1. }
    split_and!; [done| |done|done]. by eexists.
  - (* OFront *)
    destruct (sr_obj _ _ _ _ H _ _ H0) as (a & Ha & HR). simpl in HR.
    apply post_bind. unfold front, begin_. unfold bind at 1 2. erewrite get_arr_eq by done. simpl.
    destruct l as [|v l]; [done|]. simpl in H1. injection H1 as <-.
    destruct (ow i) as [b|] eqn:Ei; [|simpl in HR; by destruct HR as (_ & ? & _)].
    simpl in HR. destruct HR as (tl & -> & Hh & _). simpl.
    erewrite load_eq; [|exact Hh|done].
    split_and!; [done| |done|done]. by eexists.
  - (* OBack *)
    destruct (sr_obj _ _ _ _ H _ _ H0) as (a & Ha & HR). simpl in HR.
    apply post_bind. unfold back, end_. unfold bind at 1 2. erewrite get_arr_eq by done. simpl.
    apply last_Some in H1 as [l' ->].
    destruct (ow i) as [b|] eqn:Ei; [|simpl in HR; destruct HR as (_ & E & _); by destruct l'].
    simpl in HR. destruct HR as (tl & -> & Hh & _). simpl.
    unfold bind at 1. erewrite psub_eq; [|exact Hh|rewrite app_length; simpl; lia].
    erewrite load_eq; [|exact Hh|].
    2:{ rewrite app_length. simpl. replace (length l' + 1 - 1) with (length (map (@Live V) l')) by (rewrite map_length; lia).
        rewrite map_app, <-app_assoc. simpl. by apply lookup_mid. }
    split_and!; [done| |done|done]. by eexists.
  - (* OSize *)
    destruct (sr_obj _ _ _ _ H _ _ H0) as (a & Ha & HR). simpl in HR.
    unfold bind. erewrite size_eq_rep by eauto. split_and!; [done| |done|done]. by eexists.
  - (* OEmpty *)
    destruct (sr_obj _ _ _ _ H _ _ H0) as (a & Ha & HR). simpl in HR.
    unfold empty, bind. erewrite size_eq_rep by eauto. split_and!; [done| |done|done]. by eexists.
  - (* OCapacity *)
    destruct (sr_obj _ _ _ _ H _ _ H0) as (a & Ha & HR).
    assert (∃ n, arr_shape h a (ow i) n (acap x)) as [n Hsh].
    { destruct x; simpl in *; [|by destruct HR]. eexists. by eapply rep_shape. }
    unfold bind. erewrite capacity_eq by eauto. split_and!; [done| |done|done]. by eexists.
  - (* OToList *)
    destruct (sr_obj _ _ _ _ H _ _ H0) as (a & Ha & HR). simpl in HR.
    apply post_bind. unfold to_list. unfold bind at 1. erewrite size_eq_rep by eauto.
    unfold bind at 1, begin_, bind at 1. erewrite get_arr_eq by done. simpl.
    destruct (ow i) as [b|] eqn:Ei; simpl in HR.
    + destruct HR as (tl & -> & Hh & _). simpl. change (Ptr b 0) with (Ptr b (length (@nil (cell V)))).
      erewrite read_loop_eq; [|exact Hh]. split_and!; [done| |done|done]. by eexists.
    + destruct HR as (-> & -> & _). simpl. split_and!; [done| |done|done]. by eexists.
Qed.

Lemma srs_init orc : srs (init orc) [].
Proof.
  exists (λ _, None). split; try done.
Qed.

Lemma prog_sim (p : prog V) : triv = true → ∀ s σ, srs s σ → valid p σ →
  ∃ rs s' σ', run_prog triv p s = Ok rs s' ∧ spec_run p σ rs σ' ∧ srs s' σ' ∧
    (oracle s = [] → Exn ∉ rs).
Proof.
  intros Ht. induction p as [|o kont IH]; intros s σ Hs Hv; simpl in *.
  - exists [], s, σ. split_and!; [done|constructor|done|]. intros _. apply not_elem_of_nil.
  - destruct Hv as [(σ1 & r & Hsp & Hv) Hthrow].
    assert (Hst := step_sim o s σ σ1 r Hs (or_introl Ht) Hsp).
    destruct (run_op triv o s) as [r' s'|s'|u] eqn:E; simpl in Hst; [| |done].
    + destruct Hst as (-> & Hs1 & Hor & _).
      destruct (IH (Ret r) s' σ1 Hs1 Hv) as (rs & s2 & σ2 & Hrun & Hspec & Hs2 & Hnx).
      exists (Ret r :: rs), s2, σ2. unfold bind. rewrite Hrun. split_and!; [done|by econstructor|done|].
      intros Hnil. rewrite Hnil in Hor. apply suffix_nil_inv in Hor.
      rewrite not_elem_of_cons. split; [done|]. by apply Hnx.
    + destruct Hst as (Hr & Hor & _ & σ' & Hth & Hs1).
      destruct (IH Exn s' σ' Hs1 (Hthrow σ' Hth)) as (rs & s2 & σ2 & Hrun & Hspec & Hs2 & Hnx).
      exists (Exn :: rs), s2, σ2. unfold bind. rewrite Hrun. split_and!; [done|by econstructor|done|done].
Qed.

Lemma ops_sim (os : list (op V)) : ∀ s σ rs σ', srs s σ → oracle s = [] →
  (triv = true ∨ all_gentle os σ) →
  spec_exec os σ = Some (rs, σ') →
  ∃ s', run_ops triv os s = Ok rs s' ∧ srs s' σ' ∧ oracle s' = [] ∧ leaked s' = leaked s.
Proof.
  induction os as [|o os IH]; intros s σ rs σ' Hs Hor Hg Hsp; simpl in *.
  - injection Hsp as <- <-. exists s. done.
  - destruct (spec_step o σ) as [[σ1 r]|] eqn:E1; [|done]. simpl in Hsp.
    destruct (spec_exec os σ1) as [[rs' σ2]|] eqn:E2; [|done]. simpl in Hsp. injection Hsp as <- <-.
    assert (Hcov : covered o σ s).
    { destruct Hg as [?|[? _]]; [by left|by right]. }
    assert (Hst := step_sim o s σ σ1 r Hs Hcov E1).
    unfold bind at 1. destruct (run_op triv o s) as [r' s'|s'|u] eqn:E; simpl in Hst; [| |done].
    + destruct Hst as (-> & Hs1 & Hor' & Hlk). rewrite Hor in Hor'. apply suffix_nil_inv in Hor'.
      destruct (IH s' σ1 rs' σ2 Hs1 Hor') as (s2 & Hrun & Hs2 & Hor2 & Hlk2); [|done|].
      { destruct Hg as [?|[_ ?]]; eauto. }
      exists s2. unfold bind. rewrite Hrun. split_and!; try done. by rewrite Hlk2.
    + destruct Hst as (Hr & _). by rewrite Hor in Hr.
Qed.

(** When no array is left no block of memory is left. *)
Lemma srs_no_leak s σ : srs s σ → (∀ i x, σ !! i ≠ Some (Some x)) →
  ∀ b cs, heap s !! b ≠ Some (Some cs).
Proof.
  intros [ow H] Hn b cs Hb. destruct (sr_all _ _ _ _ H b cs Hb) as [i Hi].
  destruct (sr_live _ _ _ _ _ _ H Hi) as (x & _ & Hx & _). by eapply Hn.
Qed.
End history.
