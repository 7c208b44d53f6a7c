(** Ownership of blocks and the simulation proofs for AllocModel. *)
From stdpp Require Import list.
From Verif Require Import Base Client AllocModel AllocSpec.
Local Open Scope mon_scope.

Section inv.
Context (tr : traits) {Ob : Type} (claims : Ob → list (nat * (aid * nat))).

(** [claims x]: the blocks [x] will return, each with the allocator and size it
    will name. *)
Definition oclaims (x : option Ob) := from_option claims [] x.
Definition owned (ob : list (option Ob)) := ob ≫= oclaims.
Definition okclaim (bl : list (option (aid * nat))) (c : nat * (aid * nat)) : Prop :=
  ∃ a, bl !! c.1 = Some (Some (a, c.2.2)) ∧ aeq tr c.2.1 a = true.
(** [L]: blocks nobody will return. *)
Definition Inv (L : list nat) (E : list (nat * (aid * nat))) (ob : list (option Ob)) (bl : list (option (aid * nat))) : Prop :=
  NoDup (L ++ (E ++ owned ob).*1) ∧
  Forall (okclaim bl) (E ++ owned ob) ∧
  ∀ b x, bl !! b = Some (Some x) → b ∈ L ++ (E ++ owned ob).*1.

Lemma aeq_refl a : aeq tr a a = true.
Proof. unfold aeq. rewrite bool_decide_eq_true_2; [|done]. by rewrite orb_true_r. Qed.
Lemma aeq_sym a b : aeq tr a b = true → aeq tr b a = true.
Proof. unfold aeq. destruct (always_equal tr); [done|]. simpl. rewrite !bool_decide_eq_true. done. Qed.
Lemma aeq_trans a b c : aeq tr a b = true → aeq tr b c = true → aeq tr a c = true.
Proof. unfold aeq. destruct (always_equal tr); [done|]. simpl. rewrite !bool_decide_eq_true. by intros -> ->. Qed.

Lemma Inv_perm L E ob E' ob' bl : E ++ owned ob ≡ₚ E' ++ owned ob' → Inv L E ob bl → Inv L E' ob' bl.
Proof.
  intros HP (Hn & Hf & Hl). split_and!.
  - by rewrite <- HP.
  - by rewrite <- HP.
  - intros b x. intros Hb. apply Hl in Hb. by rewrite <- HP.
Qed.
Lemma owned_app ob x : owned (ob ++ [x]) = owned ob ++ oclaims x.
Proof. unfold owned. rewrite bind_app. f_equal. simpl. by rewrite app_nil_r. Qed.
Lemma owned_insert ob i x y : ob !! i = Some x → owned (<[i := y]> ob) ++ oclaims x ≡ₚ owned ob ++ oclaims y.
Proof.
  intros Hi. assert (i < length ob) by by eapply lookup_lt_Some.
  rewrite insert_take_drop by done. rewrite <- (take_drop_middle ob i x) at 3 by done.
  unfold owned. rewrite !bind_app. simpl.
  rewrite <- !app_assoc. f_equiv. rewrite (app_assoc (oclaims y)), Permutation_app_comm.
  f_equiv. by rewrite Permutation_app_comm.
Qed.
Lemma Inv_put L E E' ob i x y bl :
  ob !! i = Some x → oclaims x ++ E ≡ₚ oclaims y ++ E' → Inv L E ob bl → Inv L E' (<[i := y]> ob) bl.
Proof.
  intros Hi HP. apply Inv_perm. assert (H := owned_insert ob i x y Hi).
  apply (Permutation_app_inv_r (oclaims x)). rewrite <- !app_assoc, H.
  rewrite (Permutation_app_comm E), <- app_assoc, HP.
  rewrite (Permutation_app_comm (oclaims y)). rewrite !app_assoc. f_equiv. apply Permutation_app_comm.
Qed.
Lemma Inv_swap_alloc L b a a' n E ob bl : aeq tr a a' = true → Inv L ((b, (a, n)) :: E) ob bl → Inv L ((b, (a', n)) :: E) ob bl.
Proof.
  intros Ha (Hn & Hf & Hl). split_and!; [done| |done].
  simpl in *. inversion Hf as [|c l Hc Hf']; subst. constructor; [|done].
  destruct Hc as (a0 & H1 & H2). exists a0. split; [done|]. simpl in *.
  apply aeq_sym in Ha. by eapply aeq_trans.
Qed.
Lemma Inv_leak L b x E ob bl : Inv L ((b, x) :: E) ob bl → Inv (b :: L) E ob bl.
Proof.
  intros (Hn & Hf & Hl). simpl in *.
  assert (HP : L ++ b :: (E ++ owned ob).*1 ≡ₚ b :: L ++ (E ++ owned ob).*1) by (symmetry; apply Permutation_middle).
  split_and!.
  - simpl. by rewrite <- HP.
  - by inversion Hf.
  - intros b' x'. intros Hb. apply Hl in Hb. simpl. by rewrite <- HP.
Qed.
Lemma Inv_alloc L a n E ob bl : Inv L E ob bl → (∀ b, b ∈ L → b < length bl) →
  Inv L ((length bl, (a, n)) :: E) ob (bl ++ [Some (a, n)]).
Proof.
  intros (Hn & Hf & Hl) HL.
  assert (Hlt : ∀ c, c ∈ E ++ owned ob → c.1 < length bl).
  { intros c Hc. rewrite Forall_forall in Hf. destruct (Hf c Hc) as (a0 & H1 & _). by eapply lookup_lt_Some. }
  assert (HP : L ++ length bl :: (E ++ owned ob).*1 ≡ₚ length bl :: L ++ (E ++ owned ob).*1) by (symmetry; apply Permutation_middle).
  split_and!.
  - simpl. rewrite HP. constructor; [|done]. rewrite elem_of_app. intros [Hx|Hx].
    + apply HL in Hx. lia.
    + apply elem_of_list_fmap in Hx as (c & Hc & Hin). apply Hlt in Hin. lia.
  - simpl. constructor.
    + exists a. simpl. rewrite lookup_app_r, Nat.sub_diag by lia. split; [done|apply aeq_refl].
    + rewrite Forall_forall in *. intros c Hc. destruct (Hf c Hc) as (a0 & H1 & H2). exists a0. split; [|done].
      by apply lookup_app_l_Some.
  - intros b x. intros Hb. simpl. rewrite HP.
    apply lookup_app_Some in Hb as [Hb|[Hge Hb]].
    + apply Hl in Hb. by right.
    + apply list_lookup_singleton_Some in Hb as [Hb _]. replace b with (length bl) by lia. left.
Qed.
Lemma Inv_dealloc L b a n E ob bl : Inv L ((b, (a, n)) :: E) ob bl →
  (∃ a', bl !! b = Some (Some (a', n)) ∧ aeq tr a a' = true) ∧ Inv L E ob (<[b := None]> bl).
Proof.
  intros (Hn & Hf & Hl). simpl in *. inversion Hf as [|c l Hc Hf']; subst.
  assert (HP : L ++ b :: (E ++ owned ob).*1 ≡ₚ b :: L ++ (E ++ owned ob).*1) by (symmetry; apply Permutation_middle).
  rewrite HP in Hn. apply NoDup_cons in Hn as [Hni Hn].
  split; [exact Hc|]. split_and!.
  - done.
  - rewrite Forall_forall in *. intros c Hin. destruct (Hf' c Hin) as (a0 & H1 & H2). exists a0. split; [|done].
    rewrite list_lookup_insert_ne; [done|]. intros ->. apply Hni. rewrite elem_of_app. right. by apply elem_of_list_fmap_1.
  - intros b' x. intros Hb.
    destruct (decide (b' = b)) as [->|Hne].
    + rewrite list_lookup_insert in Hb; [done|]. rewrite <- (insert_length bl b None). by eapply lookup_lt_Some.
    + rewrite list_lookup_insert_ne in Hb by done. apply Hl in Hb. rewrite HP in Hb.
      apply elem_of_cons in Hb as [?|?]; done.
Qed.

(** All that is known of a state between two calls of the primitives. *)
Definition At (L : list nat) (E : list (nat * (aid * nat))) (ob : list (option Ob)) (na : nat) (c : Prop) (s : st Ob) : Prop :=
  Inv L E ob (blocks s) ∧ (∀ b, b ∈ L → b < length (blocks s)) ∧ objs s = ob ∧ next_a s = na ∧ (c → oracle s = []).

Lemma tick_at L E ob na c s : At L E ob na c s →
  post (tick s) (λ _ s', At L E ob na c s') (λ s', ¬ c ∧ At L E ob na c s').
Proof.
  intros (H1 & H2 & H3 & H4 & H5). unfold tick. destruct (oracle s) as [|[] o] eqn:Ho; simpl.
  - by split_and!; auto.
  - split; [by intros Hc; specialize (H5 Hc)|]. split_and!; try done. intros Hc. specialize (H5 Hc). done.
  - split_and!; try done. intros Hc. specialize (H5 Hc). done.
Qed.
Lemma ticks_at n : ∀ L E ob na c s, At L E ob na c s →
  post (ticks n s) (λ _ s', At L E ob na c s') (λ s', (¬ c ∧ At L E ob na c s') ∧ n ≠ 0).
Proof.
  induction n as [|n IH]; intros L E ob na c s HA; [done|]. simpl. apply post_bind.
  eapply post_conseq; [by apply tick_at| |].
  - intros u s' HA'. simpl in HA'. eapply post_conseq; [by apply IH|done|]. intros s'' [? ?]. by split.
  - intros s' [? ?]. by split.
Qed.
Lemma default_at L E ob na c s : At L E ob na c s →
  default_alloc tr s = Ok (if dflt_same tr then Dflt 0 else Dflt na) (if dflt_same tr then s else set_next (S na) s) ∧
  At L E ob (if dflt_same tr then na else S na) c (if dflt_same tr then s else set_next (S na) s).
Proof.
  intros (H1 & H2 & H3 & <- & H5). unfold default_alloc. destruct (dflt_same tr); by split_and!.
Qed.
Lemma allocate_at a n L E ob na c s : At L E ob na c s →
  post (allocate a n s) (λ b s', At L ((b, (a, n)) :: E) ob na c s') (λ s', ¬ c ∧ At L E ob na c s').
Proof.
  intros HA. unfold allocate. apply post_bind. eapply post_conseq; [by apply tick_at| |done].
  intros _ s' (H1 & H2 & H3 & H4 & H5). simpl. split_and!; try done.
  - by apply Inv_alloc.
  - intros b Hb. cbn. rewrite app_length. simpl. specialize (H2 b Hb). lia.
Qed.
Lemma deallocate_at a b n L E ob na c s : At L ((b, (a, n)) :: E) ob na c s →
  post (deallocate tr a b n s) (λ _ s', At L E ob na c s') (λ s', False).
Proof.
  intros (H1 & H2 & H3 & H4 & H5). apply Inv_dealloc in H1 as [(a' & Hb & Ha) H1].
  unfold deallocate. rewrite Hb, Ha, Nat.eqb_refl. simpl. split_and!; try done.
  intros b' Hb'. cbn. rewrite insert_length. by apply H2.
Qed.
Lemma get_at i x L E ob na c s : ob !! i = Some (Some x) → At L E ob na c s → get_obj i s = Ok x s.
Proof. intros Hi (H1 & H2 & H3 & H4 & H5). unfold get_obj. by rewrite H3, Hi. Qed.
Lemma put_at i x y L E E' ob na c s : ob !! i = Some (Some x) → claims x ++ E ≡ₚ claims y ++ E' → At L E ob na c s →
  ∃ s', put_obj i y s = Ok tt s' ∧ At L E' (<[i := Some y]> ob) na c s'.
Proof.
  intros Hi HP (H1 & H2 & H3 & H4 & H5). eexists. split; [done|]. split_and!; try done.
  - by eapply Inv_put.
  - simpl. by rewrite H3.
Qed.
Lemma drop_at i x L E E' ob na c s : ob !! i = Some (Some x) → claims x ++ E ≡ₚ E' → At L E ob na c s →
  ∃ s', drop_obj i s = Ok tt s' ∧ At L E' (<[i := None]> ob) na c s'.
Proof.
  intros Hi HP (H1 & H2 & H3 & H4 & H5). eexists. split; [done|]. split_and!; try done.
  - by eapply Inv_put.
  - simpl. by rewrite H3.
Qed.
Lemma new_at x L E ob na c s : At L (claims x ++ E) ob na c s →
  ∃ s', new_obj x s = Ok (length ob) s' ∧ At L E (ob ++ [Some x]) na c s'.
Proof.
  intros (H1 & H2 & H3 & H4 & H5). unfold new_obj, gets, bind, modify. simpl. rewrite H3. eexists. split; [done|].
  split_and!; try done. simpl. eapply Inv_perm; [|done]. rewrite owned_app. simpl.
  rewrite <- app_assoc, Permutation_app_comm, <- app_assoc. done.
Qed.
Lemma At_perm L E E' ob na c s : E ≡ₚ E' → At L E ob na c s → At L E' ob na c s.
Proof. intros HP (H1 & H2 & H3 & H4 & H5). split_and!; try done. eapply Inv_perm; [|done]. by rewrite HP. Qed.

(** Returning blocks does not look at the objects, so it may be seen as
    happening after the update of the object that held them. *)
Definition mapst {A} (f : st Ob → st Ob) (r : res (st Ob) A) : res (st Ob) A :=
  match r with Ok a s => Ok a (f s) | Throw s => Throw (f s) | UB u => UB u end.
Definition blind {A} (m : M (st Ob) A) : Prop := ∀ o s, m (set_objs o s) = mapst (set_objs o) (m s).
Lemma set_objs_id (s : st Ob) : set_objs (objs s) s = s.
Proof. by destruct s. Qed.
Lemma blind_deallocate a b n : blind (deallocate tr a b n).
Proof.
  intros o s. unfold deallocate. simpl. destruct (blocks s !! b) as [[[a' n']|]|]; try done.
  by destruct (aeq tr a a' && Nat.eqb n n').
Qed.
Lemma blind_ret {A} (x : A) : blind (ret x).
Proof. done. Qed.
Lemma blind_bind {A B} (m : M (st Ob) A) (k : A → M (st Ob) B) : blind m → (∀ x, blind (k x)) → blind (bind m k).
Proof. intros Hm Hk o s. unfold bind. rewrite Hm. destruct (m s); simpl; [apply Hk|done..]. Qed.
Lemma blind_put_at (m : M (st Ob) unit) i x y E0 L E E' ob na c s : blind m →
  ob !! i = Some x → oclaims x ++ E ≡ₚ E0 ++ oclaims y ++ E' →
  (∀ s', At L (E0 ++ E') (<[i := y]> ob) na c s' → post (m s') (λ _ s'', At L E' (<[i := y]> ob) na c s'') (λ _, False)) →
  At L E ob na c s →
  post (bind m (λ _, modify (λ s, set_objs (<[i := y]> (objs s)) s)) s) (λ _ s', At L E' (<[i := y]> ob) na c s') (λ _, False).
Proof.
  intros Hm Hi HP Hpost (H1 & H2 & H3 & H4 & H5).
  assert (HA : At L (E0 ++ E') (<[i := y]> ob) na c (set_objs (<[i := y]> ob) s)).
  { split_and!; try done. eapply Inv_put; [done| |done]. rewrite HP, !app_assoc. f_equiv. apply Permutation_app_comm. }
  apply Hpost in HA. assert (Hid := Hm (objs s) s). rewrite set_objs_id in Hid.
  rewrite Hm in HA. unfold bind.
  destruct (m s) as [[] s'|s'|]; simpl in *; [|done..].
  injection Hid as Hid. assert (objs s' = ob) as ->. { rewrite Hid. done. } done.
Qed.
Lemma dealloc_put_at b a n i x y L E E' ob na c s :
  ob !! i = Some x → oclaims x ++ E ≡ₚ (b, (a, n)) :: oclaims y ++ E' → At L E ob na c s →
  post (bind (deallocate tr a b n) (λ _, modify (λ s, set_objs (<[i := y]> (objs s)) s)) s) (λ _ s', At L E' (<[i := y]> ob) na c s') (λ _, False).
Proof.
  intros Hi HP. apply (blind_put_at _ _ x y [(b, (a, n))]); [apply blind_deallocate|done|done|].
  intros s'. apply deallocate_at.
Qed.
End inv.
