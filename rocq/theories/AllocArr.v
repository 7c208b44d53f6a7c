(** Simulation of AllocModel's arrays by their specification. *)
From stdpp Require Import list.
From Verif Require Import Base Client AllocModel AllocSpec AllocProofs.
Local Open Scope mon_scope.

Section arr.
Context (tr : traits).

Definition aclaims (x : arr) : list (nat * (aid * nat)) :=
  match blk x with Some b => [(b, (al x, cap x))] | None => [] end.
(** Size within capacity, and no capacity without a block. *)
Definition wf (x : arr) : Prop := len x ≤ cap x ∧ (blk x = None → cap x = 0).
Definition orel (x : option arr) (y : option aspec) : Prop :=
  match x, y with
  | Some x, Some y => al x = sal y ∧ len x = slen y ∧ cap x = scap y ∧ wf x
  | None, None => True
  | _, _ => False
  end.
Notation AtA := (At tr aclaims []).
Definition R (s : st arr) (σ : ast) : Prop :=
  AtA [] (objs s) (nal σ) False s ∧ Forall2 orel (objs s) (arrs σ).
Definition calm (s : st arr) : Prop := oracle s = [].

Lemma R_intro ob s σ c : AtA [] ob (nal σ) c s → Forall2 orel ob (arrs σ) → R s σ.
Proof. intros (H1 & H2 & H3 & H4 & H5) HF. rewrite <- H3 in *. by split. Qed.

(** ** The member functions *)
Section fns.
Context (E : list (nat * (aid * nat))) (ob : list (option arr)) (na : nat) (c : Prop).

Lemma ctor_cap_at n a s : AtA E ob na c s →
  post (ctor_cap n a s)
    (λ x s', ∃ b, x = mkArr a (Some b) 0 n ∧ AtA ((b, (a, n)) :: E) ob na c s')
    (λ s', ¬ c ∧ AtA E ob na c s').
Proof.
  intros HA. unfold ctor_cap. apply post_bind. eapply post_conseq; [by apply allocate_at| |done].
  intros b s' HA'. exists b. done.
Qed.
Lemma dtor_at x s : AtA (aclaims x ++ E) ob na c s →
  post (dtor tr x s) (λ _ s', AtA E ob na c s') (λ s', False).
Proof.
  intros HA. unfold dtor. unfold aclaims in HA. destruct (blk x); [|done]. by apply deallocate_at.
Qed.
Lemma ctor_elems_at n a s : AtA E ob na c s →
  post (ctor_elems tr n a s)
    (λ x s', ∃ b, x = mkArr a (Some b) n n ∧ AtA ((b, (a, n)) :: E) ob na c s')
    (λ s', ¬ c ∧ AtA E ob na c s').
Proof.
  intros HA. unfold ctor_elems. apply post_bind. eapply post_conseq; [by apply ctor_cap_at| |done].
  intros x s' (b & -> & HA'). simpl. apply post_bind, post_on_throw.
  eapply post_conseq; [by apply ticks_at| |].
  - intros u s'' HA''. exists b. done.
  - intros s'' [[Hc HA''] _]. eapply post_conseq; [by apply dtor_at| |done]. intros u s3 H3. by split.
Qed.
End fns.

Section mem.
Context (i : nat) (x : arr) (ob : list (option arr)) (na : nat) (c : Prop) (s : st arr).
Context (Hi : ob !! i = Some (Some x)) (HA : AtA [] ob na c s).

Lemma grow_at n :
  post (grow_storage tr i n s)
    (λ _ s', ∃ b, AtA [] (<[i := Some (mkArr (al x) (Some b) (len x) n)]> ob) na c s')
    (λ s', ¬ c ∧ AtA [] ob na c s').
Proof.
  unfold grow_storage. unfold bind at 1. rewrite (get_at _ _ _ _ _ _ _ _ _ _ Hi HA).
  apply post_bind. eapply post_conseq; [by apply allocate_at| |done].
  intros b s' HA'. simpl in HA'.
  eapply (post_conseq _ (λ _ s', AtA [] (<[i := Some (mkArr (al x) (Some b) (len x) n)]> ob) na c s') _ (λ _, False)); [|by eauto|done].
  destruct (blk x) as [b0|] eqn:Hb.
  - eapply dealloc_put_at; [done| |done]. simpl. unfold aclaims. rewrite Hb. done.
  - eapply post_eq; [reflexivity|]. edestruct put_at as (s2 & E2 & HA2); [exact Hi| |exact HA'|].
    2: { unfold bind, ret. rewrite E2. simpl. exact HA2. }
    unfold aclaims. rewrite Hb. done.
Qed.
Lemma shrink_at n : wf x → n < cap x →
  post (shrink_storage tr i n s)
    (λ _ s', ∃ b, AtA [] (<[i := Some (mkArr (al x) (Some b) (Nat.min (len x) n) n)]> ob) na c s')
    (λ s', ¬ c ∧ AtA [] ob na c s').
Proof.
  intros Hwf Hn. unfold shrink_storage. unfold bind at 1. rewrite (get_at _ _ _ _ _ _ _ _ _ _ Hi HA).
  apply post_bind. eapply post_conseq; [by apply allocate_at| |done].
  intros b s' HA'. simpl in HA'.
  eapply (post_conseq _ (λ _ s', AtA [] (<[i := Some (mkArr (al x) (Some b) (Nat.min (len x) n) n)]> ob) na c s') _ (λ _, False)); [|by eauto|done].
  destruct (blk x) as [b0|] eqn:Hb.
  - eapply dealloc_put_at; [done| |done]. simpl. unfold aclaims. rewrite Hb. done.
  - destruct Hwf as [_ Hw]. specialize (Hw Hb). lia.
Qed.
Lemma set_len_at n : ∃ s', set_len i n s = Ok tt s' ∧ AtA [] (<[i := Some (mkArr (al x) (blk x) n (cap x))]> ob) na c s'.
Proof.
  unfold set_len. unfold bind. rewrite (get_at _ _ _ _ _ _ _ _ _ _ Hi HA).
  eapply put_at; [exact Hi|done|exact HA].
Qed.
Lemma realloc_insert_at : wf x → 0 < len x →
  post (realloc_insert tr i s)
    (λ _ s', ∃ b, AtA [] (<[i := Some (mkArr (al x) (Some b) (S (len x)) (len x + Nat.max (len x) 1))]> ob) na c s')
    (λ s', ¬ c ∧ AtA [] ob na c s').
Proof.
  intros Hwf Hn. unfold realloc_insert. unfold bind at 1. rewrite (get_at _ _ _ _ _ _ _ _ _ _ Hi HA).
  apply post_bind. eapply post_conseq; [by apply allocate_at| |done].
  intros b s' HA'. cbn beta in HA'. apply post_bind, post_on_throw.
  eapply post_conseq; [by apply tick_at| |].
  - intros u s2 HA2.
    eapply (post_conseq _ (λ _ s', AtA [] (<[i := Some (mkArr (al x) (Some b) (S (len x)) (len x + Nat.max (len x) 1))]> ob) na c s') _ (λ _, False)); [|by eauto|done].
    destruct (blk x) as [b0|] eqn:Hb.
    + eapply dealloc_put_at; [exact Hi| |exact HA2]. simpl. unfold aclaims. rewrite Hb. done.
    + destruct Hwf as [Hl Hw]. specialize (Hw Hb). lia.
  - intros s2 [Hc HA2]. eapply post_conseq; [by apply deallocate_at| |done]. intros u s3 H3. by split.
Qed.
End mem.

Lemma put_len_wf x n : n ≤ cap x → wf x → wf (mkArr (al x) (blk x) n (cap x)).
Proof. intros Hn [H1 H2]. split; simpl; auto. Qed.
Lemma wf_some a b n m : n ≤ m → wf (mkArr a (Some b) n m).
Proof. by split. Qed.

Lemma emplace_back_at i x ob na c s : ob !! i = Some (Some x) → AtA [] ob na c s → wf x →
  post (emplace_back tr i s)
    (λ _ s', ∃ b, wf (mkArr (al x) b (S (len x)) (grown (len x) (cap x))) ∧
       AtA [] (<[i := Some (mkArr (al x) b (S (len x)) (grown (len x) (cap x)))]> ob) na c s')
    (λ s', ¬ c ∧ (AtA [] ob na c s' ∨ ∃ b, wf (mkArr (al x) b (len x) (grown (len x) (cap x))) ∧
       AtA [] (<[i := Some (mkArr (al x) b (len x) (grown (len x) (cap x)))]> ob) na c s')).
Proof.
  intros Hi HA Hwf. unfold emplace_back. unfold bind at 1. rewrite (get_at _ _ _ _ _ _ _ _ _ _ Hi HA).
  apply post_bind.
  eapply (post_conseq _ (λ _ s', ∃ b, wf (mkArr (al x) b (len x) (grown (len x) (cap x))) ∧ len x < grown (len x) (cap x) ∧
       AtA [] (<[i := Some (mkArr (al x) b (len x) (grown (len x) (cap x)))]> ob) na c s') _ (λ s', ¬ c ∧ AtA [] ob na c s')).
  - unfold grown. destruct (Nat.eqb_spec (len x) (cap x)) as [He|He].
    + eapply post_conseq; [by eapply grow_at| |done]. intros u s' [b HA']. exists (Some b).
      split_and!; [apply wf_some; lia|lia|done].
    + simpl. exists (blk x). destruct x as [a b n m]; simpl in *. destruct Hwf as [H1 H2]; simpl in *.
      split_and!; [done|lia|]. by rewrite list_insert_id.
  - intros u s' (b & Hw & Hlt & HA'). cbn beta. apply post_bind. eapply post_conseq; [by apply tick_at| |].
    + intros u' s'' HA''. set (x' := mkArr (al x) b (len x) (grown (len x) (cap x))) in *.
      assert (Hi' : <[i := Some x']> ob !! i = Some (Some x')). { apply list_lookup_insert. by eapply lookup_lt_Some. }
      destruct (set_len_at i x' _ na c s'' Hi' HA'' (S (len x))) as (s3 & E3 & HA3). rewrite E3. simpl.
      exists b. split; [split; [simpl; lia|apply Hw]|]. by rewrite list_insert_insert in HA3.
    + intros s'' [Hc HA'']. split; [done|]. right. by exists b.
  - intros s' [Hc HA']. split; [done|]. by left.
Qed.

Lemma push_loop_at n : ∀ i x ob na c s, ob !! i = Some (Some x) → AtA [] ob na c s →
  post (push_loop i n s)
    (λ _ s', AtA [] (<[i := Some (mkArr (al x) (blk x) (len x + n) (cap x))]> ob) na c s')
    (λ s', ¬ c ∧ ∃ k, k < n ∧ AtA [] (<[i := Some (mkArr (al x) (blk x) (len x + k) (cap x))]> ob) na c s').
Proof.
  induction n as [|n IH]; intros i x ob na c s Hi HA; simpl.
  - destruct x as [a b l m]; simpl in *. rewrite Nat.add_0_r, list_insert_id; done.
  - apply post_bind. eapply post_conseq; [by apply tick_at| |].
    + intros u s1 HA1. cbn beta in *. unfold bind at 1. rewrite (get_at _ _ _ _ _ _ _ _ _ _ Hi HA1).
      destruct (set_len_at i x ob na c s1 Hi HA1 (S (len x))) as (s2 & E2 & HA2). unfold bind. rewrite E2.
      eapply post_conseq; [eapply IH; [|exact HA2]| |].
      { apply list_lookup_insert. by eapply lookup_lt_Some. }
      * intros u' s3. simpl. rewrite list_insert_insert. by replace (S (len x + n)) with (len x + S n) by lia.
      * intros s3 [Hc (k & Hk & HA3)]. split; [done|]. exists (S k). split; [lia|].
        rewrite list_insert_insert in HA3. simpl in HA3. by replace (len x + S k) with (S (len x + k)) by lia.
    + intros s1 [Hc HA1]. split; [done|]. exists 0. split; [lia|].
      destruct x as [a b l m]; simpl in *. rewrite Nat.add_0_r, list_insert_id; done.
Qed.

(** ** The simulation *)
Lemma get_inv ob σ i y : Forall2 orel ob (arrs σ) → get σ i = Some y →
  ∃ x, ob !! i = Some (Some x) ∧ y = mkA (al x) (len x) (cap x) ∧ wf x.
Proof.
  intros HF. unfold get. destruct (arrs σ !! i) as [[y'|]|] eqn:Hi; try done. intros [= ->].
  destruct (Forall2_lookup_r _ _ _ _ _ HF Hi) as ([x|] & Hx & Hr); [|done].
  destruct Hr as (H1 & H2 & H3 & H4). exists x. split_and!; try done. by rewrite H1, H2, H3; destruct y.
Qed.
Lemma rel_upd ob l i x y : Forall2 orel ob l → wf x → y = mkA (al x) (len x) (cap x) →
  Forall2 orel (<[i := Some x]> ob) (<[i := Some y]> l).
Proof. intros HF Hw ->. simpl. apply Forall2_insert; [done|]. by split_and!. Qed.
Lemma rel_add ob l x y : Forall2 orel ob l → wf x → y = mkA (al x) (len x) (cap x) →
  Forall2 orel (ob ++ [Some x]) (l ++ [Some y]).
Proof. intros HF Hw ->. simpl. apply Forall2_app; [done|]. constructor; [|done]. by split_and!. Qed.
Lemma rel_bump ob σ : Forall2 orel ob (arrs σ) → Forall2 orel ob (arrs (bump tr σ)).
Proof. unfold bump. by destruct (dflt_same tr). Qed.

Definition goal (c : Prop) (o : op) (σ σ1 : ast) (r : out) : out → st arr → Prop :=
  λ r' s', r' = r ∧ R s' σ1 ∧ (c → calm s').
Lemma goal_ok c o σ σ1 r ob s : AtA [] ob (nal σ1) c s → Forall2 orel ob (arrs σ1) → goal c o σ σ1 r r s.
Proof. intros HA HF. split_and!; [done|by eapply R_intro|]. apply HA. Qed.
Lemma exn_ok c o σ σ1 ob s : spec_throw tr o σ σ1 → ¬ c → AtA [] ob (nal σ1) c s → Forall2 orel ob (arrs σ1) →
  ¬ c ∧ ∃ σ', spec_throw tr o σ σ' ∧ R s σ'.
Proof. intros Ho Hc HA HF. split; [done|]. exists σ1. split; [done|]. by eapply R_intro. Qed.

Lemma arg_at a E ob na c s σ : AtA E ob na c s → na = nal σ →
  ∃ s', arg_alloc tr a s = Ok (chosen tr a σ) s' ∧ AtA E ob (nal (choose tr a σ)) c s'.
Proof.
  intros HA ->. destruct a as [n|]; simpl; [by exists s|].
  destruct (default_at _ _ _ _ _ _ _ _ HA) as [E1 HA1]. eexists. unfold dflt, bump. rewrite E1.
  split; [done|]. by destruct (dflt_same tr).
Qed.
Lemma dflt_at E ob na c s σ : AtA E ob na c s → na = nal σ →
  ∃ s', default_alloc tr s = Ok (dflt tr σ) s' ∧ AtA E ob (nal (bump tr σ)) c s'.
Proof. apply (arg_at None). Qed.
Lemma choose_arrs a σ : arrs (choose tr a σ) = arrs σ.
Proof. destruct a; simpl; [done|]. unfold bump. by destruct (dflt_same tr). Qed.
Lemma bump_arrs σ : arrs (bump tr σ) = arrs σ.
Proof. unfold bump. by destruct (dflt_same tr). Qed.

(** The end of the assignment operators: the temporary [t] takes the block of
    the target and is destroyed. *)
Lemma swap_claims t x : can_swap tr = true → ∀ E ob na c s,
  AtA (aclaims t ++ aclaims x ++ E) ob na c s →
  AtA (aclaims (fst (swap tr t x)) ++ aclaims (snd (swap tr t x)) ++ E) ob na c s.
Proof.
  unfold can_swap, swap. intros Hs E ob na c s HA. destruct (pocs tr); simpl in *.
  { eapply At_perm; [|exact HA]. rewrite !app_assoc. f_equiv. apply Permutation_app_comm. }
  destruct HA as (H1 & H2). split; [|done]. clear H2.
  assert (Hq : ∀ a b, aeq tr a b = true). { intros a b. unfold aeq. by rewrite Hs. }
  assert (Hc : ∀ a b n m, aclaims (mkArr a b n m) = match b with Some b => [(b, (a, m))] | None => [] end) by done.
  destruct t as [at_ bt nt mt], x as [ax bx nx mx]. rewrite !Hc in *. simpl in *.
  destruct bt as [b1|], bx as [b2|]; simpl in *; try done.
  - apply (Inv_swap_alloc _ _ _ _ ax); [done|].
    eapply (Inv_perm _ _ _ ((b1, (ax, mt)) :: (b2, (ax, mx)) :: E) ob); [by apply perm_swap|].
    by apply (Inv_swap_alloc _ _ _ _ at_).
  - by apply (Inv_swap_alloc _ _ _ _ at_).
  - by apply (Inv_swap_alloc _ _ _ _ ax).
Qed.
Lemma swap_view t x : snd (swap tr t x) = mkArr (taken tr (al x) (al t)) (blk t) (len t) (cap t) ∧
  fst (swap tr t x) = mkArr (taken tr (al t) (al x)) (blk x) (len x) (cap x).
Proof. unfold swap, taken. destruct (pocs tr), t, x; done. Qed.

Lemma finish_at i x t ob na c s : can_swap tr = true → ob !! i = Some (Some x) → AtA (aclaims t) ob na c s →
  post (bind (put_obj i (snd (swap tr t x))) (λ _, dtor tr (fst (swap tr t x))) s)
    (λ _ s', AtA [] (<[i := Some (snd (swap tr t x))]> ob) na c s') (λ _, False).
Proof.
  intros Hs Hi HA.
  (* the blocks of [x] leave the object, are exchanged, and those of [t] enter *)
  set (x0 := mkArr (al x) None 0 0).
  assert (HA1 : AtA (aclaims t ++ aclaims x ++ []) (<[i := Some x0]> ob) na c (set_objs (<[i := Some x0]> ob) s)).
  { destruct HA as (H1 & H2 & H3 & H4 & H5). split_and!; try done.
    eapply Inv_put; [exact Hi| |exact H1]. simpl. rewrite app_nil_r. apply Permutation_app_comm. }
  apply swap_claims in HA1; [|done]. rewrite app_nil_r in HA1.
  destruct (put_at tr aclaims i x0 (snd (swap tr t x)) [] _ (aclaims (fst (swap tr t x))) _ na c _ 
     ltac:(apply list_lookup_insert; by eapply lookup_lt_Some) ltac:(simpl; apply Permutation_app_comm) HA1) as (s2 & E2 & HA2).
  assert (E3 : put_obj i (snd (swap tr t x)) s = Ok tt s2).
  { unfold put_obj, modify in *. destruct HA as (_ & _ & H3 & _). rewrite <- E2. f_equal.
    unfold set_objs. simpl. rewrite H3, list_insert_insert. done. }
  unfold bind. rewrite E3. rewrite list_insert_insert in HA2.
  rewrite <- (app_nil_r (aclaims _)) in HA2. by apply dtor_at.
Qed.

Ltac getat H := unfold bind at 1; rewrite (get_at _ _ _ _ _ _ _ _ _ _ H ltac:(eassumption)).
Ltac okay := eapply goal_ok; [try eassumption|].

Lemma ins_lookup (ob : list (option arr)) i x y : ob !! i = Some x → <[i := y]> ob !! i = Some y.
Proof. intros H. apply list_lookup_insert. by eapply lookup_lt_Some. Qed.

Lemma ins4 (ob : list (option arr)) i j a b d e : i ≠ j →
  <[j := a]> (<[i := b]> (<[j := d]> (<[i := e]> ob))) = <[j := a]> (<[i := b]> ob).
Proof.
  intros Hne. rewrite (list_insert_commute (<[i := e]> ob) i j) by done. by rewrite !list_insert_insert.
Qed.
Lemma sim_all : simulates (spec_step tr) (spec_throw tr) (run_op tr) R calm.
Proof.
  intros o s σ σ1 r HR Hst.
  assert (HA : AtA [] (objs s) (nal σ) (calm s) s) by (destruct HR as [(?&?&?&?&?) _]; by split_and!).
  destruct HR as [_ HF]. change (post (run_op tr o s) (goal (calm s) o σ σ1 r) (λ s', ¬ calm s ∧ ∃ σ', spec_throw tr o σ σ' ∧ R s' σ')).
  assert (Hlen := Forall2_length _ _ _ HF).
  generalize dependent (calm s). intros c HA. generalize dependent (objs s). intros ob HF Hlen HA.
  destruct o as [|n|n a|n a|j|j|i|i j|i j|i n|i j|i|i n|i n|i k|i k n|i|i n|i|i k m]; simpl in Hst; cbn [run_op].
  - (* ADefault *) injection Hst as <- <-. destruct (dflt_at _ _ _ _ _ σ HA eq_refl) as (s1 & E1 & HA1).
    unfold bind at 1. rewrite E1. destruct (new_at tr aclaims (ctor_default (dflt tr σ)) _ _ _ _ _ _ HA1) as (s2 & E2 & HA2).
    unfold bind at 1. rewrite E2. simpl. rewrite bump_arrs, <- Hlen. eapply goal_ok; [exact HA2|].
    apply rel_add; [done| |done]. by split.
  - (* AWith *) injection Hst as <- <-. destruct (new_at tr aclaims (ctor_default (Given n)) _ _ _ _ _ _ HA) as (s2 & E2 & HA2).
    unfold bind at 1. rewrite E2. simpl. rewrite <- Hlen. eapply goal_ok; [exact HA2|].
    apply rel_add; [done| |done]. by split.
  - (* ACap *) injection Hst as <- <-. destruct (arg_at a _ _ _ _ _ σ HA eq_refl) as (s1 & E1 & HA1).
    unfold bind at 1. rewrite E1. apply post_bind. eapply post_conseq; [by apply ctor_cap_at| |].
    + intros t s2 (b & -> & HA2). destruct (new_at tr aclaims (mkArr (chosen tr a σ) (Some b) 0 n) _ _ _ _ _ _ HA2) as (s3 & E3 & HA3).
      unfold bind at 1. rewrite E3. simpl. rewrite choose_arrs, <- Hlen. eapply goal_ok; [exact HA3|].
      apply rel_add; [done| |done]. split; simpl; [lia|done].
    + intros s2 [Hc HA2]. eapply exn_ok; [done|done|exact HA2|]. by rewrite choose_arrs.
  - (* AFill *) injection Hst as <- <-. destruct (arg_at a _ _ _ _ _ σ HA eq_refl) as (s1 & E1 & HA1).
    unfold bind at 1. rewrite E1. apply post_bind. eapply post_conseq; [by apply ctor_elems_at| |].
    + intros t s2 (b & -> & HA2). destruct (new_at tr aclaims (mkArr (chosen tr a σ) (Some b) n n) _ _ _ _ _ _ HA2) as (s3 & E3 & HA3).
      unfold bind at 1. rewrite E3. simpl. rewrite choose_arrs, <- Hlen. eapply goal_ok; [exact HA3|].
      apply rel_add; [done| |done]. by apply wf_some.
    + intros s2 [Hc HA2]. eapply exn_ok; [done|done|exact HA2|]. by rewrite choose_arrs.
  - (* ACopy *) destruct (get σ j) as [y|] eqn:Hy; [|done]. simpl in Hst. injection Hst as <- <-.
    destruct (get_inv _ _ _ _ HF Hy) as (x & Hx & -> & Hw). getat Hx.
    apply post_bind. eapply post_conseq; [by apply ctor_elems_at| |].
    + intros t s2 (b & -> & HA2). destruct (new_at tr aclaims (mkArr (al x) (Some b) (len x) (len x)) _ _ _ _ _ _ HA2) as (s3 & E3 & HA3).
      unfold bind at 1. rewrite E3. simpl. rewrite <- Hlen. eapply goal_ok; [exact HA3|].
      apply rel_add; [done| |done]. by apply wf_some.
    + intros s2 [Hc HA2]. eapply exn_ok; [done|done|exact HA2|done].
  - (* AMove *) destruct (get σ j) as [y|] eqn:Hy; [|done]. simpl in Hst. injection Hst as <- <-.
    destruct (get_inv _ _ _ _ HF Hy) as (x & Hx & -> & Hw). getat Hx.
    destruct (put_at tr aclaims j x (mkArr (al x) None 0 0) [] [] (aclaims x ++ []) ob (nal σ) c s Hx) as (s1 & E1 & HA1); [done|done|].
    unfold bind at 1. cbn [ctor_move fst snd]. rewrite E1.
    destruct (new_at tr aclaims x _ _ _ _ _ _ HA1) as (s2 & E2 & HA2). unfold bind at 1. rewrite E2.
    rewrite insert_length in *. simpl. rewrite insert_length, Hlen. eapply goal_ok; [exact HA2|].
    apply rel_add; [|done|done]. apply rel_upd; [done| |done]. by split.
  - (* ADestroy *) destruct (get σ i) as [y|] eqn:Hy; [|done]. simpl in Hst. injection Hst as <- <-.
    destruct (get_inv _ _ _ _ HF Hy) as (x & Hx & -> & Hw). getat Hx.
    assert (Hp : post (bind (dtor tr x) (λ _, drop_obj i) s) (λ _ s', AtA [] (<[i := None]> ob) (nal σ) c s') (λ _, False)).
    { apply (blind_put_at tr aclaims (dtor tr x) i (Some x) None (aclaims x) [] []); [| exact Hx| by rewrite !app_nil_r| |done].
      - unfold dtor. destruct (blk x); [apply blind_deallocate|apply blind_ret].
      - intros s'. apply dtor_at. }
    eapply (post_eq _ (bind (bind (dtor tr x) (λ _, drop_obj i)) (λ _, ret RUnit) s)).
    { unfold bind. by destruct (dtor tr x s). }
    apply post_bind. eapply post_conseq; [exact Hp| |done]. intros u s2 HA2. simpl. eapply goal_ok; [exact HA2|].
    simpl. by apply Forall2_insert.
  - (* AAssignCopy *) destruct (get σ i) as [y|] eqn:Hy; [|done]. simpl in Hst.
    destruct (get σ j) as [y'|] eqn:Hy'; [|done]. simpl in Hst. destruct (can_swap tr) eqn:Hs; [|done]. simpl in Hst. injection Hst as <- <-.
    destruct (get_inv _ _ _ _ HF Hy) as (x & Hx & -> & Hw). destruct (get_inv _ _ _ _ HF Hy') as (x' & Hx' & -> & Hw').
    apply post_bind. unfold assign_copy. getat Hx'. apply post_bind. eapply post_conseq; [by apply ctor_elems_at| |].
    + intros t s2 (b & -> & HA2). getat Hx.
      eapply post_conseq; [eapply finish_at; [done|exact Hx|exact HA2]| |done].
      intros u s3 HA3. simpl. destruct (swap_view (mkArr (al x') (Some b) (len x') (len x')) x) as [Ev _]. rewrite Ev in HA3. simpl in HA3.
      eapply goal_ok; [exact HA3|]. apply rel_upd; [done|by apply wf_some|done].
    + intros s2 [Hc HA2]. eapply exn_ok; [done|done|exact HA2|done].
  - (* AAssignMove *) destruct (get σ i) as [y|] eqn:Hy; [|done]. simpl in Hst.
    destruct (get σ j) as [y'|] eqn:Hy'; [|done]. simpl in Hst. destruct (can_swap tr) eqn:Hs; [|done]. simpl in Hst. injection Hst as <- <-.
    destruct (get_inv _ _ _ _ HF Hy) as (x & Hx & -> & Hw). destruct (get_inv _ _ _ _ HF Hy') as (x' & Hx' & -> & Hw').
    apply post_bind. unfold assign_move. getat Hx'.
    destruct (put_at tr aclaims j x' (mkArr (al x') None 0 0) [] [] (aclaims x') ob (nal σ) c s Hx') as (s1 & E1 & HA1); [by rewrite app_nil_r|done|].
    unfold bind at 1. cbn [ctor_move fst snd]. rewrite E1.
    set (x0 := if decide (i = j) then mkArr (al x') None 0 0 else x).
    assert (Hx0 : <[j := Some (mkArr (al x') None 0 0)]> ob !! i = Some (Some x0)).
    { unfold x0. destruct (decide (i = j)) as [->|Hne]; [by eapply ins_lookup|]. by rewrite list_lookup_insert_ne by congruence. }
    getat Hx0.
    eapply post_conseq; [eapply finish_at; [done|exact Hx0|exact HA1]| |done].
    intros u s3 HA3. simpl. destruct (swap_view x' x0) as [Ev _]. rewrite Ev in HA3.
    assert (al x0 = al x) as Hal. { unfold x0. destruct (decide (i = j)) as [->|]; [|done]. simpl. congruence. }
    eapply goal_ok; [exact HA3|]. apply rel_upd; [apply rel_upd; [done|by split|done]|by destruct x'|by rewrite Hal].
  - (* AAssignList *) destruct (get σ i) as [y|] eqn:Hy; [|done]. simpl in Hst.
    destruct (can_swap tr) eqn:Hs; [|done]. simpl in Hst. injection Hst as <- <-.
    destruct (get_inv _ _ _ _ HF Hy) as (x & Hx & -> & Hw).
    apply post_bind. unfold assign_list. destruct (dflt_at _ _ _ _ _ σ HA eq_refl) as (s1 & E1 & HA1).
    unfold bind at 1. rewrite E1. apply post_bind. eapply post_conseq; [by apply ctor_elems_at| |].
    + intros t s2 (b & -> & HA2). getat Hx.
      eapply post_conseq; [eapply finish_at; [done|exact Hx|exact HA2]| |done].
      intros u s3 HA3. simpl. destruct (swap_view (mkArr (dflt tr σ) (Some b) n n) x) as [Ev _]. rewrite Ev in HA3. simpl in HA3.
      eapply goal_ok; [exact HA3|]. apply rel_upd; [by rewrite bump_arrs|by apply wf_some|done].
    + intros s2 [Hc HA2]. eapply exn_ok; [done|done|exact HA2|by rewrite bump_arrs].
  - (* ASwap *) destruct (get σ i) as [y|] eqn:Hy; [|done]. simpl in Hst.
    destruct (get σ j) as [y'|] eqn:Hy'; [|done]. simpl in Hst. destruct (can_swap tr) eqn:Hs; [|done]. simpl in Hst. injection Hst as <- <-.
    destruct (get_inv _ _ _ _ HF Hy) as (x & Hx & -> & Hw). destruct (get_inv _ _ _ _ HF Hy') as (x' & Hx' & -> & Hw').
    getat Hx. getat Hx'. destruct (swap_view x x') as [Ev Ev'].
    destruct (Nat.eqb_spec i j) as [<-|Hne].
    + assert (x' = x) as -> by congruence.
      assert (Hfx : fst (swap tr x x) = x). { rewrite Ev'. unfold taken. destruct (pocs tr), x; done. }
      destruct (put_at tr aclaims i x (fst (swap tr x x)) [] [] [] ob (nal σ) c s Hx) as (s1 & E1 & HA1); [by rewrite Hfx|done|].
      unfold bind at 1. rewrite E1. simpl. rewrite Hfx in HA1. eapply goal_ok; [exact HA1|]. simpl.
      rewrite list_insert_insert. apply Forall2_insert; [done|]. unfold taken. by destruct (pocs tr).
    + set (n0 := mkArr (al x) None 0 0). set (n1 := mkArr (al x') None 0 0).
      (* take both blocks out, exchange, put back *)
      assert (HA1 : AtA (aclaims x ++ aclaims x' ++ []) (<[j := Some n1]> (<[i := Some n0]> ob)) (nal σ) c (set_objs (<[j := Some n1]> (<[i := Some n0]> ob)) s)).
      { destruct HA as (H1 & H2 & H3 & H4 & H5). split_and!; try done.
        eapply Inv_put; [rewrite list_lookup_insert_ne by done; exact Hx'| |eapply Inv_put; [exact Hx| |exact H1]].
        2: { simpl. reflexivity. } simpl. rewrite !app_nil_r. apply Permutation_app_comm. }
      apply swap_claims in HA1; [|done].
      destruct (put_at tr aclaims i n0 (fst (swap tr x x')) [] (aclaims (fst (swap tr x x')) ++ aclaims (snd (swap tr x x')) ++ []) (aclaims (snd (swap tr x x'))) (<[j := Some n1]> (<[i := Some n0]> ob)) (nal σ) c _
        ltac:(rewrite list_lookup_insert_ne by done; by eapply ins_lookup) ltac:(simpl; rewrite app_nil_r; reflexivity) HA1) as (s2 & E2 & HA2).
      destruct (put_at tr aclaims j n1 (snd (swap tr x x')) [] (aclaims (snd (swap tr x x'))) [] (<[i := Some (fst (swap tr x x'))]> (<[j := Some n1]> (<[i := Some n0]> ob))) (nal σ) c _
        ltac:(rewrite list_lookup_insert_ne by done; apply list_lookup_insert; rewrite insert_length; by eapply lookup_lt_Some) ltac:(simpl; rewrite app_nil_r; reflexivity) HA2) as (s3 & E3 & HA3).
      assert (E4 : bind (put_obj i (fst (swap tr x x'))) (λ _, put_obj j (snd (swap tr x x'))) s = Ok tt s3).
      { unfold bind, put_obj, modify in *. simpl in *. injection E2 as <-. injection E3 as <-. f_equal.
        destruct HA as (_ & _ & H3 & _). unfold set_objs. simpl. rewrite H3. f_equal.
        by rewrite ins4. }
      unfold bind in *. destruct (put_obj i (fst (swap tr x x')) s); [|done..]. rewrite E4. simpl.
      eapply goal_ok; [exact HA3|]. simpl. rewrite Ev, Ev'.
      rewrite ins4 by done.
      apply Forall2_insert; [apply Forall2_insert; [done|]|]; split_and!; try done; by destruct x, x'.
  - (* AClear *) destruct (get σ i) as [y|] eqn:Hy; [|done]. simpl in Hst. injection Hst as <- <-.
    destruct (get_inv _ _ _ _ HF Hy) as (x & Hx & -> & Hw).
    destruct (set_len_at i x ob _ c s Hx HA 0) as (s2 & E2 & HA2). unfold bind at 1. rewrite E2. simpl.
    eapply goal_ok; [exact HA2|]. apply rel_upd; [done|apply put_len_wf; [lia|done]|done].
  - (* AReserve *) destruct (get σ i) as [y|] eqn:Hy; [|done]. simpl in Hst. injection Hst as <- <-.
    destruct (get_inv _ _ _ _ HF Hy) as (x & Hx & -> & Hw).
    apply post_bind. unfold reserve. getat Hx. destruct (Nat.ltb_spec (cap x) n) as [Hn|Hn].
    + eapply post_conseq; [by eapply grow_at| |].
      * intros u s2 [b HA2]. simpl. eapply goal_ok; [exact HA2|]. simpl. rewrite Nat.max_r by lia.
        apply rel_upd; [done| |done]. apply wf_some. destruct Hw. lia.
      * intros s2 [Hc HA2]. eapply exn_ok; [done|done|exact HA2|done].
    + simpl. eapply goal_ok; [exact HA|]. simpl. rewrite Nat.max_l by lia.
      rewrite <- (list_insert_id _ _ _ Hx). by apply rel_upd.
  - (* AResize *) destruct (get σ i) as [y|] eqn:Hy; [|done]. simpl in Hst. injection Hst as <- <-.
    destruct (get_inv _ _ _ _ HF Hy) as (x & Hx & -> & Hw). assert (Hw' := Hw). destruct Hw' as [Hle _].
    apply post_bind. unfold resize. getat Hx. destruct (Nat.ltb_spec (cap x) n) as [Hn|Hn].
    + eapply post_conseq; [by eapply grow_at| |].
      * intros u s2 [b HA2]. simpl. eapply goal_ok; [exact HA2|]. simpl. rewrite Nat.min_l by lia.
        apply rel_upd; [done| |done]. apply wf_some. lia.
      * intros s2 [Hc HA2]. eapply exn_ok; [done|done|exact HA2|done].
    + destruct (Nat.ltb_spec n (cap x)) as [Hm|Hm].
      * eapply post_conseq; [by eapply shrink_at| |].
        -- intros u s2 [b HA2]. cbn. eapply goal_ok; [exact HA2|].
           apply rel_upd; [done| |done]. apply wf_some. lia.
        -- intros s2 [Hc HA2]. eapply exn_ok; [done|done|exact HA2|done].
      * assert (n = cap x) as -> by lia. cbn. eapply goal_ok; [exact HA|]. simpl.
        rewrite <- (list_insert_id _ _ _ Hx). rewrite Nat.min_l by lia. by apply rel_upd.
  - (* AInsert *) destruct (get σ i) as [y|] eqn:Hy; [|done]. simpl in Hst.
    destruct (get_inv _ _ _ _ HF Hy) as (x & Hx & -> & Hw). cbn [slen scap sal] in Hst. assert (Hw' := Hw). destruct Hw' as [Hle _].
    destruct (Nat.leb_spec k (len x)) as [Hk|Hk]; [|done]. cbn [guard_] in Hst. injection Hst as <- <-.
    apply post_bind. unfold insert. getat Hx.
    destruct (Nat.ltb_spec (len x) k) as [Hk'|_]; [lia|].
    destruct (Nat.eqb_spec k (len x)) as [->|Hne].
    + eapply post_conseq; [by eapply emplace_back_at| |].
      * intros u s2 (b & Hwb & HA2). cbn. eapply goal_ok; [exact HA2|]. by apply rel_upd.
      * intros s2 [Hc [HA2|(b & Hwb & HA2)]].
        -- eapply exn_ok; [eexists; split; [exact Hy|by left]|done|exact HA2|done].
        -- eapply exn_ok; [eexists; split; [exact Hy|right; left; done]|done|exact HA2|]. by apply rel_upd.
    + unfold grown. destruct (Nat.eqb_spec (len x) (cap x)) as [He|He].
      * eapply post_conseq; [eapply realloc_insert_at; [exact Hx|exact HA|done|lia]| |].
        -- intros u s2 [b HA2]. cbn. eapply goal_ok; [exact HA2|]. apply rel_upd; [done| |done]. apply wf_some. lia.
        -- intros s2 [Hc HA2]. eapply exn_ok; [eexists; split; [exact Hy|by left]|done|exact HA2|done].
      * destruct (set_len_at i x ob _ c s Hx HA (S (len x))) as (s2 & E2 & HA2). unfold bind at 1. rewrite E2.
        eapply post_conseq; [by apply tick_at| |].
        -- intros u s3 HA3. cbn. eapply goal_ok; [exact HA3|]. apply rel_upd; [done|apply put_len_wf; [lia|done]|done].
        -- intros s3 [Hc HA3]. eapply exn_ok; [eexists; split; [exact Hy|right; right; split; [cbn; lia|split; [cbn; lia|done]]]|done|exact HA3|].
           apply rel_upd; [done|apply put_len_wf; [lia|done]|done].
  - (* AInsertRange *) destruct (get σ i) as [y|] eqn:Hy; [|done]. simpl in Hst.
    destruct (get_inv _ _ _ _ HF Hy) as (x & Hx & -> & Hw). cbn [slen scap sal] in Hst. assert (Hw' := Hw). destruct Hw' as [Hle _].
    destruct (Nat.leb_spec k (len x)) as [Hk|Hk]; [|done]. cbn [guard_] in Hst.
    apply post_bind. unfold insert_range. getat Hx.
    destruct (Nat.ltb_spec (len x) k) as [Hk'|_]; [lia|].
    destruct (Nat.leb_spec (len x + n) (cap x)) as [Hn|Hn].
    + injection Hst as <- <-. destruct (Nat.ltb_spec (cap x) (len x + n)) as [?|_]; [lia|].
      destruct (set_len_at i x ob _ c s Hx HA (len x + n)) as (s2 & E2 & HA2). unfold bind at 1. rewrite E2.
      eapply post_conseq; [by apply ticks_at| |].
      * intros u s3 HA3. cbn. eapply goal_ok; [exact HA3|]. apply rel_upd; [done|apply put_len_wf; [lia|done]|done].
      * intros s3 [[Hc HA3] _]. eapply (exn_ok c _ σ (upd i (mkA (al x) (len x + n) (cap x)) σ)); [|done|exact HA3|].
        { eexists; split; [exact Hy|]. cbn [slen scap]. destruct (Nat.leb_spec (len x + n) (cap x)) as [_|?]; [done|lia]. }
        apply rel_upd; [done|apply put_len_wf; [lia|done]|done].
    + destruct (Nat.ltb_spec (cap x) (len x + n)) as [_|?]; [|lia].
      destruct (same_alloc tr (al x) (dflt tr σ)) eqn:Hsa; [|done]. cbn [guard_] in Hst. injection Hst as <- <-.
      destruct (dflt_at _ _ _ _ _ σ HA eq_refl) as (s1 & E1 & HA1). unfold bind at 1. rewrite E1.
      apply post_bind. assert ((if Nat.eqb (cap x) 0 then n else cap x + n) = cap x + n) as ->.
      { destruct (Nat.eqb_spec (cap x) 0) as [->|]; done. }
      assert (Hex : spec_throw tr (AInsertRange i k n) σ (bump tr σ)).
      { eexists; split; [exact Hy|]. cbn [slen scap]. destruct (Nat.leb_spec (len x + n) (cap x)) as [?|_]; [lia|done]. }
      eapply post_conseq; [by apply ctor_cap_at| |].
      * intros t s2 (b & -> & HA2). cbn beta. apply post_bind, post_on_throw. eapply post_conseq; [by apply ticks_at| |].
        -- intros u s3 HA3.
           (* the new block is now claimed with the allocator of the array *)
           assert (HA3' : AtA [(b, (al x, cap x + n))] ob (nal (bump tr σ)) c s3).
           { destruct HA3 as (H1 & H2). split; [|done]. apply (Inv_swap_alloc _ _ _ _ (dflt tr σ)); [|done].
             apply aeq_sym. exact Hsa. }
           destruct (put_at tr aclaims i x (mkArr (al x) (Some b) (len x + n) (cap x + n)) [] _ (aclaims x) ob _ c s3 Hx ltac:(apply Permutation_app_comm) HA3') as (s4 & E4 & HA4).
           unfold bind at 1. cbn [blk cap]. rewrite E4.
           eapply post_conseq; [eapply (dtor_at [])| |done].
           ++ replace (aclaims {| al := dflt tr σ; blk := blk x; len := len x; cap := cap x |})
                with (match blk x with Some b => [(b, (dflt tr σ, cap x))] | None => [] end) by done.
              replace (aclaims x) with (match blk x with Some b => [(b, (al x, cap x))] | None => [] end) in HA4 by done.
              destruct (blk x) as [b0|]; [|exact HA4].
              destruct HA4 as (H1 & H2). split; [|exact H2]. by apply (Inv_swap_alloc _ _ _ _ (al x)).
           ++ intros u5 s5 HA5. cbn. eapply goal_ok; [exact HA5|]. cbn. apply rel_upd; [by rewrite bump_arrs| |done]. apply wf_some. lia.
        -- intros s3 [[Hc HA3] _]. eapply post_conseq; [by apply (dtor_at [])| |done].
           intros u s4 HA4. eapply exn_ok; [exact Hex|done|exact HA4|by rewrite bump_arrs].
      * intros s2 [Hc HA2]. eapply exn_ok; [exact Hex|done|exact HA2|by rewrite bump_arrs].
  - (* APush *) destruct (get σ i) as [y|] eqn:Hy; [|done]. simpl in Hst. injection Hst as <- <-.
    destruct (get_inv _ _ _ _ HF Hy) as (x & Hx & -> & Hw). apply post_bind.
    eapply post_conseq; [by eapply emplace_back_at| |].
    + intros u s2 (b & Hwb & HA2). cbn. eapply goal_ok; [exact HA2|]. by apply rel_upd.
    + intros s2 [Hc [HA2|(b & Hwb & HA2)]].
      * eapply exn_ok; [eexists; split; [exact Hy|by left]|done|exact HA2|done].
      * eapply exn_ok; [eexists; split; [exact Hy|by right]|done|exact HA2|]. by apply rel_upd.
  - (* APushRange *) destruct (get σ i) as [y|] eqn:Hy; [|done]. simpl in Hst. injection Hst as <- <-.
    destruct (get_inv _ _ _ _ HF Hy) as (x & Hx & -> & Hw). apply post_bind. unfold push_range. getat Hx.
    assert (Hw' := Hw). destruct Hw' as [Hle _]. apply post_bind.
    eapply (post_conseq _ (λ _ s', ∃ b, wf (mkArr (al x) b (len x) (Nat.max (cap x) (len x + n))) ∧
       AtA [] (<[i := Some (mkArr (al x) b (len x) (Nat.max (cap x) (len x + n)))]> ob) (nal σ) c s') _ (λ s', ¬ c ∧ AtA [] ob (nal σ) c s')).
    + destruct (Nat.ltb_spec (cap x) (len x + n)) as [Hn|Hn].
      * eapply post_conseq; [by eapply grow_at| |done]. intros u s2 [b HA2]. exists (Some b). rewrite Nat.max_r by lia. split; [apply wf_some; lia|done].
      * exists (blk x). rewrite Nat.max_l by lia. split; [by destruct x|]. rewrite list_insert_id; [done|]. by destruct x.
    + intros u s2 (b & Hwb & HA2). cbn beta. set (x' := mkArr (al x) b (len x) (Nat.max (cap x) (len x + n))) in *.
      eapply post_conseq; [eapply push_loop_at; [by eapply ins_lookup|exact HA2]| |].
      * intros u3 s3 HA3. rewrite list_insert_insert in HA3. cbn. eapply goal_ok; [exact HA3|].
        apply rel_upd; [done| |done]. split; [cbn; lia|apply Hwb].
      * intros s3 [Hc (k & Hk & HA3)]. rewrite list_insert_insert in HA3.
        eapply exn_ok; [eexists; split; [exact Hy|right; exists k; split; [done|reflexivity]]|done|exact HA3|].
        apply rel_upd; [done| |done]. split; [cbn; lia|apply Hwb].
    + intros s2 [Hc HA2]. eapply exn_ok; [eexists; split; [exact Hy|by left]|done|exact HA2|done].
  - (* APop *) destruct (get σ i) as [y|] eqn:Hy; [|done]. simpl in Hst.
    destruct (get_inv _ _ _ _ HF Hy) as (x & Hx & -> & Hw). cbn [slen scap sal] in Hst.
    unfold guard_ in Hst. unfold pop_back. apply post_bind. getat Hx. destruct (Nat.ltb 0 (len x)); [|done]. injection Hst as <- <-.
    destruct (set_len_at i x ob _ c s Hx HA (len x - 1)) as (s2 & E2 & HA2). rewrite E2. cbn.
    eapply goal_ok; [exact HA2|]. apply rel_upd; [done|apply put_len_wf; [destruct Hw; lia|done]|done].
  - (* AErase *) destruct (get σ i) as [y|] eqn:Hy; [|done]. simpl in Hst.
    destruct (get_inv _ _ _ _ HF Hy) as (x & Hx & -> & Hw). cbn [slen scap sal] in Hst.
    unfold guard_ in Hst. unfold erase_range. apply post_bind. getat Hx. destruct (Nat.leb k m && Nat.leb m (len x)); [|done]. injection Hst as <- <-.
    destruct (set_len_at i x ob _ c s Hx HA (len x - (m - k))) as (s2 & E2 & HA2). rewrite E2. cbn.
    eapply goal_ok; [exact HA2|]. apply rel_upd; [done|apply put_len_wf; [destruct Hw; lia|done]|done].
Qed.
End arr.
