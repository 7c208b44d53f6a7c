(** Simulation of AllocModel's lists by their specification. *)
From stdpp Require Import list.
From Verif Require Import Base Client AllocModel AllocSpec AllocProofs.
Local Open Scope mon_scope.

Section lst.
Context (tr : traits).

Definition nclaims (a : aid) (bs : list nat) : list (nat * (aid * nat)) := (λ b, (b, (a, 1))) <$> bs.
Definition lclaims (x : lst) : list (nat * (aid * nat)) := nclaims (lal x) (lnodes x).
Definition lrel (x : option lst) (y : option nat) : Prop :=
  match x, y with
  | Some x, Some n => length (lnodes x) = n ∧ (dflt_same tr = true → lal x = Dflt 0)
  | None, None => True
  | _, _ => False
  end.
Notation AtL := (At tr lclaims).
(** [L]: the nodes lost by constructors that threw. *)
Definition RLL (L : list nat) (s : st lst) (σ : list (option nat)) : Prop :=
  (∃ na, AtL L [] (objs s) na False s) ∧ Forall2 lrel (objs s) σ.
Definition RL (s : st lst) (σ : list (option nat)) : Prop := ∃ L, RLL L s σ.
Definition lcalm (s : st lst) : Prop := oracle s = [].

Lemma RLL_intro L ob na c s σ : AtL L [] ob na c s → Forall2 lrel ob σ → RLL L s σ.
Proof. intros (H1 & H2 & H3 & H4 & H5) HF. rewrite <- H3 in *. split; [|done]. exists na. by split_and!. Qed.
Lemma RL_intro L ob na c s σ : AtL L [] ob na c s → Forall2 lrel ob σ → RL s σ.
Proof. intros HA HF. exists L. by eapply RLL_intro. Qed.

Lemma nclaims_app a l1 l2 : nclaims a (l1 ++ l2) = nclaims a l1 ++ nclaims a l2.
Proof. apply fmap_app. Qed.
Lemma nclaims_perm a l1 l2 : l1 ≡ₚ l2 → nclaims a l1 ≡ₚ nclaims a l2.
Proof. apply fmap_Permutation. Qed.

Lemma At_realloc L a a' bs E ob na c s : aeq tr a a' = true →
  AtL L (nclaims a bs ++ E) ob na c s → AtL L (nclaims a' bs ++ E) ob na c s.
Proof.
  intros Ha (H1 & H2). split; [|done]. clear H2. revert E H1. induction bs as [|b bs IH]; intros E H; [done|].
  simpl in *. apply (Inv_swap_alloc _ _ _ _ a); [done|].
  eapply (Inv_perm _ _ _ (nclaims a' bs ++ (b, (a, 1)) :: E) ob).
  { f_equiv. symmetry. apply Permutation_middle. }
  apply IH. eapply (Inv_perm _ _ _ ((b, (a, 1)) :: nclaims a bs ++ E) ob); [|done].
  f_equiv. apply Permutation_middle.
Qed.
Lemma At_leak L b x E ob na c s : AtL L ((b, x) :: E) ob na c s → AtL (b :: L) E ob na c s.
Proof.
  intros (H1 & H2 & H3 & H4 & H5). split_and!; [by eapply Inv_leak| |done..]. intros b' Hb'. apply elem_of_cons in Hb' as [->|Hb']; [|by apply H2].
  destruct H1 as (_ & Hf & _). simpl in Hf. inversion Hf as [|? ? (a0 & Hb & _)]; subst. by eapply lookup_lt_Some.
Qed.

Lemma create_node_at a L E ob na c s : AtL L E ob na c s →
  post (create_node tr a s) (λ b s', AtL L ((b, (a, 1)) :: E) ob na c s') (λ s', ¬ c ∧ AtL L E ob na c s').
Proof.
  intros HA. unfold create_node. apply post_bind. eapply post_conseq; [by apply allocate_at| |done].
  intros b s1 HA1. cbn beta in *. apply post_bind, post_on_throw. eapply post_conseq; [by apply tick_at| |].
  - intros u s2 HA2. done.
  - intros s2 [Hc HA2]. eapply post_conseq; [by apply deallocate_at| |done]. intros u s3 HA3. by split.
Qed.
Lemma create_nodes_at n a : ∀ L E ob na c s, AtL L E ob na c s →
  post (create_nodes tr n a s) (λ bs s', length bs = n ∧ AtL L (nclaims a bs ++ E) ob na c s')
    (λ s', ¬ c ∧ ∃ L', AtL L' E ob na c s').
Proof.
  induction n as [|n IH]; intros L E ob na c s HA; [done|]. simpl. apply post_bind.
  eapply post_conseq; [by apply create_node_at| |].
  - intros b s1 HA1. cbn beta in *. apply post_bind. eapply post_conseq; [by apply IH| |].
    + intros bs s2 [Hl HA2]. simpl. split; [by rewrite Hl|]. eapply At_perm; [|exact HA2].
      symmetry. apply Permutation_middle.
    + intros s2 [Hc [L' HA2]]. split; [done|]. exists (b :: L'). by eapply At_leak.
  - intros s1 [Hc HA1]. split; [done|]. by exists L.
Qed.

Lemma ins_lk (ob : list (option lst)) i x y : ob !! i = Some x → <[i := y]> ob !! i = Some y.
Proof. intros H. apply list_lookup_insert. by eapply lookup_lt_Some. Qed.

Lemma insert_after_at n : ∀ i k x L ob na c s, ob !! i = Some (Some x) → AtL L [] ob na c s →
  post (insert_after tr i k n s)
    (λ _ s', ∃ l, length l = length (lnodes x) + n ∧ AtL L [] (<[i := Some (mkL (lal x) l)]> ob) na c s')
    (λ s', ¬ c ∧ ∃ j l, j < n ∧ length l = length (lnodes x) + j ∧ AtL L [] (<[i := Some (mkL (lal x) l)]> ob) na c s').
Proof.
  induction n as [|n IH]; intros i k x L ob na c s Hi HA; cbn [insert_after].
  - exists (lnodes x). rewrite Nat.add_0_r. split; [done|]. destruct x. by rewrite list_insert_id.
  - unfold bind at 1. rewrite (get_at _ _ _ _ _ _ _ _ _ _ Hi HA). apply post_bind.
    eapply post_conseq; [by apply create_node_at| |].
    + intros b s1 HA1. cbn beta in *. set (l := take k (lnodes x) ++ b :: drop k (lnodes x)).
      destruct (put_at tr lclaims i x (mkL (lal x) l) L [(b, (lal x, 1))] [] ob na c s1 Hi) as (s2 & E2 & HA2); [|done|].
      { rewrite app_nil_r. unfold lclaims. simpl. unfold l. rewrite (Permutation_app_comm (nclaims _ _)). simpl.
        rewrite nclaims_app. simpl. rewrite <- Permutation_middle, <- nclaims_app, take_drop. done. }
      unfold bind. rewrite E2. assert (Hl : length l = S (length (lnodes x))).
      { unfold l. rewrite <- (take_drop k (lnodes x)) at 3. rewrite !app_length. simpl. lia. }
      eapply post_conseq; [eapply IH; [by eapply ins_lk|exact HA2]| |].
      * intros u s3 (l' & Hl' & HA3). cbn [lnodes lal] in *. rewrite list_insert_insert in HA3. exists l'. split; [lia|done].
      * intros s3 [Hc (j & l' & Hj & Hl' & HA3)]. cbn [lnodes lal] in *. rewrite list_insert_insert in HA3. split; [done|].
        exists (S j), l'. split_and!; [lia|lia|done].
    + intros s1 [Hc HA1]. split; [done|]. exists 0, (lnodes x). rewrite Nat.add_0_r. split_and!; [lia|done|]. destruct x. by rewrite list_insert_id.
Qed.

Lemma blind_free a bs : blind (Ob := lst) (free_nodes tr a bs).
Proof. induction bs as [|b bs IH]; [apply blind_ret|]. simpl. apply blind_bind; [apply blind_deallocate|done]. Qed.
Lemma free_nodes_at a bs : ∀ L E ob na c s, AtL L (nclaims a bs ++ E) ob na c s →
  post (free_nodes tr a bs s) (λ _ s', AtL L E ob na c s') (λ _, False).
Proof.
  induction bs as [|b bs IH]; intros L E ob na c s HA; [done|]. simpl in *. apply post_bind.
  eapply post_conseq; [by apply deallocate_at| |done]. intros u s' HA'. by apply IH.
Qed.
Lemma erase_after_at i k m x L ob na c s : ob !! i = Some (Some x) → k ≤ m → m ≤ length (lnodes x) → AtL L [] ob na c s →
  post (erase_after tr i k m s)
    (λ _ s', AtL L [] (<[i := Some (mkL (lal x) (take k (lnodes x) ++ drop m (lnodes x)))]> ob) na c s') (λ _, False).
Proof.
  intros Hi Hk Hm HA. unfold erase_after. unfold bind at 1. rewrite (get_at _ _ _ _ _ _ _ _ _ _ Hi HA).
  destruct (Nat.leb_spec k m) as [_|?]; [|lia]. destruct (Nat.leb_spec m (length (lnodes x))) as [_|?]; [|lia]. simpl.
  apply (blind_put_at tr lclaims (free_nodes tr (lal x) (take (m - k) (drop k (lnodes x)))) i (Some x)
           (Some (mkL (lal x) (take k (lnodes x) ++ drop m (lnodes x)))) (nclaims (lal x) (take (m - k) (drop k (lnodes x)))) L [] []).
  - apply blind_free.
  - done.
  - simpl. rewrite !app_nil_r. unfold lclaims. simpl. rewrite <- nclaims_app. apply nclaims_perm.
    rewrite <- (take_drop k (lnodes x)) at 1. rewrite <- (take_drop (m - k) (drop k (lnodes x))) at 1.
    rewrite drop_drop. replace (k + (m - k)) with m by lia. rewrite !app_assoc. f_equiv. apply Permutation_app_comm.
  - intros s'. rewrite app_nil_r. intros HA'. apply free_nodes_at. by rewrite app_nil_r.
  - done.
Qed.
Lemma lclear_at i x L ob na c s : ob !! i = Some (Some x) → AtL L [] ob na c s →
  post (lclear tr i s) (λ _ s', AtL L [] (<[i := Some (mkL (lal x) [])]> ob) na c s') (λ _, False).
Proof.
  intros Hi HA. unfold lclear. unfold bind at 1. rewrite (get_at _ _ _ _ _ _ _ _ _ _ Hi HA).
  eapply post_conseq; [by eapply erase_after_at; [exact Hi|lia|done|exact HA]| |done].
  intros u s'. simpl. rewrite drop_ge by done. done.
Qed.

(** ** The simulation *)
Lemma lget_inv ob σ i n : Forall2 lrel ob σ → lget σ i = Some n →
  ∃ x, ob !! i = Some (Some x) ∧ n = length (lnodes x) ∧ (dflt_same tr = true → lal x = Dflt 0).
Proof.
  intros HF. unfold lget. destruct (σ !! i) as [[y'|]|] eqn:Hi; try done. intros [= ->].
  destruct (Forall2_lookup_r _ _ _ _ _ HF Hi) as ([x|] & Hx & Hr); [|done]. exists x. destruct Hr as [<- Hr]. done.
Qed.
Definition lgoal (c : Prop) (L : list nat) (σ1 : list (option nat)) (r : out) : out → st lst → Prop :=
  λ r' s', r' = r ∧ RLL L s' σ1 ∧ (c → lcalm s').
Lemma lgoal_ok c σ1 r L ob na s : AtL L [] ob na c s → Forall2 lrel ob σ1 → lgoal c L σ1 r r s.
Proof. intros HA HF. split_and!; [done|by eapply RLL_intro|]. apply HA. Qed.
Lemma lexn_ok c o σ σ1 L ob na s : lspec_throw o σ σ1 → ¬ c → AtL L [] ob na c s → Forall2 lrel ob σ1 →
  ¬ c ∧ ∃ σ', lspec_throw o σ σ' ∧ RL s σ'.
Proof. intros Ho Hc HA HF. split; [done|]. exists σ1. split; [done|]. by eapply RL_intro. Qed.
Lemma lrel_upd ob σ i x n : Forall2 lrel ob σ → length (lnodes x) = n → (dflt_same tr = true → lal x = Dflt 0) →
  Forall2 lrel (<[i := Some x]> ob) (<[i := Some n]> σ).
Proof. intros HF Hn Ha. by apply Forall2_insert. Qed.

Ltac lgetat H := unfold bind at 1; rewrite (get_at _ _ _ _ _ _ _ _ _ _ H ltac:(eassumption)).

Lemma ldefault_at L E ob na c s : AtL L E ob na c s →
  ∃ a s' na', default_alloc tr s = Ok a s' ∧ AtL L E ob na' c s' ∧ (dflt_same tr = true → a = Dflt 0).
Proof.
  intros HA. destruct (default_at _ _ _ _ _ _ _ _ HA) as [E1 HA1]. do 3 eexists. split_and!; [exact E1|exact HA1|].
  by intros ->.
Qed.

Lemma lctor_at n L ob na c s σ : AtL L [] ob na c s → Forall2 lrel ob σ →
  post (lctor tr n s) (λ i s', i = length σ ∧ lgoal c L (σ ++ [Some n]) (RNew i) (RNew i) s') (λ s', ¬ c ∧ RL s' σ).
Proof.
  intros HA HF. unfold lctor. destruct (ldefault_at _ _ _ _ _ _ HA) as (a & s1 & na1 & E1 & HA1 & Ha).
  unfold bind at 1. rewrite E1. apply post_bind. eapply post_conseq; [by apply create_nodes_at| |].
  - intros bs s2 [Hl HA2]. destruct (new_at tr lclaims (mkL a bs) _ _ _ _ _ _ HA2) as (s3 & E3 & HA3). rewrite E3. simpl.
    split; [by apply Forall2_length in HF|]. eapply lgoal_ok; [exact HA3|]. apply Forall2_app; [done|]. constructor; [|done]. done.
  - intros s2 [Hc [L' HA2]]. split; [done|]. by eapply RL_intro.
Qed.

Lemma lassign_at i n x L ob na c s σ : ob !! i = Some (Some x) → AtL L [] ob na c s → Forall2 lrel ob σ →
  (dflt_same tr = true → lal x = Dflt 0) →
  post (lassign tr i n s) (λ _ s', RLL L s' (<[i := Some n]> σ) ∧ (c → lcalm s'))
    (λ s', ¬ c ∧ ∃ σ', (σ' = σ ∨ ∃ k, length (lnodes x) ≤ k < n ∧ σ' = <[i := Some k]> σ) ∧ RL s' σ').
Proof.
  intros Hi HA HF Ha. unfold lassign. lgetat Hi. apply post_bind. eapply post_conseq; [by apply ticks_at| |].
  - intros u s1 HA1. cbn beta in *. destruct (Nat.ltb_spec (length (lnodes x)) n) as [Hn|Hn].
    + eapply post_conseq; [by eapply insert_after_at| |].
      * intros u2 s2 (l & Hl & HA2). split; [|apply HA2]. eapply RLL_intro; [exact HA2|]. apply lrel_upd; [done|simpl; lia|done].
      * intros s2 [Hc (j & l & Hj & Hl & HA2)]. split; [done|]. exists (<[i := Some (length (lnodes x) + j)]> σ).
        split; [right; exists (length (lnodes x) + j); split; [lia|done]|]. eapply RL_intro; [exact HA2|]. apply lrel_upd; [done|simpl; lia|done].
    + eapply post_conseq; [eapply erase_after_at; [exact Hi|lia|done|exact HA1]| |done].
      intros u2 s2 HA2. cbn beta in HA2. rewrite drop_ge, app_nil_r in HA2 by done.
      split; [|apply HA2]. eapply RLL_intro; [exact HA2|]. apply lrel_upd; [done| |done]. simpl. rewrite take_length. lia.
  - intros s1 [[Hc HA1] _]. split; [done|]. exists σ. split; [by left|]. by eapply RL_intro.
Qed.

Lemma deq_aeq : ∀ a b, dflt_equal tr = true → (dflt_same tr = true → a = Dflt 0) → (dflt_same tr = true → b = Dflt 0) → aeq tr a b = true.
Proof.
  intros a b Hd Ha Hb. unfold dflt_equal in Hd. destruct (dflt_same tr).
  - rewrite Ha, Hb by done. apply aeq_refl.
  - simpl in Hd. unfold aeq. by rewrite Hd.
Qed.

Lemma lsim_L L o s σ σ1 r : RLL L s σ → lspec_step tr o σ = Some (σ1, r) →
  post (run_lop tr o s) (λ r' s', r' = r ∧ RLL L s' σ1 ∧ (lcalm s → lcalm s'))
    (λ s', ¬ lcalm s ∧ ∃ σ', lspec_throw o σ σ' ∧ RL s' σ').
Proof.
  intros HR Hst. destruct HR as [(na & HA0) HF].
  assert (HA : AtL L [] (objs s) na (lcalm s) s) by (destruct HA0 as (?&?&?&?&?); by split_and!). clear HA0.
  change (post (run_lop tr o s) (lgoal (lcalm s) L σ1 r) (λ s', ¬ lcalm s ∧ ∃ σ', lspec_throw o σ σ' ∧ RL s' σ')).
  assert (Hlen := Forall2_length _ _ _ HF).
  generalize dependent (lcalm s). intros c HA. generalize dependent (objs s). intros ob HF Hlen HA.
  destruct o as [n|j|j|i|i n|i j|i j|i k n|i k m|i]; simpl in Hst; cbn [run_lop].
  - injection Hst as <- <-. apply post_bind. eapply post_conseq; [by eapply lctor_at| |].
    + intros i s1 [-> Hg]. exact Hg.
    + intros s1 [Hc HR]. split; [done|]. by exists σ.
  - destruct (lget σ j) as [n|] eqn:Hn; [|done]. simpl in Hst. injection Hst as <- <-.
    destruct (lget_inv _ _ _ _ HF Hn) as (x & Hx & -> & Hal). lgetat Hx.
    apply post_bind. eapply post_conseq; [by eapply lctor_at| |].
    + intros i s1 [-> Hg]. exact Hg.
    + intros s1 [Hc HR]. split; [done|]. by exists σ.
  - destruct (lget σ j) as [n|] eqn:Hn; [|done]. simpl in Hst.
    destruct (dflt_equal tr || Nat.eqb n 0) eqn:Hg; [|done]. simpl in Hst. injection Hst as <- <-.
    destruct (lget_inv _ _ _ _ HF Hn) as (x & Hx & -> & Hal).
    unfold lctor_move. destruct (ldefault_at _ _ _ _ _ _ HA) as (a & s1 & na1 & E1 & HA1 & Ha).
    apply post_bind. unfold bind at 1. rewrite E1. lgetat Hx.
    destruct (put_at tr lclaims j x (mkL (lal x) []) L [] (lclaims x ++ []) ob na1 c s1 Hx) as (s2 & E2 & HA2); [done|done|].
    unfold bind at 1. rewrite E2.
    assert (HA2' : AtL L (lclaims (mkL a (lnodes x)) ++ []) (<[j := Some (mkL (lal x) [])]> ob) na1 c s2).
    { apply orb_true_iff in Hg as [Hg|Hg].
      - unfold lclaims. simpl. apply (At_realloc _ (lal x)); [|done]. by apply deq_aeq.
      - apply Nat.eqb_eq, nil_length_inv in Hg. unfold lclaims in *. simpl in *. rewrite Hg in *. done. }
    destruct (new_at tr lclaims (mkL a (lnodes x)) _ _ _ _ _ _ HA2') as (s3 & E3 & HA3). rewrite E3. simpl.
    rewrite insert_length, Hlen. eapply lgoal_ok; [exact HA3|]. apply Forall2_app; [by apply lrel_upd|]. by constructor.
  - destruct (lget σ i) as [n|] eqn:Hn; [|done]. simpl in Hst. injection Hst as <- <-.
    destruct (lget_inv _ _ _ _ HF Hn) as (x & Hx & -> & Hal).
    apply post_bind. unfold ldestroy. apply post_bind. eapply post_conseq; [by eapply lclear_at| |done].
    intros u s1 HA1. cbn beta in *.
    destruct (drop_at tr lclaims i (mkL (lal x) []) L [] [] _ na c s1 ltac:(by eapply ins_lk) ltac:(done) HA1) as (s2 & E2 & HA2).
    rewrite E2. simpl. rewrite list_insert_insert in HA2. eapply lgoal_ok; [exact HA2|]. by apply Forall2_insert.
  - destruct (lget σ i) as [m|] eqn:Hn; [|done]. simpl in Hst. injection Hst as <- <-.
    destruct (lget_inv _ _ _ _ HF Hn) as (x & Hx & -> & Hal). apply post_bind. eapply post_conseq; [by eapply lassign_at| |].
    + intros u s1 [HR Hc]. done.
    + intros s1 [Hc (σ' & Hσ & HR)]. split; [done|]. exists σ'. split; [|done]. by eexists.
  - destruct (lget σ i) as [m|] eqn:Hm; [|done]. simpl in Hst. destruct (lget σ j) as [n|] eqn:Hn; [|done]. simpl in Hst. injection Hst as <- <-.
    destruct (lget_inv _ _ _ _ HF Hm) as (x & Hx & -> & Hal). destruct (lget_inv _ _ _ _ HF Hn) as (y & Hy & -> & Hal').
    apply post_bind. unfold lassign_copy. lgetat Hy. eapply post_conseq; [by eapply lassign_at| |].
    + intros u s1 [HR Hc]. done.
    + intros s1 [Hc (σ' & Hσ & HR)]. split; [done|]. exists σ'. split; [|done]. by do 2 eexists.
  - destruct (lget σ i) as [m|] eqn:Hm; [|done]. simpl in Hst. destruct (lget σ j) as [n|] eqn:Hn; [|done]. simpl in Hst.
    destruct (lget_inv _ _ _ _ HF Hm) as (x & Hx & -> & Hal). destruct (lget_inv _ _ _ _ HF Hn) as (y & Hy & -> & Hal').
    apply post_bind. unfold lassign_move. apply post_bind. eapply post_conseq; [by eapply lclear_at| |done].
    intros u s1 HA1. cbn beta in *. set (x0 := mkL (lal x) []) in *.
    assert (Hx0 : <[i := Some x0]> ob !! i = Some (Some x0)) by by eapply ins_lk.
    lgetat Hx0. destruct (Nat.eqb_spec i j) as [<-|Hne].
    + injection Hst as <- <-. assert (y = x) as -> by congruence. lgetat Hx0.
      destruct (put_at tr lclaims i x0 x0 L [] [] _ na c s1 Hx0 ltac:(done) HA1) as (s2 & E2 & HA2).
      unfold bind. change (mkL (lal x0) (lnodes x0)) with x0. rewrite E2.
      destruct (put_at tr lclaims i x0 x0 L [] [] _ na c s2 ltac:(by eapply ins_lk) ltac:(done) HA2) as (s3 & E3 & HA3). rewrite E3.
      simpl. rewrite !list_insert_insert in HA3. eapply lgoal_ok; [exact HA3|]. by apply lrel_upd.
    + destruct (dflt_equal tr || Nat.eqb (length (lnodes y)) 0) eqn:Hg; [|done]. simpl in Hst. injection Hst as <- <-.
      assert (Hy' : <[i := Some x0]> ob !! j = Some (Some y)) by by rewrite list_lookup_insert_ne.
      lgetat Hy'.
      destruct (put_at tr lclaims j y (mkL (lal y) []) L [] (lclaims y ++ []) _ na c s1 Hy' ltac:(done) HA1) as (s2 & E2 & HA2).
      unfold bind. change (lnodes x0) with (@nil nat). rewrite E2.
      assert (HA2' : AtL L (lclaims (mkL (lal x) (lnodes y)) ++ []) (<[j := Some (mkL (lal y) [])]> (<[i := Some x0]> ob)) na c s2).
      { apply orb_true_iff in Hg as [Hg|Hg].
        - unfold lclaims. simpl. apply (At_realloc _ (lal y)); [|done]. by apply deq_aeq.
        - apply Nat.eqb_eq, nil_length_inv in Hg. unfold lclaims in *. simpl in *. rewrite Hg in *. done. }
      destruct (put_at tr lclaims i x0 (mkL (lal x0) (lnodes y)) L (lclaims (mkL (lal x) (lnodes y)) ++ []) [] _ na c s2 ltac:(rewrite list_lookup_insert_ne by done; exact Hx0) ltac:(reflexivity) HA2') as (s3 & E3 & HA3).
      rewrite E3. simpl. rewrite list_insert_commute, list_insert_insert in HA3 by done.
      rewrite (list_insert_commute σ) by done.
      eapply lgoal_ok; [exact HA3|]. apply lrel_upd; [|done|done]. by apply lrel_upd.
  - destruct (lget σ i) as [m|] eqn:Hm; [|done]. simpl in Hst.
    destruct (lget_inv _ _ _ _ HF Hm) as (x & Hx & -> & Hal). destruct (Nat.leb k (length (lnodes x))) eqn:Hk; [|done].
    simpl in Hst. injection Hst as <- <-. lgetat Hx. rewrite Hk. apply post_bind.
    eapply post_conseq; [by eapply insert_after_at| |].
    + intros u s2 (l & Hl & HA2). simpl. eapply lgoal_ok; [exact HA2|]. apply lrel_upd; [done|simpl; lia|done].
    + intros s2 [Hc (j & l & Hj & Hl & HA2)]. eapply lexn_ok; [|done|exact HA2|].
      * exists (length (lnodes x)), j. split_and!; [done|done|reflexivity].
      * by apply lrel_upd.
  - destruct (lget σ i) as [n|] eqn:Hm; [|done]. simpl in Hst.
    destruct (lget_inv _ _ _ _ HF Hm) as (x & Hx & -> & Hal).
    destruct (Nat.leb k m && Nat.leb m (length (lnodes x))) eqn:Hk; [|done]. simpl in Hst. injection Hst as <- <-.
    apply andb_true_iff in Hk as [Hk Hk']. apply Nat.leb_le in Hk, Hk'.
    apply post_bind. eapply post_conseq; [by eapply erase_after_at| |done].
    intros u s2 HA2. simpl. eapply lgoal_ok; [exact HA2|]. apply lrel_upd; [done| |done].
    simpl. rewrite app_length, take_length, drop_length. lia.
  - destruct (lget σ i) as [n|] eqn:Hm; [|done]. simpl in Hst. injection Hst as <- <-.
    destruct (lget_inv _ _ _ _ HF Hm) as (x & Hx & -> & Hal). apply post_bind. unfold lreverse. lgetat Hx.
    destruct (put_at tr lclaims i x (mkL (lal x) (rev (lnodes x))) L [] [] _ na c s Hx) as (s2 & E2 & HA2); [|done|].
    { rewrite !app_nil_r. unfold lclaims. simpl. apply nclaims_perm. apply Permutation_rev. }
    rewrite E2. simpl. eapply lgoal_ok; [exact HA2|].
    assert (Hs : σ !! i = Some (Some (length (lnodes x)))).
    { unfold lget in Hm. destruct (σ !! i) as [[?|]|]; congruence. }
    rewrite <- (list_insert_id σ i _ Hs). apply lrel_upd; [done| |done]. simpl. apply rev_length.
Qed.
Lemma lsim_all : simulates (lspec_step tr) (lspec_throw) (run_lop tr) RL lcalm.
Proof.
  intros o s σ σ1 r [L HR] Hst. eapply post_conseq; [by apply (lsim_L L o s σ σ1 r)| |done].
  intros r' s' (-> & HR' & Hc). split_and!; [done|by exists L|done].
Qed.
(** If nothing throws, nothing is lost. *)
Lemma lsim_calm : simulates (lspec_step tr) (λ _ _ _, False) (run_lop tr) (λ s σ, RLL [] s σ ∧ lcalm s) lcalm.
Proof.
  intros o s σ σ1 r [HR Hc] Hst. eapply post_conseq; [by apply (lsim_L [] o s σ σ1 r)| |].
  - intros r' s' (-> & HR' & Hc'). split_and!; [done|done|by apply Hc'|done].
  - intros s' [Hc' _]. done.
Qed.
End lst.
