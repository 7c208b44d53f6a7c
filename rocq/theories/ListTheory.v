(** LinkedList: which nodes a call keeps. *)
From stdpp Require Import list.
From Coq Require Import Lia.
From Verif Require Import Base Client ListModel ListSpec ListRun ListObsSpec.
From Verif Require ListSim ListHistory ListObs ListChain.

Section iter.
Context {V : Type}.
Implicit Types (xs ys a b : list (nat * V)) (σ : ast V).
Lemma in_fst n (v : V) xs : (n, v) ∈ xs → n ∈ xs.*1.
Proof. intros. apply elem_of_list_fmap. by exists (n, v). Qed.
(** The node [(n, v)] is still in some list of [σ']. *)
Definition kept σ' n (v : V) : Prop := ∃ j xs', get σ' j = Some xs' ∧ (n, v) ∈ xs'.
Lemma kept_put σ σ1 i xs xs' j ys n v :
  ls σ1 = <[i := Some xs']> (ls σ) → get σ i = Some xs → get σ j = Some ys → (n, v) ∈ ys →
  (i = j → (n, v) ∈ xs → (n, v) ∈ xs') → kept σ1 n v.
Proof.
  intros E Hi Hj Hn Hk. apply ListSim.get_Some in Hi, Hj. destruct (decide (i = j)) as [<-|Hne].
  - rewrite Hi in Hj. injection Hj as <-. exists i, xs'. split; [|auto]. apply ListSim.get_Some. rewrite E.
    apply list_lookup_insert. by eapply lookup_lt_Some.
  - exists j, ys. split; [|done]. apply ListSim.get_Some. rewrite E. by rewrite list_lookup_insert_ne.
Qed.
Lemma kept_add σ xs j ys n v : get σ j = Some ys → (n, v) ∈ ys → kept (add σ xs) n v.
Proof.
  intros Hj Hn. exists j, ys. split; [|done]. apply ListSim.get_Some in Hj. apply ListSim.get_Some. simpl.
  rewrite lookup_app_l; [done|]. by eapply lookup_lt_Some.
Qed.
Lemma take_or_drop xs m n (v : V) : (n, v) ∈ xs → n ∈ take m xs.*1 ∨ n ∈ drop m xs.*1.
Proof.
  intros Hn%in_fst. rewrite <- (take_drop m xs.*1) in Hn. by apply elem_of_app in Hn.
Qed.

Lemma kept_step o σ σ1 r i xs n v :
  (∀ j ys, get σ j = Some ys → NoDup ys.*1) →
  spec_step o σ = Some (σ1, r) → get σ i = Some xs → (n, v) ∈ xs →
  (∀ j ys, j ≠ i → get σ j = Some ys → n ∉ ys.*1) →
  n ∉ erases o σ → n ∉ overwrites o σ → kept σ1 n v.
Proof.
  intros Hnd Hst Hg Hn Hd He Hw.
  destruct o; cbn [spec_step] in Hst.
  - injection Hst as <- _. by eapply kept_add.
  - injection Hst as <- _. by eapply (kept_add σ).
  - injection Hst as <- _. by eapply (kept_add σ).
  - destruct (get σ j) as [ys|] eqn:Hj; [|done]. injection Hst as <- _. by eapply (kept_add σ).
  - destruct (get σ j) as [ys|] eqn:Hj; [|done]. injection Hst as <- _.
    destruct (decide (j = i)) as [->|Hne].
    + rewrite Hg in Hj. injection Hj as <-. exists (length (ls σ)), xs. split; [|done]. apply ListSim.get_Some. simpl.
      rewrite lookup_app_r by (rewrite insert_length; lia). rewrite insert_length, Nat.sub_diag. done.
    + eapply kept_add; [rewrite ListHistory.get_put_ne; done|done].
  - destruct (get σ i0) as [ys|] eqn:Hj; [|done]. injection Hst as <- _.
    destruct (decide (i0 = i)) as [->|Hne].
    + exfalso. apply He. simpl. unfold ids. rewrite Hg. by eapply in_fst.
    + exists i, xs. split; [|done]. apply ListSim.get_Some in Hg. apply ListSim.get_Some. simpl. by rewrite list_lookup_insert_ne.
  - destruct (get σ i0) as [xs0|] eqn:Hj; [|done]. cbn in Hst. destruct (get σ j) as [ys|] eqn:Hjj; [|done].
    cbn in Hst. injection Hst as <- _. eapply (kept_put σ _ i0 xs0); [done|done|done|done|].
    intros -> Hn0. rewrite Hg in Hj. injection Hj as <-. simpl in He, Hw. unfold ids in He, Hw. rewrite Hg, Hjj in He, Hw.
    destruct (Nat.eqb_spec i j) as [->|Hne].
    + rewrite Hg in Hjj. injection Hjj as <-. by rewrite ListHistory.overwrite_self.
    + destruct (take_or_drop xs (length ys.*1) n v Hn); done.
  - destruct (get σ i0) as [xs0|] eqn:Hj; [|done]. cbn in Hst. destruct (get σ j) as [ys|] eqn:Hjj; [|done].
    cbn in Hst. injection Hst as <- _. assert (Hni : i0 ≠ i).
    { intros ->. rewrite Hg in Hj. injection Hj as <-. apply He. simpl. unfold ids. rewrite Hg. by eapply in_fst. }
    destruct (Nat.eqb_spec i0 j) as [->|Hne].
    + exists i, xs. by rewrite ListHistory.get_put_ne.
    + destruct (decide (j = i)) as [->|Hji].
      * rewrite Hg in Hjj. injection Hjj as <-. exists i0, xs.
        rewrite ListHistory.get_put_ne by done. split; [by eapply ListHistory.get_put|done].
      * exists i, xs. by rewrite !ListHistory.get_put_ne.
  - destruct (get σ i0) as [xs0|] eqn:Hj; [|done]. injection Hst as <- _.
    eapply (kept_put σ _ i0 xs0); [done|done|done|done|].
    intros -> Hn0. rewrite Hg in Hj. injection Hj as <-. simpl in He, Hw. unfold ids in He, Hw. rewrite Hg in He, Hw.
    destruct (take_or_drop xs (length vs) n v Hn); done.
  - destruct (get σ i0) as [xs0|] eqn:Hj; [|done]. injection Hst as <- _.
    eapply (kept_put σ _ i0 xs0); [done|done|done|done|].
    intros -> Hn0. exfalso. apply He. simpl. unfold ids. rewrite Hg. by eapply in_fst.
  - destruct (get σ i0) as [xs0|] eqn:Hj; [|done]. injection Hst as <- _.
    eapply (kept_put σ _ i0 xs0); [done|done|done|done|]. intros _ ?. rewrite elem_of_cons. by right.
  - destruct (get σ i0) as [xs0|] eqn:Hj; [|done]. injection Hst as <- _.
    eapply (kept_put σ _ i0 xs0); [done|done|done|done|]. intros _ ?. rewrite elem_of_cons. by right.
  - destruct (get σ i0) as [[|x xs0]|] eqn:Hj; [done| |done]. injection Hst as <- _.
    eapply (kept_put σ _ i0 (x :: xs0)); [done|done|done|done|]. intros -> [<-|?]%elem_of_cons; [|done].
    exfalso. apply He. simpl. unfold ids. rewrite Hj. simpl. rewrite ?take_0. rewrite elem_of_cons. by left.
  - destruct (get σ i0) as [xs0|] eqn:Hj; [|done]. cbn in Hst. destruct (at_pos i0 p xs0) as [[a b]|] eqn:Hp; [|done].
    injection Hst as <- _. apply ListSim.at_pos_spec in Hp as (-> & _).
    eapply (kept_put σ _ i0); [done|done|done|done|]. intros _. rewrite !elem_of_app, elem_of_cons. tauto.
  - destruct (get σ i0) as [xs0|] eqn:Hj; [|done]. cbn in Hst. destruct (at_pos i0 p xs0) as [[a b]|] eqn:Hp; [|done].
    injection Hst as <- _. apply ListSim.at_pos_spec in Hp as (-> & _).
    eapply (kept_put σ _ i0); [done|done|done|done|]. intros _. rewrite !elem_of_app. tauto.
  - destruct (get σ i0) as [xs0|] eqn:Hj; [|done]. cbn in Hst. destruct (at_pos i0 p xs0) as [[a b]|] eqn:Hp; [|done].
    cbn in Hst. destruct (get σ j) as [ys|] eqn:Hjj; [|done]. cbn in Hst.
    destruct (at_pos j q ys) as [[c d]|] eqn:Hq; [|done]. cbn in Hst. destruct (last c) as [y|] eqn:Hy; [|done].
    injection Hst as <- _. apply ListSim.at_pos_spec in Hp as (-> & _).
    eapply (kept_put σ _ i0); [done|done|done|done|]. intros _. rewrite !elem_of_app, elem_of_cons. tauto.
  - destruct (get σ i0) as [xs0|] eqn:Hj; [|done]. cbn in Hst. destruct (at_pos i0 p xs0) as [[a b]|] eqn:Hp; [|done].
    cbn in Hst. destruct b as [|y b]; [done|]. injection Hst as <- _. assert (Hp2 := Hp). apply ListSim.at_pos_spec in Hp2 as (-> & _).
    eapply (kept_put σ _ i0); [done|done|done|done|]. intros ->. rewrite !elem_of_app, elem_of_cons.
    intros [?|[<-|?]]; auto. exfalso. apply He. simpl. rewrite Hj, Hp. simpl. by apply elem_of_list_singleton.
  - destruct (get σ i0) as [xs0|] eqn:Hj; [|done]. cbn in Hst. destruct (at_pos i0 p xs0) as [[a b]|] eqn:Hp; [|done].
    cbn in Hst. destruct (until q b) as [[ys c]|] eqn:Hq; [|done]. injection Hst as <- _.
    assert (Hp2 := Hp). apply ListSim.at_pos_spec in Hp2 as (-> & _). assert (Hq2 := Hq). apply ListSim.until_spec in Hq2 as (-> & _).
    eapply (kept_put σ _ i0); [done|done|done|done|]. intros ->. rewrite !elem_of_app.
    intros [?|[Hy|?]]; auto. exfalso. apply He. simpl. rewrite Hj, Hp. simpl. rewrite Hq. by eapply in_fst.
  - destruct (get σ i0) as [xs0|] eqn:Hj; [|done]. injection Hst as <- _.
    eapply (kept_put σ _ i0); [done|done|done|done|]. intros _ H. apply elem_of_list_In, in_rev. rewrite rev_involutive.
    by apply elem_of_list_In.
  - destruct (get σ i0) as [xs0|] eqn:Hj; [|done]. cbn in Hst. destruct (at_pos i0 p xs0) as [[a b]|] eqn:Hp; [|done].
    cbn in Hst. destruct (last a) as [y|] eqn:Hy; [|done]. injection Hst as <- _.
    destruct p as [|ip|np]; [done| |].
    { simpl in Hp. destruct (Nat.eqb i0 ip); [|done]. by injection Hp as <- <-. }
    apply ListSim.cut_after_spec in Hp as (-> & a' & w & ->). 
    assert (Hlen : length (a' ++ [(np, w)]) - 1 = length a') by (rewrite app_length; simpl; lia).
    rewrite Hlen, take_app in *.
    eapply (kept_put σ _ i0); [done|done|done|done|]. intros _. rewrite !elem_of_app, !elem_of_cons, elem_of_nil.
    intros [[?|[Hx|[]]]|?]; auto. exfalso. injection Hx as -> ->. apply Hw. simpl. by apply elem_of_list_singleton.
  - destruct (get σ i0) as [xs0|] eqn:Hj; [|done]. cbn in Hst. destruct (at_pos i0 p xs0) as [[a b]|] eqn:Hp; [|done].
    cbn in Hst. destruct (last a) as [y|] eqn:Hy; [|done]. injection Hst as <- _. by exists i, xs.
  - destruct (get σ i0) as [xs0|] eqn:Hj; [|done]. cbn in Hst. destruct (at_pos i0 p xs0) as [[a b]|] eqn:Hp; [|done].
    injection Hst as <- _. by exists i, xs.
  - destruct (get σ i0) as [xs0|] eqn:Hj; [|done]. injection Hst as <- _. by exists i, xs.
  - destruct (get σ i0) as [xs0|] eqn:Hj; [|done]. injection Hst as <- _. by exists i, xs.
  - destruct (get σ i0) as [xs0|] eqn:Hj; [|done]. injection Hst as <- _. by exists i, xs.
  - destruct (get σ i0) as [xs0|] eqn:Hj; [|done]. injection Hst as <- _. by exists i, xs.
  - destruct (get σ i0) as [[|x xs0]|] eqn:Hj; [done| |done]. injection Hst as <- _. by exists i, xs.
  - destruct (get σ j) as [ys|] eqn:Hj; [|done]. cbn in Hst. destruct (rng f l ys) as [zs|]; [|done].
    injection Hst as <- _. by eapply (kept_add σ).
  - destruct (get σ i0) as [xs0|] eqn:Hj; [|done]. cbn in Hst. destruct (at_pos i0 p xs0) as [[a b]|] eqn:Hp; [|done].
    cbn in Hst. destruct (get σ j) as [ys|] eqn:Hjj; [|done]. cbn in Hst.
    destruct (rng f l ys) as [zs|]; [|done]. cbn in Hst. destruct (pos_in p zs); [done|].
    injection Hst as <- _. apply ListSim.at_pos_spec in Hp as (-> & _).
    eapply (kept_put σ _ i0); [done|done|done|done|]. intros _. rewrite !elem_of_app. tauto.
  - destruct (get σ i0) as [xs0|] eqn:Hj; [|done]. cbn in Hst. destruct (get σ j) as [ys|] eqn:Hjj; [|done].
    cbn in Hst. destruct (rng f l ys) as [zs|] eqn:Hr; [|done]. injection Hst as <- _.
    eapply (kept_put σ _ i0 xs0); [done|done|done|done|].
    intros -> Hn0. rewrite Hg in Hj. injection Hj as <-. simpl in He, Hw. unfold range_ids, ids in He, Hw.
    rewrite Hg, Hjj, Hr in He, Hw. destruct (take_or_drop xs (length zs.*1) n v Hn); done.
Qed.

Lemma overwrite_take_self xs m : overwrite xs (take m (vals xs)) ++ drop m xs = xs.
Proof.
  revert m. induction xs as [|[n v] xs IH]; intros [|m]; try done. unfold overwrite, vals in *. simpl. f_equal. apply IH.
Qed.
Lemma kept_same σ σ' i xs n v : ls σ' = ls σ → get σ i = Some xs → (n, v) ∈ xs → kept σ' n v.
Proof. intros E Hg Hn. exists i, xs. split; [|done]. unfold get in *. by rewrite E. Qed.
Lemma kept_throw o σ σ1 i xs n v :
  spec_throw o σ σ1 → get σ i = Some xs → (n, v) ∈ xs → n ∉ erases o σ → n ∉ overwrites o σ → kept σ1 n v.
Proof.
  intros Ht Hg Hn He Hw.
  destruct o; cbn [spec_throw] in Ht; try done.
  - destruct Ht as (m & _ & E & _). by eapply kept_same.
  - destruct Ht as (m & _ & E & _). by eapply kept_same.
  - destruct Ht as (xs' & _ & m & _ & E & _). by eapply kept_same.
  - destruct Ht as (ys & Hys & xs0 & Hx0 & Ht).
    assert (Hls : ∃ zs, ls σ1 = <[i0 := Some zs]> (ls σ) ∧ (i0 = j → zs = xs0)).
    { destruct Ht as [(m & Hm1 & Hm2 & E & _)|(m & Hm & E & _)]; eexists; (split; [exact E|]).
      - intros ->. rewrite Hx0 in Hys. injection Hys as <-. apply overwrite_take_self.
      - intros ->. rewrite Hx0 in Hys. injection Hys as <-. unfold vals in Hm. rewrite fmap_length in Hm. lia. }
    destruct Hls as (zs & E & Hz). eapply kept_put; [exact E|exact Hx0|exact Hg|done|].
    intros -> Hn0. destruct (Nat.eqb_spec i j) as [->|Hne]; [by rewrite Hz|].
    simpl in He, Hw. unfold ids in He, Hw. rewrite Hys, Hg in He, Hw. rewrite (proj2 (Nat.eqb_neq i j) Hne) in Hw.
    destruct (take_or_drop xs (length ys.*1) n v Hn); done.
  - destruct Ht as (xs0 & Hx0 & Ht). assert (∃ zs, ls σ1 = <[i0 := Some zs]> (ls σ)) as (zs & E).
    { destruct Ht as [(m & Hm1 & Hm2 & E & _)|(m & Hm & E & _)]; eauto. }
    eapply kept_put; [exact E|exact Hx0|exact Hg|done|]. intros -> Hn0.
    simpl in He, Hw. unfold ids in He, Hw. rewrite Hg in He, Hw.
    destruct (take_or_drop xs (length vs) n v Hn); done.
  - destruct Ht as (E & _). by eapply kept_same.
  - destruct Ht as (E & _). by eapply kept_same.
  - destruct Ht as (E & _). by eapply kept_same.
  - destruct Ht as (xs0 & a & b & m & Hx0 & Hp & Hm & E & _). apply ListSim.at_pos_spec in Hp as (-> & _).
    eapply kept_put; [exact E|exact Hx0|exact Hg|done|]. intros _. rewrite !elem_of_app. tauto.
  - destruct Ht as (E & _). by eapply kept_same.
  - destruct Ht as (E & _). by eapply kept_same.
  - destruct Ht as (ys & r & _ & _ & m & _ & E & _). by eapply kept_same.
  - destruct Ht as (xs0 & a & b & ys & r & m & Hx0 & Hp & _ & _ & Hm & E & _). apply ListSim.at_pos_spec in Hp as (-> & _).
    eapply kept_put; [exact E|exact Hx0|exact Hg|done|]. intros _. rewrite !elem_of_app. tauto.
  - destruct Ht as (ys & r & Hys & Hr & xs0 & Hx0 & Ht). assert (∃ zs, ls σ1 = <[i0 := Some zs]> (ls σ)) as (zs & E).
    { destruct Ht as [(m & Hm1 & Hm2 & E & _)|(m & Hm & E & _)]; eauto. }
    eapply kept_put; [exact E|exact Hx0|exact Hg|done|]. intros -> Hn0.
    simpl in He, Hw. unfold range_ids, ids in He, Hw. rewrite Hg, Hys, Hr in He, Hw.
    destruct (take_or_drop xs (length r.*1) n v Hn); done.
Qed.
End iter.
