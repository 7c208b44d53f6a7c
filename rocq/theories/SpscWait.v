(** Facts about SPSCQueue executions that need no invariant: what a step leaves
    alone, and how many steps a call takes. Also the walk of the indices. *)
From stdpp Require Import list.
From Coq Require Import ZArith Lia.
From Verif Require Import Base Client SpscModel SpscSpec.

Section wait.
Context {V : Type} (nd : bool) (max_size : Z).
Implicit Types (s : st V) (t : tid).
Notation code := (code V (outcome (out V))).
Definition other t : tid := match t with P => C | C => P end.

Lemma exec_frame t n (c : code) s c' s' : exec t n c s = Ok c' s' →
  thr (other t) s' = thr (other t) s ∧ tctl (thr t s') = tctl (thr t s) ∧ tlog (thr t s') = tlog (thr t s).
Proof.
  destruct c as [a|x o k|x o v k|i v k|i mv k|i k|b k]; simpl; unfold bind, ret.
  - by intros [= <- <-].
  - unfold do_load. destruct (hist x s !! _) as [m|]; [|done]. intros [= _ <-]. destruct s, t; done.
  - unfold do_store. intros [= _ <-]. destruct s, t, x; done.
  - unfold do_construct, bind, access. destruct (slots s !! _) as [sl|]; [|done].
    destruct (Nat.leb _ _); [|done]. destruct (scell sl); try done.
    destruct (Nat.eqb n 0); simpl; unfold modify, ret; intros [= _ <-]; destruct s, t; done.
  - unfold do_use, bind, access. destruct (slots s !! _) as [sl|]; [|done].
    destruct (Nat.leb _ _); [|done]. destruct (scell sl); try done; simpl; unfold ret; intros [= _ <-]; destruct s, t; done.
  - unfold do_destroy, bind, access. destruct (slots s !! _) as [sl|]; [|done].
    destruct (Nat.leb _ _); [|done]. destruct (scell sl); try done; simpl; unfold modify; intros [= _ <-]; destruct s, t; done.
  - destruct b; [|done]. by intros [= _ <-].
Qed.
Lemma step_log t n s s' : step nd max_size t n s = Ok tt s' →
  thr (other t) s' = thr (other t) s ∧
  (tlog (thr t s') = tlog (thr t s) ∨ ∃ o r, tlog (thr t s') = tlog (thr t s) ++ [(o, r)]).
Proof.
  unfold step, bind, gets. destruct (tctl (thr t s)) as [[|o k]|o c k] eqn:E.
  - intros [= <-]. auto.
  - intros [= <-]. destruct s, t; simpl; auto.
  - destruct (exec t n c s) as [c' s1| |] eqn:Ex; try done. apply exec_frame in Ex as (Ho & Hc & Hl).
    unfold tview_of, gets, modify. intros [= <-]. destruct s1, t; simpl in *; split; try done; destruct c'; simpl; eauto.
Qed.

(** At most [n] accesses. *)
Fixpoint bounded (n : nat) (c : code) : Prop :=
  match c, n with
  | Leaf _, _ => True
  | _, O => False
  | Load _ _ k, S n' => ∀ z, bounded n' (k z)
  | Store _ _ _ k, S n' => bounded n' k
  | Construct _ _ k, S n' => ∀ b, bounded n' (k b)
  | Use _ _ k, S n' => ∀ x, bounded n' (k x)
  | Destroy _ k, S n' => bounded n' k
  | Assert _ k, S n' => bounded n' k
  end.
Lemma bounded_S n c : bounded n c → bounded (S n) c.
Proof.
  revert c. induction n as [|n IH]; intros c; destruct c; try done; intros H; simpl in *.
  - intros z. by apply IH.
  - by apply IH.
  - intros z. by apply IH.
  - intros z. by apply IH.
  - by apply IH.
  - by apply IH.
Qed.
Lemma run_op_bounded o : bounded 6 (run_op nd max_size o).
Proof.
  destruct o as [v| |mv th| |]; simpl; unfold emplace, pop, consume, read_available, write_available, assert_not_empty.
  - intros z z'. destruct (next_index max_size z =? z')%Z; [done|]. intros [|]; simpl; done.
  - intros z. destruct nd; simpl; [done|]. intros z'. done.
  - intros z. destruct nd, th; simpl; try done; intros z'; done.
  - intros z z'. done.
  - intros z z'. done.
Qed.
Lemma exec_bounded t n (c : code) s c' s' m : exec t n c s = Ok c' s' → bounded (S m) c → bounded m c'.
Proof.
  destruct c as [a|x o k|x o v k|i v k|i mv k|i k|b k]; simpl; unfold bind, ret.
  - intros [= <- _]. by destruct m.
  - destruct (do_load _ _ _ _ s) as [z s1| |]; [|done..]. intros [= <- _]. auto.
  - intros [= <- _]. auto.
  - destruct (do_construct _ _ _ _ s) as [z s1| |]; [|done..]. intros [= <- _]. auto.
  - destruct (do_use _ _ _ s) as [z s1| |]; [|done..]. intros [= <- _]. auto.
  - destruct (do_destroy _ _ s) as [z s1| |]; [|done..]. intros [= <- _]. auto.
  - destruct b; [|done]. intros [= <- _]. auto.
Qed.

(** Steps thread [t] still needs before its log grows: at most [m]. *)
Definition left_in (m : nat) (ct : ctl) : Prop :=
  match ct with
  | Idle Done => False
  | Idle (Do _ _) => 7 ≤ m
  | Busy _ c _ => ∃ m', m = S m' ∧ bounded (S m') c
  end.
Definition wf (ct : @ctl V) : Prop := match ct with Idle _ => True | Busy _ c _ => bounded 6 c end.

Lemma step_own t n s s' : step nd max_size t n s = Ok tt s' → wf (tctl (thr t s)) →
  wf (tctl (thr t s')) ∧
  ∀ m, left_in m (tctl (thr t s)) → length (tlog (thr t s)) < length (tlog (thr t s')) ∨
    tlog (thr t s') = tlog (thr t s) ∧ ∃ m', m = S m' ∧ left_in m' (tctl (thr t s')).
Proof.
  unfold step, bind, gets. destruct (tctl (thr t s)) as [[|o k]|o c k] eqn:E.
  - intros [= <-] _. rewrite E. done.
  - intros [= <-] _. split.
    + destruct s, t; simpl; apply run_op_bounded.
    + intros m Hm. right. destruct m as [|m']; simpl in Hm; [lia|]. split; [by destruct s, t|]. exists m'. split; [done|].
      assert (bounded m' (run_op nd max_size o)).
      { assert (6 ≤ m') as H by lia. clear Hm. induction H; [apply run_op_bounded|by apply bounded_S]. }
      destruct m' as [|m']; [lia|]. destruct s, t; simpl; eexists; done.
  - destruct (exec t n c s) as [c' s1| |] eqn:Ex; try done. intros Hs Hwf. pose proof (exec_frame _ _ _ _ _ _ Ex) as (Ho & Hc & Hl).
    assert (Hb : ∀ m, bounded (S m) c → bounded m c') by (intros m; by apply (exec_bounded _ _ _ _ _ _ m Ex)).
    unfold tview_of, gets, modify in Hs. simpl in Hs.
    assert (Hs' : s' = set_thr t (match c' with Leaf r => Thread (tview (thr t s1)) (Idle (k r)) (tlog (thr t s) ++ [(o, r)])
       | _ => Thread (tview (thr t s1)) (Busy o c' k) (tlog (thr t s)) end) s1) by (by injection Hs).
    assert (Et : thr t s' = match c' with Leaf r => Thread (tview (thr t s1)) (Idle (k r)) (tlog (thr t s) ++ [(o, r)])
       | _ => Thread (tview (thr t s1)) (Busy o c' k) (tlog (thr t s)) end) by (rewrite Hs'; by destruct t, s1).
    assert (Hcs : (∃ r, c' = Leaf r ∧ thr t s' = Thread (tview (thr t s1)) (Idle (k r)) (tlog (thr t s) ++ [(o, r)])) ∨
       (∀ r, c' ≠ Leaf r) ∧ thr t s' = Thread (tview (thr t s1)) (Busy o c' k) (tlog (thr t s))).
    { rewrite Et. destruct c'; eauto; right; done. }
    clear Et Hs' Hs. destruct Hcs as [(r & -> & ->)|(Hr & ->)]; cbn [tctl tlog wf left_in].
    + split; [done|]. intros m _. left. rewrite app_length. simpl. lia.
    + split; [apply bounded_S, (Hb 5), Hwf|]. intros m (m' & -> & Hm). right. split; [done|]. exists m'. split; [done|].
      destruct m' as [|m']; [|exists m'; auto]. specialize (Hb 0 Hm). destruct c'; try done. by destruct (Hr a).
Qed.
Lemma step_other t u n s s' : step nd max_size u n s = Ok tt s' → t ≠ u → thr t s' = thr t s.
Proof. intros H%step_log Hne. destruct t, u; try done; apply H. Qed.

Lemma run_wf sched s s' t : run nd max_size sched s = Ok tt s' → wf (tctl (thr t s)) → wf (tctl (thr t s')).
Proof.
  revert s. induction sched as [|[u n] sched IH]; intros s; [by intros [= <-]|]. simpl. unfold bind.
  destruct (step nd max_size u n s) as [[] s1| |] eqn:Es; try done. intros Hr Hwf. apply (IH s1 Hr).
  destruct (decide (t = u)) as [->|Hne]; [by apply (step_own _ _ _ _ Es)|by rewrite (step_other _ _ _ _ _ Es Hne)].
Qed.
Lemma run_grows sched s s' t : run nd max_size sched s = Ok tt s' → length (tlog (thr t s)) ≤ length (tlog (thr t s')).
Proof.
  revert s. induction sched as [|[u n] sched IH]; intros s; [by intros [= <-]|]. simpl. unfold bind.
  destruct (step nd max_size u n s) as [[] s1| |] eqn:Es; try done. intros Hr. specialize (IH s1 Hr).
  assert (length (tlog (thr t s)) ≤ length (tlog (thr t s1))); [|lia].
  destruct (decide (t = u)) as [->|Hne]; [|by rewrite (step_other _ _ _ _ _ Es Hne)].
  apply step_log in Es as [_ [->|(o & r & ->)]]; [done|]. rewrite app_length. lia.
Qed.
Lemma run_progress m sched s s' t : run nd max_size sched s = Ok tt s' → wf (tctl (thr t s)) →
  left_in m (tctl (thr t s)) → m ≤ steps_of t sched → length (tlog (thr t s)) < length (tlog (thr t s')).
Proof.
  revert m s. induction sched as [|[u n] sched IH]; intros m s.
  - intros _ _ Hl Hm. unfold steps_of in Hm. simpl in Hm. assert (m = 0) as -> by lia. exfalso.
    destruct (tctl (thr t s)) as [[]|]; simpl in Hl; [done|lia|]. by destruct Hl as (? & ? & _).
  - simpl. unfold bind. destruct (step nd max_size u n s) as [[] s1| |] eqn:Es; try done. intros Hr Hwf Hl Hm.
    unfold steps_of in Hm. rewrite filter_cons in Hm. simpl in Hm. destruct (decide (u = t)) as [->|Hne].
    + destruct (step_own _ _ _ _ Es Hwf) as [Hwf1 H1]. specialize (H1 m Hl) as [Hlt|(E & m' & -> & Hl')].
      * pose proof (run_grows _ _ _ t Hr). lia.
      * rewrite <- E. apply (IH m' s1 Hr Hwf1 Hl'). simpl in Hm. unfold steps_of. lia.
    + rewrite <- (step_other t u _ _ _ Es) in * by done. by apply (IH m s1 Hr).
Qed.
End wait.

(** ** The walk of the indices for capacities that are not powers of two *)
Local Open Scope Z_scope.
Lemma low_mask j m k : (∀ i, 0 <= i < j → Z.testbit m i = true) → 0 <= j → 0 <= k < 2 ^ j → Z.land k m = k.
Proof.
  intros Hm Hj Hk. apply Z.bits_inj'. intros i Hi. rewrite Z.land_spec. destruct (decide (i < j)).
  - rewrite Hm by lia. by rewrite andb_true_r.
  - assert (Z.testbit k i = false) as ->; [|done].
    destruct (decide (k = 0)) as [->|]; [by apply Z.bits_0|]. apply Z.bits_above_log2; [lia|].
    apply Z.lt_le_trans with j; [|lia]. apply Z.log2_lt_pow2; lia.
Qed.
Lemma land_bit j m : 0 <= j → Z.testbit m j = false → Z.land (2 ^ j) m = 0.
Proof.
  intros Hj Hm. apply Z.bits_inj'. intros i Hi. rewrite Z.land_spec, Z.bits_0, Z.pow2_bits_eqb by lia.
  destruct (Z.eqb_spec j i) as [->|]; [by rewrite Hm|done].
Qed.
Lemma first_zero m : 0 < m → (∀ e, 0 <= e → m + 1 ≠ 2 ^ e) →
  ∃ j, 0 <= j ∧ Z.testbit m j = false ∧ 2 ^ j < m + 1 ∧ ∀ i, 0 <= i < j → Z.testbit m i = true.
Proof.
  intros Hm Hn.
  assert (H : ∀ n : nat, (∃ j, 0 <= j ∧ Z.testbit m j = false ∧ 2 ^ j < m + 1 ∧ ∀ i, 0 <= i < j → Z.testbit m i = true) ∨
     ∀ i, 0 <= i < Z.of_nat n → i < Z.log2 m → Z.testbit m i = true).
  { induction n as [|n [IH|IH]]; [right; lia|by left|]. destruct (decide (Z.of_nat n < Z.log2 m)) as [Hlt|].
    - destruct (Z.testbit m (Z.of_nat n)) eqn:E.
      + right. intros i Hi Hl. destruct (decide (i = Z.of_nat n)) as [->|]; [done|]. apply IH; lia.
      + left. exists (Z.of_nat n). split_and!; [lia|done| |].
        * assert (2 ^ Z.of_nat n < 2 ^ Z.log2 m) by (apply Z.pow_lt_mono_r; lia). pose proof (Z.log2_spec m Hm). lia.
        * intros i Hi. apply IH; lia.
    - right. intros i Hi Hl. apply IH; lia. }
  destruct (H (Z.to_nat (Z.log2 m))) as [|Hall]; [done|]. exfalso.
  pose proof (Z.log2_nonneg m). apply (Hn (Z.succ (Z.log2 m))); [lia|].
  assert (m = Z.ones (Z.succ (Z.log2 m))) as E.
  { apply Z.bits_inj'. intros i Hi. rewrite Z.testbit_ones_nonneg by lia.
    destruct (Z.ltb_spec i (Z.succ (Z.log2 m))).
    - destruct (decide (i = Z.log2 m)) as [->|]; [by apply Z.bit_log2|]. apply Hall; lia.
    - apply Z.bits_above_log2; lia. }
  rewrite E at 1. rewrite Z.ones_equiv. lia.
Qed.
Lemma walk_short cap : 1 < cap < 2 ^ 64 → (∀ e, 0 <= e → cap ≠ 2 ^ e) →
  ∃ p, 0 < p < cap ∧ ∀ k : nat, Nat.iter k (next_index cap) 0 = Z.of_nat k mod p.
Proof.
  intros Hc Hn. destruct (first_zero (cap - 1)) as (j & Hj & Hz & Hlt & Hl); [lia| |].
  { intros e He E. apply (Hn e He). lia. }
  assert (Hp : 0 < 2 ^ j) by (apply Z.pow_pos_nonneg; lia).
  exists (2 ^ j). split; [lia|]. induction k as [|k IH]; [done|].
  change (Nat.iter (S k) (next_index cap) 0) with (next_index cap (Nat.iter k (next_index cap) 0)). rewrite IH.
  unfold next_index, wrap. rewrite (Z.mod_small (cap - 1)) by lia.
  pose proof (Z.mod_pos_bound (Z.of_nat k) (2 ^ j) Hp) as Hb. rewrite (Z.mod_small (_ + 1)) by lia.
  rewrite Nat2Z.inj_succ. unfold Z.succ. rewrite <- (Z.add_mod_idemp_l _ 1) by lia.
  destruct (decide (Z.of_nat k mod 2 ^ j + 1 = 2 ^ j)) as [E|].
  - rewrite E, Z.mod_same by lia. by apply land_bit.
  - rewrite (Z.mod_small (Z.of_nat k mod 2 ^ j + 1)) by lia. apply (low_mask j); [done|lia|lia].
Qed.
