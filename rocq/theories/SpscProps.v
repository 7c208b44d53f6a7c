(** Theorems about xme::SPSCQueue (private/container/spsc_queue_base.hpp), for one
    producer and one consumer thread running arbitrary programs under every
    interleaving, every stale read the memory orders permit and every pattern of
    throwing constructors. [producer p] and [consumer 0 c] (SpscSpec.v) say that
    the threads keep to their side of the interface, the consumer removing only
    elements that read_available has announced. *)
From stdpp Require Import list list_numbers.
From Coq Require Import ZArith Lia.
From Verif Require Import Base Client SpscModel SpscSpec SpscArith SpscInv SpscStep SpscSim SpscWait.

Section props.
Context {V : Type} (nd : bool) (cap : nat).
Implicit Types (p c : prog (op V) (out V)) (s : st V).

Lemma reachable_inv p c s : pow2 cap → producer p → consumer 0 c → reachable nd cap p c s → inv nd cap s.
Proof.
  intros Hcap Hp Hc [sched Hr]. destruct (run_inv nd cap Hcap sched _ (inv_start nd cap Hcap p c Hp Hc)) as (s' & Hr' & Hi).
  rewrite Hr in Hr'. by injection Hr' as <-.
Qed.

(** C28, C29: no execution runs into undefined behaviour: no data race on a slot,
    no access outside the buffer, no construction over a live element, no read or
    destruction of a dead one, no failing assertion. *)
Theorem spsc_safe p c sched : pow2 cap → producer p → consumer 0 c →
  ∃ s, run nd (Z.of_nat cap) sched (start cap p c) = Ok tt s.
Proof.
  intros Hcap Hp Hc. destruct (run_inv nd cap Hcap sched _ (inv_start nd cap Hcap p c Hp Hc)) as (s' & Hr' & Hi).
  by exists s'.
Qed.

(** C27: the i-th removal takes the i-th element pushed. An element can only have
    lost its value to an earlier callback that moved it out and then threw. *)
Theorem spsc_fifo p c s : pow2 cap → producer p → consumer 0 c → reachable nd cap p c s →
  length (removed (tlog (thC s))) ≤ length (pushed (tlog (thP s))) ∧
  ∀ i x, removed (tlog (thC s)) !! i = Some (Some x) →
    x = pushed (tlog (thP s)) !! i ∨ x = None ∧ spoiled (tlog (thC s)).
Proof.
  intros Hcap Hp Hc Hr. destruct (reachable_inv p c s Hcap Hp Hc Hr) as (inf & d & hm & [] & _). split; [lia|done].
Qed.
(** A consumer that looks at every element it removes gets exactly a prefix of
    the pushed sequence. *)
Theorem spsc_fifo_prefix p c s : pow2 cap → producer p → consumer 0 c → reachable nd cap p c s →
  ¬ spoiled (tlog (thC s)) → None ∉ removed (tlog (thC s)) →
  ∃ rest, map (λ v, Some (Some v)) (pushed (tlog (thP s))) = removed (tlog (thC s)) ++ rest.
Proof.
  intros Hcap Hp Hc Hr Hsp Hnp. destruct (spsc_fifo p c s Hcap Hp Hc Hr) as [Hle Hf].
  set (pl := pushed _) in *. set (rl := removed _) in *.
  exists (map (λ v, Some (Some v)) (drop (length rl) pl)).
  rewrite <- (take_drop (length rl) pl) at 1. rewrite map_app. f_equal. apply list_eq. intros i.
  rewrite list_lookup_fmap. destruct (rl !! i) as [x|] eqn:E.
  - pose proof (lookup_lt_Some _ _ _ E). rewrite lookup_take by done.
    destruct x as [x|]; [|by apply elem_of_list_lookup_2 in E]. destruct (Hf i x E) as [->|[_ ?]]; [|done].
    destruct (lookup_lt_is_Some_2 pl i) as [v ->]; [lia|done].
  - apply lookup_ge_None in E. rewrite lookup_take_ge by lia. done.
Qed.
(** Nothing is lost: between calls, the elements pushed and not yet removed are
    in their slots, in order. *)
Theorem spsc_contents p c s : pow2 cap → producer p → consumer 0 c → reachable nd cap p c s →
  (∃ p', tctl (thP s) = Idle p') → (∃ c', tctl (thC s) = Idle c') → ¬ spoiled (tlog (thC s)) →
  contents cap s = map (λ v, Some (Live v)) (drop (length (removed (tlog (thC s)))) (pushed (tlog (thP s)))).
Proof.
  intros Hcap Hp Hc Hr [p' Ep] [c' Ec] Hsp.
  destruct (reachable_inv p c s Hcap Hp Hc Hr) as (inf & d & hm & [] & [HP _ _] & [(cr & a & _ & _ & _ & _ & HC) _]).
  rewrite Ep in HP. destruct HP as [_ ->]. rewrite Ec in HC. destruct HC as (_ & -> & Hm). simpl in *.
  unfold contents. set (pl := pushed _) in *. set (rl := removed _) in *. apply list_eq. intros i.
  rewrite !list_lookup_fmap, lookup_drop.
  destruct (decide (length rl + i < length pl)) as [Hlt|Hge].
  - rewrite lookup_seq_lt by lia. simpl. destruct (lookup_lt_is_Some_2 pl (length rl + i) Hlt) as [v Hv]. rewrite Hv.
    destruct (q_live (length rl + i) v) as (x & -> & Hx); [lia|by rewrite app_nil_r|]. simpl.
    destruct Hx as [->|(_ & Hh & _)]; [done|]. by destruct Hsp; apply Hm.
  - rewrite lookup_seq_ge, lookup_ge_None_2 by lia. done.
Qed.

(** C30: at most capacity - 1 elements exist at any time. *)
Theorem spsc_capacity p c s : pow2 cap → producer p → consumer 0 c → reachable nd cap p c s →
  gone s ≤ made s < gone s + cap ∧
  length (pushed (tlog (thP s))) < length (removed (tlog (thC s))) + cap.
Proof.
  intros Hcap Hp Hc Hr. destruct (reachable_inv p c s Hcap Hp Hc Hr) as (inf & d & hm & [] & [HP _ _] & _).
  rewrite q_mk, q_gn, app_length. split; [|lia]. pose proof (cap_pos cap Hcap). destruct inf as [v|]; simpl; [|lia].
  destruct (tctl (thP s)) as [|o cd k]; [by destruct HP|]. destruct HP as [_ [[_ ?]|HP]]; [done|].
  destruct o; try done; [|by destruct HP..].
  destruct HP as [[_ ?]|[(_ & ? & _)|(_ & _ & ?)]]; [done..|]. lia.
Qed.
(** C30: the call of emplace that returns false found capacity - 1 elements
    ahead of the removals the producer then knew of ([seen R]), a count between
    the one it knew before and the true one; it changed nothing. The call that
    returns true found fewer. *)
Theorem spsc_push_false p c s n v s' : pow2 cap → producer p → consumer 0 c → reachable nd cap p c s →
  step nd (Z.of_nat cap) P n s = Ok tt s' →
  tlog (thP s') = tlog (thP s) ++ [(OEmplace v, Ret (RBool false))] →
  length (pushed (tlog (thP s))) = seen R (tview (thP s')) + (cap - 1) ∧
  seen R (tview (thP s)) ≤ seen R (tview (thP s')) ≤ length (removed (tlog (thC s))) ∧
  hW s' = hW s ∧ hR s' = hR s ∧ made s' = made s ∧ gone s' = gone s ∧
  ∀ i, scell <$> slots s' !! i = scell <$> slots s !! i.
Proof.
  intros Hcap Hp Hc Hr Hs Hl. pose proof (cap_pos cap Hcap).
  pose proof (resultP nd cap Hcap s n s' _ _ (reachable_inv p c s Hcap Hp Hc Hr) Hs Hl) as (H1 & H2 & H3 & H4 & H5 & H6 & H7).
  simpl. split_and!; try done; lia.
Qed.
Theorem spsc_push_true p c s n v s' : pow2 cap → producer p → consumer 0 c → reachable nd cap p c s →
  step nd (Z.of_nat cap) P n s = Ok tt s' →
  tlog (thP s') = tlog (thP s) ++ [(OEmplace v, Ret (RBool true))] →
  length (pushed (tlog (thP s))) < seen R (tview (thP s')) + (cap - 1) ∧
  pushed (tlog (thP s')) = pushed (tlog (thP s)) ++ [v].
Proof.
  intros Hcap Hp Hc Hr Hs Hl. pose proof (cap_pos cap Hcap).
  pose proof (resultP nd cap Hcap s n s' _ _ (reachable_inv p c s Hcap Hp Hc Hr) Hs Hl) as (H1 & H2).
  simpl. split; [lia|]. rewrite Hl. by rewrite pushed_app.
Qed.

(** C31: the counters lie in [0, capacity - 1] whichever thread asks. *)
Theorem spsc_counts_range p c s o z : pow2 cap → producer p → consumer 0 c → reachable nd cap p c s →
  (o, Ret (RCount z)) ∈ tlog (thP s) ++ tlog (thC s) → (0 <= z < Z.of_nat cap)%Z.
Proof.
  intros Hcap Hp Hc Hr. destruct (reachable_inv p c s Hcap Hp Hc Hr) as (inf & d & hm & _ & [_ _ HP] & [_ HC]).
  intros [Hi|Hi]%elem_of_app; [by eapply HP|by eapply HC].
Qed.
(** C31: a count given to the side that acts on it never exceeds the truth. *)
Theorem spsc_read_available_le p c s n z s' : pow2 cap → producer p → consumer 0 c → reachable nd cap p c s →
  step nd (Z.of_nat cap) C n s = Ok tt s' →
  tlog (thC s') = tlog (thC s) ++ [(OReadAvailable, Ret (RCount z))] →
  (z <= Z.of_nat (length (pushed (tlog (thP s))) - length (removed (tlog (thC s)))))%Z.
Proof.
  intros Hcap Hp Hc Hr Hs Hl.
  by pose proof (resultC nd cap Hcap s n s' _ _ (reachable_inv p c s Hcap Hp Hc Hr) Hs Hl) as (_ & ?).
Qed.
Theorem spsc_write_available_le p c s n z s' : pow2 cap → producer p → consumer 0 c → reachable nd cap p c s →
  step nd (Z.of_nat cap) P n s = Ok tt s' →
  tlog (thP s') = tlog (thP s) ++ [(OWriteAvailable, Ret (RCount z))] →
  (z <= Z.of_nat cap - 1 - Z.of_nat (length (pushed (tlog (thP s))) - length (removed (tlog (thC s)))))%Z.
Proof.
  intros Hcap Hp Hc Hr Hs Hl.
  by pose proof (resultP nd cap Hcap s n s' _ _ (reachable_inv p c s Hcap Hp Hc Hr) Hs Hl) as (_ & ?).
Qed.
(** C31: after write_available() = k, a push fails only after k pushes have
    succeeded. *)
Definition room_kept (lg : list (op V * outcome (out V))) : Prop := ∀ l1 k l2 v l3,
  lg = l1 ++ (OWriteAvailable, Ret (RCount k)) :: l2 ++ (OEmplace v, Ret (RBool false)) :: l3 →
  (k <= Z.of_nat (length (pushed l2)))%Z.
Lemma step_room s t n s' : pow2 cap → inv nd cap s → room_kept (tlog (thP s)) → step nd (Z.of_nat cap) t n s = Ok tt s' →
  room_kept (tlog (thP s')).
Proof.
  intros Hcap Hi Hk Hs. pose proof (step_log _ _ _ _ _ _ Hs) as [Ho Hl]. destruct t; simpl in *; [|by rewrite Ho].
  destruct Hl as [->|(o & r & Hl)]; [done|].
  intros l1 k l2 v l3 E. rewrite Hl, app_comm_cons, app_assoc in E.
  apply snoc_split in E as [(El & [= <- <-] & ->)|(l4 & -> & El)].
  - pose proof (resultP nd cap Hcap s n s' _ _ Hi Hs Hl) as (H1 & H2 & _).
    destruct Hi as (inf & d & hm & HQ & [_ Hroom _] & _). symmetry in El. specialize (Hroom _ _ _ El).
    rewrite El, pushed_app, app_length in H1. simpl in H1. lia.
  - apply (Hk l1 k l2 v l4). by rewrite El, <- app_assoc.
Qed.
Theorem spsc_room p c s l1 k l2 v l3 : pow2 cap → producer p → consumer 0 c → reachable nd cap p c s →
  tlog (thP s) = l1 ++ (OWriteAvailable, Ret (RCount k)) :: l2 ++ (OEmplace v, Ret (RBool false)) :: l3 →
  (k <= Z.of_nat (length (pushed l2)))%Z.
Proof.
  intros Hcap Hp Hc [sched Hr].
  assert (H : ∀ s0, inv nd cap s0 → room_kept (tlog (thP s0)) → run nd (Z.of_nat cap) sched s0 = Ok tt s → room_kept (tlog (thP s))).
  { clear Hr. induction sched as [|[t n] sched IH]; intros s0 Hi Hk; simpl; [by intros [= <-]|]. unfold bind.
    destruct (step_inv nd cap Hcap t n s0 Hi) as (s1 & E & Hi1). rewrite E. apply (IH s1 Hi1). exact (step_room s0 t n s1 Hcap Hi Hk E). }
  intros E. eapply (H _ (inv_start nd cap Hcap p c Hp Hc)); [|done|exact E]. intros m1 ? ? ? ? E'. by destruct m1.
Qed.

(** C32: every call completes within 7 steps of its own thread, whatever the
    other thread does or does not do; any capacity, any programs. *)
Theorem spsc_wait_free p c sched1 sched2 s s' t :
  run nd (Z.of_nat cap) sched1 (start cap p c) = Ok tt s →
  run nd (Z.of_nat cap) sched2 s = Ok tt s' →
  tctl (thr t s) ≠ Idle Done → 7 ≤ steps_of t sched2 →
  length (tlog (thr t s)) < length (tlog (thr t s')).
Proof.
  intros H1 H2 Ht H7. assert (wf (tctl (thr t s))) as Hwf.
  { eapply run_wf; [exact H1|]. by destruct t. }
  eapply (run_progress nd _ 7); [exact H2|done| |done].
  destruct (tctl (thr t s)) as [[]|]; simpl; [done|lia|]. exists 6. split; [done|]. apply (bounded_S 6), Hwf.
Qed.

(** C33: an emplace whose element constructor threw has changed nothing. *)
Theorem spsc_emplace_throws p c s n v s' : pow2 cap → producer p → consumer 0 c → reachable nd cap p c s →
  step nd (Z.of_nat cap) P n s = Ok tt s' → tlog (thP s') = tlog (thP s) ++ [(OEmplace v, Exn)] →
  hW s' = hW s ∧ hR s' = hR s ∧ made s' = made s ∧ gone s' = gone s ∧
  (∀ i, scell <$> slots s' !! i = scell <$> slots s !! i) ∧ contents cap s' = contents cap s.
Proof.
  intros Hcap Hp Hc Hr Hs Hl.
  pose proof (resultP nd cap Hcap s n s' _ _ (reachable_inv p c s Hcap Hp Hc Hr) Hs Hl) as (H1 & H2 & H3 & H4 & H5).
  split_and!; try done. pose proof (step_log _ _ _ _ _ _ Hs) as [Ho _]. simpl in Ho.
  unfold contents. rewrite Hl, Ho, pushed_app, app_nil_r. apply list_fmap_ext. intros _ i _. apply H5.
Qed.
(** C33: a consume whose callback threw leaves the element in the queue, with its
    value unless the callback had moved it out. *)
Theorem spsc_consume_throws p c s n mv s' : pow2 cap → producer p → consumer 0 c → reachable nd cap p c s →
  step nd (Z.of_nat cap) C n s = Ok tt s' → tlog (thC s') = tlog (thC s) ++ [(OConsume mv true, Exn)] →
  hW s' = hW s ∧ hR s' = hR s ∧ made s' = made s ∧ gone s' = gone s ∧
  ∃ x l, contents cap s = Some x :: l ∧ x ≠ Raw ∧ contents cap s' = Some (if mv then Moved else x) :: l.
Proof.
  intros Hcap Hp Hc Hr Hs Hl. pose proof (reachable_inv p c s Hcap Hp Hc Hr) as Hi.
  pose proof (resultC nd cap Hcap s n s' _ _ Hi Hs Hl) as (H0 & H1 & H2 & H3 & H4 & x & Hx & Hraw & H5).
  split_and!; try done. pose proof (step_log _ _ _ _ _ _ Hs) as [Ho _]. simpl in Ho.
  destruct Hi as (inf & d & hm & [] & _).
  unfold contents. rewrite Hl, Ho, removed_app, app_nil_r. set (m := length (removed _)) in *. set (k := length (pushed _)) in *.
  exists (scell x), (map (λ i, scell <$> slots s !! Nat.modulo i cap) (seq (S m) (k - S m))).
  replace (k - m) with (S (k - S m)) by lia. cbn [seq map]. rewrite Hx. split_and!; [done|done|]. f_equal.
  - rewrite H5. by destruct (decide _).
  - apply list_fmap_ext. intros j i Hj. apply lookup_seq in Hj as [-> Hj]. rewrite H5.
    destruct (decide _) as [E|]; [|done]. exfalso. symmetry in E. apply (mod_window cap Hcap) in E; lia.
Qed.

(** C29: after both threads have finished their calls and were joined, the
    destructor terminates, destroys every element still stored, once, and
    touches no other slot: every element pushed is then destroyed exactly once. *)
Theorem spsc_destroy p c s : pow2 cap → producer p → consumer 0 c → reachable nd cap p c s →
  (∃ p', tctl (thP s) = Idle p') → (∃ c', tctl (thC s) = Idle c') →
  ∃ s', destroy_queue (Z.of_nat cap) cap s = Ok true s' ∧
    made s' = length (pushed (tlog (thP s))) ∧ gone s' = length (pushed (tlog (thP s))) ∧
    ∀ i x, slots s' !! i = Some x → scell x = Raw.
Proof.
  intros Hcap Hp Hc Hr Ep Ec.
  destruct (destroy_runs nd cap Hcap s (reachable_inv p c s Hcap Hp Hc Hr) Ep Ec) as (s' & ? & ? & ? & ? & ?).
  exists s'. split_and!; try done; lia.
Qed.
(** C29: during the run, elements pushed (or being pushed) minus elements
    removed (or being removed) are the live ones, and every other slot is raw. *)
Theorem spsc_live p c s : pow2 cap → producer p → consumer 0 c → reachable nd cap p c s →
  length (pushed (tlog (thP s))) ≤ made s ≤ S (length (pushed (tlog (thP s)))) ∧
  length (removed (tlog (thC s))) ≤ gone s ≤ S (length (removed (tlog (thC s)))) ∧
  ∀ q x, slots s !! q = Some x → scell x ≠ Raw → ∃ i, gone s ≤ i < made s ∧ q = i mod cap.
Proof.
  intros Hcap Hp Hc Hr. destruct (reachable_inv p c s Hcap Hp Hc Hr) as (inf & d & hm & [] & _).
  rewrite q_mk, q_gn. split_and!; try (rewrite app_length; destruct inf; simpl; lia); try (destruct d; simpl; lia).
  intros q x Hx Hn. destruct (q_raw q x Hx) as [|(i & ? & ?)]; [done|]. by exists i.
Qed.
End props.

(** C34: for every power of two up to 2^63 the index successor walks through all
    slots in turn. *)
Theorem spsc_next_cycle cap k : pow2 cap → Nat.iter k (next_index (Z.of_nat cap)) 0%Z = Z.of_nat (k mod cap).
Proof.
  intros Hcap. induction k as [|k IH]; [by rewrite Nat.mod_0_l by (pose proof (cap_pos cap Hcap); lia)|].
  change (Nat.iter (S k) (next_index (Z.of_nat cap)) 0%Z) with (next_index (Z.of_nat cap) (Nat.iter k (next_index (Z.of_nat cap)) 0%Z)).
  rewrite IH. apply (next_idx cap Hcap).
Qed.
(** C34: for every other capacity the walk returns to 0 early: some slots are
    never used, so the queue holds fewer than capacity - 1 elements. *)
Theorem spsc_next_not_pow2 cap : (1 < cap < 2 ^ 64)%Z → (∀ e, (0 <= e)%Z → cap ≠ (2 ^ e)%Z) →
  ∃ period, (0 < period < cap)%Z ∧ ∀ k : nat, Nat.iter k (next_index cap) 0%Z = (Z.of_nat k mod period)%Z.
Proof. apply walk_short. Qed.

(** ** Concrete executions *)
Fixpoint push_all (l : list Z) : prog (op Z) (out Z) :=
  match l with
  | [] => Done
  | v :: l' => Do (OEmplace v) (λ r, match r with Ret (RBool true) => push_all l' | _ => Do (OEmplace v) (λ _, push_all l') end)
  end.
(** take what is available, [n] times asking *)
Fixpoint take_all (n : nat) : prog (op Z) (out Z) :=
  match n with
  | O => Done
  | S n' => Do OReadAvailable (λ r,
      match r with
      | Ret (RCount z) => if (0 <? z)%Z then Do (OConsume true false) (λ _, take_all n') else take_all n'
      | _ => Done
      end)
  end.
Lemma push_all_producer l : producer (push_all l).
Proof. induction l as [|v l IH]; [done|]. simpl. split; [intros []; simpl; auto|simpl; auto]. Qed.
Lemma take_all_consumer n cr : consumer cr (take_all n).
Proof.
  revert cr. induction n as [|n IH]; [done|]. intros cr. simpl. intros z. destruct (Z.ltb_spec 0 z); [|apply IH]. simpl.
  split; [done|]. intros _. apply IH.
Qed.

Definition observe (nd : bool) (cap : nat) (sched : list (tid * nat)) (p c : prog (op Z) (out Z)) :=
  match run nd (Z.of_nat cap) sched (start cap p c) with
  | Ok _ s => Some (tlog (thP s), tlog (thC s), contents cap s, (made s, gone s))
  | _ => None
  end.
Definition turns (n : nat) (a : list (tid * nat)) : list (tid * nat) := mjoin (replicate n a).
(** One push by the producer alone, reading the newest index; [thr <> 0]: its
    constructor throws. *)
Definition push1 (thr : nat) : list (tid * nat) := [(P, 0); (P, 0); (P, 9); (P, thr); (P, 0)].
Lemma pow2_4 : pow2 4.
Proof. exists 2%Z. done. Qed.
Lemma pow2_2 : pow2 2.
Proof. exists 1%Z. done. Qed.

(** The queue fills up while the producer still believes nothing was removed; one
    more push succeeds once it reads the newer index. The consumer gets the
    elements in order. *)
Example spsc_fifo_ex :
  observe false 4 (turns 30 [(P, 0); (C, 9)] ++ turns 8 (push1 0 ++ turns 4 [(C, 9)]))
    (push_all [10; 11; 12; 13; 14; 15]%Z) (take_all 6) =
  Some ([(OEmplace 10, Ret (RBool true)); (OEmplace 11, Ret (RBool true)); (OEmplace 12, Ret (RBool true));
         (OEmplace 13, Ret (RBool false)); (OEmplace 13, Ret (RBool false)); (OEmplace 14, Ret (RBool false));
         (OEmplace 14, Ret (RBool false)); (OEmplace 15, Ret (RBool false)); (OEmplace 15, Ret (RBool true))],
        [(OReadAvailable, Ret (RCount 0)); (OReadAvailable, Ret (RCount 1)); (OConsume true false, Ret (RVal (Some 10)));
         (OReadAvailable, Ret (RCount 2)); (OConsume true false, Ret (RVal (Some 11))); (OReadAvailable, Ret (RCount 1));
         (OConsume true false, Ret (RVal (Some 12))); (OReadAvailable, Ret (RCount 1)); (OConsume true false, Ret (RVal (Some 15)));
         (OReadAvailable, Ret (RCount 0))],
        [], (4%nat, 4%nat))%Z.
Proof. vm_compute. reflexivity. Qed.
(** The hypotheses of the theorems above hold of that run. *)
Example spsc_hyps_ex : pow2 4 ∧ producer (push_all [10; 11; 12; 13; 14; 15]%Z) ∧ consumer 0 (take_all 6).
Proof. split_and!; [apply pow2_4|apply push_all_producer|apply take_all_consumer]. Qed.
(** spsc_push_false: the last step of this run returns false from a full queue. *)
Example spsc_push_false_ex : ∃ s s', reachable false 4 (push_all [10; 11; 12; 13]%Z) (take_all 7) s ∧
  step false 4 P 0 s = Ok tt s' ∧ tlog (thP s') = tlog (thP s) ++ [(OEmplace 13%Z, Ret (RBool false))] ∧
  contents 4 s' = [Some (Live 10%Z); Some (Live 11%Z); Some (Live 12%Z)].
Proof.
  eexists _, _. split; [exists (turns 3 (push1 0) ++ [(P, 0); (P, 0)]); vm_compute; reflexivity|]. vm_compute. by split_and!.
Qed.
Example spsc_push_true_ex : ∃ s s', reachable true 2 (push_all [10]%Z) (take_all 7) s ∧
  step true 2 P 0 s = Ok tt s' ∧ tlog (thP s') = tlog (thP s) ++ [(OEmplace 10%Z, Ret (RBool true))].
Proof.
  eexists _, _. split; [exists [(P, 0); (P, 0); (P, 0); (P, 0)]; vm_compute; reflexivity|]. vm_compute. by split_and!.
Qed.
(** spsc_emplace_throws: the second element's constructor throws. *)
Example spsc_emplace_throws_ex : ∃ s s', reachable false 4 (push_all [10; 11]%Z) (take_all 7) s ∧
  step false 4 P 1 s = Ok tt s' ∧ tlog (thP s') = tlog (thP s) ++ [(OEmplace 11%Z, Exn)] ∧
  contents 4 s' = [Some (Live 10%Z)].
Proof.
  eexists _, _. split; [exists (push1 0 ++ [(P, 0); (P, 0); (P, 0)]); vm_compute; reflexivity|]. vm_compute. by split_and!.
Qed.
(** spsc_consume_throws: the callback moves the element out and throws; the next
    consume sees a moved-from element. *)
Definition taker : prog (op Z) (out Z) := Do OReadAvailable (λ r,
  match r with
  | Ret (RCount z) => if (0 <? z)%Z then Do (OConsume true true) (λ _, Do (OConsume false false) (λ _, Done)) else Done
  | _ => Done
  end).
Lemma taker_consumer : consumer 0 taker.
Proof. simpl. intros z. destruct (Z.ltb_spec 0 z); simpl; auto. Qed.
Example spsc_consume_throws_ex : ∃ s s', reachable false 4 (push_all [10; 11]%Z) taker s ∧
  step false 4 C 0 s = Ok tt s' ∧ tlog (thC s') = tlog (thC s) ++ [(OConsume true true, Exn)] ∧
  contents 4 s = [Some (Live 10%Z); Some (Live 11%Z)] ∧ contents 4 s' = [Some Moved; Some (Live 11%Z)].
Proof.
  eexists _, _. split; [exists (push1 0 ++ push1 0 ++ (C, 0) :: (C, 9) :: turns 5 [(C, 0)]); vm_compute; reflexivity|].
  vm_compute. by split_and!.
Qed.
(** spsc_room: two free slots announced, two pushes succeed, the third fails. *)
Definition asker : prog (op Z) (out Z) := Do (OEmplace 1%Z) (λ _, Do OWriteAvailable (λ _, push_all [2; 3; 4]%Z)).
Example spsc_room_ex : match run false 4 (turns 40 [(P, 0)]) (start 4 asker Done) with
  | Ok _ s => take 5 (tlog (thP s))
  | _ => []
  end = [(OEmplace 1, Ret (RBool true)); (OWriteAvailable, Ret (RCount 2)); (OEmplace 2, Ret (RBool true));
         (OEmplace 3, Ret (RBool true)); (OEmplace 4, Ret (RBool false))]%Z.
Proof. vm_compute. reflexivity. Qed.
(** spsc_wait_free: seven steps of the producer among any of the consumer's. *)
Example spsc_wait_free_ex :
  steps_of P (turns 7 [(C, 0); (P, 0); (C, 0)]) = 7 ∧
  match run false 4 (turns 7 [(C, 0); (P, 0); (C, 0)]) (start 4 (push_all [10]%Z) (take_all 7)) with
  | Ok _ s => tlog (thP s)
  | _ => []
  end = [(OEmplace 10%Z, Ret (RBool true))].
Proof. vm_compute. done. Qed.
(** spsc_destroy: two elements are still stored when the queue is destroyed. *)
Example spsc_destroy_ex : ∃ s s', reachable false 4 (push_all [10; 11]%Z) Done s ∧
  contents 4 s = [Some (Live 10%Z); Some (Live 11%Z)] ∧
  destroy_queue 4 4 s = Ok true s' ∧ map scell (slots s') = [Raw; Raw; Raw; Raw] ∧ (made s', gone s') = (2, 2).
Proof.
  eexists _, _. split; [exists (push1 0 ++ push1 0); vm_compute; reflexivity|]. vm_compute. by split_and!.
Qed.
Example spsc_next_cycle_ex : map (λ k, Nat.iter k (next_index 4) 0%Z) (seq 0 6) = [0; 1; 2; 3; 0; 1]%Z.
Proof. reflexivity. Qed.
(** Capacity 6 uses two slots only. *)
Example spsc_next_not_pow2_ex : map (λ k, Nat.iter k (next_index 6) 0%Z) (seq 0 6) = [0; 1; 0; 1; 0; 1]%Z.
Proof. reflexivity. Qed.

(** C34: with a capacity that is not a power of two (the dynamic queue checks it
    by an assertion only), read_available announces elements that do not exist,
    and a consumer acting on it destroys a dead object. *)
Definition popper : prog (op Z) (out Z) := Do OReadAvailable (λ r,
  match r with
  | Ret (RCount z) => if (0 <? z)%Z then Do OPop (λ _, Do OReadAvailable (λ r,
      match r with
      | Ret (RCount z) => if (1 <? z)%Z then Do OPop (λ _, Do OPop (λ _, Done)) else Done
      | _ => Done
      end)) else Done
  | _ => Done
  end).
Theorem spsc_capacity_6_refuted : ∃ p c sched, producer p ∧ consumer 0 c ∧
  run true 6 sched (start (V:=Z) 6 p c) = UB DestroyDead.
Proof.
  exists (push_all [10; 11]%Z), popper, (push1 0 ++ turns 7 [(C, 9)] ++ push1 0 ++ turns 20 [(C, 9)]).
  split; [apply push_all_producer|]. split; [|vm_compute; reflexivity].
  simpl. intros z. destruct (Z.ltb_spec 0 z); simpl; [|done]. split; [done|]. intros z'.
  destruct (Z.ltb_spec 1 z'); simpl; [|done]. split; [lia|]. split; [lia|done].
Qed.
(** The discipline asked of the consumer is needed: pop on an empty queue
    destroys a dead object, or fails the assertion if those are on. *)
Theorem spsc_pop_empty_refuted : ∃ sched, 
  run true 4 sched (start (V:=Z) 4 Done (Do OPop (λ _, Done))) = UB DestroyDead ∧
  run false 4 sched (start (V:=Z) 4 Done (Do OPop (λ _, Done))) = UB AssertFail.
Proof. exists (turns 6 [(C, 0)]). by vm_compute. Qed.

Definition spsc_theorems := (@spsc_safe, @spsc_fifo, @spsc_fifo_prefix, @spsc_contents, @spsc_capacity,
  @spsc_push_false, @spsc_push_true, @spsc_counts_range, @spsc_read_available_le, @spsc_write_available_le,
  @spsc_room, @spsc_wait_free, @spsc_emplace_throws, @spsc_consume_throws, @spsc_destroy, @spsc_live,
  spsc_next_cycle, spsc_next_not_pow2, spsc_capacity_6_refuted, spsc_pop_empty_refuted).
Print Assumptions spsc_theorems.
