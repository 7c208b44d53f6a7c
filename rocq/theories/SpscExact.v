(** What the calls of xme::SPSCQueue return when the other thread stays out of
    their way: the counters are then exact and a push succeeds exactly if the
    queue is not full. Also which results calls can have at all. *)
From stdpp Require Import list list_numbers.
From Coq Require Import ZArith Lia.
From Verif Require Import Base Client SpscModel SpscSpec SpscArith SpscInv SpscStep SpscSim SpscWait SpscProps.

Section exact.
Context {V : Type} (nd : bool) (cap : nat) (Hcap : pow2 cap).
Notation idx := (idx cap).
Notation zc := (Z.of_nat cap).
Implicit Types (p c : prog (op V) (out V)) (s : st V).
Notation nP s := (length (pushed (tlog (thP s)))).
Notation nC s := (length (removed (tlog (thC s)))).
Definition newest (x : var) s : nat := match x with W => nP s | R => nC s end.

(** A load far enough ahead reads the newest store. *)
Lemma fresh_load t x n s : inv nd cap s → nP s ≤ n →
  newest x s = Nat.min (seen x (tview (thr t s)) + n) (length (hist x s) - 1) ∧
  ∃ m, hist x s !! newest x s = Some m ∧ mval m = idx (newest x s).
Proof.
  intros (inf & d & hm & [] & _) Hn.
  assert (seen x (tview (thr t s)) ≤ newest x s) by (destruct t, x; simpl; lia).
  assert (length (hist x s) = S (newest x s)) as El by (destruct x; simpl; lia).
  assert (newest x s ≤ n) by (destruct x; simpl; lia).
  split; [lia|]. destruct (lookup_lt_is_Some_2 (hist x s) (newest x s)) as [m Hm]; [lia|]. exists m. split; [done|].
  destruct x; simpl in *; [by apply q_mW in Hm as [? _]|by apply q_mR in Hm as [? _]].
Qed.
Lemma step_begin t n s o k : tctl (thr t s) = Idle (Do o k) →
  step nd zc t n s = Ok tt (set_thr t (Thread (tview (thr t s)) (Busy o (run_op nd zc o) k) (tlog (thr t s))) s).
Proof. intros E. unfold step, bind, gets. by rewrite E. Qed.
Lemma step_keeps t n s s' : inv nd cap s → step nd zc t n s = Ok tt s' → inv nd cap s'.
Proof. intros Hi E. destruct (step_inv nd cap Hcap t n s Hi) as (s2 & E2 & Hi2). rewrite E in E2. by injection E2 as <-. Qed.
(** A step that loads the newest store and goes on. *)
Lemma fresh_step t n s o x mo kk k : inv nd cap s → nP s ≤ n → tctl (thr t s) = Busy o (Load x mo kk) k →
  ∃ w, step nd zc t n s = Ok tt (set_thr t (fin w o (kk (idx (newest x s))) k (tlog (thr t s))) s).
Proof.
  intros Hi Hn E. destruct (fresh_load t x n s Hi Hn) as (Ets & m & Hm & Hv).
  eexists. rewrite (step_load nd cap t n s _ _ _ _ _ m _ E Ets Hm), Hv. reflexivity.
Qed.

Lemma set_thr_thr t th s : thr t (set_thr t th s) = th.
Proof. by destruct t. Qed.
Lemma set_thr_twice t th th' s : set_thr t th' (set_thr t th s) = set_thr t th' s.
Proof. by destruct t, s. Qed.
Lemma set_thr_nP t th s : tlog th = tlog (thr t s) → nP (set_thr t th s) = nP s.
Proof. destruct t; simpl; [by intros ->|done]. Qed.
Lemma set_thr_newest t th s x : tlog th = tlog (thr t s) → newest x (set_thr t th s) = newest x s.
Proof. destruct t, x; simpl; try done; by intros ->. Qed.

(** Both loads of a count read the newest stores. *)
Lemma solo_loads t s o k mo1 mo2 (f : Z → Z → Z) n1 n2 n3 : inv nd cap s →
  tctl (thr t s) = Idle (Do o k) → nP s ≤ n2 → nP s ≤ n3 →
  run_op nd zc o = Load W mo1 (λ w, Load R mo2 (λ r, Leaf (Ret (RCount (f w r))))) →
  ∃ w, run nd zc [(t, n1); (t, n2); (t, n3)] s =
    Ok tt (set_thr t (Thread w (Idle (k (Ret (RCount (f (idx (nP s)) (idx (nC s)))))))
      (tlog (thr t s) ++ [(o, Ret (RCount (f (idx (nP s)) (idx (nC s)))))])) s).
Proof.
  intros Hi E H2 H3 Eo. cbn [run]. unfold bind. pose proof (step_begin t n1 s o k E) as E1. rewrite E1.
  pose proof (step_keeps _ _ _ _ Hi E1) as Hi1. clear E1. set (th1 := Thread _ _ _) in *. set (s1 := set_thr t th1 s) in *.
  assert (El1 : tlog (thr t s1) = tlog (thr t s)) by (unfold s1; by rewrite set_thr_thr).
  assert (EP : nP s1 = nP s) by (by apply set_thr_nP).
  assert (Ec1 : tctl (thr t s1) = Busy o (run_op nd zc o) k) by (unfold s1; by rewrite set_thr_thr).
  rewrite Eo in Ec1. destruct (fresh_step t n2 s1 _ _ _ _ _ Hi1 ltac:(lia) Ec1) as [w2 E2]. rewrite E2.
  pose proof (step_keeps _ _ _ _ Hi1 E2) as Hi2. clear E2. rewrite El1 in *. unfold s1 in Hi2 |- *. rewrite set_thr_twice in *.
  rewrite set_thr_newest in * by done. cbv beta in *. set (th2 := fin w2 _ _ _ _) in *. set (s2 := set_thr t th2 s) in *.
  assert (El2 : tlog (thr t s2) = tlog (thr t s)) by (unfold s2; by rewrite set_thr_thr).
  assert (EP2 : nP s2 = nP s) by (by apply set_thr_nP).
  assert (Ec2 : tctl (thr t s2) = Busy o (Load R mo2 (λ r, Leaf (Ret (RCount (f (idx (newest W s)) r))))) k)
    by (unfold s2; by rewrite set_thr_thr).
  destruct (fresh_step t n3 s2 _ _ _ _ _ Hi2 ltac:(lia) Ec2) as [w3 E3]. rewrite E3. exists w3. unfold ret.
  rewrite El2. unfold s2. rewrite set_thr_twice, set_thr_newest by done. done.
Qed.
Lemma inv_window s : inv nd cap s → nC s ≤ nP s < nC s + cap.
Proof. intros (inf & d & hm & [] & _). lia. Qed.

Lemma run_app_ok l1 l2 s s1 : run nd zc l1 s = Ok tt s1 → run nd zc (l1 ++ l2) s = run nd zc l2 s1.
Proof.
  revert s. induction l1 as [|[t n] l1 IH]; intros s; simpl; [by intros [= <-]|]. unfold bind.
  destruct (step nd zc t n s) as [[] s2| |]; [apply IH|done..].
Qed.

(** C31: a thread whose two loads read the newest indices is told exactly how
    many elements are stored, and how many more fit; whichever thread asks, and
    wherever the other one is in its own call. *)
Theorem spsc_read_available_exact p c s t k n1 n2 n3 : producer p → consumer 0 c → reachable nd cap p c s →
  tctl (thr t s) = Idle (Do OReadAvailable k) → nP s ≤ n2 → nP s ≤ n3 →
  ∃ s', run nd zc [(t, n1); (t, n2); (t, n3)] s = Ok tt s' ∧
    tlog (thr t s') = tlog (thr t s) ++ [(OReadAvailable, Ret (RCount (Z.of_nat (nP s - nC s))))].
Proof.
  intros Hp Hc Hr E H2 H3. pose proof (reachable_inv nd cap p c s Hcap Hp Hc Hr) as Hi.
  pose proof (inv_window s Hi) as Hw. 
  destruct (solo_loads t s _ k _ _ (λ w r, if (r <=? w)%Z then wrap (w - r) else wrap (wrap (w + zc) - r)) n1 n2 n3 Hi E H2 H3 eq_refl)
    as [w ->].
  eexists. split; [reflexivity|]. rewrite set_thr_thr. cbv beta. by rewrite (read_avail_eq cap Hcap) by lia.
Qed.
Theorem spsc_write_available_exact p c s t k n1 n2 n3 : producer p → consumer 0 c → reachable nd cap p c s →
  tctl (thr t s) = Idle (Do OWriteAvailable k) → nP s ≤ n2 → nP s ≤ n3 →
  ∃ s', run nd zc [(t, n1); (t, n2); (t, n3)] s = Ok tt s' ∧
    tlog (thr t s') = tlog (thr t s) ++ [(OWriteAvailable, Ret (RCount (zc - 1 - Z.of_nat (nP s - nC s))))].
Proof.
  intros Hp Hc Hr E H2 H3. pose proof (reachable_inv nd cap p c s Hcap Hp Hc Hr) as Hi.
  pose proof (inv_window s Hi) as Hw. 
  destruct (solo_loads t s _ k _ _ (λ w r, let diff := wrap (wrap (r - w) - 1) in
     if (r <=? diff)%Z then wrap (diff + zc) else diff) n1 n2 n3 Hi E H2 H3 eq_refl) as [w ->].
  eexists. split; [reflexivity|]. rewrite set_thr_thr. cbv beta.
  pose proof (write_avail_eq cap Hcap (nC s) (nP s) ltac:(lia)) as Ew. cbv beta zeta in Ew |- *. by rewrite Ew.
Qed.

(** C30: a push whose load of the read index is up to date returns false if the
    queue holds capacity - 1 elements; otherwise it constructs its element and
    returns true. *)
Lemma push_loads s v k n1 n2 n3 : inv nd cap s → tctl (thP s) = Idle (Do (OEmplace v) k) → nP s ≤ n3 →
  ∃ w, run nd zc [(P, n1); (P, n2); (P, n3)] s =
    Ok tt (set_thr P (fin w (OEmplace v)
      (if (next_index zc (idx (nP s)) =? idx (nC s))%Z then Leaf (Ret (RBool false)) else em2 cap v (nP s)) k (tlog (thP s))) s).
Proof.
  intros Hi E H3. cbn [run]. unfold bind. pose proof (step_begin P n1 s _ k E) as E1. rewrite E1.
  pose proof (step_keeps _ _ _ _ Hi E1) as Hi1. clear E1. set (th1 := Thread _ _ _) in *. set (s1 := set_thr P th1 s) in *.
  assert (Ec1 : tctl (thr P s1) = Busy (OEmplace v) (run_op nd zc (OEmplace v)) k) by done.
  destruct Hi1 as (inf & d & hm & HQ & H1). destruct (load_W_P cap s1 n2 _ _ _ HQ) as (Ets & m & Hm & Hv & _).
  pose proof (step_load nd cap P n2 s1 _ _ _ _ _ m _ Ec1 Ets Hm) as E2. rewrite E2.
  assert (Hi1 : inv nd cap s1) by (by exists inf, d, hm). pose proof (step_keeps _ _ _ _ Hi1 E2) as Hi2. clear E2.
  rewrite Hv in *. set (w2 := lview _ _ _ _ _ _) in *. clearbody w2. unfold s1 in Hi2 |- *. rewrite set_thr_twice in *.
  set (th2 := fin w2 _ _ _ _) in *. set (s2 := set_thr P th2 s) in *.
  assert (Ec2 : tctl (thr P s2) = Busy (OEmplace v) (em1 cap v (nP s)) k) by done.
  destruct (fresh_step P n3 s2 _ _ _ _ _ Hi2 H3 Ec2) as [w3 E3]. rewrite E3. exists w3. unfold ret.
  unfold s2. rewrite set_thr_twice. done.
Qed.
Theorem spsc_push_full p c s v k n1 n2 n3 : producer p → consumer 0 c → reachable nd cap p c s →
  tctl (thP s) = Idle (Do (OEmplace v) k) → nP s ≤ n3 → nP s - nC s = cap - 1 →
  ∃ s', run nd zc [(P, n1); (P, n2); (P, n3)] s = Ok tt s' ∧
    tlog (thP s') = tlog (thP s) ++ [(OEmplace v, Ret (RBool false))].
Proof.
  intros Hp Hc Hr E H3 Hf. pose proof (reachable_inv nd cap p c s Hcap Hp Hc Hr) as Hi.
  pose proof (inv_window s Hi) as Hw. pose proof (cap_pos cap Hcap). destruct (push_loads s v k n1 n2 n3 Hi E H3) as [w ->].
  eexists. split; [reflexivity|]. rewrite (next_idx cap Hcap).
  assert (S (nP s) = nC s + cap) as -> by lia. unfold SpscArith.idx.
  replace (nC s + cap) with (nC s + 1 * cap) by lia. rewrite Nat.mod_add by lia. by rewrite Z.eqb_refl.
Qed.
Theorem spsc_push_room p c s v k n1 n2 n3 n4 : producer p → consumer 0 c → reachable nd cap p c s →
  tctl (thP s) = Idle (Do (OEmplace v) k) → nP s ≤ n3 → nP s - nC s < cap - 1 →
  ∃ s', run nd zc [(P, n1); (P, n2); (P, n3); (P, 0); (P, n4)] s = Ok tt s' ∧
    tlog (thP s') = tlog (thP s) ++ [(OEmplace v, Ret (RBool true))] ∧
    contents cap s' = contents cap s ++ [Some (Live v)].
Proof.
  intros Hp Hc Hr E H3 Hf. pose proof (reachable_inv nd cap p c s Hcap Hp Hc Hr) as Hi.
  pose proof (inv_window s Hi) as Hw. pose proof (cap_pos cap Hcap). destruct (push_loads s v k n1 n2 n3 Hi E H3) as [w E3].
  set (sch := [(P, n1); (P, n2); (P, n3)]) in *.
  change [(P, n1); (P, n2); (P, n3); (P, 0); (P, n4)] with (sch ++ [(P, 0); (P, n4)]).
  destruct (run_inv nd cap Hcap sch s Hi) as (s3 & E3' & Hi3). rewrite (run_app_ok _ _ _ _ E3').
  rewrite E3' in E3. injection E3 as Es3. clear E3'. rewrite (next_idx cap Hcap) in Es3.
  destruct (Z.eqb_spec (idx (S (nP s))) (idx (nC s))) as [Ee|_].
  { symmetry in Ee. apply (idx_window cap Hcap) in Ee; lia. }
  simpl in Es3.
  destruct Hi3 as (inf & d & hm & HQ & [Hctl Hroom Hcnt] & HC).
  rewrite Es3 in Hctl. simpl in Hctl. destruct Hctl as [_ [[? _]|[[? _]|[(_ & -> & a & Ha & Haw & Hav)|[? _]]]]]; [done..| |done].
  destruct Ha as (y & yw & Hy1 & Hy2 & Hy3).
  rewrite Es3 in HQ. simpl in HQ, Hav, Hy1, Hy3.
  destruct (qinv_construct cap Hcap _ _ _ _ _ _ _ _ _ _ _ _ v a y yw HQ Hy1 Hy2 Hy3 Haw Hav)
    as (x & Hx & Hraw & HsC & _ & _).
  assert (Ei : Z.to_nat (idx (nP s)) = nP s mod cap) by (unfold SpscArith.idx; apply Nat2Z.id).
  assert (Ectl : tctl (thP s3) = Busy (OEmplace v) (em2 cap v (nP s)) k) by (by rewrite Es3).
  cbn [run]. unfold bind.
  rewrite (step_construct nd cap 0 s3 _ _ _ _ _ x Ectl); [|rewrite Es3, Ei; done|done|rewrite Es3; done].
  cbn [negb Nat.eqb]. rewrite Es3. cbv zeta. match goal with |- context [step _ _ P n4 ?x] => set (s4 := x) end.
  assert (Ec4 : tctl (thr P s4) = Busy (OEmplace v) (em3 cap (nP s)) k) by done.
  rewrite (step_store nd cap P n4 s4 _ _ _ _ _ _ Ec4). eexists. split; [reflexivity|]. split; [done|].
  unfold contents. simpl. rewrite Ei, pushed_app, app_length. simpl.
  replace (nP s + 1 - nC s) with ((nP s - nC s) + 1) by lia. rewrite seq_app, map_app. simpl.
  replace (nC s + (nP s - nC s)) with (nP s) by lia.
  rewrite list_lookup_insert by by apply lookup_lt_Some in Hx. f_equal.
  apply list_fmap_ext. intros j i Hj. apply lookup_seq in Hj as [-> Hj].
  rewrite list_lookup_insert_ne; [done|]. intros Em. symmetry in Em. apply (mod_window cap Hcap) in Em; lia.
Qed.

(** ** Results *)
(** C33: what each thread's calls can have returned: a push returns a truth
    value, or throws because its element's constructor did; pop returns; consume
    returns what its callback saw, and throws exactly if the callback did; a
    count is a number. *)
Definition proper_result (o : op V) (r : outcome (out V)) : Prop :=
  match o, r with
  | OEmplace _, Ret (RBool _) | OEmplace _, Exn | OPop, Ret RUnit => True
  | OConsume _ throws, Ret (RVal _) => throws = false
  | OConsume _ throws, Exn => throws = true
  | OReadAvailable, Ret (RCount _) | OWriteAvailable, Ret (RCount _) => True
  | _, _ => False
  end.
Lemma step_proper s t n s' : inv nd cap s → step nd zc t n s = Ok tt s' →
  (∀ t' o r, (o, r) ∈ tlog (thr t' s) → proper_result o r) →
  ∀ t' o r, (o, r) ∈ tlog (thr t' s') → proper_result o r.
Proof.
  intros Hi Hs Hold t' o r Hin. pose proof (step_log _ _ _ _ _ _ Hs) as [Ho Hl].
  destruct (decide (t' = t)) as [->|Hne].
  2: { assert (t' = other t) as -> by (by destruct t, t'). rewrite Ho in Hin. by eapply Hold. }
  destruct Hl as [El|(o1 & r1 & El)]; rewrite El in Hin; [by eapply Hold|].
  apply elem_of_app in Hin as [Hin|Hin]; [by eapply Hold|]. apply elem_of_list_singleton in Hin as [= -> ->].
  destruct t; simpl in El.
  - pose proof (resultP nd cap Hcap s n s' _ _ Hi Hs El) as H. destruct o1, r1 as [[[]| | |]|]; done.
  - pose proof (resultC nd cap Hcap s n s' _ _ Hi Hs El) as H. destruct o1 as [v| |mv []| |], r1 as [[[]| | |]|]; done.
Qed.
Theorem spsc_results p c s t o r : producer p → consumer 0 c → reachable nd cap p c s →
  (o, r) ∈ tlog (thr t s) → proper_result o r.
Proof.
  intros Hp Hc [sched Hr]. revert t o r.
  assert (H : ∀ s0, inv nd cap s0 → (∀ t o r, (o, r) ∈ tlog (thr t s0) → proper_result o r) →
    run nd zc sched s0 = Ok tt s → ∀ t o r, (o, r) ∈ tlog (thr t s) → proper_result o r).
  { clear Hr. induction sched as [|[t n] sched IH]; intros s0 Hi Hk; simpl; [by intros [= <-]|]. unfold bind.
    destruct (step_inv nd cap Hcap t n s0 Hi) as (s1 & E & Hi1). rewrite E. apply (IH s1 Hi1). exact (step_proper s0 t n s1 Hi E Hk). }
  eapply (H _ (inv_start nd cap Hcap p c Hp Hc)); [|done]. intros t o r. destruct t; simpl; by intros ?%elem_of_nil.
Qed.

(** The first call to complete is the one that was begun. *)
Lemma run_log_grows sched s s' t : run nd zc sched s = Ok tt s' → ∃ l, tlog (thr t s') = tlog (thr t s) ++ l.
Proof.
  revert s. induction sched as [|[u n] sched IH]; intros s; simpl; unfold bind.
  { intros [= <-]. exists []. by rewrite app_nil_r. }
  destruct (step nd zc u n s) as [[] s1| |] eqn:E; try done. intros H. destruct (IH _ H) as [l El]. rewrite El.
  apply step_log in E as [Ho Hl]. destruct (decide (t = u)) as [->|Hne].
  - destruct Hl as [->|(o & r & ->)]; [by exists l|]. exists ((o, r) :: l). by rewrite <- app_assoc.
  - assert (t = other u) as -> by (by destruct t, u). rewrite Ho. by exists l.
Qed.
Definition doing (o : op V) (k : outcome (out V) → prog (op V) (out V)) (x : ctl) : Prop :=
  x = Idle (Do o k) ∨ ∃ cd, x = Busy o cd k.
Lemma step_doing t n s s' u o k : step nd zc u n s = Ok tt s' → doing o k (tctl (thr t s)) →
  (tlog (thr t s') = tlog (thr t s) ∧ doing o k (tctl (thr t s'))) ∨ ∃ r, tlog (thr t s') = tlog (thr t s) ++ [(o, r)].
Proof.
  intros E Hd. destruct (decide (t = u)) as [->|Hne].
  2: { apply step_log in E as [Ho _]. assert (t = other u) as -> by (by destruct t, u). rewrite Ho. by left. }
  revert E. unfold step, bind, gets. destruct Hd as [->|[cd ->]].
  - intros [= <-]. left. rewrite set_thr_thr. split; [done|]. right. by eexists.
  - destruct (exec u n cd s) as [c' s1| |] eqn:Ex; try done. unfold tview_of, gets, modify. intros [= <-].
    rewrite set_thr_thr. destruct c'; [right; by eexists|left; split; [done|]; right; by eexists..].
Qed.
Lemma run_doing sched t s s' o k : run nd zc sched s = Ok tt s' → doing o k (tctl (thr t s)) →
  tlog (thr t s') = tlog (thr t s) ∨ ∃ r l, tlog (thr t s') = tlog (thr t s) ++ (o, r) :: l.
Proof.
  revert s. induction sched as [|[u n] sched IH]; intros s; simpl; unfold bind; [intros [= <-]; by left|].
  destruct (step nd zc u n s) as [[] s1| |] eqn:E; try done. intros H Hd.
  destruct (step_doing t n s s1 u o k E Hd) as [[El Hd1]|[r El]].
  - destruct (IH s1 H Hd1) as [E1|(r & l & E1)]; rewrite E1, El; [by left|right; by eexists _, _].
  - right. destruct (run_log_grows _ _ _ t H) as [l E1]. exists r, l. by rewrite E1, El, <- app_assoc.
Qed.

(** C27, C32: a consume whose callback does not throw completes within seven steps
    of its thread, whatever the producer does meanwhile, and its callback is given
    the oldest element of the queue. *)
Theorem spsc_consume_oldest p c s s' sched mv k : producer p → consumer 0 c → reachable nd cap p c s →
  tctl (thC s) = Idle (Do (OConsume mv false) k) → run nd zc sched s = Ok tt s' → 7 ≤ steps_of C sched →
  ∃ x l, tlog (thC s') = tlog (thC s) ++ (OConsume mv false, Ret (RVal x)) :: l ∧
    (¬ spoiled (tlog (thC s')) → ∃ v, x = Some v ∧ pushed (tlog (thP s)) !! nC s = Some v).
Proof.
  intros Hp Hc Hr E Hrun H7. pose proof (reachable_inv nd cap p c s Hcap Hp Hc Hr) as Hi.
  destruct Hr as [sch Hr]. assert (Hr' : reachable nd cap p c s') by (exists (sch ++ sched); by rewrite (run_app_ok _ _ _ _ Hr)).
  pose proof (spsc_wait_free nd cap p c _ _ _ _ C Hr Hrun ltac:(simpl; by rewrite E) H7) as Hlen. simpl in Hlen.
  destruct (run_doing sched C s s' _ k Hrun (or_introl E)) as [El|(r & l & El)]; simpl in El.
  { rewrite El in Hlen. lia. }
  pose proof (spsc_results p c s' C (OConsume mv false) r Hp Hc Hr') as Hres. simpl in Hres. rewrite El in Hres.
  specialize (Hres ltac:(apply elem_of_app; right; left)). destruct r as [[| |x|]|]; try done. exists x, l. split; [done|]. intros Hsp.
  destruct (spsc_fifo nd cap p c s' Hcap Hp Hc Hr') as [_ Hf].
  destruct (Hf (nC s) x) as [->|[_ ?]]; [|clear Hf|done].
  { rewrite El, removed_app, lookup_app_r, Nat.sub_diag by lia. done. }
  assert (nC s < nP s) as Hlt.
  { destruct Hi as (inf & d & hm & [] & _ & [(cr & a & Hcr & Ha & Hle & Hav & Hctl) _]). rewrite E in Hctl.
    destruct Hctl as [[Hpos _] _]. lia. }
  destruct (lookup_lt_is_Some_2 (pushed (tlog (thP s))) (nC s) Hlt) as [v Hv]. exists v. split; [|done].
  destruct (run_log_grows _ _ _ P Hrun) as [l' El']. simpl in El'. rewrite El', pushed_app. by apply lookup_app_l_Some.
Qed.
End exact.

(** ** Concrete executions *)
(** spsc_read_available_exact, spsc_write_available_exact: two elements of four
    slots are stored after three pushes and one removal; the consumer is in the
    middle of another call when the producer asks. *)
Definition ask_both : prog (op Z) (out Z) :=
  Do (OEmplace 1%Z) (λ _, Do (OEmplace 2%Z) (λ _, Do (OEmplace 3%Z) (λ _, Do OReadAvailable (λ _, Do OWriteAvailable (λ _, Done))))).
Example spsc_exact_ex :
  producer ask_both ∧
  match run false 4 (turns 3 (push1 0) ++ turns 10 [(C, 9)] ++ [(C, 0); (C, 0)] ++ turns 6 [(P, 9)]) (start 4 ask_both (take_all 3)) with
  | Ok _ s => (tlog (thP s), length (removed (tlog (thC s))), match tctl (thC s) with Busy _ _ _ => true | _ => false end)
  | _ => ([], 0, false)
  end = ([(OEmplace 1, Ret (RBool true)); (OEmplace 2, Ret (RBool true)); (OEmplace 3, Ret (RBool true));
          (OReadAvailable, Ret (RCount 2)); (OWriteAvailable, Ret (RCount 1))]%Z, 1, true).
Proof. split; [simpl; repeat split|]. vm_compute. reflexivity. Qed.
(** spsc_push_full, spsc_push_room: three pushes fit in four slots, the fourth
    does not, until an element has been consumed. *)
Example spsc_push_exact_ex :
  match run false 4 (turns 3 (push1 0) ++ turns 3 [(P, 9)] ++ turns 10 [(C, 9)] ++ push1 0)
    (start 4 (push_all [1; 2; 3; 4]%Z) (take_all 3)) with
  | Ok _ s => (drop 3 (tlog (thP s)), contents 4 s)
  | _ => ([], [])
  end = ([(OEmplace 4, Ret (RBool false)); (OEmplace 4, Ret (RBool true))],
         [Some (Live 2); Some (Live 3); Some (Live 4)])%Z.
Proof. vm_compute. reflexivity. Qed.
(** spsc_consume_oldest: the consumer takes the first of two elements while the
    producer pushes a third. *)
Example spsc_consume_oldest_ex : ∃ s s' k,
  reachable false 4 (push_all [10; 11; 12]%Z) (take_all 7) s ∧ tctl (thC s) = Idle (Do (OConsume true false) k) ∧
  run false 4 (turns 7 [(C, 0); (P, 0)]) s = Ok tt s' ∧ steps_of C (turns 7 [(C, 0); (P, 0)]) = 7 ∧
  pushed (tlog (thP s)) = [10; 11]%Z ∧ pushed (tlog (thP s')) = [10; 11; 12]%Z ∧
  tlog (thC s') = tlog (thC s) ++ [(OConsume true false, Ret (RVal (Some 10%Z)))].
Proof.
  eexists _, _, _. split; [exists (push1 0 ++ push1 0 ++ turns 3 [(C, 9)]); vm_compute; reflexivity|].
  split; [reflexivity|]. split; [vm_compute; reflexivity|]. vm_compute. by split_and!.
Qed.
Example spsc_results_ex : proper_result (OConsume true true : op Z) Exn ∧ ¬ proper_result (OConsume true false : op Z) Exn ∧
  ¬ proper_result (OPop : op Z) (Ret (RBool true)).
Proof. simpl. naive_solver. Qed.

Definition spsc_exact_theorems := (@spsc_read_available_exact, @spsc_write_available_exact, @spsc_push_full,
  @spsc_push_room, @spsc_results, @spsc_consume_oldest).
Print Assumptions spsc_exact_theorems.
