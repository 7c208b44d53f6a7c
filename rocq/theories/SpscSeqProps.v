(** C165: a queue used by one thread. *)
From stdpp Require Import list list_numbers.
From Coq Require Import ZArith Lia.
From Verif Require Import Base Client SpscModel SpscSpec SpscArith SpscSeqModel.
Local Open Scope Z_scope.

Section spec.
Context {V : Type}.

(** A callback that only pushes and asks, and calls with such callbacks *)
Definition modest (c : call V) : Prop := match c with Push _ | ReadAvailable | WriteAvailable => True | _ => False end.
Definition gentle (c : call V) : Prop := match c with Consume _ cs => Forall modest cs | _ => True end.

(** The queue as a sequence of at most [cap - 1] elements, oldest first. [None]: the
    queue is empty and must not be. The element given to a callback is in the queue
    until the callback is done. *)
Definition ask (cap : nat) (c : call V) (q : list V) : list (result V) * list V :=
  match c with
  | Push v => if decide (S (length q) < cap)%nat then ([Pushed true], q ++ [v]) else ([Pushed false], q)
  | ReadAvailable => ([Count (Z.of_nat (length q))], q)
  | WriteAvailable => ([Count (Z.of_nat cap - 1 - Z.of_nat (length q))], q)
  | _ => ([], q)
  end.
Fixpoint asks (cap : nat) (cs : list (call V)) (q : list V) : list (result V) * list V :=
  match cs with [] => ([], q) | c :: cs => let (rs, q1) := ask cap c q in let (rs', q2) := asks cap cs q1 in (rs ++ rs', q2) end.
Definition expect (cap : nat) (c : call V) (q : list V) : option (list (result V) * list V) :=
  match c, q with
  | Pop, [] | Consume _ _, [] => None
  | Pop, _ :: q => Some ([Done], q)
  | Consume _ cs, v :: _ => let (rs, q) := asks cap cs q in Some (Saw (Some v) :: rs ++ [Done], tail q)
  | Clear, _ => Some ([Done], [])
  | c, q => Some (ask cap c q)
  end.
Fixpoint expects (cap : nat) (cs : list (call V)) (q : list V) : option (list (result V) * list V) :=
  match cs with
  | [] => Some ([], q)
  | c :: cs => match expect cap c q with
               | None => None
               | Some (rs, q) => match expects cap cs q with None => None | Some (rs', q) => Some (rs ++ rs', q) end
               end
  end.
Fixpoint accepted (rs : list (result V)) : nat :=
  match rs with [] => 0 | Pushed true :: rs => S (accepted rs) | _ :: rs => accepted rs end.
End spec.

Section proofs.
Context {V : Type} (triv nd : bool) (cap : nat) (Hcap : pow2 cap).
Implicit Types (s : qst V) (xs : list (option V)).
Notation mx := (Z.of_nat cap).

Definition held (x : option V) : cell V := match x with Some v => Live v | None => Moved end.
(** The elements [xs] (None: moved from) from the place [k] on, [g] destroyed so far *)
Definition rel (k : nat) xs (g : nat) s : Prop :=
  (length xs < cap)%nat ∧ q_read s = idx cap k ∧ q_write s = idx cap (k + length xs) ∧ length (q_cells s) = cap ∧ q_gone s = g ∧
  (∀ i x, xs !! i = Some x → q_cells s !! ((k + i) mod cap)%nat = Some (held x)) ∧
  (∀ i, (length xs ≤ i < cap)%nat → ∃ c, q_cells s !! ((k + i) mod cap)%nat = Some c ∧ (triv = false → c = Raw)).

Lemma at_idx k s : at_slot (idx cap k) s = q_cells s !! (k mod cap)%nat.
Proof. unfold at_slot, idx. rewrite Nat2Z.id. destruct (Z.leb_spec 0 (Z.of_nat (k mod cap))); [done|lia]. Qed.
Lemma mod_ne k i j : (i < cap → j < cap → i ≠ j → (k + i) mod cap ≠ (k + j) mod cap)%nat.
Proof.
  intros Hi Hj Hne E. destruct (Nat.lt_ge_cases i j).
  - apply mod_window in E; [lia|done|lia].
  - symmetry in E. apply mod_window in E; [lia|done|lia].
Qed.
Lemma put_at k c g s : (length (q_cells s) = cap) →
  q_cells (put_slot (idx cap k) c g s) = <[(k mod cap)%nat := c]> (q_cells s).
Proof. intros. unfold put_slot, idx. simpl. by rewrite Nat2Z.id. Qed.
Lemma mod_lt k : (k mod cap < cap)%nat.
Proof. apply Nat.mod_upper_bound. pose proof (cap_pos cap Hcap). lia. Qed.

(** push *)
Lemma run_push v k xs g s : rel k xs g s →
  ∃ s', (∀ A acc (K : list (result V) → code V A) stuck, run_code triv (call_code triv nd mx (Push v) acc K stuck) s =
          run_code triv (K (acc ++ [Pushed (bool_decide (S (length xs) < cap)%nat)])) s') ∧
        rel k (if decide (S (length xs) < cap)%nat then xs ++ [Some v] else xs) g s'.
Proof.
  intros (Hl & Hr & Hw & Hn & Hg & Hx & Hy).
  destruct (decide (S (length xs) < cap)%nat) as [Hroom|Hfull].
  - eexists. split. { intros A acc K stuck. cbn [call_code]. unfold emplace. cbn [run_code]. rewrite Hr, Hw, next_idx by done.
    destruct (Z.eqb_spec (idx cap (S (k + length xs))) (idx cap k)) as [E|Hne].
    { symmetry in E. apply idx_window in E; [lia|done|lia]. }
    cbn [run_code]. rewrite at_idx. destruct (Hy (length xs) ltac:(lia)) as (c & Ec & Hc). rewrite Ec.
    rewrite bool_decide_true by done.
    transitivity (run_code triv (Store W Rel (idx cap (S (k + length xs))) (K (acc ++ [Pushed true]))) (put_slot (idx cap (k + length xs)) (Live v) 0 s));
      [|reflexivity].
    destruct c; [reflexivity|..]; destruct triv; [reflexivity|by specialize (Hc eq_refl)|reflexivity|by specialize (Hc eq_refl)]. }
    unfold put_slot. split_and!; cbn [q_read q_write q_cells q_gone].
    + rewrite app_length. simpl. lia.
    + done.
    + f_equal. rewrite app_length. simpl. lia.
    + by rewrite insert_length.
    + done.
    + intros i x Hi. unfold idx. rewrite Nat2Z.id. apply lookup_app_Some in Hi as [Hi|[Hi Hi']].
      * rewrite list_lookup_insert_ne; [by apply Hx|]. apply lookup_lt_Some in Hi. apply mod_ne; lia.
      * apply list_lookup_singleton_Some in Hi' as [Hi' <-]. assert (i = length xs) as -> by lia.
        apply list_lookup_insert. rewrite Hn. apply mod_lt.
    + intros i. rewrite app_length. simpl. intros Hi. unfold idx. rewrite Nat2Z.id. rewrite list_lookup_insert_ne by (apply mod_ne; lia). apply Hy. lia.
  - assert (S (length xs) = cap) as Efull by lia.
    assert (idx cap (S (k + length xs)) = idx cap k) as Ei.
    { unfold idx. f_equal. replace (S (k + length xs))%nat with (k + 1 * cap)%nat by lia. apply Nat.mod_add. lia. }
    rewrite bool_decide_false by done. exists s. split; [|by split_and!]. intros A acc K stuck. cbn [call_code]. unfold emplace. cbn [run_code].
    rewrite Hr, Hw, next_idx, Ei, Z.eqb_refl by done. done.
Qed.
(** The counters *)
Lemma run_read {A} k xs g s acc (K : list (result V) → code V A) stuck : rel k xs g s →
  run_code triv (call_code triv nd mx ReadAvailable acc K stuck) s = run_code triv (K (acc ++ [Count (Z.of_nat (length xs))])) s.
Proof.
  intros (Hl & Hr & Hw & _). cbn [call_code]. unfold read_available. cbn [run_code]. rewrite Hr, Hw, read_avail_eq by (done || lia).
  do 6 f_equal. lia.
Qed.
Lemma run_write {A} k xs g s acc (K : list (result V) → code V A) stuck : rel k xs g s →
  run_code triv (call_code triv nd mx WriteAvailable acc K stuck) s = run_code triv (K (acc ++ [Count (mx - 1 - Z.of_nat (length xs))])) s.
Proof.
  intros (Hl & Hr & Hw & _). cbn [call_code]. unfold write_available. cbn [run_code]. rewrite Hr, Hw, write_avail_eq by (done || lia).
  do 6 f_equal. lia.
Qed.
(** The first element is destroyed and the read index advanced. *)
Definition removed k s : qst V :=
  let s1 := if triv then s else put_slot (idx cap k) Raw 1 s in Q (q_write s1) (idx cap (S k)) (q_cells s1) (q_gone s1).
Definition less (g : nat) : nat := if triv then g else S g.
Lemma run_remove {A} k x xs g s (K : code V A) : rel k (x :: xs) g s →
  run_code triv (Destroy (idx cap k) (Store R Rel (next_index mx (idx cap k)) K)) s = run_code triv K (removed k s) ∧
  rel (S k) xs (less g) (removed k s).
Proof.
  intros (Hl & Hr & Hw & Hn & Hg & Hx & Hy). cbn [run_code]. rewrite at_idx, next_idx by done.
  pose proof (Hx 0%nat x eq_refl) as E. rewrite Nat.add_0_r in E. rewrite E. split; [unfold removed; by destruct x, triv|].
  simpl in Hl, Hw. unfold removed, less. split_and!; cbn [q_read q_write q_cells q_gone].
  - lia.
  - done.
  - destruct triv; cbn; rewrite Hw; f_equal; lia.
  - destruct triv; cbn; [done|]. by rewrite insert_length.
  - destruct triv; cbn; congruence.
  - intros i y Hi. pose proof (Hx (S i) y Hi) as Ey. replace (S k + i)%nat with (k + S i)%nat by lia. destruct triv; [done|].
    rewrite put_at, list_lookup_insert_ne; [done| |done]. apply lookup_lt_Some in Hi. rewrite <- (Nat.add_0_r k) at 1. apply mod_ne; lia.
  - intros i Hi. destruct (decide (S i = cap)) as [Ec|Hne].
    + assert (((S k + i) mod cap = k mod cap)%nat) as ->.
      { replace (S k + i)%nat with (k + 1 * cap)%nat by lia. apply Nat.mod_add. lia. }
      destruct triv; [eexists; split; [exact E|done]|]. exists Raw. split; [|done]. rewrite put_at by done. apply list_lookup_insert. rewrite Hn. apply mod_lt.
    + replace (S k + i)%nat with (k + S i)%nat by lia. destruct (Hy (S i)) as (c & Hc & Hc'); [simpl; lia|]. exists c. split; [|done].
      destruct triv; [done|]. rewrite put_at, list_lookup_insert_ne; [done| |done]. rewrite <- (Nat.add_0_r k) at 1. apply mod_ne; lia.
Qed.
(** The assertion *)
Lemma run_assert {A} k xs g s (K : code V A) : rel k xs g s →
  run_code triv (assert_not_empty nd (idx cap k) K) s = match xs with [] => if nd then run_code triv K s else UB AssertFail | _ => run_code triv K s end.
Proof.
  intros (Hl & Hr & Hw & _). unfold assert_not_empty. destruct nd; [by destruct xs|]. cbn [run_code]. rewrite Hw.
  destruct xs as [|x xs]; simpl length.
  - rewrite Nat.add_0_r, Z.eqb_refl. done.
  - destruct (Z.eqb_spec (idx cap (k + S (length xs))) (idx cap k)) as [E|]; [|done].
    symmetry in E. simpl in Hl. apply idx_window in E; [lia|done|lia].
Qed.
Lemma run_pop {A} k x xs g s acc (K : list (result V) → code V A) stuck : rel k (x :: xs) g s →
  run_code triv (call_code triv nd mx Pop acc K stuck) s = run_code triv (K (acc ++ [Done])) (removed k s) ∧ rel (S k) xs (less g) (removed k s).
Proof.
  intros H. pose proof H as (_ & Hr & _). cbn [call_code]. unfold pop. cbn [run_code]. rewrite Hr.
  rewrite (run_assert k (x :: xs) g s) by done. by eapply run_remove.
Qed.
(** A removal from the empty queue *)
Lemma run_pop_empty {A} k g s acc (K : list (result V) → code V A) stuck : triv = false ∨ nd = false → rel k [] g s →
  ∃ u, run_code triv (call_code triv nd mx Pop acc K stuck) s = UB u.
Proof.
  intros Hd H. pose proof H as (Hl & Hr & Hw & Hn & Hg & Hx & Hy). cbn [call_code]. unfold pop. cbn [run_code].
  rewrite Hr, (run_assert k [] g s) by done. destruct nd; [|eauto]. destruct Hd as [->|]; [|done].
  cbn [run_code]. rewrite at_idx. destruct (Hy 0%nat) as (c & E & Hc); [simpl; lia|]. rewrite Nat.add_0_r in E. rewrite E, (Hc eq_refl). eauto.
Qed.
Lemma run_consume_empty {A} k g s mv cs acc (K : list (result V) → code V A) stuck : triv = false ∨ nd = false → rel k [] g s →
  ∃ u, run_code triv (call_code triv nd mx (Consume mv cs) acc K stuck) s = UB u.
Proof.
  intros Hd H. pose proof H as (Hl & Hr & Hw & Hn & Hg & Hx & Hy). cbn [call_code run_code].
  rewrite Hr, (run_assert k [] g s) by done. destruct nd; [|eauto]. destruct Hd as [->|]; [|done].
  cbn [run_code]. rewrite at_idx. destruct (Hy 0%nat) as (c & E & Hc); [simpl; lia|]. rewrite Nat.add_0_r in E. rewrite E, (Hc eq_refl). eauto.
Qed.
(** The callback gets the first element. *)
Definition used k (mv : bool) s : qst V := if mv then put_slot (idx cap k) Moved 0 s else s.
Lemma run_use {A} k v xs g s mv (K : option V → code V A) : rel k (Some v :: xs) g s →
  run_code triv (Use (idx cap k) mv K) s = run_code triv (K (Some v)) (used k mv s) ∧
  rel k ((if mv then None else Some v) :: xs) g (used k mv s).
Proof.
  intros H. pose proof H as (Hl & Hr & Hw & Hn & Hg & Hx & Hy). cbn [run_code]. rewrite at_idx.
  pose proof (Hx 0%nat _ eq_refl) as E. rewrite Nat.add_0_r in E. rewrite E. cbn [held]. split; [done|].
  unfold used. destruct mv; [|done]. simpl in Hl. split_and!; try done.
  - cbn. by rewrite insert_length.
  - intros i y Hi. rewrite put_at by done. destruct i as [|i].
    + injection Hi as <-. rewrite Nat.add_0_r. apply list_lookup_insert. rewrite Hn. apply mod_lt.
    + rewrite list_lookup_insert_ne; [by apply (Hx (S i))|]. apply lookup_lt_Some in Hi. simpl in Hi. rewrite <- (Nat.add_0_r k) at 1. apply mod_ne; lia.
  - intros i Hi. rewrite put_at by done. simpl in Hi. destruct (Hy i) as (c & Hc & Hc'); [simpl; lia|]. exists c. split; [|done].
    rewrite list_lookup_insert_ne; [done|]. rewrite <- (Nat.add_0_r k) at 1. apply mod_ne; lia.
Qed.
Lemma accepted_app (rs rs' : list (result V)) : accepted (rs ++ rs') = (accepted rs + accepted rs')%nat.
Proof. induction rs as [|[[|]| | |] rs IH]; simpl; lia. Qed.
(** Calls that only push and ask *)
Lemma run_ask (c : call V) q xs k g s : modest c → length xs = length q → rel k xs g s →
  ∃ add s' rs, ask cap c q = (rs, q ++ add) ∧ accepted rs = length add ∧ rel k (xs ++ map Some add) g s' ∧
  ∀ A acc (K : list (result V) → code V A) stuck, run_code triv (call_code triv nd mx c acc K stuck) s = run_code triv (K (acc ++ rs)) s'.
Proof.
  intros Hm Hlen H. destruct c as [v| | | | |]; try done.
  - unfold ask. destruct (run_push v k xs g s H) as (s' & E & H'). rewrite <- Hlen.
    destruct (decide (S (length xs) < cap)%nat) as [Hd|Hd].
    + exists [v], s', [Pushed true]. rewrite bool_decide_true in E by done. done.
    + exists [], s', [Pushed false]. rewrite bool_decide_false in E by done. rewrite !app_nil_r. done.
  - exists [], s, [Count (Z.of_nat (length q))]. rewrite !app_nil_r. split_and!; [done..|]. intros. rewrite <- Hlen. by eapply run_read.
  - exists [], s, [Count (mx - 1 - Z.of_nat (length q))]. rewrite !app_nil_r. split_and!; [done..|]. intros. rewrite <- Hlen. by eapply run_write.
Qed.
Notation calls_in A stuck := (fix calls cs acc (k : list (result V) → code V A) :=
  match cs with [] => k acc | c :: cs => call_code triv nd mx c acc (λ acc, calls cs acc k) stuck end).
Lemma run_asks (cs : list (call V)) : ∀ q xs k g s, Forall modest cs → length xs = length q → rel k xs g s →
  ∃ add s' rs, asks cap cs q = (rs, q ++ add) ∧ accepted rs = length add ∧ rel k (xs ++ map Some add) g s' ∧
  ∀ A acc (K : list (result V) → code V A) stuck, run_code triv (calls_in A stuck cs acc K) s = run_code triv (K (acc ++ rs)) s'.
Proof.
  induction cs as [|c cs IH]; intros q xs k g s Hm Hlen H.
  - exists [], s, []. cbn [asks map]. rewrite !app_nil_r. split_and!; [done..|]. intros. by rewrite app_nil_r.
  - inversion Hm as [|? ? Hc Hcs]; subst. destruct (run_ask c q xs k g s Hc Hlen H) as (a1 & s1 & r1 & E1 & N1 & H1 & R1).
    destruct (IH (q ++ a1) (xs ++ map Some a1) k g s1 Hcs) as (a2 & s2 & r2 & E2 & N2 & H2 & R2);
      [rewrite !app_length, map_length; lia|done|].
    exists (a1 ++ a2), s2, (r1 ++ r2). cbn [asks]. rewrite E1, E2, map_app, !app_assoc, accepted_app, app_length. split_and!; [done|lia|done|].
    intros A acc K stuck. rewrite R1, R2. by rewrite app_assoc.
Qed.
(** clear *)
Lemma run_clear_loop fuel : ∀ k xs g s, triv = false → (length xs ≤ fuel)%nat → rel k xs g s →
  ∃ s', rel (k + length xs) [] (length xs + g) s' ∧
  ∀ A (K stuck : code V A), run_code triv (clear_loop mx fuel K stuck) s = run_code triv K s'.
Proof.
  induction fuel as [|f IH]; intros k xs g s Ht Hf H; pose proof H as (Hl & Hr & Hw & _).
  - destruct xs; [|simpl in Hf; lia]. exists s. simpl. rewrite Nat.add_0_r. split; [done|]. intros. cbn [clear_loop run_code].
    rewrite Hr, Hw. simpl. by rewrite Nat.add_0_r, Z.eqb_refl.
  - destruct xs as [|x xs].
    + exists s. simpl. rewrite Nat.add_0_r. split; [done|]. intros. cbn [clear_loop run_code].
      rewrite Hr, Hw. simpl. by rewrite Nat.add_0_r, Z.eqb_refl.
    + destruct (IH (S k) xs (less g) (removed k s)) as (s' & H' & E'); [done|simpl in Hf; lia|by eapply (run_remove (A := unit) _ _ _ _ _ (Leaf tt))|].
      exists s'. split.
      { replace (k + length (x :: xs))%nat with (S k + length xs)%nat by (simpl; lia).
        replace (length (x :: xs) + g)%nat with (length xs + less g)%nat; [done|]. unfold less. rewrite Ht. simpl. lia. }
      intros A K stuck. rewrite <- (E' A K stuck). cbn [clear_loop run_code]. rewrite Hr, Hw.
      destruct (Z.eqb_spec (idx cap k) (idx cap (k + length (x :: xs)))) as [E|_].
      { apply idx_window in E; [simpl in E; lia|done|simpl in Hl |- *; lia]. }
      destruct (run_remove k x xs g s (clear_loop mx f K stuck) H) as [E _]. rewrite <- E.
      cbn [run_code]. rewrite ?Hr, !at_idx. pose proof H as (_ & _ & _ & _ & _ & Hx & _). pose proof (Hx 0%nat x eq_refl) as E0. rewrite Nat.add_0_r in E0. rewrite E0.
      rewrite Ht. destruct x; cbn [held q_read]; unfold put_slot; cbn [q_read]; by rewrite Hr.
Qed.
Lemma run_clear (q : list V) k xs g s : length xs = length q → rel k xs g s →
  ∃ k' s', rel k' [] (if triv then g else length q + g) s' ∧
  ∀ A acc (K : list (result V) → code V A) stuck, run_code triv (call_code triv nd mx Clear acc K stuck) s = run_code triv (K (acc ++ [Done])) s'.
Proof.
  intros Hlen H. pose proof H as (Hl & Hr & Hw & Hn & Hg & Hx & Hy). cbn [call_code]. unfold clear. destruct triv eqn:Ht.
  - exists 0%nat, (Q 0 0 (q_cells s) (q_gone s)). split; [|done]. assert (idx cap 0 = 0) as E0.
    { unfold idx. rewrite Nat.mod_0_l; [done|]. pose proof (cap_pos cap Hcap). lia. }
    split_and!; cbn; rewrite ?E0; try done; [pose proof (cap_pos cap Hcap); lia|]. intros i Hi. simpl.
    destruct (lookup_lt_is_Some_2 (q_cells s) (i mod cap)) as [c Hc]; [rewrite Hn; apply mod_lt|]. exists c. split; [exact Hc|congruence].
  - destruct (run_clear_loop (Z.to_nat mx) k xs g s) as (s' & H' & E'); [done|lia|done|].
    exists (k + length xs)%nat, s'. rewrite <- Hlen. rewrite Ht in *. split; [done|]. intros. by rewrite E'.
Qed.
(** Any call *)
Lemma run_call c q k g s : gentle c → rel k (map Some q) g s →
  match expect cap c q with
  | Some (rs, q') => ∃ k' g' s', rel k' (map Some q') g' s' ∧ (triv = false → accepted rs + length q + g = g' + length q')%nat ∧
      ∀ A acc (K : list (result V) → code V A) stuck, run_code triv (call_code triv nd mx c acc K stuck) s = run_code triv (K (acc ++ rs)) s'
  | None => triv = false ∨ nd = false →
      ∀ A acc (K : list (result V) → code V A) stuck, ∃ u, run_code triv (call_code triv nd mx c acc K stuck) s = UB u
  end.
Proof.
  intros Hc H. assert (Hm : modest c → match Some (ask cap c q) with
    | Some (rs, q') => ∃ k' g' s', rel k' (map Some q') g' s' ∧ (triv = false → accepted rs + length q + g = g' + length q')%nat ∧
      ∀ A acc (K : list (result V) → code V A) stuck, run_code triv (call_code triv nd mx c acc K stuck) s = run_code triv (K (acc ++ rs)) s'
    | None => True end).
  { intros Hm. destruct (run_ask c q (map Some q) k g s Hm) as (add & s' & rs & E & N & H' & R); [by rewrite map_length|done|].
    rewrite E. exists k, g, s'. rewrite map_app. split_and!; [done| |done]. intros _. rewrite app_length.
    lia. }
  destruct c as [v| |mv cs| | |]; try exact (Hm I).
  - destruct q as [|v q]; cbn [expect map].
    + intros Hd A acc K stuck. by eapply run_pop_empty.
    + exists (S k), (less g), (removed k s). split; [by eapply (run_pop (A := unit) _ _ _ _ _ [] (λ _, Leaf tt) (Leaf tt))|]. split.
      * intros Ht. unfold less. rewrite Ht. simpl. lia.
      * intros. by eapply run_pop.
  - destruct q as [|v q]; cbn [expect map].
    + intros Hd A acc K stuck. by eapply run_consume_empty.
    + cbn [gentle] in Hc.
      destruct (run_use (A := unit) k v (map Some q) g s mv (λ _, Leaf tt) H) as [_ H1].
      destruct (run_asks cs (v :: q) ((if mv then None else Some v) :: map Some q) k g (used k mv s) Hc ltac:(cbn [length]; by rewrite map_length) H1) as (add & s2 & rs & E2 & N2 & H2 & R2).
      rewrite E2. simpl tail. rewrite <- app_comm_cons, <- map_app in H2.
      exists (S k), (less g), (removed k s2). split; [by eapply (run_remove (A := unit) _ _ _ _ _ (Leaf tt))|]. split.
      * intros Ht. unfold less. rewrite Ht. cbn [accepted]. rewrite accepted_app, app_length. simpl. lia.
      * intros A acc K stuck. cbn [call_code run_code]. pose proof H as (_ & Hr & _). rewrite Hr.
        rewrite (run_assert k (Some v :: map Some q) g s) by done.
        edestruct (run_use (A := A) k v (map Some q) g s mv) as [-> _]; [done|]. rewrite R2.
        edestruct (run_remove (A := A) k) as [-> _]; [done|]. do 2 f_equal. rewrite <- !app_assoc. done.
  - destruct (run_clear q k (map Some q) g s ltac:(by rewrite map_length) H) as (k' & s' & H' & R). cbn [expect].
    eexists k', _, s'. split_and!; [done| |done]. intros ->. simpl. lia.
Qed.
Lemma run_all cs : ∀ q k g s, Forall gentle cs → rel k (map Some q) g s →
  match expects cap cs q with
  | Some (rs, q') => ∃ k' g' s', rel k' (map Some q') g' s' ∧ (triv = false → accepted rs + length q + g = g' + length q')%nat ∧
      ∀ A acc (K : list (result V) → code V A) stuck, run_code triv (calls_code triv nd mx cs acc K stuck) s = run_code triv (K (acc ++ rs)) s'
  | None => triv = false ∨ nd = false →
      ∀ A acc (K : list (result V) → code V A) stuck, ∃ u, run_code triv (calls_code triv nd mx cs acc K stuck) s = UB u
  end.
Proof.
  induction cs as [|c cs IH]; intros q k g s Hg H; cbn [expects calls_code].
  - exists k, g, s. split_and!; [done|simpl; lia|]. intros. by rewrite app_nil_r.
  - inversion Hg as [|? ? Hc Hcs]; subst. pose proof (run_call c q k g s Hc H) as H1. destruct (expect cap c q) as [[rs q1]|].
    + destruct H1 as (k1 & g1 & s1 & R1 & N1 & E1). pose proof (IH q1 k1 g1 s1 Hcs R1) as H2. destruct (expects cap cs q1) as [[rs' q2]|].
      * destruct H2 as (k2 & g2 & s2 & R2 & N2 & E2). exists k2, g2, s2. split_and!; [done| |].
        -- intros Ht. specialize (N1 Ht). specialize (N2 Ht). rewrite accepted_app. lia.
        -- intros. by rewrite E1, E2, app_assoc.
      * intros Hd A acc K stuck. destruct (H2 Hd A (acc ++ rs) K stuck) as [u Hu]. exists u. by rewrite E1.
    + intros Hd A acc K stuck. apply (H1 Hd).
Qed.
Lemma rel_fresh : rel 0 (map Some []) 0 (fresh cap).
Proof.
  pose proof (cap_pos cap Hcap) as Hp. assert (idx cap 0 = 0) as E0 by (unfold idx; rewrite Nat.mod_0_l; [done|lia]).
  split_and!; cbn; rewrite ?E0; try done; [by rewrite replicate_length|].
  intros i Hi. exists Raw. split; [|done]. apply lookup_replicate. split; [done|]. apply mod_lt.
Qed.
End proofs.

Section theorems.
Context {V : Type} (triv nd : bool) (cap : nat).

(** One thread that pushes, removes, asks and clears, also from callbacks that push and
    ask: the results are those of the bounded sequence, and for a type with a destructor
    every element that was accepted and is not in the queue any more was destroyed. *)
Theorem queue_one_thread_partial : ∀ (cs : list (call V)) rs q, pow2 cap → Forall gentle cs → expects cap cs [] = Some (rs, q) →
  ∃ s, run_calls triv nd cap cs (fresh cap) = Ok (Some rs) s ∧ (triv = false → accepted rs = q_gone s + length q)%nat.
Proof.
  intros cs rs q Hcap Hg E. pose proof (run_all triv nd cap Hcap cs [] 0 0 (fresh cap) Hg (rel_fresh triv cap Hcap)) as H. rewrite E in H.
  destruct H as (k & g & s & R & N & H). exists s. split; [unfold run_calls; rewrite H; done|].
  intros Ht. specialize (N Ht). destruct R as (_ & _ & _ & _ & -> & _). simpl in N. lia.
Qed.
(** Removing from the empty queue is the only thing to avoid; with assertions, or for a
    type with a destructor, it never goes unnoticed. *)
Theorem queue_one_thread_empty : ∀ (cs : list (call V)), pow2 cap → Forall gentle cs → triv = false ∨ nd = false → expects cap cs [] = None →
  ∃ u, run_calls triv nd cap cs (fresh cap) = UB u.
Proof.
  intros cs Hcap Hg Hd E. pose proof (run_all triv nd cap Hcap cs [] 0 0 (fresh cap) Hg (rel_fresh triv cap Hcap)) as H. rewrite E in H.
  apply (H Hd).
Qed.
End theorems.
(** A callback that removes an element: the one it was given is destroyed twice. *)
Theorem queue_callback_pop : ∀ {V} nd cap (cs : list (call V)) mv rs q, pow2 cap → Forall gentle cs → expects cap cs [] = Some (rs, q) → q ≠ [] →
  ∃ s, run_calls false nd cap cs (fresh cap) = Ok (Some rs) s ∧ run_calls false nd cap [Consume mv [Pop]] s = UB DestroyDead.
Proof.
  intros V nd cap cs mv rs q Hcap Hg E Hq. pose proof (run_all false nd cap Hcap cs [] 0 0 (fresh cap) Hg (rel_fresh false cap Hcap)) as H. rewrite E in H.
  destruct H as (k & g & s & R & _ & H). destruct q as [|v q]; [done|]. cbn [map] in R. exists s. unfold run_calls. rewrite H. split; [done|].
  cbn [calls_code call_code run_code]. pose proof R as (_ & Hr & _). rewrite Hr.
  rewrite (run_assert false nd cap Hcap k (Some v :: map Some q) g s) by done.
  match goal with |- run_code _ (Use _ _ ?K) _ = _ => destruct (run_use false cap Hcap k v (map Some q) g s mv K R) as [-> R1] end.
  match goal with |- run_code _ (pop _ _ (?K ?l)) _ = _ => destruct (run_pop false nd cap Hcap k _ _ g _ [Saw (Some v)] (λ _, K l) (Leaf None) R1) as [E2 R2] end.
  cbn [call_code] in E2. cbn [app] in E2 |- *. rewrite E2. clear E2.
  cbn [run_code]. rewrite at_idx. destruct R2 as (Hl & _ & _ & _ & _ & _ & Hy). destruct (Hy (cap - 1)%nat) as (c & Ec & Hc).
  { pose proof (cap_pos cap Hcap). destruct R as (Hl' & _). simpl in Hl'. rewrite map_length in *. lia. }
  replace (S k + (cap - 1))%nat with (k + 1 * cap)%nat in Ec by (pose proof (cap_pos cap Hcap); lia).
  rewrite Nat.mod_add in Ec by (pose proof (cap_pos cap Hcap); lia). by rewrite Ec, (Hc eq_refl).
Qed.
Lemma pow2_4 : pow2 4.
Proof. exists 2. split; [lia|done]. Qed.
(** Six calls on a queue for three elements; the callback fills it up. *)
Definition ex_calls : list (call nat) :=
  [Push 1%nat; Push 2%nat; Consume true [Push 3%nat; WriteAvailable; Push 4%nat]; ReadAvailable; Pop; Clear; Push 5%nat].
Example queue_one_thread_partial_ex : Forall gentle ex_calls ∧
  expects 4 ex_calls [] = Some ([Pushed true; Pushed true; Saw (Some 1%nat); Pushed true; Count 0; Pushed false; Done; Count 2; Done; Done; Pushed true], [5%nat]) ∧
  run_calls false false 4 ex_calls (fresh 4) =
    Ok (Some [Pushed true; Pushed true; Saw (Some 1%nat); Pushed true; Count 0; Pushed false; Done; Count 2; Done; Done; Pushed true])
       (Q 0 3 [Raw; Raw; Raw; Live 5%nat] 3).
Proof. split; [|by vm_compute]. repeat constructor. Qed.
Example queue_one_thread_empty_ex : expects 4 [Push 1%nat; Pop; Consume false []] [] = None ∧
  run_calls true false 4 [Push 1%nat; Pop; Consume false []] (fresh 4) = UB AssertFail ∧
  run_calls false true 4 [Push 1%nat; Pop; Consume false []] (fresh 4) = UB ReadRaw.
Proof. by vm_compute. Qed.
Example queue_callback_pop_ex : expects 4 [Push 1%nat; Push 2%nat] [] = Some ([Pushed true; Pushed true], [1%nat; 2%nat]) ∧
  run_calls false true 4 [Push 1%nat; Push 2%nat; Consume true [Pop]] (fresh 4) = UB DestroyDead.
Proof. by vm_compute. Qed.
(** Nor does it always show: here the three elements pushed by the callback vanish, the
    queue is empty, and two of them are never destroyed. *)
Theorem queue_callback_refuted : ∃ s,
  run_calls false false 4 [Push 1%nat; Push 2%nat; Consume false [Pop; Pop; Push 3%nat; Push 4%nat; Push 5%nat]; ReadAvailable; Clear] (fresh 4) =
    Ok (Some [Pushed true; Pushed true; Saw (Some 1%nat); Done; Done; Pushed true; Pushed true; Pushed true; Done; Count 0; Done]) s ∧
  q_cells s = [Raw; Raw; Live 3%nat; Live 4%nat] ∧ q_gone s = 3%nat.
Proof. eexists. split_and!; vm_compute; reflexivity. Qed.
(** Without assertions, and for a type without destructor, pop on an empty queue goes
    unnoticed: afterwards the queue claims to be full of elements that do not exist. *)
Theorem queue_one_thread_refuted : ∃ s,
  run_calls true true 4 [Pop; Push 1%nat; ReadAvailable] (fresh 4) = Ok (Some [Done; Pushed false; Count 3]) s ∧ expects 4 [Pop; Push 1%nat; ReadAvailable] [] = None.
Proof. eexists. split; vm_compute; reflexivity. Qed.

Definition spsc_seq_theorems := (@queue_one_thread_partial, @queue_one_thread_empty, @queue_callback_pop, queue_callback_refuted, queue_one_thread_refuted).
Print Assumptions spsc_seq_theorems.
