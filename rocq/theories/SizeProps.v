(** Theorems about sizes and addresses of Array (property C169). *)
From Coq Require Import ZArith Lia List.
From stdpp Require Import base tactics.
From Verif Require Import Base SizeModel.
Import ListNotations.
Local Open Scope Z_scope.
Local Open Scope mon_scope.

Section props.
Context (b w : Z) (Hb : 2 <= b) (Hw : 1 <= w).
Notation step := (step b w).

(** ** What is expected, in exact arithmetic *)
(** The largest number of elements that an array can have *)
Definition largest : Z := (2 ^ (b - 1) - 1) / w.
(** An array of [n] elements with room for [c] *)
Definition holds (s : st) (n c : Z) : Prop :=
  0 <= begin_ s /\ end_ s = begin_ s + n * w /\ storage_end s = begin_ s + c * w /\ storage_end s < 2 ^ b /\
  0 <= n <= c /\ c <= largest.
(** Arguments of type size_t, distances of type ptrdiff_t, and the preconditions *)
Definition legal (o : op) (n : Z) : Prop :=
  match o with
  | New k | NewFill k | Reserve k | Resize k => 0 <= k < 2 ^ b
  | NewRange d | PushRange d | InsertRange d => 0 <= d < 2 ^ (b - 1)
  | Push | Clear => True
  | Insert | Pop => 0 < n
  | Erase k => 0 <= k <= n
  end.
(** The number of elements for which memory is requested *)
Definition needs (o : op) (n c : Z) : option Z :=
  match o with
  | New k | NewFill k | NewRange k => Some k
  | Reserve k => if c <? k then Some k else None
  | Resize k => if c =? k then None else Some k
  | Push | Insert => if n =? c then Some (n + Z.max n 1) else None
  | PushRange d => if c <? n + d then Some (n + d) else None
  | InsertRange d => if c <? n + d then Some (c + d) else None
  | Pop | Erase _ | Clear => None
  end.
Definition new_size (o : op) (n : Z) : Z :=
  match o with
  | New _ | Clear => 0
  | NewFill k | NewRange k => k
  | Reserve _ => n
  | Resize k => Z.min n k
  | Push | Insert => n + 1
  | PushRange d | InsertRange d => n + d
  | Pop => n - 1
  | Erase k => n - k
  end.
(** The request is met: it is not too large and the system has the memory. *)
Definition granted (k : Z) (s : st) : Prop :=
  k <= largest /\ exists p o, answers s = Some p :: o /\ 0 < p /\ p + k * w < 2 ^ b.

(** ** Proofs *)
Lemma pow_half : 2 ^ b = 2 * 2 ^ (b - 1) /\ 2 <= 2 ^ (b - 1).
Proof.
  split.
  - rewrite <- Z.pow_succ_r by lia. f_equal. lia.
  - change 2 with (2 ^ 1) at 1. apply Z.pow_le_mono_r; lia.
Qed.
Lemma largest_le : 0 <= largest /\ largest * w <= 2 ^ (b - 1) - 1 /\ largest <= 2 ^ (b - 1) - 1.
Proof.
  destruct pow_half as [_ H]. unfold largest. assert (0 <= (2 ^ (b - 1) - 1) / w) by (apply Z.div_pos; lia).
  assert (w * ((2 ^ (b - 1) - 1) / w) <= 2 ^ (b - 1) - 1) by (apply Z.mul_div_le; lia). split_and!; nia.
Qed.
Lemma wrap_id z : 0 <= z < 2 ^ b -> wrap b z = z.
Proof. apply Z.mod_small. Qed.
Lemma pdiff_eq p q k s : p = q + k * w -> 0 <= k <= largest -> pdiff b w p q s = Ok k s.
Proof.
  intros -> Hk. destruct pow_half, largest_le as (H1 & H2 & H3). unfold pdiff, pmax.
  replace (q + k * w - q) with (k * w) by lia. rewrite Z.div_mul by lia.
  assert ((- (2 ^ (b - 1) - 1) - 1 <=? k) && (k <=? 2 ^ (b - 1) - 1) = true) as ->.
  { apply andb_true_intro. split; apply Z.leb_le; lia. }
  rewrite wrap_id by lia. done.
Qed.
Lemma size_eq s n c : holds s n c -> size b w s = Ok n s.
Proof. intros (H1 & H2 & H3 & H4 & H5 & H6). unfold size, bind, gets, id. apply pdiff_eq; [done|lia]. Qed.
Lemma capacity_eq s n c : holds s n c -> capacity b w s = Ok c s.
Proof. intros (H1 & H2 & H3 & H4 & H5 & H6). unfold capacity, bind, gets, id. apply pdiff_eq; [done|lia]. Qed.
Lemma full_eq s n c : holds s n c -> (end_ s =? storage_end s) = (n =? c).
Proof.
  intros (H1 & H2 & H3 & H4 & H5 & H6). rewrite H2, H3. destruct (n =? c) eqn:E.
  - apply Z.eqb_eq in E as ->. apply Z.eqb_refl.
  - apply Z.eqb_neq in E. apply Z.eqb_neq. nia.
Qed.
Lemma padd_eq p k s : p + k * w < 2 ^ b -> padd b w p k s = Ok (p + k * w) s.
Proof. intros H. unfold padd, bind, check. apply Z.ltb_lt in H. by rewrite H. Qed.
Lemma allocate_eq k s :
  (granted k s -> exists p o, answers s = Some p :: o /\ 0 < p /\ p + k * w < 2 ^ b /\
     allocate b w k s = Ok p (St (begin_ s) (end_ s) (storage_end s) o)) /\
  (~ granted k s -> exists o, allocate b w k s = Throw (St (begin_ s) (end_ s) (storage_end s) o)).
Proof.
  unfold allocate. change (pmax b / w) with largest. split.
  - intros (Hk & p & o & E & Hp & Hf). exists p, o. split_and!; try done. rewrite E.
    assert (largest <? k = false) as -> by (apply Z.ltb_ge; lia).
    assert ((0 <? p) && (p + k * w <? 2 ^ b) = true) as ->; [|done]. apply andb_true_intro. split; apply Z.ltb_lt; lia.
  - intros Hn. destruct (largest <? k) eqn:Hk; [exists (answers s); by destruct s|]. apply Z.ltb_ge in Hk.
    destruct (answers s) as [|[p|] o] eqn:E; [exists []; destruct s; simpl in *; by subst| |by exists o].
    destruct ((0 <? p) && (p + k * w <? 2 ^ b)) eqn:Hf; [|by exists o].
    apply andb_true_iff in Hf as [H1 H2]. apply Z.ltb_lt in H1, H2. destruct Hn. split; [done|]. by exists p, o.
Qed.
(** What every reallocation comes to *)
Definition outcome (k n c m : Z) (f : M st unit) (s : st) : Prop :=
  (granted k s -> exists s', f s = Ok tt s' /\ holds s' m k) /\ (~ granted k s -> exists s', f s = Throw s' /\ holds s' n c).
Lemma holds_new p n k o : 0 < p -> p + k * w < 2 ^ b -> 0 <= n <= k -> k <= largest -> holds (St p (p + n * w) (p + k * w) o) n k.
Proof. intros. unfold holds. simpl. split_and!; lia. Qed.
Lemma grow_eq k s n c : holds s n c -> n <= k -> outcome k n c n (grow_storage b w k) s.
Proof.
  intros H Hk. assert (Hs := size_eq _ _ _ H). destruct (allocate_eq k s) as [A1 A2]. unfold outcome, grow_storage, bind. rewrite Hs. split.
  - intros G. destruct (A1 G) as (p & o & _ & Hp & Hf & ->). destruct G as [G _]. destruct H as (? & ? & ? & ? & Hn & ?).
    apply Z.leb_le in Hk as Hk'. unfold check. rewrite Hk'. unfold ret at 1.
    rewrite padd_eq by nia. rewrite padd_eq by done. eexists. split; [done|]. apply holds_new; try done; lia.
  - intros G. destruct (A2 G) as (o & ->). eexists. split; [done|]. done.
Qed.
Lemma shrink_eq k s n c : holds s n c -> 0 <= k -> outcome k n c (Z.min n k) (shrink_storage b w k) s.
Proof.
  intros H Hk. assert (Hs := size_eq _ _ _ H). destruct (allocate_eq k s) as [A1 A2]. unfold outcome, shrink_storage, bind. rewrite Hs. split.
  - intros G. destruct (A1 G) as (p & o & _ & Hp & Hf & ->). destruct G as [G _]. destruct H as (? & ? & ? & ? & Hn & ?).
    rewrite padd_eq by nia. rewrite padd_eq by done. eexists. split; [done|]. apply holds_new; try done; lia.
  - intros G. destruct (A2 G) as (o & ->). eexists. split; [done|]. done.
Qed.
Lemma ctor_eq k s n c : holds s n c -> 0 <= k -> outcome k n c 0 (ctor b w k) s.
Proof.
  intros H Hk. destruct (allocate_eq k s) as [A1 A2]. unfold outcome, ctor, bind. split.
  - intros G. destruct (A1 G) as (p & o & _ & Hp & Hf & ->). destruct G as [G _].
    rewrite padd_eq by done. eexists. split; [done|]. replace p with (p + 0 * w) at 2 by lia. apply holds_new; try done; lia.
  - intros G. destruct (A2 G) as (o & ->). eexists. split; [done|]. done.
Qed.
(** Setting the end *)
Lemma end_eq s n c m : holds s n c -> 0 <= m <= c -> forall q, q = begin_ s + m * w ->
  holds (St (begin_ s) q (storage_end s) (answers s)) m c.
Proof. intros (? & ? & ? & ? & ? & ?) Hm q ->. unfold holds. simpl. split_and!; lia. Qed.

(** ** C169 *)

(** Every operation with legal arguments computes exact sizes: it requests memory for just
    the expected number of elements; a request that is too large, or for which there is no
    memory, throws and changes nothing; else the array has its new size and capacity. No
    pointer leaves the address space and no difference is out of range. *)
Theorem array_sizes_partial : forall o s n c, holds s n c -> legal o n ->
  match needs o n c with
  | None => exists s', step o s = Ok tt s' /\ holds s' (new_size o n) c /\ answers s' = answers s
  | Some k => (granted k s -> exists s', step o s = Ok tt s' /\ holds s' (new_size o n) k) /\
              (~ granted k s -> exists s', step o s = Throw s' /\ holds s' n c)
  end.
Proof.
  intros o s n c H L. destruct pow_half as [P1 P2], largest_le as (L1 & L2 & L3).
  assert (Hs := size_eq _ _ _ H). assert (Hc := capacity_eq _ _ _ H). assert (Hfull := full_eq _ _ _ H).
  assert (Hn : 0 <= n <= c /\ c <= largest) by (unfold holds in H; tauto).
  destruct o; cbn [needs new_size SizeModel.step legal] in *.
  - by apply ctor_eq; [|lia].
  - destruct (ctor_eq n0 s n c H ltac:(lia)) as [O1 O2]. unfold ctor_fill, bind. split.
    + intros G. destruct (O1 G) as (s1 & -> & H1). unfold gets, id. assert (H1' := H1). destruct H1' as (? & ? & ? & ? & ? & ?).
      rewrite padd_eq by lia. eexists. split; [done|]. eapply end_eq; [done|lia|done].
    + intros G. destruct (O2 G) as (s1 & -> & H1). by eexists.
  - destruct (ctor_eq d s n c H ltac:(lia)) as [O1 O2]. unfold ctor_range, bind. rewrite wrap_id by lia. split.
    + intros G. destruct (O1 G) as (s1 & -> & H1). rewrite (capacity_eq _ _ _ H1). unfold gets, id.
      assert (H1' := H1). destruct H1' as (? & ? & ? & ? & ? & ?). rewrite Z.min_id.
      rewrite padd_eq by lia. eexists. split; [done|]. eapply end_eq; [done|lia|done].
    + intros G. destruct (O2 G) as (s1 & -> & H1). by eexists.
  - unfold reserve, bind. rewrite Hc. destruct (c <? n0) eqn:E; [|by eexists].
    apply Z.ltb_lt in E. apply grow_eq; [done|lia].
  - unfold resize, bind. rewrite Hc. destruct (c =? n0) eqn:E.
    + apply Z.eqb_eq in E as ->. rewrite Z.ltb_irrefl. exists s. rewrite Z.min_l by lia. done.
    + apply Z.eqb_neq in E. destruct (c <? n0) eqn:E1.
      * apply Z.ltb_lt in E1. rewrite Z.min_l by lia. apply grow_eq; [done|lia].
      * apply Z.ltb_ge in E1. assert (n0 <? c = true) as -> by (apply Z.ltb_lt; lia). apply shrink_eq; [done|lia].
  - unfold emplace_back, bind, gets, id. rewrite Hfull. destruct (n =? c) eqn:E.
    + apply Z.eqb_eq in E as <-. rewrite Hs. rewrite wrap_id by lia.
      destruct (grow_eq (n + Z.max n 1) s n n H ltac:(lia)) as [O1 O2]. split.
      * intros G. destruct (O1 G) as (s1 & -> & H1). assert (H1' := H1). destruct H1' as (? & A1 & A2 & ? & ? & ?).
        assert (end_ s1 <? storage_end s1 = true) as E1 by (apply Z.ltb_lt; nia). unfold check. rewrite E1. unfold ret.
        rewrite padd_eq by nia. eexists. split; [done|]. eapply end_eq; [done|lia|nia].
      * intros G. destruct (O2 G) as (s1 & -> & H1). by eexists.
    + apply Z.eqb_neq in E. unfold ret at 1. assert (H1' := H). destruct H1' as (? & A1 & A2 & ? & ? & ?).
      assert (end_ s <? storage_end s = true) as E1 by (apply Z.ltb_lt; nia). unfold check. rewrite E1. unfold ret.
      rewrite padd_eq by nia. eexists. split; [done|]. split; [|done]. eapply end_eq; [done|lia|nia].
  - unfold insert, bind. unfold gets, id. rewrite Hfull. destruct (n =? c) eqn:E.
    + apply Z.eqb_eq in E as <-. unfold realloc_insert, bind. rewrite Hs. rewrite (wrap_id (n + Z.max n 1)) by lia.
      destruct (allocate_eq (n + Z.max n 1) s) as [A1 A2]. split.
      * intros G. destruct (A1 G) as (p & o & _ & Hp & Hf & ->). destruct G as [G _].
        assert (n + 1 <=? n + Z.max n 1 = true) as E1 by (apply Z.leb_le; lia). unfold check. rewrite E1. unfold ret.
        rewrite wrap_id by lia. rewrite padd_eq by nia. rewrite padd_eq by done. eexists. split; [done|]. apply holds_new; try done; lia.
      * intros G. destruct (A2 G) as (o & ->). by eexists.
    + apply Z.eqb_neq in E. assert (H1' := H). destruct H1' as (? & A1 & A2 & ? & ? & ?).
      rewrite padd_eq by nia. eexists. split; [done|]. split; [|done]. eapply end_eq; [done|lia|nia].
  - unfold push_back, bind. rewrite Hs, Hc. cbn beta iota zeta. rewrite wrap_id by lia. destruct (c <? n + d) eqn:E.
    + destruct (grow_eq (n + d) s n c H ltac:(lia)) as [O1 O2]. split.
      * intros G. destruct (O1 G) as (s1 & -> & H1). rewrite (size_eq _ _ _ H1), (capacity_eq _ _ _ H1). unfold gets, id.
        assert (H1' := H1). destruct H1' as (? & A1 & A2 & ? & ? & ?).
        unfold check. rewrite Z.leb_refl. unfold ret. rewrite padd_eq by nia. eexists. split; [done|]. eapply end_eq; [done|lia|nia].
      * intros G. destruct (O2 G) as (s1 & -> & H1). by eexists.
    + apply Z.ltb_ge in E. unfold ret at 1. rewrite Hs, Hc. unfold gets, id. assert (H1' := H). destruct H1' as (? & A1 & A2 & ? & ? & ?).
      assert (n + d <=? c = true) as E1 by (apply Z.leb_le; lia). unfold check. rewrite E1. unfold ret.
      rewrite padd_eq by nia. eexists. split; [done|]. split; [|done]. eapply end_eq; [done|lia|nia].
  - unfold insert_range, bind. rewrite Hs, Hc. cbn beta iota zeta. rewrite !(wrap_id d), (wrap_id (n + d)), (wrap_id (c + d)) by lia.
    destruct (c <? n + d) eqn:E.
    + assert ((if c =? 0 then d else c + d) = c + d) as ->.
      { destruct (c =? 0) eqn:E0; [|done]. apply Z.eqb_eq in E0. lia. }
      destruct (allocate_eq (c + d) s) as [A1 A2]. split.
      * intros G. destruct (A1 G) as (p & o & _ & Hp & Hf & ->). destruct G as [G _].
        rewrite padd_eq by done. assert (n + d <=? c + d = true) as E1 by (apply Z.leb_le; lia). unfold check. rewrite E1. unfold ret.
        rewrite padd_eq by nia. rewrite padd_eq by nia. eexists. split; [done|].
        replace (p + n * w + d * w) with (p + (n + d) * w) by lia. apply holds_new; try done; lia.
      * intros G. destruct (A2 G) as (o & ->). by eexists.
    + apply Z.ltb_ge in E. unfold gets, id. assert (H1' := H). destruct H1' as (? & A1 & A2 & ? & ? & ?).
      assert (n + d <=? c = true) as E1 by (apply Z.leb_le; lia). unfold check. rewrite E1. unfold ret.
      rewrite padd_eq by nia. eexists. split; [done|]. split; [|done]. eapply end_eq; [done|lia|nia].
  - unfold pop_back, bind. rewrite Hs. apply Z.ltb_lt in L as L'. unfold check. rewrite L'. unfold ret, gets, id.
    eexists. split; [done|]. split; [|done]. assert (H1' := H). destruct H1' as (? & A1 & A2 & ? & ? & ?). eapply end_eq; [done|lia|nia].
  - unfold erase, bind. rewrite Hs. assert (k <=? n = true) as E1 by (apply Z.leb_le; lia). unfold check. rewrite E1. unfold ret, gets, id.
    rewrite wrap_id by lia.
    eexists. split; [done|]. split; [|done]. assert (H1' := H). destruct H1' as (? & A1 & A2 & ? & ? & ?). eapply end_eq; [done|lia|nia].
  - unfold clear, bind, gets, id. eexists. split; [done|]. split; [|done]. assert (H1' := H). destruct H1' as (? & A1 & A2 & ? & ? & ?). eapply end_eq; [done|lia|nia].
Qed.

(** A fresh array is one of no elements. *)
Theorem array_sizes_empty : forall o, holds (empty o) 0 0.
Proof. intros o. destruct pow_half, largest_le. unfold holds. simpl. split_and!; lia. Qed.

(** The indices of a heap of at most as many elements as an array can have are those of a
    binary tree: the children of [i] are [2 i + 1] and [2 i + 2] whether or not they exist,
    both have the parent [i], and the root is its own parent. *)
Theorem heap_indices : forall i, 0 <= i < largest ->
  left_child b i = 2 * i + 1 /\ right_child b i = 2 * i + 2 /\
  (2 * i + 2 < largest -> parent b (2 * i + 1) = i /\ parent b (2 * i + 2) = i) /\ parent b 0 = 0.
Proof.
  intros i Hi. destruct pow_half as [P1 P2], largest_le as (L1 & L2 & L3).
  unfold left_child, right_child, parent, signed. rewrite !(wrap_id (i * 2)), !(wrap_id (i * 2 + _)) by lia. split_and!; [lia..| |].
  - intros H. assert (2 * i + 1 <? 2 ^ (b - 1) = true) as -> by (apply Z.ltb_lt; lia).
    assert (2 * i + 2 <? 2 ^ (b - 1) = true) as -> by (apply Z.ltb_lt; lia).
    rewrite !Z.quot_div_nonneg by lia. split.
    + replace ((2 * i + 1 - 1) / 2) with i; [apply wrap_id; lia|]. apply Z.div_unique with 0; lia.
    + replace ((2 * i + 2 - 1) / 2) with i; [apply wrap_id; lia|]. apply Z.div_unique with 1; lia.
  - assert (0 <? 2 ^ (b - 1) = true) as -> by (apply Z.ltb_lt; lia). change (Z.quot (0 - 1) 2) with 0. apply wrap_id. lia.
Qed.
End props.
(** The last index of the largest heap of bytes on a 32 bit machine *)
Example heap_indices_ex : largest 32 1 = 2^31 - 1 /\ right_child 32 (2^31 - 2) = 2^32 - 2 /\
  left_child 32 (2^31) = 1 /\ parent 32 7 = 3.
Proof. by vm_compute. Qed.

(** Ints on a 64 bit machine: a full array of 2^60 elements can grow by 16 but not double, as
    2^61 ints are more than an array can have. *)
Example array_sizes_ex : let s := St 4096 (4096 + 2^62) (4096 + 2^62) [Some (2^63)] in
  holds 64 4 s (2^60) (2^60) /\ legal 64 Push (2^60) /\ granted 64 4 (2^60 + 16) s /\
  step 64 4 Push s = Throw (St 4096 (4096 + 2^62) (4096 + 2^62) [Some (2^63)]) /\
  step 64 4 (PushRange 16) s = Ok tt (St (2^63) (2^63 + 2^62 + 64) (2^63 + 2^62 + 64) []) /\
  step 64 4 (Reserve (2^64 - 1)) s = Throw s.
Proof.
  cbn zeta. split; [unfold holds, largest; vm_compute; intuition congruence|]. split; [done|].
  split; [split; [by vm_compute|]; exists (2^63), []; by vm_compute|]. by vm_compute.
Qed.

(** Distances of ranges can be wider than size_t, as those of views::iota of 64 bit numbers
    are with GNU extensions. Then the sum wraps around, and the elements are written past the end of the storage. *)
Theorem array_sizes_refuted : exists s d, holds 64 4 s 2 4 /\ 0 <= d < 2 ^ 64 /\ step 64 4 (PushRange d) s = UB OutOfBounds.
Proof.
  exists (St 4096 4104 4112 []), (2 ^ 64 - 1). split; [unfold holds, largest; vm_compute; intuition congruence|]. split; [done|].
  by vm_compute.
Qed.
Definition size_theorems := (array_sizes_partial, array_sizes_empty, heap_indices, array_sizes_refuted).
Print Assumptions size_theorems.
