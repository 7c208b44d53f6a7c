(** Theorems about ReverseIterator, ConstIterator and Array::Iterator. *)
From stdpp Require Import list list_numbers.
From Coq Require Import ZArith Lia.
From Verif Require Import Base IterModel IterSpec.
Local Open Scope Z_scope.
Local Open Scope mon_scope.

Lemma p_move_ok {V} (l : list V) p n : 0 <= p + n <= Z.of_nat (length l) → p_move p n l = Ok (p + n) l.
Proof. intros. unfold p_move. by rewrite !(proj2 (Z.leb_le _ _)) by lia. Qed.
Lemma p_deref_ok {V} (l : list V) p : 0 <= p < Z.of_nat (length l) → p_deref p l = Ok p l.
Proof. intros. unfold p_deref. by rewrite (proj2 (Z.leb_le _ _)), (proj2 (Z.ltb_lt _ _)) by lia. Qed.

(** ** C46 *)

(** Pointers satisfy the requirements (the base of the two adaptors). *)
Lemma pointer_laws {V} (l : list V) : let n := Z.of_nat (length l) in
  bidirectional pointer l n (λ k, k) (ptr_pos l) ∧ random_access pointer l n (λ k, k) (ptr_pos l) ∧
  ordered pointer l (ptr_pos l).
Proof.
  intros n. unfold ptr_pos. split; [|split].
  - split; simpl; unfold bind, ret.
    + intros it k [-> ?]. lia.
    + intros it k [-> ?] ?. apply p_deref_ok. lia.
    + intros it k [-> ?] ?. done.
    + intros it k [-> ?] ?. eexists. rewrite p_move_ok by lia. split; [done|]. lia.
    + intros it k [-> ?] ?. eexists _, _. rewrite p_move_ok by lia. split; [done|]. lia.
    + intros it k [-> ?] ?. eexists. rewrite p_move_ok by lia. split; [done|]. lia.
    + intros it k [-> ?] ?. eexists _, _. rewrite p_move_ok by lia. split; [done|]. lia.
    + intros a b j k [-> ?] [-> ?]. done.
  - split; simpl; unfold bind, ret.
    + intros it k m [-> ?] ?. eexists. rewrite p_move_ok by lia. split; [done|]. lia.
    + intros it k m [-> ?] ?. eexists. rewrite p_move_ok by lia. split; [done|]. lia.
    + intros it k m [-> ?] ?. eexists. rewrite p_move_ok by lia. split; [done|]. lia.
    + intros it k m [-> ?] ?. eexists. rewrite p_move_ok by lia. split; [done|]. lia.
    + intros it k m [-> ?] ?. eexists. rewrite p_move_ok by lia. split; [done|]. lia.
    + intros a b j k [-> ?] [-> ?]. done.
    + intros it k m [-> ?] ?. rewrite p_move_ok by lia. apply p_deref_ok. lia.
  - intros a b j k [-> ?] [-> ?]. done.
Qed.

(** Array::Iterator satisfies the random access requirements, including the order. *)
Theorem array_iterator_laws {V} (l : list V) : let n := Z.of_nat (length l) in
  bidirectional array_iterator l n (λ k, k) (array_pos l) ∧
  random_access array_iterator l n (λ k, k) (array_pos l) ∧
  ordered array_iterator l (array_pos l).
Proof.
  intros n. unfold array_pos, ptr_pos. split; [|split].
  - split; simpl; unfold bind, ret; simpl.
    + intros it k [_ ?]. lia.
    + intros [c] k [E ?] ?; simpl in *; subst c. apply p_deref_ok. lia.
    + intros [c] k [E ?] ?; simpl in *; subst c. done.
    + intros [c] k [E ?] ?; simpl in *; subst c. eexists. rewrite p_move_ok by lia. split; [done|]. simpl. lia.
    + intros [c] k [E ?] ?; simpl in *; subst c. eexists _, _. rewrite p_move_ok by lia. split; [done|]. simpl. lia.
    + intros [c] k [E ?] ?; simpl in *; subst c. eexists. rewrite p_move_ok by lia. split; [done|]. simpl. lia.
    + intros [c] k [E ?] ?; simpl in *; subst c. eexists _, _. rewrite p_move_ok by lia. split; [done|]. simpl. lia.
    + intros [a] [b] j k [Ea ?] [Eb ?]. simpl in *. by subst.
  - split; simpl; unfold bind, ret; simpl.
    + intros [c] k m [E ?] ?; simpl in *; subst c. eexists. rewrite p_move_ok by lia. split; [done|]. simpl. lia.
    + intros [c] k m [E ?] ?; simpl in *; subst c. eexists. rewrite p_move_ok by lia. split; [done|]. simpl. lia.
    + intros [c] k m [E ?] ?; simpl in *; subst c. eexists. rewrite p_move_ok by lia. split; [done|]. simpl. lia.
    + intros [c] k m [E ?] ?; simpl in *; subst c. eexists. rewrite p_move_ok by lia. split; [done|]. simpl. lia.
    + intros [c] k m [E ?] ?; simpl in *; subst c. eexists. rewrite p_move_ok by lia. split; [done|]. simpl. lia.
    + intros [a] [b] j k [Ea ?] [Eb ?]. simpl in *. by subst.
    + intros [c] k m [E ?] ?; simpl in *; subst c. rewrite p_move_ok by lia. apply p_deref_ok. lia.
  - intros [a] [b] j k [Ea ?] [Eb ?]. simpl in *. by subst.
Qed.

(** ConstIterator<It> satisfies whatever It satisfies, at the same positions. *)
Theorem const_iterator_laws {St A It} (I : iter St A It) s n addr pos :
  (bidirectional I s n addr pos → bidirectional (const_iterator I) s n addr (const_pos pos)) ∧
  (random_access I s n addr pos → random_access (const_iterator I) s n addr (const_pos pos)) ∧
  (ordered I s pos → ordered (const_iterator I) s (const_pos pos)).
Proof.
  unfold const_pos. split; [|split].
  - intros [bi_range0 bi_deref0 bi_arrow0 bi_incr0 bi_pincr0 bi_decr0 bi_pdecr0 bi_eq0]. split; simpl; unfold const_arrow, const_deref, const_incr, const_pincr, const_incr, const_decr, const_pdecr, const_decr, const_eq, bind, ret.
    + intros it k. apply bi_range0.
    + intros it k. apply bi_deref0.
    + intros it k ? ?. destruct (i_contiguous I); auto.
    + intros it k H ?. destruct (bi_incr0 _ _ H) as (it' & -> & ?); [done|]. eauto.
    + intros it k H ?. destruct (bi_incr0 _ _ H) as (it' & -> & ?); [done|]. eauto.
    + intros it k H ?. destruct (bi_decr0 _ _ H) as (it' & -> & ?); [done|]. eauto.
    + intros it k H ?. destruct (bi_decr0 _ _ H) as (it' & -> & ?); [done|]. eauto.
    + intros a b j k. apply bi_eq0.
  - intros [ra_add0 ra_radd0 ra_addeq0 ra_sub0 ra_subeq0 ra_diff0 ra_index0]. split; simpl; unfold const_add, const_radd, const_addeq, const_sub, const_subeq, const_diff, const_index, bind, ret.
    + intros it k m H ?. destruct (ra_add0 _ _ m H) as (it' & -> & ?); [done|]. eauto.
    + intros it k m H ?. destruct (ra_radd0 _ _ m H) as (it' & -> & ?); [done|]. eauto.
    + intros it k m H ?. destruct (ra_addeq0 _ _ m H) as (it' & -> & ?); [done|]. eauto.
    + intros it k m H ?. destruct (ra_sub0 _ _ m H) as (it' & -> & ?); [done|]. eauto.
    + intros it k m H ?. destruct (ra_subeq0 _ _ m H) as (it' & -> & ?); [done|]. eauto.
    + intros a b j k. apply ra_diff0.
    + intros it k m. apply ra_index0.
  - intros H a b j k. apply H.
Qed.
(** Its comparison operators and its differences with underlying iterators. *)
Theorem const_iterator_compare {St A It} (I : iter St A It) s n addr pos a b c j k m :
  random_access I s n addr pos → ordered I s pos → const_pos pos a j → const_pos pos b k → pos c m →
  const_lt I a b s = Ok (j <? k) s ∧ const_gt I a b s = Ok (k <? j) s ∧
  const_le I a b s = Ok (j <=? k) s ∧ const_ge I a b s = Ok (k <=? j) s ∧
  const_diff_sent I a c s = Ok (j - m) s ∧ sent_diff_const I c a s = Ok (m - j) s.
Proof.
  intros Hra Hord Ha Hb Hc. unfold const_pos in *.
  unfold const_lt, const_gt, const_le, const_ge, const_diff_sent, sent_diff_const, bind, ret.
  rewrite (Hord _ _ _ _ Ha Hb), (ra_diff _ _ _ _ _ Hra _ _ _ _ Ha Hc), (ra_diff _ _ _ _ _ Hra _ _ _ _ Hc Ha).
  unfold Z.ltb, Z.leb. rewrite (Z.compare_antisym j k). by destruct (j ?= k).
Qed.
Example const_iterator_ex : let l := [10; 20; 30; 40] in
  (it <- i_add (const_iterator array_iterator) (ConstIt (ArrayIt 1)) 2 ;;
   r <- i_pdecr (const_iterator array_iterator) it ;; p <- i_deref (const_iterator array_iterator) (snd r) ;; read p) l = Ok 30 l ∧
  const_lt array_iterator (ConstIt (ArrayIt 1)) (ConstIt (ArrayIt 3)) l = Ok true l ∧
  i_add array_iterator (ArrayIt 3) 2 l = UB OutOfBounds ∧
  visit (const_iterator array_iterator) 5 (ConstIt (ArrayIt 1)) (ConstIt (ArrayIt 4)) l = Ok [1; 2; 3] l.
Proof. by vm_compute. Qed.

(** ** C44 *)

(** ReverseIterator<It> satisfies the bidirectional and random access
    requirements for the reversed range, whatever bidirectional (random access)
    iterator It is. *)
Theorem reverse_iterator_laws {St A It} (I : iter St A It) s n addr pos :
  bidirectional I s n addr pos → (i_pointer I = true → random_access I s n addr pos) →
  bidirectional (reverse_iterator I) s n (λ k, addr (n - 1 - k)) (rev_pos n pos) ∧
  (random_access I s n addr pos →
   random_access (reverse_iterator I) s n (λ k, addr (n - 1 - k)) (rev_pos n pos)).
Proof.
  intros Hbi Hp. unfold rev_pos.
  assert (∀ it k, pos (r_current it) (n - k) → k < n → rev_deref I it s = Ok (addr (n - 1 - k)) s) as Hd.
  { intros it k H Hk. unfold rev_deref, bind. destruct (i_pointer I).
    - destruct (ra_sub _ _ _ _ _ (Hp eq_refl) _ _ 1 H) as (it' & -> & H'); [pose proof (bi_range _ _ _ _ _ Hbi _ _ H); lia|].
      rewrite (bi_deref _ _ _ _ _ Hbi _ _ H') by (pose proof (bi_range _ _ _ _ _ Hbi _ _ H); lia). do 2 f_equal. lia.
    - destruct (bi_decr _ _ _ _ _ Hbi _ _ H) as (it' & -> & H'); [lia|].
      rewrite (bi_deref _ _ _ _ _ Hbi _ _ H') by (pose proof (bi_range _ _ _ _ _ Hbi _ _ H); lia). do 2 f_equal. lia. }
  split.
  - split; simpl.
    + intros it k H. pose proof (bi_range _ _ _ _ _ Hbi _ _ H). lia.
    + done.
    + intros it k H Hk. unfold rev_arrow, bind. destruct (i_pointer I).
      * destruct (ra_sub _ _ _ _ _ (Hp eq_refl) _ _ 1 H) as (it' & -> & H'); [pose proof (bi_range _ _ _ _ _ Hbi _ _ H); lia|].
        rewrite (bi_arrow _ _ _ _ _ Hbi _ _ H') by (pose proof (bi_range _ _ _ _ _ Hbi _ _ H); lia). do 2 f_equal. lia.
      * destruct (bi_decr _ _ _ _ _ Hbi _ _ H) as (it' & -> & H'); [lia|].
        rewrite (bi_arrow _ _ _ _ _ Hbi _ _ H') by (pose proof (bi_range _ _ _ _ _ Hbi _ _ H); lia). do 2 f_equal. lia.
    + intros it k H Hk. unfold rev_incr, bind, ret.
      destruct (bi_decr _ _ _ _ _ Hbi _ _ H) as (it' & -> & H'); [lia|]. eexists. split; [done|]. simpl.
      by replace (n - (k + 1)) with (n - k - 1) by lia.
    + intros it k H Hk. unfold rev_pincr, bind, ret.
      destruct (bi_decr _ _ _ _ _ Hbi _ _ H) as (it' & -> & H'); [lia|]. eexists _, _. split; [done|]. split; [done|]. simpl.
      by replace (n - (k + 1)) with (n - k - 1) by lia.
    + intros it k H Hk. unfold rev_decr, bind, ret.
      destruct (bi_incr _ _ _ _ _ Hbi _ _ H) as (it' & -> & H'); [lia|]. eexists. split; [done|]. simpl.
      by replace (n - (k - 1)) with (n - k + 1) by lia.
    + intros it k H Hk. unfold rev_pdecr, bind, ret.
      destruct (bi_incr _ _ _ _ _ Hbi _ _ H) as (it' & -> & H'); [lia|]. eexists _, _. split; [done|]. split; [done|]. simpl.
      by replace (n - (k - 1)) with (n - k + 1) by lia.
    + intros a b j k Ha Hb. unfold rev_eq. rewrite (bi_eq _ _ _ _ _ Hbi _ _ _ _ Ha Hb). f_equal.
      destruct (Z.eqb_spec (n - j) (n - k)), (Z.eqb_spec j k); lia || done.
  - intros Hra. split; simpl.
    + intros it k m H Hk. unfold rev_add, bind, ret.
      destruct (ra_sub _ _ _ _ _ Hra _ _ m H) as (it' & -> & H'); [lia|]. eexists. split; [done|]. simpl.
      by replace (n - (k + m)) with (n - k - m) by lia.
    + intros it k m H Hk. unfold rev_radd, bind, ret.
      destruct (ra_sub _ _ _ _ _ Hra _ _ m H) as (it' & -> & H'); [lia|]. eexists. split; [done|]. simpl.
      by replace (n - (k + m)) with (n - k - m) by lia.
    + intros it k m H Hk. unfold rev_addeq, bind, ret.
      destruct (ra_subeq _ _ _ _ _ Hra _ _ m H) as (it' & -> & H'); [lia|]. eexists. split; [done|]. simpl.
      by replace (n - (k + m)) with (n - k - m) by lia.
    + intros it k m H Hk. unfold rev_sub, bind, ret.
      destruct (ra_add _ _ _ _ _ Hra _ _ m H) as (it' & -> & H'); [lia|]. eexists. split; [done|]. simpl.
      by replace (n - (k - m)) with (n - k + m) by lia.
    + intros it k m H Hk. unfold rev_subeq, bind, ret.
      destruct (ra_addeq _ _ _ _ _ Hra _ _ m H) as (it' & -> & H'); [lia|]. eexists. split; [done|]. simpl.
      by replace (n - (k - m)) with (n - k + m) by lia.
    + intros a b j k Ha Hb. unfold rev_diff. rewrite (ra_diff _ _ _ _ _ Hra _ _ _ _ Hb Ha). f_equal. lia.
    + intros it k m H Hk. unfold rev_index, rev_add, bind at 1, bind at 1.
      destruct (ra_sub _ _ _ _ _ Hra _ _ m H) as (it' & -> & H'); [lia|]. unfold ret. apply Hd; simpl; [|lia].
      by replace (n - (k + m)) with (n - k - m) by lia.
Qed.

(** A loop over [first, last) of any lawful iterator visits the elements in order. *)
Lemma visit_range {St A It} (I : iter St A It) s n addr pos : bidirectional I s n addr pos →
  ∀ fuel a b j k, pos a j → pos b k → j <= k → (Z.to_nat (k - j) < fuel)%nat →
  visit I fuel a b s = Ok (map (λ i, addr (j + Z.of_nat i)) (seq 0 (Z.to_nat (k - j)))) s.
Proof.
  intros Hbi fuel. induction fuel as [|fuel IH]; intros a b j k Ha Hb Hjk Hf; [lia|]. cbn [visit].
  unfold bind at 1. rewrite (bi_eq _ _ _ _ _ Hbi _ _ _ _ Ha Hb).
  destruct (Z.eqb_spec j k) as [->|Hne].
  { by rewrite Z.sub_diag. }
  pose proof (bi_range _ _ _ _ _ Hbi _ _ Hb).
  unfold bind at 1. rewrite (bi_deref _ _ _ _ _ Hbi _ _ Ha) by lia.
  unfold bind at 1. destruct (bi_incr _ _ _ _ _ Hbi _ _ Ha) as (a' & -> & Ha'); [lia|].
  unfold bind at 1. rewrite (IH a' b (j + 1) k) by (done || lia).
  replace (Z.to_nat (k - j)) with (S (Z.to_nat (k - (j + 1)))) by lia. cbn [seq map]. unfold ret. do 2 f_equal.
  - f_equal. lia.
  - rewrite <- seq_shift, map_map. apply map_ext. intros i. f_equal. lia.
Qed.

Lemma rev_map_seq {A} (f : Z → A) m :
  map (λ i, f (Z.of_nat m - 1 - (0 + Z.of_nat i))) (seq 0 m) = rev (map (λ i, f (Z.of_nat i)) (seq 0 m)).
Proof.
  induction m as [|m IH]; [done|].
  rewrite seq_S at 2. rewrite map_app, rev_app_distr. cbn [map rev app seq Nat.add]. f_equal; [f_equal; lia|].
  rewrite <- IH, <- seq_shift, map_map. apply map_ext. intros i. f_equal. lia.
Qed.
(** Iterating from ReverseIterator(end) to ReverseIterator(begin) visits the
    elements of the range from last to first, for any underlying iterator. *)
Theorem reverse_iterator_visits {St A It} (I : iter St A It) s n addr pos b e :
  bidirectional I s n addr pos → (i_pointer I = true → random_access I s n addr pos) →
  pos b 0 → pos e n →
  let m := Z.to_nat n in
  visit I (S m) b e s = Ok (map (λ i, addr (Z.of_nat i)) (seq 0 m)) s ∧
  visit (reverse_iterator I) (S m) (RevIt e) (RevIt b) s =
    Ok (rev (map (λ i, addr (Z.of_nat i)) (seq 0 m))) s.
Proof.
  intros Hbi Hp Hb He m. pose proof (bi_range _ _ _ _ _ Hbi _ _ He) as Hn.
  destruct (reverse_iterator_laws I s n addr pos Hbi Hp) as [Hrev _]. split.
  - rewrite (visit_range _ _ _ _ _ Hbi _ _ _ 0 n) by (done || lia). by rewrite Z.sub_0_r.
  - rewrite (visit_range _ _ _ _ _ Hrev _ _ _ 0 n); [|unfold rev_pos; simpl|unfold rev_pos; simpl|lia|lia].
    + rewrite Z.sub_0_r. fold m. f_equal. rewrite <- rev_map_seq. apply map_ext. intros i. f_equal. unfold m. lia.
    + by rewrite Z.sub_0_r.
    + by rewrite Z.sub_diag.
Qed.

Lemma read_all_seq {V} (l : list V) (ps : list nat) vs :
  Forall2 (λ i v, l !! i = Some v) ps vs → read_all (map Z.of_nat ps) l = Ok vs l.
Proof.
  induction 1 as [|i v ps vs Hi _ IH]; [done|]. cbn [map read_all]. unfold bind at 1, read at 1.
  rewrite Nat2Z.id, Hi, (proj2 (Z.leb_le _ _)) by lia. unfold bind at 1. by rewrite IH.
Qed.
(** For an array: the values are those of the list, read backwards. *)
Theorem reverse_array_values {V} (l : list V) :
  let n := Z.of_nat (length l) in
  (ps <- visit (reverse_iterator array_iterator) (S (length l)) (RevIt (ArrayIt n)) (RevIt (ArrayIt 0)) ;; read_all ps) l = Ok (rev l) l ∧
  (ps <- visit (reverse_iterator pointer) (S (length l)) (RevIt n) (RevIt 0) ;; read_all ps) l = Ok (rev l) l ∧
  (ps <- visit (reverse_iterator (const_iterator array_iterator)) (S (length l)) (RevIt (ConstIt (ArrayIt n))) (RevIt (ConstIt (ArrayIt 0))) ;;
     read_all ps) l = Ok (rev l) l ∧
  (ps <- visit (reverse_iterator (reverse_iterator array_iterator)) (S (length l)) (RevIt (RevIt (ArrayIt 0))) (RevIt (RevIt (ArrayIt n))) ;;
     read_all ps) l = Ok l l.
Proof.
  intros n.
  assert (Hall : read_all (rev (map (λ i, Z.of_nat i) (seq 0 (length l)))) l = Ok (rev l) l).
  { rewrite <- map_rev. apply read_all_seq. rewrite !rev_alt. apply Forall2_reverse.
    apply Forall2_same_length_lookup. split; [by rewrite seq_length|].
    intros i x y [-> ?]%lookup_seq. done. }
  destruct (array_iterator_laws l) as (Hb & Hr & Ho). fold n in Hb, Hr.
  destruct (pointer_laws l) as (Pb & Pr & Po). fold n in Pb, Pr.
  assert (Z.to_nat n = length l) as En by (unfold n; lia).
  split_and!; unfold bind.
  - destruct (reverse_iterator_visits array_iterator l n (λ k, k) (array_pos l) (ArrayIt 0) (ArrayIt n)) as [_ H];
      [done|done|split; simpl; lia|split; simpl; lia|]. rewrite En in H. by rewrite H.
  - destruct (reverse_iterator_visits pointer l n (λ k, k) (ptr_pos l) 0 n) as [_ H];
      [done|done|split; simpl; lia|split; simpl; lia|]. rewrite En in H. by rewrite H.
  - destruct (const_iterator_laws array_iterator l n (λ k, k) (array_pos l)) as (Cb & Cr & _).
    destruct (reverse_iterator_visits (const_iterator array_iterator) l n (λ k, k) (const_pos (array_pos l)) (ConstIt (ArrayIt 0)) (ConstIt (ArrayIt n))) as [_ H];
      [auto|done|split; simpl; lia|split; simpl; lia|]. rewrite En in H. by rewrite H.
  - destruct (reverse_iterator_laws array_iterator l n (λ k, k) (array_pos l)) as [Rb _]; [done|done|].
    destruct (reverse_iterator_visits (reverse_iterator array_iterator) l n (λ k, n - 1 - k) (rev_pos n (array_pos l)) (RevIt (ArrayIt n)) (RevIt (ArrayIt 0))) as [_ H].
    { done. } { done. } { split; simpl; lia. } { split; simpl; lia. }
    rewrite En in H. rewrite H.
    assert (rev (map (λ i, n - 1 - Z.of_nat i) (seq 0 (length l))) = map Z.of_nat (seq 0 (length l))) as ->.
    { rewrite <- (rev_involutive (map Z.of_nat _)). f_equal. rewrite <- (rev_map_seq (λ k, k)). done. }
    apply read_all_seq. apply Forall2_same_length_lookup. split; [by rewrite seq_length|].
    intros i x y [-> ?]%lookup_seq. done.
Qed.
Example reverse_iterator_ex : let l := [10; 20; 30; 40] in
  (ps <- visit (reverse_iterator array_iterator) 5 (RevIt (ArrayIt 4)) (RevIt (ArrayIt 0)) ;; read_all ps) l = Ok [40; 30; 20; 10] l ∧
  i_index (reverse_iterator array_iterator) (RevIt (ArrayIt 4)) 2 l = Ok 1 l ∧
  i_diff (reverse_iterator array_iterator) (RevIt (ArrayIt 1)) (RevIt (ArrayIt 4)) l = Ok 3 l ∧
  (it <- i_add (reverse_iterator pointer) (RevIt 3) 2 ;; i_arrow (reverse_iterator pointer) it) l = Ok 0 l ∧
  i_incr (reverse_iterator pointer) (RevIt 0) l = UB OutOfBounds.
Proof. by vm_compute. Qed.

(** ** C45 *)

(** == agrees with positions, but < and > are the wrong way round: the defaulted
    <=> compares the underlying iterators, which run in the opposite direction. *)
Theorem reverse_order_partial {St A It} (I : iter St A It) s n addr pos :
  bidirectional I s n addr pos → ordered I s pos →
  ordered_backwards (reverse_iterator I) s (rev_pos n pos) ∧
  (∀ a b j k, rev_pos n pos a j → rev_pos n pos b k → i_eq (reverse_iterator I) a b s = Ok (j =? k) s).
Proof.
  intros Hbi Ho. unfold rev_pos. split.
  - intros a b j k Ha Hb. simpl. unfold rev_cmp. rewrite (Ho _ _ _ _ Ha Hb). f_equal.
    destruct (Z.compare_spec (n - j) (n - k)), (Z.compare_spec k j); lia || done.
  - intros a b j k Ha Hb. simpl. unfold rev_eq. rewrite (bi_eq _ _ _ _ _ Hbi _ _ _ _ Ha Hb). f_equal.
    destruct (Z.eqb_spec (n - j) (n - k)), (Z.eqb_spec j k); lia || done.
Qed.
Example reverse_order_partial_ex : let l := [10; 20; 30; 40] in
  rev_pos 4 (ptr_pos l) (RevIt 3) 1 ∧ rev_pos 4 (ptr_pos l) (RevIt 3) 1 ∧
  i_eq (reverse_iterator pointer) (RevIt 3) (RevIt 3) l = Ok true l.
Proof. unfold rev_pos, ptr_pos. simpl. split_and!; lia || done. Qed.
(** rbegin() < rend() is false although rend() - rbegin() > 0. *)
Theorem reverse_order_refuted : ∃ (l : list Z) a b d,
  rev_pos 2 (ptr_pos l) a 0 ∧ rev_pos 2 (ptr_pos l) b 2 ∧
  i_diff (reverse_iterator pointer) b a l = Ok d l ∧ 0 < d ∧
  i_cmp (reverse_iterator pointer) a b l = Ok Gt l.
Proof. exists [7; 8], (RevIt 2), (RevIt 0), 2. unfold rev_pos, ptr_pos. simpl. split_and!; lia || done. Qed.
(** Comparing reverse iterators of different types (say T* and const T* ) agrees
    with positions as long as neither is rend() ... *)
Theorem reverse_mixed_partial {V} (l : list V) (a b : rev_it Z) (b' : rev_it array_it) j k :
  let n := Z.of_nat (length l) in
  rev_pos n (ptr_pos l) a j → rev_pos n (ptr_pos l) b k → r_current b = m_cursor (r_current b') → j < n → k < n →
  rev_eq_mixed pointer pointer a b l = Ok (j =? k) l ∧
  rev_eq_mixed pointer array_iterator a b' l = Ok (j =? k) l.
Proof.
  intros n [Ha ?] [Hb ?] Hb' Hj Hk. unfold rev_eq_mixed, rev_arrow. simpl. unfold bind, ret. rewrite <- Hb', Ha, Hb.
  rewrite !p_move_ok by lia.
  assert ((n - j + -1 =? n - k + -1) = (j =? k)) as E; [|by rewrite <- E].
  destruct (Z.eqb_spec (n - j + -1) (n - k + -1)), (Z.eqb_spec j k); lia || done.
Qed.
Example reverse_mixed_partial_ex : rev_eq_mixed pointer array_iterator (RevIt 2) (RevIt (ArrayIt 2)) [1; 2; 3] = Ok true [1; 2; 3].
Proof. done. Qed.
(** ... but comparing with rend(), as every loop does, steps before the array. *)
Theorem reverse_mixed_refuted : ∃ (l : list Z) a b,
  rev_pos 2 (ptr_pos l) a 0 ∧ rev_pos 2 (ptr_pos l) b 2 ∧
  rev_eq_mixed pointer pointer a b l = UB OutOfBounds ∧
  (∃ e, rev_eq_mixed pointer pointer (RevIt 2) (RevIt 1) l = Ok e l).
Proof.
  exists [7; 8], (RevIt 2), (RevIt 0). unfold rev_pos, ptr_pos. simpl. split_and!; try (lia || done). by eexists.
Qed.

(** The orderings between two reverse iterator types are backwards as well. *)
Theorem reverse_mixed_order_partial {V} (l : list V) (a b : rev_it Z) (b' : rev_it array_it) j k :
  let n := Z.of_nat (length l) in
  rev_pos n (ptr_pos l) a j → rev_pos n (ptr_pos l) b k → r_current b = m_cursor (r_current b') → j < n → k < n →
  rev_cmp_mixed pointer pointer a b l = Ok (k ?= j) l ∧
  rev_cmp_mixed pointer array_iterator a b' l = Ok (k ?= j) l ∧
  rev_cmp_mixed array_iterator pointer b' a l = Ok (j ?= k) l.
Proof.
  intros n [Ha ?] [Hb ?] Hb' Hj Hk. unfold rev_cmp_mixed, rev_arrow. simpl. unfold bind, ret. rewrite <- Hb', Ha, Hb.
  rewrite !p_move_ok by lia.
  assert (∀ x y, (n - x + -1 ?= n - y + -1) = (y ?= x)) as E; [|split_and!; simpl; f_equal; apply E].
  intros x y. destruct (Z.compare_spec (n - x + -1) (n - y + -1)), (Z.compare_spec y x); lia || done.
Qed.
Example reverse_mixed_order_partial_ex :
  rev_cmp_mixed pointer array_iterator (RevIt 3) (RevIt (ArrayIt 1)) [1; 2; 3] = Ok Gt [1; 2; 3] ∧
  rev_pos 3 (ptr_pos [1; 2; 3]) (RevIt 3) 0 ∧ rev_pos 3 (array_pos [1; 2; 3]) (RevIt (ArrayIt 1)) 2.
Proof. unfold rev_pos, array_pos, ptr_pos. simpl. split_and!; done || lia. Qed.
Theorem reverse_mixed_order_refuted : ∃ (l : list Z) a (b : rev_it array_it),
  rev_pos 3 (ptr_pos l) a 0 ∧ rev_pos 3 (array_pos l) b 1 ∧
  rev_cmp_mixed pointer array_iterator a b l = Ok Gt l.
Proof.
  exists [1; 2; 3], (RevIt 3), (RevIt (ArrayIt 2)). unfold rev_pos, array_pos, ptr_pos. simpl. split_and!; done || lia.
Qed.
(** [n - it], which no iterator requirement asks for, moves n positions back like
    [it - n]. *)
Theorem reverse_number_minus {St A It} (I : iter St A It) s n addr pos it k m :
  bidirectional I s n addr pos → random_access I s n addr pos → rev_pos n pos it k → 0 <= k - m <= n →
  ∃ it', rev_rsub I m it s = Ok it' s ∧ rev_pos n pos it' (k - m).
Proof.
  intros _ HR Hp Hm. destruct (ra_radd _ _ _ _ _ HR _ (n - k) m Hp) as (c & Hc & Hpos); [lia|].
  exists (RevIt c). unfold rev_rsub. unfold bind; rewrite Hc. split; [done|].
  unfold rev_pos. simpl. by replace (n - (k - m)) with (n - k + m) by lia.
Qed.
Example reverse_number_minus_ex : rev_rsub pointer 2 (RevIt 0) [1; 2; 3] = Ok (RevIt 2) [1; 2; 3] ∧
  rev_pos 3 (ptr_pos [1; 2; 3]) (RevIt 0) 3.
Proof. unfold rev_pos, ptr_pos. simpl. split_and!; done || lia. Qed.

Definition iter_theorems :=
  (@array_iterator_laws, @const_iterator_laws, @const_iterator_compare, @reverse_iterator_laws,
   @reverse_iterator_visits, @reverse_array_values, @reverse_order_partial, @reverse_order_refuted,
   @reverse_mixed_partial, @reverse_mixed_refuted,
   @reverse_mixed_order_partial, @reverse_mixed_order_refuted, @reverse_number_minus).
Print Assumptions iter_theorems.
