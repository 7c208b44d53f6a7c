(** Theorems about ranges of input iterators as arguments (properties C120, C121). *)
From stdpp Require Import list.
From Verif Require Import Base InputModel InputProofs.
From Verif Require InputLost ArrayObs ArrayProofs ArrayOps4.
From Verif Require ArrayModel ArraySpec ArrayRun ArrayObsSpec ArrayProps.
From Verif Require HeapModel HeapSpec HeapRun HeapProps.
From Verif Require Client ListTheory ListModel ListSpec ListRun ListObsSpec ListProps.
Local Open Scope mon_scope.

(** ** Vocabulary *)

(** The range that begins at the iterator, with the stream it reads from, has the
    elements [xs]. *)
Inductive yields {V} : iter V → list V → list V → Prop :=
| yields_multi xs w : yields (Multi xs) w xs
| yields_end : yields (Cached None) [] []
| yields_cached v w : yields (Cached (Some v)) w (v :: w)
| yields_shared w : yields Shared w w.
Definition multi_pass {V} (x : iter V) : Prop := match x with Multi _ => True | _ => False end.

Lemma yields_left {V} (x : iter V) w xs : yields x w xs → left_of x w = xs ∧ at_rest x w.
Proof. by destruct 1. Qed.

(** ** C120: Array *)
Section array.
Import ArrayModel ArraySpec ArrayRun ArrayObsSpec.
Context {V : Type}.
Implicit Types (s : st V) (x : iter V) (w : list V).

(** insert at the position with index [k]; the index of the returned iterator *)
Definition insert_call (i k : nat) (sized : bool) (x : iter V) : MI (st V) (out V) :=
  p <- lift (index i k) ;; q <- insert_input true i p sized x ;; lift (idx_of i q).

(** Ranges whose size is known ([last - first] exists) or that can be gone
    through twice: all elements arrive, in order; a throwing call appends a
    prefix. Partial: single-pass ranges of unknown size, see below. *)
Theorem array_push_input_partial s w i l c sized x xs : reach s → obs s i l c → yields x w xs →
  sized = true ∨ multi_pass x →
  match push_back_input true i sized x (s, w) with
  | Ok _ (s', _) => obs s' i (l ++ xs) (Nat.max c (length l + length xs)) ∧ same_except i s s' ∧ reach s'
  | Throw (s', _) => oracle s ≠ [] ∧ same_except i s s' ∧ reach s' ∧
      ∃ k c', obs s' i (l ++ take k xs) c' ∧ (k = 0 ∨ k < length xs)
  | UB _ => False
  end.
Proof.
  intros Hr Ho [<- Hx]%yields_left Hk.
  assert (Hk' : keeps sized x) by (destruct x; simpl; [done|by destruct Hk..]).
  assert (Hc := ArrayProps.array_push_back_range s i l c (left_of x w) Hr Ho).
  assert (Ha := push_back_keeps true i sized x s w Hx Hk'). unfold call, run_op, bind in Hc.
  destruct (push_back_input _ _ _ _ _) as [[] [s1 w1]|[s1 w1]|], (push_back_range _ _ _ _) as [[] s2|s2|]; simpl in Ha, Hc; try done.
  - destruct Ha as (_ & -> & _). tauto.
  - destruct Ha as (-> & _). destruct Hc as (H1 & (l' & c' & (k & -> & Hk0) & H2) & H3 & H4). split_and!; try done. by exists k, c'.
Qed.
Theorem array_insert_input_partial s w i l c k sized x xs : reach s → obs s i l c → k ≤ length l → yields x w xs →
  sized = true ∨ multi_pass x →
  match insert_call i k sized x (s, w) with
  | Ok r (s', _) => r = RIdx k ∧
      obs s' i (take k l ++ xs ++ drop k l) (if Nat.ltb c (length l + length xs) then c + length xs else c) ∧
      same_except i s s' ∧ reach s'
  | Throw (s', _) => oracle s ≠ [] ∧ (c < length l + length xs → obs s' i l c) ∧ same_except i s s' ∧ reach s'
  | UB _ => False
  end.
Proof.
  intros Hr Ho Hk [<- Hx]%yields_left Hm.
  assert (Hk' : keeps sized x) by (destruct x; simpl; [done|by destruct Hm..]).
  assert (Hc := ArrayProps.array_insert_range s i l c k (left_of x w) Hr Ho Hk).
  assert (Ha : agree (leaves x w) (insert_call i k sized x (s, w)) (run_op true (OInsertRange i k (left_of x w)) s)).
  { unfold insert_call, run_op. apply agree_lift_bind; [apply leaves_refl|]. intros p s1.
    eapply (agree_bind (leaves x w)); [by apply insert_keeps| |done]. intros q s2 w2 Hw. by apply agree_lift. }
  destruct (insert_call _ _ _ _ _) as [? [s1 w1]|[s1 w1]|], (run_op _ _ _) as [? s2|s2|]; simpl in Ha; try done.
  - destruct Ha as (-> & -> & _). done.
  - destruct Ha as (-> & _). done.
Qed.

Lemma size_obs s i l c : reach s → obs s i l c → size i s = Ok (length l) s.
Proof.
  intros Hr Ho. destruct (ArrayProps.array_access s i l c Hr Ho) as (Hs & _). unfold reads, run_op, bind in Hs.
  unfold ret in Hs. destruct (size i s); congruence.
Qed.
Lemma reserve_oracle s i l c n r s' : reach s → obs s i l c → run_op true (OReserve i n) s = Ok r s' → oracle s = [] → oracle s' = [].
Proof.
  intros Hr Ho E Hq. destruct (ArrayObs.obs_get s i l c Hr Ho) as (σ & Hs & Hv & Hi).
  assert (Hst := ArrayHistory.step_sim true (OReserve i n) s σ (upd σ i (Good l (Nat.max c n))) RUnit Hs (or_introl eq_refl)).
  rewrite E in Hst. destruct Hst as (_ & _ & Hs' & _).
  - unfold spec_step, get_good. by rewrite Hi.
  - rewrite Hq in Hs'. by apply suffix_nil_inv in Hs'.
Qed.

(** Single-pass ranges of unknown size: the size is found by running through the
    range; after that only the element the iterator holds itself, if it holds
    one, can still be read. All others are gone: neither in the array nor left
    in the stream. *)
Theorem array_push_input_lost s w i l c x xs : reach s → obs s i l c → yields x w xs → ¬ multi_pass x →
  let kept := match x with Cached _ => take 1 xs | _ => [] end in
  match push_back_input true i false x (s, w) with
  | Ok _ (s', w') => obs s' i (l ++ kept) (Nat.max c (length l + length xs)) ∧ w' = [] ∧ same_except i s s' ∧ reach s'
  | Throw (s', w') => oracle s ≠ [] ∧ w' = [] ∧ same_except i s s' ∧ reach s' ∧ ∃ c', obs s' i l c'
  | UB _ => False
  end.
Proof.
  intros Hr Ho [<- Hx]%yields_left Hm kept.
  assert (Ek : remaining false x w = kept) by (by destruct x as [|[]|]).
  assert (Ew : ∀ w', leaves x (counted false x w) w' → w' = []).
  { intros w' Hl. destruct x as [|[]|]; simpl in *; try done; by apply suffix_nil_inv in Hl. }
  assert (Hlk : length kept ≤ 1) by (unfold kept; destruct x as [|[]|]; simpl; lia).
  assert (Hll : length kept ≤ length (left_of x w)) by (unfold kept; destruct x as [|[]|]; simpl; lia).
  clearbody kept.
  assert (Ha := push_back_agree true i false x s w Hx). rewrite Ek in Ha.
  assert (Hs := size_obs s i l c Hr Ho). assert (Hcap : capacity i s = Ok c s) by apply Ho.
  assert (Hc1 := ArrayProps.array_reserve s i l c (length l + length (left_of x w)) Hr Ho).
  assert (Hor := λ r s', reserve_oracle s i l c (length l + length (left_of x w)) r s' Hr Ho).
  unfold call, run_op, reserve, bind in Hc1, Hor. rewrite Hcap in Hc1, Hor.
  unfold bind in Ha. rewrite Hs, Hcap in Ha.
  match type of Ha with agree _ _ (match ?t with _ => _ end) => destruct t as [[] s1|s1|] end; simpl in Hc1; [| |done].
  - destruct Hc1 as (_ & Ho1 & Hs1 & Hr1). simpl in Ha. specialize (Hor _ _ eq_refl).
    assert (Hc2 := ArrayProps.array_push_back_range s1 i l _ kept Hr1 Ho1).
    assert (Hs' := size_obs s1 i l _ Hr1 Ho1). assert (Hcap' := proj2 Ho1).
    unfold call, run_op, push_back_range, bind in Hc2. rewrite Hs', Hcap', map_length in Hc2.
    assert (E : Nat.ltb (Nat.max c (length l + length (left_of x w))) (length l + length kept) = false).
    { apply Nat.ltb_ge. lia. }
    rewrite E in Hc2. simpl in Hc2.
    replace (Nat.max (Nat.max c (length l + length (left_of x w))) (length l + length kept))
      with (Nat.max c (length l + length (left_of x w))) in Hc2 by lia.
    destruct (push_back_input _ _ _ _ _) as [[] [s2 w2]|[s2 w2]|], (push_loop _ _ _ _) as [[] s3|s3|]; simpl in Ha, Hc2; try done.
    + destruct Ha as (_ & -> & ->%Ew). destruct Hc2 as (_ & H1 & H2 & H3). split_and!; try done.
      intros j l0 c0 Hj Hj0. auto.
    + destruct Ha as (-> & ->%Ew). destruct Hc2 as (H1 & (l' & c' & (k & -> & Hk) & H2) & H3 & H4).
      assert (El : take k kept = []) by (destruct k; [done|destruct Hk; [done|destruct kept; simpl in *; [done|lia]]]).
      rewrite El, app_nil_r in H2. split_and!; try done; [by intros H%Hor|intros j l0 c0 Hj Hj0; auto|by exists c'].
  - destruct Hc1 as (H1 & (l' & c' & [-> ->] & H2) & H3 & H4).
    destruct (push_back_input _ _ _ _ _) as [[] [s2 w2]|[s2 w2]|]; simpl in Ha; try done.
    destruct Ha as (-> & ->%Ew). split_and!; try done. by exists c.
Qed.

(** insert makes room for all elements and then finds one or none: the places of
    the others are part of the array. After a reallocation they were never
    constructed, and reading the array is undefined behaviour; without one they
    hold what was there before. *)
Theorem array_insert_input_lost s w i l c k x xs : reach s → obs s i l c → k ≤ length l → yields x w xs → ¬ multi_pass x →
  let kept := match x with Cached _ => take 1 xs | _ => [] end in
  length kept < length xs →
  match (p <- lift (index i k) ;; insert_input true i p false x) (s, w) with
  | Ok _ (s', w') => w' = [] ∧
      (c < length l + length xs → to_list i s' = UB ReadRaw) ∧
      (length l + length xs ≤ c → length xs ≤ length l - k →
       to_list i s' = Ok (take k l ++ kept ++ drop (length kept) (take (length xs) (drop k l)) ++ drop k l) s')
  | Throw _ => oracle s ≠ []
  | UB _ => False
  end.
Proof.
  intros Hr Ho Hk [<- Hx]%yields_left Hm kept Hlt.
  assert (Ek : remaining false x w = kept) by (by destruct x as [|[]|]).
  assert (Ew : ∀ w', leaves x (counted false x w) w' → w' = []).
  { intros w' Hl. destruct x as [|[]|]; simpl in *; try done; by apply suffix_nil_inv in Hl. }
  clearbody kept. destruct (ArrayObs.obs_rep s i l c Hr Ho) as (a & own & Ha & HR).
  destruct s as [h o r m q]. simpl in Ha, HR. unfold bind, lift at 1. cbn [fst snd].
  erewrite ArrayOps4.index_eq by done.
  assert (Hp := InputLost.insert_counted_post i k (length (left_of x w)) (map AVal kept) kept a own l c h o r m q Ha HR Hk).
  rewrite !map_length in Hp.
  assert (Hv : ∀ h' b', Forall2 (ArrayProofs.aval_out h' b') (map AVal kept) kept).
  { intros h' b'. clear. induction kept; simpl; constructor; done. }
  specialize (Hp Hv eq_refl Hlt).
  assert (Hg := insert_agree true i (ArrayOps4.pos_ptr own k) false x (mkSt h o r m q) w Hx). rewrite Ek in Hg.
  destruct (insert_input _ _ _ _ _ _) as [p1 [s1 w1]|[s1 w1]|], (insert_counted _ _ _ _ _ _) as [p2 s2|s2|]; simpl in Hg, Hp; try done.
  destruct Hg as (_ & -> & ->%Ew). split; [done|]. destruct (Nat.ltb_spec c (length l + length (left_of x w))) as [Hb|Hb].
  - split; [|lia]. intros _. eapply InputLost.holds_raw; [exact Hp|lia].
  - split; [lia|]. intros _ Hfit. destruct Hp as (rest & Hp). apply InputLost.holds_live.
    rewrite take_app_le in Hp by (rewrite map_length, drop_length; lia).
    rewrite !map_app. rewrite map_app in Hp. rewrite <- app_assoc in Hp.
    assert (E : drop (length kept) (take (length (left_of x w)) (map Live (drop k l))) =
                map Live (drop (length kept) (take (length (left_of x w)) (drop k l)))).
    { by rewrite firstn_map, skipn_map. }
    by rewrite E in Hp.
Qed.
End array.

(** Examples: array 1 of [ArrayProps.ex_s] holds 7,8 with capacity 5, array 0
    holds 3,1,2 with capacity 3. *)
Section array_examples.
Import ArrayModel ArraySpec ArrayRun ArrayObsSpec ArrayProps.
Example array_push_input_ex : reach ex_s ∧ obs ex_s 1 [7;8] 5 ∧ yields (Multi [4;5]) [9] [4;5] ∧ yields Shared [4;5] [4;5] ∧
  (∃ s', push_back_input true 1 false (Multi [4;5]) (ex_s, [9]) = Ok tt (s', [9]) ∧ to_list 1 s' = Ok [7;8;4;5] s') ∧
  (∃ s', push_back_input true 1 true Shared (ex_s, [4;5]) = Ok tt (s', []) ∧ to_list 1 s' = Ok [7;8;4;5] s').
Proof. split_and!; [apply ex_reach|apply ex_obs|constructor|constructor|eexists; vm_compute; by repeat split..]. Qed.
Example array_insert_input_ex : reach ex_s ∧ obs ex_s 0 [3;1;2] 3 ∧ yields (Cached (Some 4)) [5;6] [4;5;6] ∧
  (∃ s', insert_call 0 1 false (Multi [4;5;6]) (ex_s, []) = Ok (RIdx 1) (s', []) ∧ to_list 0 s' = Ok [3;4;5;6;1;2] s') ∧
  (∃ s', insert_call 0 1 true (Cached (Some 4)) (ex_s, [5;6]) = Ok (RIdx 1) (s', []) ∧ to_list 0 s' = Ok [3;4;5;6;1;2] s').
Proof. split_and!; [apply ex_reach|apply ex_obs|constructor|eexists; vm_compute; by repeat split..]. Qed.
(** An array filled from a std::istream_iterator gets the first number of the
    stream only, from a view of a stream it gets none. *)
Example array_push_input_lost_ex : reach ex_s ∧ obs ex_s 1 [7;8] 5 ∧ yields (Cached (Some 4)) [5;6] [4;5;6] ∧
  (∃ s', push_back_input true 1 false (Cached (Some 4)) (ex_s, [5;6]) = Ok tt (s', []) ∧ to_list 1 s' = Ok [7;8;4] s') ∧
  (∃ s', push_back_input true 1 false Shared (ex_s, [4;5;6]) = Ok tt (s', []) ∧ to_list 1 s' = Ok [7;8] s').
Proof. split_and!; [apply ex_reach|apply ex_obs|constructor|eexists; vm_compute; by repeat split..]. Qed.
Example array_insert_input_lost_ex : reach ex_s ∧ obs ex_s 0 [3;1;2] 3 ∧ obs ex_s 1 [7;8] 5 ∧ yields (Cached (Some 4)) [5] [4;5] ∧
  (∃ p s', index 0 1 ex_s = Ok p ex_s ∧ insert_input true 0 p false (Cached (Some 4)) (ex_s, [5]) = Ok (Ptr 2 1) (s', []) ∧
           to_list 0 s' = UB ReadRaw) ∧
  (∃ p s', index 1 0 ex_s = Ok p ex_s ∧ insert_input true 1 p false (Cached (Some 4)) (ex_s, [5]) = Ok p (s', []) ∧
           to_list 1 s' = Ok [4;8;7;8] s').
Proof. split_and!; [apply ex_reach|apply ex_obs|apply ex_obs|constructor|do 2 eexists; vm_compute; by repeat split..]. Qed.

(** So appending or inserting the elements of a range is not what these
    functions do for every range they accept. *)
Theorem array_push_input_refuted : ∃ (s : st nat) w i l c x xs s' w',
  reach s ∧ obs s i l c ∧ yields x w xs ∧ push_back_input true i false x (s, w) = Ok tt (s', w') ∧
  to_list i s' ≠ Ok (l ++ xs) s'.
Proof.
  exists ex_s, [5;6], 1, [7;8], 5, (Cached (Some 4)), [4;5;6]. do 2 eexists.
  split_and!; [apply ex_reach|apply ex_obs|constructor|vm_compute; reflexivity|vm_compute; discriminate].
Qed.
Theorem array_insert_input_refuted : ∃ (s : st nat) w i l c k x xs p q s' w',
  reach s ∧ obs s i l c ∧ k ≤ length l ∧ yields x w xs ∧ index i k s = Ok p s ∧
  insert_input true i p false x (s, w) = Ok q (s', w') ∧ to_list i s' = UB ReadRaw.
Proof.
  exists ex_s, [5], 0, [3;1;2], 3, 1, (Cached (Some 4)), [4;5]. do 4 eexists.
  split_and!; [apply ex_reach|apply ex_obs|vm_compute; lia|constructor|vm_compute; reflexivity..].
Qed.
End array_examples.

(** ** C121: LinkedList and Heap take the elements of every range *)

Section lists.
Import ListModel ListSpec ListRun ListObsSpec ListProps ListTheory.
Context {V : Type}.
Implicit Types (s : st V) (x : iter V) (w : list V).

(** insert_after with a range behind the nodes [a] *)
Theorem list_insert_input s w i (a b : list (nat * V)) x xs : reach s → lobs s i (a ++ b) → yields x w xs →
  let N := length (nodes s) in
  match insert_after_input (pos_after i a) x (s, w) with
  | Ok q (s', _) => q = last_id (pos_after i a) (new_nodes N xs) ∧ lobs s' i (a ++ new_nodes N xs ++ b) ∧
                    same_except i s s' ∧ reach s'
  | Throw (s', _) => oracle s ≠ [] ∧ same_except i s s' ∧ reach s' ∧
                     ∃ m, m < length xs ∧ lobs s' i (a ++ new_nodes N (take m xs) ++ b)
  | UB _ => False
  end.
Proof.
  intros Hr Hl [<- Hx]%yields_left N.
  assert (Hc := ListProps.list_insert_range s i a b (left_of x w) Hr Hl).
  assert (Ha := insert_after_agree (pos_after i a) x s w). unfold call, run_op, bind in Hc.
  destruct (insert_after_input _ _ _) as [q [s1 w1]|[s1 w1]|], (insert_range _ _ _) as [q' s2|s2|]; simpl in Ha, Hc; try done.
  - destruct Ha as (-> & -> & _). destruct Hc as ([= ->] & ?). done.
  - destruct Ha as (-> & _). destruct Hc as (? & (xs'' & (m & Hm & ->) & ?) & ? & ?). split_and!; try done. by exists m.
Qed.
Example list_insert_input_ex : reach ListProps.ex_s ∧ lobs ListProps.ex_s 0 ([(2,5)] ++ [(1,3);(0,1)]) ∧
  yields (Cached (Some 7)) [8] [7;8] ∧
  ∃ s' : st nat, insert_after_input (Nod 2) (Cached (Some 7)) (ListProps.ex_s, [8]) = Ok (Nod 7) (s', []) ∧
        to_list 0 s' = Ok [5;7;8;3;1] s'.
Proof. split_and!; [apply ListProps.ex_reach|apply ListProps.ex_lobs|constructor|eexists; vm_compute; by repeat split]. Qed.

(** assign with a range: the nodes there are are reused, and the elements are
    those of the range *)
Theorem list_assign_input s w i (ys : list (nat * V)) x xs : reach s → lobs s i ys → yields x w xs →
  let N := length (nodes s) in
  match assign_input i x (s, w) with
  | Ok _ (s', _) => lobs s' i (zip ys.*1 xs ++ new_nodes N (drop (length ys) xs)) ∧ to_list i s' = Ok xs s' ∧
                    same_except i s s' ∧ reach s'
  | Throw (s', _) => oracle s ≠ [] ∧ same_except i s s' ∧ reach s' ∧
      ∃ m, m < length xs ∧
           lobs s' i (zip ys.*1 (take m xs) ++ drop m ys ++ new_nodes N (drop (length ys) (take m xs)))
  | UB _ => False
  end.
Proof.
  intros Hr Hl [<- Hx]%yields_left N.
  destruct (ListProps.list_assign s i ys (left_of x w) Hr Hl) as [Hv Hc].
  assert (Ha := assign_agree i x s w). unfold call, run_op, bind in Hc.
  destruct (assign_input _ _ _) as [[] [s1 w1]|[s1 w1]|], (assign _ _ _) as [[] s2|s2|]; simpl in Ha, Hc; try done.
  - destruct Ha as (_ & -> & _). destruct Hc as (_ & H1 & ? & ?). split_and!; try done.
    rewrite <- Hv. apply H1.
  - destruct Ha as (-> & _). destruct Hc as (? & (xs'' & (m & Hm & ->) & ?) & ? & ?). split_and!; try done. by exists m.
Qed.
Example list_assign_input_ex : reach ListProps.ex_s ∧ lobs ListProps.ex_s 1 [(3,8);(4,9)] ∧ yields Shared [7;8;6] [7;8;6] ∧
  ∃ s' : st nat, assign_input 1 Shared (ListProps.ex_s, [7;8;6]) = Ok tt (s', []) ∧ to_list 1 s' = Ok [7;8;6] s'.
Proof. split_and!; [apply ListProps.ex_reach|apply ListProps.ex_lobs|constructor|eexists; vm_compute; by repeat split]. Qed.

(** The constructor from a range *)
Theorem list_ctor_input s w x xs : reach s → yields x w xs →
  match ctor_range_input x (s, w) with
  | Ok i (s', _) => i = length (heads s) ∧ lobs s' i (new_nodes (length (nodes s)) xs) ∧ same_all s s' ∧ reach s'
  | Throw (s', _) => oracle s ≠ [] ∧ same_all s s' ∧ length (heads s') = length (heads s) ∧ reach s'
  | UB _ => False
  end.
Proof.
  intros Hr [<- Hx]%yields_left.
  assert (Hc := ListProps.list_ctor_throw_partial s (LRange (left_of x w)) (left_of x w) Hr (or_introl eq_refl)).
  assert (Ha := ctor_range_agree x s w). unfold run_op, bind in Hc.
  destruct (ctor_range_input _ _) as [i [s1 w1]|[s1 w1]|], (ctor_range _ _) as [i' s2|s2|]; simpl in Ha, Hc; try done.
  - destruct Ha as (-> & -> & _). destruct Hc as ([= ->] & ?). done.
  - destruct Ha as (-> & _). tauto.
Qed.
Example list_ctor_input_ex : reach ListProps.ex_s ∧ yields (Cached (Some 7)) [8;6] [7;8;6] ∧
  (∃ s' : st nat, ctor_range_input (Cached (Some 7)) (ListProps.ex_s, [8;6]) = Ok 3 (s', []) ∧ to_list 3 s' = Ok [7;8;6] s') ∧
  (∃ s' : st nat, ctor_range_input (Cached (Some 7)) (ListProps.ex_run [false;false;false;true], [8;6]) = Throw (s', [6]) ∧ to_list 0 s' = Ok [5;3;1] s').
Proof. split_and!; [apply ListProps.ex_reach|constructor|eexists; vm_compute; by repeat split..]. Qed.
End lists.

Section heaps.
Import ArrayModel HeapModel HeapSpec HeapRun HeapProps.
Context {V : Type}.
Implicit Types (s : st V) (x : iter V) (w : list V).

Theorem heap_ctor_input (lt : V → V → bool) s w known x xs : reach lt s → yields x w xs →
  match new_heap_input lt known x (s, w) with
  | Ok i (s', _) => i = length (objs s) ∧ (∃ l, hobs s' i l ∧ l ≡ₚ xs ∧ (strict_weak lt → max_first lt l)) ∧
                    same_others i s s'
  | Throw (s', _) => oracle s ≠ [] ∧ length (objs s') = length (objs s) ∧ ∀ j l, hobs s j l → hobs s' j l
  | UB _ => False
  end.
Proof.
  intros [σ HR]%reach_R [<- Hx]%yields_left.
  assert (Hc := HeapHistory.heap_simulates lt (HRange known (left_of x w)) s σ HR I).
  assert (Ha : agree (leaves x w) (new_heap_input lt known x (s, w)) (new_array (λ i, ctor_heap lt i known (map AVal (left_of x w))) s)).
  { unfold new_heap_input, new_array. apply agree_lift_bind; [apply leaves_refl|]. intros i s1.
    eapply agree_bind; [|intros ? s' w' Hw; by apply agree_ret|done].
    apply (agree_on_throw (leaves x w)); [|done]. apply ctor_heap_agree. }
  assert (Hlen : ∀ s' σ', HeapHistory.R lt s' σ' → length (objs s') = length σ').
  { intros s' σ' (σA & [ow H] & HF & _). rewrite (ArrayHistory.sr_len _ _ _ _ _ H). by eapply Forall2_length. }
  unfold run_op, bind in Hc.
  destruct (new_heap_input _ _ _ _) as [i [s1 w1]|[s1 w1]|], (new_array _ _) as [i' s2|s2|]; simpl in Ha, Hc; try done.
  - destruct Ha as (-> & -> & _). destruct Hc as (σ1 & (Hr & l & (Hpm & Hmax) & ->) & HR' & _). injection Hr as ->.
    rewrite (Hlen _ _ HR). split_and!; [done|exists l; split_and!; try done|].
    + eapply R_obs; [exact HR'|]. unfold get. by rewrite list_lookup_middle.
    + intros j lj Hj Ho. eapply R_obs; [exact HR'|]. assert (Hg := R_get _ _ _ _ _ HR Ho). unfold get in *.
      destruct (σ !! j) as [|] eqn:E; [|done]. by erewrite lookup_app_l_Some.
  - destruct Ha as (-> & _). destruct Hc as (Hne & σ' & -> & HR'). split_and!; [done|by rewrite (Hlen _ _ HR'), (Hlen _ _ HR)|].
    intros j l Ho. eapply R_obs; [exact HR'|]. exact (R_get _ _ _ _ _ HR Ho).
Qed.
Example heap_ctor_input_ex : reach tlt (ex_s tlt) ∧ yields Shared [7;28;16] [7;28;16] ∧
  ∃ (s' : st nat) l, new_heap_input tlt false Shared (ex_s tlt, [7;28;16]) = Ok 2 (s', []) ∧ to_list 2 s' = Ok l s' ∧ head l = Some 28.
Proof. split_and!; [apply ex_reach|constructor|do 2 eexists; vm_compute; by repeat split]. Qed.
End heaps.

(** Axioms used: none. *)
Definition input_theorems :=
  (@array_push_input_partial, @array_insert_input_partial, @array_push_input_lost, @array_insert_input_lost,
   array_push_input_refuted, array_insert_input_refuted,
   @list_insert_input, @list_assign_input, @list_ctor_input, @heap_ctor_input).
Print Assumptions input_theorems.
