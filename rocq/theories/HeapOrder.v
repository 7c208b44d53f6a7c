(** Heap order on lists (used by the proofs only). *)
From stdpp Require Import list.
From Coq Require Import ZArith Lia.
From Verif Require Import Base HeapModel HeapSpec.

Lemma parent_div i : parent i = (i - 1) / 2.
Proof.
  unfold parent. destruct i as [|i]; [done|].
  rewrite Z.quot_div_nonneg by lia. rewrite Nat2Z.inj_succ. replace (Z.succ (Z.of_nat i) - 1)%Z with (Z.of_nat i) by lia.
  replace (S i - 1) with i by lia. rewrite <- (Nat2Z.id (i / 2)). by rewrite Nat2Z.inj_div.
Qed.
Lemma parent_lt i : 0 < i → parent i < i.
Proof. intros. rewrite parent_div. apply Nat.div_lt_upper_bound; lia. Qed.
Lemma parent_left i : parent (left_child i) = i.
Proof. rewrite parent_div. unfold left_child. replace (i * 2 + 1 - 1) with (i * 2) by lia. by apply Nat.div_mul. Qed.
Lemma parent_right i : parent (right_child i) = i.
Proof.
  rewrite parent_div. unfold right_child. replace (i * 2 + 2 - 1) with (1 + i * 2) by lia.
  rewrite Nat.div_add by lia. done.
Qed.
Lemma parent_child k i : 0 < k → parent k = i → k = left_child i ∨ k = right_child i.
Proof.
  intros Hk H. rewrite parent_div in H. unfold left_child, right_child.
  pose proof (Nat.div_mod (k - 1) 2 ltac:(lia)) as E. pose proof (Nat.mod_upper_bound (k - 1) 2 ltac:(lia)). lia.
Qed.
Lemma parent_log i : 0 < i → Nat.log2 (i + 1) = S (Nat.log2 (parent i + 1)).
Proof.
  intros Hi. rewrite parent_div.
  pose proof (Nat.div_mod (i - 1) 2 ltac:(lia)) as E. pose proof (Nat.mod_upper_bound (i - 1) 2 ltac:(lia)).
  set (p := (i - 1) / 2) in *.
  assert (i + 1 = 2 * (p + 1) ∨ i + 1 = 2 * (p + 1) + 1) as [-> | ->] by lia.
  - apply Nat.log2_double. lia.
  - apply Nat.log2_succ_double. lia.
Qed.
Lemma child_log k i : 0 < k → parent k = i → Nat.log2 (k + 1) = S (Nat.log2 (i + 1)).
Proof. intros Hk <-. by apply parent_log. Qed.

Section order.
Context {V : Type}.
Implicit Types (l : list V).

(** Exchange of two elements. *)
Definition sw (l : list V) (i j : nat) : list V :=
  match l !! i, l !! j with
  | Some a, Some b => <[j := a]> (<[i := b]> l)
  | _, _ => l
  end.
Lemma sw_length l i j : length (sw l i j) = length l.
Proof. unfold sw. repeat case_match; try done. by rewrite !insert_length. Qed.
Lemma sw_lookup l i j k a b : l !! i = Some a → l !! j = Some b →
  sw l i j !! k = if decide (k = j) then Some a else if decide (k = i) then Some b else l !! k.
Proof.
  intros Hi Hj. unfold sw. rewrite Hi, Hj.
  assert (i < length l) by (by eapply lookup_lt_Some). assert (j < length l) by (by eapply lookup_lt_Some).
  destruct (decide (k = j)) as [->|].
  - rewrite list_lookup_insert by (rewrite insert_length; done). done.
  - rewrite list_lookup_insert_ne by done. destruct (decide (k = i)) as [->|].
    + by rewrite list_lookup_insert.
    + by rewrite list_lookup_insert_ne.
Qed.
Lemma sw_id l i : sw l i i = l.
Proof. unfold sw. case_match eqn:E; [|done]. rewrite (list_insert_id l) by done. by apply list_insert_id. Qed.
Lemma sw_split (a b c : list V) x y :
  sw (a ++ x :: b ++ y :: c) (length a) (length a + S (length b)) = a ++ y :: b ++ x :: c.
Proof.
  apply list_eq. intros k.
  assert (H1 : (a ++ x :: b ++ y :: c) !! length a = Some x) by (by apply list_lookup_middle).
  assert (H2 : (a ++ x :: b ++ y :: c) !! (length a + S (length b)) = Some y).
  { rewrite lookup_app_r by lia. replace (length a + S (length b) - length a) with (S (length b)) by lia. simpl.
    by apply list_lookup_middle. }
  rewrite (sw_lookup _ _ _ _ _ _ H1 H2).
  destruct (decide (k = length a + S (length b))) as [->|].
  { rewrite lookup_app_r by lia. replace (length a + S (length b) - length a) with (S (length b)) by lia. simpl.
    symmetry. by apply list_lookup_middle. }
  destruct (decide (k = length a)) as [->|].
  { symmetry. by apply list_lookup_middle. }
  destruct (decide (k < length a)).
  { by rewrite !lookup_app_l. }
  rewrite !lookup_app_r by lia. destruct (k - length a) as [|m] eqn:E; [lia|]. simpl.
  destruct (decide (m < length b)).
  { by rewrite !lookup_app_l. }
  rewrite !lookup_app_r by lia. destruct (m - length b) as [|m'] eqn:E'; [lia|]. done.
Qed.
Lemma sw_sym l i j : sw l i j = sw l j i.
Proof.
  unfold sw. destruct (l !! i) as [a|] eqn:Ei; destruct (l !! j) as [b|] eqn:Ej; try done.
  destruct (decide (i = j)) as [->|Hij].
  - congruence.
  - by rewrite list_insert_commute.
Qed.
Lemma sw_perm l i j : sw l i j ≡ₚ l.
Proof.
  assert (Hlt : ∀ i j, i < j → sw l i j ≡ₚ l).
  { clear. intros i j Hij. destruct (l !! i) as [x|] eqn:Ei; [|unfold sw; by rewrite Ei].
    destruct (l !! j) as [y|] eqn:Ej; [|unfold sw; by rewrite Ei, Ej].
    apply elem_of_list_split_length in Ei as (a & r & -> & ->).
    rewrite lookup_app_r in Ej by lia. destruct (j - length a) as [|m] eqn:Em; [lia|]. simpl in Ej.
    apply elem_of_list_split_length in Ej as (b & c & -> & ->).
    replace j with (length a + S (length b)) by lia. rewrite sw_split.
    apply Permutation_app_head. rewrite <- !Permutation_middle. constructor 3. }
  destruct (decide (i = j)) as [->|]; [by rewrite sw_id|].
  destruct (decide (i < j)); [auto|]. rewrite sw_sym. apply Hlt. lia.
Qed.

Context (lt : V → V → bool).
Definition ge (x y : V) : Prop := lt x y = false.   (* x is at least y *)
Definition hp l : Prop := ∀ k x y, 0 < k → l !! k = Some x → l !! parent k = Some y → ge y x.
Definition hp_up l i : Prop :=
  (∀ k x y, 0 < k → k ≠ i → l !! k = Some x → l !! parent k = Some y → ge y x) ∧
  (∀ k x y, 0 < k → 0 < i → parent k = i → l !! k = Some x → l !! parent i = Some y → ge y x).
Definition hp_down l i : Prop :=
  (∀ k x y, 0 < k → parent k ≠ i → l !! k = Some x → l !! parent k = Some y → ge y x) ∧
  (∀ k x y, 0 < k → 0 < i → parent k = i → l !! k = Some x → l !! parent i = Some y → ge y x).

Context (SW : strict_weak lt).
Lemma ge_refl x : ge x x.
Proof. apply SW. Qed.
Lemma lt_ge x y : lt x y = true → ge y x.
Proof.
  intros H. unfold ge. destruct (lt y x) eqn:E; [|done].
  assert (lt x x = true) by (by eapply SW). by rewrite (sw_irrefl _ SW) in *.
Qed.
Lemma ge_trans x y z : ge x y → ge y z → ge x z.
Proof.
  unfold ge. intros H1 H2. destruct (lt x z) eqn:E; [|done].
  (* x < z, not x < y, not y < z *)
  destruct (lt y x) eqn:E1.
  { assert (lt y z = true) by (by eapply SW). congruence. }
  destruct (lt z y) eqn:E2.
  { assert (lt x y = true) by (by eapply SW). congruence. }
  destruct (sw_incomp _ SW x y z) as [? _]; try done. congruence.
Qed.

Lemma hp_max l : hp l → max_first lt l.
Proof.
  intros Hh x y Hx [k Hk]%elem_of_list_lookup.
  assert (Hx0 : l !! 0 = Some x) by (by destruct l). clear Hx. revert y Hk.
  induction (lt_wf k) as [k _ IH]. intros y Hk.
  destruct (decide (k = 0)) as [->|]; [assert (x = y) as -> by congruence; apply ge_refl|].
  assert (Hp := parent_lt k ltac:(lia)).
  destruct (lookup_lt_is_Some_2 l (parent k)) as [z Hz]; [apply lookup_lt_Some in Hk; lia|].
  eapply ge_trans; [by eapply IH|]. eapply Hh; [|done|done]. lia.
Qed.

Lemma hp_up_done l i a b : hp_up l i → l !! parent i = Some a → l !! i = Some b → lt a b = false → hp l.
Proof.
  intros [H1 H2] Ha Hb Hab k x y Hk Hx Hy. destruct (decide (k = i)) as [->|]; [|by eapply H1].
  unfold ge. congruence.
Qed.
Lemma hp_up_zero l : hp_up l 0 → hp l.
Proof. intros [H1 _] k x y Hk. apply H1; lia. Qed.
Lemma hp_up_step l i a b : 0 < i → hp_up l i → l !! parent i = Some a → l !! i = Some b → lt a b = true →
  hp_up (sw l (parent i) i) (parent i).
Proof.
  intros Hi [H1 H2] Ha Hb Hab. assert (Hpi := parent_lt i Hi).
  assert (Hlk := λ k, sw_lookup l (parent i) i k a b Ha Hb). split.
  - intros k x y Hk Hki Hx Hy. rewrite Hlk in Hx, Hy. assert (Hpk := parent_lt k Hk).
    destruct (decide (k = i)) as [->|Hne].
    + injection Hx as <-. rewrite decide_False in Hy by lia. rewrite decide_True in Hy by done. injection Hy as <-.
      by apply lt_ge.
    + rewrite decide_False in Hx by done.
      destruct (decide (parent k = i)) as [E|Hnp].
      * injection Hy as <-. by eapply (H2 k).
      * destruct (decide (parent k = parent i)) as [E|Hnp2].
        -- injection Hy as <-. eapply ge_trans; [by apply lt_ge|]. eapply (H1 k); try done. by rewrite E.
        -- by eapply (H1 k).
  - intros k x y Hk Hpp Hpk Hx Hy. rewrite Hlk in Hx, Hy. assert (Hppi := parent_lt (parent i) Hpp).
    do 2 rewrite decide_False in Hy by lia.
    assert (Hya : ge y a). { eapply (H1 (parent i)); try done. lia. }
    destruct (decide (k = i)) as [->|Hne]; [by injection Hx as <-|].
    assert (Hpk' := parent_lt k Hk). rewrite decide_False in Hx by lia.
    eapply ge_trans; [exact Hya|]. eapply (H1 k); try done. by rewrite Hpk.
Qed.

Lemma hp_down_done l i v : hp_down l i → l !! i = Some v →
  (∀ k x, 0 < k → parent k = i → l !! k = Some x → ge v x) → hp l.
Proof.
  intros [H1 H2] Hv Hc k x y Hk Hx Hy. destruct (decide (parent k = i)) as [<-|]; [|by eapply H1].
  assert (y = v) as -> by congruence. by eapply Hc.
Qed.
Lemma hp_down_step l i c v w : 0 < c → parent c = i → hp_down l i → l !! i = Some v → l !! c = Some w → lt v w = true →
  (∀ k x, 0 < k → parent k = i → l !! k = Some x → ge w x) → hp_down (sw l i c) c.
Proof.
  intros Hc0 Hpc [H1 H2] Hv Hw Hvw Hmax. assert (Hic := parent_lt c Hc0). rewrite Hpc in Hic.
  assert (Hlk := λ k, sw_lookup l i c k v w Hv Hw). split.
  - intros k x y Hk Hpk Hx Hy. rewrite Hlk in Hx, Hy. assert (Hpk' := parent_lt k Hk).
    rewrite decide_False in Hy by done.
    destruct (decide (k = c)) as [->|Hkc].
    + injection Hx as <-. rewrite decide_True in Hy by done. injection Hy as <-. by apply lt_ge.
    + destruct (decide (k = i)) as [->|Hki].
      * injection Hx as <-. rewrite decide_False in Hy by lia. eapply (H2 c); try done. 
      * destruct (decide (parent k = i)) as [E|Hpi].
        -- injection Hy as <-. by eapply Hmax.
        -- by eapply (H1 k).
  - intros k x y Hk _ Hpk Hx Hy. rewrite Hlk in Hx, Hy. assert (Hpk' := parent_lt k Hk).
    rewrite Hpc in Hy. do 2 rewrite decide_False in Hx by lia.
    rewrite decide_False in Hy by lia. rewrite decide_True in Hy by done. injection Hy as <-.
    eapply (H1 k); try done; [lia|]. by rewrite Hpk.
Qed.

Lemma hp_push l v : hp l → hp_up (l ++ [v]) (length l).
Proof.
  intros Hh. split.
  - intros k x y Hk Hne Hx Hy. assert (k < length l).
    { apply lookup_lt_Some in Hx. rewrite app_length in Hx. simpl in Hx. lia. }
    assert (Hp := parent_lt k Hk). rewrite lookup_app_l in Hx, Hy by lia. by eapply Hh.
  - intros k x y Hk Hi Hpk Hx _. assert (Hp := parent_lt k Hk). apply lookup_lt_Some in Hx.
    rewrite app_length in Hx. simpl in Hx. lia.
Qed.
(** The last element moved to the front and the former front removed. *)
Lemma hp_pop x l y : hp (x :: l ++ [y]) → hp_down (y :: l) 0.
Proof.
  intros Hh. split; [|intros; lia]. intros k a b Hk Hpk Ha Hb.
  destruct k as [|k]; [lia|]. destruct (parent (S k)) as [|p] eqn:E; [done|]. simpl in Ha, Hb.
  eapply (Hh (S k)); [lia| |rewrite E]; simpl; rewrite lookup_app_l; try done; by eapply lookup_lt_Some.
Qed.
End order.
