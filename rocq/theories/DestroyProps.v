(** C164: destroying objects through an allocator. *)
From stdpp Require Import list.
From Coq Require Import ZArith Lia.
From Verif Require Import DestroyModel.

(** The elements whose life ends, and the objects that the allocator hears of *)
Fixpoint ended (l : list event) : list nat :=
  match l with [] => [] | Ends a :: l => a :: ended l | Told _ _ :: l => ended l end.
Fixpoint told (l : list event) : list (ty * nat) :=
  match l with [] => [] | Told t a :: l => (t, a) :: told l | Ends _ :: l => told l end.
(** The number of dimensions of an array type *)
Fixpoint dims (t : ty) : nat := match t with Elem => 0 | ArrOf _ u => S (dims u) end.
(** C++ has no arrays of size 0. *)
Fixpoint valid (t : ty) : Prop := match t with Elem => True | ArrOf n u => 0 < n ∧ valid u end.

Lemma ended_app l k : ended (l ++ k) = ended l ++ ended k.
Proof. induction l as [|[t a|a] l IH]; simpl; congruence. Qed.
Lemma told_app l k : told (l ++ k) = told l ++ told k.
Proof. induction l as [|[t a|a] l IH]; simpl; congruence. Qed.
Lemma ended_each (body : nat → list event) base c : (∀ i, ended (body i) = seq (base + i * c) c) →
  ∀ n i, ended (each n i body) = seq (base + i * c) (n * c).
Proof.
  intros H. induction n as [|n IH]; intros i; [done|]. simpl. rewrite ended_app, H, IH, seq_app.
  do 2 f_equal; lia.
Qed.
Lemma told_each (body : nat → list event) n : ∀ i, told (each n i body) = concat (map (λ j, told (body j)) (seq i n)).
Proof. induction n as [|n IH]; intros i; [done|]. simpl. by rewrite told_app, IH. Qed.
Lemma std_ended t : ∀ a, ended (std_destroy_at t a) = seq a (count t).
Proof.
  induction t as [|n u IH]; intros a; [done|]. simpl. rewrite (ended_each _ a (count u)) by (intros; apply IH).
  f_equal; lia.
Qed.
Lemma std_told t : ∀ a, told (std_destroy_at t a) = [].
Proof.
  induction t as [|n u IH]; intros a; [done|]. simpl. rewrite told_each.
  generalize (seq 0 n). intros l. induction l as [|j l IHl]; [done|]. simpl. by rewrite IH, IHl.
Qed.
Lemma traits_ended al t a : ended (traits_destroy al t a) = seq a (count t).
Proof. destruct al, t; simpl; try done; apply (std_ended (ArrOf _ _)). Qed.
Lemma at_ended al t a l : destroy_at_a al t a = Some l → ended l = seq a (count t).
Proof.
  unfold destroy_at_a, destroy_a. destruct t as [|n u].
  - destruct al; intros [= <-]; done.
  - destruct (traits_compiles al u); [|done]. intros [= <-].
    rewrite (ended_each _ a (count u)) by (intros; apply traits_ended). simpl count. f_equal; lia.
Qed.
Lemma at_compiles al t a b : destroy_at_a al t a = None ↔ destroy_at_a al t b = None.
Proof. unfold destroy_at_a, destroy_a. destruct t; destruct (traits_compiles al _); done. Qed.

(** Each of the three functions ends the life of every element of its objects exactly
    once, in the order of the addresses, whatever the dimensions and the allocator. *)
Theorem destroy_each_once : ∀ al t base l,
  (∀ first last, first ≤ last → destroy_a al t base first last = Some l → ended l = seq (base + first * count t) ((last - first) * count t)) ∧
  (destroy_at_a al t base = Some l → ended l = seq base (count t)) ∧
  (∀ first n, destroy_n_a al t base first n = Some l → ended l = seq (base + first * count t) (Z.to_nat n * count t)).
Proof.
  intros al t base l. split_and!.
  - intros first last Hf. unfold destroy_a. destruct (traits_compiles al t); [|done]. intros [= <-].
    apply ended_each. intros. apply traits_ended.
  - apply at_ended.
  - intros first n. unfold destroy_n_a. destruct (destroy_at_a al t base) eqn:E; [|done]. intros [= <-].
    apply ended_each. intros i. destruct (destroy_at_a al t (base + i * count t)) eqn:E'; [by eapply at_ended|].
    apply (at_compiles al t _ base) in E'. congruence.
Qed.
(** Two arrays of 2 x 3 at the address 10 *)
Example destroy_each_once_ex : ended <$> destroy_a Generic (ArrOf 2 (ArrOf 3 Elem)) 10 0 2 = Some (seq 10 12) ∧
  ended <$> destroy_n_a ForElements (ArrOf 3 Elem) 10 1 2 = Some [13; 14; 15; 16; 17; 18] ∧
  destroy_n_a Plain Elem 10 0 (-1) = Some [].
Proof. by vm_compute. Qed.

(** What the allocator hears of when one object is destroyed: its elements, if the object
    is no array of arrays. Then a destroy for elements is passed over, and one for
    all types gets the inner arrays. *)
Theorem destroy_at_told : ∀ al t pos l, destroy_at_a al t pos = Some l →
  match al, t with
  | Plain, _ => told l = []
  | _, Elem => told l = [(Elem, pos)]
  | _, ArrOf n Elem => told l = map (λ i, (Elem, pos + i)) (seq 0 n)
  | ForElements, ArrOf _ (ArrOf _ _) => told l = []
  | _, ArrOf n (ArrOf m u) => told l = map (λ i, (ArrOf m u, pos + i * count (ArrOf m u))) (seq 0 n)
  end.
Proof.
  intros al t pos l. unfold destroy_at_a, destroy_a.
  assert (Z0 : ∀ (body : nat → list event) k, (∀ i, told (body i) = []) → told (each k 0 body) = []).
  { intros body k H. rewrite told_each. generalize (seq 0 k). intros s. induction s as [|j s IH]; [done|]. simpl. by rewrite H, IH. }
  assert (Z1 : ∀ (body : nat → list event) k f, (∀ i, told (body i) = [f i]) → told (each k 0 body) = map f (seq 0 k)).
  { intros body k f H. rewrite told_each. generalize (seq 0 k). intros s. induction s as [|j s IH]; [done|]. simpl. by rewrite H, IH. }
  destruct t as [|n [|m u]]; rewrite ?Nat.sub_0_r.
  - destruct al; intros [= <-]; done.
  - destruct al; cbn [traits_compiles]; intros [= <-].
    + by apply Z0.
    + apply Z1. intros i. simpl. do 3 f_equal. lia.
    + apply Z1. intros i. simpl. do 3 f_equal. lia.
    + apply Z1. intros i. simpl. do 3 f_equal. lia.
  - destruct al; cbn [traits_compiles]; [| | |done]; intros [= <-].
    + apply Z0. intros i. apply (std_told (ArrOf m u)).
    + apply Z0. intros i. apply (std_told (ArrOf m u)).
    + apply (Z1 _ _ (λ i, (ArrOf m u, pos + i * count (ArrOf m u)))). intros i. unfold traits_destroy.
      cbn [told count]. f_equal. apply (std_told (ArrOf m u)).
Qed.
Example destroy_at_told_ex : told <$> destroy_at_a ForElements (ArrOf 3 Elem) 7 = Some [(Elem, 7); (Elem, 8); (Elem, 9)] ∧
  told <$> destroy_at_a Generic (ArrOf 2 (ArrOf 3 Elem)) 7 = Some [(ArrOf 3 Elem, 7); (ArrOf 3 Elem, 10)] ∧
  told <$> destroy_at_a ForElements (ArrOf 2 (ArrOf 3 Elem)) 7 = Some [].
Proof. by vm_compute. Qed.
(** So an allocator that counts elements loses those of an array of arrays. *)
Theorem destroy_at_told_refuted : ∃ t l, valid t ∧ destroy_at_a ForElements t 0 = Some l ∧ ended l = [0] ∧ told l = [].
Proof. exists (ArrOf 1 (ArrOf 1 Elem)), [Ends 0]. by vm_compute; eauto. Qed.

(** Which calls compile *)
Theorem destroy_compiles : ∀ al t base,
  (∀ first last, is_Some (destroy_a al t base first last) ↔ al ≠ Direct ∨ dims t = 0) ∧
  (is_Some (destroy_at_a al t base) ↔ al ≠ Direct ∨ dims t ≤ 1) ∧
  (∀ first n, is_Some (destroy_n_a al t base first n) ↔ al ≠ Direct ∨ dims t ≤ 1).
Proof.
  intros al t base.
  assert (T : ∀ u, traits_compiles al u = true ↔ al ≠ Direct ∨ dims u = 0).
  { intros u. destruct al, u as [|k u]; simpl; split; try done; try (by left); try (by right). by intros [?|?]. }
  assert (S : ∀ b (l : list event), is_Some (if b : bool then Some l else None) ↔ b = true).
  { intros [|] l; split; eauto; try done; by intros [? ?]. }
  assert (A : is_Some (destroy_at_a al t base) ↔ al ≠ Direct ∨ dims t ≤ 1).
  { unfold destroy_at_a, destroy_a. destruct t as [|n u]; rewrite S, T; simpl; split; intros [?|?]; try (by left); right; lia. }
  split_and!; [|exact A|].
  - intros first last. unfold destroy_a. by rewrite S, T.
  - intros first n. rewrite <- A. unfold destroy_n_a. destruct (destroy_at_a al t base); split; eauto; by intros [? ?].
Qed.
Example destroy_compiles_ex : destroy_n_a Direct (ArrOf 2 Elem) 0 0 1 = Some [Told Elem 0; Ends 0; Told Elem 1; Ends 1] ∧
  destroy_a Direct (ArrOf 2 Elem) 0 0 1 = None.
Proof. by vm_compute. Qed.

(** destroy_n_a does what destroy_a does for as many objects, unless these are arrays and
    the allocator has a destroy; a negative number means none. *)
Theorem destroy_n_partial : ∀ al t base first n, al = Plain ∨ dims t = 0 →
  destroy_n_a al t base first n = destroy_a al t base first (first + Z.to_nat n).
Proof.
  intros al t base first n H. unfold destroy_n_a, destroy_a. replace (first + Z.to_nat n - first) with (Z.to_nat n) by lia.
  assert (E : ∀ a, destroy_at_a al t a = Some (traits_destroy al t a)).
  { intros a. unfold destroy_at_a, destroy_a. destruct t as [|k u].
    - by destruct al.
    - destruct H as [->|H]; [|done]. simpl. by rewrite Nat.sub_0_r. }
  rewrite (E base). assert (traits_compiles al t = true) as -> by (destruct al, t; try done; by destruct H).
  f_equal. generalize (Z.to_nat n) first. intros k. induction k as [|k IH]; intros i; [done|]. simpl. by rewrite (E _), IH.
Qed.
Example destroy_n_partial_ex : destroy_n_a Generic Elem 5 1 2 = Some [Told Elem 6; Ends 6; Told Elem 7; Ends 7] ∧
  destroy_a Generic Elem 5 1 3 = Some [Told Elem 6; Ends 6; Told Elem 7; Ends 7] ∧
  destroy_n_a Plain (ArrOf 2 Elem) 0 0 2 = Some [Ends 0; Ends 1; Ends 2; Ends 3].
Proof. by vm_compute. Qed.
Theorem destroy_n_refuted :
  (∃ t, valid t ∧ destroy_n_a Generic t 0 0 1 ≠ destroy_a Generic t 0 0 1) ∧
  (∃ t, valid t ∧ is_Some (destroy_n_a Direct t 0 0 1) ∧ destroy_a Direct t 0 0 1 = None).
Proof.
  split; exists (ArrOf 1 Elem); (split; [by vm_compute; auto|]); [by vm_compute|]. vm_compute. eauto.
Qed.

Definition destroy_theorems := (destroy_each_once, destroy_at_told, destroy_at_told_refuted, destroy_compiles, destroy_n_partial, destroy_n_refuted).
Print Assumptions destroy_theorems.
