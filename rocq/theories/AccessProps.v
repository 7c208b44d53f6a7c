(** Theorems about the accessors that containers inherit: properties C158 and C159. *)
From stdpp Require Import list.
From Coq Require Import ZArith Lia.
From Verif Require Import ReqModel AccessModel.

(** ** Specification *)
(** What an accessor needs of a range *)
Definition enough (a : accessor) (r : rng) : Prop :=
  match a with
  | Index _ => rank RandomAccess ≤ rank (r_level r)
  | Empty | Front => rank Forward ≤ rank (r_level r)
  | Data => r_level r = Contiguous
  | Size => rank Forward ≤ rank (r_level r) ∧ r_sized r = true
  | Back => rank Bidirectional ≤ rank (r_level r)
  end.
(** The ranges that an object can be seen as *)
Inductive seen (d : derived) : bool → rng → Prop :=
| seen_plain r : d_plain d = Some r → seen d false r
| seen_const b r : d_const d = Some r → seen d b r.
(** What an accessor gives for the sequence of its elements *)
Inductive gives (n : nat) (w : bool) : accessor → result → Prop :=
| gives_index k : k < n → gives n w (Index (Z.of_nat k)) (Reference k w)
| gives_index_out i : (i < 0 ∨ Z.of_nat n ≤ i)%Z → gives n w (Index i) Undefined
| gives_empty b : b = true ↔ n = 0 → gives n w Empty (Truth b)
| gives_data : gives n w Data (Pointer 0 w)
| gives_size : gives n w Size (Number n)
| gives_front : n ≠ 0 → gives n w Front (Reference 0 w)
| gives_back k : n = S k → gives n w Back (Reference k w)
| gives_none a : n = 0 → a = Front ∨ a = Back → gives n w a Undefined.
(** A result through which elements can be changed *)
Definition writable (v : result) : Prop :=
  match v with Reference _ w | Pointer _ w => w = true | _ => False end.
(** The same but for write access *)
Definition alike (u v : result) : Prop :=
  match u, v with
  | Reference j _, Reference k _ | Pointer j _, Pointer k _ => j = k
  | _, _ => u = v
  end.

(** ** Proofs *)
Lemma allows_spec a r : allows a r = true ↔ enough a r.
Proof.
  destruct a, r as [[] [] w]; cbn; unfold at_least; cbn; rewrite ?andb_true_iff, ?Nat.leb_le; (split; intros H);
    try done; try lia; try (destruct H; try done; lia).
Qed.
Lemma body_spec a r n : gives n (r_writes r) a (body a r n).
Proof.
  destruct a as [i| | | | |]; cbn.
  - destruct (Z.ltb_spec i 0); [apply gives_index_out; lia|]. unfold deref.
    destruct (Nat.ltb_spec (Z.to_nat i) n).
    + rewrite <- (Z2Nat.id i) at 1 by lia. by constructor.
    + apply gives_index_out. lia.
  - destruct (r_sized r); constructor.
    + rewrite Nat.eqb_eq. lia.
    + destruct n; cbn; done.
  - constructor.
  - rewrite Nat.sub_0_r. constructor.
  - unfold deref. destruct n; cbn; [apply gives_none; auto|by constructor].
  - destruct n as [|k]; cbn; [apply gives_none; auto|]. rewrite Nat.sub_0_r. unfold deref.
    destruct (Nat.ltb_spec k (S k)); [by constructor|lia].
Qed.
Lemma chosen_spec d b a r : chosen d b a = Some r → seen d b r ∧ enough a r.
Proof.
  unfold chosen. destruct (negb b && allows' a (d_plain d)) eqn:E.
  - apply andb_true_iff in E as [Hb E]. destruct b; [done|]. intros Hr. rewrite Hr in E. cbn in E.
    apply allows_spec in E. split; [by constructor|done].
  - destruct (d_const d) as [s|] eqn:Ec; cbn; [|done]. destruct (allows a s) eqn:Es; [|done]. intros [= <-].
    apply allows_spec in Es. split; [by apply seen_const|done].
Qed.
Lemma seen_chosen d b a r : seen d b r → enough a r → is_Some (chosen d b a).
Proof.
  intros Hs He. apply allows_spec in He. unfold chosen.
  destruct Hs as [r Hr|b r Hr]; rewrite Hr; cbn [allows']; rewrite He.
  - by eexists.
  - destruct (negb b && allows' a (d_plain d)) eqn:E; [|by eexists].
    apply andb_true_iff in E as [_ E]. destruct (d_plain d); [by eexists|done].
Qed.

(** ** C158 *)
(** A call compiles exactly if a range that the object can be seen as is strong enough, and
    then gives the element, the address, the number or the truth. *)
Theorem accessor_exact : ∀ d b a n,
  (is_Some (call d b a n) ↔ ∃ r, seen d b r ∧ enough a r) ∧
  (∀ v, call d b a n = Some v → ∃ r, seen d b r ∧ gives n (r_writes r) a v).
Proof.
  intros d b a n. unfold call. split.
  - split.
    + intros [v Hv]. destruct (chosen d b a) as [r|] eqn:E; [|done]. exists r. by apply chosen_spec.
    + intros (r & Hs & He). destruct (seen_chosen d b a r Hs He) as [s ->]. by eexists.
  - intros v. destruct (chosen d b a) as [r|] eqn:E; [|done]. intros [= <-]. exists r.
    split; [by apply chosen_spec in E as [? _]|apply body_spec].
Qed.
Lemma gives_alike n w x a u v : gives n w a u → gives n x a v → alike u v.
Proof.
  intros Hu Hv. destruct Hu; inversion Hv; subst; cbn; try done; try lia.
  all: try (destruct b, b0; intuition done).
  all: destruct_or!; try done; lia.
Qed.
(** What a const object offers, one that is not const offers as well, with the same result but
    for write access. *)
Theorem accessor_const : ∀ d a n v, call d true a n = Some v →
  ∃ u, call d false a n = Some u ∧ alike u v.
Proof.
  intros d a n v Hv. pose proof (accessor_exact d true a n) as [H1 H2]. pose proof (accessor_exact d false a n) as [H3 H4].
  assert (is_Some (call d false a n)) as [u Hu].
  { apply H3. assert (is_Some (call d true a n)) as (r & Hr & He)%H1 by (by eexists). exists r. split; [|done].
    inversion Hr; subst. by apply seen_const. }
  exists u. split; [done|]. destruct (H2 v Hv) as (r & _ & Hr). destruct (H4 u Hu) as (s & _ & Hs).
  by eapply gives_alike.
Qed.
(** Which accessors the containers have: a LinkedList has empty() and front(), the others all. *)
Theorem accessor_containers : ∀ c b a n, is_Some (call (class_of c) b a n) ↔ (c = ALinkedList → a = Empty ∨ a = Front).
Proof.
  intros c b a n. rewrite (proj1 (accessor_exact _ _ _ _)). split.
  - intros (r & Hr & He) ->. destruct a; try (by auto); inversion Hr; cbn in *; simplify_eq; cbn in *; try lia; try done; by destruct He.
  - intros H. destruct c.
    1,3,4: eexists; split; [apply seen_const; reflexivity|]; destruct a; cbn; try done; try lia; split; (done || lia).
    eexists. split; [apply seen_const; reflexivity|]. destruct (H eq_refl) as [-> | ->]; cbn; lia.
Qed.
(** Elements can be changed through the accessors of an Array or LinkedList, or of a view of
    elements that are not const, if the object is not const itself, and of no other: not
    through those of a Heap. *)
Theorem accessor_writes : ∀ c b a n v, call (class_of c) b a n = Some v →
  (∃ k w, v = Reference k w ∨ v = Pointer k w) →
  (writable v ↔ b = false ∧ (c = AnArray ∨ c = ALinkedList ∨ c = AnArrayView false)).
Proof.
  intros c b a n v Hv (k & w & Hk).
  assert (Hw : w = match c with AnArray | ALinkedList => negb b | AnArrayView f => negb b && negb f | AHeap => false end).
  { unfold call in Hv. destruct (chosen (class_of c) b a) as [r|] eqn:E; [|done]. injection Hv as <-.
    pose proof (body_spec a r n) as Hg. assert (w = r_writes r) as ->.
    { destruct Hk as [Hk|Hk]; rewrite Hk in Hg; by inversion Hg. }
    revert E. unfold chosen. destruct c as [| |[]|], b, a; cbn; try done; by intros [= <-]. }
  assert (Hv' : writable v ↔ w = true) by (destruct Hk as [-> | ->]; done).
  rewrite Hv', Hw. destruct c as [| |[]|], b; cbn; naive_solver.
Qed.

(** ** C159 *)
(** A const view gives no write access; neither does what is derived from it, if its elements
    are const, or as_bytes. Missing: see the refutation. *)
Theorem view_const_partial : ∀ k b w c, sub_view k b w = Some c → k = true ∨ w = AsBytes →
  ∀ b' a n v, call (class_of c) b' a n = Some v → ¬ writable v.
Proof.
  intros k b w c Hc Hk b' a n v Hv Hw.
  assert (c = AnArrayView true) as ->. { destruct w, k; cbn in Hc; destruct Hk; simplify_eq; done. }
  assert (∃ j x, v = Reference j x ∨ v = Pointer j x) as Hr by (destruct v; cbn in Hw; eauto; done).
  apply (accessor_writes _ _ _ _ _ Hv Hr) in Hw as [_ [|[|]]]; done.
Qed.
(** A const view of elements that are not const does not let them be changed, but its subviews
    and copies do. *)
Theorem view_const_refuted : ∀ w, w ≠ AsBytes → ∃ c, sub_view false true w = Some c ∧
  ∀ i n, i < n → call (class_of (AnArrayView false)) true (Index (Z.of_nat i)) n = Some (Reference i false) ∧
                 call (class_of c) false (Index (Z.of_nat i)) n = Some (Reference i true).
Proof.
  intros w Hw. exists (AnArrayView false). split; [by destruct w|]. intros i n Hi.
  unfold call. cbn. destruct (Z.ltb_spec (Z.of_nat i) 0); [lia|]. rewrite Nat2Z.id. unfold deref.
  destruct (Nat.ltb_spec i n); [done|lia].
Qed.

(** * Concrete cases *)
Example accessor_exact_ex : call (class_of AnArray) false (Index 2) 5 = Some (Reference 2 true) ∧
  call (class_of AHeap) false Back 3 = Some (Reference 2 false) ∧ call (class_of ALinkedList) true Empty 4 = Some (Truth false) ∧
  call (class_of ALinkedList) false Size 4 = None ∧ call (class_of (AnArrayView false)) true Data 4 = Some (Pointer 0 false) ∧
  call (class_of AnArray) true Front 0 = Some Undefined.
Proof. done. Qed.
Example accessor_const_ex : let d := Derived None (Some (Rng Bidirectional false false)) in
  call d false Back 2 = Some (Reference 1 false) ∧ call d true Back 2 = Some (Reference 1 false) ∧ call d false Size 2 = None.
Proof. done. Qed.
Example accessor_writes_ex : writable (Reference 1 true) ∧ call (class_of ALinkedList) false Front 1 = Some (Reference 0 true).
Proof. done. Qed.
Example view_const_partial_ex : sub_view true false Subview = Some (AnArrayView true) ∧
  call (class_of (AnArrayView true)) false (Index 1) 2 = Some (Reference 1 false).
Proof. done. Qed.

Definition access_theorems := (accessor_exact, accessor_const, accessor_containers, accessor_writes, view_const_partial, view_const_refuted).
Print Assumptions access_theorems.
