(** Theorems about tuple-like types: properties C139-C141. *)
From stdpp Require Import list.
From Coq Require Import ZArith Lia.
From Verif Require Import TypesModel LikeModel.

(** * Specification *)
(** The declared element types *)
Definition members (l : like) : list ty :=
  match l with XTuple es | STuple es => es | XPair a b | SPair a b => [a; b] | SArray n t => replicate n t | Struct _ | Opaque _ => [] end.
(** Types that members can have *)
Definition declarable (m : ty) : Prop := match m with Obj (Q _ _ (Function _)) | Obj (Q _ _ (Scalar Void)) => False | _ => True end.
Definition in_family (l : like) : Prop := match l with Struct _ | Opaque _ => False | _ => True end.
Definition is_xme (l : like) : bool := match l with XTuple _ | XPair _ _ => true | _ => false end.
Definition volatile_scalar (m : ty) : Prop :=
  match m with Obj (Q _ true (Scalar _)) | Obj (Q _ true (Enum _ _ _)) => True | _ => False end.
(** A tuple of the library with a volatile number is not tuple-like, because its
    tuple_element has lost the volatile. *)
Definition tuple_like (l : like) : Prop := in_family l ∧ (∀ es, l = XTuple es → Forall (λ m, ¬ volatile_scalar m) es).
(** What get hands out for an element declared as [m]: nothing for an rvalue reference in
    a tuple of the library that is itself an rvalue; const rvalues of the library are
    treated as lvalues *)
Definition handed (xme const : bool) (c : cat) (m : ty) : option ty :=
  let q' q := if const then add_const q else q in
  match m, c with
  | LRef q, _ => Some (LRef q)
  | RRef q, LValue => Some (LRef q)
  | RRef q, _ => if xme then if const then Some (LRef q) else None else Some (RRef q)
  | Obj q, LValue => Some (LRef (q' q))
  | Obj q, _ => Some (if xme && const then LRef (q' q) else RRef (q' q))
  end.

(** * Getting elements *)
Lemma core_eqb_refl c : core_eqb c c = true.
Proof. destruct c as [[]|?|?|?|?]; simpl; rewrite ?Z.eqb_refl, ?Nat.eqb_refl, ?Bool.eqb_reflx; done. Qed.
Lemma less_refl q : less_qualified q q = true.
Proof. destruct q as [[] [] ?]; done. Qed.
Lemma returns_same t e : e_type e = remove_reference t → (match t with LRef _ => is_lvalue e | RRef _ => negb (is_lvalue e) | _ => true end) = true → returns t e = Some t.
Proof. intros H1 H2. unfold returns, binds, remove_cvref. rewrite H1, core_eqb_refl, less_refl, H2. done. Qed.
Lemma index20_handed cl const c m : declarable m →
  index20 cl (get_object const c).1 (get_object const c).2 m = handed true const c m.
Proof.
  intros Hd. destruct m as [[qc qv qd]|q|q], const, c; cbn -[returns]; rewrite ?orb_false_l;
    try (apply returns_same; done);
    try (destruct qd; cbn -[returns]; [apply returns_same; done..|done]).
  all: unfold returns, binds; cbn; rewrite andb_comm; done.
Qed.
(** One element of a tuple with explicit object parameters, or two of a pair *)
Lemma index23_handed const c m : declarable m →
  index23 1 (Class 0) (get_object const c).1 (get_object const c).2 m = match m, get_object const c with RRef q, (false, XValue) => Some (LRef q) | _, _ => handed true const c m end.
Proof.
  intros Hd. destruct m as [[qc qv qd]|q|q], const, c; try done; cbn; destruct qd, qc, qv; try done.
Qed.
Lemma get_handed l const c i m : in_family l → Forall declarable (members l) → members l !! i = Some m →
  get false l const c i = match handed (is_xme l) const c m with Some t => Accepted t | None => Hard end.
Proof.
  intros Hl Hd Hm. assert (declarable m) as Dm by (by eapply Forall_lookup_1). 
  assert (S : std_get const c m = match m with LRef q => LRef q | RRef q => match c with LValue => LRef q | _ => RRef q end
    | Obj q => let q' := if const then add_const q else q in match c with LValue => LRef q' | _ => RRef q' end end).
  { destruct m as [q|q|q], const, c; done. }
  destruct l as [es|a b|es|a b|n t|ms|n]; try done; cbn [members] in Hm; cbn [get is_xme element].
  - rewrite Hm. cbn [mbind option_bind]. unfold tuple_get. destruct (get_object const c) as [k d] eqn:E.
    pose proof (index20_handed (Class 0) const c m Dm) as I. rewrite E in I. cbn [fst snd] in I. rewrite I. done.
  - assert (P : pair_element i a b = Some m) by (destruct i as [|[|]]; done). rewrite P. cbn [mbind option_bind].
    unfold pair_get. destruct (get_object const c) as [k d] eqn:E.
    pose proof (index20_handed (Class 0) const c m Dm) as I. rewrite E in I. cbn [fst snd] in I. rewrite I. done.
  - rewrite Hm. cbn [fmap option_fmap option_map]. rewrite S. destruct m as [q|q|q], c; done.
  - assert (P : pair_element i a b = Some m) by (destruct i as [|[|]]; done). rewrite P. cbn [fmap option_fmap option_map]. rewrite S. destruct m as [q|q|q], c; done.
  - apply lookup_replicate in Hm as [-> Hi]. replace (i <? n) with true by (symmetry; by apply Nat.ltb_lt). cbn [fmap option_fmap option_map]. rewrite S. destruct t as [q|q|q], c; done.
Qed.
Lemma get_beyond l const c i : in_family l → length (members l) ≤ i → ∀ x, get x l const c i = Hard.
Proof.
  intros Hl Hi x. destruct l as [es|a b|es|a b|n t|ms|n]; try done; cbn [members] in Hi; cbn [get element].
  - by rewrite lookup_ge_None_2.
  - destruct i as [|[|i]]; simpl in Hi; [lia..|]. done.
  - by rewrite lookup_ge_None_2.
  - destruct i as [|[|i]]; simpl in Hi; [lia..|]. done.
  - rewrite replicate_length in Hi. replace (i <? n) with false by (symmetry; by apply Nat.ltb_ge). done.
Qed.
Lemma size_members l : in_family l → tuple_size l = Some (length (members l)).
Proof. destruct l; try done. intros _. simpl. by rewrite replicate_length. Qed.

(** * C139: which types are tuple-like *)
Lemma element_spec l i m : in_family l → members l !! i = Some m →
  element l i = Some (match l with XTuple _ => TypesModel.tuple_element m | _ => m end).
Proof.
  intros Hl Hm. destruct l as [es|a b|es|a b|n t|ms|n]; try done; cbn [members] in Hm; cbn [element].
  - by rewrite Hm.
  - apply lookup_replicate in Hm as [-> Hi]. replace (i <? n) with true by (symmetry; by apply Nat.ltb_lt). done.
Qed.
Lemma converts_self m : declarable m → ∀ t, handed false false LValue m = Some t → converts t m = true.
Proof.
  intros Hd t Ht. destruct m as [[qc qv qd]|[qc qv qd]|[qc qv qd]]; simpl in Ht; injection Ht as <-; unfold converts; simpl; [destruct qd; simpl in *; try done|..];
    rewrite ?core_eqb_refl, ?Z.eqb_refl, ?Nat.eqb_refl; try (by destruct qc, qv). destruct k; simpl; rewrite ?Z.eqb_refl, ?Bool.eqb_reflx, ?Nat.eqb_refl; by destruct qc, qv.
Qed.
Lemma handed_lvalue x m : handed x false LValue m = handed false false LValue m.
Proof. by destruct m. Qed.
Lemma converts_tuple m t : declarable m → handed false false LValue m = Some t → converts t (TypesModel.tuple_element m) = true ↔ ¬ volatile_scalar m.
Proof.
  intros Hd Ht. destruct m as [[qc qv qd]|q|q]; [|split; [by intros _ []|intros _; by apply (converts_self (LRef q))]|split; [by intros _ []|intros _; by apply (converts_self (RRef q))]].
  destruct qd as [k|n s u|n|n|n]; [| |split; [intros _; by destruct qv; intros []|intros _; by apply (converts_self (Obj (Q qc qv (Class n))))]
    |split; [intros _; by destruct qv; intros []|intros _; by apply (converts_self (Obj (Q qc qv (InitializerList n))))]|done].
  all: simpl in Ht; injection Ht as <-; unfold converts; cbn -[core_eqb]; rewrite core_eqb_refl; destruct qc, qv; cbn; split; try done; intros H; tauto.
Qed.
Lemma element_check l i m : in_family l → Forall declarable (members l) → members l !! i = Some m →
  (c_tuple_element false l i = Accepted tt ∧ ¬ (∃ es, l = XTuple es ∧ volatile_scalar m)) ∨ (c_tuple_element false l i = Rejected ∧ ∃ es, l = XTuple es ∧ volatile_scalar m).
Proof.
  intros Hl Hd Hm. assert (declarable m) as Dm by (by eapply Forall_lookup_1).
  unfold c_tuple_element. rewrite (element_spec l i m Hl Hm), (get_handed l false LValue i m Hl Hd Hm), handed_lvalue.
  destruct (handed false false LValue m) as [t|] eqn:E; [|by destruct m]. cbn [and_then].
  destruct (match l with XTuple _ => true | _ => false end) eqn:X.
  - destruct l as [es| | | | | |]; try done. destruct (converts t (TypesModel.tuple_element m)) eqn:C.
    + left. split; [done|]. intros (es' & _ & V). by apply (converts_tuple m t Dm E) in C.
    + right. split; [done|]. exists es. split; [done|]. destruct m as [[qc [] [k|n s u|n|n|n]]|q|q]; try done; exfalso; apply not_true_iff_false in C;
        apply C, (converts_tuple _ _ Dm E); intros [].
  - left. split; [|intros (es & -> & _); done]. replace (match l with XTuple _ => _ | _ => m end) with m by (by destruct l). by rewrite (converts_self m Dm t E).
Qed.
Lemma elements_check l k n : in_family l → Forall declarable (members l) → k + n ≤ length (members l) →
  (tuple_elements false l (seq k n) = Accepted tt ∧ ∀ i m, k ≤ i < k + n → members l !! i = Some m → ¬ (∃ es, l = XTuple es ∧ volatile_scalar m)) ∨
  (tuple_elements false l (seq k n) = Rejected ∧ ∃ i m es, members l !! i = Some m ∧ l = XTuple es ∧ volatile_scalar m).
Proof.
  intros Hl Hd. revert k. induction n as [|n IH]; intros k Hn; [left; split; [done|intros; lia]|].
  cbn [seq tuple_elements]. destruct (lookup_lt_is_Some_2 (members l) k ltac:(lia)) as [m Hm].
  destruct (element_check l k m Hl Hd Hm) as [[-> V]|[-> (es & -> & V)]]; cbn [and_then]; [|right; split; [done|by exists k, m, es]].
  destruct (IH (S k) ltac:(lia)) as [[-> W]|[-> W]]; [left|by right]. split; [done|].
  intros i m' Hi Hm'. destruct (decide (i = k)) as [->|]; [by rewrite Hm in Hm'; injection Hm' as <-|]. apply (W i m'); [lia|done].
Qed.
Theorem tuple_like_partial : ∀ l, Forall declarable (members l) →
  (c_tuple_like false l = Accepted tt ∧ tuple_like l) ∨ (c_tuple_like false l = Rejected ∧ ¬ tuple_like l).
Proof.
  intros l Hd. destruct (match l with Struct _ | Opaque _ => false | _ => true end) eqn:F.
  - assert (Hl : in_family l) by (by destruct l). unfold c_tuple_like. rewrite (size_members l Hl).
    destruct (elements_check l 0 (length (members l)) Hl Hd ltac:(lia)) as [[-> V]|[-> (i & m & es & Hm & -> & V)]]; [left|right]; split; try done.
    + split; [done|]. intros es ->. apply Forall_lookup_2. intros i m Hm W. apply (V i m); [|done|by exists es]. apply lookup_lt_Some in Hm. simpl in *. lia.
    + intros [_ H]. specialize (H es eq_refl). by apply (Forall_lookup_1 _ _ _ _ H Hm).
  - right. destruct l; try done; split; try done; intros [[] _].
Qed.
(** A pair-like type is a tuple-like one of size two. *)
Theorem pair_like_partial : ∀ l, Forall declarable (members l) →
  (c_pair_like false l = Accepted tt ∧ tuple_like l ∧ length (members l) = 2) ∨ (c_pair_like false l = Rejected ∧ ¬ (tuple_like l ∧ length (members l) = 2)).
Proof.
  intros l Hd. unfold c_pair_like. destruct (tuple_like_partial l Hd) as [[-> T]|[-> T]]; cbn [and_then]; [|right; split; [done|tauto]].
  rewrite (size_members l) by apply T. destruct (length (members l)) as [|[|[|n]]]; [right|right|left|right]; (split; [done|]); [..|split; [done|done]|]; intros [_ H]; done.
Qed.
(** With explicit object parameters: asking whether a Tuple of several elements is
    tuple-like does not compile; otherwise the answer is the same. *)
Theorem tuple_like_explicit_partial : ∀ l, Forall declarable (members l) →
  (∃ es, l = XTuple es ∧ 2 ≤ length es ∧ c_tuple_like true l = Hard) ∨
  (¬ (∃ es, l = XTuple es ∧ 2 ≤ length es) ∧ c_tuple_like true l = c_tuple_like false l).
Proof.
  intros l Hd.
  assert (G : ∀ i m, members l !! i = Some m → (∀ es, l = XTuple es → length es = 1) → get true l false LValue i = get false l false LValue i).
  { intros i m Hm H1. assert (declarable m) as Dm by (by eapply Forall_lookup_1).
    pose proof (index23_handed false LValue m Dm) as I. cbn [get_object fst snd] in I.
    assert (I' : index23 1 (Class 0) false LValue m = index20 (Class 0) false LValue m).
    { rewrite I. pose proof (index20_handed (Class 0) false LValue m Dm) as J. cbn [get_object fst snd] in J. rewrite J. by destruct m. }
    destruct l as [es|a b|es|a b|n t|ms|n]; try done; cbn [members] in Hm; cbn [get].
    - rewrite Hm. cbn [mbind option_bind]. unfold tuple_get. cbn [get_object]. rewrite (H1 es eq_refl). by rewrite I'.
    - assert (P : pair_element i a b = Some m) by (destruct i as [|[|]]; done). rewrite P. cbn [mbind option_bind]. unfold pair_get. cbn [get_object]. by rewrite I'. }
  assert (Same : (∀ es, l = XTuple es → length es = 1) → c_tuple_like true l = c_tuple_like false l).
  { intros H1. unfold c_tuple_like. destruct (tuple_size l) as [n|] eqn:S; [|done].
    assert (Hl : in_family l) by (by destruct l). rewrite (size_members l Hl) in S. injection S as <-.
    assert (A : ∀ n k, k + n ≤ length (members l) → tuple_elements true l (seq k n) = tuple_elements false l (seq k n)); [|apply A; lia].
    induction n as [|n IH]; intros k Hn; [done|]. cbn [seq tuple_elements]. rewrite IH by lia. f_equal. unfold c_tuple_element.
    destruct (lookup_lt_is_Some_2 (members l) k ltac:(lia)) as [m Hm]. by rewrite (G k m Hm H1). }
  destruct l as [es| | | | | |]; try (right; split; [by intros (? & ? & _)|by apply Same]).
  destruct es as [|m [|m' es]].
  - right. split; [intros (es & E & H); injection E as <-; simpl in H; lia|done].
  - right. split; [intros (es & E & H); injection E as <-; simpl in H; lia|]. apply Same. intros es E. by injection E as <-.
  - left. exists (m :: m' :: es). split; [done|]. split; [simpl; lia|]. done.
Qed.
(** Tuples that are not tuple-like *)
Theorem tuple_like_refuted : ∃ es, Forall declarable es ∧ c_tuple_like false (STuple es) = Accepted tt ∧ c_tuple_like false (XTuple es) = Rejected.
Proof. exists [Obj (Q false true (Scalar (Integer 32 true)))]. split; [by repeat constructor|]. split; reflexivity. Qed.
Theorem tuple_like_explicit_refuted : ∃ es, Forall declarable es ∧ c_tuple_like false (XTuple es) = Accepted tt ∧ c_tuple_like true (XTuple es) = Hard.
Proof. exists [Obj (Q false false (Class 0)); Obj (Q false false (Class 1))]. split; [by repeat constructor|]. split; reflexivity. Qed.
Definition t_int : ty := Obj (Q false false (Scalar (Integer 32 true))).
Definition t_class n : ty := Obj (Q false false (Class n)).
Example tuple_like_ex :
  c_tuple_like false (XTuple [t_int; LRef (remove_reference (t_class 1)); RRef (remove_reference (t_class 2))]) = Accepted tt ∧
  c_tuple_like false (SArray 3 t_int) = Accepted tt ∧ c_tuple_like false (Struct [t_int]) = Rejected ∧ c_tuple_like true (XTuple [t_class 1]) = Accepted tt ∧
  c_tuple_like false (XTuple [Obj (Q true true (Class 1))]) = Accepted tt ∧ c_tuple_like true (XPair t_int t_int) = Accepted tt.
Proof. split_and!; reflexivity. Qed.
Example pair_like_ex : c_pair_like false (SArray 2 t_int) = Accepted tt ∧ c_pair_like false (XPair t_int (t_class 1)) = Accepted tt ∧
  c_pair_like false (STuple [t_int]) = Rejected ∧ c_pair_like false (SArray 3 t_int) = Rejected.
Proof. split_and!; reflexivity. Qed.

(** * C140: assignment *)
(** Element [i] of the target is assigned from element [i] of the source. *)
Definition element_wise (asg : core → expr → bool) (es : list ty) (l : like) (const : bool) (c : cat) (ts : list ty) : Prop :=
  length ts = length es ∧ ∀ i e, es !! i = Some e → ∃ m t, members l !! i = Some m ∧ ts !! i = Some t ∧
    handed (is_xme l) const c m = Some t ∧ q_const (remove_reference e) = false ∧ asg (remove_cvref e) (call t) = true.
Lemma assign_index_exact asg l const c es : in_family l → Forall declarable (members l) → ∀ k ts,
  assign_index asg false l const c k es = Accepted ts ↔
  length ts = length es ∧ ∀ i e, es !! i = Some e → ∃ m t, members l !! (k + i) = Some m ∧ ts !! i = Some t ∧
    handed (is_xme l) const c m = Some t ∧ q_const (remove_reference e) = false ∧ asg (remove_cvref e) (call t) = true.
Proof.
  intros Hl Hd. induction es as [|e es IH]; intros k ts; cbn [assign_index].
  { split; [intros H; injection H as <-; done|]. intros [H _]. by destruct ts. }
  destruct (members l !! k) as [m|] eqn:Hm.
  2:{ rewrite get_beyond by (done || by apply lookup_ge_None). split; [done|]. intros [_ H]. destruct (H 0 e eq_refl) as (m & t & Hm' & _). by rewrite Nat.add_0_r, Hm in Hm'. }
  rewrite (get_handed l const c k m Hl Hd Hm). destruct (handed (is_xme l) const c m) as [t|] eqn:E.
  2:{ split; [done|]. intros [_ H]. destruct (H 0 e eq_refl) as (m' & t & Hm' & _ & Ht & _). rewrite Nat.add_0_r, Hm in Hm'. injection Hm' as <-. by rewrite E in Ht. }
  destruct (assigns_to asg e t) eqn:A.
  2:{ split; [done|]. intros [Hn H]. destruct (H 0 e eq_refl) as (m' & t' & Hm' & _ & Ht & Hc & Ha). rewrite Nat.add_0_r, Hm in Hm'. injection Hm' as <-.
      rewrite E in Ht. injection Ht as <-. unfold assigns_to in A. by rewrite Hc, Ha in A. }
  unfold assigns_to in A. apply andb_prop in A as [A1 A2]. apply negb_true_iff in A1. split.
  - intros H. destruct (assign_index asg false l const c (S k) es) as [| |us] eqn:R; try done. injection H as <-. apply IH in R as [Rn R].
    split; [simpl; by rewrite Rn|]. intros [|i] e' He; [injection He as <-; exists m, t; by rewrite Nat.add_0_r|]. 
    destruct (R i e' He) as (m' & t' & R'). exists m', t'. by rewrite <- Nat.add_succ_comm.
  - intros [Hn H]. destruct ts as [|t' ts]; [done|]. simpl in Hn. injection Hn as Hn.
    destruct (H 0 e eq_refl) as (m' & t'' & Hm' & Ht' & Ht & _). rewrite Nat.add_0_r, Hm in Hm'. injection Hm' as <-. injection Ht' as <-. rewrite E in Ht. injection Ht as <-.
    assert (R : assign_index asg false l const c (S k) es = Accepted ts); [|by rewrite R].
    apply IH. split; [done|]. intros i e' He. destruct (H (S i) e' He) as (m' & t' & R'). exists m', t'. by rewrite Nat.add_succ_comm.
Qed.
Lemma assign_index_decides asg l const c x es : ∀ k, assign_index asg x l const c k es ≠ Rejected.
Proof.
  induction es as [|e es IH]; intros k; [done|]. cbn [assign_index]. destruct (get x l const c k) as [| |t]; try done.
  destruct (assigns_to asg e t); [|done]. specialize (IH (S k)). by destruct (assign_index asg x l const c (S k) es).
Qed.
Definition same_tuple (es : list ty) (l : like) : Prop := ∃ es', l = XTuple es' ∧ Forall2 (λ t u, ty_eqb t u = true) es es'.
Lemma is_this_tuple_spec es l : is_this_tuple es l = true ↔ same_tuple es l.
Proof.
  assert (A : ∀ k, same_types es k = true ↔ Forall2 (λ t u, ty_eqb t u = true) es k).
  { induction es as [|e es IH]; intros [|t k]; cbn [same_types].
    - by split; [constructor|].
    - split; [done|]. intros H. inversion H.
    - split; [done|]. intros H. inversion H.
    - rewrite andb_true_iff, IH, Forall2_cons. done. }
  unfold same_tuple. destruct l as [es'| | | | | |]; cbn [is_this_tuple]; try (split; [done|by intros (? & ? & _)]).
  rewrite A. split; [intros H; by exists es'|]. intros (es'' & E & H). by injection E as <-.
Qed.
(** The template takes every tuple-like object but a Tuple of the same type that is not
    const, and then assigns element by element; it compiles exactly if the source has
    enough elements that can be assigned. *)
Theorem assign_tuple_exact : ∀ asg es l const c, Forall declarable (members l) →
  (assign_tuple asg false es l const c = Rejected ↔ ¬ tuple_like l ∨ const = false ∧ same_tuple es l) ∧
  (∀ ts, assign_tuple asg false es l const c = Accepted ts ↔ tuple_like l ∧ ¬ (const = false ∧ same_tuple es l) ∧ element_wise asg es l const c ts).
Proof.
  intros asg es l const c Hd. unfold assign_tuple. destruct (tuple_like_partial l Hd) as [[-> T]|[-> T]]; cbn [and_then]; [|split; [tauto|intros ts; split; [done|tauto]]].
  destruct (negb const && is_this_tuple es l) eqn:S.
  - apply andb_prop in S as [S1 S2]. apply negb_true_iff in S1. apply is_this_tuple_spec in S2. split; [tauto|]. intros ts. split; [done|tauto].
  - assert (S' : ¬ (const = false ∧ same_tuple es l)).
    { intros [-> H]. apply is_this_tuple_spec in H. by rewrite H in S. }
    split; [|intros ts; rewrite (assign_index_exact asg l const c es (proj1 T) Hd 0 ts); unfold element_wise; simpl; tauto].
    split; [intros H; by apply assign_index_decides in H|tauto].
Qed.
Theorem assign_pair_exact : ∀ asg a b l const c, Forall declarable (members l) →
  (assign_pair asg false a b l const c = Rejected ↔ ¬ (tuple_like l ∧ length (members l) = 2)) ∧
  (∀ ts, assign_pair asg false a b l const c = Accepted ts ↔ tuple_like l ∧ length (members l) = 2 ∧ element_wise asg [a; b] l const c ts).
Proof.
  intros asg a b l const c Hd. unfold assign_pair. destruct (pair_like_partial l Hd) as [(-> & T & L)|[-> T]]; cbn [and_then]; [|split; [tauto|intros ts; split; [done|tauto]]].
  split; [|intros ts; rewrite (assign_index_exact asg l const c [a; b] (proj1 T) Hd 0 ts); unfold element_wise; simpl; tauto].
  split; [intros H; by apply assign_index_decides in H|tauto].
Qed.
(** Sources that are lvalues or const are not moved from; objects in other sources are. *)
Theorem assign_moves : ∀ asg es l const c ts i t, Forall declarable (members l) → assign_tuple asg false es l const c = Accepted ts → ts !! i = Some t →
  (c = LValue → ∃ q, t = LRef q) ∧
  (is_xme l = true → const = true → ∃ q, t = LRef q) ∧
  (c ≠ LValue → const = false → ∀ q, members l !! i = Some (Obj q) → t = RRef q).
Proof.
  intros asg es l const c ts i t Hd H Ht. apply (assign_tuple_exact asg es l const c Hd) in H as (T & _ & Hn & H).
  destruct (lookup_lt_is_Some_2 es i) as [e He]; [rewrite <- Hn; by eapply lookup_lt_Some|].
  destruct (H i e He) as (m & t' & Hm & Ht' & Hh & _). rewrite Ht in Ht'. injection Ht' as <-.
  split_and!.
  - intros ->. destruct m as [q|q|q]; simpl in Hh; injection Hh as <-; by eexists.
  - intros Hx ->. rewrite Hx in Hh. destruct m as [q|q|q], c; simpl in Hh; injection Hh as <-; by eexists.
  - intros Hc -> q Hq. rewrite Hm in Hq. injection Hq as ->. destruct c; [done|..]; simpl in Hh; rewrite andb_false_r in Hh; by injection Hh as <-.
Qed.
(** What is assigned: as many elements as the target has. A source with fewer elements is
    taken by the template, which then does not compile. *)
Theorem assign_tuple_sizes_partial : ∀ asg es l const c, Forall declarable (members l) →
  (∀ ts, assign_tuple asg false es l const c = Accepted ts → length es ≤ length (members l)) ∧
  (tuple_like l → length (members l) < length es → assign_tuple asg false es l const c = Hard).
Proof.
  intros asg es l const c Hd. destruct (assign_tuple_exact asg es l const c Hd) as [HR HA].
  assert (L : ∀ ts, assign_tuple asg false es l const c = Accepted ts → length es ≤ length (members l)).
  { intros ts H. apply HA in H as (_ & _ & Hn & H). destruct (decide (length es ≤ length (members l))) as [|G]; [done|]. 
    destruct (lookup_lt_is_Some_2 es (length (members l)) ltac:(lia)) as [e He]. destruct (H _ _ He) as (m & t & Hm & _). apply lookup_lt_Some in Hm. lia. }
  split; [done|]. intros T Hs. destruct (assign_tuple asg false es l const c) as [| |ts] eqn:E; [|done|specialize (L ts eq_refl); lia].
  destruct (proj1 HR eq_refl) as [Z|[_ (es' & -> & Z)]]; [done|]. apply Forall2_length in Z. simpl in Hs. lia.
Qed.
(** Objects of one type can be assigned to each other. *)
Definition same_core (c : core) (e : expr) : bool := core_eqb c (q_core (e_type e)).
(** A longer source is taken, and its last elements are dropped; and a source that cannot be
    assigned is not rejected but does not compile. *)
Theorem assign_tuple_sizes_refuted : ∃ es l, tuple_like l ∧ length es < length (members l) ∧
  (∃ ts, assign_tuple same_core false es l true LValue = Accepted ts) ∧
  ∃ l', tuple_like l' ∧ length (members l') = length es ∧ assign_tuple same_core false es l' true LValue = Hard.
Proof.
  exists [t_int], (STuple [t_int; t_class 7]). split; [done|]. split; [simpl; lia|]. split; [eexists; reflexivity|].
  exists (STuple [t_class 7]). split; [done|]. split; done.
Qed.
(** Moved from an rvalue, copied from a const one of the library *)
Example assign_tuple_ex : let es := [t_int; t_class 1] in
  assign_tuple same_core false es (XPair t_int (t_class 1)) false XValue = Accepted [RRef (remove_reference t_int); RRef (remove_reference (t_class 1))] ∧
  assign_tuple same_core false es (XPair t_int (t_class 1)) true XValue = Accepted [LRef (Q true false (remove_cvref t_int)); LRef (Q true false (Class 1))] ∧
  assign_tuple same_core false es (STuple [t_int; t_class 1]) true XValue = Accepted [RRef (Q true false (remove_cvref t_int)); RRef (Q true false (Class 1))] ∧
  assign_tuple same_core false es (XTuple es) false LValue = Rejected ∧ assign_tuple same_core false es (Struct es) false LValue = Rejected ∧
  assign_tuple same_core false es (STuple [t_int]) false LValue = Hard.
Proof. split_and!; reflexivity. Qed.
Example assign_pair_ex : assign_pair same_core false t_int (t_class 1) (STuple [t_int; t_class 1]) false LValue = Accepted [LRef (remove_reference t_int); LRef (Q false false (Class 1))] ∧
  assign_pair same_core false t_int (t_class 1) (STuple [t_int; t_class 1; t_int]) false LValue = Rejected ∧
  assign_pair same_core false t_int (t_class 1) (SArray 2 t_int) false LValue = Hard.
Proof. split_and!; reflexivity. Qed.

(** * C141: conversion *)
(** The initialisers that the constraint tries, and the ones that the body uses *)
Definition initialisers (es : list ty) : list expr :=
  map (λ m, match m with Obj q => Expr (add_const q) LValue | LRef q | RRef q => Expr q LValue end) es.
Lemma get_all_exact es : Forall declarable es → get_all false (XTuple es) (seq 0 (length es)) = Accepted (initialisers es).
Proof.
  intros Hd. assert (A : ∀ n k, k + n = length es → get_all false (XTuple es) (seq k n) = Accepted (initialisers (drop k es))); [|by apply (A (length es) 0)].
  induction n as [|n IH]; intros k Hk; cbn [seq get_all].
  - by rewrite drop_ge by lia.
  - destruct (lookup_lt_is_Some_2 es k ltac:(lia)) as [m Hm]. rewrite (get_handed (XTuple es) true LValue k m I Hd Hm).
    rewrite (drop_S es m k Hm). rewrite IH by lia. by destruct m.
Qed.
(** Copies are made from const objects as well as from others. *)
Definition copies_const (ok : core → expr → bool) : Prop := ∀ c q, ok c (Expr q LValue) = true → ok c (Expr (add_const q) LValue) = true.
Definition no_mutable_reference (m : ty) : Prop := match m with LRef q => q_const q = true | _ => True end.
Definition slots (u : like) : list ty := match u with Struct ms => ms | _ => members u end.
Lemma starts_const ok e m : copies_const ok → no_mutable_reference m →
  starts ok m (Expr (remove_reference e) LValue) = true →
  starts ok m (match e with Obj q => Expr (add_const q) LValue | LRef q | RRef q => Expr q LValue end) = true.
Proof.
  intros Hc Hm. destruct e as [q|q|q]; try done. destruct m as [r|r|r]; cbn [starts remove_reference]; [apply Hc|..].
  - simpl in Hm. unfold binds. cbn [remove_cvref remove_reference e_type is_lvalue e_cat]. rewrite !andb_true_r.
    intros H. apply andb_prop in H as [H1 H2]. apply andb_true_intro.
    assert (A : q_core (add_const q) = q_core q ∧ q_volatile (add_const q) = q_volatile q) by (unfold add_const; by destruct q as [? ? []]).
    destruct A as [A1 A2]. rewrite A1. split; [done|]. revert H2. unfold less_qualified. rewrite A2. rewrite Hm. by destruct (q_const q), (q_const (add_const q)).
  - unfold binds. simpl. by rewrite andb_false_r.
Qed.
Theorem convert_tuple_partial : ∀ inits makes empty es u, Forall declarable es → Forall declarable (members u) →
  copies_const inits → copies_const makes → Forall no_mutable_reference (slots u) →
  convert_tuple inits makes empty false es u ≠ Hard ∧
  (∀ is, convert_tuple inits makes empty false es u = Accepted is → is = initialisers es).
Proof.
  intros inits makes empty es u Hd Hu Hi Hmk Hr. unfold convert_tuple.
  assert (G : ∀ o : unit → outcome (list expr), (∀ x, o x ≠ Hard ∧ ∀ is, o x = Accepted is → is = initialisers es) →
    and_then match c_tuple_like false u with Rejected => if is_aggregate u then Accepted tt else Rejected | o => o end o ≠ Hard ∧
    ∀ is, and_then match c_tuple_like false u with Rejected => if is_aggregate u then Accepted tt else Rejected | o => o end o = Accepted is → is = initialisers es).
  { intros o Ho. destruct (tuple_like_partial u Hu) as [[-> _]|[-> _]]; cbn [and_then]; [apply Ho|]. destruct (is_aggregate u); cbn [and_then]; [apply Ho|done]. }
  apply G. intros _. clear G. destruct (is_this_tuple es u || negb (list_init inits makes empty u (args es))) eqn:E; [done|].
  apply orb_false_elim in E as [_ E]. apply negb_false_iff in E. rewrite (get_all_exact es Hd). cbn [and_then].
  assert (A : ∀ ms, Forall no_mutable_reference ms → aggregate_init inits empty ms (args es) = true → aggregate_init inits empty ms (initialisers es) = true).
  { clear -Hi. induction es as [|e es IH]; intros ms Hms H; [done|]. destruct ms as [|m ms]; [done|]. apply Forall_cons in Hms as [Hm Hms].
    cbn [args map aggregate_init initialisers] in *. apply andb_prop in H as [H1 H2]. apply andb_true_intro. split; [by apply starts_const|by apply IH]. }
  assert (B : ∀ ms, Forall no_mutable_reference ms → all_made makes ms (args es) = true → all_made makes ms (initialisers es) = true).
  { clear -Hmk. induction es as [|e es IH]; intros ms Hms H; [done|]. destruct ms as [|m ms]; [done|]. apply Forall_cons in Hms as [Hm Hms].
    cbn [args map all_made initialisers] in *. apply andb_prop in H as [H1 H2]. apply andb_true_intro. split; [by apply starts_const|by apply IH]. }
  assert (C : ∀ ms, Forall no_mutable_reference ms → std_init makes empty ms (args es) = true → std_init makes empty ms (initialisers es) = true).
  { intros ms Hms H. unfold std_init in *. apply orb_true_iff in H as [H|H]; apply orb_true_iff; [left; by apply B|right]. by destruct es. }
  assert (R : list_init inits makes empty u (initialisers es) = true); [|rewrite R; split; [done|intros is H; by injection H as <-]].
  destruct u; cbn [list_init slots members] in *; first [by apply A|by apply C|done].
Qed.
(** An aggregate with a reference to an object that is not const: the conversion is
    offered, but it does not compile. *)
Theorem convert_tuple_refuted : ∃ es u, Forall declarable es ∧ convert_tuple same_core same_core (λ _, true) false es u = Hard.
Proof. exists [t_int], (Struct [LRef (remove_reference t_int)]). split; [by repeat constructor|reflexivity]. Qed.
(** No element is lost: what is converted to has at least as many members, and exactly as
    many (or the Tuple is empty) if it is a std::tuple or std::pair. *)
Theorem convert_tuple_keeps : ∀ inits makes empty x es u is, convert_tuple inits makes empty x es u = Accepted is →
  length es ≤ length (slots u) ∧ ((match u with STuple _ | SPair _ _ => True | _ => False end) → es = [] ∨ length es = length (slots u)).
Proof.
  intros inits makes empty x es u is. unfold convert_tuple. intros H.
  match type of H with and_then ?o _ = _ => destruct o as [| |[]] end; try done. cbn [and_then] in H.
  destruct (is_this_tuple es u || negb (list_init inits makes empty u (args es))) eqn:E; [done|]. clear H.
  apply orb_false_elim in E as [_ E]. apply negb_false_iff in E.
  assert (A : ∀ ms, aggregate_init inits empty ms (args es) = true → length es ≤ length ms).
  { clear. induction es as [|e es IH]; intros ms H; [simpl; lia|]. destruct ms as [|m ms]; [done|]. simpl in *. apply andb_prop in H as [_ H]. apply le_n_S. by apply IH. }
  assert (B : ∀ ms, all_made makes ms (args es) = true → length es = length ms).
  { clear. induction es as [|e es IH]; intros [|m ms] H; try done. simpl in *. apply andb_prop in H as [_ H]. f_equal. by apply IH. }
  assert (C : ∀ ms, std_init makes empty ms (args es) = true → es = [] ∨ length es = length ms).
  { intros ms H. unfold std_init in H. apply orb_true_iff in H as [H|H]; [right; by apply B|left]. apply andb_prop in H as [H _]. apply bool_decide_eq_true in H. by destruct es. }
  assert (L : ∀ n : nat, es = [] ∨ length es = n → length es ≤ n) by (intros n [->|<-]; simpl; lia).
  destruct u; cbn [list_init slots members is_aggregate] in *; try done; try (split; [by apply A|done]); split; try (intros _); try apply L; by apply C.
Qed.
(** To a struct with a further member, to a const reference, and to a std::tuple *)
Example convert_tuple_ex : let cv := convert_tuple same_core same_core (λ _, true) false [t_int; t_class 1] in
  let is := initialisers [t_int; t_class 1] in
  cv (Struct [t_int; t_class 1; t_int]) = Accepted is ∧ cv (Struct [t_int; LRef (Q true false (Class 1))]) = Accepted is ∧ cv (STuple [t_int; t_class 1]) = Accepted is ∧
  cv (STuple [t_int; t_class 1; t_int]) = Rejected ∧ cv (Struct [t_int]) = Rejected ∧ cv (XPair t_int (t_class 1)) = Accepted is ∧ cv (Opaque 0) = Rejected ∧
  copies_const same_core.
Proof.
  cbv zeta. split_and!; try reflexivity. intros c q. unfold same_core, add_const. simpl. by destruct q as [? ? []].
Qed.

Definition like_theorems := (tuple_like_partial, pair_like_partial, tuple_like_explicit_partial, tuple_like_refuted, tuple_like_explicit_refuted,
  assign_tuple_exact, assign_pair_exact, assign_moves, assign_tuple_sizes_partial, assign_tuple_sizes_refuted,
  convert_tuple_partial, convert_tuple_refuted, convert_tuple_keeps).
Print Assumptions like_theorems.
