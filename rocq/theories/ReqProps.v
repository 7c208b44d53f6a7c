(** Which ranges the containers and the algorithms compile with, and what const iterators
    allow. *)
From stdpp Require Import list.
From Coq Require Import ZArith.
From Verif Require Import TypesModel TypesProps ReqModel.

(** ** Ranges as arguments *)

(** What holds of every type by the definitions of the concepts: iterators that can be used
    twice can be copied; what converts implicitly converts explicitly; random access
    iterators can be subtracted; a range with sized sentinels has a size. *)
Record wf (a : arg) : Prop := {
  wf_copyable : rank Forward ≤ rank (a_level a) → a_copyable a = true;
  wf_converts : a_converts a = true → a_constructs a = true;
  wf_sized : rank RandomAccess ≤ rank (a_level a) → a_common a = true → a_sized a = true;
  wf_size : rank Forward ≤ rank (a_level a) → a_sized a = true → a_has_size a = true
}.
Definition multi_pass (a : arg) : Prop := rank Forward ≤ rank (a_level a).

(** Some arguments for a container of T with sizeof(T) = [n]: pointers to T, iterators of a
    std::list<T>, of a LinkedList<T>, a std::istream_iterator<T>, and the iterators of a
    coroutine generator (move-only). *)
Definition pointers (n : nat) : arg := Arg Contiguous true true true true true true true true true true n.
Definition list_nodes (n : nat) : arg := Arg Bidirectional true false true true false true true true true true n.
Definition forward_nodes (n : nat) : arg := Arg Forward true false true false false true true true true true n.
Definition stream (n : nat) : arg := Arg Input true false true false false true true true true false n.
Definition generator (n : nat) : arg := Arg Input false false false false false true true true true false n.
Lemma some_wf n : wf (pointers n) ∧ wf (list_nodes n) ∧ wf (forward_nodes n) ∧ wf (stream n) ∧ wf (generator n).
Proof. split_and!; split; cbn; (done || lia). Qed.

Lemma at_least_spec l m : at_least l m = true ↔ rank l ≤ rank m.
Proof. apply Nat.leb_le. Qed.
Lemma multi_pass_copies a : wf a → multi_pass a → a_copyable a = true.
Proof. intros W. by apply (wf_copyable a W). Qed.

(** Lists: every range of elements that convert to T and can be assigned to one compiles with
    every function, also ranges that can be read only once, if the iterators can be copied.
    Functions that take the range instead of the iterators do not ask for that. *)
Theorem list_functions_compile f a :
  wf a → a_converts a = true → a_assigns a = true →
  (f = ListCtor ∨ f = ListInsert ∨ f = ListAssign ∨ f = ListAssignRange → a_copyable a = true) →
  f ∈ [ListCtor; ListCtorRange; ListInsert; ListInsertRange; ListAssign; ListAssignRange] →
  call_fn f a = Compiles.
Proof.
  intros W HC HA Hcopy Hf. pose proof (wf_converts a W HC) as Hc.
  repeat (apply elem_of_cons in Hf as [-> |Hf]); [..|by apply elem_of_nil in Hf]; cbn;
    unfold list_ctor_it, list_ctor_r, list_insert_it, list_insert_r, list_assign_it, list_assign_r, range_initialize, calls,
      list_assign_it, list_insert_it, template; rewrite ?HC, ?Hc, ?HA; cbn;
    unfold calls; rewrite ?Hc, ?Hcopy by auto; done.
Qed.
Example list_functions_compile_case :
  map (λ f, call_fn f (stream 4)) [ListCtor; ListCtorRange; ListInsert; ListInsertRange; ListAssign; ListAssignRange]
    = repeat Compiles 6 ∧
  map (λ f, call_fn f (generator 4)) [ListCtor; ListCtorRange; ListInsert; ListInsertRange; ListAssign; ListAssignRange]
    = [Error; Compiles; Compiles; Compiles; Error; Error].
Proof. done. Qed.

(** The functions of lists that cannot fail: whatever they accept compiles. *)
Theorem list_range_functions_total f a :
  wf a → f ∈ [ListCtorRange; ListInsertRange] → call_fn f a = if a_converts a then Compiles else NotViable.
Proof.
  intros W Hf. destruct (a_converts a) eqn:HC.
  - pose proof (wf_converts a W HC) as Hc.
    repeat (apply elem_of_cons in Hf as [-> |Hf]); [..|by apply elem_of_nil in Hf]; cbn;
      unfold list_ctor_r, list_insert_r, list_insert_it, range_initialize, calls, template; rewrite HC; cbn;
      unfold list_insert_it, template; by rewrite Hc.
  - repeat (apply elem_of_cons in Hf as [-> |Hf]); [..|by apply elem_of_nil in Hf]; cbn;
      unfold list_ctor_r, list_insert_r, template; by rewrite HC.
Qed.
Example list_range_functions_total_case :
  let strange := Arg Input false false false false false true true false false false 3 in
  wf strange ∧ call_fn ListCtorRange strange = Compiles ∧ call_fn ListInsertRange strange = Compiles ∧
  call_fn ListAssignRange strange = Error.
Proof. split_and!; [split; cbn; done || lia|done..]. Qed.

(** Arrays: ranges that can be read more than once compile with insert and push_back. The
    constructors also need iterators that can be compared with a pointer to an element of the
    new array, which only pointers (and classes that convert to them) can be. *)
Theorem array_functions_compile_partial f a :
  wf a → a_converts a = true → multi_pass a →
  (f = ArrayCtor ∨ f = ArrayCtorRange → a_meets_pointer a = true) →
  f ∈ [ArrayCtor; ArrayCtorRange; ArrayInsert; ArrayInsertRange; ArrayPush; ArrayPushRange] →
  call_fn f a = Compiles.
Proof.
  intros W HC Hm Hp Hf. pose proof (wf_converts a W HC) as Hc. pose proof (multi_pass_copies a W Hm) as Hcopy.
  assert (Hl : at_least Forward (a_level a) = true) by by apply at_least_spec.
  assert (Hd : distance a = true) by (unfold distance; rewrite Hcopy; apply orb_true_r).
  repeat (apply elem_of_cons in Hf as [-> |Hf]); [..|by apply elem_of_nil in Hf]; cbn;
    unfold array_ctor_r, array_ctor_it, array_insert_r, array_insert_it, array_push_r, array_push_it, uninitialized_copy, calls, template;
    unfold array_ctor_it, uninitialized_copy, calls, template; rewrite ?Hl, ?HC, ?Hc, ?Hd, ?Hp by auto; cbn;
    rewrite ?Hd; cbn; unfold uninitialized_copy, template; rewrite ?Hl, ?Hc, ?Hp by auto; cbn; rewrite ?Hcopy; done.
Qed.
Example array_functions_compile_case :
  map (λ f, call_fn f (pointers 4)) [ArrayCtor; ArrayCtorRange; ArrayInsert; ArrayInsertRange; ArrayPush; ArrayPushRange]
    = repeat Compiles 6 ∧
  map (λ f, call_fn f (forward_nodes 4)) [ArrayInsert; ArrayInsertRange; ArrayPush; ArrayPushRange] = repeat Compiles 4.
Proof. done. Qed.
(** What is missing: the constructors accept other ranges, and none of them compiles. *)
Theorem array_ctor_range_exact a :
  wf a → a_converts a = true →
  (call_fn ArrayCtorRange a = Compiles ↔ multi_pass a ∧ a_meets_pointer a = true) ∧
  (call_fn ArrayCtorRange a = Error ↔ ¬ (multi_pass a ∧ a_meets_pointer a = true)).
Proof.
  intros W HC.
  assert (H : multi_pass a ∧ a_meets_pointer a = true → call_fn ArrayCtorRange a = Compiles).
  { intros [Hm Hp]. apply array_functions_compile_partial; [done..|by intros _|do 1 (apply elem_of_cons; right); apply elem_of_list_here]. }
  assert (H' : call_fn ArrayCtorRange a = Compiles → multi_pass a ∧ a_meets_pointer a = true).
  { cbn. unfold array_ctor_r, template. rewrite HC. unfold calls, array_ctor_it, template.
    destruct (distance a && _) eqn:E; [|done]. intros _. apply andb_true_iff in E as [_ E]. revert E.
    unfold calls, uninitialized_copy, template. destruct (at_least _ _) eqn:El; [|done]. apply at_least_spec in El.
    destruct (a_constructs a && a_meets_pointer a) eqn:Ec; [|done]. apply andb_true_iff in Ec as [_ Ec]. done. }
  assert (call_fn ArrayCtorRange a ≠ NotViable).
  { cbn. unfold array_ctor_r, template. rewrite HC. by destruct (calls _ _ _). }
  split; split; auto; [intros E; rewrite E in H; intros Hx; by specialize (H Hx)|].
  intros Hn. destruct (call_fn ArrayCtorRange a); [done|done|]. by destruct Hn; apply H'.
Qed.
Example array_ctor_range_exact_case :
  map (call_fn ArrayCtorRange) [pointers 4; list_nodes 4; forward_nodes 4; stream 4; generator 4]
    = [Compiles; Error; Error; Error; Error].
Proof. done. Qed.

(** Heaps: pairs of iterators always compile; the constructor from a range also accepts
    ranges without a size, and does not compile with them. *)
Theorem heap_functions_compile a :
  wf a → a_converts a = true →
  call_fn HeapCtor a = Compiles ∧
  call_fn HeapCtorRange a = if a_has_size a then Compiles else Error.
Proof.
  intros W HC. unfold call_fn, heap_ctor_it, heap_ctor_r, heap_push, template. rewrite HC. split.
  - destruct (at_least Contiguous (a_level a)) eqn:E; [|done]. unfold distance. rewrite (multi_pass_copies a W).
    + by destruct (a_sized a).
    + apply at_least_spec in E. unfold multi_pass. cbn in E. cbn. lia.
  - rewrite andb_true_r. by destruct (a_has_size a).
Qed.
Example heap_functions_compile_case :
  call_fn HeapCtor (generator 2) = Compiles ∧ call_fn HeapCtorRange (list_nodes 2) = Compiles ∧
  call_fn HeapCtorRange (forward_nodes 2) = Error.
Proof. done. Qed.

(** find and reverse: without vector instructions, or for iterators that are not contiguous,
    what they need is what std::ranges::find and std::ranges::reverse need. With vector
    instructions, they compile for contiguous common ranges of bytes. *)
Theorem algorithms_compile_partial v u a :
  wf a → a_copyable a = true →
  (v = Scalar ∨ rank (a_level a) < rank Contiguous ∨ (a_common a = true ∧ a_value_size a = 1)) →
  (a_equality a = true → call_fn (Find v u) a = Compiles ∧ call_fn (FindRange v u) a = Compiles) ∧
  (rank Bidirectional ≤ rank (a_level a) → a_permutable a = true →
   call_fn (Reverse v) a = Compiles ∧ call_fn (ReverseRange v) a = Compiles).
Proof.
  intros W Hcopy Hc.
  assert (Hsz : a_value_size a = 1 → ∀ ns, size_is (1 :: ns) a = true) by (intros E ns; unfold size_is; by rewrite E).
  assert (Hlt : rank (a_level a) < rank Contiguous → at_least Contiguous (a_level a) = false)
    by (intros H; apply Nat.leb_gt; done).
  split.
  - intros He.
    assert (H : find_it v u a = Compiles).
    { unfold find_it, template. destruct (match v with Scalar => false | _ => _ end) eqn:E.
      - destruct Hc as [-> |[Hl|[Hco Hs]]]; [done| |by rewrite Hsz, Hco, He by done].
        rewrite Hlt in E by done. by destruct v.
      - unfold calls, ranges_find, template. by rewrite He, Hcopy. }
    split; [done|]. unfold call_fn, find_r, template, calls. by rewrite H.
  - intros Hb Hp. apply at_least_spec in Hb.
    assert (H : reverse_it v a = Compiles).
    { unfold reverse_it, template. destruct (match v with AVX2 | SSE3 => _ | _ => false end) eqn:E.
      - destruct Hc as [-> |[Hl|[Hco Hs]]]; [done|rewrite Hlt in E by done; by destruct v|].
        rewrite Hsz, Hco, Hp by done. destruct v; try done; unfold reverse_simd; by rewrite Hsz.
      - unfold calls, ranges_reverse, template. by rewrite Hb, Hp, Hcopy. }
    split; [done|]. unfold call_fn, reverse_r, template, calls. by rewrite H.
Qed.
Example algorithms_compile_case :
  map (λ v, (call_fn (Find v true) (pointers 1), call_fn (ReverseRange v) (pointers 1))) [Scalar; SSE2; SSE3; AVX2]
    = repeat (Compiles, Compiles) 4 ∧
  call_fn (Find AVX2 true) (list_nodes 16) = Compiles ∧ call_fn (Reverse SSE2) (pointers 24) = Compiles.
Proof. done. Qed.

(** What each function needs to compile. The constructors of Array use the iterators twice and
    compare them with pointers to T; functions that count the elements copy the iterator
    unless it can be subtracted; the range functions ask for elements that convert. *)
Definition needs (f : fn) (a : arg) : Prop :=
  let counts := a_sized a = true ∨ a_copyable a = true in
  match f with
  | ArrayCtor => multi_pass a ∧ a_constructs a = true ∧ a_meets_pointer a = true
  | ArrayCtorRange => a_converts a = true ∧ multi_pass a ∧ a_meets_pointer a = true
  | ArrayInsert | ArrayPush => a_constructs a = true ∧ counts
  | ArrayInsertRange | ArrayPushRange => a_converts a = true ∧ counts
  | ListCtor => a_constructs a = true ∧ a_copyable a = true
  | ListInsert => a_constructs a = true
  | ListCtorRange | ListInsertRange => a_converts a = true
  | ListAssign => a_constructs a = true ∧ a_assigns a = true ∧ a_copyable a = true
  | ListAssignRange => a_converts a = true ∧ a_assigns a = true ∧ a_copyable a = true
  | HeapCtor => a_converts a = true
  | HeapCtorRange => a_converts a = true ∧ a_has_size a = true
  | Find v u | FindRange v u =>
      a_equality a = true ∧ a_copyable a = true ∧
      (v ≠ Scalar → u = true → a_level a = Contiguous → a_common a = true ∧ a_value_size a ∈ [1; 2; 4; 8])
  | Reverse v | ReverseRange v =>
      a_permutable a = true ∧ rank Bidirectional ≤ rank (a_level a) ∧
      a_copyable a = true ∧
      (v = SSE3 ∨ v = AVX2 → a_level a = Contiguous →
       a_common a = true ∧ (a_value_size a = 1 ∨ (v = SSE3 ∧ a_value_size a = 2)))
  end.
Lemma outcome_template c b : template c b = Compiles ↔ c = true ∧ b = true.
Proof. destruct c, b; cbn; intuition done. Qed.
Lemma calls_spec g l a : calls g l a = true ↔ g a = Compiles ∧ (l = true → a_copyable a = true).
Proof. unfold calls. destruct (g a); cbn; [intuition done|intuition done|]. destruct l, (a_copyable a); cbn; intuition congruence. Qed.
Lemma size_is_spec ns a : size_is ns a = true ↔ a_value_size a ∈ ns.
Proof.
  unfold size_is. rewrite existsb_exists. setoid_rewrite Nat.eqb_eq. rewrite elem_of_list_In. split; [intros (x & H & ->); done|eauto].
Qed.
Lemma contiguous_spec a : at_least Contiguous (a_level a) = true ↔ a_level a = Contiguous.
Proof. destruct (a_level a); cbn; intuition done. Qed.
Lemma find_exact v u a : wf a → (find_it v u a = Compiles ↔ needs (Find v u) a).
Proof.
  intros W. unfold find_it, needs, ranges_find. rewrite outcome_template.
  assert (Hn : a_level a = Contiguous → a_copyable a = true) by (intros E; apply (multi_pass_copies a W); unfold multi_pass; rewrite E; cbn; lia).
  destruct (match v with Scalar => false | _ => at_least Contiguous (a_level a) && u end) eqn:E.
  - assert (Hv : v ≠ Scalar ∧ u = true ∧ a_level a = Contiguous)
      by (destruct v; [done|..]; apply andb_true_iff in E as [E ->]; apply contiguous_spec in E; done).
    rewrite !andb_true_iff, size_is_spec. intuition done.
  - assert (Hv : v ≠ Scalar → u = true → a_level a = Contiguous → False)
      by (intros Hv -> Hl; apply contiguous_spec in Hl; rewrite Hl in E; by destruct v).
    rewrite calls_spec, outcome_template. split; [|intuition done].
    intros (_ & [He _] & Hc). split; [done|]. split; [auto|]. intros ???. exfalso. auto.
Qed.
Lemma reverse_exact v a : wf a → (reverse_it v a = Compiles ↔ needs (Reverse v) a).
Proof.
  intros W. unfold reverse_it, needs, ranges_reverse, reverse_simd. rewrite outcome_template.
  assert (Hn : a_level a = Contiguous → a_copyable a = true) by (intros E; apply (multi_pass_copies a W); unfold multi_pass; rewrite E; cbn; lia).
  destruct (match v with AVX2 | SSE3 => at_least Contiguous (a_level a) | _ => false end) eqn:E.
  - assert (Hl : a_level a = Contiguous) by (apply contiguous_spec; by destruct v).
    rewrite !andb_true_iff, size_is_spec.
    destruct v; try done; rewrite size_is_spec, Hl; rewrite !elem_of_cons, elem_of_nil; cbn; intuition (try done; try lia).
  - assert (Hv : v = SSE3 ∨ v = AVX2 → a_level a = Contiguous → False)
      by (intros Hv Hl; apply contiguous_spec in Hl; rewrite Hl in E; by destruct Hv as [-> | ->]).
    rewrite calls_spec, outcome_template, andb_true_iff, at_least_spec. split; [|intuition done].
    intros (_ & [[Hb Hp] _] & Hc). split_and!; [done|done|auto|]. intros ??. exfalso. auto.
Qed.
Theorem functions_compile_exact f a : wf a → (call_fn f a = Compiles ↔ needs f a).
Proof.
  intros W. pose proof (multi_pass_copies a W) as Hm. pose proof (wf_converts a W) as Hc.
  assert (Hd : distance a = true ↔ a_sized a = true ∨ a_copyable a = true) by (unfold distance; by rewrite orb_true_iff).
  assert (Hn : a_level a = Contiguous → a_copyable a = true) by (intros E; apply Hm; unfold multi_pass; rewrite E; cbn; lia).
  assert (Hb : at_least Bidirectional (a_level a) = true ↔ rank Bidirectional ≤ rank (a_level a)) by apply at_least_spec.
  destruct f; cbn [call_fn needs];
    unfold array_ctor_r, array_ctor_it, uninitialized_copy, array_insert_r, array_insert_it, array_push_r, array_push_it,
      list_ctor_it, list_ctor_r, range_initialize, list_assign_r, list_assign_it, list_insert_r, list_insert_it, heap_ctor_r, heap_ctor_it, heap_push, find_r, reverse_r;
    repeat (rewrite ?outcome_template, ?calls_spec, ?andb_true_iff, ?at_least_spec, ?Hd); fold (multi_pass a).
  1-12: assert (Hft : false = true → False) by done; tauto.
  - destruct (at_least Contiguous (a_level a)) eqn:E; [|intuition done].
    rewrite contiguous_spec in E. rewrite ?Hd. tauto.
  - intuition eauto.
  - apply find_exact; done.
  - rewrite (find_exact v unsequenced a W). cbn [needs].
    assert (Hft : false = true → False) by done. tauto.
  - apply reverse_exact; done.
  - rewrite (reverse_exact v a W). cbn [needs]. assert (Hft : false = true → False) by done. tauto.
Qed.
Example functions_compile_exact_ex :
  call_fn (Reverse SSE3) (pointers 2) = Compiles ∧ call_fn (Reverse AVX2) (pointers 2) = Error ∧
  call_fn ArrayPushRange (Arg Input false true false false false true true true true false 4) = Compiles.
Proof.
  split_and!; [|done|].
  - apply functions_compile_exact; [apply some_wf|]. cbn. split_and!; [done|lia|done|]. intros _ _. auto.
  - apply functions_compile_exact; [split; cbn; (done || lia)|]. cbn. auto.
Qed.

(** The functions do not compile with everything that they accept: an Array cannot be
    constructed from the iterators of a list; move-only iterators, which some functions of
    lists take, are an error in others; a Heap cannot be constructed from a range without a
    size; with vector instructions, find does not compile for contiguous elements of 16 bytes
    and reverse not for ones of 4 bytes. *)
Theorem accepted_ranges_compile_refuted :
  (∃ a, wf a ∧ multi_pass a ∧ a_converts a = true ∧
     call_fn ArrayCtor a = Error ∧ call_fn ArrayCtorRange a = Error) ∧
  (∃ a, wf a ∧ a_converts a = true ∧ call_fn ListCtorRange a = Compiles ∧ call_fn ListInsert a = Compiles ∧
     ∀ f, f ∈ [ArrayInsert; ArrayInsertRange; ArrayPush; ArrayPushRange; ListCtor; ListAssign; ListAssignRange] → call_fn f a = Error) ∧
  (∃ a, wf a ∧ multi_pass a ∧ a_converts a = true ∧ call_fn HeapCtorRange a = Error ∧ call_fn HeapCtor a = Compiles) ∧
  (∃ a, wf a ∧ rank Contiguous ≤ rank (a_level a) ∧ a_common a = true ∧ a_equality a = true ∧ a_permutable a = true ∧
     (∀ v, v ≠ Scalar → call_fn (Find v true) a = Error ∧ call_fn (Find v false) a = Compiles) ∧
     call_fn (Find Scalar true) a = Compiles) ∧
  (∃ a, wf a ∧ rank Contiguous ≤ rank (a_level a) ∧ a_common a = true ∧ a_permutable a = true ∧
     call_fn (Find AVX2 true) a = Compiles ∧
     call_fn (Reverse SSE2) a = Compiles ∧ call_fn (Reverse SSE3) a = Error ∧ call_fn (Reverse AVX2) a = Error).
Proof.
  pose proof (some_wf 16) as (W1 & W2 & W3 & W4 & W5). pose proof (some_wf 4) as (W1' & _).
  split_and!.
  - exists (list_nodes 16). split_and!; try done. unfold multi_pass. cbn. lia.
  - exists (generator 16). split_and!; try done. intros f Hf.
    repeat (apply elem_of_cons in Hf as [-> |Hf]); [..|by apply elem_of_nil in Hf]; done.
  - exists (forward_nodes 16). split_and!; try done; unfold multi_pass; cbn; lia.
  - exists (pointers 16). split_and!; try done. intros v Hv. by destruct v.
  - exists (pointers 4). by split_and!.
Qed.

(** ** Const iterators *)

(** An expression of this type does not allow to change what it refers to. *)
Definition read_only (t : ty) : Prop := match t with LRef q | RRef q => q_const q = true | Obj _ => True end.
(** What an iterator refers to is its value, perhaps const; not volatile. *)
Definition plain (o : ops) : Prop :=
  remove_cvref (o_deref o) = o_value o ∧ q_volatile (remove_reference (o_deref o)) = false.

(** Iterators for the examples: pointers to an int and to a class, the iterators of a
    std::list, ones that give values that may be moved from, values, and ones for one pass. *)
Definition int_core : core := TypesModel.Scalar (Integer 32 true).
Definition pointer_to (c : core) : ops :=
  Ops c true true (LRef (Q false false c)) true true true true true (Some (Obj (Q false false c))) Contiguous true.
Definition node_of (c : core) : ops := Ops c true true (LRef (Q false false c)) true true true true false None Bidirectional true.
Definition moving (c : core) : ops := Ops c true true (RRef (Q false false c)) true true true true true None Input true.
Definition counting (c : core) : ops := Ops c true true (Obj (Q false false c)) true true true true true None RandomAccess true.
Definition reading (c : core) : ops := Ops c true true (LRef (Q true false c)) true true false true false None Input true.
Definition filling (c : core) : ops := Ops c true true (LRef (Q false false c)) true true false true false None Input true.

Lemma ty_eqb_refl t : ty_eqb t t = true.
Proof. destruct t as [q|q|q]; unfold ty_eqb; by rewrite !eqb_reflx, core_eqb_refl. Qed.
Lemma ty_eqb_const t u : ty_eqb t u = true → read_only t → read_only u.
Proof.
  destruct t as [q|q|q], u as [r|r|r]; try done; unfold ty_eqb; cbn;
    intros [[H%eqb_prop _]%andb_true_iff _]%andb_true_iff; by rewrite H.
Qed.
Lemma const_reference_read_only o r : iter_const_reference o = Some r → read_only r.
Proof.
  unfold iter_const_reference, common_reference.
  destruct (o_deref o) as [q|q|q]; cbn.
  - destruct (o_value o); intros [= <-]; done.
  - by intros [= <-].
  - by intros [= <-].
Qed.

(** make_const_iterator gives no write access. *)
Theorem const_iterator_read_only o o' : make_const_iterator o = Some o' → read_only (o_deref o') ∧ o_value o' = o_value o.
Proof.
  unfold make_const_iterator. destruct (is_input o && o_copy o); [|done].
  destruct (is_constant_iterator o) eqn:Ec.
  - intros [= <-]. split; [|done]. unfold is_constant_iterator in Ec. apply andb_true_iff in Ec as [_ Ec].
    destruct (iter_const_reference o) as [r|] eqn:E; [|done]. eapply ty_eqb_const; [done|]. by eapply const_reference_read_only.
  - unfold const_iterator. destruct (is_input o && o_category o); [|done].
    destruct (iter_const_reference o) as [r|] eqn:E; [|done]. intros [= <-]. split; [|done]. by eapply const_reference_read_only.
Qed.
Example const_iterator_read_only_case :
  option_map o_deref (make_const_iterator (pointer_to int_core)) = Some (LRef (Q true false int_core)) ∧
  option_map o_deref (make_const_iterator (node_of (Class 7))) = Some (LRef (Q true false (Class 7))) ∧
  option_map o_deref (make_const_iterator (counting int_core)) = Some (Obj (Q false false int_core)) ∧
  option_map o_deref (make_const_iterator (moving (Class 7))) = Some (RRef (Q true false (Class 7))).
Proof. done. Qed.

(** What make_const_iterator passes through unchanged are exactly the iterators that give no
    write access. *)
Theorem constant_iterator_exact o :
  plain o → is_input o = true → (match o_deref o with Obj _ => False | _ => True end) →
  (is_constant_iterator o = true ↔ read_only (o_deref o)).
Proof.
  intros [Hc Hv] Hi Hr. unfold is_constant_iterator. rewrite Hi. cbn. unfold iter_const_reference, common_reference.
  destruct (o_deref o) as [q|[c v k]|[c v k]] eqn:E; [done| |]; cbn in Hc, Hv; subst; unfold ty_eqb, common_qual; cbn;
    rewrite core_eqb_refl, andb_true_r; destruct c; done.
Qed.
Example constant_iterator_exact_case :
  map is_constant_iterator [pointer_to int_core; reading (Class 7); filling (Class 7)] = [false; true; false] ∧
  make_const_iterator (reading (Class 7)) = Some (reading (Class 7)).
Proof. done. Qed.

(** Everything from forward iterators on stays what it is: a const iterator models the same
    concepts. *)
Lemma forward_parts o : is_forward o = true →
  is_input o = true ∧ at_least Forward (o_concept o) = true ∧ o_default o = true ∧ o_copy o = true ∧ o_equal o = true.
Proof. unfold is_forward. rewrite !andb_true_iff. tauto. Qed.
Lemma stronger o : (is_bidirectional o = true → is_forward o = true) ∧ (is_random o = true → is_bidirectional o = true) ∧
  (is_contiguous o = true → is_random o = true).
Proof. unfold is_contiguous, is_random, is_bidirectional. rewrite !andb_true_iff. tauto. Qed.
Lemma models_forward l o : rank Forward ≤ rank l → models l o = true → is_forward o = true.
Proof. destruct (stronger o) as (H1 & H2 & H3). destruct l; cbn; [lia|auto..]. Qed.
Lemma concept_at_least l o : rank Forward ≤ rank l → models l o = true → at_least l (get_iterator_concept o) = true.
Proof.
  destruct (stronger o) as (H1 & H2 & H3). intros Hl Hm. unfold get_iterator_concept.
  destruct (is_contiguous o) eqn:E4; [by destruct l|].
  destruct (is_random o) eqn:E3; [destruct l; cbn in *; congruence || done|].
  destruct (is_bidirectional o) eqn:E2; [destruct l; cbn in *; congruence || done|].
  destruct (is_forward o) eqn:E1; destruct l; cbn in *; congruence || done || lia.
Qed.
Theorem const_iterator_keeps_level l o o' :
  rank Forward ≤ rank l → plain o → models l o = true → make_const_iterator o = Some o' → models l o' = true.
Proof.
  intros Hl [Hc Hv] Hm. pose proof (models_forward l o Hl Hm) as Hf. pose proof (concept_at_least l o Hl Hm) as Hca.
  pose proof (concept_at_least Forward o (le_n _) Hf) as Hcf.
  destruct (forward_parts o Hf) as (Hi & _ & Hd & Hcp & He).
  unfold make_const_iterator. rewrite Hi, Hcp. cbn [andb]. destruct (is_constant_iterator o); [by intros [= <-]|].
  unfold const_iterator. rewrite Hi. cbn [andb]. destruct (o_category o); [|done].
  destruct (iter_const_reference o) as [r|] eqn:Er; [|done].
  destruct (stronger o) as (H1 & H2 & H3).
  set (o1 := Ops _ _ _ _ _ _ _ _ _ _ _ _). intros [= <-].
  assert (G1 : is_forward o1 = true).
  { unfold is_forward, is_input, o1. cbn [o_inc o_post_inc o_concept o_default o_copy o_equal]. by rewrite Hf, Hcf, Hd, Hcp, He. }
  assert (G2 : models Bidirectional o = true → is_bidirectional o1 = true).
  { intros H. unfold is_bidirectional. rewrite G1. unfold o1. cbn [o_concept o_dec]. cbn in H. rewrite H.
    rewrite (concept_at_least Bidirectional o) by (cbn; auto; lia). done. }
  assert (G3 : models RandomAccess o = true → is_random o1 = true).
  { intros H. unfold is_random. rewrite G2 by (cbn in *; auto). unfold o1. cbn [o_concept o_random]. cbn in H. rewrite H.
    rewrite (concept_at_least RandomAccess o) by (cbn; auto; lia). done. }
  destruct l; [cbn in Hl; lia|done|by apply G2|by apply G3|].
  cbn in Hm |- *. pose proof Hm as Hm'. unfold is_contiguous. rewrite G3 by (cbn; auto). unfold o1. cbn [o_concept o_deref o_address].
  rewrite (concept_at_least Contiguous o) by (cbn; auto; lia). cbn [andb].
  unfold is_contiguous in Hm'. apply andb_true_iff in Hm' as [_ Hm']. unfold iter_const_reference in Er.
  destruct (o_deref o) as [q|[c v k]|q]; [done| |done]. destruct (o_address o) as [t|]; [|done]. cbn in Hc, Hv. subst.
  cbn in Er. injection Er as <-. destruct t as [[c' v' k']|q|q]; try done. revert Hm'. unfold ty_eqb, with_const, common_qual. cbn.
  rewrite !andb_true_iff. intros [[_ Hv'] Hk]. done.
Qed.
Example const_iterator_keeps_level_case :
  option_map (λ o, map (λ l, models l o) [Forward; Bidirectional; RandomAccess; Contiguous]) (make_const_iterator (pointer_to (Class 7)))
    = Some [true; true; true; true] ∧
  option_map (λ o, map (λ l, models l o) [Forward; Bidirectional; RandomAccess; Contiguous]) (make_const_iterator (node_of (Class 7)))
    = Some [true; true; false; false].
Proof. done. Qed.

(** For forward iterators with a category there is one, and making it const again changes nothing. *)
Theorem const_iterator_idempotent o :
  plain o → is_forward o = true → o_category o = true →
  (∀ q, o_deref o = Obj q → ∃ k, o_value o = TypesModel.Scalar k) →
  ∃ o', make_const_iterator o = Some o' ∧ make_const_iterator o' = Some o'.
Proof.
  intros Hp Hf Hcat Hobj. destruct (forward_parts o Hf) as (Hi & _ & Hd & Hcp & He). destruct Hp as [Hc Hv].
  destruct (is_constant_iterator o) eqn:Ec.
  - exists o. unfold make_const_iterator. by rewrite Hi, Hcp, Ec.
  - assert (∃ r, iter_const_reference o = Some r ∧
        (∃ q, (r = LRef q ∨ r = RRef q) ∧ q_const q = true ∧ q_volatile q = false ∧ q_core q = o_value o ∨
              r = Obj (Q false false (o_value o)) ∧ ∃ k, o_value o = TypesModel.Scalar k)) as (r & Hr & Hro).
    { unfold iter_const_reference, common_reference. destruct (o_deref o) as [q|[c v k]|[c v k]] eqn:E; cbn in Hc, Hv |- *; subst.
      - destruct (Hobj q eq_refl) as (k & Ek). rewrite Ek. cbn. eexists. split; [done|]. exists q. right. eauto.
      - eexists. split; [done|]. eexists. left. cbn. split; [by left|done].
      - eexists. split; [done|]. eexists. left. cbn. split; [by right|done]. }
    unfold make_const_iterator at 1. rewrite Hi, Hcp, Ec. cbn [andb]. unfold const_iterator. rewrite Hi, Hcat, Hr. cbn [andb].
    eexists. split; [done|]. unfold make_const_iterator. set (o1 := Ops _ _ _ _ _ _ _ _ _ _ _ _).
    assert (I1 : is_input o1 = true) by (unfold is_input, o1; cbn [o_inc o_post_inc]; by rewrite Hf).
    assert (C1 : o_copy o1 = true) by done. rewrite I1, C1. cbn [andb].
    assert (is_constant_iterator o1 = true) as ->; [|done].
    unfold is_constant_iterator. rewrite I1. unfold iter_const_reference, o1. cbn [o_value o_deref andb].
    destruct Hro as (q & [([-> | ->] & H1 & H2 & H3)|(-> & k & Ek)]).
    + cbn. unfold ty_eqb, common_qual. cbn. rewrite H1, H2, H3. by rewrite core_eqb_refl.
    + cbn. unfold ty_eqb, common_qual. cbn. rewrite H1, H2, H3. by rewrite core_eqb_refl.
    + unfold common_reference, remove_cvref. cbn [remove_reference q_core]. rewrite Ek. apply ty_eqb_refl.
Qed.
Example const_iterator_idempotent_case :
  ∃ o', make_const_iterator (pointer_to int_core) = Some o' ∧ make_const_iterator o' = Some o' ∧ is_contiguous o' = true.
Proof. eexists. done. Qed.

(** What fails: the const iterator of an iterator for one pass is no iterator (i++ is missing),
    so it cannot be made const again; iterators without an iterator_category have none; and
    the conversion from ConstIterator<T*> to ConstIterator<const T*> is offered and does not
    compile. *)
Theorem const_iterator_total_refuted :
  (∃ o o', plain o ∧ models Input o = true ∧ make_const_iterator o = Some o' ∧ models Input o' = false ∧ make_const_iterator o' = None) ∧
  (∃ o, plain o ∧ models Input o = true ∧ o_copy o = true ∧ make_const_iterator o = None) ∧
  (∀ converts, convert_const_iterator RawPointer converts ≠ Compiles) ∧ convert_const_iterator RawPointer true = Error.
Proof.
  split_and!.
  - exists (filling (Class 7)). eexists. split_and!; done.
  - exists (Ops (Class 7) true true (LRef (Q false false (Class 7))) true true false true false None Input false). split_and!; done.
  - by intros [].
  - done.
Qed.

Definition req_theorems := (functions_compile_exact, list_functions_compile, list_range_functions_total, array_functions_compile_partial, array_ctor_range_exact,
  heap_functions_compile, algorithms_compile_partial, accepted_ranges_compile_refuted, const_iterator_read_only, constant_iterator_exact,
  const_iterator_keeps_level, const_iterator_idempotent, const_iterator_total_refuted).
Print Assumptions req_theorems.
