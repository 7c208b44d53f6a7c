(** Theorems about constant evaluation (property C162). *)
From stdpp Require Import list.
From Verif Require Import Base Client SimdModel EvalModel.
From Verif Require ArrayModel ArraySpec ArrayRun ArrayHistory ArrayTheory2 ArrayExact.
From Verif Require ListModel ListSpec ListRun ListSim ListHistory ListObs.

(** ** find *)

(** [k] is the position of the first element of [i, s) equal to [x], or [s]. *)
Definition first_of {A} (eqb : A → A → bool) (arr : list A) (x : A) (i s k : nat) : Prop :=
  i ≤ k ≤ s ∧ (∀ j v, i ≤ j < k → arr !! j = Some v → eqb v x = false) ∧
  (k < s → ∃ v, arr !! k = Some v ∧ eqb v x = true).

Lemma scan_spec {A} (eqb : A → A → bool) arr x s : ∀ fuel i, s ≤ length arr → i ≤ s → s - i ≤ fuel →
  ∃ k, scan eqb fuel arr x i s = Const k ∧ first_of eqb arr x i s k.
Proof.
  unfold first_of. induction fuel as [|fuel IH]; intros i Hs Hi Hf; simpl.
  - assert (i = s) as -> by lia. rewrite Nat.eqb_refl. exists s. split; [done|].
    split; [lia|]. split; [intros j v Hj; lia|lia].
  - destruct (Nat.eqb_spec i s) as [-> |Hne].
    { exists s. split; [done|]. split; [lia|]. split; [intros j v Hj; lia|lia]. }
    destruct (lookup_lt_is_Some_2 arr i) as [v Hv]; [lia|]. rewrite Hv.
    destruct (eqb v x) eqn:Ev.
    + exists i. split; [done|]. split; [lia|]. split; [intros j w Hj; lia|]. intros _. eauto.
    + destruct (IH (S i)) as (k & E & Hk & Hb & Hm); [lia..|]. exists k. split; [done|].
      split; [lia|]. split; [|done].
      intros j w Hj Hw. destruct (decide (j = i)) as [-> |]; [congruence|]. apply (Hb j w); [lia|done].
Qed.

(** Exactly when find can be evaluated: without SIMD blocks, or if the range is
    shorter than a block although the array goes on for a block. *)
Theorem find_constant_exact {A} (eqb : A → A → bool) b arr x i s : i ≤ s → s ≤ length arr →
  match find eqb b arr x i s with
  | Const k => first_of eqb arr x i s k ∧ ∀ n, b = Some n → s < i + n ∧ i + n ≤ length arr
  | NotConst w => ∃ n, b = Some n ∧
      ((w = OutsideArray ∧ length arr < i + n) ∨ (w = NotConstexpr ∧ i + n ≤ s))
  end.
Proof.
  intros Hi Hs. destruct (scan_spec eqb arr x s (s - i) i Hs Hi ltac:(lia)) as (k & E & Hk).
  unfold find. destruct b as [n|].
  - destruct (Nat.ltb_spec (length arr) (i + n)); [exists n; split; [done|]; left; split; [done|lia]|].
    destruct (Nat.leb_spec (i + n) s); [exists n; split; [done|]; by right|].
    rewrite E. split; [done|]. intros n' [= <-]. lia.
  - rewrite E. split; [done|]. by intros n.
Qed.
Example find_constant_exact_ex :
  find Nat.eqb (block SSE 8 true) [5;6;7] 6 0 1 = Const 1 ∧
  find Nat.eqb (block AVX2 4 false) [5;6;7] 7 0 3 = Const 2 ∧
  find Nat.eqb (block SSE 8 true) [5;6;7] 6 1 3 = NotConst NotConstexpr ∧
  find Nat.eqb (block SSE 8 true) [5;6;7] 6 2 3 = NotConst OutsideArray.
Proof. by vm_compute. Qed.

(** With SIMD a search through a whole array, the empty one included, is never
    a constant. *)
Theorem find_simd_never_constant {A} (eqb : A → A → bool) c w : c ≠ NoSimd →
  ∀ arr x, ∃ y, find eqb (block c w true) arr x 0 (length arr) = NotConst y.
Proof.
  intros Hc arr x. assert (∃ n, block c w true = Some n) as [n ->].
  { destruct c; simpl; [eauto..|done]. }
  unfold find. rewrite Nat.add_0_l. destruct (Nat.ltb_spec (length arr) n); [eauto|].
  destruct (Nat.leb_spec n (length arr)); [eauto|lia].
Qed.
Example find_simd_never_constant_ex : AVX2 ≠ NoSimd ∧
  find Nat.eqb (block AVX2 4 true) [5;6] 6 0 2 = NotConst OutsideArray.
Proof. split; [done|]. vm_compute. reflexivity. Qed.

(** Without SIMD, or for iterators that do not allow it, every search is one. *)
Theorem find_plain_constant {A} (eqb : A → A → bool) c w simd arr x i s : c = NoSimd ∨ simd = false →
  i ≤ s → s ≤ length arr → ∃ k, find eqb (block c w simd) arr x i s = Const k ∧ first_of eqb arr x i s k.
Proof.
  intros Hc Hi Hs. assert (block c w simd = None) as -> by (unfold block; destruct Hc as [->| ->]; [by destruct simd|done]).
  pose proof (find_constant_exact eqb None arr x i s Hi Hs) as H. destruct (find eqb None arr x i s) as [k|y].
  - exists k. by destruct H.
  - by destruct H as (n & [=] & _).
Qed.
Example find_plain_constant_ex : find Nat.eqb (block NoSimd 4 true) [5;6;7] 7 1 3 = Const 2 ∧
  find Nat.eqb (block AVX2 4 false) [5;6;7] 5 1 3 = Const 3.
Proof. by vm_compute. Qed.

(** ** reverse *)

Lemma swaps_spec {A} : ∀ n (l pre post : list A) fuel, length l ≤ n → length l ≤ fuel →
  swaps fuel (pre ++ l ++ post) (length pre) (length pre + length l) = Const (pre ++ rev l ++ post).
Proof.
  induction n as [|n IH]; intros l pre post fuel Hn Hf.
  { destruct l; [|simpl in Hn; lia]. simpl. rewrite Nat.add_0_r. destruct fuel; simpl; by rewrite Nat.ltb_irrefl. }
  destruct l as [|a l].
  { simpl. rewrite Nat.add_0_r. destruct fuel; simpl; by rewrite Nat.ltb_irrefl. }
  destruct fuel as [|fuel]; [simpl in Hf; lia|].
  destruct l as [|b l _] using rev_ind.
  - simpl. replace (length pre <? length pre + 1) with true by (symmetry; apply Nat.ltb_lt; lia).
    replace (length pre + 1 - 1) with (length pre) by lia.
    rewrite lookup_app_r by lia. rewrite Nat.sub_diag. simpl.
    rewrite list_insert_insert. rewrite list_insert_id.
    2:{ rewrite lookup_app_r by lia. by rewrite Nat.sub_diag. }
    destruct fuel; simpl; replace (length pre + 1 <? length pre) with false by (symmetry; apply Nat.ltb_ge; lia); done.
  - rewrite app_comm_cons, app_length in Hn, Hf. simpl in Hn, Hf.
    replace (length (a :: l ++ [b])) with (S (length l + 1)) by (simpl; rewrite app_length; simpl; lia).
    set (s := length pre + S (length l + 1)).
    simpl. replace (length pre <? s) with true by (symmetry; apply Nat.ltb_lt; unfold s; lia).
    rewrite (lookup_app_r pre) by lia. rewrite Nat.sub_diag. simpl.
    assert (Es : s - 1 = length (pre ++ a :: l)) by (rewrite app_length; unfold s; simpl; lia).
    assert (Earr : pre ++ a :: (l ++ [b]) ++ post = (pre ++ a :: l) ++ b :: post) by (by rewrite <-!app_assoc).
    rewrite Earr. rewrite Es at 1. rewrite lookup_app_r by lia. rewrite Nat.sub_diag. simpl.
    rewrite Es at 1. rewrite insert_app_r_alt by lia. rewrite Nat.sub_diag. simpl.
    rewrite <-app_assoc. simpl. rewrite insert_app_r_alt by lia. rewrite Nat.sub_diag. simpl.
    replace (length pre + 1) with (length (pre ++ [b])) by (rewrite app_length; simpl; lia).
    replace (s - 1) with (length (pre ++ [b]) + length l) by (rewrite app_length; unfold s; simpl; lia).
    replace (pre ++ b :: l ++ a :: post) with ((pre ++ [b]) ++ l ++ (a :: post)) by (by rewrite <-app_assoc).
    rewrite IH by lia. rewrite rev_app_distr. simpl. by rewrite <-!app_assoc.
Qed.

(** Exactly when reverse can be evaluated: without SIMD, or if the range is
    shorter than two blocks. *)
Theorem reverse_constant_exact {A} b (arr : list A) i s : i ≤ s → s ≤ length arr → (∀ n, b = Some n → 0 < n) →
  match reverse b arr i s with
  | Const arr' => arr' = take i arr ++ rev (take (s - i) (drop i arr)) ++ drop s arr ∧
      ∀ n, b = Some n → s - i < 2 * n
  | NotConst w => w = NotConstexpr ∧ ∃ n, b = Some n ∧ 2 * n ≤ s - i
  end.
Proof.
  intros Hi Hs Hb.
  assert (E : swaps (s - i) arr i s = Const (take i arr ++ rev (take (s - i) (drop i arr)) ++ drop s arr)).
  { assert (Hl1 : length (take i arr) = i) by (rewrite take_length; lia).
    assert (Hl2 : length (take (s - i) (drop i arr)) = s - i) by (rewrite take_length, drop_length; lia).
    assert (Ha : take i arr ++ take (s - i) (drop i arr) ++ drop s arr = arr).
    { rewrite <-(take_drop i arr) at 4. f_equal. rewrite <-(take_drop (s - i) (drop i arr)) at 2. f_equal.
      rewrite drop_drop. f_equal. lia. }
    assert (H := swaps_spec (s - i) (take (s - i) (drop i arr)) (take i arr) (drop s arr) (s - i)).
    rewrite Hl1, Hl2, Ha in H. replace (i + (s - i)) with s in H by lia. apply H; lia. }
  unfold reverse. destruct b as [n|].
  - assert (0 < n) by (by apply Hb). rewrite Nat.div_div by lia.
    destruct (Nat.eqb_spec ((s - i) / (2 * n)) 0) as [E0|E0].
    + rewrite E. split; [done|]. intros n' [= <-]. apply Nat.div_small_iff in E0; lia.
    + split; [done|]. exists n. split; [done|].
      destruct (decide (s - i < 2 * n)); [|lia]. rewrite Nat.div_small in E0 by lia. done.
  - rewrite E. split; [done|]. by intros n.
Qed.
Example reverse_constant_exact_ex :
  reverse (block SSE 8 true) [1;2;3] 0 3 = Const [3;2;1] ∧
  reverse (block SSE 8 true) [1;2;3;4;5] 1 5 = NotConst NotConstexpr ∧
  reverse (block NoSimd 8 true) [1;2;3;4;5] 1 5 = Const [1;5;4;3;2].
Proof. by vm_compute. Qed.

(** Defined calls that are not constants. *)
Theorem find_reverse_constant_refuted :
  (∃ arr x, find Nat.eqb (block AVX2 8 true) arr x 0 (length arr) = NotConst OutsideArray) ∧
  (∃ arr, reverse (A := nat) (block AVX2 8 true) arr 0 (length arr) = NotConst NotConstexpr).
Proof. split; [by exists [1;2], 2|by exists [1;2;3;4;5;6;7;8]]. Qed.

(** ** Array *)

(** A program that destroys its arrays is a constant exactly if it never moves
    elements to other memory or onto destroyed ones ([ArraySpec.gentle]). *)
Theorem array_constant_exact {V} (os : list (ArraySpec.op V)) rs σ :
  ArraySpec.spec_exec os [] = Some (rs, σ) → (∀ i x, σ !! i ≠ Some (Some x)) →
  (ArraySpec.all_gentle os [] → array_eval os = Const rs) ∧
  (¬ ArraySpec.all_gentle os [] → array_eval os = NotConst Lifetime).
Proof.
  intros Hsp Hd. unfold array_eval. split; intros Hg.
  - destruct (ArrayTheory2.gentle_history false os rs σ Hg Hsp) as (s & E & _ & _ & Hh). rewrite E.
    replace (forallb _ _) with true; [done|]. symmetry. apply forallb_forall. intros [cs|] Hin; [|done].
    exfalso. apply elem_of_list_In, elem_of_list_lookup in Hin as [b Hb]. by eapply (Hh Hd).
  - by rewrite (ArrayExact.harsh_history os rs σ Hsp Hg).
Qed.
Example array_constant_exact_ex :
  (let os := [ArraySpec.OCap 2; ArraySpec.OPush 0 1; ArraySpec.OPush 0 2; ArraySpec.OToList 0; ArraySpec.ODestroy 0] in
   ArraySpec.spec_exec os [] = Some ([ArraySpec.RNew 0; ArraySpec.RUnit; ArraySpec.RUnit; ArraySpec.RList [1;2]; ArraySpec.RUnit], [None]) ∧
   array_eval os = Const [ArraySpec.RNew 0; ArraySpec.RUnit; ArraySpec.RUnit; ArraySpec.RList [1;2]; ArraySpec.RUnit]) ∧
  array_eval [ArraySpec.ODefault; ArraySpec.OPush 0 1; ArraySpec.OPush 0 2; ArraySpec.ODestroy 0] = NotConst Lifetime.
Proof. by vm_compute. Qed.
(** An array with elements cannot outlive the evaluation. *)
Theorem array_constant_kept {V} (os : list (ArraySpec.op V)) rs σ i l c :
  ArraySpec.spec_exec os [] = Some (rs, σ) → σ !! i = Some (Some (ArraySpec.Good l c)) → l ≠ [] →
  ∃ w, array_eval os = NotConst w.
Proof.
  intros Hsp Hi Hl. unfold array_eval.
  destruct (ArrayExact.all_gentle_dec os [] rs σ Hsp) as [Hg|Hg].
  - destruct (ArrayHistory.ops_sim false os (ArrayRun.init []) [] rs σ) as (s & E & [ow H] & _);
      [apply ArrayHistory.srs_init|done|by right|done|].
    rewrite E. destruct (ArrayHistory.sr_obj _ _ _ _ _ H i _ Hi) as (a & _ & HR). simpl in HR.
    destruct (ArrayExact.rep_cons _ _ _ _ _ HR Hl) as (b & tl & _ & _ & Hh & _).
    destruct (forallb _ _) eqn:Ef; [|eauto]. exfalso.
    rewrite forallb_forall in Ef. by specialize (Ef _ (proj1 (elem_of_list_In _ _) (elem_of_list_lookup_2 _ _ _ Hh))).
  - rewrite (ArrayExact.harsh_history os rs σ Hsp Hg). eauto.
Qed.
Example array_constant_kept_ex :
  ArraySpec.spec_exec [ArraySpec.ORange [1;2]] [] = Some ([ArraySpec.RNew 0], [Some (ArraySpec.Good [1;2] 2)]) ∧
  array_eval [ArraySpec.ORange [1;2]] = NotConst KeptMemory.
Proof. by vm_compute. Qed.
(** Two push_backs into a new array of numbers. *)
Theorem array_constant_refuted : ∃ os rs σ,
  ArraySpec.spec_exec (V := nat) os [] = Some (rs, σ) ∧ (∀ i x, σ !! i ≠ Some (Some x)) ∧
  (∃ s, ArrayRun.run_ops true os (ArrayRun.init []) = Ok rs s) ∧ array_eval os = NotConst Lifetime.
Proof.
  exists [ArraySpec.ODefault; ArraySpec.OPush 0 1; ArraySpec.OPush 0 2; ArraySpec.ODestroy 0].
  eexists _, _. split_and!; [vm_compute; reflexivity| |eexists; vm_compute; reflexivity|vm_compute; reflexivity].
  intros [|i] x; simpl; [done|]. by destruct i.
Qed.

(** ** LinkedList *)

(** No list of the program ever has an element. *)
Definition all_empty {V} (σ : ListSpec.ast V) : Prop :=
  ∀ i xs, ListSpec.ls σ !! i = Some (Some xs) → xs = [].
Fixpoint stays_empty {V} (os : list (ListSpec.op V)) (σ : ListSpec.ast V) : Prop :=
  match os with
  | [] => True
  | o :: os' => ∀ σ1 r, ListSpec.spec_step o σ = Some (σ1, r) → all_empty σ1 ∧ stays_empty os' σ1
  end.

Lemma fresh_mono {V} o (σ σ1 : ListSpec.ast V) r : ListSpec.spec_step o σ = Some (σ1, r) →
  ListSpec.fresh_id σ ≤ ListSpec.fresh_id σ1.
Proof.
  destruct o; simpl; intros H; repeat (case_match || simplify_option_eq); simpl; try lia.
Qed.
Lemma all_empty_add {V} (σ : ListSpec.ast V) n xs : all_empty σ →
  (all_empty (ListSpec.bump n (ListSpec.add σ xs)) ↔ xs = []).
Proof.
  intros He. split.
  - intros H. apply (H (length (ListSpec.ls σ))). simpl. rewrite lookup_app_r by lia. by rewrite Nat.sub_diag.
  - intros -> i ys. simpl. intros [H|[H1 H2]]%lookup_app_Some; [by eapply He|].
    apply list_lookup_singleton_Some in H2. naive_solver.
Qed.
Lemma all_empty_put {V} (σ : ListSpec.ast V) n i ys xs : all_empty σ → ListSpec.get σ i = Some ys →
  (all_empty (ListSpec.bump n (ListSpec.put σ i xs)) ↔ xs = []).
Proof.
  intros He Hg%ListSim.get_Some. split.
  - intros H. apply (H i). simpl. apply list_lookup_insert. by eapply lookup_lt_Some.
  - intros -> j zs. simpl. intros [(_&[= <-]&_)|[_ H]]%list_lookup_insert_Some; [done|by eapply He].
Qed.
Lemma get_empty {V} (σ : ListSpec.ast V) i xs : all_empty σ → ListSpec.get σ i = Some xs → xs = [].
Proof. intros He Hg%ListSim.get_Some. by eapply He. Qed.
Lemma at_pos_empty {V} i p (a b : list (nat * V)) : ListSpec.at_pos i p [] = Some (a, b) → a = [] ∧ b = [].
Proof. destruct p; simpl; [done| |done]. case_match; naive_solver. Qed.
Lemma rng_empty {V} f l (r : list (nat * V)) : ListSpec.rng f l [] = Some r → r = [].
Proof. unfold ListSpec.rng. destruct f; simpl; try done. destruct l; simpl; naive_solver. Qed.
Lemma new_nodes_nil {V} k (vs : list V) : ListSpec.new_nodes k vs = [] ↔ length vs = 0.
Proof. unfold ListSpec.new_nodes. destruct vs; simpl; split; done || lia. Qed.

Lemma step_empty {V} o (σ σ1 : ListSpec.ast V) r : all_empty σ → ListSpec.spec_step o σ = Some (σ1, r) →
  (all_empty σ1 ↔ ListSpec.fresh_id σ1 = ListSpec.fresh_id σ).
Proof.
  intros He Hst.
  assert (Hadd : ∀ n xs, (xs = [] ↔ n = 0) →
    (all_empty (ListSpec.bump n (ListSpec.add σ xs)) ↔ n + ListSpec.fresh_id σ = ListSpec.fresh_id σ)).
  { intros n xs Hn. rewrite all_empty_add by done. rewrite Hn. lia. }
  assert (Hput : ∀ n i ys xs, ListSpec.get σ i = Some ys → (xs = [] ↔ n = 0) →
    (all_empty (ListSpec.bump n (ListSpec.put σ i xs)) ↔ n + ListSpec.fresh_id σ = ListSpec.fresh_id σ)).
  { intros n i ys xs Hg Hn. rewrite all_empty_put by done. rewrite Hn. lia. }
  destruct o; simpl in Hst;
    repeat match goal with
    | H : mbind _ ?x = Some _ |- _ => let E := fresh "E" in destruct x as [?|] eqn:E; [|done]; simpl in H
    | H : ListSpec.get _ _ = Some ?xs |- _ => is_var xs; assert (xs = []) as -> by (by eapply get_empty)
    | H : context [let '(_, _) := ?x in _] |- _ => destruct x as [? ?]
    | H : ListSpec.at_pos _ _ [] = Some _ |- _ => apply at_pos_empty in H as [-> ->]
    | H : ListSpec.rng _ _ [] = Some ?r |- _ => is_var r; apply rng_empty in H as ->
    end; simpl in *; try discriminate.
  all: try (injection Hst as <- <-).
  all: try (match goal with H : (if ListSpec.pos_in ?p ?r then _ else _) = _ |- _ => destruct (ListSpec.pos_in p r); [done|]; injection H as <- <- end).
  all: try (match goal with H : ListSpec.until ?q [] = Some (_, _) |- _ => destruct q; simpl in H; try discriminate H; injection H as <- <- end).
  all: assert (Hput' : ∀ i0 ys, ListSpec.get σ i0 = Some ys → all_empty (ListSpec.put σ i0 []))
    by (intros i0 ys Hg; apply (Hput 0 i0 ys []); done).
  all: try (split; [done|intros _]; first [exact He | by eapply Hput' | apply (Hadd 0 []); done]; fail).
  all: try (apply (Hadd _ _); rewrite ?new_nodes_nil, ?replicate_length; done).
  all: try (eapply Hput; [eassumption|]; unfold ListSpec.assigned, ListSpec.overwrite; simpl;
            rewrite ?app_nil_r, ?new_nodes_nil, ?Nat.sub_0_r, ?drop_0; done).
  - split; [done|intros _]. intros i ys. simpl. intros [H|[_ H]]%lookup_app_Some.
    + by eapply (Hput' j).
    + apply list_lookup_singleton_Some in H. naive_solver.
  - split; [done|intros _]. intros j ys. simpl. intros [(_&[=]&_)|[_ H]]%list_lookup_insert_Some. by eapply He.
  - split; [by case_match|intros _]. case_match; [by eapply Hput'|].
    intros k ys. simpl. intros [(_&[= <-]&_)|[_ H']]%list_lookup_insert_Some; [done|].
    by eapply (Hput' i).
Qed.

Lemma exec_empty {V} (os : list (ListSpec.op V)) : ∀ σ rs σ', all_empty σ →
  spec_exec ListSpec.spec_step os σ = Some (rs, σ') →
  (stays_empty os σ ↔ ListSpec.fresh_id σ' = ListSpec.fresh_id σ) ∧
  ListSpec.fresh_id σ ≤ ListSpec.fresh_id σ'.
Proof.
  assert (Hm : ∀ os' (σ : ListSpec.ast V) rs σ', spec_exec ListSpec.spec_step os' σ = Some (rs, σ') →
    ListSpec.fresh_id σ ≤ ListSpec.fresh_id σ').
  { intros os'. induction os' as [|o os' IH]; intros σ rs σ' Hsp; simpl in Hsp; [by injection Hsp as _ <-|].
    destruct (ListSpec.spec_step o σ) as [[σ1 r]|] eqn:E1; [|done]. simpl in Hsp.
    destruct (spec_exec _ os' σ1) as [[rs' σ2]|] eqn:E2; [|done]. simpl in Hsp. injection Hsp as <- <-.
    apply fresh_mono in E1. apply IH in E2. lia. }
  induction os as [|o os IH]; intros σ rs σ' He Hsp; (split; [|by eapply Hm]); simpl in Hsp |- *.
  - by injection Hsp as _ <-.
  - destruct (ListSpec.spec_step o σ) as [[σ1 r]|] eqn:E1; [|done]. simpl in Hsp.
    destruct (spec_exec _ os σ1) as [[rs' σ2]|] eqn:E2; [|done]. simpl in Hsp. injection Hsp as <- <-.
    assert (Hs := step_empty _ _ _ _ He E1). assert (H1 := fresh_mono _ _ _ _ E1). assert (H2 := Hm _ _ _ _ E2).
    split.
    + intros H. destruct (H σ1 r eq_refl) as [Ha Hb]. destruct (IH _ _ _ Ha E2) as [[I1 _] _].
      rewrite (I1 Hb). by apply Hs.
    + intros H σ1' r' [= <- <-]. assert (Ha : all_empty σ1) by (apply Hs; lia).
      split; [done|]. destruct (IH _ _ _ Ha E2) as [[_ I2] _]. apply I2. lia.
Qed.

(** A program with lists is a constant exactly if no list ever has an element. *)
Theorem list_constant_exact {V} (os : list (ListSpec.op V)) rs σ :
  spec_exec ListSpec.spec_step os ListRun.ainit = Some (rs, σ) →
  (stays_empty os ListRun.ainit → list_eval os = Const rs) ∧
  (¬ stays_empty os ListRun.ainit → list_eval os = NotConst ByteStorage).
Proof.
  intros Hsp.
  assert (He : all_empty (V := V) ListRun.ainit) by (intros i xs; done).
  destruct (exec_empty os _ rs σ He Hsp) as [Hx _].
  destruct (Client.ops_sim _ _ _ _ _ ListHistory.list_simulates os (ListRun.init []) ListRun.ainit rs σ) as (s & E & HR & _);
    [apply ListHistory.R_init|done|done|].
  unfold list_eval. rewrite E. apply ListSim.R_fresh in HR. simpl in Hx. rewrite Hx. rewrite HR.
  destruct (ListModel.nodes s); simpl; split; done.
Qed.
Example list_constant_exact_ex :
  let os := [ListSpec.LDefault; ListSpec.LInsertRange 0 (ListModel.Head 0) []; ListSpec.LCopy 0; ListSpec.LToList 1] in
  spec_exec ListSpec.spec_step os (ListRun.ainit (V := nat)) =
    Some ([ListSpec.RNew 0; ListSpec.RIter (ListModel.Head 0); ListSpec.RNew 1; ListSpec.RList []],
          ListSpec.mkA [Some []; Some []] 0 []) ∧
  stays_empty os (ListRun.ainit (V := nat)) ∧
  list_eval (V := nat) os = Const [ListSpec.RNew 0; ListSpec.RIter (ListModel.Head 0); ListSpec.RNew 1; ListSpec.RList []].
Proof.
  intros os. split; [by vm_compute|]. split; [|by vm_compute].
  intros σ0 r0 [= <- <-]. split; [intros [|[|i]] xs; simpl; naive_solver|].
  intros σ1 r1 [= <- <-]. split; [intros [|[|i]] xs; simpl; naive_solver|].
  intros σ2 r2 [= <- <-]. split; [intros [|[|i]] xs; simpl; naive_solver|].
  intros σ3 r3 [= <- <-]. split; [intros [|[|i]] xs; simpl; naive_solver|]. done.
Qed.
(** One element, removed again by the destructor. *)
Theorem list_constant_refuted : ∃ os rs σ,
  spec_exec ListSpec.spec_step os (ListRun.ainit (V := nat)) = Some (rs, σ) ∧ ListSpec.ls σ = [None] ∧
  (∃ s, run_ops ListRun.run_op os (ListRun.init []) = Ok rs s) ∧ list_eval os = NotConst ByteStorage.
Proof.
  exists [ListSpec.LDefault; ListSpec.LPushFront 0 1; ListSpec.LDestroy 0].
  eexists _, _. split; [vm_compute; reflexivity|]. split; [done|].
  split; [eexists; vm_compute; reflexivity|by vm_compute].
Qed.

Definition eval_theorems :=
  (@find_constant_exact, @find_simd_never_constant, @find_plain_constant, find_reverse_constant_refuted, @reverse_constant_exact, @array_constant_exact,
   @array_constant_kept, array_constant_refuted, @list_constant_exact, list_constant_refuted).
Print Assumptions eval_theorems.
