(** Theorems about exception specifications (ExceptModel): which functions let
    an exception of the user's operations through, and which end the program. *)
From stdpp Require Import list.
From Verif Require Base ArrayModel ListModel.
From Verif Require Import ExceptModel.

(** ** Deciding the outcomes *)

Fixpoint may (E : op → bool) (s : stm) (r : outcome) : bool :=
  match s with
  | Skip => match r with Ret => true | _ => false end
  | Do o => match r with Ret => true | Exc => negb (E o) | Term => false end
  | Seq a b => match r with Ret => true | _ => may E a r || may E b r end
  | Or a b => may E a r || may E b r
  | Loop a => match r with Ret => true | _ => may E a r end
  | Fn ne a => match r with
               | Ret => true
               | Exc => negb ne && may E a Exc
               | Term => may E a Term || (ne && may E a Exc)
               end
  end.

Lemma runs_ret E s : runs E s Ret.
Proof. induction s; try (by apply runs_fn); eauto using runs. Qed.

Lemma may_runs E s r : may E s r = true → runs E s r.
Proof.
  revert r. induction s as [|o|a IHa b IHb|a IHa b IHb|a IHa|ne a IHa]; intros r H; simpl in H.
  - destruct r; try done. constructor.
  - destruct r; try done; [constructor|]. apply runs_throw. by destruct (E o).
  - destruct r; [apply runs_ret| |];
      (apply orb_prop in H as [H|H]; [by apply runs_seq_stop; auto|apply runs_seq; auto using runs_ret]).
  - apply orb_prop in H as [H|H]; [apply runs_or_l|apply runs_or_r]; auto.
  - destruct r; [apply runs_ret| |]; by apply runs_loop_stop; auto.
  - destruct r; [apply runs_ret| |].
    + destruct ne; [done|]. apply runs_fn_propagate, IHa, H.
    + apply orb_prop in H as [H|H]; [by apply runs_fn; auto|].
      destruct ne; [|done]. apply runs_fn_terminate, IHa, H.
Qed.

Lemma runs_may E s r : runs E s r → may E s r = true.
Proof.
  induction 1; simpl; try done; try (by rewrite ?IHruns, ?orb_true_r);
    try (destruct r; simpl in *; congruence || (by rewrite ?IHruns, ?IHruns2, ?orb_true_r)).
  by rewrite H.
Qed.

Lemma runs_iff E s r : runs E s r ↔ may E s r = true.
Proof. split; auto using runs_may, may_runs. Qed.

Lemma may_dos_exc {A} E (g : A → op) l :
  may E (seqs (map (λ a, Do (g a)) l)) Exc = negb (forallb (λ a, E (g a)) l).
Proof.
  induction l as [|a l IH]; [done|]. change (seqs _) with (Seq (Do (g a)) (seqs (map (λ a, Do (g a)) l))).
  cbn [may forallb]. rewrite IH. by destruct (E (g a)).
Qed.
Lemma may_dos_term {A} E (g : A → op) l : may E (seqs (map (λ a, Do (g a)) l)) Term = false.
Proof. induction l as [|a l IH]; simpl; [done|]. exact IH. Qed.
Lemma forallb_in {A} (p : A → bool) l : forallb p l = true ↔ (∀ x, x ∈ l → p x = true).
Proof. rewrite forallb_forall. split; intros H x Hx; apply H; by apply elem_of_list_In. Qed.
Lemma negb_forallb_in {A} (p : A → bool) l : negb (forallb p l) = true ↔ ∃ x, x ∈ l ∧ p x = false.
Proof.
  induction l as [|a l IH]; simpl.
  - split; [done|]. intros (x & Hx & _). by apply elem_of_nil in Hx.
  - rewrite negb_andb, orb_true_iff, IH. split.
    + intros [H|(x & Hx & H)]; [exists a|exists x]; (split; [rewrite elem_of_cons; auto|]); [by destruct (p a)|done].
    + intros (x & Hx & H). apply elem_of_cons in Hx as [->|Hx]; [left; by rewrite H|right; eauto].
Qed.
Lemma not_runs E s r : ¬ runs E s r ↔ may E s r = false.
Proof. rewrite runs_iff. by rewrite not_true_iff_false. Qed.

(** An exact exception specification: the function never ends the program,
    exactly the exceptions of [ops] leave it, and noexcept(f(...)) is true exactly
    when none of [ops] can throw. *)
Definition exact (E : op → bool) (s : stm) (ops : list op) : Prop :=
  ¬ runs E s Term ∧
  (runs E s Exc ↔ ∃ o, o ∈ ops ∧ E o = false) ∧
  (is_noexcept s = true ↔ ∀ o, o ∈ ops → E o = true).

Lemma exact_intro E s ops :
  may E s Term = false → may E s Exc = negb (forallb E ops) → is_noexcept s = forallb E ops → exact E s ops.
Proof.
  intros Ht He Hn. split; [by rewrite not_runs|]. split.
  - rewrite runs_iff, He. apply negb_forallb_in.
  - rewrite Hn. apply forallb_in.
Qed.
Lemma forallb_map {A B} (f : A → B) p l : forallb p (map f l) = forallb (λ x, p (f x)) l.
Proof. induction l; simpl; congruence. Qed.

Ltac bools := repeat match goal with
  | |- context[forallb ?f ?l] => destruct (forallb f l); simpl
  | |- context[?E ?o] => match type of E with op → bool => destruct (E o); simpl end
  end; try done.

(** ** C113: specifications computed from the operations *)

(** Tuple::swap, swap(Tuple&, Tuple&) and the index helper swap every element. *)
Theorem tuple_swap_exact E ts :
  exact E (tuple_swap_index E ts) (map Swap ts) ∧ exact E (tuple_swap E ts) (map Swap ts) ∧
  exact E (tuple_swap_free E ts) (map Swap ts).
Proof.
  split; [|split]; apply exact_intro;
    unfold tuple_swap_free, tuple_swap, tuple_swap_index, nothrow_swap, is_noexcept;
    cbn [may]; rewrite ?may_dos_term, ?may_dos_exc, ?forallb_map; bools.
Qed.
Definition ex_E (o : op) : bool :=
  match o with Swap 1 | Copy 1 | Less 2 | Equal 1 | Call 3 _ _ | New | Assign 2 => false | _ => true end.
Example tuple_swap_exact_ex :
  runs ex_E (tuple_swap ex_E [0; 1]) Exc ∧ is_noexcept (tuple_swap ex_E [0; 1]) = false ∧
  ¬ runs ex_E (tuple_swap ex_E [0; 2]) Exc ∧ is_noexcept (tuple_swap ex_E [0; 2]) = true.
Proof. rewrite not_runs, !runs_iff. by vm_compute. Qed.

Theorem pair_swap_exact E t u :
  exact E (pair_swap E t u) [Swap t; Swap u] ∧ exact E (pair_swap_free E t u) [Swap t; Swap u].
Proof. split; apply exact_intro; simpl; bools. Qed.
Example pair_swap_exact_ex :
  runs ex_E (pair_swap_free ex_E 0 1) Exc ∧ is_noexcept (pair_swap_free ex_E 0 1) = false ∧
  is_noexcept (pair_swap_free ex_E 0 2) = true.
Proof. rewrite !runs_iff. by vm_compute. Qed.

(** apply(f, tuple) performs the initialization of the parameters and the call. *)
Theorem apply_exact E f fc acs ps : exact E (apply E f fc acs ps) (ps ++ [Call f fc acs]).
Proof.
  assert (map Do ps = map (λ o, Do (id o)) ps) as Hm by done.
  apply exact_intro; unfold apply, apply_index, call_expr, call_noexcept, is_noexcept; cbn [may];
    rewrite ?Hm, ?may_dos_term, ?may_dos_exc, ?forallb_app; simpl; change (λ a, E (id a)) with E.
  all: try replace (forallb (λ a : op, E (id a)) ps) with (forallb E ps) by done.
  all: bools.
Qed.
Example apply_exact_ex :
  runs ex_E (apply ex_E 4 LV [RV; RV] [Move 0; Copy 1]) Exc ∧
  is_noexcept (apply ex_E 4 LV [RV; RV] [Move 0; Copy 2]) = true ∧
  runs ex_E (apply ex_E 3 LV [RV; RV] [Move 0]) Exc.
Proof. rewrite !runs_iff. by vm_compute. Qed.

(** make_pair constructs first and second: by moving from rvalues, by copying
    from everything else. *)
Definition construction (a : nat * cat) : op := if decide (a.2 = RV) then Move a.1 else Copy a.1.
Lemma from_construction a : from a.1 a.2 = construction a.
Proof. by destruct a as [t []]. Qed.
Theorem make_pair_exact E a b : exact E (make_pair E a b) [construction a; construction b].
Proof.
  rewrite <- !from_construction. apply exact_intro; unfold make_pair, is_noexcept; cbn [may]; simpl; bools.
Qed.
Example make_pair_exact_ex :
  runs ex_E (make_pair ex_E (1, LV) (0, RV)) Exc ∧ is_noexcept (make_pair ex_E (1, RV) (0, CLV)) = true.
Proof. rewrite !runs_iff. by vm_compute. Qed.

(** bind_back stores a copy or a move of the callable and of each argument. *)
Theorem bind_back_ctor_exact E f args :
  exact E (bind_back_ctor E f args) (construction f :: map construction args).
Proof.
  assert (∀ l, forallb E (map construction l) = forallb (λ a, E (from a.1 a.2)) l) as Hm.
  { intros l. rewrite forallb_map. induction l; simpl; [done|]. rewrite IHl. by rewrite from_construction. }
  apply exact_intro; unfold bind_back_ctor, is_noexcept, nothrow_construct; cbn [may];
    rewrite ?may_dos_term, ?may_dos_exc; simpl forallb; rewrite ?Hm, <- ?from_construction; bools.
Qed.
Example bind_back_ctor_exact_ex :
  runs ex_E (bind_back_ctor ex_E (0, RV) [(1, CLV); (2, LV)]) Exc ∧
  is_noexcept (bind_back_ctor ex_E (0, RV) [(1, RV); (2, CLV)]) = true.
Proof. rewrite !runs_iff. by vm_compute. Qed.

(** Calling a bound function through an lvalue, a const lvalue or an rvalue
    performs the call with the callable and the bound arguments in that category. *)
Theorem bind_call_exact E f c n ps :
  c ≠ CRV → exact E (bind_call E f c n ps ps) (ps ++ [Call f c (replicate n c)]).
Proof.
  intros Hc. assert (get_cat c = c) as Hg by (by destruct c).
  assert (map Do ps = map (λ o, Do (id o)) ps) as Hm by done.
  apply exact_intro; unfold bind_call, bind_call_index, call_expr, call_noexcept, is_noexcept; cbn [may];
    rewrite ?Hg, ?Hm, ?may_dos_term, ?may_dos_exc, ?forallb_app; simpl.
  all: try replace (forallb (λ a : op, E (id a)) ps) with (forallb E ps) by done.
  all: bools.
Qed.
Example bind_call_exact_ex :
  CLV ≠ CRV ∧ runs ex_E (bind_call ex_E 3 CLV 2 [] []) Exc ∧
  is_noexcept (bind_call ex_E 4 RV 2 [Move 1] [Move 1]) = true.
Proof. rewrite !runs_iff. by vm_compute. Qed.

(** The call that is made for a const rvalue wrapper: the callable is a const rvalue, the
    bound arguments are const lvalues, and it is noexcept if that call cannot throw. *)
Theorem bind_call_index_exact E f n ps :
  exact E (bind_call_index E f CRV n ps) (ps ++ [Call f CRV (replicate n CLV)]).
Proof.
  assert (map Do ps = map (λ o, Do (id o)) ps) as Hm by done.
  apply exact_intro; unfold bind_call_index, call_expr, call_noexcept, is_noexcept; cbn [may get_cat];
    rewrite ?Hm, ?may_dos_term, ?may_dos_exc, ?forallb_app; simpl.
  all: try replace (forallb (λ a : op, E (id a)) ps) with (forallb E ps) by done.
  all: bools.
Qed.
(** A function that throws only when it is called with a const lvalue *)
Definition crv_E (o : op) : bool := match o with Call _ _ [CLV] => false | _ => true end.
Example bind_call_index_exact_ex : runs crv_E (bind_call_index crv_E 3 CRV 1 []) Exc ∧
  is_noexcept (bind_call_index crv_E 3 CRV 1 []) = false ∧ is_noexcept (bind_call_index crv_E 3 CRV 2 [Move 1]) = true.
Proof. rewrite !runs_iff. by vm_compute. Qed.

(** make_tuple lets every exception of an element's construction through. Its
    specification is noexcept(false) for every non-empty list of arguments, also
    when nothing can throw. *)
Theorem make_tuple_propagates E args :
  ¬ runs E (make_tuple args) Term ∧
  (runs E (make_tuple args) Exc ↔ ∃ a, a ∈ args ∧ E (construction a) = false) ∧
  (is_noexcept (make_tuple args) = true ↔ args = []).
Proof.
  rewrite not_runs, runs_iff. unfold make_tuple, is_noexcept. cbn [may].
  rewrite may_dos_term, may_dos_exc.
  split; [by destruct args|]. split.
  - transitivity (negb (forallb (λ a, E (construction a)) args) = true); [|apply negb_forallb_in].
    assert (forallb (λ a, E (construction a)) args = forallb (λ a, E (from a.1 a.2)) args) as ->.
    { induction args; simpl; [done|]. rewrite IHargs. by rewrite from_construction. }
    destruct args; [by simpl|done].
  - by destruct args.
Qed.
Example make_tuple_propagates_ex :
  runs ex_E (make_tuple [(0, RV); (1, LV)]) Exc ∧ ¬ runs ex_E (make_tuple [(0, RV); (1, RV)]) Exc ∧
  is_noexcept (make_tuple [(0, RV); (1, RV)]) = false.
Proof. rewrite not_runs, !runs_iff. by vm_compute. Qed.

(** ** C114: functions that are noexcept whatever the user's operations do *)

(** A function that is declared noexcept and ends the program exactly when one
    of [ops] throws; no exception ever leaves it. *)
Definition ends (E : op → bool) (s : stm) (ops : list op) : Prop :=
  is_noexcept s = true ∧ ¬ runs E s Exc ∧ (runs E s Term ↔ ∃ o, o ∈ ops ∧ E o = false).
Lemma ends_intro E s ops :
  is_noexcept s = true → may E s Term = negb (forallb E ops) → ends E s ops.
Proof.
  intros Hn Ht. split; [done|]. split.
  - rewrite not_runs. destruct s; simpl in *; try done. by subst.
  - rewrite runs_iff, Ht. apply negb_forallb_in.
Qed.

Lemma all_eq_may E ts :
  may E (all_eq E ts) Term = false ∧ may E (all_eq E ts) Exc = negb (forallb (λ t, E (Equal t)) ts).
Proof.
  induction ts as [|t ts [IH1 IH2]]; simpl; [done|]. unfold all_eq in *. rewrite IH1, IH2. bools.
Qed.
Lemma all_cmp_may E ts :
  may E (all_cmp E ts) Term = false ∧ may E (all_cmp E ts) Exc = negb (forallb (λ t, E (Order t)) ts).
Proof.
  induction ts as [|t ts [IH1 IH2]]; simpl; [done|]. unfold all_cmp in *. rewrite IH1, IH2. bools.
Qed.

(** Comparing tuples and pairs: a comparison of the elements that throws. *)
Theorem compare_ends E ts t u :
  ends E (tuple_eq E ts) (map Equal ts) ∧ ends E (tuple_cmp E ts) (map Order ts) ∧
  ends E (pair_eq t u) [Equal t; Equal u] ∧ ends E (pair_cmp t u) [Order t; Order u].
Proof.
  destruct (all_eq_may E ts) as [H1 H2]. destruct (all_cmp_may E ts) as [H3 H4].
  split; [|split; [|split]]; (apply ends_intro; [done|]);
    unfold tuple_eq, tuple_cmp, pair_eq, pair_cmp; cbn [may]; rewrite ?H1, ?H2, ?H3, ?H4, ?forallb_map;
    simpl; bools.
Qed.
Example compare_ends_ex :
  runs ex_E (tuple_eq ex_E [0; 1]) Term ∧ ¬ runs ex_E (tuple_eq ex_E [0; 2]) Term ∧
  runs ex_E (pair_eq 2 1) Term ∧ ¬ runs ex_E (pair_cmp 2 1) Term.
Proof. rewrite !not_runs, !runs_iff. by vm_compute. Qed.

(** Copying, moving and assigning what bind_front and bind_back return. *)
Theorem bind_special_ends E f ts :
  ends E (bind_copy f ts) (map Copy (f :: ts)) ∧ ends E (bind_move f ts) (map Move (f :: ts)) ∧
  ends E (bind_copy_assign f ts) (map CopyAssign (f :: ts)) ∧
  ends E (bind_move_assign f ts) (map MoveAssign (f :: ts)).
Proof.
  split; [|split; [|split]]; (apply ends_intro; [done|]);
    unfold bind_copy, bind_move, bind_copy_assign, bind_move_assign; cbn [may map forallb];
    rewrite may_dos_term, may_dos_exc, forallb_map; simpl; bools.
Qed.
Example bind_special_ends_ex :
  runs ex_E (bind_copy 0 [2; 1]) Term ∧ ¬ runs ex_E (bind_move 0 [2; 1]) Term.
Proof. rewrite not_runs, !runs_iff. by vm_compute. Qed.

(** ScopedDelegate, AlignedData and the assignment of a functor to a Delegate. *)
Theorem functor_ends E f t :
  ends E (scoped_ctor_copy f) [Copy f] ∧ ends E (scoped_ctor_move f) [Move f] ∧
  ends E (scoped_dtor f) [Call f LV []] ∧ ends E (aligned_ctor t) [Emplace t] ∧
  ends E (delegate_assign true f) [Move f] ∧ ends E (delegate_assign false f) [New; Move f].
Proof.
  do 5 (split; [apply ends_intro; [done|simpl; bools]|]). apply ends_intro; [done|simpl; bools].
Qed.
Example functor_ends_ex :
  runs ex_E (scoped_dtor 3) Term ∧ ¬ runs ex_E (scoped_dtor 4) Term ∧
  runs ex_E (delegate_assign false 4) Term ∧ ¬ runs ex_E (delegate_assign true 4) Term.
Proof. rewrite !not_runs, !runs_iff. by vm_compute. Qed.

(** Constructing a Delegate lets the exceptions through. *)
Theorem delegate_ctor_propagates E f local :
  ¬ runs E (delegate_ctor local f) Term ∧
  (runs E (delegate_ctor local f) Exc ↔ E (Move f) = false ∨ (local = false ∧ E New = false)).
Proof.
  rewrite not_runs, runs_iff. destruct local; simpl; (split; [done|]); split.
  all: destruct (E (Move f)), (E New); simpl; intuition congruence.
Qed.
Example delegate_ctor_propagates_ex :
  runs ex_E (delegate_ctor false 4) Exc ∧ ¬ runs ex_E (delegate_ctor true 4) Exc.
Proof. rewrite !not_runs, !runs_iff. by vm_compute. Qed.

Lemma heapfy_down_may E t c n i k :
  may E (heapfy_down k t c n i) Exc = false ∧
  (may E (heapfy_down k t c n i) Term = true → E (Less c) = false ∧ i * 2 + 1 < n ∨ E (Swap t) = false).
Proof.
  revert i. induction k as [|k IH]; intros i; simpl; [done|]. split; [done|].
  destruct (Nat.ltb_spec (i * 2 + 1) n) as [Hl|Hl], (Nat.ltb_spec (i * 2 + 2) n) as [Hr|Hr]; simpl; try lia.
  - destruct (IH (i * 2 + 1)) as [-> H1]. destruct (IH (i * 2 + 2)) as [-> H2].
    destruct (E (Less c)), (E (Swap t)); simpl; auto.
    intros H. apply orb_prop in H as [H|H]; [|done].
    apply orb_prop in H as [H|H]; [destruct (H1 H) as [[??]|?]|destruct (H2 H) as [[??]|?]]; done.
  - destruct (IH (i * 2 + 1)) as [-> H1].
    destruct (E (Less c)), (E (Swap t)); simpl; auto.
    rewrite !orb_false_r. intros H. destruct (H1 H) as [[??]|?]; done.
Qed.

(** Heap::pop ends the program when the swap of two elements throws, and, as
    soon as two elements remain to be compared, when the comparator throws. *)
Theorem heap_pop_ends E t c n :
  1 ≤ n →
  is_noexcept (heap_pop t c n) = true ∧ ¬ runs E (heap_pop t c n) Exc ∧
  (runs E (heap_pop t c n) Term ↔ E (Swap t) = false ∨ (3 ≤ n ∧ E (Less c) = false)).
Proof.
  intros Hn. split; [done|]. split; [by rewrite not_runs|].
  rewrite runs_iff. unfold heap_pop. cbn [may].
  destruct (heapfy_down_may E t c (n - 1) 0 n) as [-> H].
  destruct (E (Swap t)) eqn:Hs; simpl; [|rewrite ?orb_true_r; split; by auto].
  rewrite orb_false_r. split.
  - intros H'. right. destruct (H H') as [[??]|]; [|done]. split; [lia|done].
  - intros [|[H3 Hc]]; [done|]. destruct n as [|[|[|n]]]; try lia.
    simpl. by rewrite Hc, !orb_true_r.
Qed.
Example heap_pop_ends_ex :
  1 ≤ 3 ∧ runs ex_E (heap_pop 0 2 3) Term ∧ ¬ runs ex_E (heap_pop 0 2 2) Term ∧ runs ex_E (heap_pop 1 0 1) Term.
Proof. rewrite !not_runs, !runs_iff. split; [lia|]. by vm_compute. Qed.

Lemma heapfy_up_may E t c k i :
  may E (heapfy_up_loop k t c i) Term = false ∧
  (may E (heapfy_up_loop k t c i) Exc = true → E (Less c) = false ∨ E (Swap t) = false).
Proof.
  revert i. induction k as [|k IH]; intros i; [done|]. cbn [heapfy_up_loop].
  destruct (Nat.eqb_spec i 0); [done|]. cbn [may].
  destruct (IH ((i - 1) / 2)) as [-> H]. split; [done|].
  destruct (E (Less c)), (E (Swap t)); simpl; auto.
Qed.
Lemma may_replicate E n o :
  may E (seqs (replicate n (Do o))) Term = false ∧
  may E (seqs (replicate n (Do o))) Exc = negb (E o) && negb (Nat.eqb n 0).
Proof.
  induction n as [|n [IH1 IH2]]; [by rewrite andb_false_r|].
  change (seqs (replicate (S n) (Do o))) with (Seq (Do o) (seqs (replicate n (Do o)))).
  cbn [may]. rewrite IH1, IH2. split; [done|]. by destruct (E o).
Qed.

(** Heap::push lets the exceptions of storage and of the new element's
    construction through, but ends the program when, with the element already
    stored, the comparator or a swap throws. *)
Theorem heap_push_ends E t c n grow :
  (runs E (heap_push t c n grow) Exc ↔
     (grow = true ∧ (E New = false ∨ (1 ≤ n ∧ E (MoveAssign t) = false))) ∨ E (Emplace t) = false) ∧
  (runs E (heap_push t c n grow) Term ↔ 1 ≤ n ∧ (E (Less c) = false ∨ E (Swap t) = false)).
Proof.
  rewrite !runs_iff. unfold heap_push, heapfy_up. cbn [may].
  destruct (heapfy_up_may E t c (S n) n) as [Hu Hx]. rewrite Hu.
  destruct (may_replicate E n (MoveAssign t)) as [Hr1 Hr2].
  assert (may E (heapfy_up_loop (S n) t c n) Exc = true ↔
          1 ≤ n ∧ (E (Less c) = false ∨ E (Swap t) = false)) as Hup.
  { split.
    - intros H. split; [|auto]. destruct n; [|lia]. by simpl in H.
    - intros [Hn H]. cbn [heapfy_up_loop]. destruct (Nat.eqb_spec n 0); [lia|]. cbn [may].
      destruct H as [-> | ->]; simpl; by rewrite ?orb_true_r. }
  split.
  - destruct grow; cbn [may]; rewrite ?Hr2; simpl.
    + destruct (Nat.eqb_spec n 0), (E New), (E (MoveAssign t)), (E (Emplace t)); simpl; intuition (done || lia).
    + destruct (E (Emplace t)); simpl; intuition congruence.
  - rewrite <- Hup. destruct grow; cbn [may]; rewrite ?Hr1; simpl; by rewrite ?orb_false_r.
Qed.
Example heap_push_ends_ex :
  runs ex_E (heap_push 0 2 1 false) Term ∧ ¬ runs ex_E (heap_push 0 2 0 false) Term ∧
  runs ex_E (heap_push 0 2 4 true) Exc ∧ ¬ runs ex_E (heap_push 0 2 4 false) Exc.
Proof. rewrite !not_runs, !runs_iff. by vm_compute. Qed.

(** find over iterators lets the exceptions of a comparison through; find over a
    range, and reverse, end the program. *)
Theorem algorithms_end E t r :
  (¬ runs E (find_iter t r) Term ∧
   (runs E (find_iter t r) Exc ↔ E (Iter r) = false ∨ E (Equal t) = false)) ∧
  ends E (find_range t r) [Iter r; Equal t] ∧
  ends E (reverse_iter t r) [Iter r; Swap t] ∧ ends E (reverse_range t r) [Iter r; Swap t].
Proof.
  split.
  { rewrite not_runs, runs_iff. split; [done|]. simpl.
    destruct (E (Iter r)), (E (Equal t)); simpl; intuition congruence. }
  split; [|split]; (apply ends_intro; [done|simpl; bools]).
Qed.
Example algorithms_end_ex :
  runs ex_E (find_iter 1 0) Exc ∧ runs ex_E (find_range 1 0) Term ∧ runs ex_E (reverse_range 1 0) Term.
Proof. rewrite !runs_iff. by vm_compute. Qed.

(** Assigning to a Pair from a pair-like object: the specification looks at
    swapping, the function assigns. Exceptions get through exactly when swapping
    may throw. Missing: types whose swap is noexcept and whose assignment is not,
    see [pair_assign_refuted]. *)
Theorem pair_assign_partial E t u o1 o2 :
  (E (Swap t) = false ∨ E (Swap u) = false →
   ¬ runs E (pair_assign E t u o1 o2) Term ∧
   (runs E (pair_assign E t u o1 o2) Exc ↔ E o1 = false ∨ E o2 = false)) ∧
  (E (Swap t) = true → E (Swap u) = true → ends E (pair_assign E t u o1 o2) [o1; o2]).
Proof.
  split.
  - intros H. assert (E (Swap t) && E (Swap u) = false) as Hs
      by (destruct H as [-> | ->]; by rewrite ?andb_false_r).
    rewrite not_runs, runs_iff. unfold pair_assign. rewrite Hs. simpl. split; [done|].
    destruct (E o1), (E o2); simpl; intuition congruence.
  - intros H1 H2. unfold pair_assign. rewrite H1, H2. apply ends_intro; [done|]. simpl. bools.
Qed.
Example pair_assign_partial_ex :
  ex_E (Swap 1) = false ∧ runs ex_E (pair_assign ex_E 1 0 (Assign 2) (Assign 0)) Exc ∧
  runs ex_E (pair_assign ex_E 2 0 (Assign 2) (Assign 0)) Term.
Proof. rewrite !runs_iff. by vm_compute. Qed.
(** A string: swapping two strings is noexcept, copying one allocates. *)
Theorem pair_assign_refuted :
  ∃ E t u, E (CopyAssign t) = false ∧ runs E (pair_assign E t u (CopyAssign t) (CopyAssign u)) Term.
Proof.
  exists (λ o, negb (bool_decide (o = CopyAssign 0))), 0, 1. rewrite runs_iff. by vm_compute.
Qed.

(** bind_front tests the construction of the wrong type. With rvalue and
    non-const lvalue arguments exceptions get through. Missing: const arguments,
    see [bind_front_ctor_refuted]. *)
Theorem bind_front_ctor_partial E f args :
  (∀ a, a ∈ args → a.2 = LV ∨ a.2 = RV) →
  ¬ runs E (bind_front_ctor E f args) Term ∧
  (runs E (bind_front_ctor E f args) Exc ↔
     ∃ a, a ∈ f :: args ∧ E (construction a) = false).
Proof.
  intros Ha. rewrite not_runs, runs_iff. unfold bind_front_ctor. cbn [may].
  rewrite may_dos_term, may_dos_exc. unfold nothrow_construct. simpl may.
  assert (forallb (λ a, nothrow_construct_swapped E a.1 a.2) args = true →
          forallb (λ a, E (from a.1 a.2)) args = true) as Himp.
  { rewrite !forallb_in. intros H a Hin. specialize (H a Hin). specialize (Ha a Hin).
    destruct a as [t []]; simpl in *; try done; by destruct Ha. }
  assert (negb (E (from f.1 f.2)) || negb (forallb (λ a, E (from a.1 a.2)) args) = true ↔
          ∃ a, a ∈ f :: args ∧ E (construction a) = false) as Hx.
  { rewrite <- negb_andb.
    change (E (from f.1 f.2) && forallb (λ a, E (from a.1 a.2)) args) with (forallb (λ a, E (from a.1 a.2)) (f :: args)).
    rewrite negb_forallb_in. split; intros (a & H1 & H2); exists a; (split; [done|]);
      [by rewrite <- from_construction|by rewrite from_construction]. }
  rewrite <- Hx.
  destruct (forallb (λ a, nothrow_construct_swapped E a.1 a.2) args);
    destruct (forallb (λ a, E (from a.1 a.2)) args); destruct (E (from f.1 f.2)); simpl; split; try done;
    by discriminate Himp.
Qed.
Example bind_front_ctor_partial_ex :
  (∀ a, a ∈ [(1, LV); (2, RV)] → a.2 = LV ∨ a.2 = RV) ∧
  runs ex_E (bind_front_ctor ex_E (0, RV) [(1, LV); (2, RV)]) Exc.
Proof.
  split; [|rewrite runs_iff; by vm_compute].
  intros a H. repeat (apply elem_of_cons in H as [->|H]; [simpl; auto|]). by apply elem_of_nil in H.
Qed.
(** A const argument whose copy throws ends the program, and an lvalue argument
    that cannot throw is not noexcept. *)
Theorem bind_front_ctor_refuted :
  (∃ E f a, E (Copy a.1) = false ∧ a.2 = CLV ∧ runs E (bind_front_ctor E f [a]) Term) ∧
  (∃ E f a, (∀ o, E o = true) ∧ is_noexcept (bind_front_ctor E f [a]) = false).
Proof.
  split.
  - exists (λ o, negb (bool_decide (o = Copy 0))), (1, RV), (0, CLV). rewrite runs_iff. by vm_compute.
  - by exists (λ _, true), (1, RV), (0, LV).
Qed.

(** Calling a const rvalue wrapper: the specification names a call with const
    rvalue arguments, the call passes const lvalues. *)
Theorem bind_call_const_rvalue_refuted :
  ∃ E f n, E (Call f CRV (replicate n CLV)) = false ∧ runs E (bind_call E f CRV n [] []) Term.
Proof.
  exists (λ o, negb (bool_decide (o = Call 0 CRV [CLV]))), 0, 1. rewrite runs_iff. by vm_compute.
Qed.

(** ** C115: the containers' noexcept functions *)

(** [m] performs no allocation and constructs no element from a value (the
    operations that consume the oracle of throwing points), whatever those would
    do, so that no exception can arise in it. *)
Definition calm {St A} (orc : St → list bool) (m : Base.M St A) : Prop :=
  ∀ s, match m s with
       | Base.Ok _ s' => orc s' = orc s
       | Base.Throw _ => False
       | Base.UB _ => True
       end.
Lemma calm_ret {St A} orc (a : A) : calm (St := St) orc (Base.ret a).
Proof. by intros s. Qed.
Lemma calm_fail {St A} orc u : calm (St := St) (A := A) orc (Base.fail u).
Proof. by intros s. Qed.
Lemma calm_gets {St A} orc (f : St → A) : calm orc (Base.gets f).
Proof. by intros s. Qed.
Lemma calm_bind {St A B} orc (m : Base.M St A) (k : A → Base.M St B) :
  calm orc m → (∀ a, calm orc (k a)) → calm orc (Base.bind m k).
Proof.
  intros Hm Hk s. specialize (Hm s). unfold Base.bind. destruct (m s) as [a s'| |]; [|done..].
  specialize (Hk a s'). destruct (k a s'); [congruence|done..].
Qed.
Lemma calm_on_throw {St A} orc (m : Base.M St A) h : calm orc m → calm orc (Base.on_throw m h).
Proof. intros Hm s. specialize (Hm s). unfold Base.on_throw. by destruct (m s). Qed.

Ltac calm_prim := intros s; repeat match goal with
  | |- context[match ?x with _ => _ end] => is_var x; destruct x
  | |- context[match ?x !! ?i with _ => _ end] => destruct (x !! i)
  | |- context[if ?x then _ else _] => destruct x
  end; simpl; try done.
Ltac calm_step := first
  [ simple apply calm_ret | simple apply calm_fail | simple apply calm_gets
  | simple apply calm_bind; [|intros ?] | simple apply calm_on_throw
  | match goal with |- calm _ (match ?x with _ => _ end) => destruct x end
  | match goal with |- calm _ (if ?x then _ else _) => destruct x end ].

Section array.
Context {V : Type} (triv : bool).
Notation orc := (ArrayModel.oracle (V := V)).
Lemma calm_get_cell p : calm orc (ArrayModel.get_cell p).
Proof. unfold ArrayModel.get_cell. calm_prim. Qed.
Lemma calm_set_cell p c : calm orc (ArrayModel.set_cell p c).
Proof. unfold ArrayModel.set_cell. calm_prim. Qed.
Lemma calm_padd p n : calm orc (ArrayModel.padd p n).
Proof. unfold ArrayModel.padd. calm_prim. Qed.
Lemma calm_psub p n : calm orc (ArrayModel.psub p n).
Proof. unfold ArrayModel.psub. calm_prim. Qed.
Lemma calm_pdiff p q : calm orc (ArrayModel.pdiff p q).
Proof. unfold ArrayModel.pdiff. repeat calm_step. Qed.
Lemma calm_dealloc p n : calm orc (ArrayModel.dealloc triv p n).
Proof. unfold ArrayModel.dealloc. calm_prim. Qed.
Lemma calm_get_arr i : calm orc (ArrayModel.get_arr i).
Proof. unfold ArrayModel.get_arr. calm_prim. Qed.
Lemma calm_set_arr i a : calm orc (ArrayModel.set_arr i a).
Proof. by intros s. Qed.
Lemma calm_destroy p : calm orc (ArrayModel.destroy triv p).
Proof. unfold ArrayModel.destroy. apply calm_bind; [apply calm_get_cell|]. intros []; repeat calm_step; apply calm_set_cell. Qed.
Lemma calm_destroy_loop k p q : calm orc (ArrayModel.destroy_loop triv k p q).
Proof.
  revert p. induction k as [|k IH]; intros p; cbn [ArrayModel.destroy_loop];
    repeat calm_step; auto using calm_destroy, calm_padd.
Qed.
Lemma calm_set_end i p : calm orc (ArrayModel.set_end i p).
Proof. unfold ArrayModel.set_end. repeat calm_step; auto using calm_get_arr, calm_set_arr. Qed.
Lemma calm_dtor i : calm orc (ArrayModel.dtor triv i).
Proof.
  unfold ArrayModel.dtor, ArrayModel.destroy_a, ArrayModel.capacity.
  repeat calm_step; auto using calm_get_arr, calm_destroy_loop, calm_pdiff, calm_dealloc.
Qed.
Lemma calm_ctor_move i j : calm orc (ArrayModel.ctor_move i j).
Proof. unfold ArrayModel.ctor_move. repeat calm_step; auto using calm_get_arr, calm_set_arr. Qed.
Lemma calm_swap i j : calm orc (ArrayModel.swap i j).
Proof. unfold ArrayModel.swap. repeat calm_step; auto using calm_get_arr, calm_set_arr. Qed.

(** Array: move construction, swap, move assignment, clear, pop_back and the
    destructor. *)
Theorem array_noexcept this other :
  calm orc (ArrayModel.ctor_move this other) ∧ calm orc (ArrayModel.swap this other) ∧
  calm orc (ArrayModel.assign_move_arr triv this other) ∧ calm orc (ArrayModel.clear triv this) ∧
  calm orc (ArrayModel.pop_back triv this) ∧ calm orc (ArrayModel.dtor triv this).
Proof.
  split; [apply calm_ctor_move|]. split; [apply calm_swap|]. split; [|split; [|split; [|apply calm_dtor]]].
  - unfold ArrayModel.assign_move_arr, ArrayModel.with_tmp, ArrayModel.new_array, ArrayModel.push_obj, ArrayModel.pop_obj.
    repeat calm_step; auto using calm_ctor_move, calm_swap, calm_dtor; by intros s.
  - unfold ArrayModel.clear, ArrayModel.destroy_a.
    repeat calm_step; auto using calm_get_arr, calm_destroy_loop, calm_set_end.
  - unfold ArrayModel.pop_back, ArrayModel.size.
    repeat calm_step; auto using calm_get_arr, calm_pdiff, calm_set_end, calm_destroy, calm_psub.
Qed.
End array.

Section list_.
Context {V : Type}.
Notation orc := (ListModel.oracle (V := V)).
Lemma calm_get_next p : calm orc (ListModel.get_next p).
Proof. unfold ListModel.get_next. calm_prim. Qed.
Lemma calm_set_next p q : calm orc (ListModel.set_next p q).
Proof. unfold ListModel.set_next. calm_prim. Qed.
Lemma calm_get_node n : calm orc (ListModel.get_node n).
Proof. unfold ListModel.get_node. calm_prim. Qed.
Lemma calm_put_node n x : calm orc (ListModel.put_node n x).
Proof. by intros s. Qed.
Lemma calm_dealloc_node n : calm orc (ListModel.dealloc_node n).
Proof. unfold ListModel.dealloc_node. calm_prim. Qed.
Lemma calm_destroy_elem n : calm orc (ListModel.destroy_elem n).
Proof. unfold ListModel.destroy_elem. repeat calm_step; auto using calm_get_node, calm_put_node. Qed.
Lemma calm_erase_loop k p q : calm orc (ListModel.erase_loop k p q).
Proof.
  revert p. induction k as [|k IH]; intros p; cbn [ListModel.erase_loop]; repeat calm_step;
    auto using calm_get_next, calm_destroy_elem, calm_dealloc_node.
Qed.
Lemma calm_erase_after_range p q : calm orc (ListModel.erase_after_range p q).
Proof.
  unfold ListModel.erase_after_range. repeat calm_step; auto using calm_get_next, calm_set_next, calm_erase_loop.
Qed.
Lemma calm_reverse_loop k i p : calm orc (ListModel.reverse_loop k i p).
Proof.
  induction k as [|k IH]; cbn [ListModel.reverse_loop]; repeat calm_step; auto using calm_get_next, calm_set_next.
Qed.

(** LinkedList: move construction and assignment, erasure, clear, reverse and
    the destructor. *)
Theorem list_noexcept this other p last :
  calm orc (ListModel.ctor_move other) ∧ calm orc (ListModel.assign_move this other) ∧
  calm orc (ListModel.erase_after p) ∧ calm orc (ListModel.pop_front this) ∧
  calm orc (ListModel.erase_after_range p last) ∧ calm orc (ListModel.clear this) ∧
  calm orc (ListModel.reverse this) ∧ calm orc (ListModel.destroy_list this).
Proof.
  assert (∀ p, calm orc (ListModel.erase_after p)) as He.
  { intros p'. unfold ListModel.erase_after.
    repeat calm_step; auto using calm_get_next, calm_set_next, calm_destroy_elem, calm_dealloc_node. }
  split; [|split; [|split; [|split; [|split; [|split; [|split]]]]]]; auto using calm_erase_after_range.
  - unfold ListModel.ctor_move, ListModel.new_list.
    repeat calm_step; auto using calm_get_next, calm_set_next; by intros s.
  - unfold ListModel.assign_move, ListModel.clear.
    repeat calm_step; auto using calm_get_next, calm_set_next, calm_erase_after_range.
  - apply He.
  - apply calm_erase_after_range.
  - unfold ListModel.reverse. repeat calm_step; auto using calm_get_next, calm_reverse_loop.
  - unfold ListModel.destroy_list, ListModel.clear.
    repeat calm_step; auto using calm_erase_after_range. by intros s.
Qed.
End list_.

(** Two elements and an oracle that lets the next operation throw: destroying
    them succeeds and the oracle is still there. *)
Definition ex_astate : ArrayModel.st nat :=
  ArrayModel.mkSt [Some [ArrayModel.Live 4; ArrayModel.Live 5; ArrayModel.Raw]]
    [Some (ArrayModel.mkArr (ArrayModel.Ptr 0 0) (ArrayModel.Ptr 0 2) (ArrayModel.Ptr 0 3))] [true] 0 0.
Example array_noexcept_ex :
  ArrayModel.dtor false 0 ex_astate =
    Base.Ok tt (ArrayModel.mkSt [None] (ArrayModel.objs ex_astate) [true] 0 0) ∧
  (∃ s, ArrayModel.push_back false 0 (ArrayModel.AVal 6) ex_astate = Base.Throw s).
Proof. split; [by vm_compute|]. eexists. by vm_compute. Qed.
Definition ex_lstate : ListModel.st nat :=
  ListModel.mkSt [Some (ListModel.mkN (ListModel.Nod 1) (Some 4)); Some (ListModel.mkN ListModel.Nul (Some 5))]
    [Some (ListModel.Nod 0)] [true] 0.
Example list_noexcept_ex :
  ListModel.clear 0 ex_lstate = Base.Ok tt (ListModel.mkSt [None; None] [Some ListModel.Nul] [true] 0) ∧
  (∃ s, ListModel.push_front 0 (ListModel.LVal 6) ex_lstate = Base.Throw s).
Proof. split; [by vm_compute|]. eexists. by vm_compute. Qed.

Definition except_theorems := (tuple_swap_exact, pair_swap_exact, apply_exact, make_pair_exact,
  bind_back_ctor_exact, bind_call_exact, bind_call_index_exact, make_tuple_propagates, compare_ends, bind_special_ends,
  functor_ends, delegate_ctor_propagates, heap_pop_ends, heap_push_ends, algorithms_end,
  pair_assign_partial, pair_assign_refuted, bind_front_ctor_partial, bind_front_ctor_refuted,
  bind_call_const_rvalue_refuted, @array_noexcept, @list_noexcept).
Print Assumptions except_theorems.
