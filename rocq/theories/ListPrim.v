(** LinkedList: memory accesses seen through two functions, the successor of a
    position and the contents of a node. *)
From stdpp Require Import list.
From Coq Require Import Lia.
From Verif Require Import Base ListModel ListSpec.

Section prim.
Context {V : Type}.
Implicit Types (s : st V) (n m : nat) (p q r : pos).
Notation anode := (nat * V)%type.

Definition nextof s p : option pos :=
  match p with
  | Nul => None
  | Head i => match heads s !! i with Some o => o | None => None end
  | Nod n => match nodes s !! n with Some (Some nd) => Some (n_next nd) | _ => None end
  end.
Definition valof s n : option (option V) :=
  match nodes s !! n with Some (Some nd) => Some (n_val nd) | _ => None end.
Definition calm s : Prop := oracle s = [].

(** [s'] has successors [f], contents [g] and [l] node identities. *)
Record eff s s' (f : pos → option pos) (g : nat → option (option V)) (l : nat) : Prop := Eff {
  ef_next : ∀ p, nextof s' p = f p;
  ef_val : ∀ n, valof s' n = g n;
  ef_len : length (nodes s') = l;
  ef_heads : length (heads s') = length (heads s);
  ef_leak : leaked s' = leaked s;
  ef_calm : calm s → calm s'
}.
(** Nothing visible changed. *)
Record quiet s s' : Prop := Quiet {
  qt_next : ∀ p, nextof s' p = nextof s p;
  qt_val : ∀ n, valof s' n = valof s n;
  qt_len : length (nodes s) ≤ length (nodes s');
  qt_heads : length (heads s') = length (heads s);
  qt_leak : leaked s' = leaked s;
  qt_calm : calm s → calm s'
}.

Definition upd_next (f : pos → option pos) p (x : option pos) : pos → option pos :=
  λ r, if decide (r = p) then x else f r.
Definition upd_val (g : nat → option (option V)) n x : nat → option (option V) :=
  λ m, if decide (m = n) then x else g m.

Lemma quiet_refl s : quiet s s.
Proof. by constructor. Qed.
Lemma quiet_trans s1 s2 s3 : quiet s1 s2 → quiet s2 s3 → quiet s1 s3.
Proof.
  intros [a1 b1 c1 d1 e1 f1] [a2 b2 c2 d2 e2 f2].
  constructor; [intros; by rewrite a2|intros; by rewrite b2|lia|congruence|congruence|auto].
Qed.

Lemma next_dead s n : valof s n = None ↔ nextof s (Nod n) = None.
Proof. unfold valof, nextof. by destruct (nodes s !! n) as [[]|]. Qed.
Lemma valof_lt s n x : valof s n = Some x → n < length (nodes s).
Proof.
  unfold valof. destruct (nodes s !! n) as [[nd|]|] eqn:E; [|done|done].
  intros _. by eapply lookup_lt_Some.
Qed.
Lemma valof_ge s n : length (nodes s) ≤ n → valof s n = None.
Proof. intros. unfold valof. by rewrite lookup_ge_None_2. Qed.
Lemma nextof_ge s n : length (nodes s) ≤ n → nextof s (Nod n) = None.
Proof. intros. simpl. by rewrite lookup_ge_None_2. Qed.
Lemma nextof_head_ge s n : length (heads s) ≤ n → nextof s (Head n) = None.
Proof. intros. simpl. by rewrite lookup_ge_None_2. Qed.

Lemma get_next_eq s p q : nextof s p = Some q → get_next p s = Ok q s.
Proof.
  unfold get_next, nextof. destruct p as [|i|n]; [done| |].
  - destruct (heads s !! i) as [[?|]|]; [by intros [= ->]|done|done].
  - destruct (nodes s !! n) as [[?|]|]; [by intros [= ->]|done|done].
Qed.

Lemma set_next_eff s p q q0 : nextof s p = Some q0 →
  ∃ s', set_next p q s = Ok tt s' ∧ eff s s' (upd_next (nextof s) p (Some q)) (valof s) (length (nodes s)).
Proof.
  unfold set_next. destruct p as [|i|n]; simpl; [done| |].
  - destruct (heads s !! i) as [[q1|]|] eqn:E; [|done|done]. intros [= ->].
    eexists; split; [done|]. assert (Hl := lookup_lt_Some _ _ _ E).
    constructor; simpl; [|done|done|by rewrite insert_length|done|done].
    intros r. unfold upd_next. case_decide as Hr.
    + subst r. simpl. by rewrite list_lookup_insert.
    + destruct r as [|j|m]; simpl; [done| |done]. by rewrite list_lookup_insert_ne by congruence.
  - destruct (nodes s !! n) as [[nd|]|] eqn:E; [|done|done]. intros _.
    eexists; split; [done|]. assert (Hl := lookup_lt_Some _ _ _ E).
    constructor; simpl; [| |by rewrite insert_length|done|done|done].
    + intros r. unfold upd_next. case_decide as Hr.
      * subst r. simpl. by rewrite list_lookup_insert.
      * destruct r as [|j|m]; simpl; [done|done|]. by rewrite list_lookup_insert_ne by congruence.
    + intros m. unfold valof; simpl. destruct (decide (m = n)) as [->|Hn].
      * by rewrite list_lookup_insert, E.
      * by rewrite list_lookup_insert_ne.
Qed.

(** Writing the contents of a live node. *)
Lemma put_eff s n nd x : nodes s !! n = Some (Some nd) →
  eff s (set_nodes (<[n := Some (mkN (n_next nd) x)]> (nodes s)) s)
    (nextof s) (upd_val (valof s) n (Some x)) (length (nodes s)).
Proof.
  intros E. assert (Hl := lookup_lt_Some _ _ _ E).
  constructor; simpl; [| |by rewrite insert_length|done|done|done].
  - intros [|j|m]; simpl; [done|done|]. destruct (decide (m = n)) as [->|Hn].
    + by rewrite list_lookup_insert, E.
    + by rewrite list_lookup_insert_ne.
  - intros m. unfold valof, upd_val; simpl. destruct (decide (m = n)) as [->|Hn].
    + by rewrite list_lookup_insert.
    + by rewrite list_lookup_insert_ne.
Qed.

Lemma node_of s n x : valof s n = Some x → ∃ nd, nodes s !! n = Some (Some nd) ∧ n_val nd = x.
Proof.
  unfold valof. destruct (nodes s !! n) as [[nd|]|]; [|done|done]. intros [= <-]. eauto.
Qed.

Lemma destroy_elem_eff s n v : valof s n = Some (Some v) →
  ∃ s', destroy_elem n s = Ok tt s' ∧ eff s s' (nextof s) (upd_val (valof s) n (Some None)) (length (nodes s)).
Proof.
  intros (nd & E & Ev)%node_of. eexists; split; [|by apply put_eff].
  unfold destroy_elem, bind, get_node, put_node, modify. by rewrite E, Ev.
Qed.

Lemma dealloc_eff s n : valof s n = Some None →
  ∃ s', dealloc_node n s = Ok tt s' ∧
    eff s s' (upd_next (nextof s) (Nod n) None) (upd_val (valof s) n None) (length (nodes s)).
Proof.
  intros (nd & E & Ev)%node_of. assert (Hl := lookup_lt_Some _ _ _ E).
  eexists; split; [unfold dealloc_node; by rewrite E|]. rewrite Ev.
  constructor; simpl; [| |by rewrite insert_length|done|done|done].
  - intros r. unfold upd_next. case_decide as Hr.
    + subst r. simpl. by rewrite list_lookup_insert.
    + destruct r as [|j|m]; simpl; [done|done|]. by rewrite list_lookup_insert_ne by congruence.
  - intros m. unfold valof, upd_val; simpl. destruct (decide (m = n)) as [->|Hn].
    + by rewrite list_lookup_insert.
    + by rewrite list_lookup_insert_ne.
Qed.

Lemma tick_post s : post (tick s) (λ _ s', quiet s s' ∧ nodes s' = nodes s)
                                  (λ s', ¬ calm s ∧ quiet s s' ∧ nodes s' = nodes s).
Proof.
  unfold tick, calm. destruct (oracle s) as [|[] o] eqn:E; simpl.
  - split; [apply quiet_refl|done].
  - split; [done|]. split; [|done]. constructor; try done. unfold calm. by rewrite E.
  - split; [|done]. constructor; try done. unfold calm. by rewrite E.
Qed.

Lemma deref_eq s n v : valof s n = Some (Some v) → deref (Nod n) s = Ok v s.
Proof.
  intros (nd & E & Ev)%node_of. unfold deref, bind, get_node. by rewrite E, Ev.
Qed.

(** The value an argument denotes. *)
Definition argv s (x : larg V) (v : V) : Prop :=
  match x with
  | LVal w => w = v
  | LRef p => ∃ n, p = Nod n ∧ valof s n = Some (Some v)
  end.

Lemma eval_arg_post s x v : argv s x v →
  post (eval_arg x s) (λ v' s', v' = v ∧ quiet s s' ∧ nodes s' = nodes s)
                      (λ s', ¬ calm s ∧ quiet s s' ∧ nodes s' = nodes s).
Proof.
  intros Ha. assert (Ht := tick_post s). destruct x as [w|p]; simpl in *.
  - subst w. apply post_bind. eapply post_conseq; [exact Ht| |done]. simpl. intros _ s' [??]. done.
  - destruct Ha as (n & -> & Hv). unfold eval_arg. unfold bind at 1. rewrite (deref_eq _ _ _ Hv).
    apply post_bind. eapply post_conseq; [exact Ht| |done]. simpl. intros _ s' [??]. done.
Qed.

(** linked_list.hpp:245-257 *)
Lemma create_node_post s x v : argv s x v →
  post (create_node x s)
    (λ n s', n = length (nodes s) ∧
       eff s s' (upd_next (nextof s) (Nod n) (Some Nul)) (upd_val (valof s) n (Some (Some v)))
         (S (length (nodes s))))
    (λ s', ¬ calm s ∧ quiet s s').
Proof.
  intros Ha. unfold create_node. apply post_bind. unfold alloc_node. apply post_bind.
  eapply post_conseq; [apply tick_post| |by intros s' (?&?&?)]. simpl. intros _ s1 [Hq1 Hn1].
  set (n := length (nodes s1)).
  set (s2 := set_nodes (nodes s1 ++ [Some (mkN Nul None)]) s1).
  assert (Hlk : nodes s2 !! n = Some (Some (mkN Nul None))).
  { simpl. by apply list_lookup_middle. }
  assert (He : eff s1 s2 (upd_next (nextof s1) (Nod n) (Some Nul)) (upd_val (valof s1) n (Some None)) (S n)).
  { constructor; simpl; [| |rewrite app_length; simpl; unfold n; lia|done|done|done].
    - intros r. unfold upd_next. case_decide as Hr; [subst r; simpl in *; by rewrite Hlk|].
      destruct r as [|j|m]; simpl; [done|done|]. assert (m ≠ n) by congruence.
      destruct (decide (m < n)); [by rewrite lookup_app_l|].
      rewrite !lookup_ge_None_2; [done|unfold n in *; lia|rewrite app_length; unfold n in *; simpl; lia].
    - intros m. unfold upd_val, valof. case_decide as Hr; [subst m; by rewrite Hlk|].
      simpl. destruct (decide (m < n)); [by rewrite lookup_app_l|].
      rewrite !lookup_ge_None_2; [done|unfold n in *; lia|rewrite app_length; unfold n in *; simpl; lia]. }
  assert (Ha2 : argv s2 x v).
  { destruct x as [w|p]; [done|]. destruct Ha as (m & -> & Hm). exists m. split; [done|].
    assert (Hlt := valof_lt _ _ _ Hm). rewrite (ef_val _ _ _ _ _ He). unfold upd_val.
    rewrite decide_False; [by rewrite (qt_val _ _ Hq1)|]. unfold n. rewrite Hn1. lia. }
  assert (Hcalm : calm s → calm s2).
  { intros Hc. apply (ef_calm _ _ _ _ _ He), (qt_calm _ _ Hq1), Hc. }
  assert (Hn : n = length (nodes s)) by (unfold n; by rewrite Hn1).
  apply post_bind. apply post_on_throw. apply post_bind.
  eapply post_conseq; [apply (eval_arg_post s2 x v Ha2)| |].
  - intros v' s3 (-> & Hq3 & Hn3). 
    assert (Hlk3 : nodes s3 !! n = Some (Some (mkN Nul None))) by by rewrite Hn3.
    assert (He4 := put_eff s3 n _ (Some v) Hlk3).
    unfold bind, get_node. rewrite Hlk3. unfold put_node, modify, ret. simpl in He4 |- *.
    split; [done|].
    constructor.
    + intros p. rewrite (ef_next _ _ _ _ _ He4), (qt_next _ _ Hq3), (ef_next _ _ _ _ _ He).
      unfold upd_next. case_decide; [done|]. apply (qt_next _ _ Hq1).
    + intros m. rewrite (ef_val _ _ _ _ _ He4). unfold upd_val. case_decide; [done|].
      rewrite (qt_val _ _ Hq3), (ef_val _ _ _ _ _ He). unfold upd_val. rewrite decide_False by done.
      apply (qt_val _ _ Hq1).
    + simpl. rewrite insert_length, Hn3. simpl. rewrite app_length. simpl. rewrite Hn1. lia.
    + simpl. rewrite (qt_heads _ _ Hq3). simpl. apply (qt_heads _ _ Hq1).
    + simpl. rewrite (qt_leak _ _ Hq3). simpl. apply (qt_leak _ _ Hq1).
    + intros Hc. by apply (qt_calm _ _ Hq3), Hcalm.
  - intros s3 (Hnc & Hq3 & Hn3).
    destruct (dealloc_eff s3 n) as (s4 & -> & He4).
    { unfold valof. by rewrite Hn3, Hlk. }
    simpl. split; [intros Hc; by apply Hnc, Hcalm|].
    constructor.
    + intros p. rewrite (ef_next _ _ _ _ _ He4). unfold upd_next.
      case_decide as Hp.
      * subst p. symmetry. apply nextof_ge. lia.
      * rewrite (qt_next _ _ Hq3), (ef_next _ _ _ _ _ He). unfold upd_next. rewrite decide_False by done.
        apply (qt_next _ _ Hq1).
    + intros m. rewrite (ef_val _ _ _ _ _ He4). unfold upd_val. case_decide as Hm.
      * subst m. symmetry. apply valof_ge. lia.
      * rewrite (qt_val _ _ Hq3), (ef_val _ _ _ _ _ He). unfold upd_val. rewrite decide_False by done.
        apply (qt_val _ _ Hq1).
    + rewrite (ef_len _ _ _ _ _ He4), Hn3. simpl. rewrite app_length. rewrite Hn1. lia.
    + rewrite (ef_heads _ _ _ _ _ He4), (qt_heads _ _ Hq3). simpl. apply (qt_heads _ _ Hq1).
    + rewrite (ef_leak _ _ _ _ _ He4), (qt_leak _ _ Hq3). simpl. apply (qt_leak _ _ Hq1).
    + intros Hc. exfalso. by apply Hnc, Hcalm.
Qed.

(** [*it = x] *)
Lemma assign_elem_post s n x v w : argv s x v → valof s n = Some (Some w) →
  post (assign_elem (Nod n) x s)
    (λ _ s', eff s s' (nextof s) (upd_val (valof s) n (Some (Some v))) (length (nodes s)))
    (λ s', ¬ calm s ∧ quiet s s').
Proof.
  intros Ha Hw. unfold assign_elem. apply post_bind.
  eapply post_conseq; [apply (eval_arg_post s x v Ha)| |by intros s' (?&?&?)].
  intros v' s1 (-> & Hq & Hn). rewrite <- (qt_val _ _ Hq) in Hw. destruct (node_of _ _ _ Hw) as (nd & E & Ev).
  unfold bind, get_node. rewrite E, Ev. unfold put_node, modify. simpl.
  destruct (put_eff s1 n nd (Some v) E) as [a b c d e f].
  constructor.
  - intros p. rewrite a. apply (qt_next _ _ Hq).
  - intros m. rewrite b. unfold upd_val. case_decide; [done|]. apply (qt_val _ _ Hq).
  - by rewrite c, Hn.
  - rewrite d. apply (qt_heads _ _ Hq).
  - rewrite e. apply (qt_leak _ _ Hq).
  - intros Hc. by apply f, (qt_calm _ _ Hq).
Qed.
End prim.
