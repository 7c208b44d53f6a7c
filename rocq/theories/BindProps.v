(** Theorems about bind_front, bind_back and ScopedDelegate (C50, C51). *)
From stdpp Require Import list list_numbers.
From Coq Require Import Lia.
From Verif Require Import Base TupleModel TupleSpec TupleProofs BindModel.
Local Open Scope mon_scope.

Section bind.
Context {V R : Type}.
Notation cells := (list (option V)).

(** In memory [l] the objects at [as_] have the values [vs]. *)
Definition stored (l : cells) (as_ : list nat) (vs : list V) : Prop :=
  Forall2 (λ a v, l !! a = Some (Some v)) as_ vs.
(** The objects at [as_] as arguments, rvalues if [rv]. *)
Definition pass (rv : bool) (as_ : list nat) : list arg := map (λ a, (a, rv)) as_.

Lemma forward_own rv as_ : map (forward rv) (map Own as_) = pass rv as_.
Proof. unfold pass. rewrite map_map. done. Qed.
Lemma make_tuple_eq vs (l : cells) :
  make_tuple vs l = Ok (tuple_of (map Own (seq (length l) (length vs)))) (l ++ map Some vs).
Proof. unfold make_tuple. by rewrite (bind_Ok _ _ _ _ _ (alloc_all_Ok vs l)). Qed.
Lemma stored_fresh vs (l : cells) : stored (l ++ map Some vs) (seq (length l) (length vs)) vs.
Proof. assert (H := values_fresh vs l). by apply Forall2_fmap_l in H. Qed.
Lemma stored_app as_ vs (l l' : cells) : stored l as_ vs → stored (l ++ l') as_ vs.
Proof. intros H. eapply Forall2_impl; [exact H|]. simpl. intros a v Ha. by apply lookup_app_l_Some. Qed.

(** Binding stores the arguments in new objects. Calling the result, at any
    later time and as often as one likes, calls the function once with the bound
    objects first and the arguments of the call after them. *)
Theorem bind_front_call (f : callable V R) vs (l : cells) : ∃ b as_ l2,
  bind_front f vs l = Ok b (l ++ l2) ∧ stored (l ++ l2) as_ vs ∧
  as_ = seq (length l) (length vs) ∧ length l2 = length vs ∧
  ∀ rv args l', call_front b rv args l' = f rv (pass rv as_ ++ args) l'.
Proof.
  eexists _, _, (map Some vs). unfold bind_front. rewrite (bind_Ok _ _ _ _ _ (make_tuple_eq vs l)).
  split; [reflexivity|]. split; [apply stored_fresh|]. split; [reflexivity|]. split; [apply map_length|].
  intros rv args l'. unfold call_front. simpl.
  by rewrite (bind_Ok _ _ _ _ _ (get_all_size _ _ l' (elems_of _))), forward_own.
Qed.
Theorem bind_back_call (f : callable V R) vs (l : cells) : ∃ b as_ l2,
  bind_back f vs l = Ok b (l ++ l2) ∧ stored (l ++ l2) as_ vs ∧
  as_ = seq (length l) (length vs) ∧ length l2 = length vs ∧
  ∀ rv args l', call_back b rv args l' = f rv (args ++ pass rv as_) l'.
Proof.
  eexists _, _, (map Some vs). unfold bind_back. rewrite (bind_Ok _ _ _ _ _ (make_tuple_eq vs l)).
  split; [reflexivity|]. split; [apply stored_fresh|]. split; [reflexivity|]. split; [apply map_length|].
  intros rv args l'. unfold call_back. simpl.
  by rewrite (bind_Ok _ _ _ _ _ (get_all_size _ _ l' (elems_of _))), forward_own.
Qed.
(** Nesting to any depth: what was bound to the front first comes first, what was
    bound to the back first comes last, the arguments of the call in between. *)
Theorem bind_nested (f : callable V R) steps (l : cells) : ∃ g fr bk l2,
  bind_all f steps l = Ok g (l ++ l2) ∧
  stored (l ++ l2) fr (concat (omap (λ st : bool * list V, if st.1 then Some st.2 else None) steps)) ∧
  stored (l ++ l2) bk (concat (omap (λ st : bool * list V, if st.1 then None else Some st.2) (reverse steps))) ∧
  fr ++ bk ≡ₚ seq (length l) (length l2) ∧
  ∀ rv args l', g rv args l' = f rv (pass rv fr ++ args ++ pass rv bk) l'.
Proof.
  revert f l. induction steps as [|[fb vs] steps IH]; intros f l.
  - exists f, [], [], []. rewrite app_nil_r. split_and!; [done|constructor|constructor|done|].
    intros. simpl. by rewrite app_nil_r.
  - rewrite reverse_cons, omap_app, concat_app. destruct fb; simpl; rewrite app_nil_r.
    + destruct (bind_front_call f vs l) as (b & as_ & l2 & E & Hs & Has & L2 & Hc).
      rewrite (bind_Ok _ _ _ _ _ E).
      destruct (IH (call_front b) (l ++ l2)) as (g & fr & bk & l3 & E3 & Hf & Hb & Hp & Hg).
      exists g, (as_ ++ fr), bk, (l2 ++ l3). rewrite app_assoc. split_and!; [done| |done| |].
      * apply Forall2_app; [by apply stored_app|done].
      * rewrite <- app_assoc, Hp, Has, <- L2, !app_length, seq_app. done.
      * intros rv args l'. rewrite Hg, Hc. unfold pass. by rewrite map_app, app_assoc.
    + destruct (bind_back_call f vs l) as (b & as_ & l2 & E & Hs & Has & L2 & Hc).
      rewrite (bind_Ok _ _ _ _ _ E).
      destruct (IH (call_back b) (l ++ l2)) as (g & fr & bk & l3 & E3 & Hf & Hb & Hp & Hg).
      exists g, fr, (bk ++ as_), (l2 ++ l3). rewrite app_assoc. split_and!; [done|done| | |].
      * apply Forall2_app; [done|by apply stored_app].
      * rewrite app_assoc, Hp, Has, <- L2, !app_length, seq_app. by rewrite Permutation_app_comm.
      * intros rv args l'. rewrite Hg, Hc. unfold pass. by rewrite map_app, <- !app_assoc.
Qed.
End bind.

Section scoped.
Context {S : Type}.
Implicit Types f m : M S unit.

(** Calling the functions [fs] one after the other leads from [s] to [s']. *)
Inductive runs : list (M S unit) → S → S → Prop :=
  | runs_nil s : runs [] s s
  | runs_cons f fs s s1 s' : f s = Ok tt s1 → runs fs s1 s' → runs (f :: fs) s s'.
(** The statements of a scope, started in [s], arrive in [s'] at the point where
    the scope is left, at its end ([true]) or by an exception ([false]); until
    then the guards [gs] have been declared in it. A scope inside has run its
    own guards, last one first, when it is left. *)
Inductive arrives : list (stmt S) → S → bool → list (M S unit) → S → Prop :=
  | arr_end s : arrives [] s true [] s
  | arr_do m ss s s1 o gs s' : m s = Ok tt s1 → arrives ss s1 o gs s' → arrives (Do m :: ss) s o gs s'
  | arr_throw m ss s s1 : m s = Throw s1 → arrives (Do m :: ss) s false [] s1
  | arr_guard f ss s o gs s' : arrives ss s o gs s' → arrives (Guard f :: ss) s o (f :: gs) s'
  | arr_block b ss s gs s1 s2 o gs' s' : arrives b s true gs s1 → runs (reverse gs) s1 s2 →
      arrives ss s2 o gs' s' → arrives (Block b :: ss) s o gs' s'
  | arr_block_throw b ss s gs s1 s2 : arrives b s false gs s1 → runs (reverse gs) s1 s2 →
      arrives (Block b :: ss) s false [] s2.

Lemma runs_snoc fs f s s1 s2 : runs fs s s1 → f s1 = Ok tt s2 → runs (fs ++ [f]) s s2.
Proof. induction 1 as [|g gs a b c Hg Hr IH]; simpl; intros H; (econstructor; [done|]); [constructor|by apply IH]. Qed.
Lemma runs_snoc_inv fs f s s2 : runs (fs ++ [f]) s s2 → ∃ s1, runs fs s s1 ∧ f s1 = Ok tt s2.
Proof.
  revert s. induction fs as [|g fs IH]; intros s H; simpl in H; inversion H as [|? ? ? s1 ? Hg Hr]; subst.
  - inversion Hr; subst. exists s. split; [constructor|done].
  - destruct (IH _ Hr) as (s3 & H3 & Hf). exists s3. split; [by econstructor|done].
Qed.
Lemma step_block b (rest : M S unit) : step (Block b) rest = (scope b ;;; rest).
Proof. done. Qed.
Definition outcome (o : bool) (s : S) : res S unit := if o then Ok tt s else Throw s.
Lemma arrives_scope ss s o gs s1 : arrives ss s o gs s1 → ∀ s2, runs (reverse gs) s1 s2 → scope ss s = outcome o s2.
Proof.
  induction 1 as [s|m ss s s1 o gs s' Hm Ha IH|m ss s s1 Hm|f ss s o gs s' Ha IH|b ss s gs s1 s2 o gs' s' Hb IHb Hr Ha IH|b ss s gs s1 s2 Hb IHb Hr];
    intros s9 H9; cbn [scope].
  - by inversion H9.
  - cbn [step]. by rewrite (bind_Ok _ _ _ _ _ Hm), (IH _ H9).
  - inversion H9; subst. cbn [step]. unfold bind. by rewrite Hm.
  - rewrite reverse_cons in H9. apply runs_snoc_inv in H9 as (s2 & H2 & Hf).
    cbn [step]. unfold finally. rewrite (IH _ H2). destruct o; simpl; unfold scoped_dtor; simpl; by rewrite Hf.
  - rewrite step_block. by rewrite (bind_Ok _ _ _ _ _ (IHb _ Hr)), (IH _ H9).
  - inversion H9; subst. rewrite step_block. unfold bind. by rewrite (IHb _ Hr).
Qed.
Definition leaves (ss : list (stmt S)) : Prop := ∀ s o s2, scope ss s = outcome o s2 →
  ∃ gs s1, arrives ss s o gs s1 ∧ runs (reverse gs) s1 s2.
Lemma leaves_nil : leaves [].
Proof. intros s [] s2 H; [|done]. injection H as <-. exists [], s. split; constructor. Qed.
Lemma leaves_cons : ∀ st ss, leaves ss → leaves (st :: ss).
Proof.
  fix IH 1. intros [m|f|b] ss Hss.
  - intros s o s2. cbn [scope step]. unfold bind. destruct (m s) as [[] s1|s1|u] eqn:E.
    + intros H. destruct (Hss _ _ _ H) as (gs & s3 & Ha & Hr). exists gs, s3. split; [by econstructor|done].
    + destruct o; [done|]. intros [= <-]. exists [], s1. split; [by constructor|constructor].
    + by destruct o.
  - intros s o s2. cbn [scope step]. unfold finally.
    assert (Hd : ∀ s3, scoped_dtor (scoped_ctor f) s3 = Ok tt s2 → f s3 = Ok tt s2).
    { unfold scoped_dtor. simpl. intros s3. destruct (f s3); done. }
    destruct (scope ss s) as [[] s1|s1|u] eqn:E.
    + destruct (Hss s true s1 E) as (gs & s3 & Ha & Hr).
      destruct (scoped_dtor (scoped_ctor f) s1) as [[] s4|s4|u] eqn:Ed.
      * destruct o; [|done]. intros [= ->]. exists (f :: gs), s3. split; [by constructor|].
        rewrite reverse_cons. eapply runs_snoc; [done|by apply Hd].
      * exfalso. revert Ed. unfold scoped_dtor. simpl. by destruct (f s1).
      * by destruct o.
    + destruct (Hss s false s1 E) as (gs & s3 & Ha & Hr).
      destruct (scoped_dtor (scoped_ctor f) s1) as [[] s4|s4|u] eqn:Ed.
      * destruct o; [done|]. intros [= ->]. exists (f :: gs), s3. split; [by constructor|].
        rewrite reverse_cons. eapply runs_snoc; [done|by apply Hd].
      * exfalso. revert Ed. unfold scoped_dtor. simpl. by destruct (f s1).
      * by destruct o.
    + by destruct o.
  - assert (Hb : leaves b).
    { clear -IH. induction b as [|st b IHb]; [apply leaves_nil|exact (IH st b IHb)]. }
    intros s o s2. cbn [scope]. rewrite step_block. unfold bind. destruct (scope b s) as [[] s1|s1|u] eqn:E.
    + destruct (Hb s true s1 E) as (gs & s3 & Ha & Hr). intros H.
      destruct (Hss _ _ _ H) as (gs' & s4 & Ha' & Hr'). exists gs', s4. split; [by econstructor|done].
    + destruct (Hb s false s1 E) as (gs & s3 & Ha & Hr). destruct o; [done|]. intros [= <-].
      exists [], s1. split; [by econstructor|constructor].
    + by destruct o.
Qed.
Lemma scope_leaves ss : leaves ss.
Proof. induction ss; [apply leaves_nil|by apply leaves_cons]. Qed.

(** A scope is left in [s2], at its end or by an exception, exactly if its
    statements arrive at the exit with some guards declared, and calling each of
    these guards once, the last one first, leads from there to [s2]. *)
Theorem scoped_delegate_runs (ss : list (stmt S)) s o s2 :
  scope ss s = (if o : bool then Ok tt s2 else Throw s2) ↔
  ∃ gs s1, arrives ss s o gs s1 ∧ runs (reverse gs) s1 s2.
Proof.
  split; [apply scope_leaves|]. intros (gs & s1 & Ha & Hr). exact (arrives_scope _ _ _ _ _ Ha _ Hr).
Qed.
(** A guard whose function throws ends the program, however the scope is left. *)
Theorem scoped_delegate_throws ss f s o gs s1 s2 s3 :
  arrives ss s o gs s1 → runs (reverse gs) s1 s2 → f s2 = Throw s3 →
  scope (Guard f :: ss) s = UB Terminate.
Proof.
  intros Ha Hr Hf. cbn [scope step]. unfold finally. rewrite (arrives_scope _ _ _ _ _ Ha _ Hr).
  destruct o; simpl; unfold scoped_dtor; simpl; by rewrite Hf.
Qed.
End scoped.

(** ** Scopes that log
    Each statement and each guard writes its number; one of the statements may
    throw. *)
Inductive event := Ran (n : nat) | Called (n : nat).
Definition log (e : event) : M (list event) unit := fun s => Ok tt (s ++ [e]).
Inductive line := Say (n : nat) | Fail | Defer (n : nat).
Definition line_stmt (x : line) : stmt (list event) :=
  match x with Say n => Do (log (Ran n)) | Fail => Do (λ s, Throw s) | Defer n => Guard (log (Called n)) end.
(** The lines before the first one that throws. *)
Fixpoint before_fail (xs : list line) : list line :=
  match xs with [] => [] | Fail :: _ => [] | x :: xs' => x :: before_fail xs' end.
Definition said (x : line) : option event := match x with Say n => Some (Ran n) | _ => None end.
Definition deferred (x : line) : option event := match x with Defer n => Some (Called n) | _ => None end.
(** The log is what the statements before the exit wrote, then the guards
    declared before the exit, each once, the last one first. *)
Theorem scoped_delegate_log (xs : list line) s :
  let s' := s ++ omap said (before_fail xs) ++ reverse (omap deferred (before_fail xs)) in
  (Fail ∈ xs → scope (map line_stmt xs) s = Throw s') ∧
  (Fail ∉ xs → scope (map line_stmt xs) s = Ok tt s').
Proof.
  revert s. induction xs as [|x xs IH]; intros s; cbn [map scope before_fail].
  - simpl. rewrite app_nil_r. split; [by intros ?%elem_of_nil|done].
  - destruct x as [n| |n]; simpl.
    + destruct (IH (s ++ [Ran n])) as [IH1 IH2]. unfold bind, log.
      split; intros H; rewrite elem_of_cons in H; [rewrite IH1 by naive_solver|rewrite IH2 by naive_solver];
        by rewrite <- app_assoc.
    + rewrite app_nil_r. split; [done|]. intros H. exfalso. apply H. by left.
    + destruct (IH s) as [IH1 IH2]. unfold finally. rewrite reverse_cons, !app_assoc.
      split; intros H; rewrite elem_of_cons in H; [rewrite IH1 by naive_solver|rewrite IH2 by naive_solver];
        unfold scoped_dtor; simpl; by rewrite app_assoc.
Qed.

(** ** Concrete cases *)
Example ex_front : ∃ b, bind_front (V := nat) (λ rv args l, Ok (rv, args) l) [7; 8] [Some 1] = Ok b [Some 1; Some 7; Some 8] ∧
  call_front b true [(0, false)] [Some 1; Some 7; Some 8] = Ok (true, [(1, true); (2, true); (0, false)]) [Some 1; Some 7; Some 8].
Proof. eexists. split; vm_compute; reflexivity. Qed.
Example ex_back : ∃ b, bind_back (V := nat) (λ rv args l, Ok (rv, args) l) [7; 8] [Some 1] = Ok b [Some 1; Some 7; Some 8] ∧
  call_back b false [(0, true)] [Some 1; Some 7; Some 8] = Ok (false, [(0, true); (1, false); (2, false)]) [Some 1; Some 7; Some 8].
Proof. eexists. split; vm_compute; reflexivity. Qed.
(** bind_back(bind_front(bind_back(f, 30), 10, 11), 20)(x) = f(10, 11, x, 20, 30) *)
Example ex_nested : ∃ g l, bind_all (V := nat) (λ rv args l, Ok (rv, args) l) [(false, [30]); (true, [10; 11]); (false, [20])] [Some 1] = Ok g l ∧
  l = [Some 1; Some 30; Some 10; Some 11; Some 20] ∧
  g false [(0, true)] l = Ok (false, [(2, false); (3, false); (0, true); (4, false); (1, false)]) l.
Proof. do 2 eexists. split; [|split]; vm_compute; reflexivity. Qed.
(** Guards 1 and 2 run, guard 3 comes after the exception. *)
Example ex_scope : scope (map line_stmt [Defer 1; Say 5; Defer 2; Fail; Say 6; Defer 3]) [] =
  Throw [Ran 5; Called 2; Called 1].
Proof. reflexivity. Qed.
(** A scope inside runs its guards at its own exit. *)
Example ex_block : scope [Guard (log (Called 1)); Block [Guard (log (Called 2)); Do (log (Ran 3))]; Do (log (Ran 4))] [] =
  Ok tt [Ran 3; Called 2; Ran 4; Called 1].
Proof. reflexivity. Qed.
Example ex_arrives : arrives [Guard (log (Called 1)); Block [Guard (log (Called 2)); Do (λ s, Throw s)]; Do (log (Ran 4))] [] false
  [log (Called 1)] [Called 2].
Proof.
  constructor. eapply arr_block_throw; [constructor; by apply arr_throw|].
  econstructor; [reflexivity|constructor].
Qed.
Example ex_terminate : scope [Guard (λ s, Throw s); Do (log (Ran 4))] [] = UB Terminate.
Proof. reflexivity. Qed.

Definition bind_theorems := (@bind_front_call, @bind_back_call, @bind_nested, @scoped_delegate_runs,
  @scoped_delegate_throws, @scoped_delegate_log).
Print Assumptions bind_theorems.
