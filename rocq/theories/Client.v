(** Clients of a library: programs that choose each call from the outcomes of
    the previous ones and catch the exceptions that calls throw. Generic in the
    calls [Op], what they return [Out], the abstract states [A] of the
    specification and the concrete states [St] of the model. *)
From stdpp Require Import list.
From Verif Require Import Base.

Inductive outcome (Out : Type) := Ret (r : Out) | Exn.
Arguments Ret {Out}. Arguments Exn {Out}.
Inductive prog (Op Out : Type) := Done | Do (o : Op) (k : outcome Out → prog Op Out).
Arguments Done {Op Out}. Arguments Do {Op Out}.

Section spec.
Context {Op Out A : Type}.
(** [step o σ]: new state and result of a call, [None] when its precondition
    fails; [exn o σ σ']: possible states after the call has thrown. *)
Context (step : Op → A → option (A * Out)) (exn : Op → A → A → Prop).

Inductive spec_run : prog Op Out → A → list (outcome Out) → A → Prop :=
| sr_done σ : spec_run Done σ [] σ
| sr_ret o k σ σ1 r rs σ2 :
    step o σ = Some (σ1, r) → spec_run (k (Ret r)) σ1 rs σ2 →
    spec_run (Do o k) σ (Ret r :: rs) σ2
| sr_exn o k σ σ1 rs σ2 :
    exn o σ σ1 → spec_run (k Exn) σ1 rs σ2 →
    spec_run (Do o k) σ (Exn :: rs) σ2.

(** Every call meets its precondition in every state the specification allows
    it to be executed in. *)
Fixpoint valid (p : prog Op Out) (σ : A) : Prop :=
  match p with
  | Done => True
  | Do o k =>
      (∃ σ1 r, step o σ = Some (σ1, r) ∧ valid (k (Ret r)) σ1) ∧
      (∀ σ1, exn o σ σ1 → valid (k Exn) σ1)
  end.

(** Straight-line programs in which nothing throws. *)
Fixpoint spec_exec (os : list Op) (σ : A) : option (list Out * A) :=
  match os with
  | [] => Some ([], σ)
  | o :: os' => '(σ1, r) ← step o σ; '(rs, σ2) ← spec_exec os' σ1; Some (r :: rs, σ2)
  end.
End spec.

Section run.
Context {Op Out St : Type} (run : Op → M St Out).
Fixpoint run_prog (p : prog Op Out) : M St (list (outcome Out)) :=
  match p with
  | Done => ret []
  | Do o k => fun s =>
      match run o s with
      | Ok r s' => bind (run_prog (k (Ret r))) (fun rs => ret (Ret r :: rs)) s'
      | Throw s' => bind (run_prog (k Exn)) (fun rs => ret (Exn :: rs)) s'
      | UB u => UB u
      end
  end.
Fixpoint run_ops (os : list Op) : M St (list Out) :=
  match os with
  | [] => ret []
  | o :: os' => bind (run o) (fun r => bind (run_ops os') (fun rs => ret (r :: rs)))
  end.
End run.

(** Simulation of single calls gives simulation of clients. *)
Section sim.
Context {Op Out A St : Type}.
Context (step : Op → A → option (A * Out)) (exn : Op → A → A → Prop).
Context (run : Op → M St Out) (R : St → A → Prop).
(** [calm s]: nothing can throw from [s] on. *)
Context (calm : St → Prop).
Definition simulates : Prop := ∀ o s σ σ1 r, R s σ → step o σ = Some (σ1, r) →
  post (run o s)
    (λ r' s', r' = r ∧ R s' σ1 ∧ (calm s → calm s'))
    (λ s', ¬ calm s ∧ ∃ σ', exn o σ σ' ∧ R s' σ').

Lemma client_sim : simulates → ∀ p s σ, R s σ → valid step exn p σ →
  ∃ rs s' σ', run_prog run p s = Ok rs s' ∧ spec_run step exn p σ rs σ' ∧ R s' σ' ∧
              (calm s → Exn ∉ rs).
Proof.
  intros Hsim p. induction p as [|o k IH]; intros s σ HR Hv.
  - exists [], s, σ. split_and!; [done|constructor|done|]. intros _ H. by apply elem_of_nil in H.
  - destruct Hv as [(σ1 & r & Hst & Hv) Hexn].
    assert (Hp := Hsim o s σ σ1 r HR Hst). simpl.
    destruct (run o s) as [r' s'|s'|u]; simpl in Hp; [| |done].
    + destruct Hp as (-> & HR' & Hc).
      destruct (IH (Ret r) s' σ1 HR' Hv) as (rs & s2 & σ2 & E & Hr & HR2 & Hn).
      exists (Ret r :: rs), s2, σ2. unfold bind. rewrite E. split_and!; [done|by econstructor|done|].
      intros Hcs. rewrite elem_of_cons. intros [?|?]; [done|]. by apply (Hn (Hc Hcs)).
    + destruct Hp as (Hnc & σ' & Hex & HR').
      destruct (IH Exn s' σ' HR' (Hexn _ Hex)) as (rs & s2 & σ2 & E & Hr & HR2 & Hn).
      exists (Exn :: rs), s2, σ2. unfold bind. rewrite E. split_and!; [done|by econstructor|done|done].
Qed.

Lemma ops_sim : simulates → ∀ os s σ rs σ', R s σ → calm s → spec_exec step os σ = Some (rs, σ') →
  ∃ s', run_ops run os s = Ok rs s' ∧ R s' σ' ∧ calm s'.
Proof.
  intros Hsim os. induction os as [|o os IH]; intros s σ rs σ' HR Hc Hsp; simpl in Hsp.
  - injection Hsp as <- <-. exists s. done.
  - destruct (step o σ) as [[σ1 r]|] eqn:Hst; [|done]. simpl in Hsp.
    destruct (spec_exec step os σ1) as [[rs1 σ2]|] eqn:Hs2; [|done]. simpl in Hsp. injection Hsp as <- <-.
    assert (Hp := Hsim o s σ σ1 r HR Hst). simpl. unfold bind at 1.
    destruct (run o s) as [r' s'|s'|u]; simpl in Hp; [| |done].
    + destruct Hp as (-> & HR' & Hc'). destruct (IH s' σ1 rs1 σ2 HR' (Hc' Hc) Hs2) as (s2 & E & HR2 & Hc2).
      exists s2. unfold bind. by rewrite E.
    + by destruct Hp.
Qed.
End sim.

(** The same for specifications that leave the result or the new state open:
    [pre] is the precondition of a call and [rstep] its possible effects. *)
Section rspec.
Context {Op Out A : Type}.
Context (pre : Op → A → Prop) (rstep : Op → A → Out → A → Prop) (exn : Op → A → A → Prop).

Inductive rspec_run : prog Op Out → A → list (outcome Out) → A → Prop :=
| rr_done σ : rspec_run Done σ [] σ
| rr_ret o k σ σ1 r rs σ2 :
    rstep o σ r σ1 → rspec_run (k (Ret r)) σ1 rs σ2 → rspec_run (Do o k) σ (Ret r :: rs) σ2
| rr_exn o k σ σ1 rs σ2 :
    exn o σ σ1 → rspec_run (k Exn) σ1 rs σ2 → rspec_run (Do o k) σ (Exn :: rs) σ2.

Fixpoint rvalid (p : prog Op Out) (σ : A) : Prop :=
  match p with
  | Done => True
  | Do o k =>
      pre o σ ∧ (∀ r σ1, rstep o σ r σ1 → rvalid (k (Ret r)) σ1) ∧
      (∀ σ1, exn o σ σ1 → rvalid (k Exn) σ1)
  end.

Context {St : Type} (run : Op → M St Out) (R : St → A → Prop) (calm : St → Prop).
Definition rsimulates : Prop := ∀ o s σ, R s σ → pre o σ →
  post (run o s)
    (λ r s', ∃ σ1, rstep o σ r σ1 ∧ R s' σ1 ∧ (calm s → calm s'))
    (λ s', ¬ calm s ∧ ∃ σ', exn o σ σ' ∧ R s' σ').

Lemma rclient_sim : rsimulates → ∀ p s σ, R s σ → rvalid p σ →
  ∃ rs s' σ', run_prog run p s = Ok rs s' ∧ rspec_run p σ rs σ' ∧ R s' σ' ∧
              (calm s → Exn ∉ rs).
Proof.
  intros Hsim p. induction p as [|o k IH]; intros s σ HR Hv.
  - exists [], s, σ. split_and!; [done|constructor|done|]. intros _ H. by apply elem_of_nil in H.
  - destruct Hv as (Hpre & Hv & Hexn).
    assert (Hp := Hsim o s σ HR Hpre). simpl.
    destruct (run o s) as [r s'|s'|u]; simpl in Hp; [| |done].
    + destruct Hp as (σ1 & Hst & HR' & Hc).
      destruct (IH (Ret r) s' σ1 HR' (Hv _ _ Hst)) as (rs & s2 & σ2 & E & Hr & HR2 & Hn).
      exists (Ret r :: rs), s2, σ2. unfold bind. rewrite E. split_and!; [done|by econstructor|done|].
      intros Hcs. rewrite elem_of_cons. intros [?|?]; [done|]. by apply (Hn (Hc Hcs)).
    + destruct Hp as (Hnc & σ' & Hex & HR').
      destruct (IH Exn s' σ' HR' (Hexn _ Hex)) as (rs & s2 & σ2 & E & Hr & HR2 & Hn).
      exists (Exn :: rs), s2, σ2. unfold bind. rewrite E. split_and!; [done|by econstructor|done|done].
Qed.
End rspec.
