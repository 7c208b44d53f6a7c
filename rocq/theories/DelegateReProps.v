(** Theorems about functors that use delegates while they run (property C166). *)
From stdpp Require Import list gmap.
From Coq Require Import Lia.
From Verif Require Import Base Client DelegateModel DelegateSpec DelegateReModel.
From Verif Require DelegateProofs DelegateProps.
Local Open Scope mon_scope.
Local Arguments objs {_ _}. Local Arguments heap {_ _}. Local Arguments born {_ _}. Local Arguments dead {_ _}.
Local Arguments thrown {_ _}. Local Arguments next {_ _}.

(** ** What is expected *)
Section spec.
Context {Ty S A R : Type} `{EqDecision Ty}.
Context (big : Ty → bool) (is_null : Ty → S → bool).
Context (code : Ty → A → body Ty S A R).

(** The delegates that a call gives another functor, or takes theirs from *)
Definition replaced (o : op Ty S A) : list nat :=
  match o with
  | OMoveNew j => [j]
  | ODestroy i | OAssignNull i | OAssignFn i _ _ _ => [i]
  | OAssign i j | OSwap i j => [i; j]
  | _ => []
  end.
(** How often the functor of each delegate has been replaced *)
Notation turns := (nat → nat).
Definition replace (o : op Ty S A) (g : turns) : turns := λ i, if decide (i ∈ replaced o) then Datatypes.S (g i) else g i.
Definition answer (r : option R) : out S R := match r with Some v => RVal v | None => RExn FunctorExn end.

(** Running a body, which belongs to the functor of type [ty] in delegate [i] (or to the
    main program): the functor may use its members as long as it has not been replaced;
    the other calls do what [step] says. *)
Inductive exec : option (Ty * nat * nat) → body Ty S A R → dst Ty S → turns → option R → dst Ty S → turns → Prop :=
| exec_return me r σ g : exec me (Return r) σ g r σ g
| exec_read ty i k v σ g r σ' g' : has σ i = Some (Some (ty, v)) →
    exec (Some (ty, i, g i)) (k v) σ g r σ' g' → exec (Some (ty, i, g i)) (Read k) σ g r σ' g'
| exec_write ty i k v w σ g r σ' g' : has σ i = Some (Some (ty, v)) →
    exec (Some (ty, i, g i)) k (set σ i (Some (ty, w))) g r σ' g' → exec (Some (ty, i, g i)) (Write w k) σ g r σ' g'
| exec_do me o k σ g x σ1 r σ' g' : (∀ i a, o ≠ OCall i a) → step big is_null (@no_call Ty S A R) o σ = Some (σ1, x) →
    exec me (k x) σ1 (replace o g) r σ' g' → exec me (Do o k) σ g r σ' g'
| exec_empty me i a k σ g r σ' g' : has σ i = Some None →
    exec me (k (RExn BadFunctionCall)) σ g r σ' g' → exec me (Do (OCall i a) k) σ g r σ' g'
| exec_call me i a k ty v σ g r1 σ1 g1 r σ' g' : has σ i = Some (Some (ty, v)) →
    exec (Some (ty, i, g i)) (code ty a) σ g r1 σ1 g1 →
    exec me (k (answer r1)) σ1 g1 r σ' g' → exec me (Do (OCall i a) k) σ g r σ' g'.
End spec.

(** ** Proofs *)
Section proofs.
Context {Ty S A R : Type} `{EqDecision Ty}.
Context (big pinned : Ty → bool) (is_null : Ty → S → bool).
Context (code : Ty → A → body Ty S A R).
Context (Hpin : ∀ ty, big ty = false → pinned ty = false).
Notation st := (st Ty S).
Notation Rel := (DelegateProofs.Rel big).

(** What does not change delegate [d] *)
Definition keeps (d : nat) {B} (m : M st B) : Prop := ∀ s, d < length (objs s) →
  match m s with Ok _ s' | Throw s' => d < length (objs s') ∧ objs s' !! d = objs s !! d | UB _ => True end.
Lemma keeps_bind d {B C} (m : M st B) (k : B → M st C) : keeps d m → (∀ b, keeps d (k b)) → keeps d (bind m k).
Proof.
  intros Hm Hk s Hs. specialize (Hm s Hs). unfold bind. destruct (m s) as [b s'|s'|u]; [|done..].
  destruct Hm as [L E]. specialize (Hk b s' L). destruct (k b s'); [..|done]; by rewrite <- E.
Qed.
Lemma keeps_ret d {B} (b : B) : keeps d (ret b). Proof. by intros s Hs. Qed.
Lemma keeps_fail d {B} u : keeps d (fail u : M st B). Proof. by intros s Hs. Qed.
Lemma keeps_throw d {B} e : keeps d (throw_ e : M st B). Proof. by intros s Hs. Qed.
Lemma keeps_get d e : keeps d (get e : M st _).
Proof. intros s Hs. unfold get. by destruct (objs s !! e) as [[]|]. Qed.
Lemma keeps_put d e x : e ≠ d → keeps d (put e x).
Proof. intros n s Hs. simpl. by rewrite insert_length, list_lookup_insert_ne. Qed.
Lemma keeps_set_storage d e x : e ≠ d → keeps d (set_storage e x : M st _).
Proof. intros n. apply keeps_bind; [apply keeps_get|]. intros y. by apply keeps_put. Qed.
Lemma keeps_set_callable d e x : e ≠ d → keeps d (set_callable e x : M st _).
Proof. intros n. apply keeps_bind; [apply keeps_get|]. intros y. by apply keeps_put. Qed.
Lemma keeps_set_manager d e x : e ≠ d → keeps d (set_manager e x : M st _).
Proof. intros n. apply keeps_bind; [apply keeps_get|]. intros y. by apply keeps_put. Qed.
Lemma keeps_birth d : keeps d (birth : M st _). Proof. by intros s Hs. Qed.
Lemma keeps_death d i : keeps d (death i : M st _).
Proof. intros s Hs. unfold death. by case_decide. Qed.
Lemma keeps_alive d i : keeps d (alive i : M st _).
Proof. intros s Hs. unfold alive. by case_decide. Qed.
Lemma keeps_hread d p : keeps d (hread p : M st _).
Proof. intros s Hs. unfold hread. by destruct (heap s !! p). Qed.
Lemma keeps_hwrite d p o : keeps d (hwrite p o : M st _). Proof. by intros s Hs. Qed.
Lemma keeps_halloc d o : keeps d (halloc o : M st _). Proof. by intros s Hs. Qed.
Lemma keeps_hfree d p : keeps d (hfree p : M st _).
Proof. intros s Hs. unfold hfree. by destruct (heap s !! p). Qed.
Lemma keeps_on_throw d {B} (m : M st B) h : keeps d m → keeps d h → keeps d (on_throw m h).
Proof.
  intros Hm Hh s Hs. specialize (Hm s Hs). unfold on_throw. destruct (m s) as [b s'|s'|u]; [done| |done].
  destruct Hm as [L E]. specialize (Hh s' L). destruct (h s'); [..|done]; by rewrite <- E.
Qed.
Lemma keeps_catch d m : keeps d m → keeps d (catch m : M st (out S R)).
Proof.
  intros Hm s Hs. specialize (Hm s Hs). unfold catch. destruct (m s) as [b s'|s'|u]; [done| |done].
  by destruct (thrown s').
Qed.
Lemma keeps_new_var d ctor : (∀ n, n ≠ d → keeps d (ctor n)) → keeps d (new_var ctor : M st (out S R)).
Proof.
  intros H1 s Hs. unfold new_var, bind, gets, modify.
  specialize (H1 (length (objs s)) ltac:(lia) (St (objs s ++ [None]) (heap s) (next s) (born s) (dead s) (thrown s))).
  simpl in H1. rewrite app_length in H1. specialize (H1 ltac:(simpl; lia)).
  rewrite lookup_app_l in H1 by done.
  by destruct (ctor (length (objs s)) _).
Qed.
Create HintDb keeps.
Hint Resolve keeps_bind keeps_ret keeps_fail keeps_throw keeps_get keeps_put keeps_set_storage keeps_set_callable
  keeps_set_manager keeps_birth keeps_death keeps_alive keeps_hread keeps_hwrite keeps_halloc keeps_hfree keeps_on_throw
  keeps_catch keeps_new_var : keeps.
Ltac kp := repeat (intros; first [ solve [eauto 3 with keeps]
  | match goal with
    | |- keeps _ (if ?b then _ else _) => destruct b
    | |- keeps _ (match ?x with _ => _ end) => destruct x
    | |- keeps _ (bind _ _) => apply keeps_bind
    | |- keeps _ (on_throw _ _) => apply keeps_on_throw
    | |- keeps _ (catch _) => apply keeps_catch
    | |- keeps _ (new_var _) => apply keeps_new_var
    end ]).
Lemma keeps_inline d ty e : keeps d (inline pinned ty e : M st _). Proof. unfold inline. kp. Qed.
Lemma keeps_pointer d e : keeps d (pointer e : M st _). Proof. unfold pointer. kp. Qed.
Lemma keeps_on_heap d ty p : keeps d (on_heap ty p : M st _). Proof. unfold on_heap. kp. Qed.
Hint Resolve keeps_inline keeps_pointer keeps_on_heap : keeps.
Lemma keeps_create d e ty v t : e ≠ d → keeps d (create_functor big e ty v t : M st _).
Proof. unfold create_functor. kp. Qed.
Lemma keeps_destroy d e ty : keeps d (destroy_functor big pinned ty e : M st _).
Proof. unfold destroy_functor. kp. Qed.
Hint Resolve keeps_create keeps_destroy : keeps.
Lemma keeps_default d e : e ≠ d → keeps d (ctor_default e : M st _).
Proof. unfold ctor_default. kp. Qed.
Hint Resolve keeps_default : keeps.
Lemma keeps_move d e j : e ≠ d → j ≠ d → keeps d (ctor_move e j : M st _).
Proof. unfold ctor_move. kp. Qed.
Lemma keeps_fn d e ty v t : e ≠ d → keeps d (ctor_fn big is_null e ty v t : M st _).
Proof. unfold ctor_fn. kp. Qed.
Lemma keeps_dtor d e : e ≠ d → keeps d (dtor big pinned e : M st _).
Proof. unfold dtor. kp. Qed.
Lemma keeps_swap d e j : e ≠ d → j ≠ d → keeps d (swap e j : M st _).
Proof. unfold swap. kp. Qed.
Hint Resolve keeps_move keeps_fn keeps_dtor keeps_swap : keeps.
Lemma keeps_assign_fn d e ty v t : d ≠ 0 → e ≠ d → keeps d (assign_fn big pinned is_null e ty v t : M st _).
Proof.
  intros n n' s Hs. unfold assign_fn.
  assert (H1 : keeps d (ctor_fn big is_null 0 ty v t ;;; swap 0 e ;;; dtor big pinned 0)) by (kp; auto with keeps).
  specialize (H1 s Hs). by destruct ((ctor_fn big is_null 0 ty v t ;;; swap 0 e ;;; dtor big pinned 0) s).
Qed.
Lemma keeps_op i o : (∀ j a, o ≠ OCall j a) → i ∉ replaced o → keeps (1 + i) (run_op big pinned is_null (@no_call Ty S A R) o).
Proof.
  intros Hc Hi. unfold run_op. apply keeps_catch.
  destruct o as [|ty v t|j|j|j j'|j|j ty v t|j j'|j a|j|j ty]; simpl in Hi.
  all: repeat setoid_rewrite elem_of_cons in Hi; try rewrite elem_of_nil in Hi.
  - kp.
  - kp.
  - apply keeps_new_var. intros n Hn. apply keeps_move; [done|]. intros [= ->]. tauto.
  - apply keeps_bind; [|kp]. apply keeps_dtor. intros [= ->]. tauto.
  - apply keeps_bind; [|kp]. unfold assign_move. apply keeps_bind; [apply keeps_move; [done|intros [= ->]; tauto]|intros _].
    apply keeps_bind; [apply keeps_swap; [done|intros [= ->]; tauto]|intros _]. by apply keeps_dtor.
  - apply keeps_bind; [|kp]. assert (1 + j ≠ 1 + i) by (intros [= ->]; tauto). unfold assign_null. kp.
  - apply keeps_bind; [|kp]. apply keeps_assign_fn; [done|]. intros [= ->]. tauto.
  - apply keeps_bind; [|kp]. apply keeps_swap; intros [= ->]; tauto.
  - by destruct (Hc j a).
  - unfold op_bool. kp.
  - unfold handle_read, handle. kp.
Qed.

(** The running functor at [l] is the one in delegate [i]. *)
Definition anchored (i : nat) (l : self) (s : st) : Prop := ∃ x, objs s !! (1 + i) = Some (Some x) ∧
  match l with
  | InStorage d id => d = 1 + i ∧ ∃ ty v home, m_storage x = Inline ty v id home
  | OnHeap p => m_storage x = Ptr p
  end.
Lemma anchored_keeps i l s s' : objs s' !! (1 + i) = objs s !! (1 + i) → anchored i l s → anchored i l s'.
Proof. intros E (x & Hx & Hl). exists x. by rewrite E. Qed.
Lemma read_ok s σ i l ty v : Rel s σ → anchored i l s → has σ i = Some (Some (ty, v)) →
  read_self pinned ty l s = Ok v s.
Proof.
  intros [ks HI] (x & Hx & Hl) Hi%DelegateProofs.has_Some.
  destruct (DelegateProofs.inv_live _ _ _ _ _ _ HI Hi) as (x' & k & Hx' & Hk & _ & _ & id & Hh).
  assert (x' = x) as -> by congruence. destruct (big ty) eqn:Hb.
  - destruct Hh as (p & Hst & Hp & ->). destruct l as [d id'|p']; [destruct Hl as (_ & ? & ? & ? & ?); congruence|].
    assert (p' = p) as -> by congruence. simpl. unfold on_heap, hread, bind. rewrite Hp. simpl. by rewrite decide_True.
  - destruct Hh as ((home & Hst) & ->). destruct l as [d id'|p']; [|congruence].
    destruct Hl as (-> & ty' & v' & home' & Hl). rewrite Hst in Hl. injection Hl as <- <- <- <-.
    unfold read_self, write_self, inline, alive, bind. rewrite (DelegateProofs.get_Ok _ _ _ Hx), Hst. cbn -[Nat.add].
    rewrite decide_True by done.
    rewrite decide_False by (eapply DelegateProofs.alive_id; [apply HI|exact Hk]).
    rewrite (Hpin ty Hb). simpl. by rewrite Nat.eqb_refl.
Qed.
Lemma write_ok s σ i l ty v w : Rel s σ → anchored i l s → has σ i = Some (Some (ty, v)) →
  ∃ s', write_self pinned ty l w s = Ok tt s' ∧ Rel s' (set σ i (Some (ty, w))) ∧ ∀ j l', anchored j l' s → anchored j l' s'.
Proof.
  intros [ks HI] (x & Hx & Hl) Hi%DelegateProofs.has_Some.
  destruct (DelegateProofs.inv_live _ _ _ _ _ _ HI Hi) as (x' & k & Hx' & Hk & Hm & Hc & id & Hh).
  assert (x' = x) as -> by congruence. assert (HL := proj2 HI). assert (HS := proj1 HI).
  change (Rel ?s' (set σ i ?f)) with (DelegateProofs.Inv big s' (<[1 + i := Some f]> (None :: σ))).
  set (τ := None :: σ) in *. clearbody τ. set (d0 := 1 + i) in *.
  destruct (big ty) eqn:Hb.
  - destruct Hh as (p & Hst & Hp & ->). destruct l as [d id'|p']; [destruct Hl as (_ & ? & ? & ? & ?); congruence|].
    assert (p' = p) as -> by congruence. simpl. unfold on_heap, hread, bind. rewrite Hp. simpl. rewrite decide_True by done.
    simpl. eexists. split_and!; [done| |].
    + exists (<[1 + i:=Some (id, Some p)]> ks). split; cbn [objs heap next born dead].
      * rewrite <- (list_insert_id (objs s) (1 + i) (Some x)) by done. eapply DelegateProofs.shape_upd; [exact HS| |].
        -- intros j k' q n Hk' Hq. apply lookup_insert_ne. intros <-. apply n.
           eapply (DelegateProofs.omap_NoDup_inj (λ k : option (nat * option nat), k ≫= snd));
             [by apply (DelegateProofs.ledger_nodup _ _ HL)|exact Hk'|exact Hk|done..].
        -- simpl. split_and!; [done..|]. exists id. rewrite Hb. exists p. by rewrite lookup_insert.
      * rewrite list_insert_id by done. destruct HL as (H1 & H2 & H3). split_and!; simpl; [done| |].
        -- rewrite H2. rewrite <- (insert_delete (heap s) p (ty, v, id) Hp) at 1.
           rewrite map_to_list_insert by apply lookup_delete.
           rewrite <- insert_delete_insert, map_to_list_insert by apply lookup_delete. done.
        -- intros q [o Hq]. apply H3. destruct (decide (p = q)) as [->|n]; [by rewrite Hp|].
           rewrite lookup_insert_ne in Hq by done. by rewrite Hq.
    + intros j l'. by apply anchored_keeps.
  - destruct Hh as ((home & Hst) & ->). destruct l as [d id'|p']; [|congruence].
    destruct Hl as (-> & ty' & v' & home' & Hl). rewrite Hst in Hl. injection Hl as <- <- <- <-.
    unfold read_self, write_self, inline, alive, bind. rewrite (DelegateProofs.get_Ok _ _ _ Hx), Hst. cbn -[Nat.add].
    rewrite decide_True by done.
    rewrite decide_False by (eapply DelegateProofs.alive_id; [apply HI|exact Hk]).
    rewrite (Hpin ty Hb). simpl. rewrite Nat.eqb_refl.
    unfold set_storage, bind. rewrite (DelegateProofs.get_Ok _ _ _ Hx). simpl. eexists. split_and!; [done| |].
    + exists (<[1 + i:=Some (id, None)]> ks). split; cbn [objs heap next born dead].
      * apply DelegateProofs.shape_put; [done|]. simpl. split_and!; [done..|]. exists id. rewrite Hb. eauto.
      * rewrite (list_insert_id ks) by done. exact HL.
    + intros j l' (y & Hy & Hl'). destruct (decide (j = i)) as [->|n].
      * change (1 + i) with d0 in Hy. assert (y = x) as -> by congruence. eexists. simpl. split; [apply list_lookup_insert; by eapply lookup_lt_Some|].
        simpl. rewrite Hst in Hl'. destruct l' as [d id'|p']; [|done].
        destruct Hl' as (-> & ? & ? & ? & [= <- <- <- <-]). eauto.
      * exists y. split; [|done]. cbn [objs]. rewrite list_lookup_insert_ne by (unfold d0; lia). done.
Qed.
Lemma locate_ok s σ i ty v : Rel s σ → has σ i = Some (Some (ty, v)) →
  ∃ x l, get (1 + i) s = Ok x s ∧ m_manager x = Some ty ∧ m_callable x = Some ty ∧
    locate big pinned ty (1 + i) s = Ok l s ∧ anchored i l s.
Proof.
  intros [ks HI] Hi%DelegateProofs.has_Some.
  destruct (DelegateProofs.inv_live _ _ _ _ _ _ HI Hi) as (x & k & Hx & Hk & Hm & Hc & id & Hh).
  exists x. unfold locate. rewrite (DelegateProofs.get_Ok _ _ _ Hx). destruct (big ty) eqn:Hb.
  - destruct Hh as (p & Hst & Hp & ->). exists (OnHeap p). split_and!; [done..| |].
    + unfold pointer, on_heap, hread, bind. rewrite (DelegateProofs.get_Ok _ _ _ Hx), Hst. simpl. rewrite Hp. simpl.
      by rewrite decide_True.
    + exists x. done.
  - destruct Hh as ((home & Hst) & ->). exists (InStorage (1 + i) id). split_and!; [done..| |].
    + unfold inline, alive, bind. rewrite (DelegateProofs.get_Ok _ _ _ Hx), Hst. simpl. rewrite decide_True by done.
      rewrite decide_False by (eapply DelegateProofs.alive_id; [apply HI|exact Hk]).
      by rewrite (Hpin ty Hb).
    + exists x. simpl. eauto 10.
Qed.

Definition result (r : option R) (s : st) : res st R := match r with Some v => Ok v s | None => Throw s end.
(** The member pointers of a frame are right while its functor has not been replaced. *)
Definition frame (me : option (Ty * nat * nat)) (me' : option (Ty * self)) (g : nat → nat) (s : st) : Prop :=
  match me, me' with
  | Some (ty, i, n), Some (ty', l) => ty' = ty ∧ n ≤ g i ∧ (g i = n → anchored i l s)
  | None, None => True
  | _, _ => False
  end.
Definition stays (g g' : nat → nat) (s s' : st) : Prop :=
  (∀ i, g i ≤ g' i) ∧ ∀ i l, g' i = g i → anchored i l s → anchored i l s'.
Lemma stays_trans g g1 g2 s s1 s2 : stays g g1 s s1 → stays g1 g2 s1 s2 → stays g g2 s s2.
Proof.
  intros [H1 H2] [H3 H4]. split; [intros i; specialize (H1 i); specialize (H3 i); lia|].
  intros i l E Ha. specialize (H1 i). specialize (H3 i). apply H4; [lia|]. apply H2; [lia|done].
Qed.
Lemma frame_stays me me' g g' s s' : stays g g' s s' → frame me me' g s → frame me me' g' s'.
Proof.
  intros [H1 H2] Hf. destruct me as [[[ty i] n]|], me' as [[ty' l]|]; simpl in *; try done.
  destruct Hf as (-> & Hn & Ha). specialize (H1 i). split_and!; [done|lia|]. intros E.
  apply H2; [lia|]. apply Ha. lia.
Qed.

Lemma body_sim me b σ g r σ' g' : exec big is_null code me b σ g r σ' g' → ∀ me' s, Rel s σ → frame me me' g s →
  ∃ f0 s', (∀ f, f0 ≤ f → run_body big pinned is_null code f me' b s = result r s') ∧ Rel s' σ' ∧ stays g g' s s' ∧
    (r = None → thrown s' = Some FunctorExn).
Proof.
  induction 1 as [me r σ g|ty i k v σ g r σ' g' Hi _ IH|ty i k v w σ g r σ' g' Hi _ IH|me o k σ g x σ1 r σ' g' Hc Hst _ IH
    |me i a k σ g r σ' g' Hi _ IH|me i a k ty v σ g r1 σ1 g1 r σ' g' Hi _ IH1 _ IH2]; intros me' s HR Hf.
  - destruct r as [v|].
    + exists 1, s. split_and!; [|done|by split|done]. intros [|f] Hle; [lia|done].
    + exists 1, (St (objs s) (heap s) (next s) (born s) (dead s) (Some FunctorExn)).
      split_and!; [|done|by split|done]. intros [|f] Hle; [lia|done].
  - destruct me' as [[ty' l]|]; [|done]. destruct (Hf) as (-> & _ & Ha). specialize (Ha eq_refl).
    destruct (IH (Some (ty, l)) s HR Hf) as (f0 & s' & E & H'). exists (Datatypes.S f0), s'. split; [|done].
    intros [|f] Hle; [lia|]. simpl. unfold bind. rewrite (read_ok _ _ _ _ _ _ HR Ha Hi). apply E. lia.
  - destruct me' as [[ty' l]|]; [|done]. destruct (Hf) as (-> & Hn & Ha). specialize (Ha eq_refl).
    destruct (write_ok _ _ _ _ _ _ w HR Ha Hi) as (s1 & E1 & HR1 & Hk).
    destruct (IH (Some (ty, l)) s1 HR1) as (f0 & s' & E & HR' & Hs & Ht). { simpl. auto. }
    exists (Datatypes.S f0), s'. split_and!; [|done| |done].
    + intros [|f] Hle; [lia|]. simpl. unfold bind. rewrite E1. apply E. lia.
    + eapply stays_trans; [|exact Hs]. split; [done|]. auto.
  - assert (H := DelegateProofs.delegate_simulates big pinned is_null (@no_call Ty S A R) Hpin o s σ σ1 x HR Hst).
    destruct (run_op big pinned is_null no_call o s) as [x' s1|s1|u] eqn:E1; simpl in H; [|by destruct H|done].
    destruct H as (-> & HR1 & _).
    assert (Hs1 : stays g (replace o g) s s1).
    { unfold replace. split; [intros i; case_decide; lia|]. intros i l E Ha. case_decide as Hi; [lia|].
      destruct (Ha) as (y & Hy & _). assert (Hl := lookup_lt_Some _ _ _ Hy).
      assert (Hk := keeps_op i o Hc Hi s Hl). rewrite E1 in Hk. destruct Hk as [_ Hk].
      by apply (anchored_keeps i l s). }
    destruct (IH me' s1 HR1) as (f0 & s' & E & HR' & Hs & Ht); [by eapply frame_stays|].
    exists (Datatypes.S f0), s'. split_and!; [|done|by eapply stays_trans|done].
    intros [|f] Hle; [lia|]. simpl. unfold bind at 1.
    destruct o; try (by edestruct Hc); rewrite E1; apply E; lia.
  - destruct (HR) as [ks HI]. assert (Hi' := DelegateProofs.has_Some _ _ _ Hi).
    destruct (DelegateProofs.inv_live _ _ _ _ _ _ HI Hi') as (x & t & Hx & _ & Hm & _).
    set (s1 := St (objs s) (heap s) (next s) (born s) (dead s) (Some BadFunctionCall)).
    destruct (IH me' s1) as (f0 & s' & E & HR' & Hs & Ht); [done|done|].
    exists (Datatypes.S f0), s'. split_and!; [|done| |done].
    + intros [|f] Hle; [lia|]. simpl. unfold bind at 1, catch, bind at 1. rewrite (DelegateProofs.get_Ok (Datatypes.S i) _ _ Hx), Hm. simpl.
      apply E. lia.
    + eapply stays_trans; [|exact Hs]. by split.
  - destruct (locate_ok _ _ _ _ _ HR Hi) as (x & l & Ex & Hm & Hc & El & Ha).
    destruct (IH1 (Some (ty, l)) s HR) as (f1 & s1 & E1 & HR1 & Hs1 & Ht1). { simpl. auto. }
    destruct (IH2 me' s1 HR1) as (f2 & s2 & E2 & HR2 & Hs2 & Ht2). { by eapply frame_stays. }
    exists (Datatypes.S (f1 + f2)), s2. split_and!; [|done|by eapply stays_trans|done].
    intros [|f] Hle; [lia|]. simpl. unfold bind at 1, catch. unfold bind at 1. simpl in Ex. rewrite Ex, Hm, Hc.
    unfold bind at 1. simpl in El. rewrite El. unfold bind at 1. rewrite E1 by lia.
    destruct r1 as [v1|]; simpl; [|rewrite Ht1 by done]; apply E2; lia.
Qed.
Lemma init_Rel : Rel (init : st) [].
Proof.
  exists [None]. split; [|split_and!; simpl].
  - split_and!; [done..|]. intros [|i] o a k Ho Ha Hk; simpl in *; by simplify_eq.
  - done.
  - by rewrite map_to_list_empty.
  - intros p' [? ?]. by rewrite lookup_empty in *.
Qed.

(** ** A functor that is destroyed while it runs *)
Definition gone (l : self) (s : st) : Prop :=
  match l with InStorage d id => id ∈ dead s | OnHeap p => heap s !! p = None end.
Lemma gone_read l s ty : gone l s → ∃ u, read_self pinned ty l s = UB u.
Proof.
  destruct l as [d id|p]; simpl; intros H.
  - unfold inline, bind, get. destruct (objs s !! d) as [[x|]|]; [|eauto..]. destruct (m_storage x) as [|ty' v id' home|p]; [eauto| |eauto].
    case_decide; [|eauto]. unfold alive. case_decide as Hd; [eauto|].
    destruct (pinned ty && negb (home =? d)); [eauto|]. simpl.
    destruct (id' =? id) eqn:E; [|eauto]. apply Nat.eqb_eq in E as ->. done.
  - unfold on_heap, hread, bind. rewrite H. eauto.
Qed.
(** Where the functor of a delegate is *)
Definition lives (l : self) (d : nat) (x : delegate Ty S) : Prop :=
  match l with
  | InStorage d id => ∃ ty v home, m_storage x = Inline ty v id home
  | OnHeap p => m_storage x = Ptr p
  end.
Lemma destroy_gone ty d x l s s' : objs s !! d = Some (Some x) → lives l d x →
  destroy_functor big pinned ty d s = Ok tt s' → gone l s'.
Proof.
  intros Hx Hl E. unfold destroy_functor in E. destruct (big ty).
  - unfold pointer, bind in E. rewrite (DelegateProofs.get_Ok _ _ _ Hx) in E.
    destruct (m_storage x) as [|ty' v id' home|p] eqn:Hst; try done. simpl in E.
    unfold on_heap, hread, bind in E. destruct (heap s !! p) as [o|] eqn:Hp; [|done]. case_decide; [|done]. simpl in E.
    unfold death in E. case_decide; [done|]. unfold hfree in E. simpl in E. rewrite Hp in E. injection E as <-.
    destruct l as [d' id|p']; simpl in Hl; [destruct Hl as (? & ? & ? & ?); congruence|]. assert (p' = p) as -> by congruence. simpl.
    apply lookup_delete.
  - unfold inline, bind in E. rewrite (DelegateProofs.get_Ok _ _ _ Hx) in E.
    destruct (m_storage x) as [|ty' v id' home|p] eqn:Hst; try done.
    case_decide; [|done]. unfold alive in E. case_decide; [done|].
    destruct (pinned ty && negb (home =? d)); [done|]. simpl in E.
    unfold death in E. case_decide; [done|]. injection E as <-.
    destruct l as [d' id|p']; simpl in Hl; [|congruence]. destruct Hl as (? & ? & ? & Hl). simpl. assert (id = id') as -> by congruence.
    apply elem_of_cons; auto.
Qed.
Lemma dtor_gone ty d x l s s' : objs s !! d = Some (Some x) → m_manager x = Some ty → lives l d x →
  dtor big pinned d s = Ok tt s' → gone l s'.
Proof.
  intros Hx Hm Hl E. unfold dtor, bind in E. rewrite (DelegateProofs.get_Ok _ _ _ Hx), Hm in E.
  destruct (destroy_functor big pinned ty d s) as [[] s1|s1|u] eqn:E1; [|done..].
  assert (Hg := destroy_gone _ _ _ _ _ _ Hx Hl E1). injection E as <-. by destruct l.
Qed.
Lemma assign_fn_gone ty d x l s σ i ty' v' s' : Rel s σ → is_Some (has σ i) → d = 1 + i →
  objs s !! d = Some (Some x) → m_manager x = Some ty → lives l d x →
  assign_fn big pinned is_null d ty' v' false s = Ok tt s' → gone l s'.
Proof.
  intros HR [f Hi%DelegateProofs.has_Some] Hd Hx Hm Hl E. unfold assign_fn in E.
  assert (Hc := DelegateProofs.ctor_fn_post big is_null s (None :: σ) 0 ty' v' false HR eq_refl).
  assert (Hk := keeps_fn d 0 ty' v' false ltac:(lia) s (lookup_lt_Some _ _ _ Hx)).
  unfold bind at 1 in E. destruct (ctor_fn big is_null 0 ty' v' false s) as [[] s1|s1|u]; [|done..].
  destruct Hc as [_ [ks HI]]. destruct Hk as [_ Hk]. rewrite Hx in Hk.
  destruct (DelegateProofs.inv_live _ _ _ _ 0 (given is_null ty' v') HI) as (y & t & Hy & _); [done|].
  unfold bind at 1 in E. rewrite (DelegateProofs.swap_eq 0 d y x) in E by (done || lia).
  destruct (dtor big pinned 0 _) as [[] s2|s2|u] eqn:E2; [|done..]. injection E as <-.
  eapply (dtor_gone ty 0 x); [|exact Hm|by destruct l|exact E2].
  simpl. rewrite list_lookup_insert_ne by lia. apply list_lookup_insert. by eapply lookup_lt_Some.
Qed.
Lemma op_gone s σ i x l ty o s' : Rel s σ → has σ i ≠ None → objs s !! (1 + i) = Some (Some x) → m_manager x = Some ty →
  lives l (1 + i) x →
  (o = OAssignNull i ∨ o = ODestroy i ∨ ∃ ty' v', o = OAssignFn i ty' v' false) →
  run_op big pinned is_null (@no_call Ty S A R) o s = Ok RUnit s' → gone l s'.
Proof.
  intros HR Hi Hx Hm Hl Ho E. assert (is_Some (has σ i)) by (by destruct (has σ i)).
  unfold run_op, catch in E. destruct Ho as [->|[->|(ty' & v' & ->)]]; unfold bind at 1 in E.
  - unfold assign_null in E. unfold bind at 1 in E. rewrite (DelegateProofs.get_Ok _ _ _ Hx), Hm in E.
    unfold bind at 1 in E.
    assert (Ht : ∀ s, (set_manager (1 + i) None ;;; set_callable (1 + i) None : M st unit) s =
      match objs s !! (1 + i) with Some (Some y) =>
        (set_callable (1 + i) None : M st unit) (DelegateProofs.with_objs s (<[1 + i := Some (Delegate (m_storage y) (m_callable y) None)]> (objs s)))
      | _ => UB NoObject end).
    { intros s0. unfold set_manager, bind, get. by destruct (objs s0 !! (1 + i)) as [[y|]|]. }
    destruct (destroy_functor big pinned ty (1 + i) s) as [[] s1|s1|u] eqn:E1.
    + assert (Hg := destroy_gone _ _ _ _ _ _ Hx Hl E1). rewrite Ht in E.
      destruct (objs s1 !! (1 + i)) as [[y|]|]; try done.
      unfold set_callable, bind, get in E. match type of E with context [objs ?q !! (1 + i)] => destruct (objs q !! (1 + i)) as [[z|]|] end; try done.
      simpl in E. injection E as <-. by destruct l.
    + by destruct (thrown s1).
    + done.
  - destruct (dtor big pinned (1 + i) s) as [[] s1|s1|u] eqn:E1; [|by destruct (thrown s1)|done].
    injection E as <-. by eapply dtor_gone.
  - destruct (assign_fn big pinned is_null (1 + i) ty' v' false s) as [[] s1|s1|u] eqn:E1; [|by destruct (thrown s1)|done].
    injection E as <-. by eapply assign_fn_gone.
Qed.
End proofs.

(** ** C166 *)
Section theorems.
Context {Ty S A R : Type} `{EqDecision Ty}.
Context (big pinned : Ty → bool) (is_null : Ty → S → bool).
Context (code : Ty → A → body Ty S A R).

(** Functors may call delegates, their own too, create, replace and destroy delegates,
    and be replaced themselves as long as they no longer use their members: every such
    program runs without undefined behaviour, with the expected results, and afterwards
    every functor ever constructed is held by one delegate or has been destroyed once.
    Missing: functors that use their members after they have been replaced, see
    [delegate_inside_gone] and [delegate_inside_refuted], and small functors that are not
    relocatable, see [delegate_pinned_refuted]. *)
Theorem delegate_inside_partial main r σ g : DelegateProps.relocatable big pinned →
  exec big is_null code None main [] (λ _, 0) r σ g →
  ∃ f0 s, (∀ f, f0 ≤ f → run_body big pinned is_null code f None main init = match r with Some v => Ok v s | None => Throw s end) ∧
    NoDup (dead s) ∧ (∀ id, id ∈ dead s → id < born s) ∧ born s = length (dead s) + holding σ ∧ size (heap s) = holding_big big σ.
Proof.
  intros Hp He. destruct (body_sim big pinned is_null code Hp _ _ _ _ _ _ _ He None init) as (f0 & s & E & HR & _);
    [apply init_Rel|done|].
  exists f0, s. split; [exact E|]. by apply DelegateProps.ledger_facts.
Qed.

(** A functor that uses its members after its delegate has been emptied, destroyed or
    given another functor has undefined behaviour, whatever its size. *)
Theorem delegate_inside_gone main r σ g s f0 i ty v a o k k' : DelegateProps.relocatable big pinned →
  exec big is_null code None main [] (λ _, 0) r σ g →
  (∀ f, f0 ≤ f → run_body big pinned is_null code f None main init = match r with Some v => Ok v s | None => Throw s end) →
  has σ i = Some (Some (ty, v)) → code ty a = Do o (λ _, Read k) →
  o ∈ [OAssignNull i; ODestroy i] ∨ (∃ ty' v', o = OAssignFn i ty' v' false) →
  ∀ f, 3 ≤ f → ∃ u, run_body big pinned is_null code f None (Do (OCall i a) k') s = UB u.
Proof.
  intros Hp He Hrun Hi Hcode Ho [|[|[|f]]] Hf; try lia.
  destruct (body_sim big pinned is_null code Hp _ _ _ _ _ _ _ He None init) as (f1 & s1 & E1 & HR & _);
    [apply init_Rel|done|].
  assert (s1 = s) as ->.
  { specialize (Hrun (f0 + f1) ltac:(lia)). rewrite E1 in Hrun by lia. by destruct r; injection Hrun. }
  destruct (locate_ok big pinned Hp _ _ _ _ _ HR Hi) as (x & l & Ex & Hm & Hc & El & y & Hy & Hl).
  assert (y = x) as ->. { unfold get in Ex. rewrite Hy in Ex. by injection Ex. }
  assert (Ho' : o = OAssignNull i ∨ o = ODestroy i ∨ ∃ ty' v', o = OAssignFn i ty' v' false).
  { destruct Ho as [Ho|?]; [|auto]. rewrite !elem_of_cons, elem_of_nil in Ho. tauto. }
  assert (Hst : ∃ σ1, step big is_null (@no_call Ty S A R) o σ = Some (σ1, RUnit)).
  { destruct Ho' as [->|[->|(ty' & v' & ->)]]; simpl; rewrite Hi; simpl; eauto. }
  destruct Hst as [σ1 Hst].
  assert (H := DelegateProofs.delegate_simulates big pinned is_null (@no_call Ty S A R) Hp o s σ σ1 RUnit HR Hst).
  destruct (run_op big pinned is_null no_call o s) as [x' s2|s2|u] eqn:E2; simpl in H; [|by destruct H|done].
  destruct H as (-> & _).
  assert (Hg : gone l s2).
  { eapply (op_gone big pinned is_null s σ i x l ty o); [done|by rewrite Hi|done|done| |done|done].
    destruct l as [d id|p]; simpl in *; [|done]. by destruct Hl. }
  destruct (gone_read pinned l s2 ty Hg) as [u Hu]. exists u.
  simpl. unfold bind at 1, catch. unfold bind at 1. simpl in Ex. rewrite Ex, Hm, Hc. unfold bind at 1. simpl in El. rewrite El, Hcode.
  unfold bind at 1. unfold bind at 1.
  replace (match o with OCall i0 a0 => _ | _ => _ end) with (run_op big pinned is_null (@no_call Ty S A R) o).
  2:{ by destruct Ho' as [->|[->|(ty' & v' & ->)]]. }
  rewrite E2. unfold bind. by rewrite Hu.
Qed.
End theorems.

(** Functors of type 1 count their calls and call delegate 0 with a smaller argument,
    those of type 2 replace themselves by one of type 1, those of type 3 empty their delegate
    and read their members; type 2 is big. *)
Definition zbig (ty : nat) : bool := ty =? 2.
Definition znull (ty s : nat) : bool := false.
Definition zpin (ty : nat) : bool := false.
Definition zval (x : out nat nat) : nat := match x with RVal v => v | _ => 0 end.
Definition zcode (ty a : nat) : body nat nat nat nat :=
  match ty with
  | 1 => Read (λ v, Write (1 + v) (match a with
           | 0 => Return (Some v)
           | S a => Do (OCall 0 a) (λ x, Read (λ w, Return (Some (10 * w + zval x))))
           end))
  | 2 => Read (λ v, Do (OAssignFn 0 1 v false) (λ _, Do (OCall 0 a) (λ x, Return (Some (100 + zval x)))))
  | _ => Do (OAssignNull 0) (λ _, Read (λ v, Return (Some v)))
  end.
Definition zmain : body nat nat nat nat :=
  Do (ONewFn 2 4 false) (λ _, Do (OCall 0 2) (λ x, Do ONew (λ _, Do (OSwap 0 1) (λ _, Do (OCall 0 1) (λ y,
    Return (match y with RExn _ => Some (zval x) | _ => None end)))))).
Example delegate_inside_partial_ex : DelegateProps.relocatable zbig zpin ∧
  (∃ g, exec zbig znull zcode None zmain [] (λ _, 0) (Some 246) [Some None; Some (Some (1, 7))] g) ∧
  ∃ s, run_body zbig zpin znull zcode 20 None zmain init = Ok 246 s ∧ dead s = [0] ∧ born s = 2.
Proof.
  split_and!; [done| |eexists; vm_compute; done]. eexists. unfold zmain.
  eapply exec_do; [done|reflexivity|]. simpl.
  eapply (exec_call _ _ _ _ 0 2 _ 2 4); [done| |].
  { eapply (exec_read _ _ _ 2 0 _ 4); [done|]. eapply exec_do; [done|reflexivity|].
    eapply (exec_call _ _ _ _ 0 2 _ 1 4); [done| |eapply exec_return].
    simpl. eapply (exec_read _ _ _ 1 0 _ 4); [done|]. eapply (exec_write _ _ _ 1 0 _ 4); [done|].
    eapply (exec_call _ _ _ _ 0 1 _ 1 5); [done| |].
    - simpl. eapply (exec_read _ _ _ 1 0 _ 5); [done|]. eapply (exec_write _ _ _ 1 0 _ 5); [done|].
      eapply (exec_call _ _ _ _ 0 0 _ 1 6); [done| |].
      + simpl. eapply (exec_read _ _ _ 1 0 _ 6); [done|]. eapply (exec_write _ _ _ 1 0 _ 6); [done|]. eapply exec_return.
      + simpl. eapply (exec_read _ _ _ 1 0 _ 7); [done|]. eapply exec_return.
    - simpl. eapply (exec_read _ _ _ 1 0 _ 7); [done|]. eapply exec_return. }
  simpl. eapply exec_do; [done|reflexivity|]. eapply exec_do; [done|reflexivity|].
  eapply exec_empty; [done|]. eapply exec_return.
Qed.
Example delegate_inside_gone_ex :
  (∃ g, exec zbig znull zcode None (Do (ONewFn 3 4 false) (λ _, Return (Some 0))) [] (λ _, 0) (Some 0) [Some (Some (3, 4))] g) ∧
  run_body zbig zpin znull zcode 20 None (Do (ONewFn 3 4 false) (λ _, Do (OCall 0 0) (λ _, Return None))) init = UB Dangling.
Proof.
  split; [|by vm_compute]. eexists. eapply exec_do; [done|reflexivity|]. eapply exec_return.
Qed.
(** A functor that moves its delegate away and then writes to its members: a big functor
    keeps what it writes, a small one writes to the bytes that stay behind. *)
Theorem delegate_inside_refuted : ∃ (code : nat → nat → body nat nat nat nat) main,
  (∃ s, run_body (λ _, true) zpin znull code 20 None main init = Ok 9 s) ∧
  (∃ s, run_body (λ _, false) zpin znull code 20 None main init = Ok 3 s).
Proof.
  exists (λ ty a, match a with
                  | 0 => Do (OMoveNew 0) (λ _, Write 9 (Return (Some 0)))
                  | _ => Read (λ v, Return (Some v))
                  end),
    (Do (ONewFn 1 3 false) (λ _, Do (OCall 0 0) (λ _, Do (OCall 1 1) (λ x, Return (Some (zval x)))))).
  split; eexists; vm_compute; done.
Qed.

Definition delegate_re_theorems := (@delegate_inside_partial, @delegate_inside_gone, delegate_inside_refuted).
Print Assumptions delegate_re_theorems.
