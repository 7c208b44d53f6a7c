(** Theorems about xme::Delegate (properties C47-C49). *)
From stdpp Require Import list gmap.
From Coq Require Import Lia.
From Verif Require Import Base Client DelegateModel DelegateSpec.
From Verif Require DelegateProofs.
Local Arguments objs {_ _}. Local Arguments heap {_ _}. Local Arguments born {_ _}. Local Arguments dead {_ _}.

(** Small functors may be moved with memcpy. *)
Definition relocatable {Ty} (big pinned : Ty → bool) : Prop := ∀ ty, big ty = false → pinned ty = false.
(** States that client programs reach, with what the specification says about them. *)
Definition reach {Ty S A R} `{EqDecision Ty} big pinned is_null (call : Ty → S → A → S * option R)
    (s : st Ty S) (σ : dst Ty S) : Prop :=
  ∃ p rs, valid (step big is_null call) (λ _ _ _, False) p [] ∧
          run_prog (run_op big pinned is_null call) p (init (Ty := Ty)) = Ok rs s ∧
          spec_run (step big is_null call) (λ _ _ _, False) p [] rs σ.

(** A concrete instance: types 0 (null function pointers are value 0) and 1 are
    small, 2 and 3 are big, 3 and 4 hold a pointer to themselves; calling adds the
    argument to the value, the call throws when the sum is 7. *)
Definition xbig (ty : nat) : bool := (ty =? 2) || (ty =? 3).
Definition xpinned (ty : nat) : bool := (ty =? 3) || (ty =? 4).
Definition xpinned0 (ty : nat) : bool := ty =? 3.
Definition xnull (ty s : nat) : bool := (ty =? 0) && (s =? 0).
Definition xcall (ty s a : nat) : nat * option nat :=
  (s + a, if s + a =? 7 then None else Some (100 * ty + s + a)).
Lemma xreloc : relocatable xbig xpinned0.
Proof. intros ty. unfold xbig, xpinned0. destruct (ty =? 2), (ty =? 3); done. Qed.
Notation xrun := (run_op xbig xpinned0 xnull xcall).
Fixpoint straight {Ty S A R} (os : list (op Ty S A)) : prog (op Ty S A) (out S R) :=
  match os with [] => Done | o :: os' => Do o (λ _, straight os') end.
(** Straight programs are valid when the specification can execute them. *)
Lemma straight_valid {Ty S A R} `{EqDecision Ty} big is_null (call : Ty → S → A → S * option R) os σ rs σ' :
  spec_exec (step big is_null call) os σ = Some (rs, σ') →
  valid (step big is_null call) (λ _ _ _, False) (straight os) σ ∧
  spec_run (step big is_null call) (λ _ _ _, False) (straight os) σ (map Ret rs) σ'.
Proof.
  revert σ rs. induction os as [|o os IH]; intros σ rs E; simpl in E.
  - injection E as <- <-. split; [done|constructor].
  - destruct (step big is_null call o σ) as [[σ1 r]|] eqn:Es; [|done]. simpl in E.
    destruct (spec_exec _ os σ1) as [[rs1 σ2]|] eqn:E1; [|done]. simpl in E. injection E as <- <-.
    destruct (IH _ _ E1) as [Hv Hr]. split.
    + simpl. split; [|by intros]. exists σ1, r. done.
    + simpl. econstructor; done.
Qed.
(** A history: small and big functors, a null pointer, a throwing construction,
    moves (also onto itself), swaps, throwing calls. *)
Definition ex_ops : list (op nat nat nat) :=
  [ONew; ONewFn 1 5 false; ONewFn 2 3 false; ONewFn 0 0 true; ONewFn 2 8 true; OMoveNew 2; OCall 5 4; OCall 5 1;
   OCall 2 1; OSwap 1 5; OCall 1 0; OCall 5 2; OAssign 0 1; OAssign 0 0; OBool 1; OBool 0; OCall 0 10;
   OHandle 5 1; OHandle 5 2; OHandle 3 0; OAssignFn 0 2 6 false; OAssignFn 5 0 0 false; OAssignNull 5].
Definition ex_outs : list (out nat nat) :=
  [RNew 0; RNew 1; RNew 2; RNew 3; RExn FunctorExn; RNew 5; RExn FunctorExn; RVal 208;
   RExn BadFunctionCall; RUnit; RVal 208; RExn FunctorExn; RUnit; RUnit; RBool false; RBool true; RVal 218;
   RFn (Some 7); RFn None; RFn None; RUnit; RUnit; RUnit].
Definition ex_state : st nat nat :=
  match run_prog xrun (straight ex_ops) init with Ok _ s => s | _ => init end.
Definition ex_abs : dst nat nat := [Some (Some (2, 6)); Some None; Some None; Some None; None; Some None].
Lemma ex_reach : reach xbig xpinned0 xnull xcall ex_state ex_abs.
Proof.
  destruct (straight_valid xbig xnull xcall ex_ops [] ex_outs ex_abs) as [Hv Hr]; [by vm_compute|].
  exists (straight ex_ops), (map Ret ex_outs). split_and!; [done| |done]. by vm_compute.
Qed.

Section facts.
Context {Ty S A R : Type} `{EqDecision Ty} (big pinned : Ty → bool) (is_null : Ty → S → bool).
Context (call : Ty → S → A → S * option R).
Lemma spec_det p σ rs σ1 σ2 :
  spec_run (step big is_null call) (λ _ _ _, False) p σ rs σ1 →
  spec_run (step big is_null call) (λ _ _ _, False) p σ rs σ2 → σ1 = σ2.
Proof.
  intros H1. revert σ2. induction H1 as [σ|o k σ σ1 r rs σ' Hs _ IH|o k σ σ1 rs σ' []]; intros σ2 H2.
  - by inversion H2.
  - inversion H2; subst. apply IH. congruence.
Qed.
Lemma reach_Rel s σ : relocatable big pinned → reach big pinned is_null call s σ → DelegateProofs.Rel big s σ.
Proof.
  intros Hp (p & rs & Hv & E & Hr).
  destruct (client_sim _ _ _ _ _ (DelegateProofs.delegate_simulates big pinned is_null call Hp) p init [])
    as (rs' & s' & σ' & E' & Hr' & HR & _); [|done|].
  - exists [None]. split; [|split_and!; simpl].
    + split_and!; [done..|]. intros [|i] o a k Ho Ha Hk; simpl in *; by simplify_eq.
    + done.
    + by rewrite map_to_list_empty.
    + intros p' [? ?]. by rewrite lookup_empty in *.
  - rewrite E in E'. injection E' as <- <-. by rewrite (spec_det _ _ _ _ _ Hr Hr').
Qed.
Lemma reach_step s σ o σ1 r : relocatable big pinned → reach big pinned is_null call s σ →
  step big is_null call o σ = Some (σ1, r) →
  ∃ s1, run_op big pinned is_null call o s = Ok r s1 ∧ DelegateProofs.Rel big s1 σ1.
Proof.
  intros Hp HR%reach_Rel Hs; [|done].
  assert (H := DelegateProofs.delegate_simulates big pinned is_null call Hp o s σ σ1 r HR Hs).
  destruct (run_op _ _ _ _ o s) as [r' s1|s1|u]; simpl in H; [|by destruct H|done].
  destruct H as (-> & ? & _). eauto.
Qed.
End facts.

(** ** C47, C48 *)

(** Every client program whose calls meet their preconditions runs without
    undefined behaviour and gets the results the specification gives: in
    particular every call runs the functor the delegate holds. Missing: functors
    that are small but not relocatable, see [delegate_pinned_refuted]. *)
Theorem delegate_history_partial {Ty S A R} `{EqDecision Ty} big pinned is_null
    (call : Ty → S → A → S * option R) (p : prog (op Ty S A) (out S R)) :
  relocatable big pinned → valid (step big is_null call) (λ _ _ _, False) p [] →
  ∃ rs s σ, run_prog (run_op big pinned is_null call) p init = Ok rs s ∧
            spec_run (step big is_null call) (λ _ _ _, False) p [] rs σ ∧ Exn ∉ rs.
Proof.
  intros Hp Hv.
  destruct (client_sim _ _ _ _ _ (DelegateProofs.delegate_simulates big pinned is_null call Hp) p init [])
    as (rs & s & σ & E & Hr & HR & Hn); [|done|].
  - exists [None]. split; [|split_and!; simpl].
    + split_and!; [done..|]. intros [|i] o a k Ho Ha Hk; simpl in *; by simplify_eq.
    + done.
    + by rewrite map_to_list_empty.
    + intros p' [? ?]. by rewrite lookup_empty in *.
  - exists rs, s, σ. auto.
Qed.
(** A program that looks at its results: it calls the moved-to delegate again
    only if the first call did not throw. *)
Definition ex_prog : prog (op nat nat nat) (out nat nat) :=
  Do (ONewFn 2 3 false) (λ _, Do (OMoveNew 0) (λ _, Do (OCall 1 4) (λ r,
    match r with Ret (RVal _) => Do (OCall 1 1) (λ _, Done) | _ => Do (OCall 1 2) (λ _, Do (ODestroy 1) (λ _, Done)) end))).
Example delegate_history_partial_ex :
  valid (step xbig xnull xcall) (λ _ _ _, False) ex_prog [] ∧
  valid (step xbig xnull xcall) (λ _ _ _, False) (straight ex_ops) [] ∧
  (∃ s, run_prog xrun ex_prog init = Ok [Ret (RNew 0); Ret (RNew 1); Ret (RExn FunctorExn); Ret (RVal 209); Ret RUnit] s) ∧
  (∃ s, run_prog xrun (straight ex_ops) init = Ok (map Ret ex_outs) s).
Proof.
  split_and!.
  - cbn. split; [|by intros]. do 2 eexists. split; [done|]. cbn. split; [|by intros]. do 2 eexists. split; [done|].
    cbn. split; [|by intros]. do 2 eexists. split; [done|]. cbn. split; [|by intros]. do 2 eexists. split; [done|].
    cbn. split; [|by intros]. do 2 eexists. split; done.
  - eapply straight_valid with (rs := ex_outs) (σ' := ex_abs). by vm_compute.
  - eexists. vm_compute. done.
  - eexists. vm_compute. done.
Qed.

Lemma ledger_facts {Ty S} `{EqDecision Ty} (big : Ty → bool) s (σ : dst Ty S) : DelegateProofs.Rel big s σ →
  NoDup (dead s) ∧ (∀ id, id ∈ dead s → id < born s) ∧
  born s = length (dead s) + holding σ ∧ size (heap s) = holding_big big σ.
Proof.
  intros HR. destruct HR as (ks & (L1 & L2 & HS) & H1 & H2 & _).
  assert (Hlen : length (DelegateProofs.ids ks) = holding σ ∧ length (DelegateProofs.ptrs ks) = holding_big big σ).
  { change (holding σ) with (holding (None :: σ)).
    change (holding_big big σ) with (holding_big big (None :: σ)).
    revert L1 L2 HS. generalize (None :: σ) as τ. generalize (objs s) as os. clear H1 H2.
    induction ks as [|k ks IH]; intros os τ L1 L2 HS.
    - destruct os; [|done]. by destruct τ.
    - destruct os as [|o os]; [done|]. destruct τ as [|a τ]; [done|].
      assert (H0 := HS 0 o a k eq_refl eq_refl eq_refl).
      destruct (IH os τ) as [E1 E2]; [simpl in *; lia..|intros i; apply (HS (1 + i))|].
      unfold DelegateProofs.ids, DelegateProofs.ptrs, holding, holding_big in *.
      destruct o as [x|], a as [[[ty v]|]|]; simpl in H0; try done.
      + destruct H0 as (_ & _ & id & H0). destruct (big ty) eqn:Hb.
        * destruct H0 as (p & _ & _ & ->). simpl. rewrite filter_cons_True by done. split; cbn; f_equal; assumption.
        * destruct H0 as (_ & ->). simpl. rewrite filter_cons_False by (simpl; congruence). split; cbn; [f_equal|]; assumption.
      + destruct H0 as [_ ->]. done.
      + subst k. done. }
  destruct Hlen as [E1 E2]. split_and!.
  - assert (H : NoDup (DelegateProofs.ids ks ++ dead s)) by (rewrite H1; apply NoDup_seq).
    by apply NoDup_app in H as (_ & _ & ?).
  - intros id Hid. assert (H : id ∈ seq 0 (born s)) by (rewrite <- H1; apply elem_of_app; auto).
    apply elem_of_seq in H. lia.
  - assert (H := Permutation_length H1). rewrite app_length, seq_length in H. lia.
  - assert (H := Permutation_length H2). rewrite fmap_length in H.
    rewrite <- E2, H. done.
Qed.
(** The functors constructed so far are the destroyed ones, each once, and those
    that delegates hold; the heap cells are those of the big ones. *)
Theorem delegate_ledger_partial {Ty S A R} `{EqDecision Ty} big pinned is_null
    (call : Ty → S → A → S * option R) s σ :
  relocatable big pinned → reach big pinned is_null call s σ →
  NoDup (dead s) ∧ (∀ id, id ∈ dead s → id < born s) ∧
  born s = length (dead s) + holding σ ∧ size (heap s) = holding_big big σ.
Proof. intros Hp HR%reach_Rel; [|done]. by apply ledger_facts. Qed.
Example delegate_ledger_partial_ex :
  reach xbig xpinned0 xnull xcall ex_state ex_abs ∧
  dead ex_state = [0; 1] ∧ born ex_state = 3 ∧ holding ex_abs = 1 ∧ holding_big xbig ex_abs = 1 ∧ size (heap ex_state) = 1.
Proof. split; [exact ex_reach|]. vm_compute. done. Qed.

(** Once all delegates are destroyed, every functor ever constructed has been
    destroyed exactly once and every heap cell has been freed. *)
Theorem delegate_destroyed_once_partial {Ty S A R} `{EqDecision Ty} big pinned is_null
    (call : Ty → S → A → S * option R) s σ :
  relocatable big pinned → reach big pinned is_null call s σ →
  (∀ i x, objs s !! i ≠ Some (Some x)) → dead s ≡ₚ seq 0 (born s) ∧ heap s = ∅.
Proof.
  intros Hp HR%reach_Rel Hno; [|done]. destruct HR as (ks & (L1 & L2 & HS) & H1 & H2 & _).
  assert (Hks : Forall (eq None) ks).
  { apply Forall_lookup. intros i k Hk. assert (Hl := lookup_lt_Some _ _ _ Hk).
    destruct (lookup_lt_is_Some_2 (objs s) i) as [o Ho]; [lia|].
    destruct (lookup_lt_is_Some_2 (None :: σ) i) as [a Ha]; [lia|].
    assert (H := HS _ _ _ _ Ho Ha Hk). destruct o as [x|]; [by destruct (Hno i x)|]. by destruct a. }
  assert (E : DelegateProofs.ids ks = [] ∧ DelegateProofs.ptrs ks = []).
  { clear -Hks. induction Hks as [|k ks <- _ IH]; [done|]. simpl. exact IH. }
  destruct E as [E1 E2]. rewrite E1 in H1. rewrite E2 in H2. split; [done|].
  apply Permutation_nil in H2. apply map_to_list_empty_iff. by destruct (map_to_list (heap s)).
Qed.
Definition ex_end : list (op nat nat nat) := ex_ops ++ [ODestroy 0; ODestroy 5; ODestroy 1; ODestroy 3; ODestroy 2].
Definition ex_end_state : st nat nat :=
  match run_prog xrun (straight ex_end) init with Ok _ s => s | _ => init end.
Example delegate_destroyed_once_partial_ex :
  reach xbig xpinned0 xnull xcall ex_end_state (replicate 6 None) ∧
  objs ex_end_state = replicate 7 None ∧ dead ex_end_state = [2; 0; 1] ∧ born ex_end_state = 3 ∧ map_to_list (heap ex_end_state) = [].
Proof.
  split_and!; [|by vm_compute..].
  destruct (straight_valid xbig xnull xcall ex_end [] (ex_outs ++ replicate 5 RUnit) (replicate 6 None)) as [Hv Hr]; [by vm_compute|].
  exists (straight ex_end), (map Ret (ex_outs ++ replicate 5 RUnit)). split_and!; [done| |done]. by vm_compute.
Qed.

(** The functor of a small type that must stay where it was constructed: after
    moving the delegate its destructor or call operator runs at another address. *)
Theorem delegate_pinned_refuted : ∃ (os : list (op nat nat nat)),
  (∃ rs σ, spec_exec (step xbig xnull xcall) os [] = Some (rs, σ)) ∧
  run_ops (run_op xbig xpinned xnull xcall) os init = UB Dangling ∧
  run_ops (run_op xbig xpinned xnull xcall) (removelast os) init ≠ UB Dangling.
Proof.
  exists [ONewFn 4 5 false; OMoveNew 0; OCall 1 2]. split_and!; [do 2 eexists; vm_compute; done|by vm_compute..].
Qed.

(** A delegate that holds a functor converts to true and calls it with the given
    argument; the functor keeps what the call did to it. An empty one converts to
    false and throws std::bad_function_call. *)
Theorem delegate_call_partial {Ty S A R} `{EqDecision Ty} big pinned is_null
    (call : Ty → S → A → S * option R) s σ i f a :
  relocatable big pinned → reach big pinned is_null call s σ → has σ i = Some f →
  ∃ s1 s2, run_op big pinned is_null call (OBool i) s = Ok (RBool (bool_decide (f ≠ None))) s1 ∧
    run_op big pinned is_null call (OCall i a) s =
      Ok (match f with
          | None => RExn BadFunctionCall
          | Some (ty, v) => match (call ty v a).2 with Some r => RVal r | None => RExn FunctorExn end
          end) s2 ∧
    match f with
    | Some (ty, v) => ∀ b, ∃ s3, run_op big pinned is_null call (OCall i b) s2 =
        Ok (match (call ty (call ty v a).1 b).2 with Some r => RVal r | None => RExn FunctorExn end) s3
    | None => True
    end.
Proof.
  intros Hp HR Hi.
  destruct (reach_step big pinned is_null call s σ (OBool i) σ (RBool (match f with Some _ => true | None => false end))) as (s1 & E1 & _); [done..| |].
  { simpl. by rewrite Hi. }
  destruct (reach_step big pinned is_null call s σ (OCall i a)
    (match f with Some (ty, v) => set σ i (Some (ty, (call ty v a).1)) | None => σ end)
    (match f with None => RExn BadFunctionCall
     | Some (ty, v) => match (call ty v a).2 with Some r => RVal r | None => RExn FunctorExn end end)) as (s2 & E2 & HR2); [done..| |].
  { simpl. rewrite Hi. by destruct f as [[ty v]|]. }
  exists s1, s2. split_and!.
  - rewrite E1. f_equal. f_equal. by destruct f.
  - exact E2.
  - destruct f as [[ty v]|]; [|done]. intros b.
    assert (H := DelegateProofs.delegate_simulates big pinned is_null call Hp (OCall i b) s2 _
      (set σ i (Some (ty, (call ty (call ty v a).1 b).1)))
      (match (call ty (call ty v a).1 b).2 with Some r => RVal r | None => RExn FunctorExn end) HR2).
    destruct (run_op _ _ _ _ (OCall i b) s2) as [r s3|s3|u]; simpl in H.
    + destruct H as (-> & _); [|by eauto].
      unfold has, set. rewrite list_lookup_insert; simpl; [by rewrite list_insert_insert|].
      unfold has in Hi. destruct (σ !! i) eqn:E; [by eapply lookup_lt_Some|done].
    + destruct H as [[] _]; [|done].
      unfold has, set. rewrite list_lookup_insert; simpl; [by rewrite list_insert_insert|].
      unfold has in Hi. destruct (σ !! i) eqn:E; [by eapply lookup_lt_Some|done].
    + exfalso. apply H.
      unfold has, set. rewrite list_lookup_insert; simpl; [by rewrite list_insert_insert|].
      unfold has in Hi. destruct (σ !! i) eqn:E; [by eapply lookup_lt_Some|done].
Qed.
Example delegate_call_partial_ex : relocatable xbig xpinned0 ∧
  reach xbig xpinned0 xnull xcall ex_state ex_abs ∧ has ex_abs 0 = Some (Some (2, 6)) ∧ has ex_abs 5 = Some None ∧
  (∃ s s', xrun (OCall 0 4) ex_state = Ok (RVal 210) s ∧ xrun (OCall 0 1) s = Ok (RVal 211) s') ∧
  (∃ s, xrun (OCall 5 4) ex_state = Ok (RExn BadFunctionCall) s).
Proof.
  split; [exact xreloc|]. split; [exact ex_reach|]. split; [done|]. split; [done|]. split.
  - do 2 eexists. split; vm_compute; reflexivity.
  - eexists. vm_compute. reflexivity.
Qed.

(** What a delegate holds after it was given something: the functor given last,
    nothing after nullptr, a null function pointer or being moved from. *)
Theorem delegate_given_partial {Ty S A R} `{EqDecision Ty} big pinned is_null
    (call : Ty → S → A → S * option R) s σ i j f g ty v a :
  relocatable big pinned → reach big pinned is_null call s σ → has σ i = Some f → has σ j = Some g →
  let run := run_op big pinned is_null call in
  let calls h := match h with
    | None => RExn BadFunctionCall
    | Some (ty, v) => match (call ty v a).2 with Some r => RVal r | None => RExn FunctorExn end
    end in
  (∃ s1 s2, run (OAssignFn i ty v false) s = Ok RUnit s1 ∧
            run (OCall i a) s1 = Ok (calls (if is_null ty v then None else Some (ty, v))) s2) ∧
  (∃ s1 s2, run (OAssignNull i) s = Ok RUnit s1 ∧ run (OCall i a) s1 = Ok (RExn BadFunctionCall) s2) ∧
  (∃ s1 s2, run (OAssign i j) s = Ok RUnit s1 ∧ run (OCall i a) s1 = Ok (calls g) s2) ∧
  (i ≠ j → ∃ s1 s2, run (OAssign i j) s = Ok RUnit s1 ∧ run (OCall j a) s1 = Ok (RExn BadFunctionCall) s2) ∧
  (∃ s1 s2 s3, run (OMoveNew j) s = Ok (RNew (length σ)) s1 ∧ run (OCall j a) s1 = Ok (RExn BadFunctionCall) s2 ∧
               run (OCall (length σ) a) s1 = Ok (calls g) s3) ∧
  (∃ s1 s2 s3, run (OSwap i j) s = Ok RUnit s1 ∧ run (OCall i a) s1 = Ok (calls g) s2 ∧
               run (OCall j a) s1 = Ok (calls f) s3).
Proof.
  intros Hp HR Hi Hj run calls.
  assert (Li : i < length σ). { unfold has in Hi. destruct (σ !! i) eqn:E; [by eapply lookup_lt_Some|done]. }
  assert (Lj : j < length σ). { unfold has in Hj. destruct (σ !! j) eqn:E; [by eapply lookup_lt_Some|done]. }
  assert (Hstep : ∀ o σ1 r, step big is_null call o σ = Some (σ1, r) →
    ∃ s1, run o s = Ok r s1 ∧ ∀ k h, has σ1 k = Some h → ∃ s2, run (OCall k a) s1 = Ok (calls h) s2).
  { intros o σ1 r Ho. destruct (reach_step _ _ _ _ _ _ _ _ _ Hp HR Ho) as (s1 & E1 & HR1). exists s1. split; [done|].
    intros k h Hk.
    assert (H := DelegateProofs.delegate_simulates big pinned is_null call Hp (OCall k a) s1 _
      (match h with Some (ty, v) => set σ1 k (Some (ty, (call ty v a).1)) | None => σ1 end) (calls h) HR1).
    unfold run. destruct (run_op _ _ _ _ (OCall k a) s1) as [r' s2|s2|u]; simpl in H.
    - destruct H as (-> & _); [rewrite Hk; by destruct h as [[??]|]|]. eauto.
    - destruct H as [[] _]; [rewrite Hk; by destruct h as [[??]|]|done].
    - exfalso. apply H. rewrite Hk. by destruct h as [[??]|]. }
  assert (Hset : ∀ (τ : dst Ty S) k h, k < length τ → has (set τ k h) k = Some h).
  { intros τ k h Hk. unfold has, set. by rewrite list_lookup_insert. }
  assert (Hset' : ∀ (τ : dst Ty S) k k' h, k ≠ k' → has (set τ k h) k' = has τ k').
  { intros τ k k' h Hk. unfold has, set. by rewrite list_lookup_insert_ne. }
  split_and!.
  - destruct (Hstep (OAssignFn i ty v false) _ _ ltac:(simpl; rewrite Hi; reflexivity)) as (s1 & E1 & H1).
    destruct (H1 i (given is_null ty v)) as [s2 E2]; [by apply Hset|]. exists s1, s2. split; done.
  - destruct (Hstep (OAssignNull i) _ _ ltac:(simpl; rewrite Hi; reflexivity)) as (s1 & E1 & H1).
    destruct (H1 i None) as [s2 E2]; [by apply Hset|]. eauto.
  - destruct (Hstep (OAssign i j) _ _ ltac:(simpl; rewrite Hj; simpl; rewrite Hi; reflexivity)) as (s1 & E1 & H1).
    destruct (H1 i g) as [s2 E2]; [apply Hset; unfold set; by rewrite insert_length|]. eauto.
  - intros n. destruct (Hstep (OAssign i j) _ _ ltac:(simpl; rewrite Hj; simpl; rewrite Hi; reflexivity)) as (s1 & E1 & H1).
    destruct (H1 j None) as [s2 E2]; [rewrite Hset' by done; by apply Hset|]. eauto.
  - destruct (Hstep (OMoveNew j) _ _ ltac:(simpl; rewrite Hj; reflexivity)) as (s1 & E1 & H1).
    destruct (H1 j None) as [s2 E2].
    { unfold has. rewrite lookup_app_l by (unfold set; by rewrite insert_length). by apply Hset. }
    destruct (H1 (length σ) g) as [s3 E3].
    { unfold has. rewrite list_lookup_middle; [done|]. unfold set. by rewrite insert_length. }
    eauto 10.
  - destruct (Hstep (OSwap i j) _ _ ltac:(simpl; rewrite Hi; simpl; rewrite Hj; reflexivity)) as (s1 & E1 & H1).
    destruct (H1 i g) as [s2 E2].
    { destruct (decide (i = j)) as [->|n].
      - rewrite Hset by (unfold set; by rewrite insert_length). congruence.
      - rewrite Hset' by done. by apply Hset. }
    destruct (H1 j f) as [s3 E3]; [apply Hset; unfold set; by rewrite insert_length|].
    eauto 10.
Qed.
Example delegate_given_partial_ex : relocatable xbig xpinned0 ∧
  reach xbig xpinned0 xnull xcall ex_state ex_abs ∧ has ex_abs 3 = Some None ∧ has ex_abs 0 = Some (Some (2, 6)) ∧
  (∃ s s' s'', xrun (OAssign 3 0) ex_state = Ok RUnit s ∧ xrun (OCall 3 2) s = Ok (RVal 208) s' ∧
               xrun (OCall 0 2) s = Ok (RExn BadFunctionCall) s'').
Proof.
  split; [exact xreloc|]. split; [exact ex_reach|]. split; [done|]. split; [done|].
  do 3 eexists. split; [vm_compute; reflexivity|]. split; vm_compute; reflexivity.
Qed.

(** Assigning a functor whose construction throws ends the program: the
    assignment is noexcept. *)
Theorem delegate_assign_terminates {Ty S A R} `{EqDecision Ty} big pinned is_null
    (call : Ty → S → A → S * option R) s i ty v :
  is_null ty v = false →
  run_op big pinned is_null call (OAssignFn i ty v true) s = UB Terminate.
Proof.
  intros Hn. unfold run_op, catch, assign_fn. unfold bind at 1. unfold ctor_fn at 1.
  unfold bind at 1. unfold bind at 1. simpl. unfold bind at 1. by rewrite Hn.
Qed.
Example delegate_assign_terminates_ex : xrun (OAssignFn 0 2 9 true) ex_state = UB Terminate.
Proof. by vm_compute. Qed.

(** ** C49 *)

(** handle<F>() is null unless the delegate holds a functor of type F, and for
    functors stored inline it points to the stored functor. Missing: functors on
    the heap, see [delegate_handle_refuted]. *)
Theorem delegate_handle_partial {Ty S A R} `{EqDecision Ty} big pinned is_null
    (call : Ty → S → A → S * option R) s σ i f ty :
  relocatable big pinned → reach big pinned is_null call s σ → has σ i = Some f →
  (∃ h, handle ty (1 + i) s = Ok h s ∧ (h = None ↔ ∀ v, f ≠ Some (ty, v))) ∧
  (∀ v, f = Some (ty, v) → big ty = false → handle_read pinned ty (1 + i) s = Ok (Some v) s).
Proof.
  intros Hp HR%reach_Rel Hi%DelegateProofs.has_Some; [|done]. split.
  - eexists. split; [by eapply DelegateProofs.handle_post|].
    destruct f as [[ty' v]|]; [|done]. case_decide as H; subst.
    + split; [done|]. intros Hf. by destruct (Hf v).
    + split; [|done]. intros _ w. congruence.
  - intros v -> Hb.
    erewrite DelegateProofs.handle_read_post; [|exact Hp|exact HR|exact Hi|done].
    simpl. by rewrite decide_True.
Qed.
Definition ex2_ops : list (op nat nat nat) := [ONewFn 1 5 false; ONewFn 2 3 false].
Definition ex2_state : st nat nat :=
  match run_prog xrun (straight ex2_ops) init with Ok _ s => s | _ => init end.
Lemma ex2_reach : reach xbig xpinned0 xnull xcall ex2_state [Some (Some (1, 5)); Some (Some (2, 3))].
Proof.
  destruct (straight_valid xbig xnull xcall ex2_ops [] [RNew 0; RNew 1] [Some (Some (1, 5)); Some (Some (2, 3))]) as [Hv Hr]; [by vm_compute|].
  exists (straight ex2_ops), (map Ret [RNew 0; RNew 1]). split_and!; [done| |done]. by vm_compute.
Qed.
Example delegate_handle_partial_ex : relocatable xbig xpinned0 ∧
  reach xbig xpinned0 xnull xcall ex2_state [Some (Some (1, 5)); Some (Some (2, 3))] ∧
  handle_read xpinned0 1 1 ex2_state = Ok (Some 5) ex2_state ∧ handle 2 1 ex2_state = Ok None ex2_state ∧
  handle 2 2 ex2_state = Ok (Some 2) ex2_state.
Proof. split_and!; [exact xreloc|exact ex2_reach|by vm_compute..]. Qed.

(** For a functor on the heap handle<F>() returns the address of the pointer to
    it, so reading the functor reads bytes that are no functor. *)
Theorem delegate_handle_refuted : ∃ (s : st nat nat) σ i ty v,
  reach xbig xpinned0 xnull xcall s σ ∧ has σ i = Some (Some (ty, v)) ∧
  handle ty (1 + i) s = Ok (Some (1 + i)) s ∧ handle_read xpinned0 ty (1 + i) s = UB ReadRaw.
Proof.
  exists ex2_state, [Some (Some (1, 5)); Some (Some (2, 3))], 1, 2, 3.
  split_and!; [exact ex2_reach|done|by vm_compute..].
Qed.

Definition delegate_theorems :=
  (@delegate_history_partial, @delegate_ledger_partial, @delegate_destroyed_once_partial, @delegate_pinned_refuted,
   @delegate_call_partial, @delegate_given_partial, @delegate_assign_terminates, @delegate_handle_partial,
   @delegate_handle_refuted).
Print Assumptions delegate_theorems.
