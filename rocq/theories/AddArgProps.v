(** Theorems about how containers take new elements (property C171). *)
From stdpp Require Import list.
From Coq Require Import Lia.
From Verif Require Import Base ForwardModel ForwardProps BindArgModel TupleArgModel AddArgModel.
Local Open Scope mon_scope.
Local Arguments objects {_}. Local Arguments copies {_}. Local Arguments moves {_}.

(** ** Specification *)
(** The argument is an object that exists, or a prvalue. *)
Definition exists_ {V} (s : mem V) (e : arg V) : Prop :=
  match e with Lv _ a | Xv a => is_Some (objects s !! a) | Pr _ => True end.
(** The value of the argument *)
Definition value {V} (s : mem V) (e : arg V) : option (option V) :=
  match e with Lv _ a | Xv a => objects s !! a | Pr v => Some (Some v) end.
(** An object that existed before keeps its value, unless it was given as an rvalue. *)
Definition left_behind {V} (e : arg V) (b : nat) (o : option V) : option V :=
  match e with Xv a => if Nat.eqb a b then None else o | _ => o end.
Definition added {V} (e : arg V) (s : mem V) (r : nat) (s' : mem V) : Prop :=
  objects s' !! r = value s e ∧ length (objects s) ≤ r ∧
  (∀ b o, objects s !! b = Some o → objects s' !! b = Some (left_behind e b o)) ∧
  copies s' = match e with Lv _ _ => 1 | _ => 0 end + copies s ∧
  moves s' = match e with Lv _ _ => 0 | _ => 1 end + moves s.

(** ** Proofs *)
Definition plain1 {V} (e : arg V) : Prop := match e with Pr _ => False | _ => True end.
Lemma pass1_id {V} (e : arg V) s : plain1 e → pass1 e s = Ok e s.
Proof. by destruct e as [[] a|a|v]. Qed.
(** A prvalue becomes a temporary first. *)
Definition temp {V} (e : arg V) (s : mem V) : arg V := match e with Pr _ => Xv (length (objects s)) | _ => e end.
Definition temp_mem {V} (e : arg V) (s : mem V) : mem V :=
  match e with Pr v => Mem (objects s ++ [Some v]) (copies s) (moves s) | _ => s end.
Lemma pass1_temp {V} (e : arg V) s : pass1 e s = Ok (temp e s) (temp_mem e s).
Proof. by destruct e as [[] a|a|v]. Qed.
Lemma plain1_temp {V} (e : arg V) s : plain1 (temp e s).
Proof. by destruct e. Qed.
Lemma bind_pass1 {V B} (k : arg V → M (mem V) B) e s :
  (e1 <- pass1 e ;; k e1) s = k (temp e s) (temp_mem e s).
Proof. unfold bind. by rewrite pass1_temp. Qed.
Lemma bind_plain {V B} (k : arg V → M (mem V) B) e s : plain1 e → (e1 <- pass1 e ;; k e1) s = k e s.
Proof. intros H. unfold bind. by rewrite pass1_id. Qed.
Lemma construct_plain {V} (e : arg V) s : plain1 e → construct e s = init Val e s.
Proof. apply bind_plain. Qed.
Lemma init_added {V} (e : arg V) s : exists_ s e → ∃ r s', init Val (temp e s) (temp_mem e s) = Ok r s' ∧ added e s r s'.
Proof.
  intros He. destruct e as [c a|a|v]; simpl in *.
  - destruct He as [o Ho]. unfold copy. rewrite Ho. eexists _, _. split; [reflexivity|]. split_and!; simpl; try done.
    + by rewrite lookup_app_r, Nat.sub_diag by lia.
    + intros b x Hb. by apply lookup_app_l_Some.
  - destruct He as [o Ho]. unfold move. rewrite Ho. eexists _, _. split; [reflexivity|]. split_and!; simpl; try done.
    + by rewrite lookup_app_r, Nat.sub_diag by lia.
    + by rewrite insert_length.
    + intros b x Hb. apply lookup_app_l_Some. destruct (Nat.eqb_spec a b) as [->|n].
      * apply list_lookup_insert. by eapply lookup_lt_Some.
      * by rewrite list_lookup_insert_ne.
  - unfold move. simpl. rewrite lookup_app_r, Nat.sub_diag by lia. eexists _, _. split; [reflexivity|]. split_and!; simpl; try done.
    + by rewrite lookup_app_r, Nat.sub_diag by lia.
    + rewrite insert_length, app_length. lia.
    + intros b x Hb. assert (L := lookup_lt_Some _ _ _ Hb). apply lookup_app_l_Some. rewrite list_lookup_insert_ne by lia.
      by apply lookup_app_l_Some.
Qed.

(** Each function makes one element with one copy, for lvalues, or one move, for rvalues; only an
    rvalue is moved from. *)
Definition adders {V} (p : nat) : list (arg V → M (mem V) nat) :=
  [push_front; emplace_front; insert_after; emplace_after; emplace_back; push_back; heap_push; heap_emplace;
   insert true true p; insert true false p; insert false true p].
Lemma create_node_plain {V} (e : arg V) s : plain1 e → create_node e s = init Val e s.
Proof. intros H. unfold create_node. rewrite bind_plain by done. by apply construct_plain. Qed.
Lemma emplace_after_plain {V} (e : arg V) s : plain1 e → emplace_after e s = init Val e s.
Proof. intros H. unfold emplace_after. rewrite bind_plain by done. by apply create_node_plain. Qed.
Lemma emplace_back_plain {V} (e : arg V) s : plain1 e → emplace_back e s = init Val e s.
Proof. intros H. unfold emplace_back. rewrite bind_plain by done. by apply construct_plain. Qed.
Lemma push_back_plain {V} (e : arg V) s : plain1 e → push_back e s = init Val e s.
Proof. intros H. unfold push_back. rewrite bind_plain by done. by apply emplace_back_plain. Qed.
Theorem add_arguments {V} p (add : arg V → M (mem V) nat) : add ∈ @adders V p → ∀ e s, exists_ s e →
  ∃ r s', add e s = Ok r s' ∧ added e s r s'.
Proof.
  intros Ha e s He. destruct (init_added e s He) as (r & s' & E & A). exists r, s'. split; [|done]. rewrite <- E.
  assert (P := plain1_temp e s). unfold adders in Ha.
  rewrite !elem_of_cons, elem_of_nil in Ha. decompose [or] Ha; subst; try done.
  - destruct e as [c a|a|v]; unfold push_front, bind; simpl; unfold ret; by rewrite emplace_after_plain.
  - unfold emplace_front. rewrite bind_pass1. by apply emplace_after_plain.
  - unfold insert_after. rewrite bind_pass1. by apply emplace_after_plain.
  - unfold emplace_after. rewrite bind_pass1. by apply create_node_plain.
  - unfold emplace_back. rewrite bind_pass1. by apply construct_plain.
  - unfold push_back. rewrite bind_pass1. by apply emplace_back_plain.
  - unfold heap_push. rewrite bind_pass1. by apply push_back_plain.
  - unfold heap_emplace. rewrite bind_pass1. by apply emplace_back_plain.
  - unfold insert. rewrite bind_pass1. by apply emplace_back_plain.
  - unfold insert. rewrite bind_pass1. by apply emplace_back_plain.
  - unfold insert, realloc_insert. rewrite bind_pass1, bind_plain by done. by apply construct_plain.
Qed.

(** insert in the middle of an array with room assigns to the element at [p], with one copy or
    one move. *)
Theorem insert_arguments {V} p (e : arg V) s : exists_ s e → is_Some (objects s !! p) →
  match e with Lv _ x | Xv x => x ≠ p | Pr _ => True end →
  ∃ s', insert false false p e s = Ok p s' ∧ objects s' !! p = value s e ∧
    (∀ b o, b ≠ p → objects s !! b = Some o → objects s' !! b = Some (left_behind e b o)) ∧
    copies s' = match e with Lv _ _ => 1 | _ => 0 end + copies s ∧
    moves s' = match e with Lv _ _ => 0 | _ => 1 end + moves s.
Proof.
  intros He [q Hq] Hn. assert (Lp := lookup_lt_Some _ _ _ Hq). unfold insert. rewrite bind_pass1.
  destruct e as [c a|a|v]; unfold assign, bind; simpl in *.
  - destruct He as [o Ho]. rewrite Hq, Ho. eexists. split; [reflexivity|]. split_and!; simpl; try done.
    + by apply list_lookup_insert.
    + intros b x Hb Hx. by rewrite list_lookup_insert_ne.
  - destruct He as [o Ho]. rewrite Hq, Ho. eexists. split; [reflexivity|]. split_and!; simpl; try done.
    + apply list_lookup_insert. by rewrite insert_length.
    + intros b x Hb Hx. rewrite list_lookup_insert_ne by done. destruct (Nat.eqb_spec a b) as [->|n].
      * apply list_lookup_insert. by eapply lookup_lt_Some.
      * by rewrite list_lookup_insert_ne.
  - rewrite (lookup_app_l_Some _ _ _ _ Hq), lookup_app_r, Nat.sub_diag by lia. eexists. split; [reflexivity|]. split_and!; simpl; try done.
    + apply list_lookup_insert. rewrite insert_length, app_length. lia.
    + intros b x Hb Hx. assert (L := lookup_lt_Some _ _ _ Hx). rewrite !list_lookup_insert_ne by lia. by apply lookup_app_l_Some.
Qed.

(** push and emplace of a queue with room do the same as the functions above; those of a full
    queue leave every object alone, rvalue arguments included. *)
Theorem queue_arguments {V} add full (e : arg V) s : add ∈ [@queue_push V; queue_emplace] → exists_ s e →
  ∃ r s', add full e s = Ok r s' ∧
    match r with
    | Some r => full = false ∧ added e s r s'
    | None => full = true ∧ (∀ b o, objects s !! b = Some o → objects s' !! b = Some o) ∧ copies s' = copies s ∧ moves s' = moves s
    end.
Proof.
  intros Ha He. assert (P := plain1_temp e s).
  assert (add full e s = ((if full then ret None else (a <- init Val (temp e s) ;; ret (Some a))) : M (mem V) (option nat)) (temp_mem e s)) as ->.
  { assert (B : ∀ (w : arg V) (s1 : mem V), plain1 w → base_emplace full w s1 = ((if full then ret None else (a <- init Val w ;; ret (Some a))) : M (mem V) (option nat)) s1).
    { intros w s1 Hw. unfold base_emplace. rewrite bind_plain by done. destruct full; [done|]. unfold bind. by rewrite construct_plain. }
    rewrite !elem_of_cons, elem_of_nil in Ha. decompose [or] Ha; subst; try done.
    - unfold queue_push, sized_push, sized_emplace. rewrite bind_pass1, !bind_plain by done. by apply B.
    - unfold queue_emplace, sized_emplace. rewrite bind_pass1, !bind_plain by done. by apply B. }
  destruct full.
  - exists None, (temp_mem e s). split; [done|]. destruct e; simpl; split_and!; try done. intros b o Hb. by apply lookup_app_l_Some.
  - destruct (init_added e s He) as (r & s' & E & A). exists (Some r), s'. unfold bind. by rewrite E.
Qed.

(** consume hands the element out as an rvalue: T costs one move, const T& and T&& nothing, and a
    function that wants T& does not compile. *)
Theorem consume_arguments {V} f a (s : mem V) o : objects s !! a = Some o →
  match f with
  | Val => ∃ r s', consume f a s = Ok r s' ∧ added (Xv a) s r s'
  | CRef | Mov => consume f a s = Ok a s
  | Ref => consume f a s = UB NoObject
  end.
Proof.
  intros Ho. destruct f; try done. apply (init_added (Xv a) s). simpl. by rewrite Ho.
Qed.

(** ** Examples *)
Definition amem : mem nat := Mem [Some 1; Some 2] 0 0.
Example add_arguments_ex : push_front (Lv false 0) amem = Ok 2 (Mem [Some 1; Some 2; Some 1] 1 0) ∧
  heap_push (Xv 1) amem = Ok 2 (Mem [Some 1; None; Some 2] 0 1) ∧
  push_back (Pr 9) amem = Ok 3 (Mem [Some 1; Some 2; None; Some 9] 0 1).
Proof. by vm_compute. Qed.
Example insert_arguments_ex : insert false false 0 (Xv 1) amem = Ok 0 (Mem [Some 2; None] 0 1) ∧
  insert false false 0 (Lv true 1) amem = Ok 0 (Mem [Some 2; Some 2] 1 0).
Proof. by vm_compute. Qed.
Example queue_arguments_ex : queue_push false (Xv 1) amem = Ok (Some 2) (Mem [Some 1; None; Some 2] 0 1) ∧
  queue_push true (Xv 1) amem = Ok None amem.
Proof. by vm_compute. Qed.
Example consume_arguments_ex : consume Val 1 amem = Ok 2 (Mem [Some 1; None; Some 2] 0 1) ∧ consume Mov 1 amem = Ok 1 amem ∧
  consume Ref 1 amem = UB NoObject.
Proof. by vm_compute. Qed.

Definition add_arg_theorems := (@add_arguments, @insert_arguments, @queue_arguments, @consume_arguments).
Print Assumptions add_arg_theorems.
