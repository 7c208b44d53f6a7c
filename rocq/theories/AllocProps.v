(** Theorems about the allocators of xme::Array and xme::LinkedList. *)
From stdpp Require Import list.
From Verif Require Import Base Client AllocModel AllocSpec AllocProofs AllocArr AllocList.
Local Open Scope mon_scope.

(** No container yet. [orc] decides which of the throwing points throw. *)
Definition init {Ob} (orc : list bool) : st Ob := mkSt [] [] 0 orc.
Definition init_spec : ast := mkSpec [] 0.

(** Array [i] has the allocator, size and capacity [y]. *)
Definition holds (s : st arr) (i : nat) (y : aspec) : Prop :=
  ∃ b, objs s !! i = Some (Some (mkArr (sal y) b (slen y) (scap y))).
Definition dead {Ob} (s : st Ob) (i : nat) : Prop := objs s !! i = Some None.
Definition view (s : st arr) (σ : ast) : Prop :=
  length (objs s) = length (arrs σ) ∧
  ∀ i, match arrs σ !! i with Some (Some y) => holds s i y | Some None => dead s i | None => True end.
(** [x] is the memory of array [y], which came from an allocator [a] that is
    interchangeable with the array's, and has its capacity. *)
Definition memory_of (tr : traits) (x : aid * nat) (y : arr) : Prop :=
  interchangeable tr (al y) x.1 ∧ x.2 = cap y.

Lemma aeq_inter tr a b : aeq tr a b = true ↔ interchangeable tr a b.
Proof.
  unfold aeq, interchangeable. rewrite orb_true_iff, bool_decide_eq_true. done.
Qed.
Lemma R_view tr s σ : R tr s σ → view s σ.
Proof.
  intros [_ HF]. split; [by eapply Forall2_length|]. intros i. destruct (arrs σ !! i) as [[y|]|] eqn:Hi; [| |done].
  - destruct (Forall2_lookup_r _ _ _ _ _ HF Hi) as ([x|] & Hx & Hr); [|done]. destruct Hr as (H1 & H2 & H3 & _).
    exists (blk x). rewrite <- H1, <- H2, <- H3. by destruct x.
  - destruct (Forall2_lookup_r _ _ _ _ _ HF Hi) as ([x|] & Hx & Hr); [done|]. done.
Qed.
Lemma R_init tr orc : R tr (init orc) init_spec.
Proof. split; [|constructor]. split_and!; [split_and!; [constructor|constructor|done]| |done..]. intros b Hb. by apply elem_of_nil in Hb. Qed.

Lemma owned_elem {Ob} (claims : Ob → list (nat * (aid * nat))) ob c :
  c ∈ owned claims ob ↔ ∃ i x, ob !! i = Some (Some x) ∧ c ∈ claims x.
Proof.
  unfold owned. rewrite elem_of_list_bind. split.
  - intros ([x|] & Hc & Hx); [|by apply elem_of_nil in Hc]. apply elem_of_list_lookup in Hx as [i Hi]. by exists i, x.
  - intros (i & x & Hi & Hc). exists (Some x). split; [done|]. by apply elem_of_list_lookup_2 in Hi.
Qed.
Lemma R_memory tr s σ : R tr s σ →
  (∀ i y b, objs s !! i = Some (Some y) → blk y = Some b → ∃ x, blocks s !! b = Some (Some x) ∧ memory_of tr x y) ∧
  (∀ b x, blocks s !! b = Some (Some x) → ∃ i y, objs s !! i = Some (Some y) ∧ blk y = Some b) ∧
  (∀ i j y z b, objs s !! i = Some (Some y) → objs s !! j = Some (Some z) → blk y = Some b → blk z = Some b → i = j).
Proof.
  intros [((Hn & Hf & Hl) & _) _]. split_and!.
  - intros i y b Hi Hb. rewrite Forall_forall in Hf.
    destruct (Hf (b, (al y, cap y))) as (a & H1 & H2).
    { simpl. apply owned_elem. exists i, y. split; [done|]. unfold aclaims. rewrite Hb. by left. }
    exists (a, cap y). split; [done|]. split; [|done]. by apply aeq_inter.
  - intros b x Hb. apply Hl in Hb. simpl in Hb. apply elem_of_list_fmap in Hb as (c & -> & Hc).
    apply owned_elem in Hc as (i & y & Hi & Hc). exists i, y. split; [done|]. unfold aclaims in Hc.
    destruct (blk y); [|by apply elem_of_nil in Hc]. by apply elem_of_list_singleton in Hc as ->.
  - intros i j y z b Hi Hj Hy Hz. destruct (decide (i = j)) as [|Hne]; [done|]. exfalso.
    assert (HP := owned_insert aclaims (objs s) i (Some y) None Hi). rewrite app_nil_r in HP.
    simpl in Hn. rewrite <- HP, fmap_app in Hn. apply NoDup_app in Hn as (_ & Hn & _).
    apply (Hn b).
    + apply elem_of_list_fmap. exists (b, (al z, cap z)). split; [done|]. apply owned_elem. exists j, z.
      rewrite list_lookup_insert_ne by done. split; [done|]. unfold aclaims. rewrite Hz. by left.
    + simpl. unfold aclaims. rewrite Hy. by left.
Qed.

(** C117. Whatever a client does with arrays, whatever allocators it passes and
    whatever throws: every block an array holds came from an allocator
    interchangeable with the array's own and has its capacity, no call returns a
    block to another allocator or with another size, every block that is not
    one array's memory has been returned (so none is left when all arrays are
    destroyed), and every array has the allocator the specification says.
    Partial: range insertions that have to grow an array whose allocator is not
    interchangeable with a default constructed one are excluded (see below). *)
Theorem array_alloc_partial tr p orc :
  valid (spec_step tr) (spec_throw tr) p init_spec →
  ∃ rs s σ, run_prog (run_op tr) p (init orc) = Ok rs s ∧
    spec_run (spec_step tr) (spec_throw tr) p init_spec rs σ ∧ view s σ ∧
    (∀ i y b, objs s !! i = Some (Some y) → blk y = Some b → ∃ x, blocks s !! b = Some (Some x) ∧ memory_of tr x y) ∧
    (∀ b x, blocks s !! b = Some (Some x) → ∃ i y, objs s !! i = Some (Some y) ∧ blk y = Some b) ∧
    (∀ i j y z b, objs s !! i = Some (Some y) → objs s !! j = Some (Some z) →
       blk y = Some b → blk z = Some b → i = j) ∧
    (orc = [] → Exn ∉ rs).
Proof.
  intros Hv. destruct (client_sim _ _ _ _ calm (sim_all tr) p (init orc) init_spec (R_init tr orc) Hv)
    as (rs & s & σ & H1 & H2 & H3 & H4).
  destruct (R_memory _ _ _ H3) as (H5 & H6 & H7). exists rs, s, σ. split_and!; try done. by eapply R_view.
Qed.

Definition arena : traits := mkTr true false false.   (* propagates on swap; every default one is another arena *)
Definition pool : traits := mkTr true false true.     (* default ones name the same pool *)

(** Two arrays with allocators 1 and 2: push, copy, insert a range where there
    is room, swap, move assign, destroy. *)
Definition unless_exn {Op} (k : prog Op out) (r : outcome out) : prog Op out :=
  match r with Exn => Done | Ret _ => k end.
Definition busy : prog op out :=
  Do (ACap 4 (Some 1)) (unless_exn (Do (AFill 2 (Some 2)) (unless_exn (
  Do (APush 1) (λ _, Do (ACopy 1) (unless_exn (Do (AInsertRange 0 0 3) (λ _,
  Do (ASwap 0 1) (λ _, Do (AAssignMove 0 2) (λ _, Do (ADestroy 2) (λ _, Done))))))))))).
Example array_alloc_ex :
  valid (spec_step arena) (spec_throw arena) busy init_spec ∧
  (* nothing throws *)
  run_prog (run_op arena) busy (init [])
  = Ok [Ret (RNew 0); Ret (RNew 1); Ret RUnit; Ret (RNew 2); Ret RUnit; Ret RUnit; Ret RUnit; Ret RUnit]
       (mkSt [Some (Given 1, 4); None; None; Some (Given 2, 3)]
             [Some (mkArr (Given 2) (Some 3) 3 3); Some (mkArr (Given 1) (Some 0) 3 4); None] 0 []) ∧
  (* the push throws after the array has grown *)
  run_prog (run_op arena) busy (init [false; false; false; false; false; true])
  = Ok [Ret (RNew 0); Ret (RNew 1); Exn; Ret (RNew 2); Ret RUnit; Ret RUnit; Ret RUnit; Ret RUnit]
       (mkSt [Some (Given 1, 4); None; None; Some (Given 2, 2)]
             [Some (mkArr (Given 2) (Some 3) 2 2); Some (mkArr (Given 1) (Some 0) 3 4); None] 0 []).
Proof.
  split_and!; [|done..]. unfold busy. split; [do 2 eexists; split; [reflexivity|]|by intros]. simpl unless_exn.
  split; [do 2 eexists; split; [reflexivity|]|by intros]. simpl unless_exn. simpl.
  assert (Hrest : ∀ n m, n ≤ m → valid (spec_step arena) (spec_throw arena)
    (Do (ACopy 1) (unless_exn (Do (AInsertRange 0 0 3) (λ _, Do (ASwap 0 1) (λ _, Do (AAssignMove 0 2) (λ _,
       Do (ADestroy 2) (λ _, Done)))))))
    (mkSpec [Some (mkA (Given 1) 0 4); Some (mkA (Given 2) n m)] 0)).
  { intros n m Hnm. split; [do 2 eexists; split; [reflexivity|]|by intros]. simpl unless_exn.
    assert (Hlast : ∀ σ, arrs σ = [Some (mkA (Given 1) 3 4); Some (mkA (Given 2) n m); Some (mkA (Given 2) n n)] →
      valid (spec_step arena) (spec_throw arena)
       (Do (ASwap 0 1) (λ _, Do (AAssignMove 0 2) (λ _, Do (ADestroy 2) (λ _, Done)))) σ).
    { intros [l na] Hl. simpl in Hl. subst l. split; [do 2 eexists; split; [reflexivity|]|done].
      split; [do 2 eexists; split; [reflexivity|]|done]. split; [do 2 eexists; split; [reflexivity|]|done]. done. }
    split; [do 2 eexists; split; [reflexivity|]|].
    - by apply Hlast.
    - intros σ1 (x & [= <-] & ->). by apply Hlast. }
  split; [do 2 eexists; split; [reflexivity|]|].
  - apply (Hrest 3 4). lia.
  - intros σ1 (x & [= <-] & [->| ->]); [apply (Hrest 2 2); lia|apply (Hrest 2 4); lia].
Qed.

(** Reachable states: a valid client has run so far. *)
Definition reached (tr : traits) (s : st arr) : Prop :=
  ∃ p orc rs, valid (spec_step tr) (spec_throw tr) p init_spec ∧ run_prog (run_op tr) p (init orc) = Ok rs s.
Lemma reached_R tr s : reached tr s → ∃ σ, R tr s σ.
Proof.
  intros (p & orc & rs & Hv & E).
  destruct (client_sim _ _ _ _ calm (sim_all tr) p (init orc) init_spec (R_init tr orc) Hv) as (rs' & s' & σ & H1 & _ & H3 & _).
  exists σ. rewrite H1 in E. by injection E as _ ->.
Qed.

Lemma ticks_calm {Ob} n (s : st Ob) : oracle s = [] → ticks n s = Ok tt s.
Proof. intros Ho. induction n as [|n IH]; [done|]. simpl. unfold bind, tick. by rewrite Ho. Qed.
Lemma allocate_calm {Ob} a n (s : st Ob) : oracle s = [] → allocate a n s = Ok (length (blocks s)) (set_blocks (blocks s ++ [Some (a, n)]) s).
Proof. intros Ho. unfold allocate, bind, tick. by rewrite Ho. Qed.

(** C117. The excluded case, exactly: whenever a range insertion has to grow an
    array whose allocator is not interchangeable with a default constructed one,
    then at the latest when the array is destroyed a block is given to an
    allocator it does not come from. *)
Theorem array_insert_range_wrong tr s i k n y d s1 :
  reached tr s → holds s i y → oracle s = [] → k ≤ slen y → scap y < slen y + n →
  default_alloc tr s = Ok d s1 → ¬ interchangeable tr (sal y) d →
  run_ops (run_op tr) [AInsertRange i k n; ADestroy i] s = UB BadDealloc.
Proof.
  intros Hr [b Hi] Ho Hk Hn Hd Hne. apply reached_R in Hr as [σ HR].
  destruct (R_memory _ _ _ HR) as (Hm & _ & _).
  assert (Hbad : ∀ a, interchangeable tr (sal y) a → aeq tr d a = false).
  { intros a Ha. destruct (aeq tr d a) eqn:E; [|done]. exfalso. apply Hne. apply aeq_inter. apply aeq_inter in Ha.
    eapply aeq_trans; [exact Ha|]. by apply aeq_sym. }
  assert (Hs1 : blocks s1 = blocks s ∧ objs s1 = objs s ∧ oracle s1 = []).
  { unfold default_alloc in Hd. destruct (dflt_same tr); injection Hd as _ <-; done. }
  destruct Hs1 as (Hb1 & Ho1 & Hor1).
  simpl run_ops. cbn [run_op]. unfold insert_range.
  unfold bind at 1 2 3. unfold get_obj at 1. rewrite Hi. cbn [len cap al blk].
  destruct (Nat.ltb_spec (slen y) k) as [?|_]; [lia|]. destruct (Nat.ltb_spec (scap y) (slen y + n)) as [_|?]; [|lia].
  unfold bind at 1. rewrite Hd. unfold ctor_cap at 1. unfold bind at 1 2. rewrite allocate_calm by done. cbn [ret].
  unfold bind at 1, on_throw. rewrite ticks_calm by done. cbn [blk cap al].
  unfold bind at 1, put_obj, modify at 1. unfold dtor at 1. cbn [blk cap al].
  destruct b as [b|].
  - destruct (Hm i _ b Hi eq_refl) as ([a c] & Hb & [Ha Hc]). cbn in Ha, Hc, Hb. unfold deallocate at 1. cbn.
    rewrite Hb1. rewrite (lookup_app_l_Some _ _ _ _ Hb). by rewrite (Hbad a Ha).
  - cbn. rewrite Ho1. unfold bind at 1 2 3. unfold get_obj. cbn [objs set_objs].
    rewrite list_lookup_insert by by eapply lookup_lt_Some. unfold bind at 1. unfold dtor. cbn [blk al cap]. 
    unfold deallocate. cbn [blocks set_objs set_blocks]. rewrite lookup_app_r, Nat.sub_diag by lia. cbn [lookup list_lookup].
    assert (aeq tr (sal y) d = false) as ->; [|done].
    destruct (aeq tr (sal y) d) eqn:E; [|done]. exfalso. apply Hne. by apply aeq_inter.
Qed.
(** C117 fails for arenas: an array made with an arena, one element pushed, then
    a range of two inserted. Also without any element: an empty array made with
    an arena, a range inserted, and destroyed. *)
Theorem array_alloc_refuted : ∃ tr : traits, pocs tr = true ∧
  run_ops (run_op tr) [AWith 1; APush 0; AInsertRange 0 0 2] (init []) = UB BadDealloc ∧
  run_ops (run_op tr) [AWith 1; AInsertRange 0 0 2; ADestroy 0] (init []) = UB BadDealloc ∧
  (* inserting the same elements one by one is fine *)
  (∃ rs s, run_ops (run_op tr) [AWith 1; APush 0; AInsert 0 0; AInsert 0 0; ADestroy 0] (init []) = Ok rs s).
Proof. exists arena. split_and!; [done..|]. do 2 eexists. vm_compute. reflexivity. Qed.
Example array_insert_range_wrong_ex :
  (∃ s, reached pool s ∧ holds s 0 (mkA (Given 1) 1 1) ∧ default_alloc pool s = Ok (Dflt 0) s) ∧
  ¬ interchangeable pool (Given 1) (Dflt 0) ∧
  run_ops (run_op pool) [AWith 1; APush 0; AInsertRange 0 0 2; ADestroy 0] (init []) = UB BadDealloc.
Proof.
  split_and!; [|by intros [|]|done]. exists (mkSt [Some (Given 1, 1)] [Some (mkArr (Given 1) (Some 0) 1 1)] 0 []). split_and!.
  - exists (Do (AWith 1) (λ _, Do (APush 0) (λ _, Done))), [], [Ret (RNew 0); Ret RUnit]. split; [|done].
    split; [do 2 eexists; split; [reflexivity|]|done]. split; [do 2 eexists; split; [reflexivity|done]|done].
  - by exists (Some 0).
  - done.
Qed.

(** ** Which allocator an array has *)
Lemma view_det tr s σ σ' : R tr s σ' → view s σ → nal σ = next_a s → R tr s σ.
Proof.
  intros HR [Hl Hv] Hn. assert (HR' := HR). destruct HR' as [HA HF]. assert (next_a s = nal σ') as Hn' by apply HA.
  assert (σ = σ') as ->; [|done]. destruct σ as [l n], σ' as [l' n']. simpl in *. f_equal; [|congruence].
  assert (Hl' := Forall2_length _ _ _ HF). apply list_eq. intros i. specialize (Hv i).
  destruct (objs s !! i) as [x|] eqn:Hi.
  - destruct (Forall2_lookup_l _ _ _ _ _ HF Hi) as (y' & Hy' & Hr). rewrite Hy'.
    destruct (l !! i) as [y|] eqn:Hy.
    2: { apply lookup_ge_None in Hy. apply lookup_lt_Some in Hi. lia. }
    destruct x as [x|], y' as [y'|]; simpl in Hr; try done; destruct y as [y|]; try done.
    + destruct Hv as [b Hv]. rewrite Hi in Hv. injection Hv as ->. destruct Hr as (H1 & H2 & H3 & _). simpl in *. by destruct y, y'; simpl in *; subst.
    + exfalso. unfold dead in Hv. congruence.
    + exfalso. destruct Hv as [b Hv]. congruence.
  - apply lookup_ge_None in Hi. rewrite (lookup_ge_None_2 l), (lookup_ge_None_2 l') by lia. done.
Qed.
Lemma holds_view tr s σ i y : R tr s σ → holds s i y → get σ i = Some y.
Proof.
  intros HR [b Hi]. destruct HR as [_ HF]. destruct (Forall2_lookup_l _ _ _ _ _ HF Hi) as ([y'|] & Hy' & Hr); [|done].
  unfold get. rewrite Hy'. destruct Hr as (H1 & H2 & H3 & _). simpl in *. by destruct y, y'; simpl in *; subst.
Qed.
Lemma get_view tr s σ i y : R tr s σ → get σ i = Some y → holds s i y.
Proof.
  intros HR Hg. apply R_view in HR as [_ Hv]. specialize (Hv i). unfold get in Hg. by destruct (arrs σ !! i) as [[?|]|]; simplify_eq.
Qed.

(** The calls that may give array [i] another allocator: assignment and swap. *)
Definition exchanges (o : op) (i : nat) : Prop :=
  match o with
  | AAssignCopy j _ | AAssignMove j _ | AAssignList j _ => j = i
  | ASwap j k => j = i ∨ k = i
  | _ => False
  end.

Lemma get_upd σ i j x : get (upd j x σ) i = if decide (i = j) then (_ ← arrs σ !! i; Some x) else get σ i.
Proof.
  unfold get, upd. simpl. destruct (decide (i = j)) as [->|Hne].
  - destruct (decide (j < length (arrs σ))) as [Hlt|Hge].
    + rewrite list_lookup_insert by done. by destruct (lookup_lt_is_Some_2 _ _ Hlt) as [? ->].
    + rewrite list_insert_ge, (lookup_ge_None_2 (arrs σ)) by lia. done.
  - by rewrite list_lookup_insert_ne by congruence.
Qed.
Lemma get_some σ i x : get σ i = Some x → arrs σ !! i = Some (Some x).
Proof. unfold get. destruct (arrs σ !! i) as [[?|]|]; by intros [= ->]. Qed.
Lemma get_app σ i x l n : get σ i = Some x → get (mkSpec (arrs σ ++ l) n) i = Some x.
Proof. intros H. apply get_some in H. unfold get. simpl. by rewrite (lookup_app_l_Some _ _ _ _ H). Qed.
Lemma get_bump tr σ i : get (bump tr σ) i = get σ i.
Proof. unfold get. by rewrite bump_arrs. Qed.
Lemma get_choose tr a σ i : get (choose tr a σ) i = get σ i.
Proof. unfold get. by rewrite choose_arrs. Qed.

Lemma step_keeps tr o σ σ1 r i y : spec_step tr o σ = Some (σ1, r) → o ≠ ADestroy i → get σ i = Some y →
  ∃ y', get σ1 i = Some y' ∧ (sal y' = sal y ∨ pocs tr = true ∧ exchanges o i).
Proof.
  intros Hst Hd Hi.
  assert (Hup : ∀ σ j x, get σ i = Some y → (i = j → sal x = sal y ∨ pocs tr = true ∧ exchanges o i) →
     ∃ y', get (upd j x σ) i = Some y' ∧ (sal y' = sal y ∨ pocs tr = true ∧ exchanges o i)).
  { intros τ j x Hg Hx. rewrite get_upd. destruct (decide (i = j)) as [Heq|]; [|by exists y; auto].
    rewrite (get_some _ _ _ Hg). simpl. exists x. auto. }
  assert (Hsame : ∀ σ, get σ i = Some y → ∃ y', get σ i = Some y' ∧ (sal y' = sal y ∨ pocs tr = true ∧ exchanges o i)) by eauto.
  destruct o as [|n|n a|n a|j|j|j|i' j|i' j|i' n|i' j|i'|i' n|i' n|i' k|i' k n|i'|i' n|i'|i' k m]; simpl in Hst.
  - injection Hst as <- <-. apply Hsame. rewrite <- (get_bump tr) in Hi. eapply get_app in Hi. exact Hi.
  - injection Hst as <- <-. apply Hsame. by apply get_app.
  - injection Hst as <- <-. apply Hsame. rewrite <- (get_choose tr a) in Hi. eapply get_app in Hi. exact Hi.
  - injection Hst as <- <-. apply Hsame. rewrite <- (get_choose tr a) in Hi. eapply get_app in Hi. exact Hi.
  - destruct (get σ j) as [x|] eqn:Hx; [|done]. injection Hst as <- <-. apply Hsame. by apply get_app.
  - destruct (get σ j) as [x|] eqn:Hx; [|done]. injection Hst as <- <-.
    destruct (Hup σ j (mkA (sal x) 0 0) Hi) as (y' & Hy' & H'). { intros ->. left. simpl. congruence. }
    exists y'. split; [|done]. by apply (get_app (upd j _ σ)).
  - destruct (get σ j) as [x|] eqn:Hx; [|done]. injection Hst as <- <-. apply Hsame.
    unfold get in *. simpl. rewrite list_lookup_insert_ne by congruence. done.
  - destruct (get σ i') as [x|] eqn:Hx; [|done]. simpl in Hst. destruct (get σ j) as [z|] eqn:Hz; [|done]. simpl in Hst.
    destruct (can_swap tr); [|done]. injection Hst as <- <-. apply Hup; [done|]. intros ->. simpl. unfold taken.
    destruct (pocs tr); [by right|]. left. congruence.
  - destruct (get σ i') as [x|] eqn:Hx; [|done]. simpl in Hst. destruct (get σ j) as [z|] eqn:Hz; [|done]. simpl in Hst.
    destruct (can_swap tr); [|done]. injection Hst as <- <-.
    destruct (Hup σ j (mkA (sal z) 0 0) Hi) as (y' & Hy' & H'). { intros ->. left. simpl. congruence. }
    rewrite get_upd. destruct (decide (i = i')) as [<-|]; [|by exists y'].
    rewrite (get_some _ _ _ Hy'). simpl. eexists. split; [done|]. unfold taken. destruct (pocs tr) eqn:Hp; [by right|]. left. simpl. congruence.
  - destruct (get σ i') as [x|] eqn:Hx; [|done]. simpl in Hst.
    destruct (can_swap tr); [|done]. injection Hst as <- <-. apply Hup; [by rewrite get_bump|]. intros ->. simpl. unfold taken.
    destruct (pocs tr); [by right|]. left. congruence.
  - destruct (get σ i') as [x|] eqn:Hx; [|done]. simpl in Hst. destruct (get σ j) as [z|] eqn:Hz; [|done]. simpl in Hst.
    destruct (can_swap tr); [|done]. injection Hst as <- <-.
    destruct (Hup σ i' (mkA (taken tr (sal x) (sal z)) (slen z) (scap z)) Hi) as (y' & Hy' & H').
    { intros ->. simpl. unfold taken. destruct (pocs tr); [right; auto|]. left. congruence. }
    rewrite get_upd. destruct (decide (i = j)) as [<-|]; [|by exists y'].
    rewrite (get_some _ _ _ Hy'). simpl. eexists. split; [done|]. unfold taken. destruct (pocs tr) eqn:Hp; [right; simpl; auto|]. left. simpl. congruence.
  - destruct (get σ i') as [x|] eqn:Hx; [|done]. injection Hst as <- <-. apply Hup; [done|]. intros ->. left. simpl. congruence.
  - destruct (get σ i') as [x|] eqn:Hx; [|done]. injection Hst as <- <-. apply Hup; [done|]. intros ->. left. simpl. congruence.
  - destruct (get σ i') as [x|] eqn:Hx; [|done]. injection Hst as <- <-. apply Hup; [done|]. intros ->. left. simpl. congruence.
  - destruct (get σ i') as [x|] eqn:Hx; [|done]. simpl in Hst. destruct (Nat.leb k (slen x)); [|done].
    injection Hst as <- <-. apply Hup; [done|]. intros ->. left. simpl. congruence.
  - destruct (get σ i') as [x|] eqn:Hx; [|done]. simpl in Hst. destruct (Nat.leb k (slen x)); [|done]. cbn [guard_] in Hst.
    destruct (Nat.leb (slen x + n) (scap x)).
    + injection Hst as <- <-. apply Hup; [done|]. intros ->. left. simpl. congruence.
    + destruct (same_alloc tr (sal x) (dflt tr σ)); [|done]. injection Hst as <- <-.
      apply Hup; [by rewrite get_bump|]. intros ->. left. simpl. congruence.
  - destruct (get σ i') as [x|] eqn:Hx; [|done]. injection Hst as <- <-. apply Hup; [done|]. intros ->. left. simpl. congruence.
  - destruct (get σ i') as [x|] eqn:Hx; [|done]. injection Hst as <- <-. apply Hup; [done|]. intros ->. left. simpl. congruence.
  - destruct (get σ i') as [x|] eqn:Hx; [|done]. simpl in Hst. destruct (Nat.ltb 0 (slen x)); [|done].
    injection Hst as <- <-. apply Hup; [done|]. intros ->. left. simpl. congruence.
  - destruct (get σ i') as [x|] eqn:Hx; [|done]. simpl in Hst. destruct (Nat.leb k m && Nat.leb m (slen x)); [|done].
    injection Hst as <- <-. apply Hup; [done|]. intros ->. left. simpl. congruence.
Qed.
Lemma throw_keeps tr o σ σ1 i y : spec_throw tr o σ σ1 → get σ i = Some y → ∃ y', get σ1 i = Some y' ∧ sal y' = sal y.
Proof.
  intros Hst Hi.
  assert (Hup : ∀ j x, (i = j → sal x = sal y) → ∃ y', get (upd j x σ) i = Some y' ∧ sal y' = sal y).
  { intros j x Hx. rewrite get_upd. destruct (decide (i = j)) as [Heq|]; [|by exists y; auto].
    rewrite (get_some _ _ _ Hi). simpl. exists x. auto. }
  destruct o; simpl in Hst; try done; subst;
    repeat match goal with
    | H : _ ∧ _ |- _ => destruct H
    | H : _ ∨ _ |- _ => destruct H
    | H : ∃ _, _ |- _ => destruct H
    | H : (if ?b then _ else _) |- _ => destruct b
    end; subst; try (by rewrite ?get_bump, ?get_choose; eauto); apply Hup; intros ->; simpl; congruence.
Qed.

(** C118. In every reachable state, a call whose precondition holds leaves every
    array's allocator as it is, also if it throws; only assignment to an array
    and swap may change it, and only for allocators that propagate on swap. *)
Theorem array_keeps_allocator_partial tr s σ o σ1 r i y :
  reached tr s → view s σ → nal σ = next_a s → spec_step tr o σ = Some (σ1, r) → holds s i y → o ≠ ADestroy i →
  match run_op tr o s with
  | Ok _ s' => ∃ y', holds s' i y' ∧ (sal y' = sal y ∨ pocs tr = true ∧ exchanges o i)
  | Throw s' => ∃ y', holds s' i y' ∧ sal y' = sal y
  | UB _ => False
  end.
Proof.
  intros Hre Hv Hn Hst Hi Hd. apply reached_R in Hre as [σ' HR']. assert (HR := view_det _ _ _ _ HR' Hv Hn).
  assert (Hg := holds_view _ _ _ _ _ HR Hi). assert (Hp := sim_all tr o s σ σ1 r HR Hst).
  destruct (run_op tr o s) as [r' s'|s'|u]; simpl in Hp; [| |done].
  - destruct Hp as (_ & HR1 & _). destruct (step_keeps _ _ _ _ _ _ _ Hst Hd Hg) as (y' & Hy' & H').
    exists y'. split; [|done]. by eapply get_view.
  - destruct Hp as (_ & τ & Hex & HR1). destruct (throw_keeps _ _ _ _ _ _ Hex Hg) as (y' & Hy' & H').
    exists y'. split; [|done]. by eapply get_view.
Qed.

(** C118 fails for assignment from an initializer list: the array drops the
    allocator it was given and goes on with a default constructed one, whose
    later blocks it also takes. *)
Theorem array_keeps_allocator_refuted : ∃ tr s i y,
  reached tr s ∧ holds s i y ∧ sal y = Given 1 ∧
  ∃ rs s' y', run_ops (run_op tr) [AAssignList i 3; APush i] s = Ok rs s' ∧ holds s' i y' ∧
    ¬ interchangeable tr (sal y') (Given 1) ∧
    ∃ b, objs s' !! i = Some (Some (mkArr (sal y') (Some b) (slen y') (scap y'))) ∧ blocks s' !! b = Some (Some (Dflt 0, 6)).
Proof.
  exists pool, (mkSt [Some (Given 1, 2)] [Some (mkArr (Given 1) (Some 0) 2 2)] 0 []), 0, (mkA (Given 1) 2 2). split_and!.
  - exists (Do (AFill 2 (Some 1)) (λ _, Done)), [], [Ret (RNew 0)]. split; [|done]. split; [do 2 eexists; split; [reflexivity|done]|done].
  - by exists (Some 0).
  - done.
  - do 2 eexists. exists (mkA (Dflt 0) 4 6). split; [vm_compute; reflexivity|]. split; [by eexists|]. split; [by intros [|]|].
    exists 2. done.
Qed.
Example array_keeps_allocator_ex :
  (* swap exchanges allocators together with the memory *)
  run_ops (run_op pool) [AFill 2 (Some 1); AFill 1 (Some 2); ASwap 0 1; APush 1] (init [])
  = Ok [RNew 0; RNew 1; RUnit; RUnit]
       (mkSt [None; Some (Given 2, 1); Some (Given 1, 4)]
             [Some (mkArr (Given 2) (Some 1) 1 1); Some (mkArr (Given 1) (Some 2) 3 4)] 0 []).
Proof. done. Qed.

(** ** LinkedList *)
Definition lview (s : st lst) (σ : list (option nat)) : Prop :=
  length (objs s) = length σ ∧
  ∀ i, match σ !! i with
       | Some (Some n) => ∃ x, objs s !! i = Some (Some x) ∧ length (lnodes x) = n
       | Some None => dead s i
       | None => True
       end.
Lemma RL_view tr s σ : RL tr s σ → lview s σ.
Proof.
  intros [L [_ HF]]. split; [by eapply Forall2_length|]. intros i. destruct (σ !! i) as [[y|]|] eqn:Hi; [| |done].
  - destruct (Forall2_lookup_r _ _ _ _ _ HF Hi) as ([x|] & Hx & Hr); [|done]. exists x. by destruct Hr.
  - destruct (Forall2_lookup_r _ _ _ _ _ HF Hi) as ([x|] & Hx & Hr); done.
Qed.
Lemma RLL_init tr orc : RLL tr [] (init orc) [].
Proof.
  split; [|constructor]. exists 0. split_and!; [split_and!; [constructor|constructor|done]| |done..].
  intros b Hb. by apply elem_of_nil in Hb.
Qed.
Lemma RL_init tr orc : RL tr (init orc) [].
Proof. exists []. apply RLL_init. Qed.
Lemma valid_calm {Op Out A} (step : Op → A → option (A * Out)) exn p σ : valid step exn p σ → valid step (λ _ _ _, False) p σ.
Proof. revert σ. induction p as [|o k IH]; intros σ; [done|]. intros [(σ1 & r & Hs & Hv) _]. split; [|done]. exists σ1, r. auto. Qed.
Lemma RLL_noleak tr s σ : RLL tr [] s σ → ∀ b x, blocks s !! b = Some (Some x) → ∃ i y, objs s !! i = Some (Some y) ∧ b ∈ lnodes y.
Proof.
  intros [(na & (_ & _ & Hl) & _) _] b x Hb. apply Hl in Hb. simpl in Hb.
  apply elem_of_list_fmap in Hb as (c & -> & Hc). apply owned_elem in Hc as (i & y & Hi & Hc). exists i, y. split; [done|].
  unfold lclaims, nclaims in Hc. apply elem_of_list_fmap in Hc as (b & -> & Hb). done.
Qed.
Lemma RL_once tr s σ : RL tr s σ →
  (∀ i y, objs s !! i = Some (Some y) → NoDup (lnodes y)) ∧
  (∀ i j y z b, objs s !! i = Some (Some y) → objs s !! j = Some (Some z) → b ∈ lnodes y → b ∈ lnodes z → i = j).
Proof.
  intros [L [(na & (Hn & _ & _) & _) _]]. apply NoDup_app in Hn as (_ & _ & Hn). simpl in Hn.
  assert (Hcl : ∀ y, (lclaims y).*1 = lnodes y).
  { intros y. unfold lclaims, nclaims. rewrite <- list_fmap_compose. apply list_fmap_id. }
  assert (HP : ∀ i y, objs s !! i = Some (Some y) → (owned lclaims (<[i := None]> (objs s))).*1 ++ lnodes y ≡ₚ (owned lclaims (objs s)).*1).
  { intros i y Hi. rewrite <- Hcl, <- fmap_app. apply fmap_Permutation.
    assert (H := owned_insert lclaims (objs s) i (Some y) None Hi). by rewrite app_nil_r in H. }
  split.
  - intros i y Hi. rewrite <- (HP i y Hi) in Hn. by apply NoDup_app in Hn as (_ & _ & Hn).
  - intros i j y z b Hi Hj Hy Hz. destruct (decide (i = j)) as [|Hne]; [done|]. exfalso.
    rewrite <- (HP i y Hi) in Hn. apply NoDup_app in Hn as (_ & Hn & _). apply (Hn b); [|done].
    apply elem_of_list_fmap. exists (b, (lal z, 1)). split; [done|]. apply owned_elem. exists j, z.
    rewrite list_lookup_insert_ne by done. split; [done|]. apply elem_of_list_fmap. by exists b.
Qed.
Lemma RL_nodes tr s σ : RL tr s σ → ∀ i y b, objs s !! i = Some (Some y) → b ∈ lnodes y →
  ∃ a, blocks s !! b = Some (Some (a, 1)) ∧ interchangeable tr (lal y) a.
Proof.
  intros [L [(na & ((Hn & Hf & Hl) & _)) _]] i y b Hi Hb. rewrite Forall_forall in Hf.
  destruct (Hf (b, (lal y, 1))) as (a & H1 & H2).
  { simpl. apply owned_elem. exists i, y. split; [done|]. unfold lclaims, nclaims. apply elem_of_list_fmap. by exists b. }
  exists a. split; [done|]. by apply aeq_inter.
Qed.

(** C119. Whatever a client does with lists and whatever throws, every node of a
    list is live, belongs to no other list and came from an allocator
    interchangeable with the list's, and every node is returned to such an
    allocator; if nothing throws, every node not in a list has been returned
    (constructors that throw lose their nodes, see C21). Partial: if default constructed
    allocators are not interchangeable, lists with elements must not be moved. *)
Theorem list_alloc_partial tr p orc :
  valid (lspec_step tr) lspec_throw p [] →
  ∃ rs s σ, run_prog (run_lop tr) p (init orc) = Ok rs s ∧
    spec_run (lspec_step tr) lspec_throw p [] rs σ ∧ lview s σ ∧
    (∀ i y b, objs s !! i = Some (Some y) → b ∈ lnodes y →
       ∃ a, blocks s !! b = Some (Some (a, 1)) ∧ interchangeable tr (lal y) a) ∧
    (∀ i y, objs s !! i = Some (Some y) → NoDup (lnodes y)) ∧
    (∀ i j y z b, objs s !! i = Some (Some y) → objs s !! j = Some (Some z) → b ∈ lnodes y → b ∈ lnodes z → i = j) ∧
    (orc = [] → Exn ∉ rs ∧
       ∀ b x, blocks s !! b = Some (Some x) → ∃ i y, objs s !! i = Some (Some y) ∧ b ∈ lnodes y).
Proof.
  intros Hv. destruct (client_sim _ _ _ _ lcalm (lsim_all tr) p (init orc) [] (RL_init tr orc) Hv)
    as (rs & s & σ & H1 & H2 & H3 & H4).
  destruct (RL_once _ _ _ H3) as [H5 H6].
  exists rs, s, σ. split_and!; try done; [by eapply RL_view|by eapply RL_nodes|].
  intros Ho. split; [by apply H4|].
  destruct (client_sim _ _ _ _ lcalm (lsim_calm tr) p (init orc) [] (conj (RLL_init tr orc) Ho) (valid_calm _ _ _ _ Hv))
    as (rs' & s' & σ' & E & _ & [HR _] & _).
  rewrite H1 in E. injection E as _ <-. by eapply RLL_noleak.
Qed.
Definition lbusy : prog lop out :=
  Do (LNew 3) (unless_exn (Do (LMove 0) (λ _, Do (LAssign 0 2) (unless_exn
  (Do (LAssignMove 0 1) (λ _, Do (LErase 0 0 1) (λ _, Do (LDestroy 1) (λ _, Done)))))))).
Example list_alloc_ex :
  valid (lspec_step pool) lspec_throw lbusy [] ∧
  run_prog (run_lop pool) lbusy (init [])
  = Ok [Ret (RNew 0); Ret (RNew 1); Ret RUnit; Ret RUnit; Ret RUnit; Ret RUnit]
       (mkSt [None; Some (Dflt 0, 1); Some (Dflt 0, 1); None; None] [Some (mkL (Dflt 0) [1; 2]); None] 0 []).
Proof.
  split; [|done]. unfold lbusy. split; [do 2 eexists; split; [reflexivity|]|by intros]. simpl unless_exn.
  split; [do 2 eexists; split; [reflexivity|]|done]. split; [do 2 eexists; split; [reflexivity|]|by intros]. simpl unless_exn.
  split; [do 2 eexists; split; [reflexivity|]|done]. split; [do 2 eexists; split; [reflexivity|]|done].
  split; [do 2 eexists; split; [reflexivity|done]|done].
Qed.

Definition lreached (tr : traits) (s : st lst) : Prop :=
  ∃ p orc rs, valid (lspec_step tr) lspec_throw p [] ∧ run_prog (run_lop tr) p (init orc) = Ok rs s.
Lemma lreached_R tr s : lreached tr s → ∃ σ, RL tr s σ.
Proof.
  intros (p & orc & rs & Hv & E).
  destruct (client_sim _ _ _ _ lcalm (lsim_all tr) p (init orc) [] (RL_init tr orc) Hv) as (rs' & s' & σ & H1 & _ & H3 & _).
  exists σ. rewrite H1 in E. by injection E as _ ->.
Qed.

(** C119. The excluded case, exactly: a list with elements that has been
    move constructed from another cannot even be destroyed: its first node goes
    back to an allocator it does not come from. *)
Theorem list_move_wrong tr s j x d s1 :
  lreached tr s → objs s !! j = Some (Some x) → lnodes x ≠ [] →
  default_alloc tr s = Ok d s1 → ¬ interchangeable tr d (lal x) →
  run_ops (run_lop tr) [LMove j; LDestroy (length (objs s))] s = UB BadDealloc.
Proof.
  intros Hre Hj Hne Hd Hi. apply lreached_R in Hre as [σ HR]. assert (Hm := RL_nodes _ _ _ HR).
  destruct (lnodes x) as [|b bs] eqn:Hx; [done|]. destruct (Hm j x b Hj) as (a & Hb & Ha). { rewrite Hx. by left. }
  assert (Hs1 : blocks s1 = blocks s ∧ objs s1 = objs s).
  { unfold default_alloc in Hd. destruct (dflt_same tr); injection Hd as _ <-; done. }
  destruct Hs1 as (Hb1 & Ho1).
  assert (Hbad : aeq tr d a = false).
  { destruct (aeq tr d a) eqn:E; [|done]. exfalso. apply Hi. apply aeq_inter. apply aeq_inter, aeq_sym in Ha. by eapply aeq_trans. }
  assert (Hg : get_obj j s1 = Ok x s1). { unfold get_obj. by rewrite Ho1, Hj. }
  simpl run_ops. cbn [run_lop]. unfold lctor_move.
  unfold bind at 1 2 3. rewrite Hd. unfold bind at 1. rewrite Hg. cbn. rewrite Ho1, Hx, insert_length.
  unfold bind. unfold ldestroy, lclear, bind. unfold get_obj. cbn [objs set_objs].
  rewrite lookup_app_r, insert_length, Nat.sub_diag by (rewrite insert_length; lia). cbn [lookup list_lookup].
  unfold erase_after, bind, get_obj. cbn [objs set_objs].
  rewrite lookup_app_r, insert_length, Nat.sub_diag by (rewrite insert_length; lia). cbn [lookup list_lookup].
  cbn [lnodes lal]. rewrite Nat.leb_refl. cbn [Nat.leb andb]. rewrite drop_0, Nat.sub_0_r, firstn_all. cbn [free_nodes]. unfold bind.
  unfold deallocate. cbn [blocks set_objs]. rewrite Hb1, Hb, Hbad. done.
Qed.
(** The same after move assignment to another list. *)
Theorem list_move_assign_wrong tr s i j z x :
  lreached tr s → i ≠ j → objs s !! i = Some (Some z) → objs s !! j = Some (Some x) → lnodes x ≠ [] →
  ¬ interchangeable tr (lal z) (lal x) →
  run_ops (run_lop tr) [LAssignMove i j; LDestroy i] s = UB BadDealloc.
Proof.
  intros Hre Hij Hz Hj Hne Hi. apply lreached_R in Hre as [σ [L [(na & HA) HF]]].
  assert (Hc := lclear_at tr i z L (objs s) na False s Hz HA).
  simpl run_ops. cbn [run_lop]. unfold lassign_move. unfold bind at 1 2 3.
  destruct (lclear tr i s) as [[] s2|s2|]; simpl in Hc; [|done..].
  assert (HO : objs s2 = <[i := Some (mkL (lal z) [])]> (objs s)) by apply Hc.
  assert (HR2 : RL tr s2 (<[i := Some 0]> σ)).
  { eapply RL_intro; [exact Hc|]. apply lrel_upd; [done|done|]. destruct (Forall2_lookup_l _ _ _ _ _ HF Hz) as ([?|] & _ & Hr); [apply Hr|done]. }
  assert (Hj2 : objs s2 !! j = Some (Some x)) by by rewrite HO, list_lookup_insert_ne.
  destruct (lnodes x) as [|b bs] eqn:Hx; [done|].
  destruct (RL_nodes _ _ _ HR2 j x b Hj2) as (a & Hb & Ha). { rewrite Hx. by left. }
  assert (Hbad : aeq tr (lal z) a = false).
  { destruct (aeq tr (lal z) a) eqn:E; [|done]. exfalso. apply Hi. apply aeq_inter. apply aeq_inter, aeq_sym in Ha. by eapply aeq_trans. }
  assert (Hi2 : objs s2 !! i = Some (Some (mkL (lal z) []))). { rewrite HO. by eapply ins_lk. }
  unfold bind at 1. unfold get_obj at 1. rewrite Hi2. unfold bind at 1. unfold get_obj at 1. rewrite Hj2.
  unfold bind at 1, put_obj at 1, modify. unfold put_obj. unfold modify. cbn [lal lnodes objs set_objs ret]. rewrite Hx.
  assert (Hl : i < length (objs s2)) by by eapply lookup_lt_Some.
  unfold bind. unfold ldestroy, lclear, bind. unfold get_obj. cbn [objs set_objs ret].
  rewrite list_lookup_insert by by rewrite insert_length.
  unfold erase_after, bind, get_obj. cbn [objs set_objs].
  rewrite list_lookup_insert by by rewrite insert_length.
  cbn [lnodes lal]. rewrite Nat.leb_refl. cbn [Nat.leb andb]. rewrite drop_0, Nat.sub_0_r, firstn_all. cbn [free_nodes]. unfold bind.
  unfold deallocate. cbn [blocks set_objs]. rewrite Hb, Hbad. done.
Qed.
Theorem list_alloc_refuted : ∃ tr : traits,
  run_ops (run_lop tr) [LNew 1; LMove 0; LDestroy 1] (init []) = UB BadDealloc ∧
  run_ops (run_lop tr) [LNew 1; LNew 0; LAssignMove 1 0; LDestroy 1] (init []) = UB BadDealloc ∧
  (* copying instead of moving is fine *)
  ∃ rs s, run_ops (run_lop tr) [LNew 1; LCopy 0; LAssignCopy 1 0; LDestroy 1; LDestroy 0] (init []) = Ok rs s.
Proof. exists arena. split_and!; [done..|]. do 2 eexists. vm_compute. reflexivity. Qed.
Example list_move_wrong_ex : ∃ s x s1, lreached arena s ∧ objs s !! 0 = Some (Some x) ∧ lnodes x = [0; 1] ∧
  default_alloc arena s = Ok (Dflt 1) s1 ∧ ¬ interchangeable arena (Dflt 1) (lal x) ∧
  run_ops (run_lop arena) [LNew 2; LMove 0; LDestroy 1] (init []) = UB BadDealloc ∧
  run_ops (run_lop arena) [LNew 2; LNew 3; LAssignMove 1 0; LDestroy 1] (init []) = UB BadDealloc.
Proof.
  exists (mkSt [Some (Dflt 0, 1); Some (Dflt 0, 1)] [Some (mkL (Dflt 0) [0; 1])] 1 []), (mkL (Dflt 0) [0; 1]). eexists. split_and!.
  - exists (Do (LNew 2) (λ _, Done)), [], [Ret (RNew 0)]. split; [|done]. split; [do 2 eexists; split; [reflexivity|done]|done].
  - done.
  - done.
  - reflexivity.
  - by intros [|].
  - done.
  - done.
Qed.

(** The static_assert of swap (C117) accepts exactly the allocators for which, whatever two
    arrays are swapped, each of them can give back the storage that it gets. *)
Theorem array_swap_accepted : ∀ tr, swap_ok tr = true ↔
  ∀ x y, interchangeable tr (al (fst (swap tr x y))) (al y) ∧ interchangeable tr (al (snd (swap tr x y))) (al x).
Proof.
  intros tr. unfold swap_ok, swap, interchangeable. split.
  - intros [Hp|He]%orb_prop x y; [rewrite Hp; auto|auto].
  - intros H. destruct (pocs tr); [done|]. cbn.
    destruct (H (mkArr (Given 0) None 0 0) (mkArr (Given 1) None 0 0)) as [[Ha|[=]] _]. done.
Qed.
Example array_swap_accepted_ex : swap_ok (mkTr false true false) = true ∧ swap_ok (mkTr false false true) = false.
Proof. done. Qed.

Definition alloc_theorems := (@array_swap_accepted, array_alloc_partial, array_insert_range_wrong, array_alloc_refuted,
  array_keeps_allocator_partial, array_keeps_allocator_refuted, list_alloc_partial, list_move_wrong,
  list_move_assign_wrong, list_alloc_refuted).
Print Assumptions alloc_theorems.
