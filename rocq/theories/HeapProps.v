(** Theorems about xme::Heap (properties C23-C26). *)
From stdpp Require Import list list_numbers sorting.
From Coq Require Import Lia.
From Verif Require Import Base Client ArrayModel HeapModel HeapSpec HeapRun.
From Verif Require ArraySpec ArrayHistory ArrayObs HeapOrder HeapProofs HeapHistory ArrayProps.
Local Open Scope mon_scope.
Local Arguments heapfy_up_loop : simpl never.
Local Arguments heapfy_down_rec : simpl never.

(** Heap [i] holds [l], in this order (begin()..end()). *)
Definition hobs {V} (s : st V) (i : nat) (l : list V) : Prop := to_list i s = Ok l s.
(** States in which some client program, all of whose calls meet their
    preconditions, can end; [orc] decides which allocations throw. *)
Definition reach {V} (lt : V → V → bool) (s : st V) : Prop :=
  ∃ p orc rs, rvalid pre (rstep lt) exn p [] ∧ run_prog (run_op lt) p (init orc) = Ok rs s.
(** The comparator that [Heap] defaults to, on numbers. *)
Definition nlt (a b : nat) : bool := Nat.ltb a b.
Lemma nlt_sw : strict_weak nlt.
Proof.
  unfold nlt. split; intros *; rewrite ?Nat.ltb_lt, ?Nat.ltb_ge; lia.
Qed.
(** An order with equivalent but different elements: by tens digit. *)
Definition tlt (a b : nat) : bool := Nat.ltb (a / 10) (b / 10).
Lemma tlt_sw : strict_weak tlt.
Proof.
  unfold tlt. split; intros *; rewrite ?Nat.ltb_lt, ?Nat.ltb_ge; lia.
Qed.
(** A comparator that is not an order at all. *)
Definition odd_lt (a b : nat) : bool := Nat.odd (a + 2 * b) || Nat.eqb a b.

Section facts.
Context {V : Type} (lt : V → V → bool).
Lemma reach_R s : reach lt s → ∃ σ, HeapHistory.R lt s σ.
Proof.
  intros (p & orc & rs & Hv & E).
  destruct (rclient_sim _ _ _ _ _ _ (HeapHistory.heap_simulates lt) p (init orc) [] (HeapHistory.R_init lt orc) Hv)
    as (rs' & s' & σ' & E' & _ & HR & _). rewrite E in E'. injection E' as <- <-. eauto.
Qed.
Lemma R_obs s σ i l : HeapHistory.R lt s σ → get σ i = Some l → hobs s i l.
Proof.
  intros (σA & Hs & HF & _) Hg. destruct (HeapHistory.rel_get _ _ _ _ _ HF Hg) as [[c Hi] _].
  by destruct (ArrayObs.srs_obs _ _ _ _ _ Hs Hi).
Qed.
Lemma R_get s σ i l : HeapHistory.R lt s σ → hobs s i l → get σ i = Some l.
Proof.
  intros HR Ho. destruct (get σ i) as [l'|] eqn:Hg.
  - assert (Ho' := R_obs s σ i l' HR Hg). unfold hobs in *. rewrite Ho in Ho'. congruence.
  - exfalso. destruct HR as (σA & Hs & HF & _). assert (Hlen := Forall2_length _ _ _ HF).
    assert (Hn : objs s !! i = None ∨ objs s !! i = Some None).
    { destruct Hs as [ow H]. unfold get in Hg. destruct (σ !! i) as [[l'|]|] eqn:Hi; [done| |].
      - destruct (Forall2_lookup_r _ _ _ _ _ HF Hi) as (a & Ha & Hr). simpl in Hr. subst a.
        right. by apply (ArrayHistory.sr_dead _ _ _ _ _ H).
      - left. apply lookup_ge_None. rewrite (ArrayHistory.sr_len _ _ _ _ _ H), Hlen. by apply lookup_ge_None. }
    unfold hobs, to_list, size, get_arr, bind in Ho. by destruct Hn as [E|E]; rewrite E in Ho.
Qed.
Lemma R_hp s σ i l : strict_weak lt → HeapHistory.R lt s σ → hobs s i l → HeapOrder.hp lt l.
Proof.
  intros SW HR Ho. assert (Hg := R_get _ _ _ _ HR Ho). destruct HR as (σA & Hs & HF & _).
  destruct (HeapHistory.rel_get _ _ _ _ _ HF Hg) as [_ Hh]. auto.
Qed.
End facts.

(** ** All histories *)

(** Whatever the comparator and whichever allocations fail, every client
    program whose calls meet their preconditions runs without undefined
    behaviour and without running out of fuel, and behaves as the specification
    says; if no allocation fails no call throws. *)
Theorem heap_history {V} (lt : V → V → bool) (p : prog (op V) (out V)) (orc : list bool) :
  rvalid pre (rstep lt) exn p [] →
  ∃ rs s σ, run_prog (run_op lt) p (init orc) = Ok rs s ∧ rspec_run (rstep lt) exn p [] rs σ ∧
            (∀ i l, hobs s i l ↔ get σ i = Some l) ∧ leaked s = 0 ∧ (orc = [] → Exn ∉ rs).
Proof.
  intros Hv.
  destruct (rclient_sim _ _ _ _ _ _ (HeapHistory.heap_simulates lt) p (init orc) [] (HeapHistory.R_init lt orc) Hv)
    as (rs & s & σ & E & Hr & HR & Hc).
  exists rs, s, σ. split_and!; auto.
  - intros i l. split; [by eapply R_get|by eapply R_obs].
  - by destruct HR as (? & ? & ? & ?).
Qed.
(** A program that pushes and, whether or not that throws, copies the heap. *)
Definition ex_prog : prog (op nat) (out nat) :=
  Do HDefault (λ _, Do (HPush 0 4) (λ _, Do (HPush 0 7) (λ r,
    match r with
    | Ret _ => Do (HCopy 0) (λ _, Done)
    | Exn => Do (HToList 0) (λ _, Do (HRange true [3;8;5]) (λ _, Done))
    end))).
Example heap_history_ex :
  (∃ s, run_prog (run_op nlt) ex_prog (init []) = Ok [Ret (RNew 0); Ret RUnit; Ret RUnit; Ret (RNew 1)] s ∧
        hobs s 0 [7;4] ∧ hobs s 1 [7;4]) ∧
  (∃ s, run_prog (run_op nlt) ex_prog (init [false; false; true]) =
          Ok [Ret (RNew 0); Ret RUnit; Exn; Ret (RList [4]); Ret (RNew 1)] s ∧ hobs s 0 [4] ∧ hobs s 1 [8;3;5]) ∧
  rvalid pre (rstep odd_lt) exn ex_prog [].
Proof.
  split_and!; [eexists; (split; [vm_compute; reflexivity|]); vm_compute; by repeat split..|].
  split; [done|]. split; [|done]. intros r σ (-> & ->). split; [by eexists|]. split.
  - intros r σ (-> & l & l' & _ & _ & ->). split; [by eexists|]. split.
    + intros r σ (-> & l1 & l1' & _ & _ & ->). split; [by eexists|]. split; [done|]. by intros.
    + intros σ ->. split; [by eexists|]. split; [|done]. by intros.
  - intros σ ->. split; [by eexists|]. split.
    + intros r σ (-> & l1 & l1' & _ & _ & ->). split; [by eexists|]. split; [done|]. by intros.
    + intros σ ->. split; [by eexists|]. split; [|done]. by intros.
Qed.

(** Once every heap has been destroyed all memory has been returned. *)
Theorem heap_no_leak {V} (lt : V → V → bool) s : reach lt s → (∀ i l, ¬ hobs s i l) →
  ∀ b cs, heap s !! b ≠ Some (Some cs).
Proof.
  intros [σ HR]%reach_R Hno. pose proof HR as (σA & Hs & HF & _).
  eapply ArrayHistory.srs_no_leak; [exact Hs|]. intros i x Hi.
  destruct (Forall2_lookup_l _ _ _ _ _ HF Hi) as ([l|] & Hl & Hr); [|done].
  apply (Hno i l). eapply R_obs; [exact HR|]. by apply HeapHistory.get_Some.
Qed.

(** A concrete state: heap 0 was built from a range, then changed; heap 1 is a
    range with equal elements. *)
Definition ex_ops : list (op nat) :=
  [HRange true [15;3;22;3;38;7;31]; HPush 0 27; HPop 0; HEmplace 0 9; HRange false [4;4;4]].
(** Straight-line programs, stopping at the first exception. *)
Fixpoint straight {V} (os : list (op V)) : prog (op V) (out V) :=
  match os with [] => Done | o :: os' => Do o (λ r, match r with Ret _ => straight os' | Exn => Done end) end.
(** Their preconditions depend on the sizes only. *)
Definition sizes {V} (σ : hst V) : list (option nat) := map (option_map length) σ.
Definition gets_ (z : list (option nat)) i : option nat := match z !! i with Some (Some n) => Some n | _ => None end.
Definition zstep {V} (o : op V) (z : list (option nat)) : option (list (option nat)) :=
  match o with
  | HDefault => Some (z ++ [Some 0])
  | HRange _ vs => Some (z ++ [Some (length vs)])
  | HCopy j => n ← gets_ z j; Some (z ++ [Some n])
  | HMove j => n ← gets_ z j; Some (<[j := Some 0]> z ++ [Some n])
  | HDestroy i => _ ← gets_ z i; Some (<[i := None]> z)
  | HAssignCopy i j => _ ← gets_ z i; n ← gets_ z j; Some (<[i := Some n]> z)
  | HAssignMove i j => _ ← gets_ z i; n ← gets_ z j; Some (<[i := Some n]> (<[j := Some 0]> z))
  | HPush i _ | HEmplace i _ => n ← gets_ z i; Some (<[i := Some (S n)]> z)
  | HPop i => n ← gets_ z i; match n with 0 => None | S n => Some (<[i := Some n]> z) end
  | HFront i => n ← gets_ z i; match n with 0 => None | S n => Some z end
  | HSize i | HEmpty i | HToList i => _ ← gets_ z i; Some z
  end.
Fixpoint zok {V} (os : list (op V)) (z : list (option nat)) : bool :=
  match os with [] => true | o :: os' => match zstep o z with Some z' => zok os' z' | None => false end end.
Lemma gets_get {V} (σ : hst V) i n : gets_ (sizes σ) i = Some n ↔ ∃ l, get σ i = Some l ∧ length l = n.
Proof.
  unfold gets_, get, sizes. rewrite list_lookup_fmap. destruct (σ !! i) as [[l|]|]; simpl; split.
  - intros [= <-]. eauto.
  - by intros (? & [= <-] & <-).
  - done.
  - by intros (? & ? & ?).
  - done.
  - by intros (? & ? & ?).
Qed.
Lemma zstep_ok {V} lt (o : op V) σ z' : zstep o (sizes σ) = Some z' →
  pre o σ ∧ ∀ r σ', rstep lt o σ r σ' → sizes σ' = z'.
Proof.
  assert (Hput : ∀ σ i (l : list V), sizes (put σ i l) = <[i := Some (length l)]> (sizes σ)).
  { intros. unfold put, sizes. by rewrite list_fmap_insert. }
  assert (Happ : ∀ σ (l : list V), sizes (σ ++ [Some l]) = sizes σ ++ [Some (length l)]).
  { intros. unfold sizes. by rewrite map_app. }
  destruct o; cbn [zstep pre rstep]; try (destruct (gets_ (sizes σ) _) as [n|] eqn:Hg; [|done]; cbn -[gets_];
    pose proof Hg as (l & Hl & <-)%gets_get).
  - intros [= <-]. split; [done|]. intros r σ' (-> & ->). by rewrite Happ.
  - intros [= <-]. split; [done|]. intros r σ' (-> & l' & [Hp _] & ->). rewrite Happ. by rewrite (Permutation_length Hp).
  - intros [= <-]. split; [eauto|]. intros r σ' (-> & l' & Hl' & ->). rewrite Happ. congruence.
  - intros [= <-]. split; [eauto|]. intros r σ' (-> & l' & Hl' & ->). rewrite Happ, Hput. simpl. congruence.
  - intros [= <-]. split; [eauto|]. intros r σ' (-> & ->). unfold sizes. by rewrite list_fmap_insert.
  - destruct (gets_ (sizes σ) i) as [n|] eqn:Hg; [|done]. pose proof Hg as (l & Hl & <-)%gets_get. cbn -[gets_].
    destruct (gets_ (sizes σ) j) as [m|] eqn:Hg'; [|done]. cbn. intros [= <-].
    pose proof Hg' as (l' & Hl' & <-)%gets_get. split; [eauto|].
    intros r σ' (-> & l2 & Hl2 & ->). rewrite Hput. congruence.
  - destruct (gets_ (sizes σ) i) as [n|] eqn:Hg; [|done]. pose proof Hg as (l & Hl & <-)%gets_get. cbn -[gets_].
    destruct (gets_ (sizes σ) j) as [m|] eqn:Hg'; [|done]. cbn. intros [= <-].
    pose proof Hg' as (l' & Hl' & <-)%gets_get. split; [eauto|].
    intros r σ' (-> & l2 & Hl2 & ->). rewrite !Hput. simpl. congruence.
  - intros [= <-]. split; [eauto|]. intros r σ' (-> & l1 & l2 & Hl1 & [Hp _] & ->). rewrite Hput, (Permutation_length Hp). simpl. congruence.
  - intros [= <-]. split; [eauto|]. intros r σ' (-> & l1 & l2 & Hl1 & [Hp _] & ->). rewrite Hput, (Permutation_length Hp). simpl. congruence.
  - destruct l as [|x l]; [done|]. intros [= <-]. split; [eauto|].
    intros r σ' (-> & x1 & l1 & l2 & Hl1 & [Hp _] & ->). rewrite Hput, (Permutation_length Hp). congruence.
  - destruct l as [|x l]; [done|]. intros [= <-]. split; [eauto|]. by intros r σ' (-> & _).
  - intros [= <-]. split; [eauto|]. by intros r σ' (-> & _).
  - intros [= <-]. split; [eauto|]. by intros r σ' (-> & _).
  - intros [= <-]. split; [eauto|]. by intros r σ' (-> & _).
Qed.
Lemma straight_valid {V} lt (os : list (op V)) : ∀ σ, zok os (sizes σ) = true → rvalid pre (rstep lt) exn (straight os) σ.
Proof.
  induction os as [|o os IH]; intros σ Hz; [done|]. cbn [zok straight rvalid] in *.
  destruct (zstep o (sizes σ)) as [z'|] eqn:Hs; [|done]. destruct (zstep_ok lt o σ z' Hs) as [Hp Hr].
  split; [done|]. split; [|done]. intros r σ' Hst. apply IH. by rewrite (Hr _ _ Hst).
Qed.
Definition ex_s (lt : nat → nat → bool) : st nat :=
  match run_prog (run_op lt) (straight ex_ops) (init []) with Ok _ s => s | _ => init [] end.
Lemma ex_reach lt : reach lt (ex_s lt).
Proof.
  assert (Hv := straight_valid lt ex_ops [] eq_refl).
  destruct (heap_history lt _ [] Hv) as (rs & s & σ & E & _). exists (straight ex_ops), [], rs.
  split; [done|]. unfold ex_s. by rewrite E.
Qed.
Example ex_state :
  hobs (ex_s nlt) 0 [31;27;15;22;3;7;3;9] ∧ hobs (ex_s nlt) 1 [4;4;4] ∧
  hobs (ex_s tlt) 0 [31;22;15;27;3;7;3;9] ∧ hobs (ex_s odd_lt) 0 [38;9;31;3;15;3;7;27].
Proof. vm_compute. by repeat split. Qed.
(** Destroying both heaps returns all memory. *)
Example heap_no_leak_ex : ∃ rs s, run_prog (run_op nlt) (straight (ex_ops ++ [HDestroy 0; HDestroy 1])) (init []) = Ok rs s ∧
  (reach nlt s ∧ ∀ i l, ¬ hobs s i l) ∧ heap s = [None; None; None; None; None].
Proof.
  assert (Hv := straight_valid nlt (ex_ops ++ [HDestroy 0; HDestroy 1]) [] eq_refl).
  eexists _, _. split; [vm_compute; reflexivity|]. split; [|done]. split.
  - exists (straight (ex_ops ++ [HDestroy 0; HDestroy 1])), []. eexists. split; [done|]. vm_compute. reflexivity.
  - intros [|[|i]] l H; vm_compute in H; discriminate H.
Qed.

(** ** C23 *)

Lemma front_R {V} lt (s : st V) σ i x l : HeapHistory.R lt s σ → hobs s i (x :: l) →
  front i s = Ok x s ∧ empty i s = Ok false s.
Proof.
  intros HR Ho. assert (Hg := R_get _ _ _ _ _ HR Ho). destruct HR as (σA & Hs & HF & _).
  destruct (HeapHistory.rel_get _ _ _ _ _ HF Hg) as [[c Hi] Hh]. split.
  - destruct (HeapProofs.at_eq _ _ _ _ _ 0 x Hs Hi eq_refl) as [Hat (b & Hix & _)].
    unfold at_ in Hat. unfold bind in Hat. rewrite Hix in Hat. unfold index, bind in Hix. unfold front, bind.
    destruct (begin_ i s) as [p s1|s1|u] eqn:Hb; [|done..].
    assert (s1 = s) as ->.
    { unfold begin_, bind, get_arr, ret in Hb. by destruct (objs s !! i) as [[a|]|]; [injection Hb|..]. }
    destruct p as [|b' o]; unfold padd in Hix; simpl in Hix; [done|].
    destruct (heap s !! b') as [[cs|]|]; [|done..]. rewrite Nat.add_0_r in Hix.
    destruct (Nat.leb o (length cs)); [|done]. injection Hix as -> ->. done.
  - unfold empty, bind. by rewrite (HeapProofs.size_srs _ _ _ _ _ Hs Hi).
Qed.
(** front() is an element that nothing in the heap compares greater than. *)
Theorem heap_front_max {V} (lt : V → V → bool) s i l : strict_weak lt → reach lt s → hobs s i l → l ≠ [] →
  ∃ x, front i s = Ok x s ∧ x ∈ l ∧ ∀ y, y ∈ l → lt x y = false.
Proof.
  intros SW [σ HR]%reach_R Ho Hne. destruct l as [|x l]; [done|]. exists x.
  assert (Hh := R_hp lt s σ i _ SW HR Ho). assert (Hg := R_get _ _ _ _ _ HR Ho).
  split_and!; [by eapply front_R|apply elem_of_cons; by left|intros y Hy; by eapply (HeapOrder.hp_max lt SW _ Hh)].
Qed.
Example heap_front_max_ex : strict_weak tlt ∧ reach tlt (ex_s tlt) ∧ hobs (ex_s tlt) 0 [31;22;15;27;3;7;3;9] ∧
  front 0 (ex_s tlt) = Ok 31 (ex_s tlt).
Proof. split_and!; [apply tlt_sw|apply ex_reach|apply ex_state|vm_compute; reflexivity]. Qed.

(** ** C24 and C26 *)
Definition same_others {V} (i : nat) (s s' : st V) : Prop := ∀ j l, j ≠ i → hobs s j l → hobs s' j l.
Lemma others {V} lt (s s' : st V) σ σ' i l' : HeapHistory.R lt s σ → HeapHistory.R lt s' σ' → σ' = put σ i l' → same_others i s s'.
Proof.
  intros HR HR' -> j l Hj Ho. eapply R_obs; [done|]. assert (Hg := R_get _ _ _ _ _ HR Ho).
  unfold get, put. by rewrite list_lookup_insert_ne.
Qed.
Lemma push_R {V} lt (s : st V) σ i l v (emp : bool) : HeapHistory.R lt s σ → hobs s i l →
  post ((if emp then emplace else push) lt i (AVal v) s)
    (λ n s', ∃ l', HeapHistory.R lt s' (put σ i l') ∧ l' ≡ₚ v :: l ∧ n ≤ Nat.log2 (length l + 1))
    (λ s', oracle s ≠ [] ∧ HeapHistory.R lt s' σ).
Proof.
  intros HR Ho. assert (Hg := R_get _ _ _ _ _ HR Ho). destruct HR as (σA & Hs & HF & Hlk).
  destruct (HeapHistory.rel_get _ _ _ _ _ HF Hg) as [[c Hi] Hh].
  assert (Hp : post ((if emp then emplace else push) lt i (AVal v) s)
     (λ n s', HeapProofs.pushed lt s σA i l v n s') (λ s', HeapProofs.unpushed s σA i l s')).
  { destruct emp; [by eapply HeapProofs.emplace_post|by eapply HeapProofs.push_post]. }
  eapply post_conseq; [exact Hp| |].
  - intros n s1 (l' & c' & Hs1 & Hpm & Hn & Hh' & _ & Hl). exists l'. split_and!; [|done|done].
    eexists. split_and!; [exact Hs1| |congruence]. apply HeapHistory.rel_put; auto.
  - intros s1 (Hne & _ & Hl & c' & Hs1). split; [done|]. eexists. split_and!; [exact Hs1| |congruence].
    apply HeapHistory.get_Some in Hg. rewrite <- (list_insert_id σ i (Some l)) by done. by apply HeapHistory.rel_put.
Qed.
Lemma pop_R {V} lt (s : st V) σ i x l : HeapHistory.R lt s σ → hobs s i (x :: l) →
  ∃ n s' l', pop lt i s = Ok n s' ∧ HeapHistory.R lt s' (put σ i l') ∧ l' ≡ₚ l ∧ n ≤ 2 * Nat.log2 (length l).
Proof.
  intros HR Ho. assert (Hg := R_get _ _ _ _ _ HR Ho). destruct HR as (σA & Hs & HF & Hlk).
  destruct (HeapHistory.rel_get _ _ _ _ _ HF Hg) as [[c Hi] Hh].
  destruct (HeapProofs.pop_post lt s σA i x l c Hs Hi) as (n & s1 & l' & E & Hs1 & Hpm & Hn & Hh' & _ & Hl).
  exists n, s1, l'. split_and!; [done| |done|done]. eexists. split_and!; [exact Hs1| |congruence].
  apply HeapHistory.rel_put; auto.
Qed.
Lemma put_obs {V} lt (s : st V) s0 σ i l l' : HeapHistory.R lt s0 σ → hobs s0 i l → HeapHistory.R lt s (put σ i l') → hobs s i l'.
Proof.
  intros HR Ho HR'. assert (Hg := R_get _ _ _ _ _ HR Ho). apply HeapHistory.get_Some in Hg.
  eapply R_obs; [exact HR'|]. unfold get, put. rewrite list_lookup_insert; [done|by eapply lookup_lt_Some].
Qed.

(** What push and emplace do, for any comparator: they add exactly [v], compare
    at most log2(size+1) times, and if the allocation fails change nothing. The
    first component of the result is the number of comparator calls. *)
Definition adds {V} (lt : V → V → bool) (r : res (st V) nat) (s : st V) i (v : V) (l : list V) : Prop :=
  match r with
  | Ok n s' => ∃ l', hobs s' i l' ∧ l' ≡ₚ v :: l ∧ n ≤ Nat.log2 (length l + 1) ∧
                     (strict_weak lt → max_first lt l') ∧ same_others i s s'
  | Throw s' => oracle s ≠ [] ∧ hobs s' i l ∧ same_others i s s'
  | UB _ => False
  end.
Theorem heap_push {V} (lt : V → V → bool) s i l v : reach lt s → hobs s i l →
  adds lt (push lt i (AVal v) s) s i v l ∧ adds lt (emplace lt i (AVal v) s) s i v l.
Proof.
  intros [σ HR]%reach_R Ho.
  assert (H : ∀ emp : bool, adds lt ((if emp then emplace else push) lt i (AVal v) s) s i v l); [|exact (conj (H false) (H true))].
  intros emp. unfold adds. assert (Hp := push_R lt s σ i l v emp HR Ho).
  destruct ((if emp then emplace else push) lt i (AVal v) s) as [n s'|s'|u]; [| |done].
  - destruct Hp as (l' & HR' & Hpm & Hn). assert (Ho' := put_obs _ _ _ _ _ _ _ HR Ho HR').
    exists l'. split_and!; [done|done|done| |by eapply others].
    intros SW. apply HeapOrder.hp_max; [done|]. by eapply R_hp.
  - destruct Hp as (Hne & HR'). assert (Hg := R_get _ _ _ _ _ HR Ho). split_and!; [done|by eapply R_obs|].
    apply (others lt s s' σ σ i l); [done..|]. apply HeapHistory.get_Some in Hg. unfold put. by rewrite list_insert_id.
Qed.
Example heap_push_ex : reach odd_lt (ex_s odd_lt) ∧ hobs (ex_s odd_lt) 0 [38;9;31;3;15;3;7;27] ∧
  (∃ s, push odd_lt 0 (AVal 9) (ex_s odd_lt) = Ok 3 s ∧ hobs s 0 [38;9;31;9;15;3;7;27;3]) ∧
  (∃ s, push nlt 0 (AVal 29) (ex_s nlt) = Ok 3 s ∧ hobs s 0 [31;29;15;27;3;7;3;9;22]).
Proof.
  split_and!; [apply ex_reach|apply ex_state| |].
  all: eexists; (split; [vm_compute; reflexivity|]); by vm_compute.
Qed.

(** pop removes exactly the first element, for any comparator, with at most
    2*log2(size-1) comparisons. *)
Theorem heap_pop {V} (lt : V → V → bool) s i x l : reach lt s → hobs s i (x :: l) →
  front i s = Ok x s ∧
  ∃ n s' l', pop lt i s = Ok n s' ∧ hobs s' i l' ∧ l' ≡ₚ l ∧ n ≤ 2 * Nat.log2 (length l) ∧
             (strict_weak lt → max_first lt l') ∧ same_others i s s'.
Proof.
  intros [σ HR]%reach_R Ho. split.
  - by eapply front_R.
  - destruct (pop_R lt s σ i x l HR Ho) as (n & s' & l' & E & HR' & Hpm & Hn).
    assert (Ho' := put_obs _ _ _ _ _ _ _ HR Ho HR').
    exists n, s', l'. split_and!; [done|done|done|done| |by eapply others].
    intros SW. apply HeapOrder.hp_max; [done|]. by eapply R_hp.
Qed.
Example heap_pop_ex : reach odd_lt (ex_s odd_lt) ∧ hobs (ex_s odd_lt) 0 [38;9;31;3;15;3;7;27] ∧
  (∃ n s l, pop odd_lt 0 (ex_s odd_lt) = Ok n s ∧ hobs s 0 l ∧ l ≡ₚ [9;31;3;15;3;7;27]).
Proof.
  split_and!; [apply ex_reach|apply ex_state|].
  destruct (heap_pop odd_lt (ex_s odd_lt) 0 38 [9;31;3;15;3;7;27] (ex_reach _) ltac:(apply ex_state)) as (_ & n & s & l & H1 & H2 & H3 & _).
  exists n, s, l. exact (conj H1 (conj H2 H3)).
Qed.
(** pop on an empty heap is caught by the assertion. *)
Theorem heap_pop_empty {V} (lt : V → V → bool) s i : reach lt s → hobs s i [] → pop lt i s = UB AssertFail.
Proof.
  intros [σ HR]%reach_R Ho. assert (Hg := R_get _ _ _ _ _ HR Ho). destruct HR as (σA & Hs & HF & _).
  destruct (HeapHistory.rel_get _ _ _ _ _ HF Hg) as [[c Hi] Hh].
  unfold pop, bind at 1. rewrite (HeapProofs.size_srs _ _ _ _ _ Hs Hi). done.
Qed.
Example heap_pop_empty_ex : ∃ rs s, run_prog (run_op nlt) (straight [HDefault; HPush 0 3; HPop 0]) (init []) = Ok rs s ∧
  reach nlt s ∧ hobs s 0 [] ∧ pop nlt 0 s = UB AssertFail.
Proof.
  assert (Hv := straight_valid nlt [HDefault; HPush 0 3; HPop 0] [] eq_refl).
  destruct (heap_history nlt _ [] Hv) as (rs & s & σ & E & _).
  exists rs, s. split; [done|]. split; [by exists (straight [HDefault; HPush 0 3; HPop 0]), [], rs|].
  vm_compute in E. injection E as _ <-. split; vm_compute; reflexivity.
Qed.

(** ** C25 *)

(** while(!h.empty()) { out.push(h.front()); h.pop(); } — running out of [fuel]
    is an error. *)
Fixpoint drain {V} (lt : V → V → bool) (fuel i : nat) : MA (list V) :=
  match fuel with
  | O => fail NoFuel
  | S k =>
      b <- empty i ;;
      if b then ret [] else
      x <- front i ;;
      pop lt i ;;;
      xs <- drain lt k i ;;
      ret (x :: xs)
  end.
Lemma drain_R {V} lt k : ∀ (s : st V) σ i l, strict_weak lt → HeapHistory.R lt s σ → hobs s i l → length l < k →
  ∃ out s', drain lt k i s = Ok out s' ∧ hobs s' i [] ∧ out ≡ₚ l ∧ StronglySorted (λ x y, lt x y = false) out.
Proof.
  induction k as [|k IH]; intros s σ i l SW HR Ho Hk; [lia|]. cbn [drain]. unfold bind at 1. destruct l as [|x l].
  - assert (Hg := R_get _ _ _ _ _ HR Ho). destruct HR as (σA & Hs & HF & _).
    destruct (HeapHistory.rel_get _ _ _ _ _ HF Hg) as [[c Hi] Hh].
    unfold empty, bind at 1. rewrite (HeapProofs.size_srs _ _ _ _ _ Hs Hi). cbn. exists [], s. split_and!; try done. constructor.
  - destruct (front_R lt s σ i x l HR Ho) as [Ef Ee]. rewrite Ee. unfold bind at 1. rewrite Ef. unfold bind at 1.
    destruct (pop_R lt s σ i x l HR Ho) as (n & s' & l' & E & HR' & Hpm & _). rewrite E. unfold bind.
    assert (Ho' := put_obs _ _ _ _ _ _ _ HR Ho HR').
    destruct (IH s' _ i l' SW HR' Ho') as (out & s2 & E2 & Ho2 & Hpm2 & Hsort).
    { rewrite (Permutation_length Hpm). simpl in Hk. lia. }
    rewrite E2. exists (x :: out), s2. split_and!; [done|done|by rewrite Hpm2, Hpm|].
    constructor; [done|]. apply Forall_forall. intros y Hy. rewrite Hpm2, Hpm in Hy.
    refine (HeapOrder.hp_max lt SW (x :: l) _ x y eq_refl _); [exact (R_hp lt s σ i _ SW HR Ho)|]. apply elem_of_cons. by right.
Qed.
Theorem heap_drain_sorted {V} (lt : V → V → bool) s i l k : strict_weak lt → reach lt s → hobs s i l → length l < k →
  ∃ out s', drain lt k i s = Ok out s' ∧ hobs s' i [] ∧ out ≡ₚ l ∧ StronglySorted (λ x y, lt x y = false) out.
Proof. intros SW [σ HR]%reach_R. by eapply drain_R. Qed.
Example heap_drain_sorted_ex : strict_weak nlt ∧ reach nlt (ex_s nlt) ∧ hobs (ex_s nlt) 0 [31;27;15;22;3;7;3;9] ∧
  ∃ s, drain nlt 9 0 (ex_s nlt) = Ok [31;27;22;15;9;7;3;3] s.
Proof. split_and!; [apply nlt_sw|apply ex_reach|exact (proj1 ex_state)|]. eexists. vm_compute. reflexivity. Qed.

(** ** Limits *)

(** heap.push(heap.front()) on a full heap reads freed memory, as push_back does (C13). *)
Theorem heap_push_own_refuted :
  ∃ (s : st nat) p, reach nlt s ∧ hobs s 0 [7;5] ∧ index 0 0 s = Ok p s ∧ push nlt 0 (ARef p) s = UB Dangling.
Proof.
  set (os := [HRange true [5;7]] : list (op nat)).
  assert (Hv := straight_valid nlt os [] eq_refl).
  destruct (heap_history nlt _ [] Hv) as (rs & s & σ & E & _).
  exists s, (Ptr 0 0). split; [by exists (straight os), [], rs|].
  vm_compute in E. injection E as _ <-. split_and!; vm_compute; reflexivity.
Qed.
(** With a comparator that is not a strict weak order front() need not be
    maximal, so the hypothesis of heap_front_max is needed. *)
Theorem heap_front_needs_order :
  ∃ (lt : nat → nat → bool) s l, ¬ strict_weak lt ∧ reach lt s ∧ hobs s 0 l ∧
    ∃ x y, head l = Some x ∧ y ∈ l ∧ lt x y = true.
Proof.
  exists odd_lt, (ex_s odd_lt), [38;9;31;3;15;3;7;27]. split_and!; [|apply ex_reach|apply ex_state|].
  - intros [H _ _]. specialize (H 0). done.
  - exists 38, 38. split_and!; [done|apply elem_of_cons; by left|done].
Qed.

(** Axioms used: none. *)
Definition heap_theorems :=
  (@heap_history, @heap_no_leak, @heap_front_max, @heap_push, @heap_pop, @heap_pop_empty, @heap_drain_sorted,
   @heap_push_own_refuted, @heap_front_needs_order).
Print Assumptions heap_theorems.
