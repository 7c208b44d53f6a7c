(** Theorems about how the functions of Tuple pass elements (property C170). *)
From stdpp Require Import list.
From Coq Require Import Lia.
From Verif Require Import Base ForwardModel ForwardProps BindArgModel BindArgProps TupleArgModel.
Local Open Scope mon_scope.
Local Arguments objects {_}. Local Arguments copies {_}. Local Arguments moves {_}.

Lemma inits_passed {V} fs (es : list (arg V)) s : plain es → length fs = length es → sound (objects s) es →
  (∀ i f e, fs !! i = Some f → es !! i = Some e → fits f e = true) →
  ∃ as_ s', inits fs es s = Ok as_ s' ∧ passed fs es s as_ s'.
Proof.
  intros Hp Hl Hs Hf. destruct (pass_inits fs es s Hl Hs Hf) as (as_ & s' & E & P). exists as_, s'. split; [|done].
  rewrite <- E. unfold bind. by rewrite !pass_id by done.
Qed.
Lemma fits_val {V} n (es : list (arg V)) i f e : replicate n Val !! i = Some f → es !! i = Some e → fits f e = true.
Proof. by intros [-> _]%lookup_replicate _. Qed.

(** make_tuple makes a new object for each argument: lvalues are copied once, rvalues moved
    once. *)
Theorem make_tuple_arguments {V} (es : list (arg V)) s : sound (objects s) es →
  ∃ tup s', make_tuple es s = Ok tup s' ∧ passed (replicate (length es) Val) es s tup s'.
Proof.
  intros Hs. destruct (pass_inits (replicate (length es) Val) es s) as (as_ & s' & E & P);
    [by rewrite replicate_length|done|apply fits_val|].
  exists as_, s'. split; [|done]. rewrite <- E. destruct (pass_spec es s Hs) as (ws & s1 & E1 & Hp & Lw & _).
  unfold make_tuple, bind. rewrite E1, pass_id by done. by rewrite Lw.
Qed.

(** forward_as_tuple refers to the arguments: nothing is copied or moved, no object changes;
    a prvalue becomes a temporary. *)
Theorem forward_as_tuple_arguments {V} (es : list (arg V)) s : sound (objects s) es →
  ∃ ws s', forward_as_tuple es s = Ok ws s' ∧ length ws = length es ∧ copies s' = copies s ∧ moves s' = moves s ∧
    (∀ b o, objects s !! b = Some o → objects s' !! b = Some o) ∧
    ∀ i e w, es !! i = Some e → ws !! i = Some w → content (objects s') w = content (objects s) e ∧
      match e with Pr _ => ∃ a, w = Xv a ∧ length (objects s) ≤ a | _ => w = e end.
Proof.
  intros Hs. destruct (pass_spec es s Hs) as (ws & s' & E & _ & Lw & _ & C & M & _ & K & W). exists ws, s'.
  split; [exact E|]. split_and!; [done..| |].
  - intros b o Hb. rewrite K; [done|]. by eapply lookup_lt_Some.
  - intros i e w He Hw. destruct (W i e w He Hw) as [H1 H2]. split; [done|]. by destruct e.
Qed.

(** apply calls the function with the elements as lvalues of the tuple's constness, or as
    rvalues for a non-const rvalue tuple; by [passed], value parameters cost one copy or move
    each and reference parameters none, and elements change only in the latter case. *)
Theorem apply_arguments {V} c (fs : list par) tup (s : mem V) :
  length fs = length tup → sound (objects s) (map (bound_arg c) tup) →
  (∀ i f e, fs !! i = Some f → map (bound_arg (V := V) c) tup !! i = Some e → fits f e = true) →
  ∃ as_ s', apply c fs tup s = Ok as_ s' ∧ passed fs (map (bound_arg c) tup) s as_ s'.
Proof.
  intros Hl Hs Hf. unfold apply. rewrite get_bound. apply inits_passed; try done.
  - rewrite <- get_bound. apply plain_get.
  - by rewrite map_length.
Qed.

(** With another number of parameters, or one that does not take its element, the call of apply
    does not compile: T& wants a non-const lvalue tuple, T&& a non-const rvalue. *)
Theorem apply_arguments_compile {V} c (fs : list par) tup (s : mem V) :
  sound (objects s) (map (bound_arg c) tup) →
  length fs ≠ length tup ∨ (∃ i f e, fs !! i = Some f ∧ map (bound_arg (V := V) c) tup !! i = Some e ∧ fits f e = false) →
  apply c fs tup s = UB NoObject.
Proof.
  intros Hs Hb. unfold apply. rewrite get_bound. apply inits_bad; [done|]. by rewrite map_length.
Qed.

(** A conversion to an aggregate copies each element once. *)
Theorem convert_arguments {V} (us : list par) tup (s : mem V) :
  length us = length tup → (∀ i a, tup !! i = Some a → is_Some (objects s !! a)) → Forall (λ u, u = Val ∨ u = CRef) us →
  ∃ as_ s', convert us tup s = Ok as_ s' ∧ passed us (map (Lv true) tup) s as_ s'.
Proof.
  intros Hl Hs Hu. apply (inits_passed us (map (Lv true) tup) s).
  - exact (plain_get CL tup).
  - by rewrite map_length.
  - split; [intros i e H|intros i j e a _ H _]; rewrite list_lookup_fmap in H; destruct (tup !! i) as [x|] eqn:E; try done.
    injection H as <-. by apply (Hs i).
  - intros i f e Hi He. rewrite Forall_lookup in Hu. destruct (Hu i f Hi) as [-> | ->]; by destruct e.
Qed.

(** tuple_cat of lvalues copies each element once and leaves the tuples alone. *)
Lemma cat_sum {V} n (l : list (arg V)) : Forall (λ x, is_l x = true) l → n = length l →
  sum copied_to (replicate n Val) l = length l ∧ sum moved_to (replicate n Val) l = 0.
Proof.
  intros H ->. induction l as [|x l IH]; [done|]. apply Forall_cons in H as [Hx H]. simpl. destruct (IH H) as [-> ->].
  by destruct x.
Qed.
Theorem tuple_cat_arguments {V} tups (s : mem V) :
  (∀ t i a, t ∈ tups → t.2 !! i = Some a → is_Some (objects s !! a)) →
  ∃ tup s', tuple_cat tups s = Ok tup s' ∧ length tup = length (concat (map snd tups)) ∧
    (∀ i a b, concat (map snd tups) !! i = Some a → tup !! i = Some b → objects s' !! b = objects s !! a ∧ length (objects s) ≤ b) ∧
    NoDup tup ∧ (∀ b o, objects s !! b = Some o → objects s' !! b = Some o) ∧
    copies s' = copies s + length (concat (map snd tups)) ∧ moves s' = moves s.
Proof.
  intros Hs. set (es := concat (map (λ t, map (get (V := V) (if t.1 : bool then CL else L)) t.2) tups)).
  assert (Hes : ∀ i, (∀ a, concat (map snd tups) !! i = Some a → ∃ c, es !! i = Some (Lv c a)) ∧
    (∀ e, es !! i = Some e → ∃ c a, e = Lv c a ∧ concat (map snd tups) !! i = Some a)).
  { unfold es. clear. induction tups as [|[c t] tups IH]; [done|]. cbn [map concat fst snd]. revert t IH.
    intros t IH. induction t as [|a t IHt]; [done|]. intros [|i]; cbn; [|apply IHt].
    split; [intros ? [= ->]|intros ? [= <-]]; destruct c; eauto. }
  assert (Lc : length es = length (concat (map snd tups))).
  { unfold es. clear. induction tups as [|[c t] tups IH]; [done|]. cbn. rewrite !app_length, map_length. lia. }
  assert (Hl : Forall (λ x, is_l x = true) es).
  { apply Forall_lookup. intros i e He. destruct (proj2 (Hes i) e He) as (c & a & -> & _). done. }
  destruct (inits_passed (replicate (length es) Val) es s) as (tup & s' & E & Ln & O & K & _ & C & M).
  - apply Forall_lookup. intros i e He. destruct (proj2 (Hes i) e He) as (c & a & -> & _). done.
  - by rewrite replicate_length.
  - split; [|intros i j e a _ H _; by destruct (proj2 (Hes i) _ H) as (? & ? & ? & _)].
    intros i e He. destruct (proj2 (Hes i) e He) as (c & a & -> & Ha). simpl.
    apply elem_of_list_lookup_2 in Ha. apply elem_of_list_In, in_concat in Ha as (l & Hl1 & Hl2).
    apply in_map_iff in Hl1 as (t & <- & Ht). apply elem_of_list_In in Ht, Hl2. apply elem_of_list_lookup in Hl2 as [j Hj]. by apply (Hs t j).
  - apply fits_val.
  - rewrite replicate_length in Ln. destruct (cat_sum (length es) es Hl eq_refl) as [S1 S2].
    assert (Hr : ∀ i, i < length es → replicate (length es) Val !! i = Some Val) by (intros; by apply lookup_replicate).
    exists tup, s'. split; [exact E|]. split_and!.
    + lia.
    + intros i a b Ha Hb. destruct (proj1 (Hes i) a Ha) as [c He].
      destruct (O i Val _ b (Hr i (lookup_lt_Some _ _ _ He)) He Hb) as (V1 & _ & V2). split; [done|]. by apply V2.
    + apply NoDup_alt. intros i j b Hi Hj. destruct (decide (i = j)) as [|n]; [done|]. exfalso.
      destruct (lookup_lt_is_Some_2 es i) as [e He]; [rewrite <- Ln; by eapply lookup_lt_Some|].
      destruct (O i Val e b (Hr i (lookup_lt_Some _ _ _ He)) He Hi) as (_ & _ & V2). by apply (proj2 (V2 eq_refl) j b).
    + intros b o Hb. destruct (K b o Hb) as [|(_ & i & _ & Hx)]; [done|]. by destruct (proj2 (Hes i) _ Hx) as (? & ? & ? & _).
    + lia.
    + lia.
Qed.

(** Assignment copies each element once from an lvalue, const or not, or from a const rvalue,
    and moves each once from an rvalue; nothing else changes. *)
Theorem tuple_assign_arguments {V} c : ∀ this tup (s : mem V), length this = length tup →
  NoDup (this ++ tup) → (∀ a, a ∈ this ++ tup → is_Some (objects s !! a)) →
  ∃ s', assign_tuple_index c this tup s = Ok tt s' ∧
    (∀ i a x, this !! i = Some a → tup !! i = Some x → objects s' !! a = objects s !! x ∧
       objects s' !! x = match c with X => Some None | _ => objects s !! x end) ∧
    (∀ b, b ∉ this ++ tup → objects s' !! b = objects s !! b) ∧ length (objects s') = length (objects s) ∧
    copies s' = copies s + match c with X => 0 | _ => length this end ∧
    moves s' = moves s + match c with X => length this | _ => 0 end.
Proof.
  induction this as [|a this IH]; intros [|x tup] s Hl Hd He; try done.
  { exists s. split_and!; try done; destruct c; simpl; lia. }
  destruct (He a) as [o Ho]; [by left|]. destruct (He x) as [v Hv]; [apply elem_of_app; right; by left|].
  cbn [app] in Hd. apply NoDup_cons in Hd as [Ha Hd]. rewrite elem_of_app, elem_of_cons in Ha.
  rewrite <- Permutation_middle in Hd. apply NoDup_cons in Hd as [Hx Hd].
  assert (Hax : a ≠ x) by (intros ->; tauto). assert (Lx := lookup_lt_Some _ _ _ Hv). assert (La := lookup_lt_Some _ _ _ Ho).
  set (os := match c with X => <[a := v]> (<[x := None]> (objects s)) | _ => <[a := v]> (objects s) end).
  assert (∃ s1, assign a (get c x) s = Ok tt s1 ∧ objects s1 = os ∧
    copies s1 = copies s + match c with X => 0 | _ => 1 end ∧ moves s1 = moves s + match c with X => 1 | _ => 0 end) as (s1 & E1 & O1 & C1 & M1).
  { unfold assign. rewrite Ho. destruct c; simpl; rewrite Hv; eexists; (split; [reflexivity|]); simpl; split_and!; try done; lia. }
  assert (Hos : os !! a = Some v ∧ os !! x = match c with X => Some None | _ => objects s !! x end ∧
    (∀ b, b ≠ a → b ≠ x → os !! b = objects s !! b) ∧ length os = length (objects s)).
  { unfold os. destruct c; rewrite ?insert_length; split_and!; try done; try (rewrite list_lookup_insert; [done|by rewrite ?insert_length]);
      try (intros b Hba Hbx); rewrite ?list_lookup_insert_ne by done; try done. by apply list_lookup_insert. }
  destruct Hos as (A1 & A2 & A3 & A4).
  destruct (IH tup s1) as (s' & E & P & Q & L & C & M); [simpl in Hl; lia|done| |].
  { intros b Hb. rewrite O1. apply lookup_lt_is_Some. rewrite A4. apply lookup_lt_is_Some, He.
    rewrite elem_of_app in Hb |- *. rewrite !elem_of_cons. tauto. }
  exists s'. split; [cbn [assign_tuple_index]; unfold bind; rewrite E1; exact E|]. split_and!.
  - intros [|i] a' x' Hi Hj; simpl in Hi, Hj.
    + injection Hi as <-. injection Hj as <-. rewrite !Q.
      * rewrite O1. split; [by rewrite A1|done].
      * done.
      * rewrite elem_of_app. tauto.
    + assert (a' ∈ this) by (by eapply elem_of_list_lookup_2). assert (x' ∈ tup) by (by eapply elem_of_list_lookup_2).
      assert (Hn : x' ≠ a ∧ x' ≠ x). { rewrite elem_of_app in Hx. split; intros ->; tauto. }
      destruct (P i a' x' Hi Hj) as [P1 P2]. rewrite P1, P2, O1, A3 by apply Hn. done.
  - intros b Hb. cbn [app] in Hb. rewrite elem_of_cons, elem_of_app, elem_of_cons in Hb. rewrite Q by (rewrite elem_of_app; tauto).
    rewrite O1, A3; [done|tauto..].
  - congruence.
  - rewrite C, C1. destruct c; simpl; lia.
  - rewrite M, M1. destruct c; simpl; lia.
Qed.

(** swap exchanges the elements pairwise, with three moves for each pair and no copy, and changes
    no other object; a tuple may be swapped with itself. *)
Lemma swap_element_spec {V} a b (s : mem V) o p : objects s !! a = Some o → objects s !! b = Some p →
  ∃ s', swap_element a b s = Ok tt s' ∧ objects s' !! a = Some p ∧ objects s' !! b = Some o ∧
    (∀ c, c ≠ a → c ≠ b → c < length (objects s) → objects s' !! c = objects s !! c) ∧
    length (objects s') = S (length (objects s)) ∧ copies s' = copies s ∧ moves s' = 3 + moves s.
Proof.
  intros Ha Hb. assert (La := lookup_lt_Some _ _ _ Ha). assert (Lb := lookup_lt_Some _ _ _ Hb).
  set (n := length (objects s)) in *.
  assert (H1 : (<[a:=None]> (objects s) ++ [o]) !! a = Some None).
  { rewrite lookup_app_l by (by rewrite insert_length). by apply list_lookup_insert. }
  set (q := if decide (a = b) then None else p).
  assert (H2 : (<[a:=None]> (objects s) ++ [o]) !! b = Some q).
  { rewrite lookup_app_l by (by rewrite insert_length). unfold q. destruct (decide (a = b)) as [<-|]; [by apply list_lookup_insert|].
    by rewrite list_lookup_insert_ne. }
  set (l := <[a:=None]> (objects s) ++ [o]) in *.
  assert (Ll : length l = S n) by (unfold l; rewrite app_length, insert_length; simpl; unfold n; lia).
  assert (Ht : (<[a:=q]> (<[b:=None]> l)) !! n = Some o).
  { rewrite !list_lookup_insert_ne by lia. unfold l. rewrite lookup_app_r by (by rewrite insert_length).
    rewrite insert_length. unfold n. by rewrite Nat.sub_diag. }
  assert (Hq : (<[a:=q]> (<[b:=None]> l)) !! b = Some (if decide (a = b) then q else None)).
  { destruct (decide (a = b)) as [<-|]; [apply list_lookup_insert; rewrite insert_length; lia|].
    rewrite list_lookup_insert_ne by done. apply list_lookup_insert. lia. }
  eexists. split.
  { unfold swap_element, bind, init, move, make, assign. rewrite Ha. cbn [objects copies moves]. fold l.
    rewrite insert_length. fold n. rewrite H1, H2. cbn [objects copies moves]. rewrite Hq, Ht. reflexivity. }
  cbn [objects copies moves]. split_and!; try done.
  - destruct (decide (a = b)) as [<-|].
    + rewrite list_lookup_insert by (rewrite !insert_length; lia). congruence.
    + rewrite !list_lookup_insert_ne by lia. rewrite list_lookup_insert by (rewrite insert_length; lia). done.
  - apply list_lookup_insert. rewrite !insert_length. lia.
  - intros c Ca Cb Cc. rewrite !list_lookup_insert_ne by lia. unfold l. rewrite lookup_app_l by (by rewrite insert_length).
    by apply list_lookup_insert_ne.
  - rewrite !insert_length. done.
Qed.
Theorem tuple_swap_arguments {V} : ∀ this tup (s : mem V), length this = length tup → NoDup this → NoDup tup →
  (∀ i j a, this !! i = Some a → tup !! j = Some a → i = j) → (∀ a, a ∈ this ++ tup → is_Some (objects s !! a)) →
  ∃ s', swap this tup s = Ok tt s' ∧
    (∀ i a b, this !! i = Some a → tup !! i = Some b → objects s' !! a = objects s !! b ∧ objects s' !! b = objects s !! a) ∧
    (∀ c, c ∉ this ++ tup → c < length (objects s) → objects s' !! c = objects s !! c) ∧
    copies s' = copies s ∧ moves s' = 3 * length this + moves s.
Proof.
  induction this as [|a this IH]; intros [|b tup] s Hl D1 D2 D He; try done.
  { exists s. done. }
  destruct (He a) as [o Ho]; [by left|]. destruct (He b) as [p Hp]; [apply elem_of_app; right; by left|].
  destruct (swap_element_spec a b s o p Ho Hp) as (s1 & E1 & A1 & B1 & O1 & L1 & C1 & M1).
  apply NoDup_cons in D1 as [Ha D1]. apply NoDup_cons in D2 as [Hb D2].
  assert (Ha2 : a ∉ tup). { intros [j Hj]%elem_of_list_lookup. by pose proof (D 0 (S j) a eq_refl Hj). }
  assert (Hb2 : b ∉ this). { intros [j Hj]%elem_of_list_lookup. by pose proof (D (S j) 0 b Hj eq_refl). }
  assert (Hr : ∀ c, c ∈ this ++ tup → objects s1 !! c = objects s !! c ∧ is_Some (objects s !! c)).
  { intros c Hc. assert (is_Some (objects s !! c)) as Hs.
    { apply He. rewrite elem_of_app in Hc |- *. rewrite !elem_of_cons. tauto. }
    split; [|done]. apply O1; [intros ->; rewrite elem_of_app in Hc; tauto..|]. by apply lookup_lt_is_Some. }
  destruct (IH tup s1) as (s' & E & P & Q & C & M); [simpl in Hl; lia|done|done| | |].
  { intros i j c Hi Hj. by injection (D (S i) (S j) c Hi Hj). }
  { intros c Hc. destruct (Hr c Hc) as [-> ?]. done. }
  exists s'. split; [cbn [swap]; unfold bind; rewrite E1; exact E|]. split_and!.
  - intros [|i] a' b' Hi Hj; simpl in Hi, Hj.
    + injection Hi as <-. injection Hj as <-. rewrite !Q; [by rewrite A1, B1|..];
        try (rewrite elem_of_app; tauto); rewrite L1; apply Nat.lt_lt_succ_r; by eapply lookup_lt_Some.
    + destruct (P i a' b' Hi Hj) as [-> ->]. split; apply Hr, elem_of_app; [right|left]; by eapply elem_of_list_lookup_2.
  - intros c Hc Lc. cbn [app] in Hc. rewrite elem_of_cons, elem_of_app, elem_of_cons in Hc.
    rewrite Q; [apply O1; tauto|rewrite elem_of_app; tauto|lia].
  - congruence.
  - rewrite M, M1. simpl. lia.
Qed.

(** The same for Pair *)
Theorem make_pair_arguments {V} (e1 e2 : arg V) s : sound (objects s) [e1; e2] →
  ∃ p s', make_pair e1 e2 s = Ok p s' ∧ passed [Val; Val] [e1; e2] s p s'.
Proof.
  intros Hs. destruct (make_tuple_arguments [e1; e2] s Hs) as (p & s' & E & P). exists p, s'. split; [|done].
  rewrite <- E. destruct (pass_spec [e1; e2] s Hs) as (ws & s1 & E1 & _ & Lw & _).
  unfold make_pair, make_tuple, bind. rewrite E1, Lw. done.
Qed.
Theorem pair_assign_arguments {V} c a1 a2 x1 x2 (s : mem V) : NoDup [a1; a2; x1; x2] →
  (∀ a, a ∈ [a1; a2; x1; x2] → is_Some (objects s !! a)) →
  ∃ s', pair_assign c (a1, a2) (x1, x2) s = Ok tt s' ∧
    objects s' !! a1 = objects s !! x1 ∧ objects s' !! a2 = objects s !! x2 ∧
    (∀ x, x ∈ [x1; x2] → objects s' !! x = match c with X => Some None | _ => objects s !! x end) ∧
    (∀ b, b ∉ [a1; a2; x1; x2] → objects s' !! b = objects s !! b) ∧
    copies s' = copies s + match c with X => 0 | _ => 2 end ∧ moves s' = moves s + match c with X => 2 | _ => 0 end.
Proof.
  intros Hd He. destruct (tuple_assign_arguments c [a1; a2] [x1; x2] s eq_refl Hd He) as (s' & E & P & Q & _ & C & M).
  exists s'. split.
  { rewrite <- E. cbn [assign_tuple_index]. unfold pair_assign, bind. simpl. destruct (assign a1 (get c x1) s) as [[] s1| |]; try done.
    by destruct (assign a2 (get c x2) s1) as [[] ?| |]. }
  destruct (P 0 a1 x1 eq_refl eq_refl) as [A1 X1]. destruct (P 1 a2 x2 eq_refl eq_refl) as [A2 X2]. split_and!; try done.
  intros x [->|[->|[]%elem_of_nil]%elem_of_cons]%elem_of_cons; done.
Qed.
Theorem pair_swap_arguments {V} a1 a2 b1 b2 (s : mem V) : a1 ≠ a2 → b1 ≠ b2 → a1 ≠ b2 → a2 ≠ b1 →
  (∀ a, a ∈ [a1; a2; b1; b2] → is_Some (objects s !! a)) →
  ∃ s', pair_swap (a1, a2) (b1, b2) s = Ok tt s' ∧
    objects s' !! a1 = objects s !! b1 ∧ objects s' !! a2 = objects s !! b2 ∧
    objects s' !! b1 = objects s !! a1 ∧ objects s' !! b2 = objects s !! a2 ∧
    (∀ c, c ∉ [a1; a2; b1; b2] → c < length (objects s) → objects s' !! c = objects s !! c) ∧
    copies s' = copies s ∧ moves s' = 6 + moves s.
Proof.
  intros N1 N2 N3 N4 He. destruct (tuple_swap_arguments [a1; a2] [b1; b2] s eq_refl) as (s' & E & P & Q & C & M).
  - repeat constructor; rewrite ?elem_of_cons, elem_of_nil; intuition congruence.
  - repeat constructor; rewrite ?elem_of_cons, elem_of_nil; intuition congruence.
  - intros [|[|i]] [|[|j]] a Hi Hj; simpl in Hi, Hj; try done; congruence.
  - exact He.
  - exists s'. split.
    { rewrite <- E. cbn [swap]. unfold pair_swap, bind. simpl. destruct (swap_element a1 b1 s) as [[] s1| |]; try done.
      by destruct (swap_element a2 b2 s1) as [[] ?| |]. }
    destruct (P 0 a1 b1 eq_refl eq_refl) as [A1 X1]. destruct (P 1 a2 b2 eq_refl eq_refl) as [A2 X2]. split_and!; done.
Qed.

Definition tmem : mem nat := Mem [Some 1; Some 2; Some 3; Some 4] 0 0.
Example make_tuple_arguments_ex : make_tuple [Lv true 0; Xv 1; Pr 9] tmem =
  Ok [5; 6; 7] (Mem [Some 1; None; Some 3; Some 4; None; Some 1; Some 2; Some 9] 1 2).
Proof. by vm_compute. Qed.
Example forward_as_tuple_arguments_ex : forward_as_tuple [Lv true 0; Xv 1; Pr 9] tmem =
  Ok [Lv true 0; Xv 1; Xv 4] (Mem [Some 1; Some 2; Some 3; Some 4; Some 9] 0 0).
Proof. by vm_compute. Qed.
Example apply_arguments_ex : apply L [Ref; Val] [0; 1] tmem = Ok [0; 4] (Mem [Some 1; Some 2; Some 3; Some 4; Some 2] 1 0) ∧
  apply X [Mov; Val] [0; 1] tmem = Ok [0; 4] (Mem [Some 1; None; Some 3; Some 4; Some 2] 0 1) ∧
  apply CX [CRef; Val] [0; 1] tmem = Ok [0; 4] (Mem [Some 1; Some 2; Some 3; Some 4; Some 2] 1 0).
Proof. by vm_compute. Qed.
Example apply_arguments_compile_ex : apply X [Val; Ref] [0; 1] tmem = UB NoObject ∧ apply CX [Mov] [0] tmem = UB NoObject ∧
  apply L [Mov] [0] tmem = UB NoObject ∧ apply CL [Ref] [0] tmem = UB NoObject ∧ apply L [Val] [0; 1] tmem = UB NoObject.
Proof. by vm_compute. Qed.
Example convert_arguments_ex : convert [Val; CRef] [0; 1] tmem = Ok [4; 1] (Mem [Some 1; Some 2; Some 3; Some 4; Some 1] 1 0).
Proof. by vm_compute. Qed.
Example tuple_cat_arguments_ex : tuple_cat [(true, [0; 1]); (false, []); (false, [3])] tmem =
  Ok [4; 5; 6] (Mem [Some 1; Some 2; Some 3; Some 4; Some 1; Some 2; Some 4] 3 0).
Proof. by vm_compute. Qed.
Example tuple_assign_arguments_ex : assign_tuple_index X [0; 1] [2; 3] tmem = Ok tt (Mem [Some 3; Some 4; None; None] 0 2) ∧
  assign_tuple_index CX [0; 1] [2; 3] tmem = Ok tt (Mem [Some 3; Some 4; Some 3; Some 4] 2 0).
Proof. by vm_compute. Qed.
Example tuple_swap_arguments_ex : swap [0; 1] [2; 3] tmem = Ok tt (Mem [Some 3; Some 4; Some 1; Some 2; None; None] 0 6) ∧
  swap [0; 1] [0; 1] tmem = Ok tt (Mem [Some 1; Some 2; Some 3; Some 4; None; None] 0 6).
Proof. by vm_compute. Qed.
Example make_pair_arguments_ex : make_pair (Lv true 0) (Pr 9) tmem =
  Ok [5; 6] (Mem [Some 1; Some 2; Some 3; Some 4; None; Some 1; Some 9] 1 1).
Proof. by vm_compute. Qed.
Example pair_assign_arguments_ex : pair_assign X (0, 1) (2, 3) tmem = Ok tt (Mem [Some 3; Some 4; None; None] 0 2) ∧
  pair_assign L (0, 1) (2, 3) tmem = Ok tt (Mem [Some 3; Some 4; Some 3; Some 4] 2 0).
Proof. by vm_compute. Qed.
Example pair_swap_arguments_ex : pair_swap (0, 1) (2, 3) tmem = Ok tt (Mem [Some 3; Some 4; Some 1; Some 2; None; None] 0 6) ∧
  pair_swap (0, 1) (0, 1) tmem = Ok tt (Mem [Some 1; Some 2; Some 3; Some 4; None; None] 0 6).
Proof. by vm_compute. Qed.

Definition tuple_arg_theorems := (@make_tuple_arguments, @forward_as_tuple_arguments, @apply_arguments, @apply_arguments_compile, @convert_arguments,
  @tuple_cat_arguments, @tuple_assign_arguments, @tuple_swap_arguments,
  @make_pair_arguments, @pair_assign_arguments, @pair_swap_arguments).
Print Assumptions tuple_arg_theorems.
