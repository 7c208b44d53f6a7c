(** Proofs about including headers: a check of the list of headers by computation, and
    what follows from it for every order of #include directives. *)
From Coq Require Import String.
From stdpp Require Import list strings.
From Verif Require Import IncludeModel.
Local Open Scope string_scope.

Lemma mem_spec x xs : mem x xs = true ↔ x ∈ xs.
Proof.
  unfold mem. rewrite existsb_exists. setoid_rewrite String.eqb_eq. split.
  - intros (y & Hy & ->). by apply elem_of_list_In.
  - intros H. exists x. split; [by apply elem_of_list_In|done].
Qed.
Lemma mem_false x xs : mem x xs = false ↔ x ∉ xs.
Proof. rewrite <- mem_spec. destruct (mem x xs); split; congruence. Qed.

(** ** Which headers include which *)
Definition incs (h : string) : list string := omap (λ it, match it with Include y => Some y | _ => None end) (contents h).
Definition decls (h : string) : list string := omap (λ it, match it with Declares n => Some n | _ => None end) (contents h).
Lemma incs_spec h y : y ∈ incs h ↔ Include y ∈ contents h.
Proof.
  unfold incs. rewrite elem_of_list_omap. split; [intros ([] & H1 & H2); try done; by injection H2 as <-|].
  intros H. exists (Include y). done.
Qed.
Lemma decls_spec h n : n ∈ decls h ↔ Declares n ∈ contents h.
Proof.
  unfold decls. rewrite elem_of_list_omap. split; [intros ([] & H1 & H2); try done; by injection H2 as <-|].
  intros H. exists (Declares n). done.
Qed.

(** All headers that [todo] and the ones that they include bring in. *)
Fixpoint walk (fuel : nat) (todo seen : list string) : list string :=
  match fuel, todo with
  | S fuel, h :: todo => if mem h seen then walk fuel todo seen else walk fuel (incs h ++ todo)%list (h :: seen)
  | _, _ => seen
  end.
Definition cl (h : string) : list string := walk 200 [h] [].
Definition closedb (xs : list string) : bool := forallb (λ x, forallb (λ y, mem y xs) (incs x)) xs.
Definition closed (xs : list string) : Prop := ∀ x y, x ∈ xs → y ∈ incs x → y ∈ xs.
Lemma closedb_spec xs : closedb xs = true → closed xs.
Proof.
  unfold closedb. rewrite forallb_forall. intros H x y Hx Hy. apply elem_of_list_In in Hx. specialize (H x Hx).
  rewrite forallb_forall in H. apply elem_of_list_In in Hy. by apply mem_spec, H.
Qed.

Inductive reaches : string → string → Prop :=
| reaches_refl h : reaches h h
| reaches_step h x y : reaches h x → y ∈ incs x → reaches h y.
Lemma reaches_closed xs x y : closed xs → x ∈ xs → reaches x y → y ∈ xs.
Proof. intros Hc Hx. induction 1; [done|]. by eapply Hc; [apply IHreaches|]. Qed.

(** ** The check *)
Fixpoint provides (fuel : nat) (h n : string) : bool :=
  mem n (decls h) || match fuel with 0 => false | S fuel => existsb (λ y, provides fuel y n) (incs h) end.
Definition no_macros (ms : list string) : bool := match ms with [] => true | _ => false end.
Definition gives (h n y : string) : bool := negb (mem h (cl y)) && closedb (cl y) && mem y (cl y) && provides 6 y n.
(** A header that may still be being read, because it includes [h] itself: what stands in front
    of each #include that leads to [h] *)
Fixpoint in_front (h n : string) (before : list string) (its : list item) : bool :=
  match its with
  | [] => true
  | Include x :: its =>
      closedb (cl x) && mem x (cl x) && (negb (mem h (cl x)) || existsb (gives h n) before) && in_front h n (x :: before) its
  | _ :: its => in_front h n before its
  end.
Definition gives' (h n y : string) : bool :=
  gives h n y || (negb (y =? h) && existsb (gives h n) (incs y) && in_front h n [] (contents y)).
Fixpoint check (h : string) (incd decl open : list string) (its : list item) : bool :=
  match its with
  | [] => no_macros open
  | Include y :: its => mem y headers && no_macros open && check h (y :: incd) decl open its
  | Declares n :: its => check h incd (n :: decl) open its
  | Uses n :: its => (mem n decl || existsb (gives' h n) incd) && check h incd decl open its
  | Defines m :: its => negb (mem m open) && check h incd decl (m :: open) its
  | Undefines m :: its => check h incd decl (List.filter (λ x, negb (x =? m)) open) its
  | (OpensRanges | UsesRanges) :: its => check h incd decl open its
  end.
Lemma headers_check : forallb (λ h, check h [] [] [] (contents h)) headers = true.
Proof. vm_compute. reflexivity. Qed.

(** By computation: what the headers bring in. *)
Definition has_item (p : item → bool) (h : string) : bool := existsb p (contents h).
Definition is_use (it : item) : bool := match it with UsesRanges => true | _ => false end.
Definition is_open (it : item) : bool := match it with OpensRanges => true | _ => false end.
Definition openers : list string :=
  ["ranges/destroy.hpp"; "ranges/uninitialized.hpp"; "container/array.hpp"; "container/heap.hpp"; "container/container.hpp";
   "container/spsc_queue.hpp"].
Notation array_view_h := "container/array_view.hpp" (only parsing).
Notation linked_list_h := "container/linked_list.hpp" (only parsing).
Lemma headers_facts :
  forallb (λ h, closedb (cl h) && mem h (cl h) && forallb (λ x, mem x headers) (cl h) &&
    Bool.eqb (existsb (has_item is_open) (cl h)) (mem h openers) &&
    (negb (mem h openers) || mem "ranges/destroy.hpp" (cl h)) &&
    (negb (existsb (has_item is_use) (cl h)) || mem h [array_view_h; linked_list_h; "container/container.hpp"; "container/spsc_queue.hpp"]) &&
    forallb (λ x, negb (has_item is_use x) || (x =? array_view_h) || (x =? linked_list_h)) (cl h) &&
    forallb (λ v, negb (mem v (cl h)) || mem h [v; "container/container.hpp"; "container/spsc_queue.hpp"]) [array_view_h; linked_list_h])
  headers = true.
Proof. vm_compute. reflexivity. Qed.
#[global] Opaque contents headers cl closedb.

(** ** Invariants *)
(** What has been read: all of a header, or what stands in front of the item being read. The
    stack [st] lists the headers being read. *)
Definition read (its : list item) (e : env) : Prop :=
  ∀ it, it ∈ its →
    match it with Include y => y ∈ included e | Declares n => n ∈ declared e | OpensRanges => xme_ranges e = true | _ => True end.
Definition inv (st : list (string * list item)) (e : env) : Prop :=
  ∀ h, h ∈ included e → read (contents h) e ∨ ∃ pre, (h, pre) ∈ st ∧ read pre e.
Definition leads (st : list (string * list item)) (h : string) : Prop :=
  ∀ s pre, (s, pre) ∈ st → ∃ x its, contents s = (pre ++ Include x :: its)%list ∧ reaches x h.
Definition leads_or_is (st : list (string * list item)) (h : string) : Prop :=
  ∀ s pre, (s, pre) ∈ st → s = h ∨ ∃ x its, contents s = (pre ++ Include x :: its)%list ∧ reaches x h.
Definition grows (e e' : env) : Prop :=
  (∀ h, h ∈ included e → h ∈ included e') ∧ (∀ n, n ∈ declared e → n ∈ declared e') ∧ (xme_ranges e = true → xme_ranges e' = true).
Lemma grows_refl e : grows e e.
Proof. done. Qed.
Lemma grows_trans e1 e2 e3 : grows e1 e2 → grows e2 e3 → grows e1 e3.
Proof. intros (?&?&?) (?&?&?). split_and!; auto. Qed.
Lemma read_grows its e e' : grows e e' → read its e → read its e'.
Proof. intros (H1&H2&H3) Hr it Hit. specialize (Hr it Hit). destruct it; auto. Qed.
Lemma read_snoc its it e :
  read its e →
  match it with Include y => y ∈ included e | Declares n => n ∈ declared e | OpensRanges => xme_ranges e = true | _ => True end →
  read (its ++ [it]) e.
Proof. intros H1 H2 it' [H|H]%elem_of_app; [by apply H1|]. apply elem_of_list_singleton in H as ->. done. Qed.
Lemma then_fine r k e' : then_ r k = Fine e' → ∃ e, r = Fine e ∧ k e = Fine e'.
Proof. destruct r; [|done]. eauto. Qed.
Lemma reaches_trans x y z : reaches x y → reaches y z → reaches x z.
Proof. intros H. induction 1; [done|]. by eapply reaches_step; [apply IHreaches|]. Qed.

Lemma step_grows f it e e' : (∀ h e e', f h e = Fine e' → grows e e') → step f it e = Fine e' → grows e e'.
Proof.
  intros Hf H1. destruct it; cbn in H1.
  - by eapply Hf.
  - injection H1 as <-. split_and!; cbn; auto. intros m Hm. by right.
  - destruct (mem _ _); [|done]. by injection H1 as <-.
  - destruct (mem _ _); [done|]. by injection H1 as <-.
  - by injection H1 as <-.
  - injection H1 as <-. by split_and!.
  - destruct (xme_ranges e); [done|]. by injection H1 as <-.
Qed.
Lemma items_grow f its e e' :
  (∀ h e e', f h e = Fine e' → grows e e') → items f its e = Fine e' → grows e e'.
Proof.
  intros Hf. revert e. induction its as [|it its IH]; intros e; cbn; [by intros [= <-]|].
  intros (e1 & H1 & H2)%then_fine. apply (grows_trans _ e1); [|by apply IH]. by eapply step_grows.
Qed.
Lemma file_grows fuel h e e' : file fuel h e = Fine e' → grows e e' ∧ h ∈ included e'.
Proof.
  revert h e e'. induction fuel as [|fuel IH]; intros h e e'; cbn;
    (destruct (mem h (included e)) eqn:E; [intros [= <-]; split; [done|by apply mem_spec]|]); destruct (negb _); try done.
  intros H. assert (G : grows (Env (h :: included e) (declared e) (macros e) (xme_ranges e)) e').
  { eapply items_grow; [|done]. intros h' e1 e2 H'. by eapply IH. }
  destruct G as (G1 & G2 & G3). cbn in *. split; [split_and!; auto|]; intros; apply G1; [by right|by left].
Qed.

(** ** Names are declared where they are used *)
Lemma provides_declared fuel xs st e y n :
  inv st e → closed xs → (∀ s pre, (s, pre) ∈ st → s ∉ xs) → y ∈ xs → y ∈ included e → provides fuel y n = true → n ∈ declared e.
Proof.
  intros Hi Hc Hst. revert y. induction fuel as [|fuel IH]; intros y Hy Hin; cbn;
    (assert (Hr : read (contents y) e) by (destruct (Hi y Hin) as [H|(pre & H & _)]; [done|by destruct (Hst _ _ H)])).
  - rewrite orb_false_r. intros H%mem_spec%decls_spec. by apply (Hr _ H).
  - rewrite orb_true_iff. intros [H%mem_spec%decls_spec|H]; [by apply (Hr _ H)|].
    apply existsb_exists in H as (z & Hz & H). apply elem_of_list_In in Hz.
    apply (IH z); [by eapply Hc| |done]. apply incs_spec in Hz. by apply (Hr _ Hz).
Qed.
Lemma gives_declared st h e y n : inv st e → leads_or_is st h → gives h n y = true → y ∈ included e → n ∈ declared e.
Proof.
  intros Hi Hl Hg Hy. unfold gives in Hg. rewrite !andb_true_iff, negb_true_iff in Hg. destruct Hg as [[[H1%mem_false H2%closedb_spec] H3%mem_spec] H4].
  eapply provides_declared; [done|apply H2| |done..]. intros s pre Hs Hin. destruct (Hl s pre Hs) as [-> |(x & its & E & Hr)]; [done|].
  apply H1. eapply reaches_closed; [done|apply Hin|]. eapply reaches_trans; [|done].
  eapply reaches_step; [apply reaches_refl|]. apply incs_spec. rewrite E. apply elem_of_app. right. by left.
Qed.
Lemma in_front_spec h n before pre x its :
  in_front h n before (pre ++ Include x :: its) = true → reaches x h →
  ∃ z, (z ∈ before ∨ Include z ∈ pre) ∧ gives h n z = true.
Proof.
  revert before. induction pre as [|it pre IH]; intros before; cbn.
  - rewrite !andb_true_iff. intros [[[H1%closedb_spec H2%mem_spec] H3] _] Hr.
    assert (mem h (cl x) = true) as E by (apply mem_spec; by eapply reaches_closed). rewrite E in H3. cbn in H3.
    apply existsb_exists in H3 as (z & Hz & H3). exists z. split; [left; by apply elem_of_list_In|done].
  - destruct it; cbn; try (intros H Hr; destruct (IH _ H Hr) as (z & [Hz|Hz] & Hg); exists z; (split; [|done]); [by left|right; by right]).
    rewrite andb_true_iff. intros [_ H] Hr. destruct (IH _ H Hr) as (z & [Hz|Hz] & Hg); exists z; (split; [|done]).
    + apply elem_of_cons in Hz as [-> |Hz]; [right; by left|by left].
    + right. by right.
Qed.
Lemma gives'_declared st h e y n : inv st e → leads_or_is st h → gives' h n y = true → y ∈ included e → n ∈ declared e.
Proof.
  intros Hi Hl Hg Hy. unfold gives' in Hg. rewrite orb_true_iff, !andb_true_iff, negb_true_iff, String.eqb_neq in Hg. destruct Hg as [Hg|[[H0 H1] H2]].
  { by eapply gives_declared. }
  destruct (Hi y Hy) as [Hr|(pre & Hs & Hr)].
  - apply existsb_exists in H1 as (z & Hz & Hg). apply elem_of_list_In, incs_spec in Hz.
    eapply gives_declared; [done..|]. by apply (Hr _ Hz).
  - destruct (Hl y pre Hs) as [-> |(x & its & E & Hx)]; [done|]. rewrite E in H2. destruct (in_front_spec _ _ _ _ _ _ H2 Hx) as (z & [Hz|Hz] & Hg).
    + by apply elem_of_nil in Hz.
    + eapply gives_declared; [done..|]. by apply (Hr _ Hz).
Qed.

Definition missing (e : env) : nat := length (List.filter (λ h, negb (mem h (included e))) headers).
Lemma filter_length_le {A} (p q : A → bool) xs :
  (∀ x, p x = true → q x = true) → length (List.filter p xs) ≤ length (List.filter q xs).
Proof.
  intros H. induction xs as [|x xs IH]; cbn; [lia|]. destruct (p x) eqn:E; [rewrite (H x E); cbn; lia|].
  destruct (q x); cbn; lia.
Qed.
Lemma filter_length_lt {A} (p q : A → bool) xs x :
  (∀ x, p x = true → q x = true) → x ∈ xs → p x = false → q x = true → length (List.filter p xs) < length (List.filter q xs).
Proof.
  intros H Hx Hp Hq. induction xs as [|y xs IH]; [by apply elem_of_nil in Hx|]. apply elem_of_cons in Hx as [<-|Hx]; cbn.
  - rewrite Hp, Hq. cbn. pose proof (filter_length_le p q xs H). lia.
  - specialize (IH Hx). destruct (p y) eqn:E; [rewrite (H y E); cbn; lia|]. destruct (q y); cbn; lia.
Qed.
Lemma missing_grows e e' : grows e e' → missing e' ≤ missing e.
Proof.
  intros (H & _). apply filter_length_le. intros x. rewrite !negb_true_iff, !mem_false. auto.
Qed.
Lemma missing_cons h e d m r : h ∈ headers → h ∉ included e → missing (Env (h :: included e) d m r) < missing e.
Proof.
  intros Hh Hn. apply filter_length_lt with (x := h); [|done|..].
  - intros x. cbn [included]. rewrite !negb_true_iff, !mem_false. intros H H'. apply H. by right.
  - cbn. by rewrite String.eqb_refl.
  - rewrite negb_true_iff. by apply mem_false.
Qed.
Lemma missing_zero h e : missing e ≤ 0 → h ∈ headers → h ∈ included e.
Proof.
  intros Hm Hh. destruct (mem h (included e)) eqn:E; [by apply mem_spec|]. apply mem_false in E.
  pose proof (missing_cons h e [] [] true Hh E). lia.
Qed.

(** Reading [h] while [st] are being read. *)
Definition good (st : list (string * list item)) (r : result) : Prop :=
  match r with Fine e' => inv st e' ∧ macros e' = [] | Stopped w => w = HiddenNamespace end.
Definition works (n : nat) (f : string → env → result) : Prop :=
  (∀ y e e', f y e = Fine e' → grows e e' ∧ y ∈ included e') ∧
  (∀ st y e, y ∈ headers → missing e ≤ n → inv st e → leads st y → macros e = [] → good st (f y e)).

Lemma inv_change st st' e e' :
  grows e e' → (∀ h, h ∈ included e' → h ∈ included e) →
  (∀ s pre, (s, pre) ∈ st → read pre e → ∃ pre', (s, pre') ∈ st' ∧ read pre' e') → inv st e → inv st' e'.
Proof.
  intros Hg Hs Hst Hi h Hh. destruct (Hi h (Hs h Hh)) as [H|(pre & H1 & H2)].
  - left. by eapply read_grows.
  - right. destruct (Hst h pre H1 H2) as (pre' & ? & ?). eauto.
Qed.

Lemma items_good n f h st its : ∀ pre incd decl open e,
  works n f → missing e ≤ n →
  contents h = (pre ++ its)%list → check h incd decl open its = true →
  inv ((h, pre) :: st) e → leads st h → macros e = open →
  (∀ y, y ∈ incd → y ∈ included e) → (∀ d, d ∈ decl → d ∈ declared e) → read pre e →
  good ((h, contents h) :: st) (items f its e) ∧ (∀ e', items f its e = Fine e' → read (contents h) e').
Proof.
  induction its as [|it its IH]; intros pre incd decl open e Hw Hm Hc Hck Hi Hl Ho Hin Hd Hr.
  { cbn in *. rewrite app_nil_r in Hc. subst pre. unfold no_macros in Hck. destruct open; [|done]. split; [done|].
    by intros e' [= <-]. }
  pose proof Hw as [Hg Hgood].
  assert (Hg' : ∀ y e e', f y e = Fine e' → grows e e') by (intros y e1 e2 H; by apply (Hg y e1 e2)).
  assert (Hstep : ∀ e1 incd1 decl1 open1,
    step f it e = Fine e1 → (∀ h', h' ∈ included e1 → h' ∈ included e) → check h incd1 decl1 open1 its = true → macros e1 = open1 →
    (∀ y, y ∈ incd1 → y ∈ included e1) → (∀ d, d ∈ decl1 → d ∈ declared e1) → read (pre ++ [it]) e1 →
    good ((h, contents h) :: st) (items f (it :: its) e) ∧ (∀ e', items f (it :: its) e = Fine e' → read (contents h) e')).
  { intros e1 incd1 decl1 open1 Hs Hinc Hck1 Ho1 Hi1 Hd1 Hr1. cbn [items]. rewrite Hs. cbn [then_].
    pose proof (step_grows _ _ _ _ Hg' Hs) as Hgr.
    apply (IH (pre ++ [it])%list incd1 decl1 open1 e1 Hw); auto.
    - pose proof (missing_grows _ _ Hgr). lia.
    - by rewrite <- app_assoc.
    - eapply inv_change; [done..| |done]. intros s pre' Hs' Hr'. apply elem_of_cons in Hs' as [[= -> ->]|Hs'].
      + exists (pre ++ [it])%list. split; [by left|done].
      + exists pre'. split; [by right|by eapply read_grows]. }
  destruct it as [y|d|d|m|m| |]; cbn in Hck.
  - rewrite !andb_true_iff in Hck. destruct Hck as [[Hy%mem_spec Hno] Hck]. unfold no_macros in Hno. destruct open as [|]; [|done].
    cbn [items step]. assert (Hg1 : good ((h, pre) :: st) (f y e)).
    { apply Hgood; [done..| |done]. intros s pre' [[= -> ->]|Hs]%elem_of_cons.
      - exists y, its. split; [done|apply reaches_refl].
      - destruct (Hl s pre' Hs) as (x & its' & E & Hx). exists x, its'. split; [done|]. eapply reaches_step; [done|].
        apply incs_spec. rewrite Hc. apply elem_of_app. right. by left. }
    destruct (f y e) as [e1|w] eqn:E; cbn [then_]; [|split; [done|by intros ?]].
    destruct Hg1 as [Hi1 Ho1]. destruct (Hg _ _ _ E) as [Hgr Hy1]. pose proof (missing_grows _ _ Hgr) as Hm1.
    assert (Hr1 : read (pre ++ [Include y]) e1) by (apply read_snoc; [by eapply read_grows|done]).
    apply (IH (pre ++ [Include y])%list (y :: incd) decl [] e1 Hw); auto.
    + lia.
    + by rewrite <- app_assoc.
    + intros x Hx. destruct (Hi1 x Hx) as [H|(pre' & [[= -> ->]|H1]%elem_of_cons & H2)]; [by left| |].
      * right. exists (pre ++ [Include y])%list. split; [by left|done].
      * right. exists pre'. split; [by right|done].
    + intros x [-> |Hx]%elem_of_cons; [done|]. apply (proj1 Hgr), Hin, Hx.
    + intros x Hx. apply (proj1 (proj2 Hgr)), Hd, Hx.
  - eapply (Hstep _ incd (d :: decl) open); [reflexivity|done|done|done|done| |].
    + intros x [-> |Hx]%elem_of_cons; cbn; [by left|right; by apply Hd].
    + apply read_snoc; [|by left]. eapply read_grows; [|done]. split_and!; cbn; auto. intros x Hx. by right.
  - rewrite andb_true_iff in Hck. destruct Hck as [Hu Hck].
    assert (Hdecl : d ∈ declared e).
    { rewrite orb_true_iff in Hu. destruct Hu as [Hu%mem_spec|Hu]; [by apply Hd|].
      apply existsb_exists in Hu as (y & Hy & Hu). apply elem_of_list_In in Hy.
      eapply gives'_declared; [exact Hi| |exact Hu|by apply Hin].
      intros s pre' [[= -> ->]|Hs]%elem_of_cons; [by left|right; by apply Hl]. }
    eapply (Hstep e incd decl open); [cbn; by rewrite (proj2 (mem_spec _ _) Hdecl)|done..|]. by apply read_snoc.
  - rewrite andb_true_iff, negb_true_iff in Hck. destruct Hck as [Hm' Hck]. subst open.
    eapply (Hstep _ incd decl (m :: macros e)); [cbn; by rewrite Hm'|done..|]. apply read_snoc; [|done]. eapply read_grows; [|done]. by split_and!.
  - subst open. eapply (Hstep _ incd decl _); [reflexivity|done|exact Hck|done..|]. apply read_snoc; [|done]. eapply read_grows; [|done]. by split_and!.
  - eapply (Hstep _ incd decl open); [reflexivity|done..|]. apply read_snoc; [|done]. eapply read_grows; [|done]. by split_and!.
  - destruct (xme_ranges e) eqn:E; [cbn [items step]; rewrite E; split; [done|by intros ?]|].
    eapply (Hstep e incd decl open); [cbn; by rewrite E|done..|]. by apply read_snoc.
Qed.

Lemma file_works fuel : works fuel (file fuel).
Proof.
  induction fuel as [|fuel IH]; (split; [intros y e e' H; by eapply file_grows|]); intros st y e Hy Hm Hi Hl Ho.
  - cbn. rewrite (proj2 (mem_spec _ _) (missing_zero y e Hm Hy)). done.
  - cbn. destruct (mem y (included e)) eqn:E; [done|]. apply mem_false in E. rewrite (proj2 (mem_spec _ _) Hy). cbn [negb].
    set (e1 := Env (y :: included e) (declared e) (macros e) (xme_ranges e)).
    assert (Hck : check y [] [] [] (contents y) = true).
    { pose proof headers_check as H. rewrite forallb_forall in H. apply (H y). by apply elem_of_list_In. }
    pose proof (missing_cons y e (declared e) (macros e) (xme_ranges e) Hy E) as Hlt.
    assert (Hi1 : inv ((y, []) :: st) e1).
    { intros h Hh. cbn in Hh. apply elem_of_cons in Hh as [-> |Hh].
      - right. exists []. split; [by left|]. intros it Hit. by apply elem_of_nil in Hit.
      - assert (G : grows e e1) by (split_and!; cbn; auto; intros; by right).
        destruct (Hi h Hh) as [H|(pre & H1 & H2)]; [left; by eapply read_grows|]. right. exists pre. split; [by right|by eapply read_grows]. }
    destruct (items_good fuel (file fuel) y st (contents y) [] [] [] [] e1) as [H1 H2]; auto; try done.
    { unfold e1. lia. }
    { intros x Hx. by apply elem_of_nil in Hx. }
    { intros x Hx. by apply elem_of_nil in Hx. }
    { intros x Hx. by apply elem_of_nil in Hx. }
    destruct (items _ _ _) as [e2|w] eqn:E2; [|done]. destruct H1 as [H1 H3]. split; [|done].
    intros h Hh. destruct (H1 h Hh) as [H|(pre & [[= -> ->]|Hs]%elem_of_cons & Hr)]; [by left|left; by apply H2|right; eauto].
Qed.

(** ** Where xme::ranges hides ::ranges *)
Lemma file_brings xs fuel h e e' :
  closed xs → h ∈ xs → file fuel h e = Fine e' → ∀ x, x ∈ included e' → x ∈ included e ∨ x ∈ xs.
Proof.
  intros Hc. revert h e e'. induction fuel as [|fuel IH]; intros h e e' Hh; cbn;
    (destruct (mem h (included e)); [intros [= <-]; by left|]); destruct (negb _); try done.
  assert (H : ∀ its e1, (∀ it, it ∈ its → it ∈ contents h) → (∀ x, x ∈ included e1 → x ∈ included e ∨ x ∈ xs) →
    items (file fuel) its e1 = Fine e' → ∀ x, x ∈ included e' → x ∈ included e ∨ x ∈ xs).
  { induction its as [|it its IHi]; intros e1 Hits He1; cbn; [by intros [= <-]|]. intros (e2 & H1 & H2)%then_fine.
    apply (IHi e2); [intros; apply Hits; by right| |done].
    destruct it as [y|d|d|m|m| |]; cbn in H1; try (injection H1 as <-; done).
    - intros x Hx. destruct (IH y e1 e2 (Hc h y Hh (proj2 (incs_spec _ _) (Hits _ (elem_of_list_here _ _)))) H1 x Hx); auto.
    - destruct (mem _ _); [by injection H1 as <-|done].
    - destruct (mem _ _); [done|by injection H1 as <-].
    - destruct (xme_ranges e1); [done|by injection H1 as <-]. }
  apply H; [done|]. cbn. intros x [-> |Hx]%elem_of_cons; auto.
Qed.
Lemma file_no_users xs fuel h e :
  closed xs → h ∈ xs → (∀ x, x ∈ xs → UsesRanges ∈ contents x → x ∈ included e) → file fuel h e ≠ Stopped HiddenNamespace.
Proof.
  intros Hc. revert h e. induction fuel as [|fuel IH]; intros h e Hh Hu; cbn;
    (destruct (mem h (included e)) eqn:E; [done|]); destruct (negb _); try done.
  apply mem_false in E.
  assert (H : ∀ its e1, (∀ it, it ∈ its → it ∈ contents h) → (∀ x, x ∈ included e → x ∈ included e1) →
    items (file fuel) its e1 ≠ Stopped HiddenNamespace).
  { induction its as [|it its IHi]; intros e1 Hits He1; cbn; [done|].
    assert (Hit : it ∈ contents h) by (apply Hits; by left).
    assert (Hits' : ∀ it, it ∈ its → it ∈ contents h) by (intros; apply Hits; by right).
    destruct it as [y|d|d|m|m| |]; cbn; try (by apply IHi).
    - pose proof (IH y e1 (Hc h y Hh (proj2 (incs_spec _ _) Hit))) as H.
      destruct (file fuel y e1) as [e2|w] eqn:E2; cbn; [|apply H; auto].
      apply IHi; [done|]. intros x Hx. apply (proj1 (proj1 (file_grows _ _ _ _ E2))). auto.
    - destruct (mem _ _); [by apply IHi|done].
    - destruct (mem _ _); [done|by apply IHi].
    - by destruct E; apply Hu. }
  apply H; [done|]. intros x Hx. by right.
Qed.
Lemma file_no_openers xs fuel h e :
  closed xs → h ∈ xs → (∀ x, x ∈ xs → OpensRanges ∉ contents x) → xme_ranges e = false →
  match file fuel h e with Fine e' => xme_ranges e' = false | Stopped w => w ≠ HiddenNamespace end.
Proof.
  intros Hc. revert h e. induction fuel as [|fuel IH]; intros h e Hh Hu Hr; cbn;
    (destruct (mem h (included e)); [done|]); destruct (negb _); try done.
  assert (H : ∀ its e1, (∀ it, it ∈ its → it ∈ contents h) → xme_ranges e1 = false →
    match items (file fuel) its e1 with Fine e' => xme_ranges e' = false | Stopped w => w ≠ HiddenNamespace end).
  { induction its as [|it its IHi]; intros e1 Hits He1; cbn; [done|].
    assert (Hit : it ∈ contents h) by (apply Hits; by left).
    assert (Hits' : ∀ it, it ∈ its → it ∈ contents h) by (intros; apply Hits; by right).
    destruct it as [y|d|d|m|m| |]; cbn; try (by apply IHi).
    - pose proof (IH y e1 (Hc h y Hh (proj2 (incs_spec _ _) Hit)) Hu He1) as H.
      destruct (file fuel y e1) as [e2|w] eqn:E2; cbn; [by apply IHi|done].
    - destruct (mem _ _); [by apply IHi|done].
    - destruct (mem _ _); [done|by apply IHi].
    - by destruct (Hu h Hh).
    - rewrite He1. by apply IHi. }
  by apply H.
Qed.
Lemma file_user fuel h e e' :
  xme_ranges e = true → UsesRanges ∈ contents h → h ∉ included e → file fuel h e ≠ Fine e'.
Proof.
  intros Hr Hu Hn%mem_false. destruct fuel; cbn; rewrite Hn; destruct (negb _); try done.
  set (e0 := Env _ _ _ _). assert (H0 : xme_ranges e0 = true) by done. revert H0 Hu. generalize e0. generalize (contents h).
  induction l as [|it its IH]; intros e1 Hr1 Hu; [by apply elem_of_nil in Hu|]. cbn. intros (e2 & H1 & H2)%then_fine.
  apply elem_of_cons in Hu as [<-|Hu]; [cbn in H1; by rewrite Hr1 in H1|].
  eapply IH; [|done|exact H2]. eapply step_grows; [|done|done]. intros y e3 e4 H. by eapply file_grows.
Qed.

Lemma has_use h : UsesRanges ∈ contents h → has_item is_use h = true.
Proof. intros H. apply existsb_exists. exists UsesRanges. split; [by apply elem_of_list_In|done]. Qed.
Lemma has_open h : OpensRanges ∈ contents h → has_item is_open h = true.
Proof. intros H. apply existsb_exists. exists OpensRanges. split; [by apply elem_of_list_In|done]. Qed.
