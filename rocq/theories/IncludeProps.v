(** In which orders the headers can be included. *)
From Coq Require Import String.
From stdpp Require Import list strings.
From Verif Require Import IncludeModel IncludeProofs.
Local Open Scope string_scope.

(** ** What is expected
    Two headers need a translation unit in which nothing has declared namespace xme::ranges,
    unless they have been included before. *)
Definition view := "container/array_view.hpp".
Definition list_ := "container/linked_list.hpp".
Definition all := "container/container.hpp".
Definition queue := "container/spsc_queue.hpp".
Definition declares_ranges (h : string) : Prop :=
  h = "ranges/destroy.hpp" ∨ h = "ranges/uninitialized.hpp" ∨ h = "container/array.hpp" ∨ h = "container/heap.hpp" ∨ h = all ∨ h = queue.
Definition may_follow (pre : list string) (h : string) : Prop :=
  (h = view ∨ h = list_ → h ∈ pre ∨ ∀ o, o ∈ pre → ¬ declares_ranges o) ∧
  (h = all ∨ h = queue → view ∈ pre ∧ list_ ∈ pre).
Definition good_order (hs : list string) : Prop := ∀ pre h suf, hs = (pre ++ h :: suf)%list → may_follow pre h.

(** ** Proofs *)
Lemma openers_spec h : h ∈ openers ↔ declares_ranges h.
Proof. unfold openers, declares_ranges, all, queue. rewrite !elem_of_cons, elem_of_nil. tauto. Qed.
Lemma facts h : h ∈ headers →
  closed (cl h) ∧ h ∈ cl h ∧ (∀ x, x ∈ cl h → OpensRanges ∈ contents x → declares_ranges h) ∧
  (declares_ranges h → "ranges/destroy.hpp" ∈ cl h) ∧
  (∀ x, x ∈ cl h → UsesRanges ∈ contents x → (x = view ∨ x = list_) ∧ (h = view ∨ h = list_ ∨ h = all ∨ h = queue)) ∧
  (∀ v, v = view ∨ v = list_ → v ∈ cl h → h = v ∨ h = all ∨ h = queue).
Proof.
  intros Hh. pose proof headers_facts as H. rewrite forallb_forall in H. apply elem_of_list_In in Hh. specialize (H h Hh).
  rewrite !andb_true_iff in H. destruct H as [[[[[[[H1%closedb_spec H2%mem_spec] H3] H4%eqb_prop] H5] H6] H7] H8].
  split_and!; try done.
  - intros x Hx Ho%has_open. apply openers_spec. apply mem_spec. rewrite <- H4. apply existsb_exists. exists x. by rewrite <- elem_of_list_In.
  - intros Ho%openers_spec%mem_spec. rewrite Ho in H5. by apply mem_spec.
  - intros x Hx Hu%has_use. split.
    + rewrite forallb_forall in H7. apply elem_of_list_In in Hx. specialize (H7 x Hx). rewrite Hu in H7. cbn in H7.
      rewrite orb_true_iff, !String.eqb_eq in H7. done.
    + assert (existsb (has_item is_use) (cl h) = true) as E by (apply existsb_exists; exists x; by rewrite <- elem_of_list_In).
      rewrite E in H6. cbn [negb orb] in H6. apply mem_spec in H6. rewrite !elem_of_cons, elem_of_nil in H6. unfold view, list_, all, queue. tauto.
  - intros v Hv Hin%mem_spec. rewrite forallb_forall in H8. assert (Hv' : In v [view; list_]) by (destruct Hv as [-> | ->]; cbn; auto).
    specialize (H8 v Hv'). rewrite Hin in H8. cbn [negb orb] in H8. apply mem_spec in H8. rewrite !elem_of_cons, elem_of_nil in H8.
    unfold all, queue. tauto.
Qed.
Lemma included_closed st e h x : inv st e → (∀ s pre, (s, pre) ∈ st → ¬ reaches h s) → h ∈ included e → reaches h x → x ∈ included e.
Proof.
  intros Hi Hst Hh. induction 1 as [|h x y Hx IH Hy]; [done|]. specialize (IH Hst Hh).
  destruct (Hi x IH) as [Hr|(pre & Hs & _)]; [|by destruct (Hst _ _ Hs)]. apply incs_spec in Hy. by apply (Hr _ Hy).
Qed.

(** After the directives [pre] *)
Definition after (pre : list string) (e : env) : Prop :=
  inv [] e ∧ macros e = [] ∧ (∀ v, v = view ∨ v = list_ → v ∈ included e → v ∈ pre) ∧ (∀ h, h ∈ pre → h ∈ included e) ∧
  (xme_ranges e = true ↔ ∃ o, o ∈ pre ∧ declares_ranges o).
Lemma read_all e h : inv [] e → h ∈ included e → read (contents h) e.
Proof. intros Hi Hh. destruct (Hi h Hh) as [H|(pre & H & _)]; [done|by apply elem_of_nil in H]. Qed.
Lemma missing_bound e : missing e ≤ length headers.
Proof. unfold missing. generalize headers. induction l as [|x l IH]; cbn; [lia|]. destruct (negb _); cbn; lia. Qed.
Lemma file_good h e : h ∈ headers → inv [] e → macros e = [] → good [] (file (length headers) h e).
Proof.
  intros Hh Hi Hm. apply file_works; [done|apply missing_bound|done| |done]. intros s pre Hs. by apply elem_of_nil in Hs.
Qed.
Lemma opened e st :
  inv st e → (∀ s pre, (s, pre) ∈ st → s ≠ "ranges/destroy.hpp") → "ranges/destroy.hpp" ∈ included e → xme_ranges e = true.
Proof.
  intros Hi Hst Hd. destruct (Hi _ Hd) as [Hr|(pre & Hs & _)]; [|by destruct (Hst _ _ Hs)]. apply (Hr OpensRanges).
  apply elem_of_list_In. vm_compute. auto.
Qed.
Lemma reaches_cl x y : x ∈ headers → y ∉ cl x → ¬ reaches x y.
Proof. intros Hx Hy Hr. destruct (facts x Hx) as (H1 & H2 & _). apply Hy. by eapply reaches_closed. Qed.
Lemma is_header h : mem h headers = true → h ∈ headers.
Proof. apply mem_spec. Qed.
Ltac by_vm := vm_compute; reflexivity.

(** container.hpp, also where spsc_queue.hpp includes it *)
Lemma all_contents : contents all =
  Include "container/concepts.hpp" :: Include "container/aligned_data.hpp" :: Include "container/array.hpp" :: Include view :: Include list_ ::
  [Include queue; Include "container/tuple.hpp"; Include "container/pair.hpp"].
Proof. by_vm. Qed.
Lemma queue_contents : contents queue =
  Include "private/container/spsc_queue_base.hpp" :: Include "container/container_policy.hpp" :: Include all ::
  [Declares "SPSCQueue"; Uses "CAllocator"; Uses "DynamicSPSCQueue"; Uses "StaticSPSCQueue"].
Proof. by_vm. Qed.
Lemma not_brought fuel h e e' v : file fuel h e = Fine e' → h ∈ headers → v ∉ included e → mem v (cl h) = false → v ∉ included e'.
Proof.
  intros H Hh Hv Hc Hin. destruct (facts h Hh) as (H1 & H2 & _). apply mem_false in Hc.
  by destruct (file_brings (cl h) fuel h e e' H1 H2 H v Hin).
Qed.
(** array.hpp declares xme::ranges, whatever else is being read. *)
Lemma array_opens st fuel e e' :
  inv st e → missing e ≤ fuel → leads st "container/array.hpp" → macros e = [] → (∀ s pre, (s, pre) ∈ st → s = all ∨ s = queue) →
  file fuel "container/array.hpp" e = Fine e' → xme_ranges e' = true.
Proof.
  intros Hi Hm Hl Ho Hst H.
  destruct (file_works fuel) as [Hg Hgood]. specialize (Hgood st "container/array.hpp" e). destruct (Hg _ _ _ H) as [_ Hin].
  rewrite H in Hgood. destruct Hgood as [Hi' _]; try done; [apply is_header; by_vm|].
  eapply opened; [done| |].
  - intros s pre Hs. by destruct (Hst s pre Hs) as [-> | ->].
  - destruct (Hi' _ Hin) as [Hr|(pre & Hs & _)]; [|by destruct (Hst _ _ Hs)].
    apply (Hr (Include "ranges/destroy.hpp")). apply elem_of_list_In. vm_compute. auto 10.
Qed.
Lemma all_fails st fuel e e' :
  inv st e → missing e ≤ fuel → leads st all → macros e = [] → (∀ s pre, (s, pre) ∈ st → s = queue) →
  (view ∉ included e ∨ list_ ∉ included e) → file fuel all e ≠ Fine e'.
Proof.
  intros Hi Hm Hl Ho Hst Hv H.
  assert (Hn : all ∉ included e).
  { intros Hin. destruct (Hi all Hin) as [Hr|(pre & Hs & _)]; [|by specialize (Hst _ _ Hs)].
    pose proof (Hr (Include view)) as H1. pose proof (Hr (Include list_)) as H2. rewrite all_contents in H1, H2.
    destruct Hv as [Hv|Hv]; apply Hv; [apply H1|apply H2]; apply elem_of_list_In; cbn; auto 10. }
  destruct fuel as [|fuel]; [by apply Hn, missing_zero; [|apply is_header; by_vm]|].
  cbn [file] in H. rewrite (proj2 (mem_false _ _) Hn) in H. assert (mem all headers = true) as Eh by by_vm. rewrite Eh in H. cbn [negb] in H.
  rewrite all_contents in H. set (e0 := Env _ _ _ _) in H. cbn [items step] in H.
  apply then_fine in H as (e1 & E1 & H). apply then_fine in H as (e2 & E2 & H). apply then_fine in H as (e3 & E3 & H).
  apply then_fine in H as (e4 & E4 & H). apply then_fine in H as (e5 & E5 & H). clear H.
  pose proof (missing_cons all e (declared e) (macros e) (xme_ranges e) (is_header _ Eh) Hn) as Hm0. fold e0 in Hm0.
  destruct (file_works fuel) as [Hg Hgood].
  assert (Hl0 : ∀ pre y its, contents all = (pre ++ Include y :: its)%list → leads ((all, pre) :: st) y).
  { intros pre y its E s pre' [[= -> ->]|Hs]%elem_of_cons; [exists y, its; split; [done|apply reaches_refl]|].
    destruct (Hl s pre' Hs) as (x & its' & E' & Hr). exists x, its'. split; [done|]. eapply reaches_step; [done|].
    apply incs_spec. rewrite E. apply elem_of_app. right. by left. }
  assert (Hi0 : inv ((all, []) :: st) e0).
  { intros h Hh. cbn in Hh. apply elem_of_cons in Hh as [-> |Hh].
    - right. exists []. split; [by left|]. intros it Hit. by apply elem_of_nil in Hit.
    - assert (G : grows e e0) by (split_and!; cbn; auto; intros; by right).
      destruct (Hi h Hh) as [Hr|(pre & H1 & H2)]; [left; by eapply read_grows|]. right. exists pre. split; [by right|by eapply read_grows]. }
  assert (Hnext : ∀ pre y its ea eb, contents all = (pre ++ Include y :: its)%list → y ∈ headers →
    inv ((all, pre) :: st) ea ∧ read pre ea ∧ macros ea = [] ∧ missing ea ≤ fuel → file fuel y ea = Fine eb →
    inv ((all, (pre ++ [Include y])%list) :: st) eb ∧ read (pre ++ [Include y]) eb ∧ macros eb = [] ∧ missing eb ≤ fuel).
  { intros pre y its ea eb E Hy (Ha & Hr & Hma & Hmi) Eb. pose proof (Hgood ((all, pre) :: st) y ea Hy Hmi Ha (Hl0 _ _ _ E) Hma) as Hb.
    rewrite Eb in Hb. destruct Hb as [Hb Hmb]. destruct (Hg _ _ _ Eb) as [Gb Hyb].
    assert (Hrb : read (pre ++ [Include y]) eb) by (apply read_snoc; [by eapply read_grows|done]).
    split_and!; try done; [|pose proof (missing_grows _ _ Gb); lia].
    intros x Hx. destruct (Hb x Hx) as [Hr'|(pre' & [[= -> ->]|H1]%elem_of_cons & H2)]; [by left| |].
    - right. exists (pre ++ [Include y])%list. split; [by left|done].
    - right. exists pre'. split; [by right|done]. }
  assert (Q0 : inv ((all, []) :: st) e0 ∧ read [] e0 ∧ macros e0 = [] ∧ missing e0 ≤ fuel).
  { split_and!; [done| |done|lia]. intros it Hit. by apply elem_of_nil in Hit. }
  pose proof (Hnext [] _ _ e0 e1 all_contents (is_header "container/concepts.hpp" ltac:(by_vm)) Q0 E1) as Q1. cbn [app] in Q1.
  pose proof (Hnext [Include "container/concepts.hpp"] _ _ e1 e2 all_contents (is_header "container/aligned_data.hpp" ltac:(by_vm)) Q1 E2) as Q2.
  cbn [app] in Q2. destruct Q2 as (I2 & R2 & M2 & F2).
  assert (Hr3 : xme_ranges e3 = true).
  { eapply (array_opens ((all, [Include "container/concepts.hpp"; Include "container/aligned_data.hpp"]) :: st) fuel e2 e3); try done.
    - by eapply (Hl0 [Include "container/concepts.hpp"; Include "container/aligned_data.hpp"]), all_contents.
    - intros s pre [[= -> ->]|Hs]%elem_of_cons; [by left|right; by eapply Hst]. }
  assert (Hnv : ∀ v, v ∉ included e → v ≠ all → mem v (cl "container/concepts.hpp") = false → mem v (cl "container/aligned_data.hpp") = false →
    mem v (cl "container/array.hpp") = false → v ∉ included e3).
  { intros v Hv' Hva H1 H2 H3. eapply not_brought; [exact E3|apply is_header; by_vm| |done].
    eapply not_brought; [exact E2|apply is_header; by_vm| |done]. eapply not_brought; [exact E1|apply is_header; by_vm| |done].
    cbn. intros [-> |?]%elem_of_cons; done. }
  destruct Hv as [Hv|Hv].
  - eapply (file_user fuel view e3 e4); [done|apply elem_of_list_In; vm_compute; auto 10| |done]. apply Hnv; done || by_vm.
  - destruct (Hg _ _ _ E4) as [(_ & _ & G4) _].
    eapply (file_user fuel list_ e4 e5); [auto|apply elem_of_list_In; vm_compute; auto 12| |done].
    eapply not_brought; [exact E4|apply is_header; by_vm| |by_vm]. apply Hnv; done || by_vm.
Qed.
Lemma queue_fails fuel e e' :
  inv [] e → missing e ≤ fuel → macros e = [] → (view ∉ included e ∨ list_ ∉ included e) → file fuel queue e ≠ Fine e'.
Proof.
  intros Hi Hm Ho Hv H.
  assert (Hn : queue ∉ included e).
  { intros Hin. pose proof (read_all e queue Hi Hin (Include all)) as Ha. rewrite queue_contents in Ha.
    assert (all ∈ included e) as Hall by (apply Ha; apply elem_of_list_In; cbn; auto).
    pose proof (read_all e all Hi Hall) as Hr. pose proof (Hr (Include view)) as H1. pose proof (Hr (Include list_)) as H2.
    rewrite all_contents in H1, H2. destruct Hv as [Hv|Hv]; apply Hv; [apply H1|apply H2]; apply elem_of_list_In; cbn; auto 10. }
  destruct fuel as [|fuel]; [by apply Hn, missing_zero; [|apply is_header; by_vm]|].
  cbn [file] in H. rewrite (proj2 (mem_false _ _) Hn) in H. assert (mem queue headers = true) as Eh by by_vm. rewrite Eh in H. cbn [negb] in H.
  pose proof (missing_cons queue e (declared e) (macros e) (xme_ranges e) (is_header _ Eh) Hn) as Hm0. 
  rewrite queue_contents in H. set (e0 := Env _ _ _ _) in H. fold e0 in Hm0. cbn [items step] in H.
  apply then_fine in H as (e1 & E1 & H). apply then_fine in H as (e2 & E2 & H). apply then_fine in H as (e3 & E3 & H). clear H.
  destruct (file_works fuel) as [Hg Hgood].
  set (b := Include "private/container/spsc_queue_base.hpp"). set (c := Include "container/container_policy.hpp").
  assert (Hl0 : ∀ pre y its, contents queue = (pre ++ Include y :: its)%list → leads [(queue, pre)] y).
  { intros pre y its E s pre' [= -> ->]%elem_of_list_singleton. exists y, its. split; [done|apply reaches_refl]. }
  assert (I0 : inv [(queue, [])] e0).
  { intros h Hh. cbn in Hh. apply elem_of_cons in Hh as [-> |Hh].
    - right. exists []. split; [by left|]. intros it Hit. by apply elem_of_nil in Hit.
    - assert (G : grows e e0) by (split_and!; cbn; auto; intros; by right). left. eapply read_grows; [done|]. by apply read_all. }
  assert (Hnext : ∀ pre y ea eb, inv [(queue, pre)] ea ∧ read pre ea → good [(queue, pre)] (file fuel y ea) → file fuel y ea = Fine eb →
    inv [(queue, (pre ++ [Include y])%list)] eb ∧ read (pre ++ [Include y]) eb ∧ macros eb = []).
  { intros pre y ea eb [Ha Hr] Hb Eb. rewrite Eb in Hb. destruct Hb as [Hb Hmb]. destruct (Hg _ _ _ Eb) as [Gb Hyb].
    assert (Hrb : read (pre ++ [Include y]) eb) by (apply read_snoc; [by eapply read_grows|done]).
    split_and!; try done. intros x Hx. destruct (Hb x Hx) as [Hr'|(pre' & [= -> ->]%elem_of_list_singleton & H2)]; [by left|].
    right. exists (pre ++ [Include y])%list. split; [by left|done]. }
  destruct (Hnext [] "private/container/spsc_queue_base.hpp" e0 e1) as (I1 & R1 & M1).
  { split; [done|]. intros it Hit. by apply elem_of_nil in Hit. }
  { apply Hgood; [apply is_header; by_vm|lia|done|by eapply (Hl0 []), queue_contents|done]. }
  { done. }
  cbn [app] in I1, R1. fold b in I1, R1. destruct (Hg _ _ _ E1) as [G1 _]. pose proof (missing_grows _ _ G1).
  destruct (Hnext [b] "container/container_policy.hpp" e1 e2) as (I2 & R2 & M2).
  { done. }
  { apply Hgood; [apply is_header; by_vm|lia|done|by eapply (Hl0 [b]), queue_contents|done]. }
  { done. }
  cbn [app] in I2, R2. fold c in I2, R2. destruct (Hg _ _ _ E2) as [G2 _]. pose proof (missing_grows _ _ G2).
  eapply (all_fails [(queue, [b; c])] fuel e2 e3); [done|lia|by eapply (Hl0 [b; c]), queue_contents|done| | |done].
  - by intros s pre [= -> ->]%elem_of_list_singleton.
  - assert (Hnv : ∀ v, v ∉ included e → v ≠ queue → mem v (cl "private/container/spsc_queue_base.hpp") = false →
      mem v (cl "container/container_policy.hpp") = false → v ∉ included e2).
    { intros v Hv' Hva H1 H2. eapply not_brought; [exact E2|apply is_header; by_vm| |done].
      eapply not_brought; [exact E1|apply is_header; by_vm| |done]. cbn. intros [-> |?]%elem_of_cons; done. }
    destruct Hv as [Hv|Hv]; [left|right]; apply Hnv; done || by_vm.
Qed.

Lemma brings_destroy e h : inv [] e → h ∈ included e → declares_ranges h → "ranges/destroy.hpp" ∈ included e.
Proof.
  intros Hi Hh Hd.
  assert (Hs : ∀ x y, mem y (incs x) = true → x ∈ included e → y ∈ included e).
  { intros x y Hy%mem_spec%incs_spec Hx. by apply (read_all e x Hi Hx _ Hy). }
  assert (Ha : "container/array.hpp" ∈ included e → "ranges/destroy.hpp" ∈ included e) by (apply Hs; by_vm).
  destruct Hd as [-> |[-> |[-> |[-> |[-> | ->]]]]]; [done| |by apply Ha|..].
  - revert Hh. apply Hs. by_vm.
  - apply Ha. revert Hh. apply Hs. by_vm.
  - apply Ha. revert Hh. apply Hs. by_vm.
  - apply Ha. apply (Hs all); [by_vm|]. revert Hh. apply Hs. by_vm.
Qed.

Definition follows (pre : list string) (h : string) : bool :=
  (negb (mem h [view; list_]) || mem h pre || negb (existsb (λ o, mem o openers) pre)) &&
  (negb (mem h [all; queue]) || (mem view pre && mem list_ pre)).
Lemma follows_spec pre h : follows pre h = true ↔ may_follow pre h.
Proof.
  unfold follows, may_follow. rewrite andb_true_iff, !orb_true_iff, !negb_true_iff, !mem_false, andb_true_iff, !mem_spec.
  assert (E : existsb (λ o, mem o openers) pre = false ↔ ∀ o, o ∈ pre → ¬ declares_ranges o).
  { split.
    - intros Hn o Ho Hd%openers_spec%mem_spec. assert (existsb (λ o, mem o openers) pre = true); [|congruence].
      apply existsb_exists. exists o. by rewrite <- elem_of_list_In.
    - intros Hn. destruct (existsb _ _) eqn:E; [|done]. apply existsb_exists in E as (o & Ho%elem_of_list_In & Hd).
      apply mem_spec, openers_spec in Hd. by destruct (Hn o Ho). }
  rewrite E, !elem_of_cons, elem_of_nil. destruct (decide (h = view ∨ h = list_)), (decide (h = all ∨ h = queue)); tauto.
Qed.

Lemma include_step pre h e :
  after pre e → h ∈ headers →
  match file (length headers) h e with
  | Fine e' => may_follow pre h ∧ after (pre ++ [h]) e'
  | Stopped w => w = HiddenNamespace ∧ ¬ may_follow pre h
  end.
Proof.
  intros (Hi & Hm & Hv & Hp & Hr) Hh. pose proof (file_good h e Hh Hi Hm) as Hgood.
  destruct (facts h Hh) as (C1 & C2 & C3 & C4 & C5 & C6).
  assert (Hsafe : may_follow pre h → file (length headers) h e ≠ Stopped HiddenNamespace).
  { intros [S1 S2]. destruct (decide (h ∈ pre)) as [Hin|Hin].
    { rewrite (proj2 (mem_spec _ _) (Hp h Hin)) || (destruct (length headers); cbn; by rewrite (proj2 (mem_spec _ _) (Hp h Hin))). }
    destruct (decide (h = view ∨ h = list_)) as [Hvl|Hvl].
    - destruct (S1 Hvl) as [?|Hno]; [done|]. pose proof (file_no_openers (cl h) (length headers) h e C1 C2) as H.
      destruct (file _ _ _) as [|w]; [done|]. intros [= ->]. apply H; [| |done].
      + intros x Hx Ho. destruct Hvl as [-> | ->]; specialize (C3 x Hx Ho); by unfold declares_ranges in C3; destruct_or?.
      + destruct (xme_ranges e) eqn:E; [|done]. destruct (proj1 Hr eq_refl) as (o & Ho & Hd). by destruct (Hno o Ho).
    - apply (file_no_users (cl h)); [done..|]. intros x Hx Hu. destruct (C5 x Hx Hu) as [Hx' Hh'].
      assert (Haq : h = all ∨ h = queue) by tauto. destruct (S2 Haq). destruct Hx' as [-> | ->]; by apply Hp. }
  destruct (file (length headers) h e) as [e'|w] eqn:E.
  - destruct Hgood as [Hi' Hm']. destruct (file_grows _ _ _ _ E) as [Hg Hin'].
    assert (Hmf : may_follow pre h).
    { split.
      - intros Hvl. destruct (decide (h ∈ pre)) as [|Hn]; [by left|]. right. intros o Ho Hd.
        assert (Hre : xme_ranges e = true) by (apply Hr; eauto).
        refine (file_user _ _ _ _ Hre _ _ E); [|by intros ?; apply Hn, Hv].
        destruct Hvl as [-> | ->]; apply elem_of_list_In; vm_compute; auto 12.
      - intros Haq. destruct (decide (view ∈ included e)) as [H1|H1], (decide (list_ ∈ included e)) as [H2|H2];
          [split; apply Hv; auto|..]; exfalso; destruct Haq as [-> | ->];
          (refine (all_fails [] _ _ _ Hi (missing_bound e) _ Hm _ _ E) || refine (queue_fails _ _ _ Hi (missing_bound e) Hm _ E));
          try (intros ? ? Hx; by apply elem_of_nil in Hx); auto. }
    split; [done|]. split_and!; try done.
    + intros v Hvl Hin. destruct (file_brings (cl h) _ h e e' C1 C2 E v Hin) as [H|H]; [apply elem_of_app; left; by apply Hv|].
      apply elem_of_app. destruct (C6 v Hvl H) as [-> |Haq]; [right; by left|]. left. destruct (proj2 Hmf Haq). by destruct Hvl as [-> | ->].
    + intros x [Hx|Hx]%elem_of_app; [by apply (proj1 Hg), Hp|]. by apply elem_of_list_singleton in Hx as ->.
    + split.
      * intros Hre. destruct (xme_ranges e) eqn:Er.
        { destruct (proj1 Hr eq_refl) as (o & Ho & Hd). exists o. split; [apply elem_of_app; by left|done]. }
        destruct (decide (h ∈ openers)) as [Hd%openers_spec|Hd]; [exists h; split; [apply elem_of_app; right; by left|done]|].
        pose proof (file_no_openers (cl h) (length headers) h e C1 C2) as H. rewrite E in H. rewrite H in Hre; [done| |done].
        intros x Hx Ho. by apply Hd, openers_spec, (C3 x).
      * intros (o & [Ho|Ho]%elem_of_app & Hd); [apply Hg, Hr; eauto|]. apply elem_of_list_singleton in Ho as ->.
        eapply opened; [done| |].
        { intros s pre' Hs. by apply elem_of_nil in Hs. }
        by eapply brings_destroy.
  - cbn in Hgood. subst w. split; [done|]. intros Hmf. by destruct (Hsafe Hmf).
Qed.
Lemma includes_after hs : ∀ pre e,
  after pre e → (∀ h, h ∈ hs → h ∈ headers) →
  match includes hs e with
  | Fine e' => after (pre ++ hs) e' ∧ ∀ p h s, hs = (p ++ h :: s)%list → may_follow (pre ++ p) h
  | Stopped w => w = HiddenNamespace ∧ ∃ p h s, hs = (p ++ h :: s)%list ∧ ¬ may_follow (pre ++ p) h
  end.
Proof.
  induction hs as [|h hs IH]; intros pre e Ha Hh; cbn.
  { rewrite app_nil_r. split; [done|]. intros p h suf H; by destruct p. }
  assert (Hh0 : h ∈ headers) by (apply Hh; by left). pose proof (include_step pre h e Ha Hh0) as Hs.
  destruct (file (length headers) h e) as [e1|w]; cbn [then_].
  - destruct Hs as [Hm Ha1]. assert (Hh1 : ∀ x, x ∈ hs → x ∈ headers) by (intros; apply Hh; by right).
    specialize (IH (pre ++ [h])%list e1 Ha1 Hh1). rewrite <- (app_assoc pre [h] hs) in IH. cbn [app] in IH.
    destruct (includes hs e1) as [e2|w].
    + destruct IH as [Ha2 IH]. split; [done|]. intros [|x p] y suf; cbn; intros [= <- E]; [by rewrite app_nil_r|].
      specialize (IH p y suf E). by rewrite <- app_assoc in IH.
    + destruct IH as (-> & p & y & s & -> & Hn). split; [done|]. exists (h :: p), y, s. split; [done|]. by rewrite <- app_assoc in Hn.
  - destruct Hs as [-> Hn]. split; [done|]. exists [], h, hs. split; [done|]. by rewrite app_nil_r.
Qed.
Lemma after_start : after [] start.
Proof.
  split_and!.
  - intros h Hh. by apply elem_of_nil in Hh.
  - done.
  - intros v _ Hh. by apply elem_of_nil in Hh.
  - intros h Hh. by apply elem_of_nil in Hh.
  - split; [done|]. intros (o & Ho & _). by apply elem_of_nil in Ho.
Qed.

(** ** Theorems *)

(** Which sequences of #include directives compile: exactly those in which array_view.hpp and
    linked_list.hpp come before everything that declares namespace xme::ranges. *)
Theorem include_order_exact hs : (∀ h, h ∈ hs → h ∈ headers) → (compiles hs = true ↔ good_order hs).
Proof.
  intros Hh. pose proof (includes_after hs [] start after_start Hh) as H. unfold compiles. destruct (includes hs start) as [e|w].
  - destruct H as [_ H]. split; [|done]. intros _ pre h suf E. by apply H in E.
  - destruct H as (_ & p & h & s & E & Hn). split; [done|]. intros Hg. by destruct Hn, (Hg p h s E).
Qed.
Example include_order_exact_case :
  let hs := [view; "math/math.hpp"; list_; "container/heap.hpp"; view; queue; all; "core/functional/bind.hpp"] in
  (∀ h, h ∈ hs → h ∈ headers) ∧ good_order hs ∧ compiles hs = true ∧
  compiles ["math/math.hpp"; list_; "container/heap.hpp"; view] = false.
Proof.
  assert (H : ∀ h, h ∈ [view; "math/math.hpp"; list_; "container/heap.hpp"; view; queue; all; "core/functional/bind.hpp"] → h ∈ headers).
  { intros h Hh. apply mem_spec. repeat (apply elem_of_cons in Hh as [-> |Hh]; [by_vm|]). by apply elem_of_nil in Hh. }
  assert (C : compiles [view; "math/math.hpp"; list_; "container/heap.hpp"; view; queue; all; "core/functional/bind.hpp"] = true) by by_vm.
  split_and!; [done|by apply include_order_exact|done|by_vm].
Qed.

(** The hidden namespace is the only thing that can go wrong: the files exist, every name is
    declared where it is used, no macro is defined twice; and afterwards the macros are gone
    and what the headers declare is declared. *)
Theorem include_names_declared hs :
  (∀ h, h ∈ hs → h ∈ headers) →
  match includes hs start with
  | Fine e => macros e = [] ∧ (∀ h n, h ∈ hs → Declares n ∈ contents h → n ∈ declared e) ∧
              (∀ h y n, h ∈ hs → Include y ∈ contents h → Declares n ∈ contents y → n ∈ declared e)
  | Stopped w => w = HiddenNamespace
  end.
Proof.
  intros Hh. pose proof (includes_after hs [] start after_start Hh) as H. destruct (includes hs start) as [e|w]; [|by destruct H].
  destruct H as [(Hi & Hm & _ & Hp & _) _]. split_and!; [done|..].
  - intros h n Hin Hd. by apply (read_all e h Hi (Hp h Hin) _ Hd).
  - intros h y n Hin Hy Hd. pose proof (read_all e h Hi (Hp h Hin) _ Hy) as Hy'. cbn in Hy'. by apply (read_all e y Hi Hy' _ Hd).
Qed.
Example include_names_declared_case :
  match includes ["math/math.hpp"; "core/functional/bind.hpp"; "container/array.hpp"] start with
  | Fine e => macros e = [] ∧ forallb (λ n, mem n (declared e)) ["Tuple"; "Array"; "Pair"; "dot"; "mix"; "bind_back"] = true ∧
              mem "LinkedList" (declared e) = false
  | Stopped _ => False
  end.
Proof. vm_compute. done. Qed.

(** Every header can be included on its own, and every two headers in both orders, but for the
    four. *)
Theorem headers_any_order_partial hs :
  (∀ h, h ∈ hs → h ∈ headers ∧ h ≠ view ∧ h ≠ list_ ∧ h ≠ all ∧ h ≠ queue) → compiles hs = true.
Proof.
  intros Hh. apply include_order_exact; [intros; by apply Hh|]. intros pre h suf ->.
  destruct (Hh h) as (_ & H1 & H2 & H3 & H4); [apply elem_of_app; right; by left|]. split; tauto.
Qed.
Example headers_any_order_case :
  compiles ["container/heap.hpp"; "container/array.hpp"; "math/glsl_mapping.hpp"; "math/matrices/matrix4x4.hpp"; "core/iterators/const_iterator.hpp"] = true ∧
  compiles ["math/matrices/matrix4x4.hpp"; "core/iterators/const_iterator.hpp"; "math/vectors/vector3.hpp"; "container/array.hpp"; "math/math.hpp"] = true.
Proof. split; by_vm. Qed.
Theorem header_alone_partial h : h ∈ headers → h ≠ all → h ≠ queue → compiles [h] = true.
Proof.
  intros Hh H1 H2. apply include_order_exact; [intros x Hx; by apply elem_of_list_singleton in Hx as ->|].
  intros [|? [|]] y suf; cbn; intros [= <- E]; try discriminate E. split; [|tauto]. intros _. right. intros o Ho. by apply elem_of_nil in Ho.
Qed.
Example header_alone_case : compiles [view] = true ∧ compiles ["math/math.hpp"] = true ∧ compiles ["container/array.hpp"] = true.
Proof. split_and!; by_vm. Qed.

(** What fails: container.hpp and spsc_queue.hpp cannot be included on their own, and the order
    of array.hpp and linked_list.hpp matters. *)
Theorem headers_any_order_refuted :
  (∃ h, h ∈ headers ∧ compiles [h] = false) ∧
  (∃ hs hs', (∀ h, h ∈ hs → h ∈ headers) ∧ hs ≡ₚ hs' ∧ compiles hs = true ∧ compiles hs' = false) ∧
  includes [all] start = Stopped HiddenNamespace ∧ includes [queue] start = Stopped HiddenNamespace ∧
  compiles [view; list_; queue] = true.
Proof.
  split_and!.
  - exists all. split; [apply is_header; by_vm|by_vm].
  - exists [list_; "container/array.hpp"], ["container/array.hpp"; list_]. split_and!; [|by apply Permutation_swap|by_vm..].
    intros h Hh. apply is_header. repeat (apply elem_of_cons in Hh as [-> |Hh]; [by_vm|]). by apply elem_of_nil in Hh.
  - by_vm.
  - by_vm.
  - by_vm.
Qed.

(** The modules: all but one compile and export what they list. *)
Theorem modules_export_partial m :
  m ∈ ["xme.math"; "xme.functional"; "xme.iterators"; "xme.utility"] → exports m = Some (snd (module_ m)).
Proof. intros H. repeat (apply elem_of_cons in H as [-> |H]; [by_vm|]). by apply elem_of_nil in H. Qed.
Example modules_export_case : exports "xme.functional" = Some ["bind_front"; "bind_back"; "Delegate"].
Proof. by_vm. Qed.
Theorem modules_export_refuted : exports "xme.container" = None ∧ snd (module_ "xme.container") ≠ [].
Proof. split; [by_vm|done]. Qed.

Definition include_theorems := (include_order_exact, include_names_declared, headers_any_order_partial, header_alone_partial,
  headers_any_order_refuted, modules_export_partial, modules_export_refuted).
Print Assumptions include_theorems.
