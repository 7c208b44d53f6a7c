(** The invariant of xme::SPSCQueue executions and the proof that every step
    preserves it. *)
From stdpp Require Import list.
From Coq Require Import ZArith Lia.
From Verif Require Import Base Client SpscModel SpscSpec SpscArith.

Section inv.
Context {V : Type} (nd : bool) (cap : nat) (Hcap : pow2 cap).
Notation log := (list (op V * outcome (out V))).
Notation idx := (idx cap).
Notation zc := (Z.of_nat cap).
Notation nxt := (next_index zc).

Lemma pushed_app (l1 l2 : log) : pushed (l1 ++ l2) = pushed l1 ++ pushed l2.
Proof.
  induction l1 as [|[o r] l1 IH]; [done|]. simpl. destruct o, r as [[[]| | |]|]; simpl; by rewrite ?IH.
Qed.
Lemma removed_app (l1 l2 : log) : removed (l1 ++ l2) = removed l1 ++ removed l2.
Proof.
  induction l1 as [|[o r] l1 IH]; [done|]. simpl. destruct o, r as [[[]| | |]|]; simpl; by rewrite ?IH.
Qed.

(** ** Shared state *)
Notation ol := (λ inf : option V, match inf with Some v => [v] | None => [] end).
Record qinv (hW hR : list msg) (sl : list (slot V)) (pv cv : view) (mk gn : nat)
    (pl : list V) (rl : list (option (option V))) (sp : Prop) (inf : option V) (d hm : bool) : Prop := QInv {
  q_hW : length hW = S (length pl);
  q_hR : length hR = S (length rl);
  q_mW : ∀ k x, hW !! k = Some x → mval x = idx k ∧ ∃ w, mview x = Some w ∧ vW w = k ∧ vR w ≤ length rl;
  q_mR : ∀ k x, hR !! k = Some x → mval x = idx k ∧ ∃ w, mview x = Some w ∧ vR w = k ∧ vW w ≤ length pl;
  q_pv : vW pv = length pl ∧ vR pv ≤ length rl ∧ length pl + 1 ≤ vR pv + cap;
  q_cv : vR cv = length rl ∧ vW cv ≤ length pl;
  q_mn : length rl + Nat.b2n d ≤ length pl;
  q_len : length sl = cap;
  q_live : ∀ i v, length rl + Nat.b2n d ≤ i → (pl ++ ol inf) !! i = Some v →
    ∃ x, sl !! (i mod cap) = Some x ∧ (scell x = Live v ∨ i = length rl ∧ hm = true ∧ scell x = Moved);
  q_raw : ∀ q x, sl !! q = Some x → scell x = Raw ∨
    ∃ i, length rl + Nat.b2n d ≤ i < length (pl ++ ol inf) ∧ q = i mod cap;
  q_mk : mk = length (pl ++ ol inf);
  q_gn : gn = length rl + Nat.b2n d;
  q_acc : ∀ q x, sl !! q = Some x → sP x ≤ kP pv ∧ sC x ≤ kC cv;
  q_raceC : ∀ q x k y w, sl !! q = Some x → hW !! k = Some y → mview y = Some w →
    sP x ≤ kP w ∨ ∃ i, k ≤ i ≤ length pl ∧ q = i mod cap;
  q_raceP : ∀ q x k y w, sl !! q = Some x → hR !! k = Some y → mview y = Some w →
    sC x ≤ kC w ∨ ∃ i, k ≤ i ≤ length rl ∧ i < length pl ∧ q = i mod cap;
  q_fifo : ∀ i x, rl !! i = Some (Some x) → x = pl !! i ∨ x = None ∧ sp
}.

Lemma qinv_pview hW hR sl pv pv' cv mk gn pl rl sp inf d hm :
  qinv hW hR sl pv cv mk gn pl rl sp inf d hm →
  vW pv' = length pl → vR pv ≤ vR pv' ≤ length rl → kP pv ≤ kP pv' →
  qinv hW hR sl pv' cv mk gn pl rl sp inf d hm.
Proof.
  intros [] ? ? ?. split; try done.
  - lia.
  - intros q x Hx. destruct (q_acc0 q x Hx). lia.
Qed.
Lemma qinv_cview hW hR sl pv cv cv' mk gn pl rl sp inf d hm :
  qinv hW hR sl pv cv mk gn pl rl sp inf d hm →
  vR cv' = length rl → vW cv' ≤ length pl → kC cv ≤ kC cv' →
  qinv hW hR sl pv cv' mk gn pl rl sp inf d hm.
Proof.
  intros [] ? ? ?. split; try done.
  intros q x Hx. destruct (q_acc0 q x Hx). lia.
Qed.
Lemma qinv_sp hW hR sl pv cv mk gn pl rl (sp sp' : Prop) inf d hm :
  (sp → sp') → qinv hW hR sl pv cv mk gn pl rl sp inf d hm → qinv hW hR sl pv cv mk gn pl rl sp' inf d hm.
Proof. intros ? []. split; try done. intros i x Hx. destruct (q_fifo0 i x Hx) as [|[]]; auto. Qed.

Lemma mod_lt i : i mod cap < cap.
Proof. apply Nat.mod_upper_bound. pose proof (cap_pos cap Hcap). lia. Qed.

(** Publishing the constructed element. *)
Lemma qinv_publish hW hR sl pv pv' cv mk gn pl rl sp v d hm :
  qinv hW hR sl pv cv mk gn pl rl sp (Some v) d hm →
  length pl + 2 ≤ vR pv + cap →
  pv' = see W (S (length pl)) (tick P pv) →
  qinv (hW ++ [Msg (idx (S (length pl))) (Some pv')]) hR sl pv' cv mk gn (pl ++ [v]) rl sp None d hm.
Proof.
  intros [] Hroom ->. split; rewrite ?app_length; simpl; try done; try lia.
  - intros k x Hk. apply lookup_app_Some in Hk as [Hk|[Hk1 Hk2]]; [by apply q_mW0|].
    destruct (k - length hW) as [|j] eqn:E; [|done]. injection Hk2 as <-. simpl.
    assert (k = S (length pl)) as -> by lia. split; [done|]. eexists. split; [done|]. simpl. lia.
  - intros k x Hk. destruct (q_mR0 k x Hk) as (? & w & ? & ? & ?). split; [done|]. exists w. split_and!; [done|done|lia].
  - rewrite app_nil_r. done.
  - intros q x Hx. destruct (q_raw0 q x Hx) as [|(i & ? & ?)]; [by left|right].
    rewrite app_length in *. simpl in *. exists i. split; [lia|done].
  - rewrite q_mk0, app_length. simpl. lia.
  - intros q x Hx. destruct (q_acc0 q x Hx). lia.
  - intros q x k y w Hx Hk Hw. apply lookup_app_Some in Hk as [Hk|[Hk1 Hk2]].
    + destruct (q_raceC0 q x k y w Hx Hk Hw) as [|(i & ? & ?)]; [by left|right]. exists i. split; [lia|done].
    + destruct (k - length hW) as [|j] eqn:E; [|done]. injection Hk2 as <-. simpl in Hw. injection Hw as <-. simpl.
      left. destruct (q_acc0 q x Hx). lia.
  - intros q x k y w Hx Hk Hw. destruct (q_raceP0 q x k y w Hx Hk Hw) as [|(i & ? & ? & ?)]; [by left|right].
    exists i. split_and!; [lia|lia|lia|done].
  - intros i x Hi. destruct (q_fifo0 i x Hi) as [->|]; [left|by right].
    apply lookup_lt_Some in Hi. rewrite lookup_app_l by lia. done.
Qed.

(** Constructing in the slot of the next push. *)
Lemma qinv_construct hW hR sl pv cv mk gn pl rl sp d hm v a y yw :
  qinv hW hR sl pv cv mk gn pl rl sp None d hm →
  hR !! a = Some y → mview y = Some yw → kC yw ≤ kC pv → length pl + 2 ≤ a + cap → a ≤ vR pv →
  ∃ x, sl !! (length pl mod cap) = Some x ∧ scell x = Raw ∧ sC x ≤ kC pv ∧
    (qinv hW hR (<[length pl mod cap := Slot (Live v) (S (kP pv)) (sC x)]> sl) (tick P pv) cv (S mk) gn pl rl sp (Some v) d hm ∧
     qinv hW hR (<[length pl mod cap := Slot Raw (S (kP pv)) (sC x)]> sl) (tick P pv) cv mk gn pl rl sp None d hm).
Proof.
  intros H Ha Hy Hk Hroom Hav. pose proof H as [].
  assert (Hq : length pl mod cap < length sl) by (rewrite q_len0; apply mod_lt).
  destruct (lookup_lt_is_Some_2 sl _ Hq) as [x Hx]. exists x. split; [done|].
  assert (Hraw : scell x = Raw).
  { destruct (q_raw0 _ x Hx) as [|(i & Hi & E)]; [done|]. exfalso. rewrite app_nil_r in Hi.
    apply (mod_window cap Hcap) in E; lia || idtac. symmetry in E. apply (mod_window cap Hcap) in E; lia. }
  assert (HsC : sC x ≤ kC pv).
  { destruct (q_raceP0 _ x a y yw Hx Ha Hy) as [|(i & Hi & Hi2 & E)]; [lia|]. exfalso.
    symmetry in E. apply (mod_window cap Hcap) in E; lia. }
  split; [done|]. split; [done|].
  assert (Hne : ∀ i, length rl + Nat.b2n d ≤ i < length pl → i mod cap ≠ length pl mod cap).
  { intros i Hi E. apply (mod_window cap Hcap) in E; lia. }
  assert (Hsl : ∀ c' q z, <[length pl mod cap := Slot c' (S (kP pv)) (sC x)]> sl !! q = Some z →
     (q = length pl mod cap ∧ z = Slot c' (S (kP pv)) (sC x)) ∨ (q ≠ length pl mod cap ∧ sl !! q = Some z)).
  { intros c' q z Hz. apply list_lookup_insert_Some in Hz as [(<- & <- & _)|[? ?]]; [by left|by right]. }
  split; split; try done; simpl; rewrite ?insert_length; try lia.
  - intros i w Hi Hw. apply lookup_app_Some in Hw as [Hw|[Hw1 Hw2]].
    + destruct (q_live0 i w Hi) as (z & Hz & Hc); [by rewrite app_nil_r|]. exists z. split; [|done].
      rewrite list_lookup_insert_ne; [done|]. apply not_eq_sym, Hne. apply lookup_lt_Some in Hw. lia.
    + destruct (i - length pl) as [|j] eqn:E; [|done]. injection Hw2 as <-. assert (i = length pl) as -> by lia.
      eexists. split; [by apply list_lookup_insert|]. by left.
  - intros q z Hz. apply Hsl in Hz as [[-> ->]|[Hq' Hz]].
    + right. exists (length pl). rewrite app_length. simpl. split; [lia|done].
    + destruct (q_raw0 q z Hz) as [|(i & Hi & E)]; [by left|right]. exists i. rewrite app_nil_r in Hi. rewrite app_length. simpl.
      split; [lia|done].
  - rewrite q_mk0, app_nil_r, app_length. simpl. lia.
  - intros q z Hz. apply Hsl in Hz as [[-> ->]|[Hq' Hz]]; simpl; [destruct (q_acc0 _ _ Hx); lia|destruct (q_acc0 _ _ Hz); lia].
  - intros q z k y0 w Hz Hk0 Hw. apply Hsl in Hz as [[-> ->]|[Hq' Hz]]; simpl.
    + right. exists (length pl). apply lookup_lt_Some in Hk0. split; [lia|done].
    + by apply (q_raceC0 q z k y0 w).
  - intros q z k y0 w Hz Hk0 Hw. apply Hsl in Hz as [[-> ->]|[Hq' Hz]]; simpl.
    + by apply (q_raceP0 _ x k y0 w).
    + by apply (q_raceP0 q z k y0 w).
  - intros i w Hi Hw. destruct (q_live0 i w Hi Hw) as (z & Hz & Hc). exists z. split; [|done].
    rewrite list_lookup_insert_ne; [done|]. apply not_eq_sym, Hne. apply lookup_lt_Some in Hw. rewrite app_nil_r in Hw. lia.
  - intros q z Hz. apply Hsl in Hz as [[-> ->]|[Hq' Hz]]; [by left|by apply q_raw0].
  - intros q z Hz. apply Hsl in Hz as [[-> ->]|[Hq' Hz]]; simpl; [destruct (q_acc0 _ _ Hx); lia|destruct (q_acc0 _ _ Hz); lia].
  - intros q z k y0 w Hz Hk0 Hw. apply Hsl in Hz as [[-> ->]|[Hq' Hz]]; simpl.
    + right. exists (length pl). apply lookup_lt_Some in Hk0. split; [lia|done].
    + by apply (q_raceC0 q z k y0 w).
  - intros q z k y0 w Hz Hk0 Hw. apply Hsl in Hz as [[-> ->]|[Hq' Hz]]; simpl.
    + by apply (q_raceP0 _ x k y0 w).
    + by apply (q_raceP0 q z k y0 w).
Qed.

(** The consumer's access to the oldest element. *)
Lemma qinv_head_gen hW hR sl pv cv mk gn pl rl sp inf hm :
  qinv hW hR sl pv cv mk gn pl rl sp inf false hm → length rl < length pl →
  (∀ x, sl !! (length rl mod cap) = Some x → sP x ≤ kP cv) →
  ∃ x v, sl !! (length rl mod cap) = Some x ∧ pl !! length rl = Some v ∧
    (scell x = Live v ∨ hm = true ∧ scell x = Moved) ∧ sP x ≤ kP cv ∧
    (∀ c', c' = scell x ∨ c' = Moved →
       qinv hW hR (<[length rl mod cap := Slot c' (sP x) (S (kC cv))]> sl) pv (tick C cv) mk gn pl rl sp inf false
         (match c' with Moved => true | _ => hm end)) ∧
    qinv hW hR (<[length rl mod cap := Slot Raw (sP x) (S (kC cv))]> sl) pv (tick C cv) mk (S gn) pl rl sp inf true hm.
Proof.
  intros H Hlt HsP. pose proof H as [].
  destruct (lookup_lt_is_Some_2 pl (length rl)) as [v Hv]; [lia|].
  destruct (q_live0 (length rl) v) as (x & Hx & Hc); [simpl; lia|by apply lookup_app_l_Some|].
  exists x, v. split; [done|]. split; [done|]. split; [naive_solver|]. split; [by apply HsP|].
  assert (Hlen : length (pl ++ ol inf) ≤ S (length pl)) by (rewrite app_length; destruct inf; simpl; lia).
  assert (Hne : ∀ i, length rl < i < length (pl ++ ol inf) → i mod cap ≠ length rl mod cap).
  { intros i Hi E. symmetry in E. apply (mod_window cap Hcap) in E; lia. }
  assert (Hsl : ∀ c' q z, <[length rl mod cap := Slot c' (sP x) (S (kC cv))]> sl !! q = Some z →
     (q = length rl mod cap ∧ z = Slot c' (sP x) (S (kC cv))) ∨ (q ≠ length rl mod cap ∧ sl !! q = Some z)).
  { intros c' q z Hz. apply list_lookup_insert_Some in Hz as [(<- & <- & _)|[? ?]]; [by left|by right]. }
  assert (Hin : length rl mod cap < length sl) by (rewrite q_len0; apply mod_lt).
  assert (HaC : ∀ c' q z k y0 w, <[length rl mod cap := Slot c' (sP x) (S (kC cv))]> sl !! q = Some z →
    hW !! k = Some y0 → mview y0 = Some w → sP z ≤ kP w ∨ ∃ i, k ≤ i ≤ length pl ∧ q = i mod cap).
  { intros c' q z k y0 w Hz Hk0 Hw. apply Hsl in Hz as [[-> ->]|[Hq' Hz]]; simpl.
    - by apply (q_raceC0 _ x k y0 w). - by apply (q_raceC0 q z k y0 w). }
  assert (HaP : ∀ c' q z k y0 w, <[length rl mod cap := Slot c' (sP x) (S (kC cv))]> sl !! q = Some z →
    hR !! k = Some y0 → mview y0 = Some w → sC z ≤ kC w ∨ ∃ i, k ≤ i ≤ length rl ∧ i < length pl ∧ q = i mod cap).
  { intros c' q z k y0 w Hz Hk0 Hw. apply Hsl in Hz as [[-> ->]|[Hq' Hz]]; simpl.
    - right. exists (length rl). apply lookup_lt_Some in Hk0. split_and!; try done; lia. - by apply (q_raceP0 q z k y0 w). }
  assert (Hac : ∀ c' q z, <[length rl mod cap := Slot c' (sP x) (S (kC cv))]> sl !! q = Some z → sP z ≤ kP pv ∧ sC z ≤ S (kC cv)).
  { intros c' q z Hz. apply Hsl in Hz as [[-> ->]|[Hq' Hz]]; simpl; [destruct (q_acc0 _ _ Hx); lia|destruct (q_acc0 _ _ Hz); lia]. }
  split.
  - intros c' Hc'. split; try done; simpl; rewrite ?insert_length; try lia; eauto.
    + intros i w Hi Hw. destruct (decide (i = length rl)) as [->|Hi'].
      * eexists. split; [by apply list_lookup_insert|]. simpl. rewrite lookup_app_l, Hv in Hw by lia. injection Hw as <-.
        destruct Hc' as [->| ->]; [|by right]. destruct Hc as [->|(_ & -> & ->)]; [by left|by right].
      * destruct (q_live0 i w Hi Hw) as (z & Hz & Hcz). exists z. rewrite list_lookup_insert_ne.
        2:{ apply not_eq_sym, Hne. apply lookup_lt_Some in Hw. simpl in Hi. lia. }
        split; [done|]. destruct Hcz as [|(? & ?)]; [by left|done].
    + intros q z Hz. apply Hsl in Hz as [[-> ->]|[Hq' Hz]]; [|by apply q_raw0].
      right. exists (length rl). rewrite app_length. simpl. split; [lia|done].
  - split; try done; simpl; rewrite ?insert_length; try lia; eauto.
    + intros i w Hi Hw. destruct (q_live0 i w) as (z & Hz & Hcz); [simpl; lia|done|]. exists z. rewrite list_lookup_insert_ne.
      2:{ apply not_eq_sym, Hne. apply lookup_lt_Some in Hw. lia. }
      split; [done|]. destruct Hcz as [|(? & ?)]; [by left|lia].
    + intros q z Hz. apply Hsl in Hz as [[-> ->]|[Hq' Hz]]; [by left|].
      destruct (q_raw0 q z Hz) as [|(i & Hi & E)]; [by left|right]. simpl in Hi.
      exists i. split; [|done]. destruct (decide (i = length rl)); [subst; done|lia].
    + simpl in q_gn0. lia.
Qed.

Lemma qinv_head hW hR sl pv cv mk gn pl rl sp inf hm a y yw :
  qinv hW hR sl pv cv mk gn pl rl sp inf false hm →
  hW !! a = Some y → mview y = Some yw → kP yw ≤ kP cv → length rl < a →
  ∃ x v, sl !! (length rl mod cap) = Some x ∧ pl !! length rl = Some v ∧
    (scell x = Live v ∨ hm = true ∧ scell x = Moved) ∧ sP x ≤ kP cv ∧
    (∀ c', c' = scell x ∨ c' = Moved →
       qinv hW hR (<[length rl mod cap := Slot c' (sP x) (S (kC cv))]> sl) pv (tick C cv) mk gn pl rl sp inf false
         (match c' with Moved => true | _ => hm end)) ∧
    qinv hW hR (<[length rl mod cap := Slot Raw (sP x) (S (kC cv))]> sl) pv (tick C cv) mk (S gn) pl rl sp inf true hm.
Proof.
  intros H Ha Hy Hk Hlt. pose proof H as [].
  assert (Han : a ≤ length pl) by (apply lookup_lt_Some in Ha; lia).
  apply qinv_head_gen; [done|lia|]. intros x Hx.
  destruct (q_raceC0 _ x a y yw Hx Ha Hy) as [|(i & Hi & E)]; [lia|]. exfalso.
  apply (mod_window cap Hcap) in E; lia.
Qed.

(** Publishing the removal. *)
Lemma qinv_remove hW hR sl pv cv cv' mk gn pl rl (sp sp' : Prop) inf hm x :
  qinv hW hR sl pv cv mk gn pl rl sp inf true hm →
  (∀ y, x = Some y → y = pl !! length rl ∨ y = None ∧ sp') → (sp → sp') →
  cv' = see R (S (length rl)) (tick C cv) →
  qinv hW (hR ++ [Msg (idx (S (length rl))) (Some cv')]) sl pv cv' mk gn pl (rl ++ [x]) sp' inf false false.
Proof.
  intros [] Hx Hsp ->. simpl in *. split; rewrite ?app_length; simpl; try done; try lia.
  - intros k z Hk. destruct (q_mW0 k z Hk) as (? & w & ? & ? & ?). split; [done|]. exists w. split_and!; [done|done|lia].
  - intros k z Hk. apply lookup_app_Some in Hk as [Hk|[Hk1 Hk2]]; [by apply q_mR0|].
    destruct (k - length hR) as [|j] eqn:E; [|done]. injection Hk2 as <-. simpl.
    assert (k = S (length rl)) as -> by lia. split; [done|]. eexists. split; [done|]. simpl. lia.
  - intros i v Hi Hv. destruct (q_live0 i v) as (z & Hz & Hc); [lia|done|]. exists z. split; [done|].
    destruct Hc as [|(? & ?)]; [by left|lia].
  - intros q z Hz. destruct (q_raw0 q z Hz) as [|(i & Hi & E)]; [by left|right]. rewrite app_length in Hi. exists i. split; [lia|done].
  - by rewrite q_mk0, app_length.
  - intros q z Hz. destruct (q_acc0 q z Hz). lia.
  - intros q z k y w Hz Hk Hw. apply lookup_app_Some in Hk as [Hk|[Hk1 Hk2]].
    + destruct (q_raceP0 q z k y w Hz Hk Hw) as [|(i & ? & ? & ?)]; [by left|right]. exists i. split_and!; try done; lia.
    + destruct (k - length hR) as [|j] eqn:E; [|done]. injection Hk2 as <-. simpl in Hw. injection Hw as <-. simpl.
      left. destruct (q_acc0 q z Hz). lia.
  - intros i y Hi. apply lookup_app_Some in Hi as [Hi|[Hi1 Hi2]].
    + destruct (q_fifo0 i y Hi) as [|[]]; auto.
    + destruct (i - length rl) as [|j] eqn:E; [|done]. injection Hi2 as ->. assert (i = length rl) as -> by lia. by apply Hx.
Qed.
End inv.
