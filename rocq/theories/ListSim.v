(** LinkedList: the memory represents the abstract state, and every call
    preserves that. *)
From stdpp Require Import list.
From Coq Require Import Lia.
From Verif Require Import Base Client ListModel ListSpec ListRun ListPrim ListChain ListChain2.

Section sim.
Context {V : Type}.
Implicit Types (s : st V) (n m i j : nat) (p q : pos) (xs ys a b c : list (nat * V)) (σ : ast V).
Local Arguments new_nodes : simpl never.

(** [w n]: who owns node [n]: a list, nobody ([Some None]: leaked), or it is not
    allocated. *)
Record rep s σ (w : nat → option (option nat)) : Prop := Rep {
  rp_len : length (heads s) = length (ls σ);
  rp_dead : ∀ i, ls σ !! i = Some None → nextof s (Head i) = None;
  rp_own : ∀ i xs, ls σ !! i = Some (Some xs) → owned s i xs;
  rp_w : ∀ i xs n, ls σ !! i = Some (Some xs) → n ∈ xs.*1 ↔ w n = Some (Some i);
  rp_wi : ∀ n i, w n = Some (Some i) → ∃ xs, ls σ !! i = Some (Some xs);
  rp_lost : ∀ n, n ∈ lost σ ↔ w n = Some None;
  rp_nodup : NoDup (lost σ);
  rp_live : ∀ n, valof s n = None ↔ w n = None;
  rp_fresh : fresh_id σ = length (nodes s);
  rp_leak : leaked s = 0
}.
Definition R s σ : Prop := ∃ w, rep s σ w.

Lemma get_Some σ i xs : get σ i = Some xs ↔ ls σ !! i = Some (Some xs).
Proof.
  unfold get. destruct (ls σ !! i) as [[ys|]|]; split; congruence.
Qed.
Lemma R_owned s σ i xs : R s σ → get σ i = Some xs → owned s i xs.
Proof. intros [w H] Hg%get_Some. by eapply rp_own. Qed.
Lemma R_fresh s σ : R s σ → fresh_id σ = length (nodes s).
Proof. intros [w H]. by eapply rp_fresh. Qed.
Lemma R_disjoint s σ i j xs ys n : R s σ → get σ i = Some xs → get σ j = Some ys → i ≠ j →
  n ∈ ys.*1 → n ∉ xs.*1.
Proof.
  intros [w H] Hi%get_Some Hj%get_Some Hij Hn Hn2.
  apply (rp_w _ _ _ H i xs n Hi) in Hn2. apply (rp_w _ _ _ H j ys n Hj) in Hn. congruence.
Qed.

Lemma R_upd s s' σ i xs xs' : R s σ → get σ i = Some xs → step_ok s s' i xs xs' →
  R s' (mkA (<[i := Some xs']> (ls σ)) (length (nodes s')) (lost σ)).
Proof.
  intros [w H] Hi%get_Some Hok. assert (Hlt := lookup_lt_Some _ _ _ Hi).
  destruct Hok as [h1 l1 k1 c1 hd1 n1 v1 o1 lv1 sb1].
  assert (Hwlt : ∀ n x, w n = Some x → n < length (nodes s)).
  { intros n x Hw. destruct (valof s n) as [o|] eqn:E; [by eapply valof_lt|].
    apply (rp_live _ _ _ H) in E. congruence. }
  assert (Hother : ∀ n x, w n = Some x → x ≠ Some i → n ∉ xs.*1 ∧ n ∉ xs'.*1).
  { intros n x Hw Hx. assert (Hnx : n ∉ xs.*1).
    { intros Hn. apply (rp_w _ _ _ H i xs n Hi) in Hn. congruence. }
    split; [done|]. intros Hn. destruct (sb1 n Hn) as [?|?]; [done|]. specialize (Hwlt n x Hw). lia. }
  set (w' := λ n, if decide (n ∈ xs'.*1) then Some (Some i) else if decide (n ∈ xs.*1) then None else w n).
  assert (Hw'o : ∀ n x, x ≠ Some i → w' n = Some x ↔ w n = Some x).
  { intros n x Hx. unfold w'. split.
    - case_decide; [congruence|]. case_decide; [done|]. done.
    - intros Hw. destruct (Hother n x Hw Hx). by rewrite !decide_False. }
  exists w'. constructor; simpl.
  - by rewrite insert_length, h1, (rp_len _ _ _ H).
  - intros j Hj. destruct (decide (i = j)) as [<-|Hne]; [by rewrite list_lookup_insert in Hj|].
    rewrite list_lookup_insert_ne in Hj by done. change (nextof s' (Head j) = None).
    rewrite hd1 by done. by apply (rp_dead _ _ _ H).
  - intros j ys Hj. destruct (decide (i = j)) as [<-|Hne].
    + rewrite list_lookup_insert in Hj by done. by injection Hj as <-.
    + rewrite list_lookup_insert_ne in Hj by done. assert (Ho := rp_own _ _ _ H j ys Hj).
      assert (Ho2 := Ho). destruct Ho2 as [Hc Hnd]. split; [|done].
      eapply chain_frame; [exact Hc|by apply hd1|]. intros n Hn.
      assert (Hnl := owned_lt _ _ _ _ Ho Hn).
      assert (Hw : w n = Some (Some j)) by by apply (rp_w _ _ _ H j ys n Hj).
      destruct (Hother n (Some j) Hw) as [Hx _]; [congruence|]. split; [by apply n1|by apply v1].
  - intros j ys n Hj. destruct (decide (i = j)) as [<-|Hne].
    + rewrite list_lookup_insert in Hj by done. injection Hj as <-. unfold w'. split.
      * intros Hn. by rewrite decide_True.
      * case_decide; [done|]. case_decide as Hx; [done|]. intros Hw. apply (rp_w _ _ _ H i xs n Hi) in Hw. done.
    + rewrite list_lookup_insert_ne in Hj by done. rewrite (rp_w _ _ _ H j ys n Hj). symmetry. apply Hw'o. congruence.
  - intros n j Hj. destruct (decide (i = j)) as [<-|Hne].
    + rewrite list_lookup_insert by done. eauto.
    + rewrite list_lookup_insert_ne by done. apply Hw'o in Hj; [|congruence]. by apply (rp_wi _ _ _ H n).
  - intros n. rewrite (rp_lost _ _ _ H). symmetry. by apply Hw'o.
  - apply (rp_nodup _ _ _ H).
  - intros n. unfold w'. case_decide as Hx'.
    + split; [|done]. intros E. destruct o1 as [Hc _]. destruct (chain_live _ _ _ _ _ Hc Hx') as (v & _ & Hv). congruence.
    + case_decide as Hx.
      * split; [done|]. intros _. apply lv1; [by left|done].
      * destruct (decide (n < length (nodes s))) as [Hnl|Hnl].
        -- rewrite v1 by done. apply (rp_live _ _ _ H).
        -- split.
           ++ intros _. apply (rp_live _ _ _ H). apply valof_ge. lia.
           ++ intros _. apply lv1; [right; lia|done].
  - done.
  - rewrite k1. apply (rp_leak _ _ _ H).
Qed.

Lemma R_quiet s s' σ : R s σ → quiet s s' → R s' (mkA (ls σ) (length (nodes s')) (lost σ)).
Proof.
  intros [w H] Hq. exists w. constructor; simpl; try apply H.
  - by rewrite (qt_heads _ _ Hq), (rp_len _ _ _ H).
  - intros i Hi. change (nextof s' (Head i) = None). rewrite (qt_next _ _ Hq). by apply (rp_dead _ _ _ H).
  - intros i xs Hi. eapply owned_quiet; [|done]. by apply (rp_own _ _ _ H).
  - intros n. rewrite (qt_val _ _ Hq). apply (rp_live _ _ _ H).
  - done.
  - rewrite (qt_leak _ _ Hq). apply (rp_leak _ _ _ H).
Qed.
Lemma R_same s s' σ : R s σ → quiet s s' → length (nodes s') = length (nodes s) → R s' σ.
Proof.
  intros HR Hq Hl. assert (H := R_quiet _ _ _ HR Hq). rewrite Hl, <- (R_fresh _ _ HR) in H. by destruct σ.
Qed.

Lemma nextof_push s p : p ≠ Head (length (heads s)) →
  nextof (set_heads (heads s ++ [Some Nul]) s) p = nextof s p.
Proof.
  intros Hp. destruct p as [|i|n]; [done| |done]. simpl.
  assert (i ≠ length (heads s)) by congruence.
  destruct (decide (i < length (heads s))); [by rewrite lookup_app_l|].
  rewrite !lookup_ge_None_2; [done|lia|rewrite app_length; simpl; lia].
Qed.
Lemma R_push s σ : R s σ → R (set_heads (heads s ++ [Some Nul]) s) (add σ []).
Proof.
  intros [w H]. exists w. constructor; simpl; try apply H.
  - rewrite !app_length, (rp_len _ _ _ H). done.
  - intros i Hi. change (nextof (set_heads (heads s ++ [Some Nul]) s) (Head i) = None).
    assert (Hl := lookup_lt_Some _ _ _ Hi). rewrite app_length in Hl. simpl in Hl.
    destruct (decide (i < length (ls σ))).
    + rewrite lookup_app_l in Hi by done. rewrite nextof_push; [by apply (rp_dead _ _ _ H)|].
      rewrite (rp_len _ _ _ H). intros [= ->]. lia.
    + rewrite lookup_app_r in Hi by lia. replace (i - length (ls σ)) with 0 in Hi by lia. done.
  - intros i xs Hi. assert (Hl := lookup_lt_Some _ _ _ Hi). rewrite app_length in Hl. simpl in Hl.
    destruct (decide (i < length (ls σ))).
    + rewrite lookup_app_l in Hi by done. destruct (rp_own _ _ _ H i xs Hi) as [Hc Hnd]. split; [|done].
      eapply chain_frame; [exact Hc| |].
      * apply nextof_push. rewrite (rp_len _ _ _ H). intros [= ->]. lia.
      * done.
    + rewrite lookup_app_r in Hi by lia. replace (i - length (ls σ)) with 0 in Hi by lia. injection Hi as <-.
      assert (i = length (heads s)) as -> by (rewrite (rp_len _ _ _ H); lia).
      split; [|apply NoDup_nil_2]. split; [|done]. simpl. by rewrite list_lookup_middle.
  - intros i xs n Hi. assert (Hl := lookup_lt_Some _ _ _ Hi). rewrite app_length in Hl. simpl in Hl.
    destruct (decide (i < length (ls σ))).
    + rewrite lookup_app_l in Hi by done. by apply (rp_w _ _ _ H).
    + rewrite lookup_app_r in Hi by lia. replace (i - length (ls σ)) with 0 in Hi by lia. injection Hi as <-.
      simpl. split; [by intros ?%elem_of_nil|]. intros (xs & Hx)%(rp_wi _ _ _ H). apply lookup_lt_Some in Hx. lia.
  - intros n i Hw. destruct (rp_wi _ _ _ H n i Hw) as (xs & Hx). exists xs.
    rewrite lookup_app_l; [done|]. by eapply lookup_lt_Some.
Qed.

(** The object disappears without its destructor having run. *)
Lemma R_abandon s l xs k lo :
  R s (mkA (l ++ [Some xs]) k lo) →
  R (set_heads (take (length (heads s) - 1) (heads s)) s) (mkA l k (xs.*1 ++ lo)).
Proof.
  intros [w H]. assert (Hlen := rp_len _ _ _ H). simpl in Hlen. rewrite app_length in Hlen. simpl in Hlen.
  set (s' := set_heads (take (length (heads s) - 1) (heads s)) s).
  assert (Hxs : (l ++ [Some xs]) !! length l = Some (Some xs)) by by apply list_lookup_middle.
  assert (Hnx : ∀ p, p ≠ Head (length l) → nextof s' p = nextof s p).
  { intros [|i|n] Hp; [done| |done]. simpl. assert (i ≠ length l) by congruence.
    destruct (decide (i < length l)).
    - by rewrite lookup_take by lia.
    - rewrite !lookup_ge_None_2; [done|lia|rewrite take_length; lia]. }
  set (w' := λ n, if decide (w n = Some (Some (length l))) then Some None else w n).
  assert (Hwi : ∀ n i, i ≠ length l → w' n = Some (Some i) ↔ w n = Some (Some i)).
  { intros n i Hi. unfold w'. case_decide as E; [|done]. rewrite E. split; congruence. }
  exists w'. constructor; simpl; try apply H.
  - rewrite take_length. lia.
  - intros i Hi. change (nextof s' (Head i) = None). assert (Hl := lookup_lt_Some _ _ _ Hi).
    rewrite Hnx by (intros [= ->]; lia). apply (rp_dead _ _ _ H). simpl. by rewrite lookup_app_l.
  - intros i ys Hi. assert (Hl := lookup_lt_Some _ _ _ Hi).
    destruct (rp_own _ _ _ H i ys) as [Hc Hnd]; [simpl; by rewrite lookup_app_l|]. split; [|done].
    eapply chain_frame; [exact Hc|apply Hnx; intros [= ->]; lia|]. done.
  - intros i ys n Hi. assert (Hl := lookup_lt_Some _ _ _ Hi). rewrite Hwi by lia.
    apply (rp_w _ _ _ H). simpl. by rewrite lookup_app_l.
  - intros n i Hw. destruct (decide (i = length l)) as [->|Hne].
    + exfalso. unfold w' in Hw. by case_decide.
    + apply Hwi in Hw; [|done]. destruct (rp_wi _ _ _ H n i Hw) as (ys & Hy). simpl in Hy.
      assert (Hl := lookup_lt_Some _ _ _ Hy). rewrite app_length in Hl. simpl in Hl.
      rewrite lookup_app_l in Hy by lia. eauto.
  - intros n. rewrite elem_of_app, (rp_w _ _ _ H _ xs n Hxs). assert (HL := rp_lost _ _ _ H n). simpl in HL.
    rewrite HL. unfold w'. case_decide as E; [rewrite E; split; auto|]. split; [|auto]. intros [?|?]; done.
  - apply NoDup_app. destruct (rp_own _ _ _ H _ _ Hxs) as [_ Hnd]. split; [done|]. split; [|apply (rp_nodup _ _ _ H)].
    intros n Hn Hlo. apply (rp_w _ _ _ H _ _ _ Hxs) in Hn. apply (rp_lost _ _ _ H) in Hlo. congruence.
  - intros n. change (valof s n = None ↔ w' n = None). rewrite (rp_live _ _ _ H). unfold w'. case_decide as E; [|done].
    rewrite E. done.
Qed.

(** The destructor has run and the object is gone. *)
Lemma R_kill s σ i : R s σ → get σ i = Some [] →
  R (set_heads (<[i := None]> (heads s)) s) (mkA (<[i := None]> (ls σ)) (fresh_id σ) (lost σ)).
Proof.
  intros [w H] Hi%get_Some. assert (Hlt := lookup_lt_Some _ _ _ Hi).
  set (s' := set_heads (<[i := None]> (heads s)) s).
  assert (Hnx : ∀ p, p ≠ Head i → nextof s' p = nextof s p).
  { intros [|j|n] Hp; [done| |done]. simpl. by rewrite list_lookup_insert_ne by congruence. }
  exists w. constructor; simpl; try apply H.
  - by rewrite !insert_length, (rp_len _ _ _ H).
  - intros j Hj. destruct (decide (i = j)) as [<-|Hne].
    + rewrite list_lookup_insert; [done|]. by rewrite (rp_len _ _ _ H).
    + rewrite list_lookup_insert_ne in Hj by done. change (nextof s' (Head j) = None).
      rewrite Hnx by congruence. by apply (rp_dead _ _ _ H).
  - intros j xs Hj. destruct (decide (i = j)) as [<-|Hne]; [by rewrite list_lookup_insert in Hj|].
    rewrite list_lookup_insert_ne in Hj by done. destruct (rp_own _ _ _ H j xs Hj) as [Hc Hnd]. split; [|done].
    eapply chain_frame; [exact Hc|apply Hnx; congruence|]. done.
  - intros j xs n Hj. destruct (decide (i = j)) as [<-|Hne]; [by rewrite list_lookup_insert in Hj|].
    rewrite list_lookup_insert_ne in Hj by done. by apply (rp_w _ _ _ H).
  - intros n j Hw. destruct (decide (i = j)) as [<-|Hne].
    + apply (rp_w _ _ _ H i [] n Hi) in Hw. by apply elem_of_nil in Hw.
    + rewrite list_lookup_insert_ne by done. by apply (rp_wi _ _ _ H n).
Qed.

(** The nodes of [j] become those of the empty list [i]. *)
Lemma R_transfer s s' σ i j ys : R s σ → i ≠ j → get σ i = Some [] → get σ j = Some ys →
  eff s s' (upd_next (upd_next (nextof s) (Head i) (Some (dest ys Nul))) (Head j) (Some Nul))
           (valof s) (length (nodes s)) →
  R s' (put (put σ i ys) j []).
Proof.
  intros [w H] Hij Hi%get_Some Hj%get_Some [Hn Hv Hl Hh Hk _].
  assert (Hlti := lookup_lt_Some _ _ _ Hi). assert (Hltj := lookup_lt_Some _ _ _ Hj).
  assert (Hnod : ∀ n, nextof s' (Nod n) = nextof s (Nod n)) by (intros n; by rewrite Hn).
  assert (Hl1 : ∀ k x, k ≠ i → k ≠ j → (<[j := Some []]> (<[i := Some ys]> (ls σ))) !! k = x ↔ ls σ !! k = x).
  { intros k x Hki Hkj. by rewrite !list_lookup_insert_ne. }
  assert (Hl2 : (<[j := Some []]> (<[i := Some ys]> (ls σ))) !! i = Some (Some ys)).
  { rewrite list_lookup_insert_ne by done. by rewrite list_lookup_insert. }
  assert (Hl3 : (<[j := Some []]> (<[i := Some ys]> (ls σ))) !! j = Some (Some [])).
  { rewrite list_lookup_insert; [done|]. by rewrite insert_length. }
  set (w' := λ n, if decide (w n = Some (Some j)) then Some (Some i) else w n).
  assert (Hwi : ∀ n, w n ≠ Some (Some i)).
  { intros n Hw. apply (rp_w _ _ _ H i [] n Hi) in Hw. by apply elem_of_nil in Hw. }
  exists w'. constructor; simpl; try apply H.
  - by rewrite !insert_length, Hh, (rp_len _ _ _ H).
  - intros k Hk'. destruct (decide (k = i)) as [->|Hki]; [rewrite Hl2 in Hk'; done|].
    destruct (decide (k = j)) as [->|Hkj]; [rewrite Hl3 in Hk'; done|].
    apply Hl1 in Hk'; [|done|done]. change (nextof s' (Head k) = None). rewrite Hn. unfold upd_next.
    rewrite !decide_False by congruence. by apply (rp_dead _ _ _ H).
  - intros k xs Hk'. destruct (decide (k = i)) as [->|Hki].
    + rewrite Hl2 in Hk'. injection Hk' as <-. destruct (rp_own _ _ _ H j ys Hj) as [Hc Hnd]. split; [|done].
      eapply chain_frame; [exact Hc| |by intros n _]. rewrite Hn. unfold upd_next.
      rewrite decide_False by congruence. rewrite decide_True by done. by apply chain_next in Hc.
    + destruct (decide (k = j)) as [->|Hkj].
      * rewrite Hl3 in Hk'. injection Hk' as <-. split; [|apply NoDup_nil_2]. split; [|done].
        rewrite Hn. unfold upd_next. by rewrite decide_True.
      * apply Hl1 in Hk'; [|done|done]. destruct (rp_own _ _ _ H k xs Hk') as [Hc Hnd]. split; [|done].
        eapply chain_frame; [exact Hc| |by intros n _]. rewrite Hn. unfold upd_next. by rewrite !decide_False by congruence.
  - intros k xs n Hk'. unfold w'. destruct (decide (k = i)) as [->|Hki].
    + rewrite Hl2 in Hk'. injection Hk' as <-. rewrite (rp_w _ _ _ H j ys n Hj).
      case_decide as E; [rewrite E; done|]. split; [done|]. intros Hw. by apply Hwi in Hw.
    + destruct (decide (k = j)) as [->|Hkj].
      * rewrite Hl3 in Hk'. injection Hk' as <-. simpl. split; [by intros ?%elem_of_nil|].
        case_decide as E; [congruence|]. done.
      * apply Hl1 in Hk'; [|done|done]. rewrite (rp_w _ _ _ H k xs n Hk'). case_decide as E; [|done].
        rewrite E. split; congruence.
  - intros n k Hw. unfold w' in Hw. destruct (decide (k = i)) as [->|Hki]; [eauto|].
    destruct (decide (k = j)) as [->|Hkj]; [eauto|].
    case_decide as E; [congruence|]. destruct (rp_wi _ _ _ H n k Hw) as (xs & Hx). exists xs. by apply Hl1.
  - intros n. rewrite (rp_lost _ _ _ H). unfold w'. case_decide as E; [|done]. rewrite E. split; congruence.
  - intros n. rewrite Hv, (rp_live _ _ _ H). unfold w'. case_decide as E; [|done]. rewrite E. split; congruence.
  - by rewrite Hl, (rp_fresh _ _ _ H).
  - by rewrite Hk, (rp_leak _ _ _ H).
Qed.

(** Positions. *)
Lemma cut_after_spec n xs a b : cut_after n xs = Some (a, b) →
  xs = a ++ b ∧ ∃ a' v, a = a' ++ [(n, v)].
Proof.
  revert a b. induction xs as [|[m v] xs IH]; intros a b; [done|]. simpl.
  destruct (Nat.eqb_spec m n) as [->|Hne].
  - intros [= <- <-]. split; [done|]. by exists [], v.
  - destruct (cut_after n xs) as [[a1 b1]|]; [|done]. simpl. intros [= <- <-].
    destruct (IH _ _ eq_refl) as (-> & a' & v' & ->). split; [done|]. by exists ((m, v) :: a'), v'.
Qed.
Lemma cut_before_spec n xs a b : cut_before n xs = Some (a, b) →
  xs = a ++ b ∧ ∃ b' v, b = (n, v) :: b'.
Proof.
  revert a b. induction xs as [|[m v] xs IH]; intros a b; [done|]. simpl.
  destruct (Nat.eqb_spec m n) as [->|Hne].
  - intros [= <- <-]. split; [done|]. by exists xs, v.
  - destruct (cut_before n xs) as [[a1 b1]|]; [|done]. simpl. intros [= <- <-].
    destruct (IH _ _ eq_refl) as (-> & b' & v' & ->). split; [done|]. by exists b', v'.
Qed.
Lemma at_pos_spec i p xs a b : at_pos i p xs = Some (a, b) → xs = a ++ b ∧ p = lastpos (Head i) a.
Proof.
  destruct p as [|j|n]; simpl; [done| |].
  - destruct (Nat.eqb_spec i j) as [->|]; [|done]. by intros [= <- <-].
  - intros (-> & a' & v & ->)%cut_after_spec. by rewrite lastpos_app.
Qed.
Lemma until_spec q xs a b : until q xs = Some (a, b) → xs = a ++ b ∧ q = dest b Nul.
Proof.
  destruct q as [|j|n]; simpl; [|done|].
  - intros [= <- <-]. by rewrite app_nil_r.
  - by intros (-> & b' & v & ->)%cut_before_spec.
Qed.
Lemma rng_spec f l xs r : rng f l xs = Some r → ∃ e c, xs = e ++ r ++ c ∧ l = dest c Nul ∧ f = dest r l.
Proof.
  unfold rng. destruct (until f xs) as [[e b]|] eqn:E1; [|done]. cbn. destruct (until l b) as [[r' c]|] eqn:E2; [|done].
  cbn. intros [= ->]. apply until_spec in E1 as (-> & ->). apply until_spec in E2 as (-> & ->). exists e, c.
  by rewrite dest_app.
Qed.
Lemma pos_in_spec p xs : pos_in p xs = true ↔ ∃ n, n ∈ xs.*1 ∧ p = Nod n.
Proof.
  destruct p as [|j|n]; simpl; [by split; [|intros (? & _ & ?)]..|]. rewrite existsb_exists. split.
  - intros (m & Hm%elem_of_list_In & ->%Nat.eqb_eq). eauto.
  - intros (m & Hm & [= ->]). exists m. split; [by apply elem_of_list_In|apply Nat.eqb_refl].
Qed.
(** A range of a list as a source. *)
Lemma rng_seg s i f l xs r : owned s i xs → rng f l xs = Some r →
  f = dest r l ∧ seg s r l ∧ NoDup r.*1 ∧ (∀ n, n ∈ r.*1 → l ≠ Nod n) ∧ ∀ n, n ∈ r.*1 → n ∈ xs.*1.
Proof.
  intros [Hc Hnd] (e & c & -> & -> & ->)%rng_spec. apply chain_app in Hc as [_ Hc]. apply chain_app in Hc as [Hc _].
  rewrite !fmap_app in Hnd. apply NoDup_app in Hnd as (_ & _ & Hnd). apply NoDup_app in Hnd as (Hnr & Hd & _).
  split_and!; [done|by eapply chain_seg|done| |].
  - intros n Hn. destruct c as [|[m v] c]; [done|]. intros [= ->]. apply (Hd n Hn). simpl. rewrite elem_of_cons. by left.
  - intros n Hn. rewrite !fmap_app, !elem_of_app. auto.
Qed.
Lemma last_snoc a y : last a = Some y → a = take (length a - 1) a ++ [y].
Proof.
  intros Hl. apply last_Some in Hl as [a' ->]. rewrite app_length. simpl.
  replace (length a' + 1 - 1) with (length a') by lia. by rewrite take_app_alt.
Qed.
Lemma last_id_spec p xs : last_id p xs = lastpos p xs.
Proof.
  unfold last_id. destruct (last xs) as [y|] eqn:E.
  - apply last_snoc in E. rewrite E. by rewrite lastpos_app.
  - apply last_None in E. by subst.
Qed.
Lemma first_pos_spec xs : first_pos xs = dest xs Nul.
Proof. by destruct xs. Qed.
Lemma put_put σ i xs k lo : mkA (<[i := Some xs]> (ls σ)) k lo = mkA (ls (put σ i xs)) k lo.
Proof. done. Qed.
End sim.
