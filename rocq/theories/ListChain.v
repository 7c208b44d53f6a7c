(** LinkedList: chains of nodes, and what every operation does to the chain of
    one list while leaving everything else alone. *)
From stdpp Require Import list.
From Coq Require Import Lia.
From Verif Require Import Base ListModel ListSpec ListPrim.

Section chain.
Context {V : Type}.
Implicit Types (s : st V) (n m i : nat) (p q r : pos) (xs ys a b : list (nat * V)).

(** [dest xs q] is where a pointer to the first of [xs] points, if [xs] is
    followed by [q]; [lastpos p xs] the last position of [p :: xs]. *)
Definition dest xs q : pos := match xs with [] => q | x :: _ => Nod x.1 end.
Fixpoint lastpos p xs : pos := match xs with [] => p | x :: xs' => lastpos (Nod x.1) xs' end.
Fixpoint chain s p xs q : Prop :=
  nextof s p = Some (dest xs q) ∧
  match xs with [] => True | x :: xs' => valof s x.1 = Some (Some x.2) ∧ chain s (Nod x.1) xs' q end.

Lemma chain_next s p xs q : chain s p xs q → nextof s p = Some (dest xs q).
Proof. destruct xs; by intros [? ?]. Qed.
Lemma chain_last s p xs q : chain s p xs q → nextof s (lastpos p xs) = Some q.
Proof. revert p. induction xs as [|x xs IH]; intros p [H1 H2]; [done|]. by apply IH, H2. Qed.
Lemma dest_app xs ys q : dest (xs ++ ys) q = dest xs (dest ys q).
Proof. by destruct xs. Qed.
Lemma lastpos_app p xs ys : lastpos p (xs ++ ys) = lastpos (lastpos p xs) ys.
Proof. revert p. induction xs as [|x xs IH]; intros p; [done|]. apply IH. Qed.
Lemma chain_app s p xs ys q :
  chain s p (xs ++ ys) q ↔ chain s p xs (dest ys q) ∧ chain s (lastpos p xs) ys q.
Proof.
  revert p. induction xs as [|x xs IH]; intros p; simpl.
  - split; [intros H; split; [split; [by apply chain_next in H|done]|done]|tauto].
  - rewrite IH. tauto.
Qed.
Lemma chain_val s p xs q n v : chain s p xs q → (n, v) ∈ xs → valof s n = Some (Some v).
Proof.
  revert p. induction xs as [|x xs IH]; intros p Hc Hin; [by apply elem_of_nil in Hin|].
  destruct Hc as (_ & Hv & Hc). apply elem_of_cons in Hin as [<-|Hin]; [done|by eapply IH].
Qed.
Lemma chain_live s p xs q n : chain s p xs q → n ∈ xs.*1 → ∃ v, (n, v) ∈ xs ∧ valof s n = Some (Some v).
Proof.
  intros Hc Hin. apply elem_of_list_fmap in Hin as ([n' v] & -> & Hin). exists v. split; [done|].
  by eapply chain_val.
Qed.
Lemma chain_lt s p xs q n : chain s p xs q → n ∈ xs.*1 → n < length (nodes s).
Proof. intros Hc Hin. destruct (chain_live _ _ _ _ _ Hc Hin) as (v & _ & Hv). by eapply valof_lt. Qed.

Lemma chain_frame s s' p p' xs q :
  chain s p xs q → nextof s' p' = nextof s p →
  (∀ n, n ∈ xs.*1 → nextof s' (Nod n) = nextof s (Nod n) ∧ valof s' n = valof s n) →
  chain s' p' xs q.
Proof.
  revert p p'. induction xs as [|x xs IH]; intros p p' Hc Hp Hf.
  - destruct Hc as [Hn _]. split; [congruence|done].
  - destruct Hc as (Hn & Hv & Hc).
    destruct (Hf x.1) as [Hfn Hfv]; [simpl; rewrite elem_of_cons; by left|].
    split; [by rewrite Hp|]. split; [by rewrite Hfv|].
    eapply IH; [exact Hc|done|]. intros n Hin. apply Hf. simpl. rewrite elem_of_cons. by right.
Qed.

Lemma lastpos_in p xs : lastpos p xs = p ∨ ∃ n, n ∈ xs.*1 ∧ lastpos p xs = Nod n.
Proof.
  revert p. induction xs as [|x xs IH]; intros p; [by left|]. right. simpl.
  destruct (IH (Nod x.1)) as [->|(n & Hn & ->)].
  - exists x.1. rewrite elem_of_cons. auto.
  - exists n. rewrite elem_of_cons. auto.
Qed.

(** Redirecting the last pointer of a chain. *)
Lemma chain_relink s s' p xs q q' :
  chain s p xs q → NoDup xs.*1 → (∀ n, n ∈ xs.*1 → p ≠ Nod n) →
  (p ≠ lastpos p xs → nextof s' p = nextof s p) →
  (∀ n, n ∈ xs.*1 → Nod n ≠ lastpos p xs → nextof s' (Nod n) = nextof s (Nod n)) →
  nextof s' (lastpos p xs) = Some q' →
  (∀ n, n ∈ xs.*1 → valof s' n = valof s n) → chain s' p xs q'.
Proof.
  revert p. induction xs as [|x xs IH]; intros p Hc Hnd Hp Hfp Hf Hl Hv.
  - by split.
  - destruct Hc as (Hn & Hvx & Hc). simpl in Hnd. apply NoDup_cons in Hnd as [Hx Hnd].
    assert (Hpl : p ≠ lastpos p (x :: xs)).
    { simpl. destruct (lastpos_in (Nod x.1) xs) as [->|(n & Hin & ->)]; apply Hp; simpl; rewrite elem_of_cons; auto. }
    split; [by rewrite Hfp|].
    split; [rewrite Hv; [done|simpl; rewrite elem_of_cons; by left]|].
    apply IH; try done.
    + intros n Hin [= <-]. done.
    + intros Hne. apply Hf; [simpl; rewrite elem_of_cons; by left|done].
    + intros n Hin. apply Hf. simpl. rewrite elem_of_cons. by right.
    + intros n Hin. apply Hv. simpl. rewrite elem_of_cons. by right.
Qed.

Definition owned s i xs : Prop := chain s (Head i) xs Nul ∧ NoDup xs.*1.

(** The list [i] goes from [xs] to [xs']: nodes of [xs] are reused or freed,
    new ones created, no other node or list is touched. *)
Record step_ok s s' i xs xs' : Prop := StepOk {
  so_heads : length (heads s') = length (heads s);
  so_len : length (nodes s) ≤ length (nodes s');
  so_leak : leaked s' = leaked s;
  so_calm : calm s → calm s';
  so_head : ∀ j, j ≠ i → nextof s' (Head j) = nextof s (Head j);
  so_next : ∀ n, n < length (nodes s) → n ∉ xs.*1 → nextof s' (Nod n) = nextof s (Nod n);
  so_val : ∀ n, n < length (nodes s) → n ∉ xs.*1 → valof s' n = valof s n;
  so_owned : owned s' i xs';
  so_live : ∀ n, n ∈ xs.*1 ∨ length (nodes s) ≤ n → n ∉ xs'.*1 → valof s' n = None;
  so_sub : ∀ n, n ∈ xs'.*1 → n ∈ xs.*1 ∨ length (nodes s) ≤ n
}.

Lemma owned_lt s i xs n : owned s i xs → n ∈ xs.*1 → n < length (nodes s).
Proof. intros [Hc _]. by eapply chain_lt. Qed.

Lemma owned_quiet s s' i xs : owned s i xs → quiet s s' → owned s' i xs.
Proof.
  intros [Hc Hnd] Hq. split; [|done]. eapply chain_frame; [exact Hc|apply (qt_next _ _ Hq)|].
  intros n _. split; [apply (qt_next _ _ Hq)|apply (qt_val _ _ Hq)].
Qed.

Lemma step_quiet s s' i xs : owned s i xs → quiet s s' → step_ok s s' i xs xs.
Proof.
  intros Ho Hq. assert (Ho' := owned_quiet _ _ _ _ Ho Hq). destruct Hq as [a b c d e f].
  constructor; auto. intros n [?|?] Hn; [done|]. rewrite b. by apply valof_ge.
Qed.
Lemma step_refl s i xs : owned s i xs → step_ok s s i xs xs.
Proof. intros. apply step_quiet; [done|apply quiet_refl]. Qed.

Lemma step_trans s1 s2 s3 i xs1 xs2 xs3 :
  step_ok s1 s2 i xs1 xs2 → step_ok s2 s3 i xs2 xs3 → step_ok s1 s3 i xs1 xs3.
Proof.
  intros [h1 l1 k1 c1 hd1 n1 v1 o1 lv1 sb1] [h2 l2 k2 c2 hd2 n2 v2 o2 lv2 sb2].
  assert (Hno : ∀ n, n < length (nodes s1) → n ∉ xs1.*1 → n ∉ xs2.*1).
  { intros n Hlt Hn Hin. destruct (sb1 n Hin); [done|lia]. }
  constructor.
  - congruence.
  - lia.
  - congruence.
  - auto.
  - intros j Hj. by rewrite hd2, hd1.
  - intros n Hlt Hn. rewrite n2; [by apply n1|lia|by apply Hno].
  - intros n Hlt Hn. rewrite v2; [by apply v1|lia|by apply Hno].
  - done.
  - intros n Hn Hn3. destruct (decide (n ∈ xs2.*1)) as [Hin|Hnin]; [by apply lv2; [left|]|].
    destruct (decide (length (nodes s2) ≤ n)) as [?|?]; [by apply lv2; [right|]|].
    rewrite v2; [by apply lv1|lia|done].
  - intros n Hn. destruct (sb2 n Hn) as [Hn2|?]; [by apply sb1|right; lia].
Qed.

Lemma pos_of_last i a n : lastpos (Head i) a = Nod n → n ∈ a.*1.
Proof. intros E. destruct (lastpos_in (Head i) a) as [E'|(m & Hm & E')]; [congruence|]. congruence. Qed.
Lemma pos_of_head i j a : lastpos (Head i) a = Head j → j = i.
Proof. intros E. destruct (lastpos_in (Head i) a) as [E'|(m & Hm & E')]; congruence. Qed.

Lemma NoDup_fst_app a b : NoDup (a ++ b).*1 ↔ NoDup a.*1 ∧ (∀ n, n ∈ a.*1 → n ∉ b.*1) ∧ NoDup b.*1.
Proof. rewrite fmap_app. apply NoDup_app. Qed.

Lemma last_not_after i a b : NoDup (a ++ b).*1 → ∀ n, n ∈ b.*1 → Nod n ≠ lastpos (Head i) a.
Proof.
  intros (_ & Hd & _)%NoDup_fst_app n Hn E. symmetry in E. apply pos_of_last in E. by apply (Hd n).
Qed.


(** A fresh node, made by create_node, linked in after position [L]. *)
Lemma link_step s s' i a b v :
  let N := length (nodes s) in let L := lastpos (Head i) a in
  owned s i (a ++ b) →
  eff s s' (λ r, if decide (r = L) then Some (Nod N)
                 else if decide (r = Nod N) then Some (dest b Nul) else nextof s r)
           (upd_val (valof s) N (Some (Some v))) (S N) →
  step_ok s s' i (a ++ b) (a ++ (N, v) :: b).
Proof.
  intros N L Ho [Hn3 Hv3 Hl3 Hh Hk Hcm]. assert (Ho2 := Ho). destruct Ho2 as [Hc Hnd].
  assert (Hlt := λ n, owned_lt s i (a ++ b) n Ho).
  assert (HLN : L ≠ Nod N).
  { intros E. apply pos_of_last in E. assert (N < N); [|lia]. apply Hlt. rewrite fmap_app, elem_of_app. by left. }
  apply chain_app in Hc as [Hca Hcb]. unfold upd_val in Hv3.
  assert (HNn : N ∉ (a ++ b).*1) by (intros Hin%Hlt; lia).
  constructor; try done.
  - lia.
  - intros j Hj. rewrite Hn3, decide_False; [done|]. intros E. by symmetry in E; apply pos_of_head in E.
  - intros n Hn Hin. rewrite Hn3, !decide_False; [done|intros [= ->]; lia|].
    intros E. symmetry in E. apply pos_of_last in E. apply Hin. rewrite fmap_app, elem_of_app. by left.
  - intros n Hn Hin. rewrite Hv3, decide_False; [done|lia].
  - split.
    + apply chain_app. split.
      * eapply chain_relink; [exact Hca|by apply NoDup_fst_app in Hnd as [? _]|done|..].
        -- intros Hne. rewrite Hn3, !decide_False; done.
        -- intros n Hin Hne. rewrite Hn3, !decide_False; [done| |done]. intros [= ->].
           apply HNn. rewrite fmap_app, elem_of_app. by left.
        -- rewrite Hn3. by rewrite decide_True.
        -- intros n Hin. rewrite Hv3, decide_False; [done|]. intros ->.
           apply HNn. rewrite fmap_app, elem_of_app. by left.
      * simpl. split; [rewrite Hn3; by rewrite decide_True|].
        split; [rewrite Hv3; by rewrite decide_True|].
        eapply chain_frame; [exact Hcb| |].
        -- rewrite Hn3, decide_False, decide_True; [|done|done]. by apply chain_next in Hcb.
        -- intros n Hin. assert (n ≠ N).
           { intros ->. apply HNn. rewrite fmap_app, elem_of_app. by right. }
           rewrite Hn3, Hv3, !decide_False; [done|done|congruence|by eapply last_not_after].
    + rewrite fmap_app, NoDup_app. simpl. rewrite fmap_app, elem_of_app in HNn.
      apply NoDup_fst_app in Hnd as (Ha1 & Ha2 & Ha3).
      split; [done|]. split.
      * intros n Hn. rewrite not_elem_of_cons. split; [|by apply Ha2]. intros ->. apply HNn. by left.
      * apply NoDup_cons. split; [|done]. intros ?. apply HNn. by right.
  - intros n Hn Hnin. rewrite fmap_app, elem_of_app in Hn, Hnin. simpl in Hnin. rewrite elem_of_cons in Hnin.
    assert (n ≠ N) by tauto.
    rewrite Hv3, decide_False by done. destruct Hn as [Hn|Hn]; [exfalso; tauto|by apply valof_ge].
  - intros n Hn. rewrite fmap_app, elem_of_app in Hn |- *. simpl in Hn. rewrite elem_of_cons in Hn.
    destruct Hn as [?|[->|?]]; auto.
Qed.

(** linked_list.hpp:201-207 *)
Lemma emplace_after_post s i a b x v : owned s i (a ++ b) → argv s x v →
  post (emplace_after (lastpos (Head i) a) x s)
    (λ r s', r = Nod (length (nodes s)) ∧ length (nodes s') = S (length (nodes s)) ∧
             step_ok s s' i (a ++ b) (a ++ (length (nodes s), v) :: b) ∧
             ∀ n, n < length (nodes s) → lastpos (Head i) a ≠ Nod n →
                  nextof s' (Nod n) = nextof s (Nod n) ∧ valof s' n = valof s n)
    (λ s', ¬ calm s ∧ quiet s s').
Proof.
  intros Ho Ha. assert (Ho2 := Ho). destruct Ho2 as [Hc Hnd].
  assert (Hlt := λ n, owned_lt s i (a ++ b) n Ho).
  set (N := length (nodes s)). set (L := lastpos (Head i) a).
  assert (HLN : L ≠ Nod N).
  { intros E. apply pos_of_last in E. assert (N < N); [|lia]. apply Hlt. rewrite fmap_app, elem_of_app. by left. }
  apply chain_app in Hc as [Hca Hcb].
  unfold emplace_after. apply post_bind.
  eapply post_conseq; [apply (create_node_post s x v Ha)| |done]. fold N.
  intros n s1 [-> He1]. simpl.
  assert (HnL : nextof s1 L = Some (dest b Nul)).
  { rewrite (ef_next _ _ _ _ _ He1). unfold upd_next. rewrite decide_False by done. by apply chain_next in Hcb. }
  apply post_bind. fold L. rewrite (get_next_eq _ _ _ HnL). simpl.
  destruct (set_next_eff s1 (Nod N) (dest b Nul) Nul) as (s2 & E2 & He2).
  { rewrite (ef_next _ _ _ _ _ He1). unfold upd_next. by rewrite decide_True. }
  apply post_bind. rewrite E2. simpl.
  destruct (set_next_eff s2 L (Nod N) (dest b Nul)) as (s3 & E3 & He3).
  { rewrite (ef_next _ _ _ _ _ He2). unfold upd_next. by rewrite decide_False. }
  apply post_bind. rewrite E3. simpl. split; [done|].
  assert (Hl3 : length (nodes s3) = S N).
  { by rewrite (ef_len _ _ _ _ _ He3), (ef_len _ _ _ _ _ He2), (ef_len _ _ _ _ _ He1). }
  split; [done|].
  assert (Heff : eff s s3 (λ r, if decide (r = L) then Some (Nod N)
                 else if decide (r = Nod N) then Some (dest b Nul) else nextof s r)
           (upd_val (valof s) N (Some (Some v))) (S N)).
  2:{ split; [by apply link_step|]. intros n Hn HLn. change (nextof s3 (Nod n) = nextof s (Nod n) ∧ valof s3 n = valof s n).
      rewrite (ef_next _ _ _ _ _ Heff), (ef_val _ _ _ _ _ Heff).
      unfold upd_val. rewrite !decide_False; [done|lia|intros [= ->]; lia|congruence]. }
  constructor; try done.
  - intros r. rewrite (ef_next _ _ _ _ _ He3). unfold upd_next. fold L N. case_decide; [done|].
    rewrite (ef_next _ _ _ _ _ He2). unfold upd_next. case_decide; [done|].
    rewrite (ef_next _ _ _ _ _ He1). unfold upd_next. by rewrite decide_False.
  - intros m. by rewrite (ef_val _ _ _ _ _ He3), (ef_val _ _ _ _ _ He2), (ef_val _ _ _ _ _ He1).
  - by rewrite (ef_heads _ _ _ _ _ He3), (ef_heads _ _ _ _ _ He2), (ef_heads _ _ _ _ _ He1).
  - by rewrite (ef_leak _ _ _ _ _ He3), (ef_leak _ _ _ _ _ He2), (ef_leak _ _ _ _ _ He1).
  - intros Hcm. by apply (ef_calm _ _ _ _ _ He3), (ef_calm _ _ _ _ _ He2), (ef_calm _ _ _ _ _ He1).
Qed.

(** [curr->next = create_node(x); curr = curr->next] at the end of a list. *)
Lemma append_post s i a x v {A} (k : pos → M (st V) A) Q E : owned s i a → argv s x v →
  (∀ s', length (nodes s') = S (length (nodes s)) →
     step_ok s s' i a (a ++ [(length (nodes s), v)]) →
     post (k (lastpos (Head i) (a ++ [(length (nodes s), v)])) s') Q E) →
  (∀ s', ¬ calm s → quiet s s' → E s') →
  post (bind (create_node x) (λ n, bind (set_next (lastpos (Head i) a) (Nod n))
          (λ _, bind (get_next (lastpos (Head i) a)) k)) s) Q E.
Proof.
  intros Ho Ha HQ HE.
  assert (Hlt := λ n, owned_lt s i a n Ho).
  set (N := length (nodes s)) in *. set (L := lastpos (Head i) a) in *.
  assert (HLN : L ≠ Nod N).
  { intros E'. apply pos_of_last in E'. assert (N < N); [|lia]. by apply Hlt. }
  assert (HcL : nextof s L = Some Nul) by (destruct Ho as [Hc _]; by apply chain_last in Hc).
  apply post_bind.
  eapply post_conseq; [apply (create_node_post s x v Ha)| |by intros s' [? ?]; apply HE]. fold N.
  intros n s1 [-> He1]. simpl.
  destruct (set_next_eff s1 L (Nod N) Nul) as (s3 & E3 & He3).
  { rewrite (ef_next _ _ _ _ _ He1). unfold upd_next. by rewrite decide_False. }
  apply post_bind. rewrite E3. simpl.
  apply post_bind. rewrite (get_next_eq s3 L (Nod N)).
  2:{ rewrite (ef_next _ _ _ _ _ He3). unfold upd_next. by rewrite decide_True. }
  simpl. rewrite lastpos_app in HQ. simpl in HQ. apply HQ.
  - by rewrite (ef_len _ _ _ _ _ He3), (ef_len _ _ _ _ _ He1).
  - assert (Hs := link_step s s3 i a [] v). cbv zeta in Hs. rewrite app_nil_r in Hs. apply Hs; [done|].
    constructor; try done.
    + intros r. rewrite (ef_next _ _ _ _ _ He3). unfold upd_next. fold L N. case_decide; [done|].
      rewrite (ef_next _ _ _ _ _ He1). unfold upd_next. fold N. by case_decide.
    + intros m. by rewrite (ef_val _ _ _ _ _ He3), (ef_val _ _ _ _ _ He1).
    + by rewrite (ef_len _ _ _ _ _ He3), (ef_len _ _ _ _ _ He1).
    + by rewrite (ef_heads _ _ _ _ _ He3), (ef_heads _ _ _ _ _ He1).
    + by rewrite (ef_leak _ _ _ _ _ He3), (ef_leak _ _ _ _ _ He1).
    + intros Hcm. by apply (ef_calm _ _ _ _ _ He3), (ef_calm _ _ _ _ _ He1).
Qed.

(** The nodes [ys], linked to one another and then to [q]. *)
Definition seg s ys q : Prop :=
  match ys with [] => True | x :: ys' => valof s x.1 = Some (Some x.2) ∧ chain s (Nod x.1) ys' q end.
Lemma chain_seg s p ys q : chain s p ys q → seg s ys q.
Proof. destruct ys; by intros [_ ?]. Qed.
Lemma seg_frame s s' ys q : seg s ys q →
  (∀ n, n ∈ ys.*1 → nextof s' (Nod n) = nextof s (Nod n) ∧ valof s' n = valof s n) → seg s' ys q.
Proof.
  destruct ys as [|x ys]; [done|]. intros [Hv Hc] Hf.
  assert (Hx : x.1 ∈ (x :: ys).*1) by (simpl; rewrite elem_of_cons; by left).
  split; [by rewrite (proj2 (Hf _ Hx))|].
  eapply chain_frame; [exact Hc|by apply Hf|]. intros n Hn. apply Hf. simpl. rewrite elem_of_cons. by right.
Qed.
Lemma seg_lt s ys q n : seg s ys q → n ∈ ys.*1 → n < length (nodes s).
Proof.
  destruct ys as [|x ys]; [by intros _ ?%elem_of_nil|]. intros [Hv Hc]. simpl. rewrite elem_of_cons.
  intros [->|Hn]; [by eapply valof_lt|by eapply chain_lt].
Qed.

Lemma NoDup_bound (l : list nat) n : NoDup l → (∀ x, x ∈ l → x < n) → length l ≤ n.
Proof.
  intros Hnd Hb. rewrite <- (seq_length n 0). apply submseteq_length.
  apply NoDup_submseteq; [done|]. intros x Hx. apply elem_of_list_In, in_seq. specialize (Hb x Hx). lia.
Qed.

(** The source [x] yields the values [vs] and does not touch the nodes [xs]. *)
Definition srcv s xs (x : src V) (vs : list V) : Prop :=
  match x with
  | SVals l => l = vs
  | SNodes f q => ∃ ys, ys.*2 = vs ∧ f = dest ys q ∧ seg s ys q ∧ NoDup ys.*1 ∧
                  (∀ n, n ∈ ys.*1 → q ≠ Nod n) ∧ ∀ n, n ∈ ys.*1 → n ∉ xs.*1
  end.
(** The source [x] yields the values [vs] and does not reach position [L]. *)
Definition srcp s L (x : src V) (vs : list V) : Prop :=
  match x with
  | SVals l => l = vs
  | SNodes f q => ∃ ys, ys.*2 = vs ∧ f = dest ys q ∧ seg s ys q ∧ NoDup ys.*1 ∧
                  (∀ n, n ∈ ys.*1 → q ≠ Nod n) ∧ ∀ n, n ∈ ys.*1 → L ≠ Nod n
  end.
Lemma srcv_srcp s i a b x vs : srcv s (a ++ b) x vs → srcp s (lastpos (Head i) a) x vs.
Proof.
  destruct x as [l|f q]; [done|]. intros (ys & Hv & Hf & Hs & Hnd & Hq & Hd). exists ys. split_and!; try done.
  intros n Hn E. apply pos_of_last in E. apply (Hd n Hn). rewrite fmap_app, elem_of_app. by left.
Qed.

Lemma srcv_step s s' i xs xs' x vs : srcv s xs x vs → step_ok s s' i xs xs' → srcv s' xs' x vs.
Proof.
  destruct x as [l|f q]; [done|]. intros (ys & Hv & Hf & Hs & Hnd & Hq & Hd) Hok.
  exists ys. split_and!; [done|done| |done|done|].
  - eapply seg_frame; [exact Hs|]. intros n Hn. assert (Hlt := seg_lt _ _ _ _ Hs Hn).
    split; [eapply so_next|eapply so_val]; eauto.
  - intros n Hn Hin. destruct (so_sub _ _ _ _ _ Hok n Hin) as [Hx|Hx]; [by apply (Hd n)|].
    assert (Hlt := seg_lt _ _ _ _ Hs Hn). lia.
Qed.
Lemma srcp_step s s' L x vs : srcp s L x vs →
  (∀ n, n < length (nodes s) → L ≠ Nod n → nextof s' (Nod n) = nextof s (Nod n) ∧ valof s' n = valof s n) →
  srcp s' (Nod (length (nodes s))) x vs.
Proof.
  destruct x as [l|f q]; [done|]. intros (ys & Hv & Hf & Hs & Hnd & Hq & Hd) Hfr.
  exists ys. split_and!; [done|done| |done|done|].
  - eapply seg_frame; [exact Hs|]. intros n Hn. apply Hfr; [by eapply seg_lt|by apply Hd].
  - intros n Hn [= <-]. assert (Hlt := seg_lt _ _ _ _ Hs Hn). lia.
Qed.
Lemma srcp_peek s L x vs : srcp s L x vs →
  match vs with [] => src_peek x = None | v :: _ => ∃ y : larg V, src_peek x = Some y ∧ argv s y v end.
Proof.
  destruct x as [l|f q]; simpl.
  - intros ->. destruct vs as [|v vs]; [done|]. by exists (LVal v).
  - intros (ys & <- & -> & Hs & _ & Hq & _). destruct ys as [|[n v] ys]; simpl.
    + by rewrite decide_True.
    + exists (LRef (Nod n)). rewrite decide_False.
      * split; [done|]. exists n. split; [done|]. by destruct Hs.
      * intros E. apply (Hq n); [simpl; rewrite elem_of_cons; by left|done].
Qed.
Lemma srcp_nil s xs x vs : srcv s xs x vs → srcp s Nul x vs.
Proof.
  destruct x as [l|f q]; [done|]. intros (ys & Hv & Hf & Hs & Hnd & Hq & Hd). exists ys. by split_and!.
Qed.
Lemma srcv_peek s xs x vs : srcv s xs x vs →
  match vs with [] => src_peek x = None | v :: _ => ∃ y : larg V, src_peek x = Some y ∧ argv s y v end.
Proof. intros H%srcp_nil. by eapply srcp_peek. Qed.
Lemma srcp_next s L x v vs : srcp s L x (v :: vs) →
  ∃ x', src_step x s = Ok x' s ∧ srcp s L x' vs.
Proof.
  destruct x as [l|f q]; simpl.
  - intros ->. by exists (SVals vs).
  - intros (ys & Hv & -> & Hs & Hnd & Hq & Hd). destruct ys as [|[n w] ys]; [done|]. simpl in *.
    injection Hv as -> <-. destruct Hs as [Hval Hc]. exists (SNodes (dest ys q) q). unfold bind.
    rewrite (get_next_eq _ _ _ (chain_next _ _ _ _ Hc)). split; [done|]. exists ys.
    apply NoDup_cons in Hnd as [_ Hnd]. split_and!; [done|done|by eapply chain_seg|done| |];
    intros m Hm; [apply Hq|apply Hd]; rewrite elem_of_cons; by right.
Qed.
Lemma srcp_fuel s L x vs : srcp s L x vs → length vs < src_fuel x s.
Proof.
  destruct x as [l|f q]; simpl.
  - intros ->. lia.
  - intros (ys & <- & _ & Hs & Hnd & _). rewrite fmap_length. rewrite <- (fmap_length fst).
    assert (length ys.*1 ≤ length (nodes s)); [|lia]. apply NoDup_bound; [done|]. intros n. by eapply seg_lt.
Qed.
Lemma srcv_next s xs x v vs : srcv s xs x (v :: vs) →
  ∃ x', src_step x s = Ok x' s ∧ srcv s xs x' vs.
Proof.
  destruct x as [l|f q]; simpl.
  - intros ->. by exists (SVals vs).
  - intros (ys & Hv & -> & Hs & Hnd & Hq & Hd). destruct ys as [|[n w] ys]; [done|]. simpl in *.
    injection Hv as -> <-. destruct Hs as [Hval Hc]. exists (SNodes (dest ys q) q). unfold bind.
    rewrite (get_next_eq _ _ _ (chain_next _ _ _ _ Hc)). split; [done|]. exists ys.
    apply NoDup_cons in Hnd as [_ Hnd]. split_and!; [done|done|by eapply chain_seg|done| |];
    intros m Hm; [apply Hq|apply Hd]; rewrite elem_of_cons; by right.
Qed.
Lemma srcv_fuel s xs x vs : srcv s xs x vs → length vs < src_fuel x s.
Proof. intros H%srcp_nil. by eapply srcp_fuel. Qed.

Lemma new_nodes_cons k (v : V) vs : new_nodes k (v :: vs) = (k, v) :: new_nodes (S k) vs.
Proof. done. Qed.
Lemma new_nodes_nil k : new_nodes (V:=V) k [] = [].
Proof. done. Qed.
Local Arguments new_nodes : simpl never.

(** linked_list.hpp:184-188 *)
Lemma insert_loop_post fuel : ∀ s i a b x vs,
  owned s i (a ++ b) → srcp s (lastpos (Head i) a) x vs → length vs < fuel →
  let N := length (nodes s) in
  post (insert_loop fuel (lastpos (Head i) a) x s)
    (λ r s', r = lastpos (Head i) (a ++ new_nodes N vs) ∧ length (nodes s') = length vs + N ∧
             step_ok s s' i (a ++ b) (a ++ new_nodes N vs ++ b))
    (λ s', ¬ calm s ∧ ∃ m, m < length vs ∧ step_ok s s' i (a ++ b) (a ++ new_nodes N (take m vs) ++ b)).
Proof.
  induction fuel as [|fuel IH]; intros s i a b x vs Ho Hx Hf N; [lia|]. cbn [insert_loop].
  assert (Hp := srcp_peek _ _ _ _ Hx). destruct vs as [|v vs].
  - rewrite Hp. simpl. rewrite ?new_nodes_nil, app_nil_r. split_and!; [done|done|by apply step_refl].
  - destruct Hp as (y & -> & Hy). apply post_bind.
    eapply post_conseq; [apply (emplace_after_post s i a b y v Ho Hy)| |].
    2:{ intros s' [Hnc Hq]. split; [done|]. exists 0. simpl. split; [lia|]. rewrite ?new_nodes_nil. by apply step_quiet. }
    intros r s1 (-> & Hl1 & Hok1 & Hfr1). fold N in Hl1, Hok1 |- *.
    destruct (srcp_next s1 (Nod N) x v vs) as (x' & Ex & Hx'); [by eapply srcp_step|].
    unfold bind at 1. rewrite Ex.
    assert (Ho1 : owned s1 i ((a ++ [(N, v)]) ++ b)) by (rewrite <- app_assoc; apply (so_owned _ _ _ _ _ Hok1)).
    assert (HI := IH s1 i (a ++ [(N, v)]) b x' vs Ho1).
    rewrite <- (app_assoc a [(N, v)] b) in HI. rewrite lastpos_app in HI. simpl in HI.
    specialize (HI Hx' ltac:(simpl in Hf; lia)). rewrite Hl1 in HI.
    eapply post_conseq; [exact HI| |].
    + intros r s2 (-> & Hl2 & Hok2). simpl length. rewrite ?new_nodes_cons. split_and!.
      * by rewrite <- app_assoc.
      * lia.
      * rewrite <- app_assoc in Hok2. simpl in Hok2 |- *. by eapply step_trans.
    + intros s2 (Hnc & m & Hm & Hok2). split; [intros Hcm; by apply Hnc, (so_calm _ _ _ _ _ Hok1)|].
      exists (S m). simpl. split; [lia|]. rewrite ?new_nodes_cons. rewrite <- app_assoc in Hok2. simpl in *.
      by eapply step_trans.
Qed.

(** linked_list.hpp:259-266 *)
Lemma range_loop_post fuel : ∀ s i a x vs,
  owned s i a → srcv s a x vs → length vs < fuel →
  let N := length (nodes s) in
  post (range_loop fuel (lastpos (Head i) a) x s)
    (λ _ s', length (nodes s') = length vs + N ∧ step_ok s s' i a (a ++ new_nodes N vs))
    (λ s', ¬ calm s ∧ ∃ m, m < length vs ∧ step_ok s s' i a (a ++ new_nodes N (take m vs))).
Proof.
  induction fuel as [|fuel IH]; intros s i a x vs Ho Hx Hf N; [lia|]. cbn [range_loop].
  assert (Hp := srcv_peek _ _ _ _ Hx). destruct vs as [|v vs].
  - rewrite Hp. simpl. rewrite ?new_nodes_nil, app_nil_r. split; [done|by apply step_refl].
  - destruct Hp as (y & -> & Hy). eapply append_post; [done|exact Hy| |].
    2:{ intros s' Hnc Hq. split; [done|]. exists 0. simpl. split; [lia|]. rewrite ?new_nodes_nil, app_nil_r. by apply step_quiet. }
    intros s1 Hl1 Hok1. fold N in Hl1, Hok1 |- *.
    destruct (srcv_next s1 (a ++ [(N, v)]) x v vs) as (x' & Ex & Hx'); [by eapply srcv_step|].
    unfold bind at 1. rewrite Ex.
    assert (HI := IH s1 i (a ++ [(N, v)]) x' vs (so_owned _ _ _ _ _ Hok1) Hx' ltac:(simpl in Hf; lia)).
    cbv zeta in HI. rewrite Hl1 in HI.
    eapply post_conseq; [exact HI| |].
    + intros _ s2 (Hl2 & Hok2). rewrite ?new_nodes_cons. rewrite <- app_assoc in Hok2. simpl in Hok2 |- *.
      split; [lia|by eapply step_trans].
    + intros s2 (Hnc & m & Hm & Hok2). split; [intros Hcm; by apply Hnc, (so_calm _ _ _ _ _ Hok1)|].
      exists (S m). simpl. split; [lia|]. rewrite ?new_nodes_cons. rewrite <- app_assoc in Hok2. simpl in *.
      by eapply step_trans.
Qed.

(** linked_list.hpp:41-56 *)
Lemma fill_loop_post k : ∀ s i a v, owned s i a →
  let N := length (nodes s) in
  post (fill_loop k (lastpos (Head i) a) (LVal v) s)
    (λ _ s', length (nodes s') = k + N ∧ step_ok s s' i a (a ++ new_nodes N (replicate k v)))
    (λ s', ¬ calm s ∧ ∃ m, m < k ∧ step_ok s s' i a (a ++ new_nodes N (replicate m v))).
Proof.
  induction k as [|k IH]; intros s i a v Ho N; cbn [fill_loop].
  - simpl. rewrite ?new_nodes_nil, app_nil_r. split; [done|by apply step_refl].
  - eapply (append_post _ _ _ _ v); [done|done| |].
    2:{ intros s' Hnc Hq. split; [done|]. exists 0. simpl. split; [lia|]. rewrite ?new_nodes_nil, app_nil_r. by apply step_quiet. }
    intros s1 Hl1 Hok1. fold N in Hl1, Hok1 |- *.
    assert (HI := IH s1 i (a ++ [(N, v)]) v (so_owned _ _ _ _ _ Hok1)). cbv zeta in HI. rewrite Hl1 in HI.
    eapply post_conseq; [exact HI| |].
    + intros _ s2 (Hl2 & Hok2). simpl replicate. rewrite ?new_nodes_cons. rewrite <- app_assoc in Hok2. simpl in Hok2 |- *.
      split; [lia|by eapply step_trans].
    + intros s2 (Hnc & m & Hm & Hok2). split; [intros Hcm; by apply Hnc, (so_calm _ _ _ _ _ Hok1)|].
      exists (S m). split; [lia|]. simpl replicate. rewrite ?new_nodes_cons. rewrite <- app_assoc in Hok2. simpl in *.
      by eapply step_trans.
Qed.
End chain.
