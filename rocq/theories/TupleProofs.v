(** Proofs about the model of xme::Tuple. *)
From stdpp Require Import list list_numbers sets.
From Coq Require Import Lia.
From Verif Require Import Base TupleModel TupleSpec.
Local Open Scope mon_scope.

#[global] Instance elem_eq_dec : EqDecision elem.
Proof. solve_decision. Defined.

Section proofs.
Context {V : Type}.
Notation cells := (list (option V)).

Lemma elems_get t es i e (l : cells) : elems t es → es !! i = Some e → get i t l = Ok e l.
Proof.
  intros [E2 E1] Hi. unfold get.
  enough (H : ∀ k, t.*1 = seq k (length es) → base (k + i) t l = Ok e l) by exact (H 0 E1).
  clear E1. revert t i E2 Hi. induction es as [|e0 es IH]; intros t i E2 Hi k E1; [done|].
  destruct t as [|[j e'] t]; [done|]. simpl in *. injection E2 as -> E2. injection E1 as -> E1.
  destruct i as [|i].
  - injection Hi as ->. rewrite Nat.add_0_r, Nat.eqb_refl. done.
  - simpl in Hi. destruct (Nat.eqb_spec (k + S i) k); [lia|].
    replace (k + S i) with (S k + i) by lia. by apply IH.
Qed.
Lemma elems_get_None t es i (l : cells) : elems t es → es !! i = None → get i t l = UB NoObject.
Proof.
  intros [E2 E1] Hi. unfold get. apply lookup_ge_None in Hi.
  enough (H : ∀ k, t.*1 = seq k (length es) → length es ≤ i → base (k + i) t l = UB NoObject) by exact (H 0 E1 Hi).
  clear E1 Hi. revert t i E2. induction es as [|e0 es IH]; intros t i E2 k E1 Hi.
  - by destruct t.
  - destruct t as [|[j e'] t]; [done|]. simpl in *. injection E2 as -> E2. injection E1 as -> E1.
    destruct (Nat.eqb_spec (k + i) k); [lia|].
    replace (k + i) with (S k + (i - 1)) by lia. apply IH; [done..|lia].
Qed.
Lemma elems_size t es : elems t es → size t = length es.
Proof. intros [<- _]. unfold size. by rewrite fmap_length. Qed.
Lemma elems_of es : elems (tuple_of es) es.
Proof.
  unfold tuple_of, index_sequence. split; [apply snd_zip|apply fst_zip]; by rewrite seq_length.
Qed.

Lemma read_Ok a v (l : cells) : l !! a = Some (Some v) → read a l = Ok v l.
Proof. unfold read. by intros ->. Qed.
Lemma write_Ok a c (l : cells) : a < length l → write a c l = Ok tt (<[a := c]> l).
Proof. intros H. unfold write. destruct (lookup_lt_is_Some_2 l a H) as [x ->]. done. Qed.
Lemma bind_Ok {St B C} (m : M St B) (k : B → M St C) s b s' : m s = Ok b s' → bind m k s = k b s'.
Proof. unfold bind. by intros ->. Qed.

(** ** Assignment *)
Fixpoint copy_list (ds ss : list elem) (rv : bool) : M cells unit :=
  match ds, ss with
  | d :: ds', s :: ss' => v <- take_value rv s ;; write (addr d) (Some v) ;;; copy_list ds' ss' rv
  | _, _ => ret tt
  end.
Lemma assign_index_eq this ds u ss rv n k (l : cells) : elems this ds → elems u ss → k + n ≤ length ds → k + n ≤ length ss →
  assign_index this u rv (seq k n) l = copy_list (take n (drop k ds)) (take n (drop k ss)) rv l.
Proof.
  intros Hd Hs. revert k l. induction n as [|n IH]; intros k l Ld Ls; [done|].
  destruct (lookup_lt_is_Some_2 ds k) as [d Hdk]; [lia|].
  destruct (lookup_lt_is_Some_2 ss k) as [s Hsk]; [lia|].
  rewrite (drop_S _ _ _ Hdk), (drop_S _ _ _ Hsk). cbn [seq assign_index take firstn copy_list].
  rewrite (bind_Ok _ _ _ _ _ (elems_get _ _ _ _ l Hd Hdk)).
  rewrite (bind_Ok _ _ _ _ _ (elems_get _ _ _ _ l Hs Hsk)).
  unfold bind. destruct (take_value rv s l) as [v l1|l1|x]; [|done..].
  destruct (write (addr d) (Some v) l1) as [[] l2|l2|x]; [|done..].
  apply IH; lia.
Qed.
(** What a list of copies leaves behind. *)
Definition moved (rv : bool) (ss : list elem) (a : nat) : bool := rv && bool_decide (Own a ∈ ss).
Lemma copy_list_post ds ss rv ws (l : cells) :
  length ds = length ss → NoDup (addrs ds) → NoDup (addrs ss) → (∀ a, a ∈ addrs ds → a ∉ addrs ss) →
  (∀ a, a ∈ addrs ds → a < length l) → values l ss ws →
  ∃ l', copy_list ds ss rv l = Ok tt l' ∧ length l' = length l ∧ values l' ds ws ∧
    ∀ a, a ∉ addrs ds → l' !! a = if moved rv ss a then Some None else l !! a.
Proof.
  revert ss ws l. induction ds as [|d ds IH]; intros ss ws l Hlen Hnd Hns Hdis Hlt Hv.
  - destruct ss; [|done]. inversion Hv; subst. exists l. split_and!; [done..|by constructor|].
    intros a _. unfold moved. rewrite bool_decide_eq_false_2 by apply not_elem_of_nil. by rewrite andb_false_r.
  - destruct ss as [|s ss]; [done|]. destruct ws as [|w ws]; [by inversion Hv|].
    apply Forall2_cons in Hv as [Hw Hv]. simpl in *.
    apply NoDup_cons in Hnd as [Hnd1 Hnd]. apply NoDup_cons in Hns as [Hns1 Hns].
    assert (Hsl := lookup_lt_Some _ _ _ Hw).
    set (l1 := match s with Own a => if rv then <[a := None]> l else l | Ref _ => l end).
    assert (L1 : length l1 = length l) by (unfold l1; destruct s, rv; by rewrite ?insert_length).
    assert (E1 : take_value rv s l = Ok w l1).
    { unfold take_value. rewrite (bind_Ok _ _ _ _ _ (read_Ok _ _ _ Hw)). destruct s as [a|a]; [|done].
      destruct rv; [|done]. by rewrite (bind_Ok _ _ _ _ _ (write_Ok a None l Hsl)). }
    rewrite (bind_Ok _ _ _ _ _ E1).
    rewrite (bind_Ok _ _ _ _ _ (write_Ok (addr d) (Some w) l1 ltac:(rewrite L1; apply Hlt; apply elem_of_cons; by left))).
    assert (Hds : addr d ≠ addr s) by (intros E; apply (Hdis (addr d)); apply elem_of_cons; by left).
    assert (Hl1 : ∀ a, l1 !! a = if moved rv [s] a then Some None else l !! a).
    { intros a. unfold l1, moved. destruct s as [b|b], rv; simpl; try done.
      case_bool_decide as H.
      - apply elem_of_list_singleton in H. injection H as ->. by rewrite list_lookup_insert.
      - rewrite list_lookup_insert_ne; [done|]. intros ->. apply H. by apply elem_of_list_singleton. }
    destruct (IH ss ws (<[addr d := Some w]> l1)) as (l' & E & L' & Hv' & Hr').
    + lia.
    + done.
    + done.
    + intros a Ha Hin. apply (Hdis a); apply elem_of_cons; by right.
    + intros a Ha. rewrite insert_length, L1. apply Hlt. apply elem_of_cons; by right.
    + apply Forall2_same_length_lookup. apply Forall2_same_length_lookup in Hv as [HL Hv]. split; [done|].
      intros i e v He Hvv. specialize (Hv i e v He Hvv).
      assert (Hin : addr e ∈ addrs ss) by (apply elem_of_list_fmap; exists e; split; [done|by eapply elem_of_list_lookup_2]).
      rewrite list_lookup_insert_ne by (intros E; apply (Hdis (addr d)); apply elem_of_cons; [by left|right; by rewrite E]).
      rewrite Hl1. unfold moved. rewrite bool_decide_eq_false_2; [by rewrite andb_false_r|].
      rewrite elem_of_list_singleton. intros <-. by apply Hns1.
    + exists l'. split_and!; [done|by rewrite L', insert_length| |].
      * constructor; [|done]. rewrite Hr' by done. unfold moved. rewrite bool_decide_eq_false_2.
        -- rewrite andb_false_r. apply list_lookup_insert. rewrite L1. apply Hlt. apply elem_of_cons; by left.
        -- intros Hin. apply (Hdis (addr d)); [apply elem_of_cons; by left|]. apply elem_of_cons. right.
           apply elem_of_list_fmap. by exists (Own (addr d)).
      * intros a Ha. apply not_elem_of_cons in Ha as [Ha1 Ha2]. rewrite Hr' by done.
        rewrite list_lookup_insert_ne by done. rewrite Hl1. unfold moved.
        destruct rv; [|done]. simpl.
        destruct (decide (Own a ∈ ss)) as [H1|H1]; [rewrite (bool_decide_eq_true_2 _ H1), bool_decide_eq_true_2 by (apply elem_of_cons; by right); done|].
        rewrite (bool_decide_eq_false_2 _ H1). apply (f_equal (λ b : bool, if b then Some None else l !! a)).
        apply bool_decide_ext. rewrite !elem_of_cons, elem_of_nil. naive_solver.
Qed.
Lemma copy_list_self ds vs (l : cells) : values l ds vs → copy_list ds ds false l = Ok tt l.
Proof.
  induction 1 as [|d v ds vs Hd _ IH]; [done|]. cbn [copy_list].
  assert (E : take_value false d l = Ok v l).
  { unfold take_value. rewrite (bind_Ok _ _ _ _ _ (read_Ok _ _ _ Hd)). by destruct d. }
  rewrite (bind_Ok _ _ _ _ _ E), (bind_Ok _ _ _ _ _ (write_Ok _ _ _ (lookup_lt_Some _ _ _ Hd))).
  by rewrite list_insert_id.
Qed.
Lemma assign_post this ds u ss rv ws (l : cells) :
  elems this ds → elems u ss → length ds ≤ length ss → NoDup (addrs ds) → NoDup (addrs ss) →
  (∀ a, a ∈ addrs ds → a ∉ addrs ss) → (∀ a, a ∈ addrs ds → a < length l) → values l ss ws →
  ∃ l', assign this u rv l = Ok tt l' ∧ length l' = length l ∧ values l' ds (take (length ds) ws) ∧
    ∀ a, a ∉ addrs ds → l' !! a = if moved rv (take (length ds) ss) a then Some None else l !! a.
Proof.
  intros Hd Hs Hlen Hnd Hns Hdis Hlt Hv.
  unfold assign, index_sequence. rewrite (elems_size _ _ Hd).
  rewrite (assign_index_eq this ds u ss) by (done || lia). rewrite !drop_0, (take_ge ds) by done.
  assert (Hsub : addrs (take (length ds) ss) = take (length ds) (addrs ss)) by apply fmap_take.
  apply copy_list_post.
  - rewrite take_length. lia.
  - done.
  - rewrite Hsub. rewrite <- (take_drop (length ds) (addrs ss)) in Hns. by apply NoDup_app in Hns as [? _].
  - intros a Ha Hin. apply (Hdis a Ha). rewrite Hsub in Hin. rewrite <- (take_drop (length ds) (addrs ss)). apply elem_of_app. by left.
  - done.
  - by apply Forall2_take.
Qed.

(** ** Swap *)
Fixpoint swap_list (ds ss : list elem) : M cells unit :=
  match ds, ss with
  | d :: ds', s :: ss' => swap_values (addr d) (addr s) ;;; swap_list ds' ss'
  | _, _ => ret tt
  end.
Lemma swap_index_eq this ds u ss n k (l : cells) : elems this ds → elems u ss → k + n ≤ length ds → k + n ≤ length ss →
  swap_index this u (seq k n) l = swap_list (take n (drop k ds)) (take n (drop k ss)) l.
Proof.
  intros Hd Hs. revert k l. induction n as [|n IH]; intros k l Ld Ls; [done|].
  destruct (lookup_lt_is_Some_2 ds k) as [d Hdk]; [lia|].
  destruct (lookup_lt_is_Some_2 ss k) as [s Hsk]; [lia|].
  rewrite (drop_S _ _ _ Hdk), (drop_S _ _ _ Hsk). cbn [seq swap_index take firstn swap_list].
  rewrite (bind_Ok _ _ _ _ _ (elems_get _ _ _ _ l Hd Hdk)).
  rewrite (bind_Ok _ _ _ _ _ (elems_get _ _ _ _ l Hs Hsk)).
  unfold bind at 1. unfold bind at 1. destruct (swap_values (addr d) (addr s) l) as [[] l1|l1|x]; [|done..].
  apply IH; lia.
Qed.
Lemma swap_values_Ok a b x y (l : cells) : l !! a = Some (Some x) → l !! b = Some (Some y) →
  swap_values a b l = Ok tt (<[b := Some x]> (<[a := Some y]> l)).
Proof.
  intros Ha Hb. unfold swap_values. rewrite (bind_Ok _ _ _ _ _ (read_Ok _ _ _ Ha)), (bind_Ok _ _ _ _ _ (read_Ok _ _ _ Hb)).
  assert (La := lookup_lt_Some _ _ _ Ha). assert (Lb := lookup_lt_Some _ _ _ Hb).
  rewrite (bind_Ok _ _ _ _ _ (write_Ok a (Some y) l La)). by rewrite write_Ok by (by rewrite insert_length).
Qed.
Lemma values_insert es vs a c (l : cells) : values l es vs → a ∉ addrs es → values (<[a := c]> l) es vs.
Proof.
  intros Hv Ha. apply Forall2_same_length_lookup. apply Forall2_same_length_lookup in Hv as [HL Hv]. split; [done|].
  intros i e v He Hvv. specialize (Hv i e v He Hvv). rewrite list_lookup_insert_ne; [done|].
  intros ->. apply Ha. apply elem_of_list_fmap. exists e. split; [done|]. by eapply elem_of_list_lookup_2.
Qed.
Lemma swap_list_post ds ss vs ws (l : cells) :
  length ds = length ss → NoDup (addrs ds ++ addrs ss) → values l ds vs → values l ss ws →
  ∃ l', swap_list ds ss l = Ok tt l' ∧ length l' = length l ∧ values l' ds ws ∧ values l' ss vs ∧
    ∀ a, a ∉ addrs ds → a ∉ addrs ss → l' !! a = l !! a.
Proof.
  revert ss vs ws l. induction ds as [|d ds IH]; intros ss vs ws l Hlen Hnd Hv Hw.
  - destruct ss; [|done]. inversion Hv; inversion Hw; subst. exists l. split_and!; [done..|constructor|constructor|done].
  - destruct ss as [|s ss]; [done|]. destruct vs as [|v vs]; [by inversion Hv|]. destruct ws as [|w ws]; [by inversion Hw|].
    apply Forall2_cons in Hv as [Hv0 Hv]. apply Forall2_cons in Hw as [Hw0 Hw]. simpl in *.
    assert (Hnd' : NoDup (addr d :: addr s :: addrs ds ++ addrs ss)).
    { rewrite (Permutation_middle (addrs ds) (addrs ss) (addr s)). exact Hnd. }
    apply NoDup_cons in Hnd' as [Hn1 Hnd']. apply NoDup_cons in Hnd' as [Hn2 Hnd'].
    rewrite elem_of_cons, elem_of_app in Hn1. rewrite elem_of_app in Hn2.
    assert (Ld := lookup_lt_Some _ _ _ Hv0). assert (Ls := lookup_lt_Some _ _ _ Hw0).
    rewrite (bind_Ok _ _ _ _ _ (swap_values_Ok _ _ _ _ _ Hv0 Hw0)).
    destruct (IH ss vs ws (<[addr s:=Some v]> (<[addr d:=Some w]> l))) as (l' & E & L' & Hv' & Hw' & Hr').
    + lia.
    + done.
    + apply values_insert; [apply values_insert; [done|]|]; tauto.
    + apply values_insert; [apply values_insert; [done|]|]; tauto.
    + exists l'. split_and!; [done|by rewrite L', !insert_length|constructor; [|done]|constructor; [|done]|].
      * rewrite Hr' by tauto. rewrite list_lookup_insert_ne by (intros E'; apply Hn1; auto). by apply list_lookup_insert.
      * rewrite Hr' by tauto. apply list_lookup_insert. by rewrite insert_length.
      * intros a [Ha1 Ha2]%not_elem_of_cons [Hb1 Hb2]%not_elem_of_cons. rewrite Hr' by done.
        by rewrite !list_lookup_insert_ne by done.
Qed.
Lemma swap_list_self ds vs (l : cells) : values l ds vs → swap_list ds ds l = Ok tt l.
Proof.
  induction 1 as [|d v ds vs Hd _ IH]; [done|]. cbn [swap_list].
  rewrite (bind_Ok _ _ _ _ _ (swap_values_Ok _ _ _ _ _ Hd Hd)).
  by rewrite list_insert_insert, list_insert_id.
Qed.
Lemma swap_post this ds u ss vs ws (l : cells) :
  elems this ds → elems u ss → length ds = length ss → NoDup (addrs ds ++ addrs ss) → values l ds vs → values l ss ws →
  ∃ l', swap this u l = Ok tt l' ∧ length l' = length l ∧ values l' ds ws ∧ values l' ss vs ∧
    ∀ a, a ∉ addrs ds → a ∉ addrs ss → l' !! a = l !! a.
Proof.
  intros Hd Hs Hlen Hnd Hv Hw. unfold swap, index_sequence. rewrite (elems_size _ _ Hd).
  rewrite (swap_index_eq this ds u ss) by (done || lia). rewrite !drop_0, !take_ge by lia.
  by apply swap_list_post.
Qed.

(** ** Reading all elements *)
Lemma get_all_eq t es n k (l : cells) : elems t es → k + n ≤ length es →
  get_all t (seq k n) l = Ok (take n (drop k es)) l.
Proof.
  intros Ht. revert k. induction n as [|n IH]; intros k Hk; [done|].
  destruct (lookup_lt_is_Some_2 es k) as [e He]; [lia|].
  rewrite (drop_S _ _ _ He). cbn [seq get_all take firstn].
  rewrite (bind_Ok _ _ _ _ _ (elems_get _ _ _ _ l Ht He)).
  by rewrite (bind_Ok _ _ _ _ _ (IH (S k) ltac:(lia))).
Qed.
Lemma get_all_size t es (l : cells) : elems t es → get_all t (index_sequence (size t)) l = Ok es l.
Proof.
  intros Ht. unfold index_sequence. rewrite (elems_size _ _ Ht), (get_all_eq t es) by done.
  by rewrite drop_0, take_ge.
Qed.
Lemma read_all_Ok es vs (l : cells) : values l es vs → read_all es l = Ok vs l.
Proof.
  induction 1 as [|e v es vs He _ IH]; [done|]. cbn [read_all].
  rewrite (bind_Ok _ _ _ _ _ (read_Ok _ _ _ He)). by rewrite (bind_Ok _ _ _ _ _ IH).
Qed.
Lemma values_app es vs (l l' : cells) : values l es vs → values (l ++ l') es vs.
Proof.
  intros H. eapply Forall2_impl; [exact H|]. simpl. intros e v He. by apply lookup_app_l_Some.
Qed.
Lemma alloc_all_Ok vs (l : cells) :
  alloc_all vs l = Ok (map Own (seq (length l) (length vs))) (l ++ map Some vs).
Proof.
  revert l. induction vs as [|v vs IH]; intros l; cbn [alloc_all]; [by rewrite app_nil_r|].
  rewrite (bind_Ok (alloc v) _ l (length l) (l ++ [Some v]) eq_refl). rewrite (bind_Ok _ _ _ _ _ (IH _)).
  rewrite app_length. simpl. rewrite Nat.add_1_r. by rewrite <- app_assoc.
Qed.
Lemma values_fresh vs (l : cells) : values (l ++ map Some vs) (map Own (seq (length l) (length vs))) vs.
Proof.
  apply Forall2_same_length_lookup. rewrite map_length, seq_length. split; [done|].
  intros i e v He Hv. rewrite list_lookup_fmap in He. apply fmap_Some in He as (a & Ha & ->).
  apply lookup_seq in Ha as [-> Hlt]. simpl. rewrite lookup_app_r by lia.
  replace (length l + i - length l) with i by lia. by rewrite list_lookup_fmap, Hv.
Qed.

(** ** tuple_cat *)
Lemma map_const k j n : map (λ o, k + 0 * o) (seq j n) = replicate n k.
Proof. revert j. induction n as [|n IH]; intros j; [done|]. cbn [seq map replicate]. rewrite IH. f_equal. lia. Qed.
Lemma cat_indices_eq outer inner next ns : cat_indices outer inner next (map (seq 0) ns) =
  (outer ++ concat (map (seq 0) ns), inner ++ concat (imap (λ i n, replicate n (next + i)) ns)).
Proof.
  revert outer inner next. induction ns as [|n ns IH]; intros outer inner next; cbn [map cat_indices concat imap].
  - by rewrite !app_nil_r.
  - rewrite IH. f_equal; [by rewrite <- app_assoc|].
    rewrite <- app_assoc. do 2 f_equal.
    + by rewrite Nat.add_0_r, map_const.
    + simpl. f_equal. apply imap_ext. intros i x _. simpl. f_equal. lia.
Qed.
(** Elements of the result. *)
Fixpoint cat_elems (es : list elem) (n : nat) : list elem :=
  match es with
  | [] => []
  | Own _ :: es' => Own n :: cat_elems es' (S n)
  | Ref a :: es' => Ref a :: cat_elems es' n
  end.
Fixpoint cat_cells (es : list elem) (vs : list V) : list V :=
  match es, vs with
  | Own _ :: es', v :: vs' => v :: cat_cells es' vs'
  | Ref _ :: es', _ :: vs' => cat_cells es' vs'
  | _, _ => []
  end.
Lemma values_cat es vs (l : cells) : values l es vs →
  values (l ++ map Some (cat_cells es vs)) (cat_elems es (length l)) vs.
Proof.
  intros H. revert l H. enough (Hg : ∀ l0 l, length l0 ≤ length l → values l0 es vs → (∀ a x, l0 !! a = Some x → l !! a = Some x) →
    values (l ++ map Some (cat_cells es vs)) (cat_elems es (length l)) vs) by (intros l H; by apply (Hg l)).
  intros l0 l Hle H. revert l Hle. induction H as [|e v es vs He Hv IH]; intros l Hle Hl; [constructor|].
  destruct e as [a|a]; simpl in *.
  - assert (E : l ++ Some v :: map Some (cat_cells es vs) = (l ++ [Some v]) ++ map Some (cat_cells es vs)) by by rewrite <- app_assoc.
    constructor.
    + simpl. rewrite list_lookup_middle by done. done.
    + rewrite E. replace (S (length l)) with (length (l ++ [Some v])) by (rewrite app_length; simpl; lia).
      apply IH; [rewrite app_length; lia|]. intros b x Hb. apply lookup_app_l_Some. by apply Hl.
  - constructor.
    + simpl. apply lookup_app_l_Some. by apply Hl.
    + by apply IH.
Qed.
Lemma cat_impl_eq ts k os is_ es vs t (l : cells) :
  ts !! k = Some t → elems t es → values l es vs →
  ∀ n j, j + n = length es →
  tuple_cat_impl (seq j n ++ os) (replicate n k ++ is_) ts l =
    (es' <- (fun l1 => Ok (cat_elems (drop j es) (length l1)) (l1 ++ map Some (cat_cells (drop j es) (drop j vs)))) ;;
     rest <- tuple_cat_impl os is_ ts ;; ret (es' ++ rest)) l.
Proof.
  intros Hk Ht Hv n. revert l Hv. induction n as [|n IH]; intros l Hv j Hj.
  - simpl. rewrite drop_ge by lia. unfold bind. simpl. rewrite app_nil_r.
    by destruct (tuple_cat_impl os is_ ts l).
  - assert (Hlen := Forall2_length _ _ _ Hv).
    destruct (lookup_lt_is_Some_2 es j) as [e He]; [lia|]. destruct (lookup_lt_is_Some_2 vs j) as [v Hvj]; [lia|].
    assert (Hev := Forall2_lookup_lr _ _ _ _ _ _ Hv He Hvj). simpl in Hev.
    cbn [seq replicate app tuple_cat_impl].
    assert (E1 : get_tuple (V := V) ts k l = Ok t l) by (unfold get_tuple; by rewrite Hk).
    rewrite (bind_Ok _ _ _ _ _ E1), (bind_Ok _ _ _ _ _ (elems_get _ _ _ _ l Ht He)).
    rewrite (drop_S _ _ _ He), (drop_S _ _ _ Hvj). destruct e as [a|a].
    + rewrite (bind_Ok _ _ l (Own (length l)) (l ++ [Some v])).
      2:{ rewrite (bind_Ok _ _ _ _ _ (read_Ok _ _ _ Hev)). done. }
      unfold bind at 1. rewrite (IH (l ++ [Some v]) ltac:(by apply values_app) (S j) ltac:(lia)).
      unfold bind. simpl. rewrite app_length. simpl. rewrite Nat.add_1_r, <- app_assoc. simpl.
      by destruct (tuple_cat_impl os is_ ts _).
    + rewrite (bind_Ok _ _ l (Ref a) l) by done.
      unfold bind at 1. rewrite (IH l Hv (S j) ltac:(lia)). unfold bind. simpl.
      by destruct (tuple_cat_impl os is_ ts _).
Qed.

Lemma cat_elems_made es n : Forall2 made_from es (cat_elems es n).
Proof.
  revert n. induction es as [|[a|a] es IH]; intros n; simpl; constructor; try done; simpl; eauto.
Qed.
Lemma cat_elems_own es vs n : length es = length vs →
  omap own (cat_elems es n) = seq n (length (cat_cells es vs)).
Proof.
  revert vs n. induction es as [|[a|a] es IH]; intros [|v vs] n H; try done; simpl in *.
  - f_equal. apply IH. lia.
  - apply IH. lia.
Qed.
Lemma tuple_cat_post_gen ts0 k ts ess vss (l : cells) :
  drop k ts0 = ts → Forall2 elems ts ess → Forall2 (values l) ess vss →
  ∃ es' l2, tuple_cat_impl (concat (map (seq 0) (map length ess)))
      (concat (imap (λ i n, replicate n (k + i)) (map length ess))) ts0 l = Ok es' (l ++ l2) ∧
    values (l ++ l2) es' (concat vss) ∧ Forall2 made_from (concat ess) es' ∧
    omap own es' = seq (length l) (length l2).
Proof.
  intros Hts Ht Hv. revert k l vss Hts Hv. induction Ht as [|t es ts ess He Ht IH]; intros k l vss Hts Hv.
  - inversion Hv; subst. exists [], []. rewrite app_nil_r. simpl. split_and!; [done|constructor..|done].
  - destruct vss as [|vs vss]; [by inversion Hv|]. apply Forall2_cons in Hv as [Hv1 Hv]. cbn [map concat imap].
    assert (Hk : ts0 !! k = Some t).
    { rewrite <- (Nat.add_0_r k), <- lookup_drop, Hts. done. }
    rewrite Nat.add_0_r, (cat_impl_eq ts0 k _ _ es vs t l Hk He Hv1 (length es) 0 eq_refl).
    rewrite !drop_0.
    rewrite (bind_Ok _ _ l (cat_elems es (length l)) (l ++ map Some (cat_cells es vs)) eq_refl).
    destruct (IH (S k) (l ++ map Some (cat_cells es vs)) vss) as (es' & l2 & E & Hval & Hmade & Hown).
    + rewrite <- Nat.add_1_r, <- drop_drop, Hts. done.
    + eapply Forall2_impl; [exact Hv|]. intros; by apply values_app.
    + exists (cat_elems es (length l) ++ es'), (map Some (cat_cells es vs) ++ l2).
      assert (Eim : imap (λ i n, replicate n (S k + i)) (map length ess) = imap ((λ i n, replicate n (k + i)) ∘ S) (map length ess)).
      { apply imap_ext. intros i x _. simpl. f_equal. lia. }
      rewrite Eim in E. split_and!.
      * rewrite (bind_Ok _ _ _ _ _ E). by rewrite app_assoc.
      * rewrite app_assoc. apply Forall2_app; [|done]. apply values_app. by apply values_cat.
      * apply Forall2_app; [apply cat_elems_made|done].
      * rewrite omap_app, (cat_elems_own es vs) by (by eapply Forall2_length).
        rewrite Hown, app_length, app_length, map_length, seq_app. done.
Qed.
Lemma tuple_cat_post ts ess vss (l : cells) :
  Forall2 elems ts ess → Forall2 (values l) ess vss →
  ∃ t es' l2, tuple_cat ts l = Ok t (l ++ l2) ∧ holds (l ++ l2) t es' (concat vss) ∧
    Forall2 made_from (concat ess) es' ∧ omap own es' = seq (length l) (length l2).
Proof.
  intros Ht Hv. destruct (tuple_cat_post_gen ts 0 ts ess vss l (drop_0 _) Ht Hv) as (es' & l2 & E & Hval & Hm & Ho).
  exists (tuple_of es'), es', l2. split_and!; [|split; [apply elems_of|done]|done..].
  unfold tuple_cat, tuple_cat_t, index_sequence.
  assert (En : map (λ t, seq 0 (size t)) ts = map (seq 0) (map length ess)).
  { clear -Ht. induction Ht as [|t es ts ess He _ IH]; [done|]. cbn [map]. by rewrite IH, (elems_size _ _ He). }
  rewrite En, cat_indices_eq. cbn [fst snd app]. by rewrite (bind_Ok _ _ _ _ _ E).
Qed.

(** ** Comparison *)
Lemma tuple_eq_post eqb t es vs u es' ws (l : cells) :
  holds l t es vs → holds l u es' ws → length es = length es' →
  ∃ b, tuple_eq eqb t u l = Ok b l ∧ (b = true ↔ Forall2 (λ x y, eqb x y = true) vs ws).
Proof.
  intros [[<- _] Hv] [[<- _] Hw]. revert vs ws u Hv Hw.
  induction t as [|[i e] t IH]; intros vs ws [|[j e'] u] Hv Hw Hlen; simpl in *; try done.
  - inversion Hv; inversion Hw; subst. exists true. done.
  - destruct vs as [|v vs]; [by inversion Hv|]. destruct ws as [|w ws]; [by inversion Hw|].
    apply Forall2_cons in Hv as [Hv0 Hv]. apply Forall2_cons in Hw as [Hw0 Hw].
    rewrite (bind_Ok _ _ _ _ _ (read_Ok _ _ _ Hv0)), (bind_Ok _ _ _ _ _ (read_Ok _ _ _ Hw0)).
    destruct (eqb v w) eqn:E.
    + destruct (IH vs ws u Hv Hw (eq_add_S _ _ Hlen)) as (b & Eb & Hb). exists b. split; [done|].
      rewrite Hb. split; [by constructor|by intros [_ ?]%Forall2_cons].
    + exists false. split; [done|]. split; [done|]. intros [? _]%Forall2_cons. congruence.
Qed.
(** The comparison as a function of the values. *)
Fixpoint lex (cmp : V → V → option comparison) (vs ws : list V) : option comparison :=
  match vs, ws with
  | v :: vs', w :: ws' => match cmp v w with Some Eq => lex cmp vs' ws' | r => r end
  | _, _ => Some Eq
  end.
Lemma tuple_cmp_eq cmp t es vs u es' ws (l : cells) :
  holds l t es vs → holds l u es' ws → length es = length es' → tuple_cmp cmp t u l = Ok (lex cmp vs ws) l.
Proof.
  intros [[<- _] Hv] [[<- _] Hw]. revert vs ws u Hv Hw.
  induction t as [|[i e] t IH]; intros vs ws [|[j e'] u] Hv Hw Hlen; simpl in *; try done.
  - by inversion Hv; inversion Hw; subst.
  - destruct vs as [|v vs]; [by inversion Hv|]. destruct ws as [|w ws]; [by inversion Hw|].
    apply Forall2_cons in Hv as [Hv0 Hv]. apply Forall2_cons in Hw as [Hw0 Hw].
    rewrite (bind_Ok _ _ _ _ _ (read_Ok _ _ _ Hv0)), (bind_Ok _ _ _ _ _ (read_Ok _ _ _ Hw0)).
    simpl. destruct (cmp v w) as [[]|]; try done. exact (IH vs ws u Hv Hw (eq_add_S _ _ Hlen)).
Qed.
Lemma lex_spec cmp vs ws : length vs = length ws → lexicographic cmp vs ws (lex cmp vs ws).
Proof.
  revert ws. induction vs as [|v vs IH]; intros [|w ws] H; try done.
  - left. split; [done|]. intros i x y Hx. done.
  - simpl in H. destruct (decide (cmp v w = Some Eq)) as [E|E].
    + simpl. rewrite E. destruct (IH ws ltac:(lia)) as [[E1 H1]|[E1 (i & x & y & Hx & Hy & Hc & Hj)]].
      * left. split; [done|]. intros [|i] x y Hx Hy; [by injection Hx as ->; injection Hy as ->|by apply (H1 i)].
      * right. split; [done|]. exists (S i), x, y. split_and!; [done..|].
        intros [|j] x' y' Hlt Hx' Hy'; [by injection Hx' as ->; injection Hy' as ->|].
        apply (Hj j); [lia|done..].
    + assert (El : lex cmp (v :: vs) (w :: ws) = cmp v w) by (simpl; by destruct (cmp v w) as [[]|]).
      rewrite El. right. split; [done|]. exists 0, v, w. split_and!; [done..|]. intros j ? ? Hlt. lia.
Qed.
Lemma lex_total_order cmp n : total_order (λ _, True) cmp → total_order (λ vs, length vs = n) (lex cmp).
Proof.
  intros [T E O R]. split.
  - intros x y _ _. revert y. induction x as [|v vs IH]; intros [|w ws]; simpl; eauto.
    destruct (T v w I I) as [[] Hc]; rewrite Hc; eauto.
  - intros x y Hx Hy. subst n. revert y Hy. induction x as [|v vs IH]; intros [|w ws] Hy; simpl in *; try done.
    specialize (IH ws ltac:(lia)). specialize (E v w I I). destruct (cmp v w) as [[]|]; split; intros H; try done; try naive_solver.
  - intros x y _ _. revert y. induction x as [|v vs IH]; intros [|w ws]; simpl; try done.
    rewrite (O v w I I). destruct (T v w I I) as [[] Hc]; rewrite Hc; simpl; eauto.
  - intros x y z Hx Hy Hz. subst n. revert y z Hy Hz.
    induction x as [|v vs IH]; intros [|w ws] [|u us] Hy Hz; simpl in *; try done.
    intros H1 H2.
    destruct (cmp v w) as [[]|] eqn:E1; try done; destruct (cmp w u) as [[]|] eqn:E2; try done.
    + apply E in E1; [|done..]. apply E in E2; [|done..]. subst. rewrite (proj2 (E u u I I) eq_refl).
      eapply IH; [| |done|done]; lia.
    + apply E in E1; [|done..]. subst. by rewrite E2.
    + apply E in E2; [|done..]. subst. by rewrite E1.
    + by rewrite (R v w u I I I E1 E2).
Qed.
End proofs.
