From stdpp Require Import list.
From Verif Require Import Base ArrayModel ArraySpec ArrayRun.
Local Open Scope mon_scope.
Global Arguments get_cell : simpl never.
Global Arguments set_cell : simpl never.
Global Arguments load : simpl never.
Global Arguments padd : simpl never.
Global Arguments psub : simpl never.
Global Arguments pdiff : simpl never.
Global Arguments destroy : simpl never.
Global Arguments construct : simpl never.
Global Arguments assign_move : simpl never.
Global Arguments assign_copy : simpl never.
Global Arguments assign_arg : simpl never.
Global Arguments move_construct : simpl never.
Global Arguments dealloc : simpl never.
Global Arguments alloc : simpl never.
Global Arguments get_arr : simpl never.
Global Arguments set_arr : simpl never.
Global Arguments bind : simpl never.

Section proofs.
Context {V : Type}.
Implicit Types (l : list V) (cs : list (cell V)) (s : st V).
Notation heapT := (list (option (list (cell V)))).
Notation S_ h o r m k := (@mkSt V h o r m k).

Lemma insert_mid {A} (p q : list A) (c c' : A) :
  <[length p := c']> (p ++ c :: q) = p ++ c' :: q.
Proof. induction p; simpl; [done|by f_equal]. Qed.
Lemma insert_mid' {A} i (p q : list A) (c c' : A) :
  i = length p → <[i := c']> (p ++ c :: q) = p ++ c' :: q.
Proof. intros ->. apply insert_mid. Qed.
Lemma lookup_mid {A} i (p q : list A) (c : A) :
  i = length p → (p ++ c :: q) !! i = Some c.
Proof. intros ->. by rewrite list_lookup_middle. Qed.
Lemma lookup_lt_heap {A} (h : list A) b x : h !! b = Some x → b < length h.
Proof. intros. by eapply lookup_lt_Some. Qed.

(** ** Primitives as equations *)
Lemma get_cell_eq (h : heapT) o r m k b i cs c :
  h !! b = Some (Some cs) → cs !! i = Some c →
  get_cell (Ptr b i) (S_ h o r m k) = Ok c (S_ h o r m k).
Proof. intros H1 H2. unfold get_cell; simpl. by rewrite H1, H2. Qed.

Lemma set_cell_eq (h : heapT) o r m k b i cs c c' :
  h !! b = Some (Some cs) → cs !! i = Some c →
  set_cell (Ptr b i) c' (S_ h o r m k) = Ok tt (S_ (<[b := Some (<[i := c']> cs)]> h) o r m k).
Proof. intros H1 H2. unfold set_cell; simpl. by rewrite H1, H2. Qed.

Lemma load_eq (h : heapT) o r m k b i cs v :
  h !! b = Some (Some cs) → cs !! i = Some (Live v) →
  load (Ptr b i) (S_ h o r m k) = Ok v (S_ h o r m k).
Proof.
  intros H1 H2. unfold load, bind. erewrite get_cell_eq by eauto. done.
Qed.

Lemma padd_eq (h : heapT) o r m k b i cs n :
  h !! b = Some (Some cs) → i + n ≤ length cs →
  padd (Ptr b i) n (S_ h o r m k) = Ok (Ptr b (i + n)) (S_ h o r m k).
Proof.
  intros H1 H2. unfold padd; simpl. rewrite H1.
  by rewrite (proj2 (Nat.leb_le _ _) H2).
Qed.
Lemma psub_eq (h : heapT) o r m k b i cs n :
  h !! b = Some (Some cs) → n ≤ i →
  psub (Ptr b i) n (S_ h o r m k) = Ok (Ptr b (i - n)) (S_ h o r m k).
Proof.
  intros H1 H2. unfold psub; simpl. rewrite H1.
  by rewrite (proj2 (Nat.leb_le _ _) H2).
Qed.
Lemma pdiff_eq b i j s : j ≤ i → pdiff (Ptr b i) (Ptr b j) s = Ok (i - j) s.
Proof.
  intros. unfold pdiff. by rewrite Nat.eqb_refl, (proj2 (Nat.leb_le _ _) H).
Qed.

Lemma ptr_eqb_spec p q : ptr_eqb p q = true ↔ p = q.
Proof.
  destruct p as [|b o], q as [|b' o']; simpl; try (split; congruence).
  rewrite andb_true_iff, !Nat.eqb_eq. split; [by intros [-> ->]|by intros [= -> ->]].
Qed.
Lemma ptr_eqb_refl p : ptr_eqb p p = true.
Proof. by apply ptr_eqb_spec. Qed.
Lemma ptr_eqb_neq p q : p ≠ q → ptr_eqb p q = false.
Proof. destruct (ptr_eqb p q) eqn:E; [|done]. apply ptr_eqb_spec in E. done. Qed.

(** ** Loops *)
Definition okd (triv : bool) (c : cell V) : Prop := triv = true ∨ cell_alive c = true.

Lemma assign_move_eq triv (h : heapT) o r m k b i b' i' cs cs' v c :
  b ≠ b' ∨ i ≠ i' →
  h !! b = Some (Some cs) → cs !! i = Some c → okd triv c →
  h !! b' = Some (Some cs') → cs' !! i' = Some (Live v) →
  ∃ h1, h1 = <[b' := Some (<[i' := moved_cell triv v]> cs')]> h ∧
  ∃ cs1, h1 !! b = Some (Some cs1) ∧ cs1 = (if decide (b = b') then <[i' := moved_cell triv v]> cs else cs) ∧
  assign_move triv (Ptr b i) (Ptr b' i') (S_ h o r m k) =
  Ok tt (S_ (<[b := Some (<[i := Live v]> cs1)]> h1) o r (S m) k).
Proof.
  intros Hne H1 H2 Hok H3 H4.
  eexists; split; [done|].
  set (cs1 := if decide (b = b') then <[i' := moved_cell triv v]> cs else cs).
  exists cs1.
  assert (Hb : <[b':=Some (<[i':=moved_cell triv v]> cs')]> h !! b = Some (Some cs1)).
  { subst cs1. destruct (decide (b = b')) as [->|].
    - rewrite list_lookup_insert by (by eapply lookup_lt_Some). congruence.
    - by rewrite list_lookup_insert_ne. }
  split; [done|]. split; [done|].
  unfold assign_move, assign_check, bind.
  erewrite load_eq by eauto. erewrite get_cell_eq by eauto.
  assert (Hc : (match c with
    | Raw => if triv then ret tt else fail AssignRaw
    | _ => ret tt
    end) (S_ h o r m k) = Ok tt (S_ h o r m k)).
  { destruct c; try done. destruct Hok as [->|]; done. }
  rewrite Hc. erewrite set_cell_eq by eauto. simpl.
  unfold add_moved; simpl.
  assert (∃ c', cs1 !! i = Some c') as [c' Hc'].
  { subst cs1. destruct (decide (b = b')) as [->|]; [|eauto].
    destruct Hne as [|Hne]; [done|]. rewrite list_lookup_insert_ne by done. eauto. }
  unfold modify. simpl.
  erewrite set_cell_eq by eauto. done.
Qed.

(** Forward move between two different blocks. *)
Lemma move_fwd_eq triv l : ∀ (h : heapT) o r m k b1 b2 p1 q1 p2 mid q2,
  b1 ≠ b2 →
  h !! b1 = Some (Some (p1 ++ map Live l ++ q1)) →
  h !! b2 = Some (Some (p2 ++ mid ++ q2)) →
  length mid = length l → Forall (okd triv) mid →
  move_fwd triv (length l) (Ptr b1 (length p1)) (Ptr b2 (length p2)) (S_ h o r m k) =
  Ok tt (S_ (<[b2 := Some (p2 ++ map Live l ++ q2)]>
              (<[b1 := Some (p1 ++ map (moved_cell triv) l ++ q1)]> h)) o r (length l + m) k).
Proof.
  induction l as [|v l IH]; intros h o r m k b1 b2 p1 q1 p2 mid q2 Hne H1 H2 Hlen Hok.
  - destruct mid; [|done]. simpl in *. do 2 f_equal.
    rewrite (list_insert_id h b1) by done. by rewrite list_insert_id.
  - destruct mid as [|c mid]; [done|]. simpl in *.
    apply Forall_cons in Hok as [Hc Hok].
    destruct (assign_move_eq triv h o r m k b2 (length p2) b1 (length p1)
      (p2 ++ c :: mid ++ q2) (p1 ++ Live v :: map Live l ++ q1) v c)
      as (h1 & Hh1 & cs1 & Hb2 & Hcs1 & HE); try done.
    { by left. } { by apply lookup_mid. } { by apply lookup_mid. }
    rewrite decide_False in Hcs1 by done. subst cs1.
    unfold bind at 1. rewrite HE. clear HE.
    rewrite insert_mid in Hh1. rewrite insert_mid.
    set (h2 := <[b2:=Some (p2 ++ Live v :: mid ++ q2)]> h1).
    assert (Hl1 : b1 < length h) by (by eapply lookup_lt_Some).
    assert (Hl2 : b2 < length h) by (by eapply lookup_lt_Some).
    assert (H1' : h2 !! b1 = Some (Some ((p1 ++ [moved_cell triv v]) ++ map Live l ++ q1))).
    { subst h2 h1. rewrite list_lookup_insert_ne by done.
      rewrite list_lookup_insert by done. by rewrite <-app_assoc. }
    assert (H2' : h2 !! b2 = Some (Some ((p2 ++ [Live v]) ++ mid ++ q2))).
    { subst h2 h1. rewrite list_lookup_insert by (by rewrite insert_length).
      by rewrite <-app_assoc. }
    unfold bind at 1. erewrite padd_eq; [|exact H1'|rewrite !app_length; simpl; lia].
    unfold bind at 1. erewrite padd_eq; [|exact H2'|rewrite !app_length; simpl; lia].
    replace (length p1 + 1) with (length (p1 ++ [moved_cell triv v])) by (rewrite app_length; simpl; lia).
    replace (length p2 + 1) with (length (p2 ++ [@Live V v])) by (rewrite app_length; simpl; lia).
    erewrite IH; [| |exact H1'|exact H2'| |]; [|done|lia|done].
    f_equal. f_equal; [|lia]. subst h2 h1.
    rewrite <-!app_assoc; simpl.
    rewrite (list_insert_commute _ b1 b2) by done.
    rewrite list_insert_insert. rewrite list_insert_insert. done.
Qed.

Lemma assign_copy_eq triv (h : heapT) o r m k b i b' i' cs cs' v c :
  h !! b = Some (Some cs) → cs !! i = Some c → okd triv c →
  h !! b' = Some (Some cs') → cs' !! i' = Some (Live v) →
  assign_copy triv (Ptr b i) (Ptr b' i') (S_ h o r m k) =
  Ok tt (S_ (<[b := Some (<[i := Live v]> cs)]> h) o r (S m) k).
Proof.
  intros H1 H2 Hok H3 H4.
  unfold assign_copy, assign_check, bind.
  erewrite load_eq by eauto. erewrite get_cell_eq by eauto.
  assert (Hc : (match c with
    | Raw => if triv then ret tt else fail AssignRaw
    | _ => ret tt
    end) (S_ h o r m k) = Ok tt (S_ h o r m k)).
  { destruct c; try done. destruct Hok as [->|]; done. }
  rewrite Hc. unfold modify, add_moved; simpl.
  erewrite set_cell_eq by eauto. done.
Qed.

(** Forward copy between two different blocks. *)
Lemma copy_fwd_eq triv l : ∀ (h : heapT) o r m k b1 b2 p1 q1 p2 mid q2,
  b1 ≠ b2 →
  h !! b1 = Some (Some (p1 ++ map Live l ++ q1)) →
  h !! b2 = Some (Some (p2 ++ mid ++ q2)) →
  length mid = length l → Forall (okd triv) mid →
  copy_fwd triv (length l) (Ptr b1 (length p1)) (Ptr b2 (length p2)) (S_ h o r m k) =
  Ok tt (S_ (<[b2 := Some (p2 ++ map Live l ++ q2)]> h) o r (length l + m) k).
Proof.
  induction l as [|v l IH]; intros h o r m k b1 b2 p1 q1 p2 mid q2 Hne H1 H2 Hlen Hok.
  - destruct mid; [|done]. simpl in *. do 2 f_equal. by rewrite list_insert_id.
  - destruct mid as [|c mid]; [done|]. simpl in *.
    apply Forall_cons in Hok as [Hc Hok].
    unfold bind at 1. erewrite assign_copy_eq; [|exact H2|by apply lookup_mid|done|exact H1|by apply lookup_mid].
    rewrite insert_mid.
    set (h2 := <[b2:=Some (p2 ++ Live v :: mid ++ q2)]> h).
    assert (Hl1 : b1 < length h) by (by eapply lookup_lt_Some).
    assert (Hl2 : b2 < length h) by (by eapply lookup_lt_Some).
    assert (H1' : h2 !! b1 = Some (Some ((p1 ++ [Live v]) ++ map Live l ++ q1))).
    { subst h2. rewrite list_lookup_insert_ne by done. by rewrite <-app_assoc. }
    assert (H2' : h2 !! b2 = Some (Some ((p2 ++ [Live v]) ++ mid ++ q2))).
    { subst h2. rewrite list_lookup_insert by done. by rewrite <-app_assoc. }
    unfold bind at 1. erewrite padd_eq; [|exact H1'|rewrite !app_length; simpl; lia].
    unfold bind at 1. erewrite padd_eq; [|exact H2'|rewrite !app_length; simpl; lia].
    replace (length p1 + 1) with (length (p1 ++ [@Live V v])) by (rewrite app_length; simpl; lia).
    replace (length p2 + 1) with (length (p2 ++ [@Live V v])) by (rewrite app_length; simpl; lia).
    erewrite IH; [| |exact H1'|exact H2'| |]; [|done|lia|done].
    f_equal. f_equal; [|lia]. subst h2.
    rewrite <-!app_assoc; simpl. by rewrite list_insert_insert.
Qed.

(** Forward copy inside one block, towards lower addresses (erase). *)
Lemma copy_fwd_down_eq triv l : ∀ (h : heapT) o r m k b p mid q,
  (triv = true ∨ mid = []) →
  h !! b = Some (Some (p ++ mid ++ map Live l ++ q)) →
  copy_fwd triv (length l) (Ptr b (length p + length mid)) (Ptr b (length p)) (S_ h o r m k) =
  Ok tt (S_ (<[b := Some (p ++ map Live l ++ drop (length l) (mid ++ map Live l) ++ q)]> h)
            o r (length l + m) k).
Proof.
  induction l as [|v l IH]; intros h o r m k b p mid q Ht H.
  - simpl in *. do 2 f_equal. rewrite app_nil_r. by rewrite list_insert_id.
  - simpl.
    assert (Hl : b < length h) by (by eapply lookup_lt_Some).
    assert (∃ c mid', mid ++ map Live (v :: l) = c :: mid' ++ map Live l ∧
                      mid ++ [Live v] = c :: mid' ∧ okd triv c ∧ (triv = true ∨ mid' = []))
      as (c & mid' & Hmid & Hmid2 & Hok & Ht').
    { destruct mid as [|c mid]; simpl.
      - exists (Live v), []. split_and!; try done; by right.
      - destruct Ht as [-> | ?]; [|done].
        exists c, (mid ++ [Live v]). rewrite <-app_assoc. split_and!; try done; by left. }
    assert (H' := H). rewrite (app_assoc mid), Hmid in H'. simpl in H'.
    unfold bind at 1.
    erewrite assign_copy_eq; [|exact H'|by apply lookup_mid|exact Hok|exact H|].
    2:{ rewrite app_assoc. apply lookup_mid. by rewrite app_length. }
    rewrite insert_mid.
    assert (Hlm : length mid = length mid').
    { apply (f_equal length) in Hmid2. rewrite app_length in Hmid2. simpl in *. lia. }
    set (h2 := <[b:=Some (p ++ Live v :: (mid' ++ map Live l) ++ q)]> h).
    assert (H2 : h2 !! b = Some (Some ((p ++ [Live v]) ++ mid' ++ map Live l ++ q))).
    { subst h2. rewrite list_lookup_insert by done. by rewrite <-!app_assoc. }
    unfold bind at 1. erewrite padd_eq; [|exact H2|rewrite !app_length; simpl; lia].
    unfold bind at 1. erewrite padd_eq; [|exact H2|rewrite !app_length; simpl; lia].
    replace (length p + length mid + 1) with (length (p ++ [@Live V v]) + length mid')
      by (rewrite app_length; simpl; lia).
    replace (length p + 1) with (length (p ++ [@Live V v])) by (rewrite app_length; simpl; lia).
    erewrite IH; [|exact Ht'|exact H2].
    f_equal. f_equal; [|lia]. subst h2. rewrite list_insert_insert.
    f_equal. rewrite <-!app_assoc. simpl. do 4 f_equal.
    change (Live v :: map Live l) with (map Live (v :: l)). by rewrite Hmid.
Qed.

(** Backward copy inside one block, towards higher addresses (range insert). *)
Lemma copy_bwd_up_eq triv l : ∀ (h : heapT) o r m k b p tl q,
  (triv = true ∨ tl = [] ∨ l = []) →
  h !! b = Some (Some (p ++ map Live l ++ tl ++ q)) →
  copy_bwd triv (length l) (Ptr b (length p + length l)) (Ptr b (length p + length l + length tl))
    (S_ h o r m k) =
  Ok tt (S_ (<[b := Some (p ++ take (length tl) (map Live l ++ tl) ++ map Live l ++ q)]> h)
            o r (length l + m) k).
Proof.
  induction l as [|v l IH] using rev_ind; intros h o r m k b p tl q Ht H.
  - simpl in *. do 2 f_equal. rewrite take_ge by lia. by rewrite list_insert_id.
  - rewrite app_length. simpl. replace (length l + 1) with (S (length l)) by lia. simpl.
    assert (Hl : b < length h) by (by eapply lookup_lt_Some).
    rewrite map_app in H. simpl in H.
    assert (∃ c tl', Live v :: tl = tl' ++ [c] ∧ length tl' = length tl ∧ okd triv c ∧
      (triv = true ∨ tl' = [] ∨ l = [])) as (c & tl' & Htl & Hlt & Hok & Ht').
    { destruct tl as [|c tl _] using rev_ind.
      - exists (Live v), []. split_and!; [done|done|by right|by right; left].
      - destruct Ht as [-> | [?|?]]; [|by destruct tl|by destruct l].
        exists c, (Live v :: tl). split_and!; [done| |by left|by left]. rewrite app_length; simpl; lia. }
    unfold bind at 1. erewrite psub_eq; [|exact H|lia].
    unfold bind at 1. erewrite psub_eq; [|exact H|lia].
    replace (length p + S (length l) - 1) with (length p + length l) by lia.
    replace (length p + S (length l) + length tl - 1) with (length p + length l + length tl') by lia.
    unfold bind at 1.
    assert (H' : h !! b = Some (Some ((p ++ map Live l ++ tl') ++ c :: q))).
    { rewrite H. do 2 f_equal. rewrite <-!app_assoc. do 2 f_equal. simpl.
      change (Live v :: tl ++ q) with ((Live v :: tl) ++ q). rewrite Htl. by rewrite <-app_assoc. }
    erewrite assign_copy_eq; [|exact H'| |exact Hok|exact H|].
    2:{ apply lookup_mid. rewrite !app_length, map_length. lia. }
    2:{ rewrite <-app_assoc. simpl. rewrite app_assoc. apply lookup_mid.
        rewrite app_length, map_length. lia. }
    rewrite insert_mid' by (rewrite !app_length, map_length; lia).
    rewrite <-!app_assoc.
    erewrite IH; [|exact Ht'|by rewrite list_lookup_insert].
    f_equal. rewrite list_insert_insert. f_equal; [|lia]. do 2 f_equal.
    rewrite map_app. simpl. rewrite <-app_assoc. simpl. rewrite <-Hlt.
    rewrite <- (app_assoc (map Live l)). simpl.
    rewrite Htl. f_equal.
    rewrite (app_assoc (map Live l)). rewrite (take_app_le _ [c]).
    + done.
    + rewrite app_length. lia.
Qed.

(** Backward move by one position (single insert). *)
Lemma move_bwd_one_eq triv l : ∀ (h : heapT) o r m k b p c q,
  h !! b = Some (Some (p ++ map Live l ++ c :: q)) → okd triv c →
  move_bwd triv (length l) (Ptr b (length p + length l)) (Ptr b (length p + length l + 1))
    (S_ h o r m k) =
  Ok tt (S_ (<[b := Some (p ++ (match l with [] => c | v :: _ => moved_cell triv v end)
                            :: map Live l ++ q)]> h) o r (length l + m) k).
Proof.
  induction l as [|v l IH] using rev_ind; intros h o r m k b p c q H Hc.
  - simpl in *. do 2 f_equal. by rewrite list_insert_id.
  - rewrite app_length. simpl. replace (length l + 1) with (S (length l)) by lia. simpl.
    assert (Hl : b < length h) by (by eapply lookup_lt_Some).
    rewrite map_app in H. simpl in H. rewrite <-app_assoc in H. simpl in H.
    unfold bind at 1. erewrite psub_eq; [|exact H|lia].
    unfold bind at 1. erewrite psub_eq; [|exact H|lia].
    replace (length p + S (length l) - 1) with (length p + length l) by lia.
    replace (length p + S (length l) + 1 - 1) with (length p + length l + 1) by lia.
    unfold bind at 1.
    assert (Hc1 : (p ++ map Live l ++ Live v :: c :: q) !! (length p + length l + 1) = Some c).
    { rewrite (app_assoc p). rewrite (cons_middle (Live v)), app_assoc. apply lookup_mid.
      rewrite !app_length, map_length. simpl. lia. }
    assert (Hv1 : (p ++ map Live l ++ Live v :: c :: q) !! (length p + length l) = Some (Live v)).
    { rewrite (app_assoc p). apply lookup_mid. rewrite !app_length, map_length. lia. }
    destruct (assign_move_eq triv h o r m k b (length p + length l + 1) b (length p + length l)
      _ _ v c ltac:(right; lia) H Hc1 Hc H Hv1)
      as (h1 & Hh1 & cs1 & Hb2 & Hcs1 & HE).
    rewrite decide_True in Hcs1 by done. rewrite HE. clear HE.
    rewrite Hh1, list_insert_insert.
    assert (Hcs : <[length p + length l + 1:=Live v]> cs1 =
                  p ++ map Live l ++ moved_cell triv v :: Live v :: q).
    { rewrite Hcs1. rewrite (app_assoc p).
      rewrite insert_mid' by (rewrite app_length, map_length; lia).
      rewrite (cons_middle (moved_cell triv v)), app_assoc.
      rewrite insert_mid' by (rewrite !app_length, map_length; simpl; lia).
      by rewrite <-!app_assoc. }
    rewrite Hcs.
    erewrite IH; [|by rewrite list_lookup_insert|].
    2:{ unfold moved_cell, okd. destruct triv; [by left|by right]. }
    rewrite list_insert_insert. f_equal. f_equal; [|lia]. do 2 f_equal.
    rewrite map_app. simpl. rewrite <-app_assoc. simpl.
    destruct l; simpl; done.
Qed.

Lemma destroy_eq triv (h : heapT) o r m k b p c q :
  h !! b = Some (Some (p ++ c :: q)) → okd triv c →
  destroy triv (Ptr b (length p)) (S_ h o r m k) =
  Ok tt (S_ (<[b := Some (p ++ Raw :: q)]> h) o r m k).
Proof.
  intros H Hc. unfold destroy, bind.
  erewrite get_cell_eq; [|exact H|by apply lookup_mid].
  assert (Hset : set_cell (Ptr b (length p)) Raw (S_ h o r m k) =
    Ok tt (S_ (<[b:=Some (p ++ Raw :: q)]> h) o r m k)).
  { erewrite set_cell_eq; [|exact H|by apply lookup_mid]. by rewrite insert_mid. }
  destruct c; try done. destruct Hc as [->|]; [|done].
  unfold ret. by rewrite list_insert_id.
Qed.

Lemma destroy_loop_eq triv mid : ∀ fuel (h : heapT) o r m k b p q,
  h !! b = Some (Some (p ++ mid ++ q)) → Forall (okd triv) mid → length mid ≤ fuel →
  destroy_loop triv fuel (Ptr b (length p)) (Ptr b (length p + length mid)) (S_ h o r m k) =
  Ok tt (S_ (<[b := Some (p ++ replicate (length mid) Raw ++ q)]> h) o r m k).
Proof.
  induction mid as [|c mid IH]; intros fuel h o r m k b p q H Hok Hf.
  - assert (destroy_loop triv fuel (Ptr b (length p)) (Ptr b (length p + 0)) (S_ h o r m k)
            = Ok tt (S_ h o r m k)) as E.
    { destruct fuel; simpl; rewrite Nat.eqb_refl, Nat.add_0_r, Nat.eqb_refl; done. }
    simpl. rewrite E. simpl in H. by rewrite list_insert_id.
  - destruct fuel as [|fuel]; [simpl in Hf; lia|]. simpl.
    assert (Hl : b < length h) by (by eapply lookup_lt_Some).
    apply Forall_cons in Hok as [Hc Hok].
    rewrite Nat.eqb_refl. rewrite (proj2 (Nat.eqb_neq _ _)) by lia. simpl.
    unfold bind at 1. erewrite destroy_eq; [|exact H|done].
    assert (H2 : <[b:=Some (p ++ Raw :: mid ++ q)]> h !! b = Some (Some ((p ++ [Raw]) ++ mid ++ q))).
    { rewrite list_lookup_insert by done. by rewrite <-app_assoc. }
    unfold bind at 1. erewrite padd_eq; [|exact H2|rewrite !app_length; simpl; lia].
    replace (length p + 1) with (length (p ++ [@Raw V])) by (rewrite app_length; simpl; lia).
    replace (length p + S (length mid)) with (length (p ++ [@Raw V]) + length mid)
      by (rewrite app_length; simpl; lia).
    erewrite IH; [|exact H2|done|simpl in Hf; lia].
    rewrite list_insert_insert. by rewrite <-!app_assoc.
Qed.

Lemma destroy_a_eq triv mid (h : heapT) o r m k b p q :
  h !! b = Some (Some (p ++ mid ++ q)) → Forall (okd triv) mid →
  destroy_a triv (Ptr b (length p)) (Ptr b (length p + length mid)) (S_ h o r m k) =
  Ok tt (S_ (<[b := Some (p ++ replicate (length mid) Raw ++ q)]> h) o r m k).
Proof.
  intros H Hok. unfold destroy_a, bind, gets. simpl block_len. rewrite H.
  apply destroy_loop_eq; [done|done|]. rewrite !app_length. lia.
Qed.
Lemma destroy_a_null triv s : destroy_a triv Null Null s = Ok tt s.
Proof. done. Qed.

Lemma destroy_n_eq triv mid : ∀ (h : heapT) o r m k b p q,
  h !! b = Some (Some (p ++ mid ++ q)) → Forall (okd triv) mid →
  destroy_n triv (Ptr b (length p)) (length mid) (S_ h o r m k) =
  Ok tt (S_ (<[b := Some (p ++ replicate (length mid) Raw ++ q)]> h) o r m k).
Proof.
  induction mid as [|c mid IH]; intros h o r m k b p q H Hok.
  - simpl in *. unfold ret. by rewrite list_insert_id.
  - simpl. assert (Hl : b < length h) by (by eapply lookup_lt_Some).
    apply Forall_cons in Hok as [Hc Hok].
    unfold bind at 1. erewrite destroy_eq; [|exact H|done].
    assert (H2 : <[b:=Some (p ++ Raw :: mid ++ q)]> h !! b = Some (Some ((p ++ [Raw]) ++ mid ++ q))).
    { rewrite list_lookup_insert by done. by rewrite <-app_assoc. }
    unfold bind at 1. erewrite padd_eq; [|exact H2|rewrite !app_length; simpl; lia].
    replace (length p + 1) with (length (p ++ [@Raw V])) by (rewrite app_length; simpl; lia).
    erewrite IH; [|exact H2|done].
    rewrite list_insert_insert. by rewrite <-!app_assoc.
Qed.

Lemma read_loop_eq l : ∀ (h : heapT) o r m k b p q,
  h !! b = Some (Some (p ++ map Live l ++ q)) →
  read_loop (length l) (Ptr b (length p)) (S_ h o r m k) = Ok l (S_ h o r m k).
Proof.
  induction l as [|v l IH]; intros h o r m k b p q H; [done|]. simpl.
  unfold bind at 1. erewrite load_eq; [|exact H|by apply lookup_mid].
  unfold bind at 1. erewrite padd_eq; [|exact H|rewrite !app_length; simpl; lia].
  unfold bind at 1.
  replace (length p + 1) with (length (p ++ [@Live V v])) by (rewrite app_length; simpl; lia).
  erewrite (IH h o r m k b (p ++ [Live v]) q); [done|]. by rewrite <-app_assoc.
Qed.

(** ** Throwing primitives *)
Definition can_throw (triv : bool) (a : arg V) : Prop :=
  triv = false ∨ ∃ v, a = AVal v.

(** The value an argument denotes in a heap. *)
Definition aval (h : heapT) (a : arg V) (v : V) : Prop :=
  match a with
  | AVal w | AObj w => w = v
  | ARef Null => False
  | ARef (Ptr b i) => ∃ cs, h !! b = Some (Some cs) ∧ cs !! i = Some (Live v)
  end.
(** … and which lies outside block [b]. *)
Definition aval_out (h : heapT) (b : nat) (a : arg V) (v : V) : Prop :=
  aval h a v ∧ match a with ARef (Ptr b' _) => b' ≠ b | _ => True end.

Lemma aval_out_upd h b a v x : aval_out h b a v → aval_out (<[b := x]> h) b a v.
Proof.
  intros [H Hb]. split; [|done]. destruct a as [w|w|[|b' i]]; simpl in *; try done.
  by rewrite list_lookup_insert_ne.
Qed.

Lemma tick_post (h : heapT) o r m k :
  post (tick (S_ h o r m k))
    (λ _ s', ∃ r', r' `suffix_of` r ∧ s' = S_ h o r' m k)
    (λ s', ∃ r', r' `suffix_of` r ∧ r ≠ [] ∧ s' = S_ h o r' m k).
Proof.
  unfold tick. destruct r as [|[] r]; simpl.
  - by exists [].
  - exists r. split_and!; [by apply suffix_cons_r|done|done].
  - exists r. split_and!; [by apply suffix_cons_r|done].
Qed.

Lemma alloc_post n (h : heapT) o r m k :
  post (alloc n (S_ h o r m k))
    (λ p s', p = Ptr (length h) 0 ∧ ∃ r', r' `suffix_of` r ∧
             s' = S_ (h ++ [Some (replicate n Raw)]) o r' m k)
    (λ s', ∃ r', r' `suffix_of` r ∧ r ≠ [] ∧ s' = S_ h o r' m k).
Proof.
  unfold alloc. apply post_bind. eapply post_conseq; [apply tick_post| |done].
  intros _ s (r' & Hr & ->). unfold bind, gets, modify, set_heap, ret; simpl. eauto.
Qed.

Lemma eval_arg_post triv a v (h : heapT) o r m k :
  aval h a v →
  post (eval_arg triv a (S_ h o r m k))
    (λ v' s', v' = v ∧ ∃ r', r' `suffix_of` r ∧ s' = S_ h o r' m k)
    (λ s', can_throw triv a ∧ ∃ r', r' `suffix_of` r ∧ r ≠ [] ∧ s' = S_ h o r' m k).
Proof.
  intros Ha.
  assert (HT : ∀ w : V, post ((tick ;;; ret w) (S_ h o r m k))
    (λ v' s', v' = w ∧ ∃ r', r' `suffix_of` r ∧ s' = S_ h o r' m k)
    (λ s', ∃ r', r' `suffix_of` r ∧ r ≠ [] ∧ s' = S_ h o r' m k)).
  { intros w. apply post_bind. eapply post_conseq; [apply tick_post| |done].
    intros _ s (r' & ? & ->). simpl. eauto. }
  destruct a as [w|w|[|b i]]; simpl in Ha; subst; try done.
  - simpl. eapply post_conseq; [apply HT|done|]. intros s Hs. split; [|done]. right. eauto.
  - simpl. destruct triv.
    + simpl. split; [done|]. by exists r.
    + eapply post_conseq; [apply HT|done|]. intros s Hs. split; [|done]. by left.
  - destruct Ha as (cs & H1 & H2). simpl. unfold bind at 1. erewrite load_eq by eauto.
    destruct triv.
    + simpl. split; [done|]. by exists r.
    + eapply post_conseq; [apply HT|done|]. intros s Hs. split; [|done]. by left.
Qed.

Definition okc (triv : bool) (c : cell V) : Prop := triv = true ∨ cell_alive c = false.

Lemma construct_post triv a v (h : heapT) o r m k b p c q :
  h !! b = Some (Some (p ++ c :: q)) → okc triv c → aval h a v →
  post (construct triv (Ptr b (length p)) a (S_ h o r m k))
    (λ _ s', ∃ r', r' `suffix_of` r ∧ s' = S_ (<[b := Some (p ++ Live v :: q)]> h) o r' m k)
    (λ s', can_throw triv a ∧ ∃ r', r' `suffix_of` r ∧ r ≠ [] ∧ s' = S_ h o r' m k).
Proof.
  intros H Hc Ha. unfold construct.
  unfold bind at 1. erewrite get_cell_eq; [|exact H|by apply lookup_mid].
  apply post_bind. eapply post_conseq; [by apply eval_arg_post| |done].
  intros v' s (-> & r' & Hr & ->).
  replace (negb triv && cell_alive c) with false
    by (destruct Hc as [-> | ->]; [done|by rewrite andb_false_r]).
  unfold bind, ret. erewrite set_cell_eq; [|exact H|by apply lookup_mid].
  rewrite insert_mid. simpl. eauto.
Qed.

Lemma construct_post' triv a v (h : heapT) o r m k b p c q i :
  i = length p →
  h !! b = Some (Some (p ++ c :: q)) → okc triv c → aval h a v →
  post (construct triv (Ptr b i) a (S_ h o r m k))
    (λ _ s', ∃ r', r' `suffix_of` r ∧ s' = S_ (<[b := Some (p ++ Live v :: q)]> h) o r' m k)
    (λ s', can_throw triv a ∧ ∃ r', r' `suffix_of` r ∧ r ≠ [] ∧ s' = S_ h o r' m k).
Proof. intros ->. apply construct_post. Qed.

Lemma construct_range_post triv xs : ∀ vs (h : heapT) o r m k b p mid q,
  h !! b = Some (Some (p ++ mid ++ q)) → length mid = length xs →
  Forall (okc triv) mid → Forall2 (aval_out h b) xs vs →
  post (construct_range triv (Ptr b (length p)) xs (S_ h o r m k))
    (λ _ s', ∃ r', r' `suffix_of` r ∧ s' = S_ (<[b := Some (p ++ map Live vs ++ q)]> h) o r' m k)
    (λ s', ∃ r' j, r' `suffix_of` r ∧ r ≠ [] ∧ j < length xs ∧ Exists (can_throw triv) xs ∧
       s' = S_ (<[b := Some (p ++ map Live (take j vs) ++ drop j mid ++ q)]> h) o r' m k).
Proof.
  induction xs as [|a xs IH]; intros vs h o r m k b p mid q H Hlen Hok HF.
  - apply Forall2_nil_inv_l in HF as ->. destruct mid; [|done].
    simpl in *. exists r. split; [done|]. by rewrite list_insert_id.
  - apply Forall2_cons_inv_l in HF as (v & vs' & Ha & HF & ->).
    destruct mid as [|c mid]; [done|]. apply Forall_cons in Hok as [Hc Hok].
    assert (Hl : b < length h) by (by eapply lookup_lt_Some).
    simpl in *. apply post_bind.
    eapply post_conseq; [eapply construct_post; [exact H|done|apply Ha]| |].
    + intros _ s (r1 & Hr1 & ->).
      assert (H2 : <[b:=Some (p ++ Live v :: mid ++ q)]> h !! b = Some (Some ((p ++ [Live v]) ++ mid ++ q))).
      { rewrite list_lookup_insert by done. by rewrite <-app_assoc. }
      unfold bind at 1. erewrite padd_eq; [|exact H2|rewrite !app_length; simpl; lia].
      replace (length p + 1) with (length (p ++ [@Live V v])) by (rewrite app_length; simpl; lia).
      eapply post_conseq; [eapply IH; [exact H2|lia|done|]| |].
      * eapply Forall2_impl; [exact HF|]. intros. by apply aval_out_upd.
      * intros _ s (r2 & Hr2 & ->). exists r2. split; [by etrans|].
        rewrite list_insert_insert, <-!app_assoc. done.
      * intros s (r2 & j & Hr2 & Hne & Hj & Hex & ->). exists r2, (S j).
        split_and!; [by etrans| |lia|by right|].
        { intros ->. apply suffix_nil_inv in Hr1. done. }
        rewrite list_insert_insert, <-!app_assoc. done.
    + intros s (Hct & r1 & Hr1 & Hne & ->). exists r1, 0. split_and!; [done|done|lia|by left|].
      simpl. by rewrite list_insert_id.
Qed.

Lemma uninitialized_copy_post triv xs : ∀ vs (h : heapT) o r m k b p mid,
  h !! b = Some (Some (p ++ mid)) → length mid = length xs →
  Forall (okc triv) mid → Forall2 (aval_out h b) xs vs →
  (r = [] ∨ Forall (λ a, ¬ can_throw triv a) xs) →
  post (uninitialized_copy_a triv xs (Ptr b (length p)) (Ptr b (length p + length mid)) (S_ h o r m k))
    (λ e s', e = Ptr b (length p + length mid) ∧
             ∃ r', r' `suffix_of` r ∧ s' = S_ (<[b := Some (p ++ map Live vs)]> h) o r' m k)
    (λ _, False).
Proof.
  induction xs as [|a xs IH]; intros vs h o r m k b p mid H Hlen Hok HF Hnt.
  - apply Forall2_nil_inv_l in HF as ->. destruct mid; [|done].
    simpl in *. split; [by rewrite Nat.add_0_r|]. exists r. split; [done|]. by rewrite list_insert_id.
  - apply Forall2_cons_inv_l in HF as (v & vs' & Ha & HF & ->).
    destruct mid as [|c mid]; [done|]. apply Forall_cons in Hok as [Hc Hok].
    assert (Hl : b < length h) by (by eapply lookup_lt_Some).
    simpl. rewrite Nat.eqb_refl. rewrite (proj2 (Nat.eqb_neq _ _)) by (simpl; lia). simpl.
    apply post_bind. apply post_on_throw.
    eapply post_conseq; [eapply construct_post; [exact H|done|apply Ha]| |].
    + intros _ s (r1 & Hr1 & ->).
      assert (H2 : <[b:=Some (p ++ Live v :: mid)]> h !! b = Some (Some ((p ++ [Live v]) ++ mid))).
      { rewrite list_lookup_insert by done. by rewrite <-app_assoc. }
      unfold bind at 1. erewrite padd_eq; [|exact H2|rewrite !app_length; simpl; lia].
      replace (length p + 1) with (length (p ++ [@Live V v])) by (rewrite app_length; simpl; lia).
      replace (length p + S (length mid)) with (length (p ++ [@Live V v]) + length mid)
        by (rewrite app_length; simpl; lia).
      eapply post_conseq; [eapply IH; [exact H2|simpl in *; lia|done| |]| |done].
      * eapply Forall2_impl; [exact HF|]. intros. by apply aval_out_upd.
      * destruct Hnt as [->|Hnt]; [left; by apply suffix_nil_inv in Hr1|].
        right. by apply Forall_cons in Hnt as [_ ?].
      * intros e s (-> & r2 & Hr2 & ->). split; [done|]. exists r2. split; [by etrans|].
        rewrite list_insert_insert, <-!app_assoc. done.
    + intros s (Hct & r1 & Hr1 & Hne & ->). exfalso.
      destruct Hnt as [->|Hnt]; [done|]. apply Forall_cons in Hnt as [? _]. done.
Qed.
(** A destination that is shorter than the source: as many copies as there is room for *)
Lemma uninitialized_copy_short triv xs ys : ∀ vs (h : heapT) o r m k b p mid,
  h !! b = Some (Some (p ++ mid)) → length mid = length xs →
  Forall (okc triv) mid → Forall2 (aval_out h b) xs vs →
  (r = [] ∨ Forall (λ a, ¬ can_throw triv a) xs) →
  post (uninitialized_copy_a triv (xs ++ ys) (Ptr b (length p)) (Ptr b (length p + length mid)) (S_ h o r m k))
    (λ e s', e = Ptr b (length p + length mid) ∧
             ∃ r', r' `suffix_of` r ∧ s' = S_ (<[b := Some (p ++ map Live vs)]> h) o r' m k)
    (λ _, False).
Proof.
  induction xs as [|a xs IH]; intros vs h o r m k b p mid H Hlen Hok HF Hnt.
  - apply Forall2_nil_inv_l in HF as ->. destruct mid; [|done].
    simpl in *. rewrite app_nil_r in *. replace (uninitialized_copy_a triv ys (Ptr b (length p)) (Ptr b (length p + 0)) (S_ h o r m k)) with (@Ok (st V) _ (Ptr b (length p)) (S_ h o r m k)) by (destruct ys; [done|]; simpl; rewrite Nat.eqb_refl, Nat.add_0_r, Nat.eqb_refl; done). split; [by rewrite Nat.add_0_r|]. exists r. split; [done|]. by rewrite list_insert_id.
  - apply Forall2_cons_inv_l in HF as (v & vs' & Ha & HF & ->).
    destruct mid as [|c mid]; [done|]. apply Forall_cons in Hok as [Hc Hok].
    assert (Hl : b < length h) by (by eapply lookup_lt_Some).
    simpl. rewrite Nat.eqb_refl. rewrite (proj2 (Nat.eqb_neq _ _)) by (simpl; lia). simpl.
    apply post_bind. apply post_on_throw.
    eapply post_conseq; [eapply construct_post; [exact H|done|apply Ha]| |].
    + intros _ s (r1 & Hr1 & ->).
      assert (H2 : <[b:=Some (p ++ Live v :: mid)]> h !! b = Some (Some ((p ++ [Live v]) ++ mid))).
      { rewrite list_lookup_insert by done. by rewrite <-app_assoc. }
      unfold bind at 1. erewrite padd_eq; [|exact H2|rewrite !app_length; simpl; lia].
      replace (length p + 1) with (length (p ++ [@Live V v])) by (rewrite app_length; simpl; lia).
      replace (length p + S (length mid)) with (length (p ++ [@Live V v]) + length mid)
        by (rewrite app_length; simpl; lia).
      eapply post_conseq; [eapply IH; [exact H2|simpl in *; lia|done| |]| |done].
      * eapply Forall2_impl; [exact HF|]. intros. by apply aval_out_upd.
      * destruct Hnt as [->|Hnt]; [left; by apply suffix_nil_inv in Hr1|].
        right. by apply Forall_cons in Hnt as [_ ?].
      * intros e s (-> & r2 & Hr2 & ->). split; [done|]. exists r2. split; [by etrans|].
        rewrite list_insert_insert, <-!app_assoc. done.
    + intros s (Hct & r1 & Hr1 & Hne & ->). exfalso.
      destruct Hnt as [->|Hnt]; [done|]. apply Forall_cons in Hnt as [? _]. done.
Qed.

Lemma fill_loop_post triv n : ∀ v d (h : heapT) o r m k b mid,
  h !! b = Some (Some (map Live (replicate d v) ++ mid)) → length mid = n →
  Forall (okc triv) mid →
  post (fill_loop triv (Ptr b 0) (Ptr b d) n (AObj v) (S_ h o r m k))
    (λ e s', e = Ptr b (d + n) ∧
             ∃ r', r' `suffix_of` r ∧ s' = S_ (<[b := Some (map Live (replicate (d + n) v))]> h) o r' m k)
    (λ s', triv = false ∧ ∃ r', r' `suffix_of` r ∧ r ≠ [] ∧
       s' = S_ (<[b := Some (replicate (d + n) Raw)]> h) o r' m k).
Proof.
  induction n as [|n IH]; intros v d h o r m k b mid H Hlen Hok.
  - destruct mid; [|done]. simpl. split; [by rewrite Nat.add_0_r|]. exists r. split; [done|].
    rewrite app_nil_r in H. by rewrite Nat.add_0_r, list_insert_id.
  - destruct mid as [|c mid]; [done|]. apply Forall_cons in Hok as [Hc Hok].
    assert (Hl : b < length h) by (by eapply lookup_lt_Some).
    simpl. apply post_bind. apply post_on_throw.
    assert (Hd : d = length (map Live (replicate d v))) by (by rewrite map_length, replicate_length).
    eapply post_conseq; [eapply (construct_post' triv (AObj v) v); [exact Hd|exact H|done|done]| |].
    + intros _ s (r1 & Hr1 & ->).
      assert (H2 : <[b:=Some (map Live (replicate d v) ++ Live v :: mid)]> h !! b
                 = Some (Some (map Live (replicate (S d) v) ++ mid))).
      { rewrite list_lookup_insert by done. rewrite replicate_S_end, map_app, <-app_assoc. done. }
      unfold bind at 1. erewrite padd_eq; [|exact H2|rewrite app_length, map_length, replicate_length; lia].
      replace (d + 1) with (S d) by lia. replace (d + S n) with (S d + n) by lia.
      simpl in Hlen. injection Hlen as Hlen.
      eapply post_conseq; [eapply IH; [exact H2|exact Hlen|done]| |].
      * intros e s (-> & r2 & Hr2 & ->). split; [done|]. exists r2. split; [by etrans|].
        by rewrite list_insert_insert.
      * intros s (Ht & r2 & Hr2 & Hne & ->). split; [done|]. exists r2. split_and!; [by etrans| |].
        { intros ->. apply suffix_nil_inv in Hr1. done. }
        by rewrite list_insert_insert.
    + intros s (Hct & r1 & Hr1 & Hne & ->).
      assert (HD := destroy_a_eq triv (map Live (replicate d v)) h o r1 m k b [] (c :: mid)).
      simpl in HD. rewrite map_length, replicate_length in HD.
      rewrite HD; [|exact H|].
      2:{ apply Forall_forall. intros x Hx. apply elem_of_list_fmap in Hx as (y & -> & _). by right. }
      simpl. destruct Hct as [Ht|[? ?]]; [|done]. split; [done|]. exists r1. split_and!; [done|done|].
      do 3 f_equal. destruct Hc as [->|Hc]; [done|]. destruct c; try done.
      rewrite replicate_add. f_equal. simpl. f_equal.
      simpl in Hlen. injection Hlen as <-.
      clear -Hok Ht. subst triv. induction mid as [|c mid IH]; [done|].
      apply Forall_cons in Hok as [Hc Hok]. simpl.
      f_equal; [|by apply IH]. destruct Hc as [?|Hc]; [done|]. by destruct c.
Qed.
End proofs.
