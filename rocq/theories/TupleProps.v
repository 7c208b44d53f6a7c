(** Theorems about xme::Tuple and xme::Pair (properties C52-C54). *)
From stdpp Require Import list list_numbers.
From Coq Require Import Lia.
From Verif Require Import Base TupleModel TupleSpec TupleProofs.
Local Open Scope mon_scope.

Section props.
Context {V : Type}.
Notation cells := (list (option V)).

(** ** Construction and element access *)
(** make_tuple creates one new object per value, in order. *)
Theorem tuple_make (vs : list V) (l : cells) : ∃ t es l2,
  make_tuple vs l = Ok t (l ++ l2) ∧ holds (l ++ l2) t es vs ∧
  es = map Own (seq (length l) (length vs)) ∧ length l2 = length vs.
Proof.
  eexists _, _, _. split; [|split; [|split; [reflexivity|]]].
  - unfold make_tuple. rewrite (bind_Ok _ _ _ _ _ (alloc_all_Ok vs l)). reflexivity.
  - split; [apply elems_of|apply values_fresh].
  - apply map_length.
Qed.
(** tie refers to the given objects, in order. *)
Theorem tuple_tie (as_ : list nat) (vs : list V) (l : cells) :
  Forall2 (λ a v, l !! a = Some (Some v)) as_ vs → holds l (tie as_) (map Ref as_) vs.
Proof. intros H. split; [apply elems_of|]. by apply Forall2_fmap_l. Qed.
(** get<I> is the element number I, and nothing for an index out of range. *)
Theorem tuple_get t es i (l : cells) : elems t es →
  get i t l = match es !! i with Some e => Ok e l | None => UB NoObject end.
Proof.
  intros Ht. destruct (es !! i) as [e|] eqn:E; [by apply (elems_get t es)|by apply (elems_get_None t es)].
Qed.
(** Reading through get<I> gives element I; writing through it changes that
    element and nothing else. *)
Theorem tuple_read_write t es vs i e v x (l : cells) :
  holds l t es vs → es !! i = Some e → vs !! i = Some v →
  (e' <- get i t ;; read (addr e')) l = Ok v l ∧
  ∃ l', (e' <- get i t ;; write (addr e') (Some x)) l = Ok tt l' ∧ l' !! addr e = Some (Some x) ∧
    (NoDup (addrs es) → holds l' t es (<[i := x]> vs)) ∧ ∀ a, a ≠ addr e → l' !! a = l !! a.
Proof.
  intros [Ht Hv] He Hi. assert (Hev := Forall2_lookup_lr _ _ _ _ _ _ Hv He Hi). simpl in Hev.
  assert (Hlt := lookup_lt_Some _ _ _ Hev).
  rewrite !(bind_Ok _ _ _ _ _ (elems_get _ _ _ _ l Ht He)). split; [by apply read_Ok|].
  eexists. split; [by apply write_Ok|]. split_and!.
  - by apply list_lookup_insert.
  - intros Hnd. split; [done|]. apply Forall2_same_length_lookup.
    apply Forall2_same_length_lookup in Hv as [HL Hv]. split; [by rewrite insert_length|].
    intros j e' w He' Hw. destruct (decide (i = j)) as [<-|Hne].
    + rewrite list_lookup_insert in Hw by (by eapply lookup_lt_Some). injection Hw as <-.
      rewrite He in He'. injection He' as <-. by apply list_lookup_insert.
    + rewrite list_lookup_insert_ne in Hw by done. rewrite list_lookup_insert_ne; [by apply (Hv j)|].
      intros E. apply Hne. apply (NoDup_lookup (addrs es) i j (addr e) Hnd); unfold addrs; rewrite list_lookup_fmap; [by rewrite He|rewrite He'; simpl; by rewrite E].
  - intros a Ha. by apply list_lookup_insert_ne.
Qed.

(** ** Assignment, swap, apply, conversion *)
(** Assignment gives every element the value of the source's element with the
    same number. Elements of an rvalue source that are objects are moved from;
    no other object changes. *)
Theorem tuple_assign this ds u ss rv ws (l : cells) :
  elems this ds → holds l u ss ws → length ds ≤ length ss → NoDup (addrs ds ++ addrs ss) →
  (∀ a, a ∈ addrs ds → a < length l) →
  ∃ l', assign this u rv l = Ok tt l' ∧ length l' = length l ∧ holds l' this ds (take (length ds) ws) ∧
    ∀ a, a ∉ addrs ds →
      (rv = true ∧ Own a ∈ take (length ds) ss → l' !! a = Some None) ∧
      (¬ (rv = true ∧ Own a ∈ take (length ds) ss) → l' !! a = l !! a).
Proof.
  intros Hd [Hs Hw] Hlen Hnd Hlt. apply NoDup_app in Hnd as (Hn1 & Hdis & Hn2).
  destruct (assign_post this ds u ss rv ws l Hd Hs Hlen Hn1 Hn2 Hdis Hlt Hw) as (l' & E & L & Hv & Hr).
  exists l'. split_and!; [done..|]. intros a Ha. rewrite (Hr a Ha). unfold moved. split.
  - intros [-> Hin]. by rewrite (bool_decide_eq_true_2 _ Hin).
  - intros Hn. destruct rv; [|done]. rewrite bool_decide_eq_false_2; [done|tauto].
Qed.
(** swap exchanges all elements and changes nothing else; twice is as before. *)
Theorem tuple_swap this ds u ss vs ws (l : cells) :
  holds l this ds vs → holds l u ss ws → length ds = length ss → NoDup (addrs ds ++ addrs ss) →
  ∃ l', swap this u l = Ok tt l' ∧ holds l' this ds ws ∧ holds l' u ss vs ∧
    (∀ a, a ∉ addrs ds → a ∉ addrs ss → l' !! a = l !! a) ∧
    (swap this u ;;; swap this u) l = Ok tt l.
Proof.
  intros [Hd Hv] [Hs Hw] Hlen Hnd.
  destruct (swap_post this ds u ss vs ws l Hd Hs Hlen Hnd Hv Hw) as (l' & E & L & Hv' & Hw' & Hr).
  exists l'. split_and!; [done..|].
  rewrite (bind_Ok _ _ _ _ _ E).
  destruct (swap_post this ds u ss ws vs l' Hd Hs Hlen Hnd Hv' Hw') as (l2 & E2 & L2 & Hv2 & Hw2 & Hr2).
  rewrite E2. f_equal. apply list_eq. intros a.
  assert (Hsame : ∀ es us, values l es us → values l2 es us → a ∈ addrs es → l2 !! a = l !! a).
  { intros es us H1 H2 Ha. apply elem_of_list_fmap in Ha as (e & -> & He).
    apply elem_of_list_lookup in He as [i Hi]. destruct (Forall2_lookup_l _ _ _ _ _ H1 Hi) as (u0 & Hu & H1').
    assert (H2' := Forall2_lookup_lr _ _ _ _ _ _ H2 Hi Hu). simpl in H2'. congruence. }
  destruct (decide (a ∈ addrs ds)) as [Ha|Ha]; [exact (Hsame ds vs Hv Hv2 Ha)|].
  destruct (decide (a ∈ addrs ss)) as [Hb|Hb]; [exact (Hsame ss ws Hw Hw2 Hb)|].
  by rewrite Hr2, Hr by done.
Qed.
(** swap of a tuple with itself does nothing. *)
Theorem tuple_swap_self t es vs (l : cells) : holds l t es vs → swap t t l = Ok tt l.
Proof.
  intros [Ht Hv]. unfold swap, index_sequence. rewrite (elems_size _ _ Ht).
  rewrite (swap_index_eq t es t es) by done. rewrite drop_0, take_ge by done. by eapply swap_list_self.
Qed.
(** Assigning a tuple from itself changes nothing. *)
Theorem tuple_assign_self t es vs (l : cells) : holds l t es vs → assign t t false l = Ok tt l.
Proof.
  intros [Ht Hv]. unfold assign, index_sequence. rewrite (elems_size _ _ Ht).
  rewrite (assign_index_eq t es t es) by done. rewrite drop_0, take_ge by done. by eapply copy_list_self.
Qed.
Example tuple_assign_self_ex : assign (tuple_of [Own 0; Ref 2]) (tuple_of [Own 0; Ref 2]) false [Some 1%Z; Some 2%Z; Some 3%Z] =
  Ok tt [Some 1%Z; Some 2%Z; Some 3%Z].
Proof. done. Qed.
(** apply calls the function once, with all elements in order: as rvalues if the
    tuple is one and the element is no reference. *)
Theorem tuple_apply {R} (f : list arg → M cells R) t es rv (l : cells) : elems t es →
  ∃ args, apply f t rv l = f args l ∧
    Forall2 (λ e x, x.1 = addr e ∧ (x.2 = true ↔ rv = true ∧ is_Some (own e))) es args.
Proof.
  intros Ht. exists (map (forward rv) es). unfold apply. rewrite (bind_Ok _ _ _ _ _ (get_all_size _ _ l Ht)).
  split; [done|]. apply Forall2_fmap_r. apply Forall_Forall2_diag. apply Forall_true.
  intros [a|a]; simpl; (split; [done|]); split; [by eauto|by intros [? _]|done|by intros [_ [? ?]]].
Qed.
(** Conversion initialises the members with the elements' values, in order. *)
Theorem tuple_convert t es vs (l : cells) : holds l t es vs → convert t l = Ok vs l.
Proof.
  intros [Ht Hv]. unfold convert. rewrite (bind_Ok _ _ _ _ _ (get_all_size _ _ l Ht)). by apply read_all_Ok.
Qed.

(** ** tuple_cat *)
(** The result has the elements of all tuples in order. References stay
    references to the same objects; all other elements are new objects, which
    are the only ones created; nothing existing changes. *)
Theorem tuple_cat_concat ts ess vss (l : cells) :
  Forall2 elems ts ess → Forall2 (values l) ess vss →
  ∃ t es l2, tuple_cat ts l = Ok t (l ++ l2) ∧ holds (l ++ l2) t es (concat vss) ∧
    Forall2 made_from (concat ess) es ∧ omap own es = seq (length l) (length l2).
Proof. apply tuple_cat_post. Qed.

(** ** Comparison *)
Theorem tuple_equality eqb t es vs u es' ws (l : cells) :
  holds l t es vs → holds l u es' ws → length es = length es' →
  ∃ b, tuple_eq eqb t u l = Ok b l ∧ (b = true ↔ Forall2 (λ x y, eqb x y = true) vs ws).
Proof. apply tuple_eq_post. Qed.
Theorem tuple_compare cmp t es vs u es' ws (l : cells) :
  holds l t es vs → holds l u es' ws → length es = length es' →
  ∃ r, tuple_cmp cmp t u l = Ok r l ∧ lexicographic cmp vs ws r.
Proof.
  intros Ht Hu Hlen. exists (lex cmp vs ws). split; [by eapply tuple_cmp_eq|]. apply lex_spec.
  destruct Ht as [_ Hv], Hu as [_ Hw]. apply Forall2_length in Hv, Hw. lia.
Qed.
(** If the elements are totally ordered, <=> is a total order on the values of
    tuples: [ord vs ws] is what comparing any tuples with these values gives. *)
Theorem tuple_compare_total cmp n : total_order (λ _ : V, True) cmp →
  ∃ ord, total_order (λ vs : list V, length vs = n) ord ∧
    ∀ t es vs u es' ws (l : cells), holds l t es vs → holds l u es' ws → length es = n → length es' = n →
      tuple_cmp cmp t u l = Ok (ord vs ws) l.
Proof.
  intros H. exists (lex cmp). split; [by apply lex_total_order|].
  intros t es vs u es' ws l Ht Hu H1 H2. eapply tuple_cmp_eq; [done..|lia].
Qed.

(** ** Pair *)
(** A pair is like a tuple with the two elements [first] and [second]. *)
Theorem pair_access (p : pair) i (l : cells) :
  pair_get i p l = match [first p; second p] !! i with Some e => Ok e l | None => UB NoObject end.
Proof. by destruct i as [|[|i]]. Qed.
Theorem pair_make (v w : V) (l : cells) :
  make_pair v w l = Ok (Pair (Own (length l)) (Own (S (length l)))) (l ++ [Some v; Some w]).
Proof.
  unfold make_pair. rewrite (bind_Ok (alloc v) _ l (length l) (l ++ [Some v]) eq_refl).
  unfold bind, alloc, ret. rewrite app_length. simpl. rewrite <- app_assoc. by rewrite Nat.add_1_r.
Qed.
(** Assignment from anything with two elements (a pair, a tuple of two). *)
Theorem pair_assign_copies this q s0 s1 rv w0 w1 (l : cells) :
  (∀ l, q 0 l = Ok s0 l) → (∀ l, q 1 l = Ok s1 l) →
  values l [s0; s1] [w0; w1] → NoDup (addrs [first this; second this] ++ addrs [s0; s1]) →
  (∀ a, a ∈ addrs [first this; second this] → a < length l) →
  ∃ l', pair_assign this q rv l = Ok tt l' ∧ length l' = length l ∧
    values l' [first this; second this] [w0; w1] ∧
    ∀ a, a ∉ addrs [first this; second this] →
      (rv = true ∧ Own a ∈ [s0; s1] → l' !! a = Some None) ∧
      (¬ (rv = true ∧ Own a ∈ [s0; s1]) → l' !! a = l !! a).
Proof.
  intros H0 H1 Hv Hnd Hlt. apply NoDup_app in Hnd as (Hn1 & Hdis & Hn2).
  destruct (copy_list_post [first this; second this] [s0; s1] rv [w0; w1] l eq_refl Hn1 Hn2 Hdis Hlt Hv) as (l' & E & L & Hv' & Hr).
  exists l'. split_and!; [|done..|].
  - rewrite <- E. unfold pair_assign. cbn [copy_list]. rewrite (bind_Ok _ _ _ _ _ (H0 l)).
    unfold bind. destruct (take_value rv s0 l) as [x l1|l1|x]; try done.
    destruct (write _ _ l1) as [[] l2|l2|y]; try done. rewrite H1.
    destruct (take_value rv s1 l2) as [x3 l3|l3|x3]; try done. unfold ret.
    by destruct (write _ _ l3) as [[] l4|l4|z].
  - intros a Ha. rewrite (Hr a Ha). unfold moved. split.
    + intros [-> Hin]. by rewrite (bool_decide_eq_true_2 _ Hin).
    + intros Hn. destruct rv; [|done]. rewrite bool_decide_eq_false_2; [done|tauto].
Qed.
Theorem pair_swap_exchanges this p vs ws (l : cells) :
  values l [first this; second this] vs → values l [first p; second p] ws →
  NoDup (addrs [first this; second this] ++ addrs [first p; second p]) →
  ∃ l', pair_swap this p l = Ok tt l' ∧ values l' [first this; second this] ws ∧ values l' [first p; second p] vs ∧
    (∀ a, a ∉ addrs [first this; second this] → a ∉ addrs [first p; second p] → l' !! a = l !! a) ∧
    (pair_swap this p ;;; pair_swap this p) l = Ok tt l.
Proof.
  intros Hv Hw Hnd.
  destruct (tuple_swap (tuple_of [first this; second this]) _ (tuple_of [first p; second p]) _ vs ws l
    (conj (elems_of _) Hv) (conj (elems_of _) Hw) eq_refl Hnd) as (l' & E & [_ Hv'] & [_ Hw'] & Hr & E2).
  assert (Eq : ∀ l : cells, pair_swap this p l = swap (tuple_of [first this; second this]) (tuple_of [first p; second p]) l).
  { intros l0. unfold pair_swap, swap. simpl. unfold bind, ret.
    destruct (swap_values _ _ l0) as [[] l1|l1|x]; try done. by destruct (swap_values _ _ l1) as [[] l2|l2|x]. }
  exists l'. rewrite Eq. split_and!; [done..|]. rewrite <- E2. unfold bind. rewrite Eq. destruct (swap _ _ l); [apply Eq|done..].
Qed.
Theorem pair_apply_order {R} (f : list arg → M cells R) p rv (l : cells) :
  ∃ args, pair_apply f p rv l = f args l ∧
    Forall2 (λ e x, x.1 = addr e ∧ (x.2 = true ↔ rv = true ∧ is_Some (own e))) [first p; second p] args.
Proof.
  destruct (tuple_apply f (tuple_of [first p; second p]) _ rv l (elems_of _)) as (args & E & H).
  exists args. split; [|done]. rewrite <- E. done.
Qed.
Theorem pair_equality eqb p q v1 v2 w1 w2 (l : cells) :
  values l [first p; second p] [v1; v2] → values l [first q; second q] [w1; w2] →
  ∃ b, pair_eq eqb p q l = Ok b l ∧ (b = true ↔ eqb v1 w1 = true ∧ eqb v2 w2 = true).
Proof.
  intros [Hp1 [Hp2 _]%Forall2_cons]%Forall2_cons [Hq1 [Hq2 _]%Forall2_cons]%Forall2_cons. unfold pair_eq.
  rewrite (bind_Ok _ _ _ _ _ (read_Ok _ _ _ Hp1)), (bind_Ok _ _ _ _ _ (read_Ok _ _ _ Hq1)).
  destruct (eqb v1 w1); [|exists false; split; [done|naive_solver]].
  rewrite (bind_Ok _ _ _ _ _ (read_Ok _ _ _ Hp2)), (bind_Ok _ _ _ _ _ (read_Ok _ _ _ Hq2)).
  exists (eqb v2 w2). split; [done|naive_solver].
Qed.
(** The comparison of pairs is that of tuples of two. *)
Theorem pair_compare cmp p q v1 v2 w1 w2 (l : cells) :
  values l [first p; second p] [v1; v2] → values l [first q; second q] [w1; w2] →
  ∃ r, pair_cmp cmp p q l = Ok r l ∧ lexicographic cmp [v1; v2] [w1; w2] r ∧
    tuple_cmp cmp (tuple_of [first p; second p]) (tuple_of [first q; second q]) l = Ok r l.
Proof.
  intros Hp Hq. destruct (tuple_compare cmp (tuple_of [first p; second p]) _ _ (tuple_of [first q; second q]) _ _ l
    (conj (elems_of _) Hp) (conj (elems_of _) Hq) eq_refl) as (r & E & Hr).
  exists r. split_and!; [|done..]. rewrite <- E. revert E.
  apply Forall2_cons in Hp as [Hp1 [Hp2 _]%Forall2_cons]. apply Forall2_cons in Hq as [Hq1 [Hq2 _]%Forall2_cons].
  intros _. unfold pair_cmp. simpl.
  rewrite !(bind_Ok _ _ _ _ _ (read_Ok _ _ _ Hp1)), !(bind_Ok _ _ _ _ _ (read_Ok _ _ _ Hq1)).
  destruct (cmp v1 w1) as [[]|]; try done.
  rewrite !(bind_Ok _ _ _ _ _ (read_Ok _ _ _ Hp2)), !(bind_Ok _ _ _ _ _ (read_Ok _ _ _ Hq2)).
  by destruct (cmp v2 w2) as [[]|].
Qed.
End props.

(** ** Concrete cases *)
(** Objects 10, 20, 30, 40, 50 at the addresses 0 to 4; a tuple of three, the
    middle element a reference. *)
Definition ex_l : list (option nat) := [Some 10; Some 20; Some 30; Some 40; Some 50; Some 60].
Definition ex_es : list elem := [Own 0; Ref 3; Own 2].
Example ex_holds : holds ex_l (tuple_of ex_es) ex_es [10; 40; 30].
Proof. split; [apply elems_of|]. repeat constructor. Qed.
Example ex_get : get 1 (tuple_of ex_es) ex_l = Ok (Ref 3) ex_l ∧ get 3 (tuple_of ex_es) ex_l = UB NoObject.
Proof. done. Qed.
(** A tuple of two assigned from an rvalue of three: object 0 is moved from, the
    referenced object 3 is not. *)
Example ex_assign : assign (tuple_of [Own 1; Own 4]) (tuple_of ex_es) true ex_l =
  Ok tt [None; Some 10; Some 30; Some 40; Some 40; Some 60].
Proof. done. Qed.
Example ex_assign_hyp : NoDup (addrs [Own 1; Own 4] ++ addrs ex_es) ∧ length [Own 1; Own 4] ≤ length ex_es.
Proof. split; [|simpl; lia]. apply (bool_decide_unpack _). vm_compute. done. Qed.
(** The hypothesis on aliasing is needed: (a, b) = (b&, a&) does not exchange. *)
Example ex_assign_alias : assign (tie [0; 1]) (tie [1; 0]) false ex_l =
  Ok tt [Some 20; Some 20; Some 30; Some 40; Some 50; Some 60].
Proof. done. Qed.
Example ex_swap : swap (tuple_of ex_es) (tuple_of [Own 1; Own 4; Ref 5]) ex_l =
  Ok tt [Some 20; Some 10; Some 60; Some 50; Some 40; Some 30].
Proof. done. Qed.
Example ex_apply : apply (λ args l, Ok args l) (tuple_of ex_es) true ex_l = Ok [(0, true); (3, false); (2, true)] ex_l.
Proof. done. Qed.
Example ex_convert : convert (tuple_of ex_es) ex_l = Ok [10; 40; 30] ex_l.
Proof. done. Qed.
(** Four tuples, two of them empty. *)
Example ex_cat : tuple_cat [tuple_of ex_es; tuple_of []; tie [5]; tuple_of []; tuple_of [Own 4]] ex_l =
  Ok (tuple_of [Own 6; Ref 3; Own 7; Ref 5; Own 8]) (ex_l ++ [Some 10; Some 30; Some 50]).
Proof. done. Qed.
(** 10, 20 against 10, 20, equal; and against 10, 30, smaller; an unordered
    element makes the result unordered. *)
Definition ex_cmp (x y : nat) : option comparison := if (x =? 60) || (y =? 60) then None else Some (x ?= y).
Example ex_compare :
  tuple_cmp ex_cmp (tie [0; 1; 2]) (tie [0; 1; 3]) ex_l = Ok (Some Lt) ex_l ∧
  tuple_cmp ex_cmp (tie [0; 3; 2]) (tie [0; 1; 3]) ex_l = Ok (Some Gt) ex_l ∧
  tuple_cmp ex_cmp (tie [0; 5; 2]) (tie [0; 1; 3]) ex_l = Ok None ex_l ∧
  tuple_cmp ex_cmp (tie [0; 1]) (tie [0; 1]) ex_l = Ok (Some Eq) ex_l ∧
  tuple_eq Nat.eqb (tie [0; 1]) (tie [0; 1]) ex_l = Ok true ex_l ∧
  tuple_eq Nat.eqb (tie [0; 1]) (tie [0; 2]) ex_l = Ok false ex_l.
Proof. done. Qed.
(** The natural numbers meet the hypothesis of [tuple_compare_total]. *)
Example ex_total : total_order (λ _ : nat, True) (λ x y, Some (x ?= y)).
Proof.
  split.
  - eauto.
  - intros x y _ _. rewrite <- Nat.compare_eq_iff. split; [by intros [= ->]|by intros ->].
  - intros x y _ _. simpl. by rewrite Nat.compare_antisym.
  - intros x y z _ _ _ [= H1] [= H2]. f_equal. apply Nat.compare_lt_iff in H1, H2. apply Nat.compare_lt_iff. lia.
Qed.
Example ex_pair :
  pair_assign (Pair (Own 0) (Own 1)) (λ i, pair_get i (Pair (Own 2) (Ref 3))) true ex_l =
    Ok tt [Some 30; Some 40; None; Some 40; Some 50; Some 60] ∧
  pair_assign (Pair (Own 0) (Own 1)) (λ i, get i (tuple_of [Ref 5; Own 4])) false ex_l =
    Ok tt [Some 60; Some 50; Some 30; Some 40; Some 50; Some 60] ∧
  pair_swap (Pair (Own 0) (Own 1)) (Pair (Own 2) (Ref 3)) ex_l = Ok tt [Some 30; Some 40; Some 10; Some 20; Some 50; Some 60] ∧
  pair_cmp ex_cmp (Pair (Own 0) (Own 2)) (Pair (Own 0) (Own 1)) ex_l = Ok (Some Gt) ex_l ∧
  pair_eq Nat.eqb (Pair (Own 0) (Own 2)) (Pair (Own 0) (Own 1)) ex_l = Ok false ex_l ∧
  pair_apply (λ args l, Ok args l) (Pair (Own 0) (Ref 1)) true ex_l = Ok [(0, true); (1, false)] ex_l.
Proof. done. Qed.

Definition tuple_theorems := (@tuple_make, @tuple_tie, @tuple_get, @tuple_read_write, @tuple_assign,
  @tuple_swap, @tuple_swap_self, @tuple_assign_self, @tuple_apply, @tuple_convert, @tuple_cat_concat, @tuple_equality,
  @tuple_compare, @tuple_compare_total, @pair_access, @pair_make, @pair_assign_copies,
  @pair_swap_exchanges, @pair_apply_order, @pair_equality, @pair_compare).
Print Assumptions tuple_theorems.
