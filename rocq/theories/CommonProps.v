(** Theorems about common references and common types of Tuples: properties C142 and C143. *)
From stdpp Require Import list.
From Coq Require Import ZArith Lia.
From Verif Require Import TypesModel LikeModel LikeProps CommonModel.

(** * Specification *)
Notation same_ty := (λ t u, ty_eqb t u = true).
(** What an element declared as [m] is when the Tuple is seen through the qualifiers and the
    reference of [a] *)
Definition seen (a : tuple_type) (m : ty) : ty :=
  let q' q := if tt_const a then add_const q else q in
  match m, tt_ref a with
  | LRef q, _ => LRef q
  | RRef q, ToLValue => LRef q
  | RRef q, _ => RRef q
  | Obj q, NoRef => Obj (q' q)
  | Obj q, ToLValue => LRef (q' q)
  | Obj q, ToRValue => RRef (q' q)
  end.
(** [rs] has at each place what [f] gives for the two elements there. *)
Definition pairwise (f : ty → ty → option ty) (ts us rs : list ty) : Prop :=
  length ts = length us ∧ length rs = length ts ∧ ∀ i t u, ts !! i = Some t → us !! i = Some u → ∃ r, rs !! i = Some r ∧ f t u = Some r.
(** Whether a reference of the type [r] can be bound to an object of the type [a] (an lvalue
    or an xvalue of the same Tuple) *)
Definition bound (r a : tuple_type) : Prop :=
  (tt_const a = true → tt_const r = true) ∧
  match tt_ref r, tt_ref a with
  | ToLValue, ToLValue | ToRValue, ToRValue => True
  | ToLValue, ToRValue => tt_const r = true
  | _, _ => False
  end.
Definition is_reference (a : tuple_type) : Prop := tt_ref a ≠ NoRef.
Definition same_elements (es fs : list ty) : Prop := Forall2 same_ty es fs.

Lemma same_types_spec es fs : same_types es fs = true ↔ same_elements es fs.
Proof.
  pose proof (is_this_tuple_spec es (XTuple fs)) as H. simpl in H. rewrite H. unfold same_tuple, same_elements.
  split; [intros (? & E & ?); by injection E as <-|intros; by eexists].
Qed.
Lemma xref_seen a m : xref a m = seen a m.
Proof. destruct a as [[] [] es], m; done. Qed.
Lemma ty_eqb_refl t : ty_eqb t t = true.
Proof. destruct t as [[? ? ?]|[? ? ?]|[? ? ?]]; simpl; by rewrite !Bool.eqb_reflx, core_eqb_refl. Qed.
Lemma core_eqb_sym c d : core_eqb c d = core_eqb d c.
Proof. destruct c as [[]|?|?|?|?], d as [[]|?|?|?|?]; simpl; try done; rewrite ?(Z.eqb_sym w), ?(Nat.eqb_sym n); try done. by destruct signed, signed0. Qed.
Lemma ty_eqb_sym t u : ty_eqb t u = ty_eqb u t.
Proof. destruct t as [[[] [] ?]|[[] [] ?]|[[] [] ?]], u as [[[] [] ?]|[[] [] ?]|[[] [] ?]]; simpl; try done; apply core_eqb_sym. Qed.
Lemma same_elements_sym es fs : same_elements es fs → same_elements fs es.
Proof. intros H. apply Forall2_flip. eapply Forall2_impl; [exact H|]. intros t u. simpl. by rewrite ty_eqb_sym. Qed.
Lemma same_elements_refl es : same_elements es es.
Proof. apply Forall_Forall2_diag, Forall_forall. intros t _. apply ty_eqb_refl. Qed.

Lemma expand_exact f ts : ∀ us rs, expand f ts us = Accepted rs ↔ pairwise f ts us rs.
Proof.
  unfold pairwise. induction ts as [|t ts IH]; intros [|u us] rs; cbn [expand].
  - split; [intros H; injection H as <-; done|]. intros (_ & H & _). by destruct rs.
  - split; [done|]. by intros (H & _).
  - split; [done|]. by intros (H & _).
  - destruct (f t u) as [r|] eqn:E.
    2:{ split; [done|]. intros (_ & _ & H). destruct (H 0 t u eq_refl eq_refl) as (r & _ & H'). by rewrite E in H'. }
    split.
    + intros H. destruct (expand f ts us) as [| |rs'] eqn:R; try done. injection H as <-. apply IH in R as (R1 & R2 & R).
      split; [simpl; by f_equal|]. split; [simpl; by f_equal|]. intros [|i] t' u' Ht Hu; [|by apply (R i)].
      injection Ht as <-. injection Hu as <-. by exists r.
    + intros (H1 & H2 & H). destruct rs as [|r' rs]; [done|]. injection H1 as H1. injection H2 as H2.
      destruct (H 0 t u eq_refl eq_refl) as (r'' & Hr & Hf). injection Hr as <-. rewrite E in Hf. injection Hf as <-.
      assert (R : expand f ts us = Accepted rs); [|by rewrite R]. apply IH. split; [done|]. split; [done|]. intros i t' u' Ht Hu. by apply (H (S i)).
Qed.
Lemma expand_decides f ts : ∀ us, expand f ts us ≠ Rejected.
Proof.
  induction ts as [|t ts IH]; intros [|u us]; cbn [expand]; try done. destruct (f t u); [|done]. specialize (IH us). by destruct (expand f ts us).
Qed.

(** * C142: common references *)
(** For references to one Tuple: a reference to it that both can be bound to, and no
    other that both can be bound to is less const, or an rvalue reference where it is not. *)
Theorem common_reference_same : ∀ cref a b, is_reference a → is_reference b → same_elements (tt_elements a) (tt_elements b) →
  ∃ r, common_reference cref a b = Accepted r ∧ tt_elements r = tt_elements a ∧ bound r a ∧ bound r b ∧
    ∀ r', bound r' a → bound r' b → (tt_const r = true → tt_const r' = true) ∧ (tt_ref r' = ToRValue → tt_ref r = ToRValue).
Proof.
  intros cref [ca ra es] [cb rb fs] Ha Hb Hs. simpl in *. unfold is_reference in *. simpl in *. unfold common_reference, common_ref. simpl.
  apply same_types_spec in Hs. rewrite Hs.
  destruct ra, rb; try done; eexists; (split; [reflexivity|]); (split; [done|]); unfold bound; simpl;
    destruct ca, cb; simpl; split_and!; try done; intros [[] [] rs]; simpl; intros [? ?] [? ?]; split; intros ?; try done; tauto.
Qed.
(** Otherwise: the Tuple of the common references of the elements; if there is none for some
    elements, or the sizes differ, a program that asks does not compile. *)
Theorem common_reference_partial : ∀ cref a b, ¬ (is_reference a ∧ is_reference b ∧ same_elements (tt_elements a) (tt_elements b)) →
  (∀ r, common_reference cref a b = Accepted r ↔
     tt_const r = false ∧ tt_ref r = NoRef ∧ pairwise (λ t u, cref (seen a t) (seen b u)) (tt_elements a) (tt_elements b) (tt_elements r)) ∧
  ((¬ ∃ rs, pairwise (λ t u, cref (seen a t) (seen b u)) (tt_elements a) (tt_elements b) rs) ↔ common_reference cref a b = Hard).
Proof.
  intros cref a b Hn. assert (N : common_ref a b = None).
  { unfold common_ref. destruct (same_types _ _) eqn:E; [|done]. apply same_types_spec in E. unfold is_reference in *.
    destruct (tt_ref a), (tt_ref b); try done; exfalso; apply Hn; done. }
  unfold common_reference. rewrite N. unfold basic_common_reference.
  set (f := λ t u, cref (xref a t) (xref b u)).
  assert (P : ∀ rs, expand f (tt_elements a) (tt_elements b) = Accepted rs ↔ pairwise (λ t u, cref (seen a t) (seen b u)) (tt_elements a) (tt_elements b) rs).
  { intros rs. rewrite expand_exact. unfold pairwise, f. setoid_rewrite xref_seen. done. }
  split.
  - intros [c k rs]. simpl. destruct (expand f _ _) as [| |rs'] eqn:E; cbn [and_then].
    + by apply expand_decides in E.
    + split; [done|]. intros (_ & _ & H). apply P in H. done.
    + split; [intros H; injection H as <- <- <-; split; [done|]; split; [done|]; by apply P|].
      intros (-> & -> & H). apply P in H. injection H as ->. done.
  - destruct (expand f _ _) as [| |rs'] eqn:E; cbn [and_then].
    + by apply expand_decides in E.
    + split; [done|]. intros _ (rs & H). apply P in H. done.
    + split; [|done]. intros H. exfalso. apply H. exists rs'. by apply P.
Qed.
(** Tuples without a common reference are not told apart from an error: for Tuples of
    different sizes, and for Tuples of one size whose elements have no common reference, the
    question does not compile. *)
Theorem common_reference_refuted : ∀ cref,
  (∃ a b, (¬ ∃ rs, pairwise (λ t u, cref (seen a t) (seen b u)) (tt_elements a) (tt_elements b) rs) ∧ common_reference cref a b = Hard) ∧
  ∀ es fs t u, length es = length fs → cref t u = None → common_reference cref (TT false NoRef (es ++ [t])) (TT false NoRef (fs ++ [u])) = Hard.
Proof.
  intros cref. split.
  { exists (TT false NoRef [t_int]), (TT false NoRef []). split; [|reflexivity]. by intros (rs & H & _). }
  intros es fs t u Hl Hc. apply common_reference_partial; [by intros (H & _)|]. intros (rs & H1 & H2 & H).
  destruct (H (length es) t u) as (r' & _ & Hr).
  - simpl. by rewrite lookup_app_r, Nat.sub_diag by lia.
  - simpl. by rewrite lookup_app_r, Hl, Nat.sub_diag by lia.
  - assert (S : ∀ es t, seen (TT false NoRef es) t = t) by (by intros ? []). rewrite !S in Hr. by rewrite Hc in Hr.
Qed.
(** The order of the two does not matter if it does not for the elements. *)
Theorem common_reference_symmetric : ∀ cref a b, (∀ t u, cref t u = cref u t) →
  match common_reference cref a b, common_reference cref b a with
  | Accepted r, Accepted r' => tt_const r = tt_const r' ∧ tt_ref r = tt_ref r' ∧ same_elements (tt_elements r) (tt_elements r')
  | Hard, Hard => True
  | _, _ => False
  end.
Proof.
  intros cref [ca ra es] [cb rb fs] Hc.
  assert (N : ∀ ca ra cb rb es fs, expand (λ t u, cref (xref (TT ca ra es) t) (xref (TT cb rb fs) u)) es fs = expand (λ t u, cref (xref (TT cb rb fs) t) (xref (TT ca ra es) u)) fs es).
  { clear -Hc. intros ca ra cb rb es fs. 
    assert (G : ∀ a b ts us, expand (λ t u, cref (xref a t) (xref b u)) ts us = expand (λ t u, cref (xref b t) (xref a u)) us ts); [|by apply G].
    intros a b. induction ts as [|t ts IH]; intros [|u us]; cbn [expand]; try done. rewrite Hc. by rewrite IH. }
  assert (B : match basic_common_reference cref (TT ca ra es) (TT cb rb fs), basic_common_reference cref (TT cb rb fs) (TT ca ra es) with
    | Accepted r, Accepted r' => tt_const r = tt_const r' ∧ tt_ref r = tt_ref r' ∧ same_elements (tt_elements r) (tt_elements r')
    | Hard, Hard => True | _, _ => False end).
  { unfold basic_common_reference. simpl. rewrite N. destruct (expand _ fs es) as [| |rs] eqn:E; cbn [and_then]; [by apply expand_decides in E|done|].
    split; [done|]. split; [done|]. apply same_elements_refl. }
  unfold common_reference, common_ref. simpl.
  destruct (same_types es fs) eqn:S.
  - apply same_types_spec in S. pose proof (same_elements_sym _ _ S) as S'. apply same_types_spec in S'. rewrite S'.
    destruct ra, rb; try done; simpl; rewrite ?(orb_comm cb); done.
  - destruct (same_types fs es) eqn:S'; [|done]. exfalso. apply same_types_spec, same_elements_sym, same_types_spec in S'. by rewrite S in S'.
Qed.
(** The common references of numbers, for the examples: of the same object, and of values *)
Definition number_cref (t u : ty) : option ty :=
  if ty_eqb t u then Some t else if core_eqb (remove_cvref t) (remove_cvref u) then Some (Obj (Q false false (remove_cvref t))) else None.
(** /repo/tests/container/tuple.cpp:44-50; references to one Tuple; none *)
Example common_reference_ex : let i := remove_reference t_int in
  common_reference number_cref (TT false NoRef [t_int; LRef i]) (TT false ToLValue [t_int; t_int]) = Accepted (TT false NoRef [t_int; LRef i]) ∧
  common_reference number_cref (TT false ToLValue [t_int]) (TT true ToRValue [t_int]) = Accepted (TT true ToLValue [t_int]) ∧
  common_reference number_cref (TT false NoRef [t_int]) (TT false NoRef [t_class 1]) = Hard ∧
  common_reference number_cref (TT false NoRef [t_int]) (TT false NoRef [t_int; t_int]) = Hard.
Proof. cbv zeta. split_and!; reflexivity. Qed.

(** * C143: common types *)
(** Every element can initialise the one it becomes, in braces; further elements can be
    initialised without a value, which references cannot. *)
Definition made_from (inits : core → expr → bool) (f : ty) (x : expr) : Prop :=
  match f with Obj q => inits (q_core q) x = true | LRef _ | RRef _ => binds f x = true end.
Definition element_wise_init (inits : core → expr → bool) (empty : core → bool) (es fs : list ty) : Prop :=
  length es ≤ length fs ∧ (∀ i e f, es !! i = Some e → fs !! i = Some f → made_from inits f (Expr (remove_reference e) LValue)) ∧
  ∀ i f, length es ≤ i → fs !! i = Some f → ∃ q, f = Obj q ∧ empty (q_core q) = true.
Lemma made_from_spec inits f x : starts inits f x = true ↔ made_from inits f x.
Proof. by destruct f. Qed.
Lemma starts_empty_spec empty f : starts_empty empty f = true ↔ ∃ q, f = Obj q ∧ empty (q_core q) = true.
Proof. destruct f; cbn; split; [by eauto|by intros (q' & [= ->] & H)|..]; try done; by intros (q' & [=] & _). Qed.
Lemma aggregate_init_exact inits empty es : ∀ fs, aggregate_init inits empty fs (args es) = true ↔ element_wise_init inits empty es fs.
Proof.
  unfold element_wise_init. induction es as [|e es IH]; intros fs.
  - cbn [args map]. assert (A : ∀ fs, aggregate_init inits empty fs [] = true ↔ ∀ i f, fs !! i = Some f → ∃ q, f = Obj q ∧ empty (q_core q) = true).
    { clear. induction fs as [|f fs IH]; cbn [aggregate_init]; [done|]. rewrite andb_true_iff, IH, starts_empty_spec. split.
      - intros [H1 H2] [|i] g Hg; [by injection Hg as <-|by apply (H2 i)].
      - intros H. split; [by apply (H 0)|]. intros i g Hg. by apply (H (S i)). }
    rewrite A. split; [intros H; split; [simpl; lia|]; split; [done|]; intros i f _; apply H|]. intros (_ & _ & H) i f. apply H. simpl. lia.
  - destruct fs as [|f fs]; cbn [args map aggregate_init]; [split; [done|]; intros (H & _); simpl in H; lia|].
    rewrite andb_true_iff, made_from_spec. fold (args es). rewrite IH. split.
    + intros (H0 & H1 & H2 & H3). split; [simpl; lia|]. split.
      * intros [|i] e' f' He Hf; [by injection He as <-; injection Hf as <-|by apply (H2 i)].
      * intros [|i] f' Hi Hf; simpl in Hi; [lia|]. apply (H3 i); [lia|done].
    + intros (H1 & H2 & H3). split; [by apply (H2 0)|]. split; [simpl in H1; lia|]. split.
      * intros i e' f' He Hf. by apply (H2 (S i)).
      * intros i f' Hi Hf. apply (H3 (S i)); [simpl; lia|done].
Qed.
Lemma convertible_exact inits makes empty es fs : Forall declarable es → Forall declarable fs →
  convertible inits makes empty es fs = true ↔ ¬ same_elements es fs ∧ element_wise_init inits empty es fs.
Proof.
  intros Hd Hf. unfold convertible, convert_tuple. rewrite <- aggregate_init_exact, <- same_types_spec.
  assert (G : match c_tuple_like false (XTuple fs) with Rejected => if is_aggregate (XTuple fs) then Accepted tt else Rejected | o => o end = Accepted tt).
  { by destruct (tuple_like_partial (XTuple fs) Hf) as [[-> _]|[-> _]]. }
  rewrite G. cbn [and_then is_this_tuple list_init]. destruct (same_types es fs); cbn [orb]; [split; [done|tauto]|].
  destruct (aggregate_init inits empty fs (args es)); cbn [negb]; [|split; [done|by intros [_ H]]].
  rewrite (get_all_exact es Hd). cbn [and_then]. destruct (aggregate_init inits empty fs (initialisers es)); split; done.
Qed.
(** Tuples of one size: the Tuple of the common types; if there is none for some elements,
    the program does not compile. Of different sizes: the longer one, if the shorter one
    converts to it, and else there is none. *)
Theorem common_type_partial : ∀ ctype inits makes empty es fs, Forall declarable es → Forall declarable fs →
  (length es = length fs → (∀ rs, common_type ctype inits makes empty es fs = Accepted rs ↔ pairwise ctype es fs rs) ∧
     ((¬ ∃ rs, pairwise ctype es fs rs) ↔ common_type ctype inits makes empty es fs = Hard)) ∧
  (length es < length fs → common_type ctype inits makes empty es fs ≠ Hard ∧
     (∀ rs, common_type ctype inits makes empty es fs = Accepted rs ↔ rs = fs ∧ element_wise_init inits empty es fs)) ∧
  (length fs < length es → common_type ctype inits makes empty es fs ≠ Hard ∧
     (∀ rs, common_type ctype inits makes empty es fs = Accepted rs ↔ rs = es ∧ element_wise_init inits empty fs es)).
Proof.
  intros ctype inits makes empty es fs Hd Hf. unfold common_type.
  assert (C : ∀ es fs, Forall declarable es → Forall declarable fs → length es < length fs → convertible inits makes empty fs es = false ∧
    (convertible inits makes empty es fs = true ↔ element_wise_init inits empty es fs)).
  { clear. intros es fs Hd Hf L. split.
    - apply not_true_iff_false. intros H. apply convertible_exact in H as (_ & H & _); [lia|done|done].
    - rewrite convertible_exact by done. split; [tauto|]. intros H. split; [|done]. intros S. apply Forall2_length in S. lia. }
  split_and!.
  - intros L. rewrite (proj2 (Nat.eqb_eq _ _) L). split; [intros rs; apply expand_exact|].
    destruct (expand ctype es fs) as [| |rs'] eqn:E; [by apply expand_decides in E|..].
    + split; [done|]. intros _ (rs & H). by apply expand_exact in H; rewrite E in H.
    + split; [|done]. intros H. exfalso. apply H. exists rs'. by apply expand_exact.
  - intros L. rewrite (proj2 (Nat.eqb_neq _ _)) by lia. destruct (C es fs Hd Hf L) as [C1 C2]. rewrite C1.
    destruct (convertible inits makes empty es fs); (split; [done|]); intros rs; split; try done.
    + intros H. injection H as <-. split; [done|by apply C2].
    + by intros [-> _].
    + intros [_ H]. by apply C2 in H.
  - intros L. rewrite (proj2 (Nat.eqb_neq _ _)) by lia. destruct (C fs es Hf Hd L) as [C1 C2]. rewrite C1.
    destruct (convertible inits makes empty fs es); (split; [done|]); intros rs; split; try done.
    + intros H. injection H as <-. split; [done|by apply C2].
    + by intros [-> _].
    + intros [_ H]. by apply C2 in H.
Qed.
(** Tuples that share a type convert to it if all their elements do in braces. *)
Theorem common_with_partial : ∀ ctype inits makes empty es fs rs, Forall declarable es → Forall declarable fs → Forall declarable rs →
  (∀ t u, ctype t u = ctype u t) → length es = length fs → pairwise ctype es fs rs →
  ∃ b, common_with ctype inits makes empty es fs = Accepted b ∧
    (b = true ↔ (same_elements es rs ∨ element_wise_init inits empty es rs) ∧ (same_elements fs rs ∨ element_wise_init inits empty fs rs)).
Proof.
  intros ctype inits makes empty es fs rs Hd Hf Hr Hs L P.
  pose proof (proj1 (common_type_partial ctype inits makes empty es fs Hd Hf) L) as [A _].
  pose proof (proj1 (common_type_partial ctype inits makes empty fs es Hf Hd) (eq_sym L)) as [B _].
  assert (P' : pairwise ctype fs es rs).
  { destruct P as (P1 & P2 & P). split; [done|]. split; [by rewrite P2|]. intros i t u Ht Hu. rewrite Hs. by apply (P i). }
  apply A in P. apply B in P'. unfold common_with. rewrite P, P'. cbn [and_then].
  eexists. split; [reflexivity|]. unfold is_convertible_tuple. rewrite !andb_true_iff, !orb_true_iff, !convertible_exact, !same_types_spec by done.
  assert (D : ∀ x, same_elements x rs ∨ ¬ same_elements x rs) by (intros x; destruct (same_types x rs) eqn:E; [left; by apply same_types_spec|right; intros H; apply same_types_spec in H; by rewrite E in H]).
  pose proof (D es). pose proof (D fs). pose proof (same_elements_refl rs). tauto.
Qed.
(** The common type of int and unsigned is unsigned, but in braces an int does not initialise
    an unsigned ([dcl.init.list]: narrowing): Tuple<int> and Tuple<unsigned> have a common
    type that Tuple<int> does not convert to. *)
Definition t_unsigned : ty := Obj (Q false false (Scalar (Integer 32 false))).
(** [expr.arith.conv] and [dcl.init.list] for int and unsigned *)
Definition int_ctype (t u : ty) : option ty :=
  match remove_cvref t, remove_cvref u with
  | Scalar (Integer w s), Scalar (Integer w' s') => Some (Obj (Q false false (Scalar (Integer (Z.max w w') (if (w =? w')%Z then s && s' else if (w <? w')%Z then s' else s)))))
  | _, _ => None
  end.
Definition int_inits (c : core) (e : expr) : bool :=
  match c, q_core (e_type e) with
  | Scalar (Integer w s), Scalar (Integer w' s') => if Bool.eqb s s' then (w' <=? w)%Z else s && (w' <? w)%Z
  | c, d => core_eqb c d
  end.
Theorem common_with_refuted : ∃ es fs rs, common_type int_ctype int_inits int_inits (λ _, true) es fs = Accepted rs ∧ pairwise int_ctype es fs rs ∧
  ¬ (same_elements es rs ∨ element_wise_init int_inits (λ _, true) es rs) ∧ common_with int_ctype int_inits int_inits (λ _, true) es fs = Accepted false.
Proof.
  exists [t_int], [t_unsigned], [t_unsigned]. split; [reflexivity|]. split; [by apply expand_exact|]. split; [|reflexivity].
  intros [H|(_ & H & _)]; [inversion H; subst; done|]. by specialize (H 0 _ _ eq_refl eq_refl).
Qed.
(** Nor does asking whether Tuples without a common type have one compile. *)
Theorem common_type_refuted : ∃ es fs, (∀ rs, ¬ pairwise int_ctype es fs rs) ∧ common_with int_ctype int_inits int_inits (λ _, true) es fs = Hard.
Proof.
  exists [t_int], [t_class 1]. split; [|reflexivity]. intros rs (_ & _ & H). by destruct (H 0 _ _ eq_refl eq_refl) as (r & _ & ?).
Qed.
Definition t_long : ty := Obj (Q false false (Scalar (Integer 64 true))).
Example common_type_ex :
  common_type int_ctype int_inits int_inits (λ _, true) [t_int; t_unsigned] [t_long; t_long] = Accepted [t_long; t_long] ∧
  common_with int_ctype int_inits int_inits (λ _, true) [t_int; t_unsigned] [t_long; t_long] = Accepted true ∧
  common_type int_ctype int_inits int_inits (λ _, true) [t_int] [t_long; t_class 1] = Accepted [t_long; t_class 1] ∧
  common_type int_ctype int_inits int_inits (λ _, true) [t_long] [t_int; t_class 1] = Rejected ∧
  (∀ t u, int_ctype t u = int_ctype u t).
Proof.
  split_and!; try reflexivity. intros t u. unfold int_ctype. destruct (remove_cvref t) as [[]| | | |], (remove_cvref u) as [[]| | | |]; try done.
  do 5 f_equal; [apply Z.max_comm|]. rewrite Z.eqb_sym. destruct (Z.eqb_spec w0 w); [apply andb_comm|].
  destruct (Z.ltb_spec w w0), (Z.ltb_spec w0 w); try done; lia.
Qed.

Definition common_theorems := (common_reference_same, common_reference_partial, common_reference_refuted, common_reference_symmetric,
  common_type_partial, common_with_partial, common_with_refuted, common_type_refuted).
Print Assumptions common_theorems.
