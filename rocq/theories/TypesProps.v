(** Theorems about types, value categories and overload resolution. *)
From stdpp Require Import list.
From Coq Require Import ZArith Lia.
From Verif Require Import TypesModel.

(** * Specification *)
Definition referred (t : ty) : qual := match t with Obj q | LRef q | RRef q => q end.
Definition is_function (c : core) : bool := match c with Function _ => true | _ => false end.
(** The type with const; that of a function cannot have it *)
Definition with_const (q : qual) : qual := if is_function (q_core q) then q else Q true (q_volatile q) (q_core q).
(** [forward]: OVERRIDE_REF(T&&, COPY_CONST(remove_reference_t<T>, remove_reference_t<U>)),
    the result of std::forward_like<T>(x) for x of the type U *)
Definition std_forward_like (like : ty) (x : qual) : ty :=
  let copied := if q_const (referred like) then with_const x else x in
  match like with LRef _ => LRef copied | Obj _ | RRef _ => RRef copied end.
(** [tuple.elem]: T&, const T&, T&& or const T&&, by the tuple *)
Definition std_get (const : bool) (c : cat) (m : ty) : ty :=
  let m' := match m with Obj q => Obj (if const then with_const q else q) | _ => m end in
  match c, m' with
  | LValue, _ | _, LRef _ => LRef (referred m')
  | _, _ => RRef (referred m')
  end.
(** A type an element can have *)
Definition element (m : ty) : Prop :=
  match m with Obj q => is_function (q_core q) = false ∧ q_core q ≠ Scalar Void | LRef q | RRef q => q_core q ≠ Scalar Void end.
Definition rvalue (c : cat) : bool := match c with LValue => false | _ => true end.
Definition is_rref (m : ty) : Prop := match m with RRef _ => True | _ => False end.
Definition is_lref (m : ty) : Prop := match m with LRef _ => True | _ => False end.
Definition int : core := Scalar (Integer 32 true).

(** * Traits *)
(** Every integral type is either signed or unsigned; arithmetic types are the integral
    and the floating-point types; references are none of these. *)
Theorem arithmetic_concepts : ∀ t, (match t with Obj (Q _ _ (Scalar (Integer w _))) => (0 < w)%Z | _ => True end) →
  (c_integral t = true ↔ c_signed_integral t = true ∨ c_unsigned_integral t = true) ∧
  ¬ (c_signed_integral t = true ∧ c_unsigned_integral t = true) ∧
  (c_arithmetic t = true ↔ c_integral t = true ∨ c_floating_point t = true) ∧
  ¬ (c_integral t = true ∧ c_floating_point t = true) ∧
  (c_arithmetic t = true → ∃ q, t = Obj q).
Proof.
  intros t Hw. destruct t as [[c v [[| | |w [|]|w|n]|n s u|n|n|n]]|q|q]; cbn; try (repeat split; naive_solver).
  assert (H : (0 <? 2 ^ w - 1)%Z = true).
  { apply Z.ltb_lt. pose proof (Z.pow_gt_1 2 w ltac:(lia)) as [H _]. specialize (H Hw). lia. }
  assert (H2 : (2 ^ w - 1 <? 0)%Z = false) by (apply Z.ltb_ge; apply Z.ltb_lt in H; lia).
  unfold c_signed_integral, c_unsigned_integral, is_signed, is_unsigned. cbn -[Z.pow]. rewrite H, H2. repeat split; naive_solver.
Qed.
(** Each concept tells exactly the types it names, whatever their qualifiers: signed integers,
    unsigned integers and bool, floating-point numbers. *)
Theorem arithmetic_exact : ∀ t, (match t with Obj (Q _ _ (Scalar (Integer w _))) => (0 < w)%Z | _ => True end) →
  (c_signed_integral t = true ↔ ∃ c v w, t = Obj (Q c v (Scalar (Integer w true)))) ∧
  (c_unsigned_integral t = true ↔ (∃ c v w, t = Obj (Q c v (Scalar (Integer w false)))) ∨ ∃ c v, t = Obj (Q c v (Scalar Boolean))) ∧
  (c_floating_point t = true ↔ ∃ c v w, t = Obj (Q c v (Scalar (Floating w)))).
Proof.
  intros t Hw. unfold c_signed_integral, c_unsigned_integral, is_signed, is_unsigned.
  destruct t as [[c v [[| | |w [|]|w|n]|n s u|n|n|n]]|q|q]; cbn -[Z.pow]; try (repeat split; naive_solver).
  assert (H : (0 <? 2 ^ w - 1)%Z = true).
  { apply Z.ltb_lt. pose proof (Z.pow_gt_1 2 w ltac:(lia)) as [H _]. specialize (H Hw). lia. }
  assert (H2 : (2 ^ w - 1 <? 0)%Z = false) by (apply Z.ltb_ge; apply Z.ltb_lt in H; lia).
  rewrite H, H2. repeat split; naive_solver.
Qed.
(** bool is unsigned; cv-qualifiers do not matter. *)
Theorem arithmetic_bool : ∀ c v, c_unsigned_integral (Obj (Q c v (Scalar Boolean))) = true ∧ c_signed_integral (Obj (Q c v (Scalar Boolean))) = false.
Proof. done. Qed.
Theorem arithmetic_qualifiers : ∀ c v c' v' k, c_signed_integral (Obj (Q c v k)) = c_signed_integral (Obj (Q c' v' k)) ∧
  c_unsigned_integral (Obj (Q c v k)) = c_unsigned_integral (Obj (Q c' v' k)) ∧ c_floating_point (Obj (Q c v k)) = c_floating_point (Obj (Q c' v' k)).
Proof. intros c v c' v' [[]| | | |]; done. Qed.
(** is_scoped_enum tells exactly the scoped enumerations (of any cv-qualification). *)
Theorem scoped_enum : ∀ t, (∀ q n s k, t = Obj q → q_core q = Enum n s k → c_integral (Obj (Q false false (Scalar k))) = true) →
  is_scoped_enum t = true ↔ ∃ c v n k, t = Obj (Q c v (Enum n true k)).
Proof.
  intros t H. split.
  - destruct t as [[c v [k|n [|] k|n|n|n]]|q|q]; try done; [by exists c, v, n, k|].
    unfold is_scoped_enum, is_convertible, c_arithmetic. cbn. specialize (H _ n false k eq_refl eq_refl). unfold c_integral in H. cbn in H.
    destruct k as [| | |w [|]| |]; done.
  - intros (c & v & n & k & ->). done.
Qed.
(** is_initializer_list tells the initializer lists that are not const ... *)
Theorem initializer_list_partial : ∀ t, is_initializer_list t = true ↔ ∃ n, t = Obj (Q false false (InitializerList n)).
Proof. intros t. split; [|by intros [n ->]]. destruct t as [[[|] [|] [k|n s k|n|n|n]]|q|q]; try done. by exists n. Qed.
(** ... and no const one. *)
Theorem initializer_list_refuted : ∃ n, is_initializer_list (Obj (Q true false (InitializerList n))) = false.
Proof. by exists 0. Qed.

Lemma core_eqb_refl c : core_eqb c c = true.
Proof. destruct c as [[| | |w s|w|n]|n s u|n|n|n]; cbn; rewrite ?Z.eqb_refl, ?Nat.eqb_refl, ?eqb_reflx; done. Qed.
Lemma core_eqb_eq c d : core_eqb c d = true → c = d ∨ ∃ n s u s' u', c = Enum n s u ∧ d = Enum n s' u'.
Proof.
  destruct c as [[| | |w s|w|n]|n s u|n|n|n], d as [[| | |w' s'|w'|n']|n' s' u'|n'|n'|n']; cbn; try done; intros H; try by left.
  - apply andb_true_iff in H as [H1%Z.eqb_eq H2%eqb_prop]. subst. by left.
  - apply Z.eqb_eq in H. subst. by left.
  - apply Nat.eqb_eq in H. subst. by left.
  - apply Nat.eqb_eq in H. subst. right. naive_solver.
  - apply Nat.eqb_eq in H. subst. by left.
  - apply Nat.eqb_eq in H. subst. by left.
  - apply Nat.eqb_eq in H. subst. by left.
Qed.
(** A program has one enumeration of each name *)
Definition no_enum (c : core) : Prop := match c with Enum _ _ _ => False | _ => True end.
(** CDifferentFrom is inequality of types; CDifferentFromSelf ignores references and
    cv-qualifiers. *)
Theorem different_from : ∀ t u, no_enum (q_core (referred t)) → c_different_from t u = true ↔ t ≠ u.
Proof.
  assert (H : ∀ q r, no_enum (q_core q) → Bool.eqb (q_const q) (q_const r) && Bool.eqb (q_volatile q) (q_volatile r) && core_eqb (q_core q) (q_core r) = true ↔ q = r).
  { intros [c v k] [c' v' k'] Hn; cbn in *. split.
    - intros [[H1%eqb_prop H2%eqb_prop]%andb_true_iff H3]%andb_true_iff. subst. apply core_eqb_eq in H3 as [-> |(n & s & u & s' & u' & -> & _)]; done.
    - intros [= <- <- <-]. by rewrite !eqb_reflx, core_eqb_refl. }
  intros t u Hn. unfold c_different_from. rewrite negb_true_iff, <- not_true_iff_false. apply not_iff_compat.
  destruct t as [q|q|q], u as [r|r|r]; cbn in *; try (split; naive_solver); rewrite H by done; split; naive_solver.
Qed.
Theorem different_from_self : ∀ t c, no_enum c → c_different_from_self t (Obj (Q false false c)) = true ↔ q_core (referred t) ≠ c.
Proof.
  intros t c Hn. change (c_different_from_self t (Obj (Q false false c))) with (c_different_from (Obj (Q false false c)) (Obj (Q false false (q_core (referred t))))).
  rewrite different_from by done. naive_solver.
Qed.

(** * forward_like *)
Theorem forward_like_std : ∀ like arg, forward_like like arg = std_forward_like like (e_type arg).
Proof.
  intros like [q c]. unfold forward_like, std_forward_like, as_const, move, lref, add_const, with_const, deduce, is_lvalue.
  destruct like as [[[] v k]|[[] v k]|[[] v k]]; destruct c; cbn; try done; destruct (q_core q); done.
Qed.

(** * Element access *)
Lemma binds_self t e : core_eqb (q_core (referred t)) (q_core (e_type e)) = true → less_qualified (e_type e) (referred t) = true →
  (match t with LRef _ => is_lvalue e | RRef _ => negb (is_lvalue e) | Obj _ => true end) = true → returns t e = Some t.
Proof. intros H1 H2 H3. unfold returns, binds. change (remove_cvref t) with (q_core (referred t)). change (remove_reference t) with (referred t). by rewrite H1, H2, H3. Qed.
Lemma less_refl q : less_qualified q q = true.
Proof. unfold less_qualified. destruct q as [[] [] ?]; done. Qed.
Lemma binds_refl k qc qv rc rv c t : referred t = Q rc rv k → implb qc rc = true → implb qv rv = true →
  (match t with LRef _ => is_lvalue (Expr (Q qc qv k) c) | RRef _ => negb (is_lvalue (Expr (Q qc qv k) c)) | Obj _ => true end) = true →
  returns t (Expr (Q qc qv k) c) = Some t.
Proof. intros E H1 H2 H3. apply binds_self; [rewrite E; apply core_eqb_refl| |done]. unfold less_qualified. rewrite E. cbn. by rewrite H1, H2. Qed.
(** The type of get<I> without explicit object parameters *)
Lemma get20 n cl const c m : element m →
  tuple_get false n cl const c m =
  if rvalue c then if const then Some (std_get true LValue m) else match m with RRef _ => None | _ => Some (std_get false c m) end
  else Some (std_get const c m).
Proof.
  intros Hm. unfold tuple_get, get_object, index20.
  assert (F : ∀ q, is_function (q_core q) = false → add_const q = Q true (q_volatile q) (q_core q) ∧ with_const q = Q true (q_volatile q) (q_core q)).
  { intros [a b k] H. unfold add_const, with_const. cbn in *. rewrite H. split; [|done]. by destruct k. }
  destruct m as [[qc qv k]|[qc qv k]|[qc qv k]].
  - destruct Hm as [Hf _]. destruct (F (Q qc qv k) Hf) as [F1 F2]. cbn in F1, F2.
    destruct const, c; cbn; rewrite ?F1, ?F2; cbn; (eapply binds_refl; [reflexivity|by destruct qc|by destruct qv|done]).
  - destruct const, c; cbn; apply (binds_refl k qc qv qc qv); try done; by destruct qc, qv.
  - destruct const, c; cbn; try (apply (binds_refl k qc qv qc qv); try done; by destruct qc, qv);
      unfold returns, binds; cbn; by rewrite andb_false_r.
Qed.
(** It is that of std::get<I>, except for a const rvalue and for an element X&& of an rvalue. *)
Theorem get_type_partial : ∀ n cl const c m, element m → (rvalue c = true → is_lref m ∨ const = false ∧ ¬ is_rref m) →
  tuple_get false n cl const c m = Some (std_get const c m) ∧ pair_get false cl const c m = Some (std_get const c m).
Proof.
  intros n cl const c m Hm H. assert (E : tuple_get false n cl const c m = Some (std_get const c m)).
  { rewrite get20 by done. destruct (rvalue c) eqn:R; [|done]. destruct (H eq_refl) as [Hl|[-> Hr]].
    - destruct m as [q|q|q]; try done. destruct const, c; done.
    - destruct m as [q|q|q]; done. }
  split; [done|]. exact E.
Qed.
(** An element X&& of an rvalue is not accessible; an element of a const rvalue is an lvalue. *)
Theorem get_type_refuted : ∀ n cl, (∃ m, element m ∧ tuple_get false n cl false XValue m = None ∧ pair_get false cl false XValue m = None) ∧
  (∃ m, element m ∧ tuple_get false n cl true XValue m = Some (LRef (referred (std_get true XValue m))) ∧ std_get true XValue m = RRef (referred (std_get true XValue m))).
Proof.
  intros n cl. split.
  - exists (RRef (Q false false int)). repeat split; done.
  - exists (Obj (Q false false int)). repeat split; done.
Qed.
(** With explicit object parameters: the same for a pair and a tuple with one element,
    except that an element X&& of an rvalue is an lvalue ... *)
Lemma get23 cl const c m : element m → pair_get true cl const c m = Some (std_get const (if const then LValue else c) (match m with RRef q => LRef q | _ => m end)).
Proof.
  intros Hm. unfold pair_get, get_object, index23. destruct m as [[qc qv k]|[qc qv k]|[qc qv k]].
  - destruct Hm as [Hf _]. cbn in Hf. assert (W : with_const (Q qc qv k) = Q true qv k) by (unfold with_const; cbn; by rewrite Hf).
    destruct const, c; cbn; rewrite ?W; try done; unfold forward_like, as_const, move, lref, add_const; cbn; destruct cl; cbn; rewrite ?W; done.
  - destruct const, c; done.
  - destruct const, c; done.
Qed.
Theorem get_type_explicit_partial : ∀ cl const c m, element m → ¬ (rvalue c = true ∧ (const = true ∧ ¬ is_lref m ∨ is_rref m)) →
  pair_get true cl const c m = Some (std_get const c m) ∧ tuple_get true 1 cl const c m = Some (std_get const c m).
Proof.
  intros cl const c m Hm H. assert (E : pair_get true cl const c m = Some (std_get const c m)).
  { rewrite get23 by done. destruct m as [q|q|q], const, c; try done; exfalso; apply H; split; try done; try (by right); left; split; try done; tauto. }
  split; [done|]. exact E.
Qed.
(** ... but in a tuple with several elements none can be accessed. *)
Theorem get_type_explicit_refuted : ∀ n cl const c m, 2 ≤ n → tuple_get true n cl const c m = None.
Proof.
  intros n cl const c m Hn. unfold tuple_get, index23. destruct (get_object const c) as [const' c'].
  destruct (Nat.eqb_spec n 1); [lia|done].
Qed.
(** tuple_element_t<I, Tuple<T...>> is the type of element I, unless that is a const scalar *)
Theorem tuple_element_partial : ∀ m, (∀ c v k, m = Obj (Q c v k) → c = false ∧ v = false ∨ ∃ n, k = Class n ∨ k = InitializerList n) → tuple_element m = m.
Proof.
  intros [[c v k]|q|q] H; try done. destruct (H c v k eq_refl) as [[-> ->]|[n [-> | ->]]]; [by destruct k|done|done].
Qed.
Theorem tuple_element_refuted : ∃ m, element m ∧ tuple_element m ≠ m.
Proof. by exists (Obj (Q true false int)). Qed.
Theorem pair_element_types : ∀ t u, pair_element 0 t u = Some t ∧ pair_element 1 t u = Some u ∧ ∀ i, 2 ≤ i → pair_element i t u = None.
Proof. intros t u. split; [done|]. split; [done|]. intros [|[|i]]; [lia|lia|done]. Qed.

(** * tuple_cat *)
Definition plain (m : ty) : Prop := element m ∧ ¬ is_rref m ∧ tuple_element m = m.
Lemma mapM_const {A B} (f : A → option B) g l : Forall (λ x, f x = Some (g x)) l → mapM f l = Some (map g l).
Proof. intros H. apply mapM_Some. induction H; constructor; done. Qed.
(** The types of tuple_cat for tuples that are lvalues: all elements in order, each
    initialised from the element of its tuple, as an lvalue. *)
Theorem tuple_cat_types_partial : ∀ args, Forall (λ a, t_cat a = LValue ∧ (∀ n, t_class a ≠ Function n) ∧ Forall plain (t_elems a)) args →
  tuple_cat false args = Some (concat (map t_elems args), concat (map (λ a, map (std_get (t_const a) LValue) (t_elems a)) args)).
Proof.
  intros args H. unfold tuple_cat.
  assert (E1 : mapM (cat_one false (length args)) args = Some (map (λ a, map (std_get (t_const a) LValue) (t_elems a)) args)).
  { generalize (length args). intros N. apply mapM_const. eapply Forall_impl; [exact H|]. intros a (Hc & _ & He). unfold cat_one. apply mapM_const.
    eapply Forall_impl; [exact He|]. intros m (Hm & _ & _). unfold forwarded. rewrite Hc. cbn.
    assert (G : tuple_get false N (Class 0) false XValue (LRef (Q (t_const a) false (t_class a))) = Some (LRef (Q (t_const a) false (t_class a)))).
    { unfold tuple_get, get_object, index20. eapply binds_refl; [reflexivity|by destruct (t_const a)|done|done]. }
    unfold tuple_get in G. cbn in G. rewrite G. cbn [mbind option_bind call e_type q_core q_const e_cat]. rewrite get20 by done. done. }
  rewrite E1. cbn [mbind option_bind].
  assert (E2 : concat (map (λ a, map tuple_element (t_elems a)) args) = concat (map t_elems args)).
  { f_equal. apply map_ext_Forall. eapply Forall_impl; [exact H|]. intros a (_ & _ & He). rewrite <- map_id. apply map_ext_Forall.
    eapply Forall_impl; [exact He|]. by intros m (_ & _ & ->). }
  rewrite E2. clear E1 E2.
  assert (F : forallb id (zip_with initialises (concat (map t_elems args)) (concat (map (λ a, map (std_get (t_const a) LValue) (t_elems a)) args))) = true); [|by rewrite F].
  induction H as [|a args (Hc & _ & He) H IH]; [done|]. cbn [map concat].
  rewrite zip_with_app by (by rewrite map_length). rewrite forallb_app, IH, andb_true_r. clear -He.
  induction He as [|m ms (Hm & Hr & _) He IH]; [done|]. cbn. apply andb_true_iff. split; [|exact IH].
  destruct m as [q|[c v k]|q]; [done| |by destruct Hr]. unfold initialises, binds. cbn. rewrite core_eqb_refl. unfold less_qualified. by destruct c, v.
Qed.
(** It does not compile for an rvalue tuple that is not empty ... *)
Theorem tuple_cat_types_refuted : ∀ args a, a ∈ args → rvalue (t_cat a) = true → t_elems a ≠ [] → tuple_cat false args = None.
Proof.
  intros args a Ha Hc He. unfold tuple_cat. assert (E : mapM (cat_one false (length args)) args = None); [|by rewrite E].
  apply mapM_None. apply Exists_exists. exists a. split; [done|]. unfold cat_one. apply mapM_None. destruct (t_elems a) as [|m ms]; [done|]. left.
  unfold forwarded. destruct (t_cat a); [done| |]; cbn; unfold tuple_get, get_object, index20, returns, binds; cbn; by rewrite andb_false_r.
Qed.
(** ... nor, with explicit object parameters, for several tuples of which one is not empty,
    or for a tuple of several elements. *)
Theorem tuple_cat_explicit_refuted : ∀ args a, a ∈ args → (2 ≤ length args ∧ t_elems a ≠ []) ∨ 2 ≤ length (t_elems a) → tuple_cat true args = None.
Proof.
  intros args a Ha Hn. unfold tuple_cat. assert (E : mapM (cat_one true (length args)) args = None); [|by rewrite E].
  apply mapM_None. apply Exists_exists. exists a. split; [done|]. unfold cat_one. apply mapM_None.
  destruct (t_elems a) as [|m ms] eqn:El; [destruct Hn as [[_ ?]|?]; [done|cbn in *; lia]|]. left.
  destruct Hn as [[Hn _]|Hn]; [by rewrite get_type_explicit_refuted|].
  destruct (tuple_get true (length args) _ _ _ _) as [r|]; [|done]. cbn [mbind option_bind].
  by rewrite get_type_explicit_refuted.
Qed.
(** One tuple of one element is fine. *)
Theorem tuple_cat_explicit_partial : ∀ a q, t_elems a = [Obj q] → (∀ k, q_core q = k → tuple_element (Obj q) = Obj q) →
  ∃ init, tuple_cat true [a] = Some ([Obj q], [init]) ∧ q_core (referred init) = q_core q ∧
    (q_const (referred init) = (t_const a || q_const q)).
Proof.
  intros [const c elems cl] q He Hq. cbn [t_elems] in He. subst elems. specialize (Hq _ eq_refl).
  unfold tuple_cat. cbn [map t_elems concat app]. rewrite Hq. destruct q as [qc qv qk].
  destruct const, c; cbn; unfold add_const; cbn; destruct cl; cbn; eexists; split_and!; done.
Qed.

(** * Assignment *)
Definition object_element (m : ty) : Prop := match m with Obj q => q_const q = false | _ => False end.
(** Tuples and pairs of objects that are not const can be assigned from everything, with a
    copy or a move of an object of the same type. *)
Theorem assign_objects_partial : ∀ elems s, Forall object_element elems →
  is_Some (tuple_assign elems s) ∧ is_Some (pair_assign elems s) ∧
  (tuple_assign elems s = Some Moved → ∃ c, s = Same false c ∧ rvalue c = true) ∧
  (pair_assign elems s = Some Moved → ∃ c, s = Same false c ∧ rvalue c = true) ∧
  (s = Same false XValue → tuple_assign elems s = Some Moved ∧ pair_assign elems s = Some Moved) ∧
  (∀ b, s = Same b LValue → tuple_assign elems s = Some Copied).
Proof.
  intros elems s H. unfold tuple_assign, pair_assign.
  assert (E : forallb assignable elems = true). { induction H as [|m ms Hm H IH]; [done|]. cbn. rewrite IH, andb_true_r. destruct m as [q|q|q]; cbn in *; try done. by rewrite Hm. }
  rewrite E. destruct s as [[] []|]; naive_solver.
Qed.
(** A tuple of references cannot be assigned from an object of the same type that is not
    const, nor from a const lvalue: tie(a, b) = tie(c, d) does not compile. *)
Theorem assign_references_refuted : ∀ elems m const c, m ∈ elems → ¬ object_element m → (const = true → c = LValue) → tuple_assign elems (Same const c) = None.
Proof.
  intros elems m const c Hm Hn Hc. unfold tuple_assign.
  assert (E : forallb assignable elems = false).
  { apply not_true_iff_false. intros F. rewrite forallb_forall in F. specialize (F m (proj1 (elem_of_list_In _ _) Hm)). apply Hn.
    destruct m as [q|q|q]; cbn in *; try done. by apply negb_true_iff. }
  rewrite E. destruct const, c; try done; by specialize (Hc eq_refl).
Qed.
(** A pair of references can, except from a const lvalue. *)
Theorem assign_pair_references : ∀ elems const c, is_Some (pair_assign elems (Same const c)) ∨ const = true ∧ c = LValue.
Proof. intros elems const c. unfold pair_assign. destruct const, c; try (right; done); left; try done; destruct (forallb assignable elems); done. Qed.
Theorem assign_other : ∀ elems, tuple_assign elems Other = Some Template ∧ pair_assign elems Other = Some Template.
Proof. done. Qed.

(** * Constructors *)
(** A BindFront, BindBack or Delegate made from one of its own type is a copy or is moved,
    whatever its constness and value category; from anything else it holds that. *)
Theorem guarded_constructor : ∀ self arg, no_enum self →
  (q_core (e_type arg) ≠ self → guarded_construct self arg = ByTemplate) ∧
  (q_core (e_type arg) = self → guarded_construct self arg = if q_const (e_type arg) || is_lvalue arg then ByCopy else ByMove).
Proof.
  intros self [[c v k] ct] Hn. unfold guarded_construct. cbn. split; intros H.
  - assert (E : c_different_from_self (deduce (Expr (Q c v k) ct)) (Obj (Q false false self)) = true); [|by rewrite E].
    apply different_from_self; [done|]. destruct ct; done.
  - assert (E : c_different_from_self (deduce (Expr (Q c v k) ct)) (Obj (Q false false self)) = false).
    { apply not_true_iff_false. rewrite different_from_self by done. intros F. apply F. destruct ct; done. }
    rewrite E. destruct c, ct; done.
Qed.
(** A ConstIterator made from one is a copy if the constructor for other iterators does not
    take it, that is, if it does not convert to the underlying iterator. *)
Theorem const_iterator_constructor : ∀ self arg, q_core (e_type arg) = self → const_iterator_construct self false arg ≠ ByTemplate.
Proof. intros self [[c v k] ct] <-. unfold const_iterator_construct. cbn. rewrite andb_false_r. destruct c, ct; done. Qed.
(** Everything else that converts is taken by that constructor; if a ConstIterator itself
    converts to the underlying iterator, only const lvalues are still copied and rvalues that
    are not const moved. *)
Theorem const_iterator_template : ∀ self arg, no_enum self → q_volatile (e_type arg) = false →
  (q_core (e_type arg) ≠ self ∨ q_const (e_type arg) = rvalue (e_cat arg) → const_iterator_construct self true arg = ByTemplate) ∧
  (q_core (e_type arg) = self → q_const (e_type arg) ≠ rvalue (e_cat arg) →
   const_iterator_construct self true arg = if q_const (e_type arg) then ByCopy else ByMove).
Proof.
  intros self [[c v k] ct] Hs Hv. cbn in Hv. subst v. unfold const_iterator_construct. cbn [e_type q_core q_const e_cat].
  rewrite andb_true_r. split.
  - destruct (core_eqb k self) eqn:E.
    + apply core_eqb_eq in E as [->|(n & s & u & s' & u' & -> & ->)]; [|done].
      intros [H|H]; [done|]. unfold c_different_from, deduce, is_lvalue; cbn [e_cat e_type q_const q_core q_volatile]; destruct c, ct; try (by destruct H); cbn -[core_eqb]; rewrite ?core_eqb_refl; done.
    + intros _. cbn [negb orb]. rewrite andb_true_r.
      unfold c_different_from, deduce, is_lvalue. cbn. destruct ct; cbn; rewrite ?E, ?andb_false_r; done.
  - intros -> H. unfold c_different_from, deduce, is_lvalue; cbn [e_cat e_type q_const q_core q_volatile]; destruct c, ct; try (by destruct H); cbn -[core_eqb]; rewrite ?core_eqb_refl; done.
Qed.

(** * Examples *)
Notation ref := (Q false false int). Notation cref := (Q true false int).
Example arithmetic_concepts_ex : c_signed_integral (Obj ref) = true ∧ c_unsigned_integral (Obj ref) = false ∧ c_arithmetic (LRef ref) = false. Proof. done. Qed.
Example arithmetic_bool_ex : c_arithmetic (Obj (Q true false (Scalar Boolean))) = true. Proof. done. Qed.
Example arithmetic_qualifiers_ex : c_signed_integral (Obj cref) = true. Proof. done. Qed.
Example scoped_enum_ex : is_scoped_enum (Obj (Q false false (Enum 1 true (Integer 32 true)))) = true ∧ is_scoped_enum (Obj (Q false false (Enum 2 false (Integer 32 true)))) = false. Proof. done. Qed.
Example initializer_list_partial_ex : is_initializer_list (Obj (Q false false (InitializerList 4))) = true. Proof. done. Qed.
Example different_from_ex : c_different_from (Obj ref) (Obj cref) = true ∧ c_different_from (Obj ref) (Obj ref) = false. Proof. done. Qed.
Example different_from_self_ex : c_different_from_self (LRef (Q true false (Class 3))) (Obj (Q false false (Class 3))) = false. Proof. done. Qed.
(** tests/core/utility.cpp:11 *)
Example forward_like_std_ex : forward_like (RRef (Q true false (Class 1))) (Expr ref LValue) = RRef cref. Proof. done. Qed.
Example get_type_partial_ex : tuple_get false 2 (Class 1) true LValue (Obj ref) = Some (LRef cref) ∧ tuple_get false 2 (Class 1) false XValue (Obj ref) = Some (RRef ref). Proof. done. Qed.
Example get_type_explicit_partial_ex : pair_get true (Class 1) false PRValue (Obj ref) = Some (RRef ref) ∧ tuple_get true 1 (Class 1) true LValue (LRef ref) = Some (LRef ref). Proof. done. Qed.
Example get_type_explicit_refuted_ex : tuple_get true 2 (Class 1) false LValue (Obj ref) = None. Proof. done. Qed.
Example tuple_element_partial_ex : tuple_element (LRef cref) = LRef cref ∧ tuple_element (Obj (Q true false (Class 1))) = Obj (Q true false (Class 1)). Proof. done. Qed.
Example pair_element_types_ex : pair_element 1 (Obj ref) (LRef cref) = Some (LRef cref). Proof. done. Qed.
(** tests/container/tuple.cpp:211-212 *)
Example tuple_cat_types_partial_ex : let float := Obj (Q false false (Scalar (Floating 32))) in
  tuple_cat false [TArg false LValue [Obj ref] (Class 1); TArg false LValue [Obj ref; LRef cref] (Class 2); TArg true LValue [float] (Class 3)] =
  Some ([Obj ref; Obj ref; LRef cref; float], [LRef ref; LRef ref; LRef cref; LRef (Q true false (Scalar (Floating 32)))]). Proof. done. Qed.
Example tuple_cat_types_refuted_ex : tuple_cat false [TArg false PRValue [Obj ref] (Class 1)] = None. Proof. done. Qed.
Example tuple_cat_explicit_refuted_ex : tuple_cat true [TArg false LValue [Obj ref] (Class 1); TArg false LValue [Obj ref] (Class 2)] = None ∧ tuple_cat true [TArg false LValue [Obj ref; Obj ref] (Class 1)] = None. Proof. done. Qed.
Example tuple_cat_explicit_partial_ex : tuple_cat true [TArg false LValue [Obj ref] (Class 1)] = Some ([Obj ref], [LRef ref]). Proof. done. Qed.
Example assign_objects_partial_ex : tuple_assign [Obj ref; Obj ref] (Same false PRValue) = Some Moved. Proof. done. Qed.
Example assign_references_refuted_ex : tuple_assign [LRef ref; LRef ref] (Same false PRValue) = None ∧ tuple_assign [LRef ref; LRef ref] Other = Some Template. Proof. done. Qed.
Example assign_pair_references_ex : pair_assign [LRef ref; LRef ref] (Same false LValue) = Some Template ∧ pair_assign [LRef ref; LRef ref] (Same true LValue) = None. Proof. done. Qed.
Example guarded_constructor_ex : guarded_construct (Class 5) (Expr (Q false false (Class 5)) LValue) = ByCopy ∧ guarded_construct (Class 5) (Expr (Q false false (Class 6)) LValue) = ByTemplate. Proof. done. Qed.
Example const_iterator_constructor_ex : const_iterator_construct (Class 5) false (Expr (Q false false (Class 5)) LValue) = ByCopy. Proof. done. Qed.
Example const_iterator_template_ex : const_iterator_construct (Class 5) true (Expr (Q false false (Class 5)) LValue) = ByTemplate ∧ const_iterator_construct (Class 5) true (Expr (Q true false (Class 5)) LValue) = ByCopy. Proof. done. Qed.

Definition types_theorems := (arithmetic_concepts, arithmetic_exact, arithmetic_bool, arithmetic_qualifiers, scoped_enum, initializer_list_partial, initializer_list_refuted,
  different_from, different_from_self, forward_like_std, get_type_partial, get_type_refuted, get_type_explicit_partial, get_type_explicit_refuted,
  tuple_element_partial, tuple_element_refuted, pair_element_types, tuple_cat_types_partial, tuple_cat_types_refuted, tuple_cat_explicit_refuted, tuple_cat_explicit_partial,
  assign_objects_partial, assign_references_refuted, assign_pair_references, assign_other, guarded_constructor, const_iterator_constructor, const_iterator_template).
Print Assumptions types_theorems.
