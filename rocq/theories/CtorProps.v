(** Theorems about the constructors of vectors and the deduction of the types of vectors,
    quaternions and matrices. *)
From stdpp Require Import list sorting.
From Coq Require Import ZArith Lia.
From Verif Require Import OverModel LikeModel CtorModel.

Section vectors.
Context {E V : Type} `{EqDecision E}.
Variables (cast : E → E → V → V) (zero : V).
Notation arg := (arg E V).

(** * Specification *)
(** The components that an argument supplies, with their types *)
Definition supplied (a : arg) : list (E * V) :=
  match a with Scalar u x => [(u, x)] | Vec u xs => map (λ x, (u, x)) xs | Foreign => [] end.
Definition all_supplied (args : list arg) : list (E * V) := concat (map supplied args).
(** Scalars, and vectors of at least two components *)
Definition usable (a : arg) : Prop := match a with Scalar _ _ => True | Vec _ xs => 2 <= length xs | Foreign => False end.
Definition converted (T : E) (l : list (E * V)) : list V := map (λ '(u, x), cast T u x) l.
Definition is_scalar (a : arg) : Prop := match a with Scalar _ _ => True | _ => False end.

(** * Proofs *)
Lemma each_scalars T l : Forall is_scalar l → each cast T l = Accepted (converted T (all_supplied l)).
Proof. induction 1 as [|a l Ha _ IH]; [done|]. destruct a; [|done..]. cbn. rewrite IH. done. Qed.
Lemma each_inv T l r : each cast T l = Accepted r → Forall is_scalar l ∧ r = converted T (all_supplied l).
Proof.
  intros He. assert (Hs : Forall is_scalar l).
  { revert r He. induction l as [|a l IH]; intros r; cbn; [constructor|]. destruct a; [|done..]. cbn.
    destruct (each cast T l) as [| |r']; [done..|]. intros _. constructor; [done|]. eapply IH. done. }
  split; [done|]. rewrite each_scalars in He by done. congruence.
Qed.
Lemma each_spec T l r : each cast T l = Accepted r ↔ Forall is_scalar l ∧ r = converted T (all_supplied l).
Proof. split; [apply each_inv|]. intros [Hs ->]. apply each_scalars. done. Qed.
Lemma each_hard T l : ¬ Forall is_scalar l → each cast T l = Hard.
Proof.
  intros Hn. destruct (each cast T l) as [| |r] eqn:He; [|done|destruct Hn; eapply each_inv, He].
  exfalso. clear Hn. induction l as [|a l IH]; [done|]. destruct a; [|done..]. cbn in He.
  destruct (each cast T l); [|done..]. apply IH. done.
Qed.
Lemma usable_supplied a : usable a → 1 <= length (supplied a).
Proof. destruct a; cbn; [lia|rewrite map_length; lia|done]. Qed.
Lemma supplied_at_least args : Forall usable args → length args <= length (all_supplied args).
Proof.
  induction 1 as [|a l Ha _ IH]; [done|]. cbn. rewrite app_length. apply usable_supplied in Ha. unfold all_supplied in IH. lia.
Qed.
(** As many arguments as components: scalars *)
Lemma supplied_exactly args : Forall usable args → length (all_supplied args) <= length args → Forall is_scalar args.
Proof.
  induction 1 as [|a l Ha Hl IH]; [constructor|]. cbn. rewrite app_length. intros Hlen.
  pose proof (supplied_at_least l Hl) as H1. pose proof (usable_supplied a Ha) as H2. unfold all_supplied in *.
  constructor; [|apply IH; lia]. destruct a; cbn in *; [done| |done]. rewrite map_length in Hlen. lia.
Qed.
Lemma scalars_usable args : Forall is_scalar args → Forall usable args ∧ length (all_supplied args) = length args.
Proof.
  induction 1 as [|a l Ha _ [IH1 IH2]]; [done|]. destruct a; [|done..]. split; [constructor; done|]. cbn. unfold all_supplied in IH2. lia.
Qed.

Variable T : E.
Hypothesis cast_same : ∀ x, cast T T x = x.

Notation make n := (construct cast zero T n).
Definition result_of (n : nat) (args : list arg) (r : list V) : Prop :=
  (∃ u x, args = [Scalar u x] ∧ r = replicate n (cast T u x)) ∨
  (Forall usable args ∧ length (all_supplied args) = n ∧ r = converted T (all_supplied args)).

Lemma each_result n args r : length args = n → 2 <= n → each cast T args = Accepted r ↔ result_of n args r.
Proof.
  intros Hn H2. rewrite each_spec. split.
  - intros [Hs ->]. right. destruct (scalars_usable args Hs). split_and!; [done|lia|done].
  - intros [(u & x & -> & _)|(Hu & Hl & ->)]; [cbn in Hn; lia|]. split; [|done]. apply supplied_exactly; [done|lia].
Qed.
Lemma too_many n args r : n < length args → 2 <= n → result_of n args r ↔ False.
Proof.
  intros Hn H2. split; [|done]. intros [(u & x & -> & _)|(Hu & Hl & _)]; [cbn in Hn; lia|].
  pose proof (supplied_at_least args Hu). lia.
Qed.
Lemma converted_same xs : converted T (map (λ x, (T, x)) xs) = xs.
Proof. unfold converted. rewrite map_map. rewrite <- (map_id xs) at 2. apply map_ext. intros x. apply cast_same. Qed.
Ltac vec xs := destruct xs as [|? [|? [|? [|? [|? ?]]]]].
Ltac arg a := let xs := fresh in destruct a as [? ?|? xs|]; [|vec xs|].
Ltac solve_case := unfold result_of; cbn; rewrite ?cast_same; split;
  [intros [= <-]; first [left; eauto; fail | right; split_and!; [repeat constructor|reflexivity|reflexivity]]
  |intros [(?&?&[=]&?)|(Hu & Hl & ->)]; subst; first [reflexivity | discriminate | cbn in Hl; lia
     | exfalso; repeat match goal with H : Forall _ (_ :: _) |- _ => inversion_clear H end; cbn in *; lia || done]].
Lemma result2 args r : args ≠ [] → make 2 false args = Accepted r ↔ result_of 2 args r.
Proof.
  intros Hne. destruct args as [|a [|b [|c l]]]; [done| | |].
  - unfold construct. arg a; cbn -[bool_decide]; try (case_bool_decide; subst; cbn); solve_case.
  - rewrite <- each_result by (cbn; lia). cbn. done.
  - rewrite too_many by (cbn; lia). cbn. done.
Qed.
Lemma result3 args r : args ≠ [] → make 3 false args = Accepted r ↔ result_of 3 args r.
Proof.
  intros Hne. destruct args as [|a [|b [|c [|d l]]]]; [done| | | |].
  - unfold construct. arg a; cbn -[bool_decide]; try (case_bool_decide; subst; cbn); solve_case.
  - unfold construct. arg a; arg b; cbn; solve_case.
  - rewrite <- each_result by (cbn; lia). cbn. done.
  - rewrite too_many by (cbn; lia). cbn. done.
Qed.
Lemma result4 args r : args ≠ [] → make 4 false args = Accepted r ↔ result_of 4 args r.
Proof.
  intros Hne. destruct args as [|a [|b [|c [|d [|e l]]]]]; [done| | | | |].
  - unfold construct. arg a; cbn -[bool_decide]; try (case_bool_decide; subst; cbn); solve_case.
  - unfold construct. arg a; arg b; cbn; solve_case.
  - unfold construct. arg a; arg b; arg c; cbn; solve_case.
  - rewrite <- each_result by (cbn; lia). cbn. done.
  - rewrite too_many by (cbn; lia). cbn. done.
Qed.

(** * Theorems *)
(** A vector of 2, 3 or 4 components is made exactly from one scalar, which fills it, and
    from scalars and vectors that have as many components together, in their order. *)
Theorem vector_construct_partial : ∀ n args r, 2 <= n <= 4 → args ≠ [] →
  construct cast zero T n false args = Accepted r ↔
  (∃ u x, args = [Scalar u x] ∧ r = replicate n (cast T u x)) ∨
  (Forall usable args ∧ length (all_supplied args) = n ∧ r = converted T (all_supplied args)).
Proof.
  intros n args r Hn Hne. destruct (decide (n = 2)) as [->|]; [apply result2, Hne|].
  destruct (decide (n = 3)) as [->|]; [apply result3, Hne|]. assert (n = 4) as -> by lia. apply result4, Hne.
Qed.

Lemma constructors_array n : ¬ (2 <= n <= 4) → constructors cast zero T n =
  [ctor_copy; ctor_fill_array cast T n] ++ (if Nat.ltb 1 n then [ctor_pack cast zero T n] else []) ++ [ctor_convert cast T n false].
Proof. intros Hn. destruct n as [|[|[|[|[|n]]]]]; done || lia. Qed.
Lemma each_length l r : each cast T l = Accepted r → length r = length l.
Proof.
  intros He. apply each_inv in He as [Hs ->]. unfold converted. rewrite map_length. apply scalars_usable, Hs.
Qed.
Lemma vec_each u xs : each cast T (map (Scalar u) xs) = Accepted (map (cast T u) xs).
Proof. induction xs as [|x xs IH]; [done|]. cbn. rewrite IH. done. Qed.
(** The one constructor that is taken in vectors of other sizes *)
Lemma array_resolve ci n args : ¬ (2 <= n <= 4) → args ≠ [] → construct cast zero T n ci args =
  match args with
  | [Scalar u x] => Accepted (replicate n (cast T u x))
  | [Vec u xs] => if Nat.eqb (length xs) n then Accepted (if bool_decide (u = T) then xs else map (cast T u) xs)
                  else if Nat.ltb 1 n then Hard else Rejected
  | _ => if Nat.ltb 1 n then c_body (ctor_pack cast zero T n) args else Rejected
  end.
Proof.
  intros Hn Hne. unfold construct. rewrite constructors_array by done. destruct args as [|a [|b l]]; [done| |].
  - destruct a as [u x|u xs|].
    + destruct (Nat.ltb 1 n), ci; reflexivity.
    + destruct (Nat.ltb 1 n), ci; unfold viable; cbn -[bool_decide each]; destruct (Nat.eqb (length xs) n);
        try case_bool_decide; cbn -[each]; rewrite ?Nat.eqb_refl; cbn -[each]; rewrite ?vec_each; reflexivity.
    + destruct (Nat.ltb 1 n), ci; reflexivity.
  - destruct (Nat.ltb 1 n), ci, a; reflexivity.
Qed.
Lemma array_resolve2 ci n a b l : ¬ (2 <= n <= 4) → construct cast zero T n ci (a :: b :: l) =
  if Nat.ltb 1 n then c_body (ctor_pack cast zero T n) (a :: b :: l) else Rejected.
Proof. intros Hn. rewrite array_resolve by done. destruct a; reflexivity. Qed.
(** Vectors of other sizes are made from one scalar, from a vector of that size, and from at
    least two scalars, the missing components being zero. *)
Theorem vector_construct_array : ∀ n args r, ¬ (2 <= n <= 4) → args ≠ [] →
  construct cast zero T n false args = Accepted r ↔
  (∃ u x, args = [Scalar u x] ∧ r = replicate n (cast T u x)) ∨
  (∃ u xs, args = [Vec u xs] ∧ length xs = n ∧ r = map (cast T u) xs) ∨
  (2 <= length args <= n ∧ Forall is_scalar args ∧ r = converted T (all_supplied args) ++ replicate (n - length args) zero).
Proof.
  intros n args r Hn Hne. destruct args as [|a [|b l]]; [done| |].
  - rewrite array_resolve by done. destruct a as [u x|u xs|].
    + split; [intros [= <-]; left; eauto|]. intros [(?&?&[= -> ->]&->)|[(?&?&[=]&_)|[Hl _]]]; [done|cbn in Hl; lia].
    + destruct (Nat.eqb_spec (length xs) n) as [Hl|Hl].
      * split.
        -- intros [= <-]. right. left. exists u, xs. split_and!; [done..|]. case_bool_decide; [|done]. subst u.
           rewrite <- (map_id xs) at 1. apply map_ext. intros x. rewrite cast_same. done.
        -- intros [(?&?&[=]&_)|[(?&?&[= <- <-]&_&->)|[Hl' _]]]; [|cbn in Hl'; lia]. f_equal. case_bool_decide; [|done]. subst u.
           rewrite <- (map_id xs) at 1. apply map_ext. intros x. rewrite cast_same. done.
      * split; [destruct (Nat.ltb 1 n); discriminate|]. intros [(?&?&[=]&_)|[(?&?&[= <- <-]&?&->)|[Hl' _]]]; [done|cbn in Hl'; lia].
    + split; [destruct (Nat.ltb 1 n); discriminate|]. intros [(?&?&[=]&_)|[(?&?&[=]&_)|[Hl _]]]. cbn in Hl. lia.
  - set (args := a :: b :: l) in *. assert (H2 : 2 <= length args) by (subst args; cbn; lia).
    subst args. rewrite array_resolve2 by done. set (args := a :: b :: l) in *. split.
    + destruct (Nat.ltb_spec 1 n); [|intros [=]]. cbn [c_body ctor_pack]. destruct (each cast T args) as [| |r'] eqn:He; [intros [=]..|].
      pose proof (each_length _ _ He) as Hr. apply each_inv in He as [Hs ->]. destruct (Nat.leb_spec (length (converted T (all_supplied args))) n); [|intros [=]].
      intros [= <-]. right. right. rewrite Hr in *. done.
    + intros [(?&?&[=]&_)|[(?&?&[=]&_)|(Hl & Hs & ->)]]. destruct (Nat.ltb_spec 1 n); [|lia]. cbn [c_body ctor_pack]. rewrite each_scalars by done.
      replace (length (converted T (all_supplied args))) with (length args)
        by (unfold converted; rewrite map_length; symmetry; apply scalars_usable, Hs).
      destruct (Nat.leb_spec (length args) n); [done|lia].
Qed.

(** Copying is exact for all sizes, whatever the form of initialisation. *)
Theorem vector_copy : ∀ ci n xs, length xs = n → construct cast zero T n ci [Vec T xs] = Accepted xs.
Proof.
  intros ci n xs Hn. destruct (decide (2 <= n <= 4)) as [H|H].
  - unfold construct. destruct n as [|[|[|[|[|n]]]]], ci; try lia; cbn -[bool_decide]; rewrite bool_decide_eq_true_2, Hn by done; reflexivity.
  - rewrite array_resolve by done. rewrite Hn, Nat.eqb_refl, bool_decide_eq_true_2 by done. done.
Qed.

(** Nothing but a vector of the same type converts implicitly to one of 2 to 4 components. *)
Theorem vector_implicit_partial : ∀ n a r, 2 <= n <= 4 →
  construct cast zero T n true [a] = Accepted r ↔ ∃ xs, a = Vec T xs ∧ length xs = n ∧ r = xs.
Proof.
  intros n a r Hn. unfold construct. destruct a as [u x|u xs|]; destruct n as [|[|[|[|[|n]]]]]; try lia; cbn -[bool_decide];
    try (split; [discriminate|intros (?&[=]&_)]).
  all: case_bool_decide; [subst u|]; cbn; try (split; [discriminate|intros (?&[= -> ->]&_); done]).
  all: rewrite andb_true_r; match goal with |- context [Nat.eqb ?a ?b] => destruct (Nat.eqb_spec a b) end; cbn;
    (split; [intros [= <-]; eauto || discriminate|intros (?&[= <-]&?&->)]); done.
Qed.
(** All others convert from scalars and from vectors with other elements. *)
Theorem vector_implicit_array : ∀ n u x xs, ¬ (2 <= n <= 4) → length xs = n →
  construct cast zero T n true [Scalar u x] = Accepted (replicate n (cast T u x)) ∧
  construct cast zero T n true [Vec u xs] = Accepted (map (cast T u) xs).
Proof.
  intros n u x xs Hn Hl. rewrite !array_resolve by done. split; [done|]. rewrite Hl, Nat.eqb_refl. f_equal. case_bool_decide; [|done].
  subst u. rewrite <- (map_id xs) at 1. apply map_ext. intros y. rewrite cast_same. done.
Qed.

(** ** What is accepted compiles *)
(** For scalars: it compiles, or is_constructible_v tells that it does not. *)
Theorem vector_accepts_partial : ∀ ci n args, args ≠ [] → Forall is_scalar args → (length args <= n ∨ n <= 4) →
  construct cast zero T n ci args ≠ Hard.
Proof.
  intros ci n args Hne Hs Hl. destruct (decide (2 <= n <= 4)) as [Hn|Hn].
  - destruct args as [|a [|b [|c [|d [|e l]]]]]; [done|..];
      repeat match goal with H : Forall _ (_ :: _) |- _ => inversion H; clear H; subst end;
      repeat match goal with H : is_scalar ?a |- _ => destruct a; [clear H|destruct H..] end;
      unfold construct; destruct n as [|[|[|[|[|n]]]]]; try lia; destruct ci; cbn; done.
  - destruct args as [|a [|b l]]; [done| |].
    + rewrite array_resolve by done. inversion Hs; subst. destruct a; done.
    + rewrite array_resolve2 by done. destruct (Nat.ltb_spec 1 n); [|done].
      cbn [c_body ctor_pack]. rewrite each_scalars by done. destruct (Nat.leb_spec (length (converted T (all_supplied (a :: b :: l)))) n) as [|Hlt]; [done|].
      unfold converted in Hlt. rewrite map_length in Hlt. destruct (scalars_usable _ Hs) as [_ Hl']. lia.
Qed.
End vectors.

(** Vectors of five components accept too few scalars, and no shorter vectors. *)
Theorem vector_construct_refuted :
  construct (λ _ _ x, x) 0%Z tt 5 false [Scalar tt 7%Z; Scalar tt 8%Z] = Accepted [7; 8; 0; 0; 0]%Z ∧
  construct (λ _ _ x, x) 0%Z tt 5 false [Vec tt [1; 2]%Z; Vec tt [3; 4; 5]%Z] = Hard.
Proof. done. Qed.
(** Arguments that overload resolution accepts but that do not compile: a vector of another
    size, any other type, too many scalars *)
Theorem vector_accepts_refuted :
  construct (λ _ _ x, x) 0%Z tt 2 false [Vec tt [1; 2; 3]%Z] = Hard ∧
  construct (λ _ _ x, x) 0%Z tt 3 false [Foreign] = Hard ∧
  construct (λ _ _ x, x) 0%Z tt 5 false (replicate 6 (Scalar tt 1%Z)) = Hard.
Proof. done. Qed.
Theorem vector_implicit_refuted :
  construct (E := arith) (λ _ _ x, x) 0%Z TFloat 5 true [Scalar TInt 7%Z] = Accepted [7; 7; 7; 7; 7]%Z ∧
  construct (E := arith) (λ _ _ x, x) 0%Z TFloat 5 true [Vec TDouble [1; 2; 3; 4; 5]%Z] = Accepted [1; 2; 3; 4; 5]%Z.
Proof. done. Qed.

(** * Common types
    ** Specification *)
(** The size in bits, signedness and conversion rank of the integers; the order of the
    floating-point types *)
Definition floating (t : arith) : option nat := match t with TFloat => Some 1 | TDouble => Some 2 | TLDouble => Some 3 | _ => None end.
Definition width (t : arith) : nat :=
  match t with
  | TBool | TChar | TSChar | TUChar | TChar8 => 8 | TShort | TUShort | TChar16 => 16
  | TInt | TUInt | TWChar | TChar32 => 32 | _ => 64
  end.
Definition unsigned (t : arith) : bool :=
  match t with TBool | TUChar | TChar8 | TUShort | TChar16 | TUInt | TChar32 | TULong | TULLong => true | _ => false end.
Definition rank (t : arith) : nat :=
  match t with
  | TBool => 0 | TChar | TSChar | TUChar | TChar8 => 1 | TShort | TUShort | TChar16 => 2
  | TInt | TUInt | TWChar | TChar32 => 3 | TLong | TULong => 4 | _ => 5
  end.
(** Numbers of type t become numbers of type u in mixed expressions: every integer becomes
    floating, the smaller one becomes the larger one, signed becomes unsigned. *)
Definition below (t u : arith) : Prop :=
  match floating t, floating u with
  | Some a, Some b => a <= b
  | None, Some _ => True
  | Some _, None => False
  | None, None => width t < width u ∨ width t = width u ∧ rank t <= rank u ∧ (unsigned t = true → unsigned u = true)
  end.
(** The types that arithmetic expressions have *)
Definition arithmetic_result (t : arith) : Prop := t ∈ [TInt; TUInt; TLong; TULong; TLLong; TULLong; TFloat; TDouble; TLDouble].
(** [c] is the only type there is in [ts], or the lowest one above all *)
Definition is_common (ts : list arith) (c : arith) : Prop :=
  (∀ t, t ∈ ts → t = c) ∨
  (∃ t u, t ∈ ts ∧ u ∈ ts ∧ t ≠ u) ∧ arithmetic_result c ∧ (∀ t, t ∈ ts → below t c) ∧
  ∀ d, arithmetic_result d → (∀ t, t ∈ ts → below t d) → below c d.

(** ** Proofs *)
Definition all_arith : list arith := [TBool; TChar; TSChar; TUChar; TChar8; TChar16; TChar32; TWChar; TShort; TUShort;
  TInt; TUInt; TLong; TULong; TLLong; TULLong; TFloat; TDouble; TLDouble].
Lemma all_arith_spec t : t ∈ all_arith. Proof. destruct t; apply (bool_decide_unpack _); vm_compute; exact I. Qed.
#[local] Instance below_dec t u : Decision (below t u).
Proof. unfold below. destruct (floating t), (floating u); apply _. Defined.
#[local] Instance result_dec t : Decision (arithmetic_result t). Proof. unfold arithmetic_result. apply _. Defined.
Lemma check1 (P : arith → Prop) `{∀ t, Decision (P t)} : forallb (λ t, bool_decide (P t)) all_arith = true → ∀ t, P t.
Proof. intros Hc t. rewrite forallb_forall in Hc. apply (bool_decide_eq_true_1 (P t)), Hc, elem_of_list_In, all_arith_spec. Qed.
Lemma check2 (P : arith → arith → Prop) `{∀ t u, Decision (P t u)} :
  forallb (λ t, forallb (λ u, bool_decide (P t u)) all_arith) all_arith = true → ∀ t u, P t u.
Proof.
  intros Hc t u. rewrite forallb_forall in Hc. specialize (Hc t). rewrite forallb_forall in Hc.
  apply (bool_decide_eq_true_1 (P t u)), Hc; apply elem_of_list_In, all_arith_spec.
Qed.
Lemma check3 (P : arith → arith → arith → Prop) `{∀ t u v, Decision (P t u v)} :
  forallb (λ t, forallb (λ u, forallb (λ v, bool_decide (P t u v)) all_arith) all_arith) all_arith = true → ∀ t u v, P t u v.
Proof.
  intros Hc t. refine (check2 (P t) _). rewrite forallb_forall in Hc. apply Hc. apply elem_of_list_In, all_arith_spec.
Qed.
Lemma common2_above t u : t ≠ u → arithmetic_result (common2 t u) ∧ below t (common2 t u) ∧ below u (common2 t u).
Proof.
  revert t u. refine (check2 (λ t u, t ≠ u → arithmetic_result (common2 t u) ∧ below t (common2 t u) ∧ below u (common2 t u)) _).
  vm_compute. reflexivity.
Qed.
Lemma common2_least t u d : t ≠ u → arithmetic_result d → below t d → below u d → below (common2 t u) d.
Proof.
  revert t u d. refine (check3 (λ t u d, t ≠ u → arithmetic_result d → below t d → below u d → below (common2 t u) d) _).
  vm_compute. reflexivity.
Qed.
Lemma below_trans t u v : below t u → below u v → below t v.
Proof.
  unfold below. destruct (floating t), (floating u), (floating v); try done; [lia|].
  intros [?|(?&?&?)] [?|(?&?&?)]; [left; lia..|]. right. split_and!; [lia|lia|tauto].
Qed.
Lemma below_antisym t u : arithmetic_result t → arithmetic_result u → below t u → below u t → t = u.
Proof.
  revert t u. refine (check2 (λ t u, arithmetic_result t → arithmetic_result u → below t u → below u t → t = u) _). vm_compute. reflexivity.
Qed.

(** ** Theorems *)
Theorem common_type_least : ∀ t ts, is_common (t :: ts) (common t ts).
Proof.
  intros t ts. induction ts as [|u ts IH] using rev_ind.
  { left. intros s. rewrite elem_of_list_singleton. done. }
  unfold common in *. rewrite foldl_app. cbn. set (c := foldl common2 t ts) in *.
  assert (Hin : ∀ s, s ∈ t :: ts ++ [u] ↔ s ∈ t :: ts ∨ s = u).
  { intros s. rewrite app_comm_cons, elem_of_app, elem_of_list_singleton. done. }
  destruct (decide (c = u)) as [Hcu|Hcu].
  - replace (common2 c u) with c by (unfold common2; rewrite decide_True by done; done).
    destruct IH as [IH|((s & s' & Hs & Hs' & Hne) & Hr & Hb & Hl)].
    + left. intros s Hs. apply Hin in Hs as [Hs| ->]; [apply IH, Hs|done].
    + right. split_and!; [exists s, s'; rewrite !Hin; auto|done| |].
      * intros s2 Hs2. apply Hin in Hs2 as [Hs2| ->]; [apply Hb, Hs2|]. subst u. unfold below. destruct (floating c); [lia|right; auto].
      * intros d Hd Hd'. apply Hl; [done|]. intros s2 Hs2. apply Hd', Hin. auto.
  - right. destruct (common2_above c u Hcu) as (Hr & Hc & Hu). split_and!; [|done| |].
    + destruct IH as [IH|((s & s' & Hs & Hs' & Hne) & _)]; [|exists s, s'; rewrite !Hin; auto].
      exists c, u. rewrite !Hin. split_and!; [|auto|done]. left. rewrite <- (IH t) by left. left.
    + intros s Hs. apply Hin in Hs as [Hs| ->]; [|done]. destruct IH as [IH|(_ & _ & Hb & _)]; [rewrite (IH s Hs); done|].
      eapply below_trans; [apply Hb, Hs|done].
    + intros d Hd Hd'. apply common2_least; [done..| |apply Hd', Hin; auto].
      destruct IH as [IH|(_ & _ & _ & Hl)]; [rewrite <- (IH t) by left; apply Hd', Hin; left; left|].
      apply Hl; [done|]. intros s Hs. apply Hd', Hin. auto.
Qed.
Lemma is_common_unique ts c d : ts ≠ [] → is_common ts c → is_common ts d → c = d.
Proof.
  intros Hne. destruct ts as [|t ts]; [done|]. intros [Hc|(Hm & Hrc & Hbc & Hlc)] [Hd|(Hm' & Hrd & Hbd & Hld)].
  - rewrite <- (Hc t), (Hd t) by left. done.
  - destruct Hm' as (s & s' & Hs & Hs' & Hn). destruct Hn. rewrite (Hc s), (Hc s') by done. done.
  - destruct Hm as (s & s' & Hs & Hs' & Hn). destruct Hn. rewrite (Hd s), (Hd s') by done. done.
  - apply below_antisym; auto.
Qed.
(** The order of the arguments does not matter. *)
Theorem common_type_order : ∀ t ts u us, t :: ts ≡ₚ u :: us → common t ts = common u us.
Proof.
  intros t ts u us Hp. apply (is_common_unique (t :: ts)); [done|apply common_type_least|].
  pose proof (common_type_least u us) as H. unfold is_common in *. setoid_rewrite Hp. done.
Qed.

(** * Deduction *)
Section deduction.
Context {V : Type}.
Variables (cast : arith → arith → V → V) (zero : V).
Hypothesis cast_same : ∀ t x, cast t t x = x.

(** Vector(x1, ..., xn) has n components of the common type, which are the arguments in
    their order; it always compiles. *)
Theorem vector_deduced : ∀ (args : list (arg arith V)), args ≠ [] → Forall is_scalar args → ∃ c,
  deduce_vector args = Some (c, length args) ∧ is_common (map fst (all_supplied args)) c ∧
  construct cast zero c (length args) false args = Accepted (converted cast c (all_supplied args)).
Proof.
  intros args Hne Hs.
  assert (Ht : ∀ l : list (arg arith V), Forall is_scalar l → mapM scalar_type l = Some (map fst (all_supplied l))).
  { clear. induction 1 as [|a l Ha _ IH]; [done|]. destruct a as [u x| |]; [|done..]. change (scalar_type (Scalar u x)) with (Some u).
    cbn. rewrite IH. done. }
  destruct args as [|a l]; [done|]. inversion Hs as [|? ? Ha Hl]; subst. destruct a as [u x| |]; [|done..].
  exists (common u (map fst (all_supplied l))). split_and!.
  - cbn. rewrite Ht by done. cbn. repeat f_equal. lia.
  - apply common_type_least.
  - set (c := common _ _). clearbody c. destruct (scalars_usable (E := arith) _ Hs) as [Hu Hlen].
    destruct (decide (2 <= length (Scalar u x :: l) <= 4)) as [Hn|Hn].
    + apply vector_construct_partial; [apply cast_same|done..|]. right. done.
    + apply vector_construct_array; [apply cast_same|done..|]. destruct l as [|b l]; [left; exists u, x; done|]. right. right.
      split_and!; [cbn in *; lia|done|done|]. rewrite Nat.sub_diag. rewrite app_nil_r. done.
Qed.
(** A vector alone is copied, and nothing else is taken. *)
Theorem vector_deduced_copy : ∀ u (xs : list V), deduce_vector [Vec u xs] = Some (u, length xs) ∧
  construct cast zero u (length xs) false [Vec u xs] = Accepted xs.
Proof. intros u xs. split; [done|]. apply vector_copy; done. Qed.
Theorem vector_deduced_only : ∀ (args : list (arg arith V)) c n, deduce_vector args = Some (c, n) →
  (∃ u xs, args = [Vec u xs]) ∨ Forall is_scalar args.
Proof.
  intros args c n. destruct args as [|a l]; [done|]. destruct a as [u x|u xs|]; cbn.
  - destruct (mapM scalar_type l) as [ts|] eqn:Hm; [|done]. intros _. right. constructor; [done|].
    apply mapM_Some_1 in Hm. clear -Hm. induction Hm as [|a t l ts Ha _ IH]; constructor; [|done]. destruct a; done.
  - destruct l as [|b l]; [|done]. intros _. left. eauto.
  - destruct l; done.
Qed.
End deduction.

(** Quaternions get the common type of their arguments, integers being taken for float. *)
Theorem quaternion_deduced : ∀ t ts, ∃ c d, deduce_quaternion (t :: ts) = Some d ∧ is_common (t :: ts) c ∧
  is_Some (floating d) ∧ (is_Some (floating c) → d = c) ∧ (floating c = None → d = TFloat).
Proof.
  intros t ts. exists (common t ts). eexists. split; [reflexivity|]. split; [apply common_type_least|].
  destruct (common t ts); cbn; split_and!; (done || eauto || intros [? [=]]).
Qed.

(** Element types as the numbers of OverModel.v *)
Definition code (t : arith) : nat := match list_find (eq t) all_arith with Some (i, _) => i | None => 0 end.
Lemma code_inj t u : code t = code u → t = u.
Proof. revert t u. refine (check2 (λ t u, code t = code u → t = u) _). vm_compute. reflexivity. Qed.
Definition columns (args : list (arith * nat)) : list column := map (λ '(t, k), Col (code t) k) args.
(** Matrix(columns...) is a matrix with these columns, of the common type, provided that they
    have it already (or another number of rows than 2, 3 and 4). *)
Theorem matrix_deduced_partial : ∀ t rows l c k r, deduce_matrix ((t, rows) :: l) = Some (c, k, r) →
  k = length ((t, rows) :: l) ∧ r = rows ∧ is_common (t :: map fst l) c ∧ is_Some (floating c) ∧
  (Forall (λ col, snd col = rows) l) ∧
  (matrix_of_columns (code c) k r (columns ((t, rows) :: l)) = Fine ↔
   (∀ col, col ∈ (t, rows) :: l → fst col = c) ∨ ¬ (2 <= rows <= 4)).
Proof.
  intros t rows l c k r. cbn [deduce_matrix]. destruct (forallb (λ c, Nat.eqb (snd c) rows) l) eqn:Hrows; [|done].
  destruct (is_integral (common t (map fst l))) eqn:Hi; [done|]. intros [= <- <- <-].
  assert (Hl : Forall (λ col, snd col = rows) l).
  { apply Forall_forall. intros col Hcol. rewrite forallb_forall in Hrows. apply Nat.eqb_eq, Hrows, elem_of_list_In, Hcol. }
  split_and!; [cbn; lia|done|apply common_type_least|destruct (common t (map fst l)); done || (cbn; eauto)|done|].
  set (c := common t (map fst l)). clearbody c. clear Hi Hrows.
  assert (Hsz : ∀ p, p ∈ columns ((t, rows) :: l) → col_size p = rows).
  { intros p Hp. apply elem_of_list_fmap in Hp as ([u k] & -> & Hu). apply elem_of_cons in Hu as [[= -> ->]|Hu]; [done|].
    rewrite Forall_forall in Hl. apply (Hl _ Hu). }
  assert (Hv : forallb (vector_implicit (code c) rows) (columns ((t, rows) :: l)) = true ↔
    (∀ col, col ∈ (t, rows) :: l → fst col = c) ∨ ¬ (2 <= rows <= 4)).
  { rewrite forallb_forall. split.
    - intros H. destruct (decide (2 <= rows <= 4)) as [Hr|]; [left|auto]. intros [u k] Hu.
      assert (Hc : Col (code u) k ∈ columns ((t, rows) :: l)) by (apply elem_of_list_fmap; exists (u, k); done).
      pose proof (H _ (proj1 (elem_of_list_In _ _) Hc)) as H'. apply andb_prop in H' as [_ H']. apply orb_prop in H' as [H'|H'].
      + apply code_inj. apply Nat.eqb_eq in H'. exact H'.
      + exfalso. rewrite negb_true_iff, andb_false_iff, !Nat.leb_gt in H'. lia.
    - intros H p Hp. apply elem_of_list_In in Hp. unfold vector_implicit. rewrite (Hsz _ Hp), Nat.eqb_refl. cbn [andb].
      apply elem_of_list_fmap in Hp as ([u k] & -> & Hu). destruct H as [H|H].
      + rewrite <- (H _ Hu). cbn. rewrite Nat.eqb_refl. done.
      + apply orb_true_intro. right. destruct (Nat.leb_spec 2 rows), (Nat.leb_spec rows 4); cbn; (done || lia). }
  rewrite <- Hv. clear Hv. set (args := columns ((t, rows) :: l)) in *.
  assert (Hlen : length args = length l + 1) by (subst args; unfold columns; rewrite map_length; cbn; lia).
  assert (Hall : ∀ k, k = rows → forallb (λ d, Nat.eqb (col_size d) k) args = true).
  { intros k ->. apply forallb_forall. intros p Hp. apply Nat.eqb_eq, Hsz, elem_of_list_In, Hp. }
  clearbody args.
  destruct args as [|p args']; [cbn in Hlen; lia|]. cbv beta iota delta [matrix_of_columns].
  assert (Hs : forallb (λ d, Nat.eqb (col_size d) (col_size p)) args' = true).
  { specialize (Hall (col_size p)). cbn in Hall. rewrite Nat.eqb_refl in Hall. apply Hall, Hsz. left. }
  rewrite Hs, Hlen, Nat.eqb_refl. destruct (Nat.eqb_spec (length l + 1) 4) as [H4|H4], (Nat.eqb_spec rows 4) as [Hr4|Hr4]; cbn [andb].
  - rewrite Hall by done. rewrite H4, Hr4. cbn [Nat.leb andb]. destruct (forallb (vector_implicit (code c) 4) (p :: args')); split; intros; try congruence.
  - destruct (forallb (vector_implicit (code c) rows) (p :: args')); split; intros; try congruence.
  - destruct (forallb (vector_implicit (code c) rows) (p :: args')); split; intros; try congruence.
  - destruct (forallb (vector_implicit (code c) rows) (p :: args')); split; intros; try congruence.
Qed.
(** A column of float and one of double: the matrix of double that is deduced cannot be made. *)
Theorem matrix_deduced_refuted : deduce_matrix [(TFloat, 3); (TDouble, 3)] = Some (TDouble, 2, 3) ∧
  matrix_of_columns (code TDouble) 2 3 (columns [(TFloat, 3); (TDouble, 3)]) = OverModel.Error.
Proof. done. Qed.

(** * Concrete cases *)
(** Conversions to another type add a hundred, so that they can be seen. *)
Definition demo_cast (t u : arith) (x : Z) : Z := if decide (t = u) then x else (x + 100)%Z.
Example demo_cast_same : ∀ t x, demo_cast t t x = x.
Proof. intros. unfold demo_cast. rewrite decide_True by done. done. Qed.
Example vector_construct_example :
  construct demo_cast 0%Z TFloat 4 false [Vec TDouble [1; 2]%Z; Scalar TFloat 3%Z; Scalar TInt 4%Z] = Accepted [101; 102; 3; 104]%Z.
Proof. apply vector_construct_partial; [apply demo_cast_same|lia|done|]. right. split_and!; [|done|done]. repeat constructor. Qed.
Example vector_construct_short_example : ∀ r,
  construct demo_cast 0%Z TFloat 4 false [Scalar TFloat 3%Z; Scalar TFloat 4%Z] ≠ Accepted r.
Proof.
  intros r H. apply vector_construct_partial in H; [|apply demo_cast_same|lia|done].
  destruct H as [(? & ? & [=] & _)|(_ & [=] & _)].
Qed.
Example vector_construct_array_example :
  construct demo_cast 0%Z TFloat 5 false [Scalar TFloat 3%Z; Scalar TInt 4%Z] = Accepted [3; 104; 0; 0; 0]%Z.
Proof.
  apply vector_construct_array; [apply demo_cast_same|lia|done|]. right. right. split_and!; [cbn; lia|cbn; lia| |done]. repeat constructor.
Qed.
Example vector_copy_example : construct demo_cast 0%Z TFloat 3 true [Vec TFloat [1; 2; 3]%Z] = Accepted [1; 2; 3]%Z.
Proof. apply vector_copy. done. Qed.
Example vector_implicit_example : ∀ r, construct demo_cast 0%Z TFloat 3 true [Vec TDouble [1; 2; 3]%Z] ≠ Accepted r.
Proof. intros r H. apply vector_implicit_partial in H; [|lia]. destruct H as (xs & [=] & _). Qed.
Example vector_implicit_array_example : construct demo_cast 0%Z TFloat 6 true [Scalar TInt 1%Z] = Accepted (replicate 6 101%Z).
Proof. apply (vector_implicit_array demo_cast 0%Z TFloat (demo_cast_same TFloat) 6 TInt 1%Z (replicate 6 0%Z)); [lia|done]. Qed.
Example vector_accepts_example : construct demo_cast 0%Z TFloat 3 false (replicate 5 (Scalar TInt 1%Z)) ≠ Hard.
Proof. apply vector_accepts_partial; [done|repeat constructor|right; lia]. Qed.
Example common_type_example : common TShort [TUChar; TUInt; TLong] = TLong ∧ is_common [TShort; TUChar; TUInt; TLong] TLong.
Proof. split; [done|]. apply (common_type_least TShort [TUChar; TUInt; TLong]). Qed.
(** Two equal small integers stay as they are; two different ones become int. *)
Example common_type_small_example : common TChar [TChar] = TChar ∧ common TChar [TShort] = TInt ∧ common TLong [TULLong; TInt] = TULLong.
Proof. done. Qed.
Example common_type_order_example : common TFloat [TInt; TDouble] = common TInt [TDouble; TFloat].
Proof. apply common_type_order. apply (Permutation_app_comm [TFloat] [TInt; TDouble]). Qed.
Example vector_deduced_example :
  deduce_vector [Scalar TInt 1%Z; Scalar TFloat 2%Z; Scalar TInt 3%Z] = Some (TFloat, 3) ∧
  construct demo_cast 0%Z TFloat 3 false [Scalar TInt 1%Z; Scalar TFloat 2%Z; Scalar TInt 3%Z] = Accepted [101; 2; 103]%Z.
Proof.
  destruct (vector_deduced demo_cast 0%Z demo_cast_same [Scalar TInt 1%Z; Scalar TFloat 2%Z; Scalar TInt 3%Z])
    as (c & Hd & _ & Hc); [done|repeat constructor|]. injection Hd as <-. split; [done|exact Hc].
Qed.
Example vector_deduced_copy_example : deduce_vector [Vec TDouble [1; 2]%Z] = Some (TDouble, 2).
Proof. apply (vector_deduced_copy demo_cast 0%Z TDouble [1; 2]%Z). Qed.
Example vector_deduced_only_example : deduce_vector [Vec TDouble [1; 2]%Z; Scalar TDouble 3%Z] = None.
Proof.
  destruct (deduce_vector [Vec TDouble [1; 2]%Z; Scalar TDouble 3%Z]) as [[c n]|] eqn:H; [|done].
  apply vector_deduced_only in H as [(u & xs & [=])|H]. inversion H. done.
Qed.
Example quaternion_deduced_example : deduce_quaternion [TInt; TLong; TInt; TInt] = Some TFloat ∧ deduce_quaternion [TInt; TDouble; TInt; TFloat] = Some TDouble.
Proof. done. Qed.
Example matrix_deduced_example : matrix_of_columns (code TDouble) 3 2 (columns [(TDouble, 2); (TDouble, 2); (TDouble, 2)]) = Fine.
Proof.
  pose proof (matrix_deduced_partial TDouble 2 [(TDouble, 2); (TDouble, 2)] TDouble 3 2 eq_refl) as (_ & _ & _ & _ & _ & H).
  apply H. left. intros col Hc. repeat (apply elem_of_cons in Hc as [->|Hc]; [done|]). inversion Hc.
Qed.

Definition ctor_theorems := (@vector_construct_partial, @vector_construct_array, @vector_construct_refuted, @vector_copy,
  @vector_implicit_partial, @vector_implicit_array, @vector_implicit_refuted, @vector_accepts_partial, @vector_accepts_refuted,
  common_type_least, common_type_order, @vector_deduced, @vector_deduced_copy, @vector_deduced_only, quaternion_deduced,
  matrix_deduced_partial, matrix_deduced_refuted).
Print Assumptions ctor_theorems.
