(** Theorems about comparisons of operands of different types: property C157. *)
From stdpp Require Import list.
From Coq Require Import Lia.
From Verif Require Import LikeModel CtorModel CtorProps MixModel.
Local Open Scope nat_scope.

Section props.
Context {V : Type} (cast : arith → arith → V → V) (zero : V).
Notation obj := (obj V).
Notation compared := (compared cast zero).
Notation to_vec := (to_vec cast zero).

(** ** Specification *)
Inductive type := TNumber (t : arith) | TVector (t : arith) (n : nat) | TMatrix (t : arith) (cols rows : nat)
  | TQuaternion (t : arith) | TOther.
Definition type_of (a : obj) : type :=
  match a with
  | Num t _ => TNumber t
  | VecO t xs => TVector t (length xs)
  | MatO t r cs => TMatrix t (length cs) r
  | QuatO t _ => TQuaternion t
  | OtherO => TOther
  end.
Definition of_library (a : obj) : Prop := match a with VecO _ _ | MatO _ _ _ | QuatO _ _ => True | _ => False end.
Definition named_size (n : nat) : Prop := 2 <= n <= 4.

(** The comparisons of different types, and what the right operand is taken for: a number
    for a vector, of 1 or more than 4 components, with this number in each of them; a vector
    of 4 for a 4x4 matrix whose other columns are zero; a vector for a matrix with one column
    (with other elements only if it has one row). *)
Inductive taken_for : obj → obj → list V → Prop :=
  | number_for_vector t xs u x : ¬ named_size (length xs) →
      taken_for (VecO t xs) (Num u x) (replicate (length xs) (cast t u x))
  | column_for_matrix4 t cs xs : length cs = 4 → length xs = 4 →
      taken_for (MatO t 4 cs) (VecO t xs) (xs ++ replicate 12 zero)
  | column_for_matrix t c xs : length xs <= 4 →
      taken_for (MatO t (length xs) [c]) (VecO t xs) xs
  | column_for_number t c u xs : t ≠ u → length xs <= 1 →
      taken_for (MatO t (length xs) [c]) (VecO u xs) (map (cast t u) xs).

(** ** Proofs *)
Definition small (n : nat) : bool := bool_decide (named_size n).
Lemma small_spec n : reflect (named_size n) (small n).
Proof. apply bool_decide_reflect. Qed.
Lemma to_vec_eq t n a : to_vec t n a =
  match a with
  | Num u x => if small n then Rejected else Accepted (replicate n (cast t u x))
  | VecO u xs =>
      if Nat.eqb (length xs) n then
        if bool_decide (u = t) then Accepted xs else if small n then Rejected else Accepted (map (cast t u) xs)
      else if small n then Rejected else if Nat.ltb 1 n then Hard else Rejected
  | _ => if small n then Rejected else if Nat.ltb 1 n then Hard else Rejected
  end.
Proof.
  unfold MixModel.to_vec. destruct (small_spec n) as [Hn|Hn].
  - assert (n = 2 ∨ n = 3 ∨ n = 4) as Hc by (unfold named_size in Hn; lia).
    destruct Hc as [-> | [-> | ->]]; (destruct a as [u x|u xs|u r cs|u xs|]; try reflexivity;
      unfold construct; cbn -[bool_decide];
      destruct xs as [|? [|? [|? [|? [|? ?]]]]]; cbn -[bool_decide]; try (by rewrite ?andb_false_r);
      rewrite andb_true_r; case_bool_decide; reflexivity).
  - rewrite array_resolve by done. destruct a as [u x|u xs|u r cs|u xs|]; cbn -[bool_decide]; try done.
    destruct (Nat.eqb (length xs) n); [|done]. by case_bool_decide.
Qed.
Lemma same_type_spec l a : of_library l ∨ of_library a → same_type l a = true ↔ type_of l = type_of a.
Proof.
  intros H. destruct l, a; cbn; rewrite ?andb_true_iff, ?bool_decide_eq_true, ?Nat.eqb_eq; naive_solver.
Qed.

Lemma to_mat_eq t c r u ys : to_mat cast zero t c r (VecO u ys) =
  if decide (c = 4 ∧ r = 4) then
    if decide (length ys = 4) then if decide (u = t) then Accepted (ys ++ replicate 12 zero) else Hard else Rejected
  else if decide (length ys = r ∧ c = 1) then
    if decide (u = t) then Accepted ys else if decide (named_size r) then Hard else Accepted (map (cast t u) ys)
  else Hard.
Proof.
  unfold to_mat. rewrite !to_vec_eq.
  destruct (decide (c = 4 ∧ r = 4)) as [[-> ->]|H4].
  - cbn [Nat.eqb andb]. destruct (Nat.eqb_spec (length ys) 4) as [E|E].
    + rewrite decide_True by done. case_bool_decide; [by rewrite decide_True|]. rewrite decide_False by done. done.
    + rewrite decide_False by done. done.
  - destruct (Nat.eqb_spec c 4), (Nat.eqb_spec r 4); try lia; cbn [andb].
    all: destruct (Nat.eqb_spec (length ys) r) as [E|E];
      [|rewrite (decide_False (P := _ ∧ _)) by lia; by destruct (small r), (Nat.ltb 1 r)].
    all: destruct (Nat.eqb_spec c 1) as [E1|E1];
      [rewrite (decide_True (P := _ ∧ _)) by lia|rewrite (decide_False (P := _ ∧ _)) by lia].
    all: unfold small; repeat case_bool_decide; repeat case_decide; done.
Qed.
Lemma taken_spec l a y : type_of l ≠ type_of a →
  to_class cast zero l a = Accepted y ∧ to_class cast zero a l = Rejected ↔ taken_for l a y.
Proof.
  intros Hne. split.
  - intros [H1 H2]. destruct l as [t x|t xs|t r cs|t xs|]; try done.
    + cbn [to_class] in H1. rewrite to_vec_eq in H1. destruct a as [u z|u ys|u s ds|u ys|].
      * destruct (small_spec (length xs)); simplify_eq. by constructor.
      * cbn [to_class] in H2. rewrite to_vec_eq in H2. rewrite (Nat.eqb_sym (length xs)) in H2.
        destruct (Nat.eqb_spec (length ys) (length xs)) as [El|El].
        -- rewrite El in H2. destruct (small_spec (length xs)); repeat case_bool_decide; try done.
           all: subst; destruct Hne; cbn; by rewrite El.
        -- destruct (small _); [done|]. by destruct (Nat.ltb 1 (length xs)).
      * destruct (small _); [done|]. by destruct (Nat.ltb 1 (length xs)).
      * destruct (small _); [done|]. by destruct (Nat.ltb 1 (length xs)).
      * destruct (small _); [done|]. by destruct (Nat.ltb 1 (length xs)).
    + cbn [to_class] in H1. destruct a as [u z|u ys|u s ds|u ys|]; try done.
      rewrite to_mat_eq in H1. cbn [to_class] in H2. rewrite to_vec_eq in H2.
      destruct (decide (length cs = 4 ∧ r = 4)) as [[E4 ->]|H4].
      * repeat case_decide; simplify_eq. by constructor.
      * destruct (decide (length ys = r ∧ length cs = 1)) as [[<- E1]|]; [|done].
        destruct cs as [|c [|]]; [done| |done].
        assert (Hr : named_size (length ys) ∨ length ys <= 1).
        { destruct (small_spec (length ys)); [by left|]. destruct (Nat.ltb_spec 1 (length ys)); [done|]. by right. }
        repeat case_decide; simplify_eq.
        -- constructor. unfold named_size in *. lia.
        -- constructor; [done|]. tauto.
  - intros []; cbn [to_class].
    + rewrite to_vec_eq. destruct (small_spec (length xs)); done.
    + rewrite to_mat_eq, to_vec_eq. rewrite (decide_True (P := _ ∧ _)), !decide_True by done. rewrite H0. done.
    + rewrite to_mat_eq, to_vec_eq. cbn [length]. rewrite (decide_False (P := _ ∧ _)) by lia.
      rewrite (decide_True (P := _ ∧ _)), decide_True by done. split; [done|].
      destruct (small_spec (length xs)) as [|Hs]; [done|]. destruct (Nat.ltb_spec 1 (length xs)); [|done].
      destruct Hs. unfold named_size. lia.
    + rewrite to_mat_eq, to_vec_eq. cbn [length]. rewrite (decide_False (P := _ ∧ _)) by lia.
      rewrite (decide_True (P := _ ∧ _)), decide_False by done. unfold named_size.
      rewrite decide_False by lia. split; [done|].
      destruct (small_spec (length xs)) as [|Hs]; [done|]. destruct (Nat.ltb_spec 1 (length xs)); [lia|done].
Qed.
Lemma taken_types l a y : taken_for l a y → type_of l ≠ type_of a ∧ of_library l.
Proof. by intros []. Qed.

(** ** C157 *)
(** A comparison compiles exactly for operands of the same type and for those listed above,
    in either order. Then the components are compared one by one. *)
Theorem comparison_exact : ∀ l a x y, of_library l ∨ of_library a →
  compared l a = Accepted (x, y) ↔
  (type_of l = type_of a ∧ x = contents l ∧ y = contents a) ∨
  (taken_for l a y ∧ x = contents l) ∨ (taken_for a l x ∧ y = contents a).
Proof.
  intros l a x y Hl. unfold MixModel.compared.
  destruct (same_type l a) eqn:Es.
  - apply (same_type_spec l a Hl) in Es. split; [intros; simplify_eq; auto|].
    intros [(_ & -> & ->)|[[Ht _]|[Ht _]]]; [done|apply taken_types in Ht as [Ht _]; congruence..].
  - assert (Hne : type_of l ≠ type_of a).
    { intros E. apply (same_type_spec l a Hl) in E. congruence. }
    assert (Hne' : type_of a ≠ type_of l) by congruence.
    pose proof (taken_spec l a y Hne) as H1. pose proof (taken_spec a l x Hne') as H2.
    rewrite <- H1, <- H2. clear H1 H2 Es.
    destruct (to_class cast zero l a) as [| |z], (to_class cast zero a l) as [| |w]; (split;
      [intros; simplify_eq; auto|intros [[? _]|[[[??] ?]|[[??] ?]]]; congruence]).
Qed.

(** The components of a matrix are taken column after column, those of the other classes in
    the order in which they are declared. *)
Theorem comparison_order : ∀ l a x y, compared l a = Accepted (x, y) →
  (∀ t xs, l = VecO t xs → of_library a → (∃ u cs r, a = MatO u r cs) ∨ x = xs) ∧ (∀ t xs, l = QuatO t xs → x = xs) ∧
  (∀ t r cs i j, l = MatO t r cs → Forall (λ c, length c = r) cs → i < r → x !! (j * r + i) = cs !! j ≫= (.!! i)).
Proof.
  intros l a x y H. split_and!.
  - intros t xs -> Ha. apply comparison_exact in H; [|by left]. destruct H as [(_ & -> & _)|[[_ ->]|[H _]]]; [by right..|].
    inversion H; subst; eauto; try done.
  - intros t xs ->. apply comparison_exact in H; [|by left]. destruct H as [(_ & -> & _)|[[_ ->]|[H _]]]; [done..|]. inversion H.
  - intros t r cs i j -> Hr Hi. assert (x = contents (MatO t r cs)) as ->.
    { apply comparison_exact in H; [|by left]. destruct H as [(_ & -> & _)|[[_ ->]|[H _]]]; [done..|]. inversion H. }
    clear H. cbn [contents]. revert j. induction Hr as [|c cs Hc Hr IH]; intros j; [by destruct j|]. cbn [concat]. destruct j as [|j].
    + cbn. by rewrite lookup_app_l by lia.
    + rewrite lookup_app_r by lia. replace (S j * r + i - length c) with (j * r + i) by lia. apply IH.
Qed.

(** x == y is y == x. *)
Theorem comparison_symmetric : ∀ l a, compared a l =
  match compared l a with Accepted (x, y) => Accepted (y, x) | Hard => Hard | Rejected => Rejected end.
Proof.
  intros l a. unfold MixModel.compared.
  assert (same_type a l = same_type l a) as ->.
  { apply eq_true_iff_eq. destruct l, a; cbn; rewrite ?andb_true_iff, ?bool_decide_eq_true, ?Nat.eqb_eq; intuition congruence. }
  destruct (same_type l a); [done|]. by destruct (to_class cast zero l a), (to_class cast zero a l).
Qed.

(** Vectors of 2 to 4 components, quaternions and numbers: only operands of the same type
    can be compared, and a concept finds that out. Missing: see the refutation. *)
Definition plain (a : obj) : Prop := match a with VecO _ xs => named_size (length xs) | MatO _ _ _ => False | _ => True end.
Theorem comparison_strict_partial : ∀ l a, plain l → plain a → of_library l ∨ of_library a →
  (type_of l = type_of a → compared l a = Accepted (contents l, contents a)) ∧
  (type_of l ≠ type_of a → compared l a = Rejected).
Proof.
  intros l a Hl Ha Hc. split.
  - intros E. apply comparison_exact; auto.
  - intros E. unfold MixModel.compared. destruct (same_type l a) eqn:Es; [by apply (same_type_spec l a Hc) in Es|].
    assert (H : ∀ l a, plain l → plain a → type_of l ≠ type_of a → to_class cast zero l a = Rejected).
    { clear. intros l a Hl Ha E. destruct l as [|t xs| | |]; try done. cbn [to_class]. rewrite to_vec_eq. cbn in Hl.
      unfold small. rewrite (bool_decide_true _ Hl). destruct a as [|u ys| | |]; try done.
      destruct (Nat.eqb_spec (length ys) (length xs)) as [El|]; [|done]. case_bool_decide; [|done]. subst.
      destruct E. cbn. by rewrite El. }
    rewrite !H; auto.
Qed.

(** What the comparison says: all components are equal. *)
Theorem comparison_value : ∀ (eqv : V → V → bool) l a b, equals cast zero eqv l a = Accepted b →
  ∃ x y, compared l a = Accepted (x, y) ∧ (b = true ↔ Forall2 (λ u v, eqv u v = true) x y).
Proof.
  intros eqv l a b. unfold equals. destruct (compared l a) as [| |[x y]]; try done. intros [= <-].
  exists x, y. split; [done|]. clear. revert y. induction x as [|u x IH]; intros [|v y]; cbn; try (split; [done|by inversion 1]).
  rewrite andb_true_iff, IH. split; [intros []; by constructor|by inversion 1].
Qed.
End props.

Example comparison_exact_ex : let v := VecO TFloat [5; 5; 5; 5; 5] in let m := MatO TFloat 4 [[1;2;3;4];[0;0;0;0];[0;0;0;0];[0;0;0;0]] in
  of_library v ∧ compared (λ _ _ x, x) 0 v (Num TInt 5) = Accepted ([5;5;5;5;5], [5;5;5;5;5]) ∧
  equals (λ _ _ x, x) 0 Nat.eqb v (Num TInt 5) = Accepted true ∧
  equals (λ _ _ x, x) 0 Nat.eqb m (VecO TFloat [1;2;3;4]) = Accepted true ∧
  equals (λ _ _ x, x) 0 Nat.eqb (VecO TFloat [1;2;3;4]) m = Accepted true ∧
  equals (λ _ _ x, x) 0 Nat.eqb m (VecO TFloat [1;2;3;5]) = Accepted false.
Proof. split_and!; done. Qed.
Example comparison_order_ex : compared (λ _ _ x, x) 0 (MatO TInt 2 [[1;2];[3;4];[5;6]]) (MatO TInt 2 [[1;2];[3;4];[5;7]]) =
  Accepted ([1;2;3;4;5;6], [1;2;3;4;5;7]).
Proof. done. Qed.
Example comparison_strict_partial_ex : plain (VecO TFloat [1;2;3]) ∧
  compared (λ _ _ x, x) 0 (VecO TFloat [1;2;3]) (VecO TDouble [1;2;3]) = Rejected ∧
  compared (λ _ _ x, x) 0 (VecO TFloat [1;2;3]) (VecO TFloat [1;2;3;4]) = Rejected ∧
  compared (λ _ _ x, x) 0 (QuatO TFloat [1;2;3;4]) (QuatO TFloat [1;2;3;5]) = Accepted ([1;2;3;4], [1;2;3;5]).
Proof. split_and!; try done. cbn. unfold named_size. lia. Qed.

(** Vectors of other sizes compare with numbers, 4x4 matrices with vectors, without a word in
    the code; vectors of other sizes with different elements cannot be compared although each
    converts to the other; and a comparison with a matrix of another size than 4x4, or of a
    vector of more than four components with anything at all, is accepted but does not
    compile. *)
Theorem comparison_strict_refuted {V} (cast : arith → arith → V → V) (zero x : V) :
  (∃ l a y, type_of l ≠ type_of a ∧ (∃ t xs, l = VecO t xs ∧ length xs = 5) ∧ (∃ u, a = Num u x) ∧
     compared cast zero l a = Accepted (contents l, y)) ∧
  (∃ l a y, type_of l ≠ type_of a ∧ (∃ t cs, l = MatO t 4 cs ∧ length cs = 4) ∧ (∃ t xs, a = VecO t xs) ∧
     compared cast zero l a = Accepted (contents l, y)) ∧
  (∀ t u xs ys, length xs = 5 → length ys = 5 → t ≠ u → compared cast zero (VecO t xs) (VecO u ys) = Rejected ∧
     to_class cast zero (VecO t xs) (VecO u ys) = Accepted (map (cast t u) ys)) ∧
  (∀ t u cs xs, length cs = 3 → length xs = 3 → compared cast zero (MatO t 3 cs) (VecO u xs) = Hard) ∧
  (∀ t xs, 4 < length xs → compared cast zero (VecO t xs) OtherO = Hard).
Proof.
  split_and!.
  - exists (VecO TFloat [x;x;x;x;x]), (Num TInt x), (replicate 5 (cast TFloat TInt x)).
    split_and!; [done|by eexists _, _|by eexists|]. done.
  - exists (MatO TFloat 4 [[x;x;x;x];[x;x;x;x];[x;x;x;x];[x;x;x;x]]), (VecO TFloat [x;x;x;x]), ([x;x;x;x] ++ replicate 12 zero).
    split_and!; [done|by eexists _, _|by eexists _, _|]. done.
  - intros t u xs ys Hx Hy Htu. unfold MixModel.compared. cbn [same_type to_class].
    rewrite (bool_decide_false _ Htu), !to_vec_eq, Hx, Hy. cbn [andb Nat.eqb].
    rewrite (bool_decide_false _ Htu), (bool_decide_false (u = t)) by congruence.
    destruct (small_spec 5) as [Hs|]; [unfold named_size in Hs; lia|]. done.
  - intros t u cs xs Hc Hx. unfold MixModel.compared. cbn [same_type to_class]. rewrite to_mat_eq, to_vec_eq, Hc, Hx.
    rewrite (decide_False (P := _ ∧ _)), (decide_False (P := _ ∧ _)) by lia.
    destruct (small_spec 3) as [|Hs]; [done|]. destruct Hs. unfold named_size. lia.
  - intros t xs Hx. unfold MixModel.compared. cbn [same_type to_class]. rewrite to_vec_eq.
    destruct (small_spec (length xs)) as [Hs|]; [unfold named_size in Hs; lia|].
    destruct (Nat.ltb_spec 1 (length xs)); [done|lia].
Qed.

Definition mix_theorems := (@comparison_exact, @comparison_order, @comparison_symmetric, @comparison_strict_partial, @comparison_value,
  @comparison_strict_refuted).
Print Assumptions mix_theorems.
