(** Theorems about vectors of integers and of bool. *)
From stdpp Require Import list list_numbers.
From Coq Require Import ZArith Lia Reals Lra Znumtheory.
From Flocq Require Import Core BinarySingleNaN.
From Verif Require Import VecModel VecSpec VecProofs VecProps FloatModel IntVecModel.
Local Open Scope Z_scope.

(** * Specification *)
(** [r] is the value of the type that is [z] modulo 2^w; for bool, whether [z] is not zero *)
Definition represents (t : ity) (r z : Z) : Prop :=
  match t with
  | Bool => r = 0 ∧ z = 0 ∨ r = 1 ∧ z ≠ 0
  | Int w false => 0 <= r < 2 ^ w ∧ (2 ^ w | r - z)
  | Int w true => - 2 ^ (w - 1) <= r < 2 ^ (w - 1) ∧ (2 ^ w | r - z)
  end.
(** [z] is a value of the type *)
Definition member (t : ity) (z : Z) : Prop :=
  match t with Bool => z = 0 ∨ z = 1 | Int w false => 0 <= z < 2 ^ w | Int w true => - 2 ^ (w - 1) <= z < 2 ^ (w - 1) end.
(** bool, and the signed and unsigned types of 8, 16, 32 and 64 bits *)
Definition standard (t : ity) : Prop := match t with Bool => True | Int w _ => w = 8 ∨ w = 16 ∨ w = 32 ∨ w = 64 end.
Definition exact (op : aop) : Z → Z → Z := match op with Add => Z.add | Sub => Z.sub | Mul => Z.mul | Div => Z.quot end.
(** The operators that are defined for all operands *)
Definition wraps (t : ity) (op : aop) : Prop :=
  op ≠ Div ∧ match t with Bool => True | Int w s => w < 32 ∨ s = false end ∧ (t = Int 16 false → op ≠ Mul).

(** * Types *)
Lemma standard_pos w s : standard (Int w s) → 8 <= w <= 64.
Proof. simpl. lia. Qed.
Lemma half_pow w s : standard (Int w s) → 2 ^ w = 2 * 2 ^ (w - 1) ∧ 128 <= 2 ^ (w - 1).
Proof. intros H. simpl in H. destruct H as [-> | [-> | [-> | ->]]]; vm_compute; split; congruence. Qed.
Lemma convert_represents t z : standard t → represents t (convert t z) z.
Proof.
  intros Ht. destruct t as [|w [|]]; simpl.
  - destruct (Z.eqb_spec z 0); [left|right]; done.
  - destruct (half_pow w true Ht) as [E H]. pose proof (Z.mod_pos_bound (z + 2 ^ (w - 1)) (2 ^ w) ltac:(lia)).
    split; [lia|]. rewrite Z.mod_eq by lia. exists (- ((z + 2 ^ (w - 1)) / 2 ^ w)). lia.
  - destruct (half_pow w false Ht) as [E H]. pose proof (Z.mod_pos_bound z (2 ^ w) ltac:(lia)).
    split; [lia|]. rewrite Z.mod_eq by lia. exists (- (z / 2 ^ w)). lia.
Qed.
Lemma represents_member t r z : represents t r z → member t r.
Proof. destruct t as [|w [|]]; simpl; intuition. Qed.
Lemma divide_small n a : 0 < n → (n | a) → - n < a < n → a = 0.
Proof. intros Hn [k ->] H. assert (k = 0) by nia. lia. Qed.
Lemma represents_unique t r r' z : standard t → represents t r z → represents t r' z → r = r'.
Proof.
  intros Ht. destruct t as [|w [|]]; simpl; [intros; lia| |]; intros [B D] [B' D'];
    (destruct (half_pow w true Ht) as [E H] || destruct (half_pow w false Ht) as [E H]);
    assert (r - r' = 0); try lia; apply (divide_small (2 ^ w)); try lia;
    replace (r - r') with ((r - z) - (r' - z)) by lia; by apply Z.divide_sub_r.
Qed.
Lemma member_represents t z : member t z → represents t z z.
Proof. destruct t as [|w [|]]; simpl; intros H; [lia|split; [lia|]; exists 0; lia..]. Qed.
Lemma convert_member t z : standard t → member t z → convert t z = z.
Proof. intros Ht H. eapply represents_unique; [done|by apply convert_represents|by apply member_represents]. Qed.
Lemma promote_cases t : standard t → promote t = Int 32 true ∨ promote t = t ∧ ∃ w s, t = Int w s ∧ (w = 32 ∨ w = 64).
Proof. destruct t as [|w s]; simpl; [by left|]. intros H. destruct (Z.ltb_spec w 32); [by left|]. right. split; [done|]. exists w, s. split; [done|lia]. Qed.
Lemma result_signed w z : result (Int w true) z = if decide (- 2 ^ (w - 1) <= z < 2 ^ (w - 1)) then Some z else None.
Proof.
  simpl. case_decide as D.
  - destruct (Z.leb_spec (- 2 ^ (w - 1)) z); [|lia]. destruct (Z.leb_spec z (2 ^ (w - 1) - 1)); [done|lia].
  - destruct (Z.leb_spec (- 2 ^ (w - 1)) z); [|done]. destruct (Z.leb_spec z (2 ^ (w - 1) - 1)); [lia|done].
Qed.
(** Converting the result in the promoted type gives the exact result modulo 2^w *)
Lemma result_represents t z r : standard t → result (promote t) z = Some r → represents t (convert t r) z.
Proof.
  intros Ht H. destruct (promote_cases t Ht) as [E|(E & w & s & -> & Hw)]; rewrite E in H.
  - rewrite result_signed in H. case_decide; [|done]. injection H as <-. by apply convert_represents.
  - destruct s; [rewrite result_signed in H; case_decide; [|done]; injection H as <-; by apply convert_represents|].
    simpl in H. injection H as <-. rewrite (convert_member (Int w false)); [|done|].
    + by apply (convert_represents (Int w false)).
    + eapply represents_member. by apply (convert_represents (Int w false)).
Qed.

(** * Operators *)
Lemma mapM_zip (f : option Z → option Z → option Z) (v w r : list Z) : length v = length w →
  mapM (Datatypes.id (A := option Z)) (zip_with f (all v) (all w)) = Some r ↔ Forall3 (λ z x y, f (Some x) (Some y) = Some z) r v w.
Proof.
  intros L. rewrite mapM_Some. split.
  - revert w r L. induction v as [|x v IH]; intros [|y w] r L H; try done; simpl in H; inversion H; subst; constructor; [done|].
    apply IH; [by injection L|done].
  - intros H. clear L. induction H; simpl; constructor; done.
Qed.
Lemma op_elements t op v w r : length v = length w →
  int_op t op v w = Some r ↔ Forall3 (λ z x y, elem t op (Some x) (Some (convert t y)) = Some z) r v w.
Proof.
  intros L. unfold int_op. rewrite vop_eq by (unfold all; by rewrite !map_length). unfold defined. simpl.
  exact (mapM_zip (λ x y, elem t op x (convert t <$> y)) v w r L).
Qed.
Lemma op_scalar_elements t op v s r :
  int_op_s t op v s = Some r ↔ Forall2 (λ z x, elem t op (Some x) (Some (convert t s)) = Some z) r v.
Proof.
  unfold int_op_s. rewrite vop_s_eq. unfold defined, all. cbn [mbind option_bind fmap option_fmap option_map]. rewrite mapM_Some, map_map.
  split.
  - revert r. induction v as [|x v IH]; intros r H; simpl in H; inversion H; subst; constructor; auto.
  - intros H. induction H; simpl; constructor; auto.
Qed.
Lemma neg_elements t v r : int_neg t v = Some r ↔ Forall2 (λ z x, elem_neg t (Some x) = Some z) r v.
Proof.
  unfold int_neg. rewrite vneg_eq. unfold defined, all. cbn [mbind option_bind]. rewrite mapM_Some, map_map. split.
  - revert r. induction v as [|x v IH]; intros r H; simpl in H; inversion H; subst; constructor; auto.
  - intros H. induction H; simpl; constructor; auto.
Qed.
Lemma elem_represents t op x y z : standard t → elem t op (Some x) (Some y) = Some z → represents t z (exact op x y).
Proof.
  intros Ht H. unfold elem in H. simpl in H. destruct (arith t op x y) as [r|] eqn:E; [|done]. simpl in H. injection H as <-.
  destruct op; simpl in *; try (by eapply result_represents).
  destruct (y =? 0); [done|]. by eapply result_represents.
Qed.
Lemma member_bounds t x : standard t → member t x → match t with Int _ _ => True | Bool => 0 <= x <= 1 end ∧
  (promote t = Int 32 true → t = Int 32 true ∨ -32768 <= x < 65536 ∧ (t ≠ Int 16 false → - 32768 <= x <= 32767)).
Proof.
  intros Ht H. destruct t as [|w [|]]; simpl in *; [lia| |].
  - split; [done|]. intros E. destruct Ht as [-> | [-> | [-> | ->]]]; simpl in *; try done; [right; lia..|by left].
  - split; [done|]. intros E. destruct Ht as [-> | [-> | [-> | ->]]]; simpl in *; try done; right; split; try lia. done.
Qed.
Lemma arith_wraps t op x y : standard t → wraps t op → member t x → member t y → is_Some (arith t op x y).
Proof.
  intros Ht (Hd & Hw & Hm) Hx Hy.
  destruct (promote_cases t Ht) as [E|(E & w & s & -> & Hw')].
  - destruct (member_bounds t x Ht Hx) as [_ Bx], (member_bounds t y Ht Hy) as [_ By].
    destruct (Bx E) as [->|[Bx1 Bx2]]; [simpl in Hw; destruct Hw as [Hw|Hw]; [lia|done]|].
    destruct (By E) as [->|[By1 By2]]; [simpl in Hw; destruct Hw as [Hw|Hw]; [lia|done]|].
    destruct op; [| | |done]; unfold arith; rewrite E, result_signed; change (2 ^ (32 - 1)) with 2147483648; case_decide as D; try done;
      exfalso; apply D; [lia|lia|]. assert (Hn : t ≠ Int 16 false) by (intros ->; by apply Hm). specialize (Bx2 Hn). specialize (By2 Hn). nia.
  - destruct Hw as [Hw| ->]; [lia|]. destruct op; [| | |done]; unfold arith; rewrite E; simpl; done.
Qed.
Lemma elem_wraps t op x y : standard t → wraps t op → member t x → member t y →
  ∃ z, elem t op (Some x) (Some y) = Some z ∧ represents t z (exact op x y).
Proof.
  intros Ht Hw Hx Hy. destruct (arith_wraps t op x y Ht Hw Hx Hy) as [r E].
  assert (H : elem t op (Some x) (Some y) = Some (convert t r)) by (unfold elem; simpl; by rewrite E).
  eexists. split; [exact H|]. by eapply elem_represents.
Qed.
(** For unsigned types, bool and the signed types shorter than int every sum, difference
    and product is defined and is the exact one reduced to the type. The components of
    the right operand are first converted to the type. *)
Theorem int_op_wraps_partial : ∀ t op v w, standard t → wraps t op → Forall (member t) v → length v = length w →
  ∃ r, int_op t op v w = Some r ∧ Forall3 (λ z x y, ∃ y', represents t y' y ∧ represents t z (exact op x y')) r v w.
Proof.
  intros t op v w Ht Hw Hv L.
  assert (H : ∃ r, Forall3 (λ z x y, elem t op (Some x) (Some (convert t y)) = Some z) r v w ∧
    Forall3 (λ z x y, ∃ y', represents t y' y ∧ represents t z (exact op x y')) r v w).
  { revert w L. induction Hv as [|x v Hx Hv IH]; intros [|y w] L; try done; [exists []; split; constructor|].
    destruct (IH w ltac:(by injection L)) as (r & H1 & H2).
    pose proof (convert_represents t y Ht) as Hy.
    destruct (elem_wraps t op x (convert t y) Ht Hw Hx (represents_member _ _ _ Hy)) as (z & E & R).
    exists (z :: r). split; constructor; eauto. }
  destruct H as (r & H1 & H2). exists r. split; [|done]. by apply op_elements.
Qed.
Theorem int_op_scalar_wraps_partial : ∀ t op v s, standard t → wraps t op → Forall (member t) v →
  ∃ r s', int_op_s t op v s = Some r ∧ represents t s' s ∧ Forall2 (λ z x, represents t z (exact op x s')) r v.
Proof.
  intros t op v s Ht Hw Hv. pose proof (convert_represents t s Ht) as Hs.
  assert (H : ∃ r, Forall2 (λ z x, elem t op (Some x) (Some (convert t s)) = Some z) r v ∧
    Forall2 (λ z x, represents t z (exact op x (convert t s))) r v).
  { induction Hv as [|x v Hx Hv (r & H1 & H2)]; [exists []; split; constructor|].
    destruct (elem_wraps t op x (convert t s) Ht Hw Hx (represents_member _ _ _ Hs)) as (z & E & R). exists (z :: r). split; constructor; done. }
  destruct H as (r & H1 & H2). exists r, (convert t s). split; [by apply op_scalar_elements|done].
Qed.
(** The product of 16 bit unsigned numbers is computed in int and overflows. *)
Theorem int_op_wraps_refuted : ∃ v w, Forall (member (Int 16 false)) v ∧ Forall (member (Int 16 false)) w ∧
  int_op (Int 16 false) Mul v w = None ∧ int_dot (Int 16 false) v w = None.
Proof. exists [65535; 0], [65535; 0]. split; [repeat constructor; simpl; lia|]. split; [repeat constructor; simpl; lia|]. by vm_compute. Qed.
(** Compound assignment gives the same vector. *)
Theorem int_self_op : ∀ t op v w s, (length v = length w → int_self t op v w = int_op t op v w) ∧ int_self_s t op v s = int_op_s t op v s.
Proof.
  intros t op v w s. split.
  - intros L. unfold int_self, int_op. rewrite vself_eq, vop_eq by (unfold all; by rewrite !map_length). done.
  - unfold int_self_s, int_op_s. by rewrite vself_s_eq, vop_s_eq.
Qed.
Theorem int_neg_wraps : ∀ t v, standard t → (match t with Int w true => w < 32 | _ => True end) → Forall (member t) v →
  ∃ r, int_neg t v = Some r ∧ Forall2 (λ z x, represents t z (- x)) r v.
Proof.
  intros t v Ht Hw Hv.
  assert (H : ∃ r, Forall2 (λ z x, elem_neg t (Some x) = Some z) r v ∧ Forall2 (λ z x, represents t z (- x)) r v).
  { induction Hv as [|x v Hx Hv (r & H1 & H2)]; [exists []; split; constructor|].
    assert (is_Some (result (promote t) (- x))) as [z E].
    { destruct (promote_cases t Ht) as [E|(E & w & s & -> & Hw')]; rewrite E.
      - destruct (member_bounds t x Ht Hx) as [_ Bx]. destruct (Bx E) as [->|[Bx1 _]]; [lia|].
        rewrite result_signed. change (2 ^ (32 - 1)) with 2147483648. case_decide; [done|lia].
      - destruct s; [lia|done]. }
    exists (convert t z :: r). split; constructor; try done.
    - unfold elem_neg. simpl. by rewrite E.
    - by eapply result_represents. }
  destruct H as (r & H1 & H2). exists r. split; [by apply neg_elements|done].
Qed.

(** ** Signed types of at least the size of int *)
Lemma signed_elem w op x y z : standard (Int w true) → 32 <= w → member (Int w true) y →
  elem (Int w true) op (Some x) (Some y) = Some z ↔ z = exact op x y ∧ member (Int w true) z ∧ (op = Div → y ≠ 0).
Proof.
  intros Ht Hw Hy. assert (E : promote (Int w true) = Int w true) by (simpl; destruct (Z.ltb_spec w 32); [lia|done]).
  assert (H : ∀ e, (r ← result (promote (Int w true)) e; Some (convert (Int w true) r)) = Some z ↔ z = e ∧ member (Int w true) z).
  { intros e. rewrite E, result_signed. case_decide as D; simpl.
    - rewrite (convert_member (Int w true) e Ht D) at 1. split; [intros H; injection H as <-; done|intros [-> _]; done].
    - split; [done|intros [-> ?]; done]. }
  unfold elem. cbn [mbind option_bind]. destruct op; unfold arith; simpl exact.
  - rewrite H. clear. naive_solver.
  - rewrite H. clear. naive_solver.
  - rewrite H. clear. naive_solver.
  - destruct (Z.eqb_spec y 0) as [->|Hne].
    + split; [done|]. intros (_ & _ & Hn). by destruct Hn.
    + rewrite H. clear -Hne. naive_solver.
Qed.
Lemma Forall3_iff {A B C} (P Q : A → B → C → Prop) l k k' : (∀ x y z, P x y z ↔ Q x y z) → Forall3 P l k k' ↔ Forall3 Q l k k'.
Proof. intros H. split; induction 1; constructor; try done; by apply H. Qed.
(** An operator is defined exactly if every exact result is a value of the type, and then
    gives these; for the quotient no divisor may be zero. *)
Theorem int_op_signed : ∀ w op u v r, standard (Int w true) → 32 <= w → Forall (member (Int w true)) v → length u = length v →
  int_op (Int w true) op u v = Some r ↔
  Forall3 (λ z x y, z = exact op x y ∧ member (Int w true) z ∧ (op = Div → y ≠ 0)) r u v.
Proof.
  intros w op u v r Ht Hw Hv L. rewrite op_elements by done. split; intros H.
  - induction H as [|z x y r u v E H IH]; constructor.
    + inversion Hv; subst. rewrite (convert_member _ y Ht) in E by done. by apply signed_elem in E.
    + inversion Hv; subst. apply IH; [done|by injection L].
  - induction H as [|z x y r u v E H IH]; constructor.
    + inversion Hv; subst. rewrite (convert_member _ y Ht) by done. by apply signed_elem.
    + inversion Hv; subst. apply IH; [done|by injection L].
Qed.
(** For the other types the quotient is defined exactly if no divisor is zero. *)
Theorem int_div : ∀ t v w, standard t → (match t with Int w true => w < 32 | _ => True end) →
  Forall (member t) v → Forall (member t) w → length v = length w →
  (is_Some (int_op t Div v w) ↔ Forall (λ y, y ≠ 0) w) ∧
  ∀ r, int_op t Div v w = Some r → Forall3 (λ z x y, represents t z (Z.quot x y)) r v w.
Proof.
  intros t v w Ht Hs Hv Hw L.
  assert (D : ∀ x y, member t x → member t y → y ≠ 0 → is_Some (elem t Div (Some x) (Some (convert t y)))).
  { intros x y Hx Hy Hn. rewrite (convert_member t y Ht Hy). unfold elem, arith. cbn [mbind option_bind].
    destruct (Z.eqb_spec y 0); [done|]. assert (is_Some (result (promote t) (Z.quot x y))) as [z ->]; [|simpl; eauto].
    destruct (promote_cases t Ht) as [E|(E & m & s & -> & Hn2)]; rewrite E.
    - destruct (member_bounds t x Ht Hx) as [_ Bx]. destruct (Bx E) as [->|[Bx1 _]]; [lia|]. rewrite result_signed. change (2 ^ (32 - 1)) with 2147483648.
      case_decide as F; [done|]. exfalso. apply F. 
      assert (Z.abs (x ÷ y) <= Z.abs x). { rewrite <- Z.quot_abs by done. apply Z.quot_le_upper_bound; [lia|]. nia. } lia.
    - destruct s; [lia|done]. }
  split; [split|].
  - intros [r H]. apply op_elements in H; [|done]. clear D L Hv. induction H as [|z x y r v w E H IH]; [constructor|].
    inversion Hw; subst. constructor; [|auto]. intros ->. rewrite convert_member in E by done. done.
  - intros H. assert (∃ r, Forall3 (λ z x y, elem t Div (Some x) (Some (convert t y)) = Some z) r v w) as [r Hr].
    { revert w H Hw L. induction Hv as [|x v Hx Hv IH]; intros [|y w] H Hw L; try done; [exists []; constructor|].
      inversion H; inversion Hw; subst. destruct (IH w) as [r Hr]; [done|done|by injection L|].
      destruct (D x y) as [z Hz]; [done|done|done|]. exists (z :: r). by constructor. }
    exists r. by apply op_elements.
  - intros r H. apply op_elements in H; [|done]. clear D L Hv. induction H as [|z x y r v w E H IH]; [constructor|].
    inversion Hw; subst. constructor; [|auto]. rewrite convert_member in E by done. by apply (elem_represents t Div).
Qed.
Theorem int_neg_signed : ∀ w v r, standard (Int w true) → 32 <= w → Forall (member (Int w true)) v →
  int_neg (Int w true) v = Some r ↔ Forall2 (λ z x, z = - x ∧ x ≠ - 2 ^ (w - 1)) r v.
Proof.
  intros w v r Ht Hw Hv. rewrite neg_elements.
  assert (E : promote (Int w true) = Int w true) by (simpl; destruct (Z.ltb_spec w 32); [lia|done]).
  assert (H : ∀ z x, member (Int w true) x → elem_neg (Int w true) (Some x) = Some z ↔ z = - x ∧ x ≠ - 2 ^ (w - 1)).
  { intros z x Hx. unfold elem_neg. cbn [mbind option_bind]. rewrite E, result_signed. simpl in Hx. case_decide as D; cbn [mbind option_bind].
    - rewrite (convert_member (Int w true)) by done. split; [intros [= <-]; split; [done|lia]|intros [-> _]; done].
    - split; [done|]. intros [_ ?]. lia. }
  split; intros F; induction F; inversion Hv; subst; constructor; auto; by apply H.
Qed.

(** * Dot product, cross product, reflection *)
Definition sum_products (v w : list Z) : Z := foldr Z.add 0 (zip_with Z.mul v w).
Fixpoint dot_list (t : ity) (acc : Z) (v w : list Z) : option Z :=
  match v, w with
  | x :: v, y :: w => p ← arith t Mul x y; s ← arith t Add acc p; dot_list t (convert t s) v w
  | _, _ => Some acc
  end.
Lemma loop_dot t acc pv v pw w : length v = length w → length pv = length pw →
  loop (length pv) (length v) (λ i r, x ← index (pv ++ v) i; y ← index (pw ++ w) i; p ← arith t Mul x y; s ← arith t Add r p; Some (convert t s)) acc
  = dot_list t acc v w.
Proof.
  revert acc pv w pw. induction v as [|x v IH]; intros acc pv [|y w] pw L Lp; try done.
  cbn [length loop]. rewrite (index_lookup (pv ++ x :: v) (length pv) x) by (by rewrite list_lookup_middle).
  rewrite (index_lookup (pw ++ y :: w) (length pv) y) by (by rewrite list_lookup_middle). cbn [mbind option_bind dot_list].
  destruct (arith t Mul x y) as [p|]; [|done]. cbn [mbind option_bind]. destruct (arith t Add acc p) as [s|]; [|done]. cbn [mbind option_bind].
  specialize (IH (convert t s) (pv ++ [x]) w (pw ++ [y])). rewrite !app_length in IH. simpl in IH.
  rewrite <- !app_assoc in IH. simpl in IH. rewrite <- IH by (try by injection L; lia). f_equal. lia.
Qed.
Lemma int_dot_list t v w : length v = length w → int_dot t v w = dot_list t 0 v w.
Proof.
  intros L. unfold int_dot. rewrite L, Nat.eqb_refl, <- L. simpl negb. cbv iota. unfold for_. exact (loop_dot t 0 [] v [] w L eq_refl).
Qed.
Lemma represents_shift t r r' s s' p : represents t r s → represents t r' (r + p) → (t = Bool → 0 <= s ∧ 0 <= p) → s' = s + p → represents t r' s'.
Proof.
  intros H1 H2 Hb ->. destruct t as [|w [|]]; simpl in *.
  - specialize (Hb eq_refl). lia.
  - destruct H1 as [_ H1], H2 as [B H2]. split; [done|]. replace (r' - (s + p)) with ((r' - (r + p)) + (r - s)) by lia. by apply Z.divide_add_r.
  - destruct H1 as [_ H1], H2 as [B H2]. split; [done|]. replace (r' - (s + p)) with ((r' - (r + p)) + (r - s)) by lia. by apply Z.divide_add_r.
Qed.
Lemma represents_add t r a b c : standard t → t ≠ Bool → represents t b c → represents t r (a + b) → represents t r (a + c).
Proof.
  intros Ht Hn H1 H2. destruct t as [|w [|]]; simpl in *; [done| |];
    destruct H1 as [_ H1], H2 as [B H2]; (split; [done|]); replace (r - (a + c)) with ((r - (a + b)) + (b - c)) by lia; by apply Z.divide_add_r.
Qed.
Lemma dot_step t acc x y : standard t → wraps t Mul → member t acc → member t x → member t y →
  ∃ p s, arith t Mul x y = Some p ∧ arith t Add acc p = Some s ∧ represents t (convert t s) (acc + x * y).
Proof.
  intros Ht Hw Ha Hx Hy. destruct (arith_wraps t Mul x y Ht Hw Hx Hy) as [p Hp]. exists p.
  destruct Hw as (_ & Hw & Hm). destruct (promote_cases t Ht) as [E|(E & w & s & -> & Hw')].
  - destruct (member_bounds t x Ht Hx) as [_ Bx], (member_bounds t y Ht Hy) as [_ By], (member_bounds t acc Ht Ha) as [_ Ba].
    destruct (Bx E) as [->|[_ Bx2]]; [simpl in Hw; destruct Hw as [Hw|Hw]; [lia|done]|].
    destruct (By E) as [->|[_ By2]]; [simpl in Hw; destruct Hw as [Hw|Hw]; [lia|done]|].
    destruct (Ba E) as [->|[_ Ba2]]; [simpl in Hw; destruct Hw as [Hw|Hw]; [lia|done]|].
    assert (Hn : t ≠ Int 16 false) by (intros ->; by apply Hm). specialize (Bx2 Hn). specialize (By2 Hn). specialize (Ba2 Hn).
    assert (p = x * y) as ->. { unfold arith in Hp. rewrite E, result_signed in Hp. case_decide; [|done]. by injection Hp. }
    exists (acc + x * y). split; [done|]. split; [|by apply convert_represents]. unfold arith. rewrite E, result_signed.
    change (2 ^ (32 - 1)) with 2147483648. case_decide as D; [done|exfalso; apply D; nia].
  - destruct Hw as [Hw| ->]; [lia|]. unfold arith in *. rewrite E in *. simpl result in *. injection Hp as <-.
    eexists. split; [done|]. split; [done|]. change (_ mod 2 ^ w) with (convert (Int w false) (acc + (x * y) mod 2 ^ w)) at 1.
    pose proof (convert_represents (Int w false) (acc + (x * y) mod 2 ^ w) Ht) as H1. rewrite (convert_member (Int w false) (convert _ _)); [|done|by eapply represents_member].
    eapply represents_add; [done|done|by apply (convert_represents (Int w false) (x * y))|done].
Qed.
Lemma dot_list_wraps t acc s v w : standard t → wraps t Mul → represents t acc s → (t = Bool → 0 <= s) →
  Forall (member t) v → Forall (member t) w → length v = length w →
  ∃ r, dot_list t acc v w = Some r ∧ represents t r (s + sum_products v w).
Proof.
  intros Ht Hw. revert acc s w. induction v as [|x v IH]; intros acc s [|y w] Ha Hs Hv Hu L; try done.
  - exists acc. split; [done|]. unfold sum_products. simpl. by rewrite Z.add_0_r.
  - inversion Hv; inversion Hu; subst. destruct (dot_step t acc x y Ht Hw) as (p & q & E1 & E2 & R); [by eapply represents_member|done..|].
    destruct (IH (convert t q) (s + x * y) w) as (r & Er & Rr); [| |done|done|by injection L|].
    + eapply represents_shift; [exact Ha|exact R| |done]. intros ->. simpl in *. specialize (Hs eq_refl). nia.
    + intros ->. simpl in *. specialize (Hs eq_refl). nia.
    + exists r. cbn [dot_list]. rewrite E1. cbn [mbind option_bind]. rewrite E2. cbn [mbind option_bind]. split; [done|]. unfold sum_products in *. simpl. by replace (s + (x * y + _)) with (s + x * y + foldr Z.add 0 (zip_with Z.mul v w)) by lia.
Qed.
Theorem int_dot_wraps_partial : ∀ t v w, standard t → wraps t Mul → Forall (member t) v → Forall (member t) w → length v = length w →
  ∃ r, int_dot t v w = Some r ∧ represents t r (sum_products v w).
Proof.
  intros t v w Ht Hw Hv Hu L. rewrite int_dot_list by done. destruct (dot_list_wraps t 0 0 v w) as (r & E & R); try done.
  - apply member_represents. destruct t as [|n [|]]; simpl; [lia| |]; [destruct (half_pow n true Ht)|destruct (half_pow n false Ht)]; lia.
  - exists r. split; [done|exact R].
Qed.
Lemma signed_arith w op x y z : standard (Int w true) → 32 <= w → op ≠ Div →
  arith (Int w true) op x y = Some z ↔ z = exact op x y ∧ member (Int w true) z.
Proof.
  intros Ht Hw Hd. assert (E : promote (Int w true) = Int w true) by (simpl; destruct (Z.ltb_spec w 32); [lia|done]).
  unfold arith. rewrite E. destruct op; [..|done]; rewrite result_signed; simpl; case_decide as D; naive_solver.
Qed.
(** The products and the partial sums from the left must be values of the type. *)
Theorem int_dot_signed : ∀ w u v r, standard (Int w true) → 32 <= w → length u = length v →
  int_dot (Int w true) u v = Some r ↔ r = sum_products u v ∧
  Forall (member (Int w true)) (zip_with Z.mul u v) ∧
  ∀ k, (k <= length u)%nat → member (Int w true) (sum_products (take k u) (take k v)).
Proof.
  intros w u v r Ht Hw L. rewrite int_dot_list by done.
  assert (H : ∀ acc, member (Int w true) acc → dot_list (Int w true) acc u v = Some r ↔ r = acc + sum_products u v ∧
    Forall (member (Int w true)) (zip_with Z.mul u v) ∧
    ∀ k, (k <= length u)%nat → member (Int w true) (acc + sum_products (take k u) (take k v))).
  { revert v L. induction u as [|x u IH]; intros [|y v] L acc Ha; try done.
    - unfold sum_products. simpl. rewrite Z.add_0_r. split.
      + intros [= <-]. split; [done|]. split; [constructor|]. intros k _. by rewrite take_nil, Z.add_0_r.
      + by intros [-> _].
    - cbn [dot_list]. split.
      + intros H. destruct (arith _ Mul x y) as [p|] eqn:Ep; [|done]. apply signed_arith in Ep as [-> Hp]; [|done..].
        cbn [mbind option_bind] in H. destruct (arith _ Add acc _) as [s|] eqn:Es; [|done]. apply signed_arith in Es as [-> Hs]; [|done..].
        cbn [mbind option_bind] in H. rewrite convert_member in H by done. apply IH in H as (-> & HF & Hk); [|by injection L|done].
        simpl exact in *. split; [unfold sum_products; simpl; lia|]. split; [by constructor|]. intros [|k] Hle.
        * unfold sum_products. simpl. by rewrite Z.add_0_r.
        * specialize (Hk k ltac:(simpl in Hle; lia)). unfold sum_products in *. simpl take. simpl foldr. by rewrite Z.add_assoc.
      + intros (-> & HF & Hk). inversion HF as [|? ? Hp HF']; subst.
        assert (Hs : member (Int w true) (acc + x * y)). { specialize (Hk 1%nat ltac:(simpl; lia)). unfold sum_products in Hk. simpl in Hk. simpl. lia. }
        assert (E1 : arith (Int w true) Mul x y = Some (x * y)) by (by apply signed_arith).
        assert (E2 : arith (Int w true) Add acc (x * y) = Some (acc + x * y)) by (by apply signed_arith).
        rewrite E1. cbn [mbind option_bind]. rewrite E2. cbn [mbind option_bind]. rewrite convert_member by done. apply IH; [by injection L|done|].
        split; [unfold sum_products; simpl; lia|]. split; [done|]. intros k Hle. specialize (Hk (Datatypes.S k) ltac:(simpl; lia)).
        unfold sum_products in *. simpl take in Hk. simpl foldr in Hk. by rewrite Z.add_assoc in Hk. }
  rewrite H; [done|]. destruct (half_pow w true Ht). simpl. lia.
Qed.
Theorem int_dot_symmetric : ∀ t v w, int_dot t v w = int_dot t w v.
Proof.
  intros t v w. destruct (decide (length v = length w)) as [L|L].
  - rewrite !int_dot_list by done. generalize 0. revert w L. induction v as [|x v IH]; intros [|y w] L acc; try done. cbn [dot_list].
    assert (E : arith t Mul x y = arith t Mul y x) by (simpl; by rewrite Z.mul_comm). rewrite E.
    destruct (arith t Mul y x) as [p|]; [|done]. cbn [mbind option_bind]. destruct (arith t Add acc p); [|done]. cbn [mbind option_bind]. apply IH. by injection L.
  - unfold int_dot. apply Nat.eqb_neq in L as E. rewrite E. rewrite Nat.eqb_sym, E. done.
Qed.
Theorem int_op_scalar_signed : ∀ w op u s r, standard (Int w true) → 32 <= w → member (Int w true) s →
  int_op_s (Int w true) op u s = Some r ↔ Forall2 (λ z x, z = exact op x s ∧ member (Int w true) z ∧ (op = Div → s ≠ 0)) r u.
Proof.
  intros w op u s r Ht Hw Hs. rewrite op_scalar_elements, (convert_member _ s Ht Hs).
  split; intros H; induction H as [|z x r u E H IH]; constructor; try done; by apply signed_elem.
Qed.
Lemma represents_congruent w s r z z' : represents (Int w s) r z → (2 ^ w | z - z') → represents (Int w s) r z'.
Proof.
  intros H D. destruct s; simpl in *; destruct H as [B H]; (split; [done|]); replace (r - z') with ((r - z) + (z - z')) by lia; by apply Z.divide_add_r.
Qed.
Lemma represents_divides w s r z : represents (Int w s) r z → (2 ^ w | r - z).
Proof. destruct s; simpl; by intros [_ H]. Qed.
Lemma det_wraps t a b c d : standard t → wraps t Mul → member t a → member t b → member t c → member t d →
  ∃ r, int_det t a b c d = Some r ∧ represents t r (a * b - c * d).
Proof.
  intros Ht Hw Ha Hb Hc Hd. destruct (arith_wraps t Mul a b Ht Hw Ha Hb) as [p Hp], (arith_wraps t Mul c d Ht Hw Hc Hd) as [q Hq].
  unfold int_det. rewrite Hp, Hq. cbn [mbind option_bind]. destruct Hw as (_ & Hw & Hm). destruct (promote_cases t Ht) as [E|(E & w & s & -> & Hw')].
  - destruct (member_bounds t a Ht Ha) as [_ Ba], (member_bounds t b Ht Hb) as [_ Bb], (member_bounds t c Ht Hc) as [_ Bc], (member_bounds t d Ht Hd) as [_ Bd].
    destruct (Ba E) as [->|[_ Ba2]]; [simpl in Hw; destruct Hw as [Hw|Hw]; [lia|done]|].
    destruct (Bb E) as [->|[_ Bb2]]; [simpl in Hw; destruct Hw as [Hw|Hw]; [lia|done]|].
    destruct (Bc E) as [->|[_ Bc2]]; [simpl in Hw; destruct Hw as [Hw|Hw]; [lia|done]|].
    destruct (Bd E) as [->|[_ Bd2]]; [simpl in Hw; destruct Hw as [Hw|Hw]; [lia|done]|].
    assert (Hn : t ≠ Int 16 false) by (intros ->; by apply Hm). specialize (Ba2 Hn). specialize (Bb2 Hn). specialize (Bc2 Hn). specialize (Bd2 Hn).
    assert (p = a * b) as ->. { unfold arith in Hp. rewrite E, result_signed in Hp. case_decide; [|done]. by injection Hp. }
    assert (q = c * d) as ->. { unfold arith in Hq. rewrite E, result_signed in Hq. case_decide; [|done]. by injection Hq. }
    assert (F : arith t Sub (a * b) (c * d) = Some (a * b - c * d)).
    { unfold arith. rewrite E, result_signed. change (2 ^ (32 - 1)) with 2147483648. case_decide as D; [done|]. exfalso. apply D. 
      assert (-1073709056 <= a * b <= 1073741824) by nia. assert (-1073709056 <= c * d <= 1073741824) by nia. lia. }
    rewrite F. cbn [mbind option_bind]. eexists. split; [done|]. by apply convert_represents.
  - destruct Hw as [Hw| ->]; [lia|]. unfold arith in *. rewrite E in *. simpl result in *. injection Hp as <-. injection Hq as <-. cbn [mbind option_bind].
    eexists. split; [done|]. change ((?x) mod 2 ^ w) with (convert (Int w false) x).
    eapply (represents_congruent w false); [by apply convert_represents|].
    pose proof (represents_divides w false _ _ (convert_represents (Int w false) (a * b) Ht)) as D1.
    pose proof (represents_divides w false _ _ (convert_represents (Int w false) (c * d) Ht)) as D2.
    pose proof (represents_divides w false _ _ (convert_represents (Int w false) (convert (Int w false) (a * b) - convert (Int w false) (c * d)) Ht)) as D3.
    match goal with |- (_ | ?x - _) => replace (x - (a * b - c * d)) with
      ((x - (convert (Int w false) (a * b) - convert (Int w false) (c * d))) + ((convert (Int w false) (a * b) - a * b) - (convert (Int w false) (c * d) - c * d))) by lia end.
    apply Z.divide_add_r; [exact D3|by apply Z.divide_sub_r].
Qed.
Theorem int_cross_wraps_partial : ∀ t a b c d e f, standard t → wraps t Mul → Forall (member t) [a; b; c] → Forall (member t) [d; e; f] →
  ∃ x y z, int_cross t [a; b; c] [d; e; f] = Some [x; y; z] ∧
  represents t x (b * f - c * e) ∧ represents t y (c * d - a * f) ∧ represents t z (a * e - b * d).
Proof.
  intros t a b c d e f Ht Hw Hv Hu. inversion Hv as [|? ? Ha Hv1]; inversion Hv1 as [|? ? Hb Hv2]; inversion Hv2 as [|? ? Hc _]; subst.
  inversion Hu as [|? ? Hd Hu1]; inversion Hu1 as [|? ? He Hu2]; inversion Hu2 as [|? ? Hf _]; subst.
  destruct (det_wraps t b f c e) as (x & Ex & Rx); [done..|]. destruct (det_wraps t c d a f) as (y & Ey & Ry); [done..|].
  destruct (det_wraps t a e b d) as (z & Ez & Rz); [done..|]. exists x, y, z. unfold int_cross. rewrite Ex. cbn [mbind option_bind]. rewrite Ey. cbn [mbind option_bind]. rewrite Ez. done.
Qed.
Lemma det_signed w a b c d r : standard (Int w true) → 32 <= w →
  int_det (Int w true) a b c d = Some r ↔ r = a * b - c * d ∧ member (Int w true) (a * b) ∧ member (Int w true) (c * d) ∧ member (Int w true) r.
Proof.
  intros Ht Hw. unfold int_det. split.
  - intros H. destruct (arith _ Mul a b) as [p|] eqn:Ep; [|done]. apply signed_arith in Ep as [-> Hp]; [|done..].
    cbn [mbind option_bind] in H. destruct (arith _ Mul c d) as [q|] eqn:Eq; [|done]. apply signed_arith in Eq as [-> Hq]; [|done..].
    cbn [mbind option_bind] in H. destruct (arith _ Sub _ _) as [s|] eqn:Es; [|done]. apply signed_arith in Es as [-> Hs]; [|done..].
    cbn [mbind option_bind] in H. rewrite convert_member in H by done. injection H as <-. done.
  - intros (-> & Hp & Hq & Hs).
    assert (E1 : arith (Int w true) Mul a b = Some (a * b)) by (by apply signed_arith).
    assert (E2 : arith (Int w true) Mul c d = Some (c * d)) by (by apply signed_arith).
    assert (E3 : arith (Int w true) Sub (a * b) (c * d) = Some (a * b - c * d)) by (by apply signed_arith).
    rewrite E1. cbn [mbind option_bind]. rewrite E2. cbn [mbind option_bind]. rewrite E3. cbn [mbind option_bind]. by rewrite convert_member.
Qed.
Theorem int_cross_signed : ∀ w a b c d e f r, standard (Int w true) → 32 <= w →
  int_cross (Int w true) [a; b; c] [d; e; f] = Some r ↔ r = [b * f - c * e; c * d - a * f; a * e - b * d] ∧
  Forall (member (Int w true)) [b * f; c * e; c * d; a * f; a * e; b * d] ∧ Forall (member (Int w true)) r.
Proof.
  intros w a b c d e f r Ht Hw. unfold int_cross. split.
  - intros H. destruct (int_det _ b f c e) as [x|] eqn:Ex; [|done]. apply det_signed in Ex as (-> & ? & ? & ?); [|done..].
    cbn [mbind option_bind] in H. destruct (int_det _ c d a f) as [y|] eqn:Ey; [|done]. apply det_signed in Ey as (-> & ? & ? & ?); [|done..].
    cbn [mbind option_bind] in H. destruct (int_det _ a e b d) as [z|] eqn:Ez; [|done]. apply det_signed in Ez as (-> & ? & ? & ?); [|done..].
    injection H as <-. split; [done|]. split; repeat (constructor; try done).
  - intros (-> & H1 & H2). rewrite !Forall_cons in H1. rewrite !Forall_cons in H2. destruct H1 as (? & ? & ? & ? & ? & ? & _), H2 as (? & ? & ? & _).
    assert (E1 : int_det (Int w true) b f c e = Some (b * f - c * e)) by (by apply det_signed).
    assert (E2 : int_det (Int w true) c d a f = Some (c * d - a * f)) by (by apply det_signed).
    assert (E3 : int_det (Int w true) a e b d = Some (a * e - b * d)) by (by apply det_signed).
    rewrite E1. cbn [mbind option_bind]. rewrite E2. cbn [mbind option_bind]. by rewrite E3.
Qed.
(** A vector is parallel to itself in every type. *)
Theorem int_cross_self : ∀ t a b c r, standard t → int_cross t [a; b; c] [a; b; c] = Some r → r = [0; 0; 0].
Proof.
  intros t a b c r Ht H.
  assert (Z : ∀ x y z, int_det t x y y x = Some z → z = 0).
  { intros x y z. unfold int_det, arith. rewrite (Z.mul_comm y x). destruct (result _ _) as [p|]; [|done]. cbn [mbind option_bind]. rewrite Z.sub_diag.
    destruct (result _ 0) as [q|] eqn:E; [|done]. cbn [mbind option_bind]. intros [= <-]. 
    eapply represents_unique; [done|by eapply result_represents|]. apply member_represents. destruct t as [|n [|]]; simpl; [lia| |]; [destruct (half_pow n true Ht)|destruct (half_pow n false Ht)]; lia. }
  unfold int_cross in H. destruct (int_det t b c c b) as [x|] eqn:Ex; [|done]. cbn [mbind option_bind] in H.
  destruct (int_det t c a a c) as [y|] eqn:Ey; [|done]. cbn [mbind option_bind] in H. destruct (int_det t a b b a) as [z|] eqn:Ez; [|done]. cbn [mbind option_bind] in H.
  injection H as <-. by rewrite (Z _ _ _ Ex), (Z _ _ _ Ey), (Z _ _ _ Ez).
Qed.
(** Reflection at the plane with normal n *)
Theorem int_reflect_wraps_partial : ∀ w s v n, standard (Int w s) → wraps (Int w s) Mul → Forall (member (Int w s)) v → Forall (member (Int w s)) n →
  length v = length n →
  ∃ r, int_reflect (Int w s) v n = Some r ∧ Forall3 (λ z x y, represents (Int w s) z (x - 2 * sum_products v n * y)) r v n.
Proof.
  intros w s v n Ht Hw Hv Hn L. destruct (int_dot_wraps_partial (Int w s) v n) as (d & Ed & Rd); [done..|].
  assert (Hsub : wraps (Int w s) Sub) by (destruct Hw as (_ & ? & _); done).
  destruct (int_op_scalar_wraps_partial (Int w s) Mul n d) as (a & d' & Ea & Rd' & Ra); [done..|].
  assert (Ha : Forall (member (Int w s)) a). { clear -Ra. induction Ra; constructor; [by eapply represents_member|done]. }
  destruct (int_op_scalar_wraps_partial (Int w s) Mul a (convert (Int w s) 2)) as (b & c & Eb & Rc & Rb); [done..|].
  assert (Hb : Forall (member (Int w s)) b). { clear -Rb. induction Rb; constructor; [by eapply represents_member|done]. }
  assert (La : length a = length n) by (by eapply Forall2_length). assert (Lb : length b = length a) by (by eapply Forall2_length).
  destruct (int_op_wraps_partial (Int w s) Sub v b) as (r & Er & Rr); [done..|congruence|].
  exists r. unfold int_reflect. rewrite Ed. cbn [mbind option_bind]. rewrite Ea. cbn [mbind option_bind]. rewrite Eb. cbn [mbind option_bind]. split; [done|].
  assert (D : (2 ^ w | c * d' - 2 * sum_products v n)).
  { apply represents_divides in Rd, Rd', Rc. pose proof (represents_divides w s _ _ (convert_represents (Int w s) 2 Ht)) as R2.
    destruct Rd as [k1 H1], Rd' as [k2 H2], Rc as [k3 H3], R2 as [k4 H4].
    replace d' with (sum_products v n + k1 * 2 ^ w + k2 * 2 ^ w) by lia. replace c with (2 + k4 * 2 ^ w + k3 * 2 ^ w) by lia.
    exists (2 * (k1 + k2) + (k3 + k4) * (sum_products v n + k1 * 2 ^ w + k2 * 2 ^ w)). ring. }
  revert D. generalize (sum_products v n). intros S D. clear -D Ht Ra Rb Rr.
  revert n a Ra Rb. induction Rr as [|z x y r v b (y' & Ry & Rz) Rr IH]; intros n a Ra Rb.
  - inversion Rb; subst. inversion Ra; subst. constructor.
  - inversion Rb as [|? ay ? a' Hay Rb']; subst. inversion Ra as [|? ny ? n' Hny Ra']; subst. constructor; [|by eapply IH].
    eapply represents_congruent; [exact Rz|]. simpl exact in *. apply represents_divides in Ry, Hay, Hny.
    destruct Ry as [k1 H1], Hay as [k2 H2], Hny as [k3 H3], D as [k4 H4].
    replace (x - y' - (x - 2 * S * ny)) with (2 * S * ny - y') by lia. replace (2 * S) with (c * d' - k4 * 2 ^ w) by lia.
    replace y' with (k1 * 2 ^ w + k2 * 2 ^ w + (k3 * 2 ^ w + ny * d') * c) by nia. exists (- k4 * ny - k1 - k2 - k3 * c). ring.
Qed.
(** For bool the factor 2 becomes true: the components of n are switched if v and n have a
    component in common. *)
Theorem int_reflect_bool : ∀ v n, Forall (member Bool) v → Forall (member Bool) n → length v = length n →
  ∃ r, int_reflect Bool v n = Some r ∧
    Forall3 (λ z x y, member Bool z ∧ (z = 1 ↔ ¬ (x = 1 ↔ sum_products v n ≠ 0 ∧ y = 1))) r v n.
Proof.
  intros v n Hv Hn L. assert (W : ∀ op, op ≠ Div → wraps Bool op) by (intros; split_and!; done).
  destruct (int_dot_wraps_partial Bool v n) as (d & Ed & Rd); [done|by apply W|done..|].
  destruct (int_op_scalar_wraps_partial Bool Mul n d) as (a & d' & Ea & Rd' & Ra); [done|by apply W|done..|].
  assert (Ha : Forall (member Bool) a). { clear -Ra. induction Ra; constructor; [by eapply represents_member|done]. }
  destruct (int_op_scalar_wraps_partial Bool Mul a (convert Bool 2)) as (b & c & Eb & Rc & Rb); [done|by apply W|done..|].
  assert (Hb : Forall (member Bool) b). { clear -Rb. induction Rb; constructor; [by eapply represents_member|done]. }
  assert (La : length a = length n) by (by eapply Forall2_length). assert (Lb : length b = length a) by (by eapply Forall2_length).
  destruct (int_op_wraps_partial Bool Sub v b) as (r & Er & Rr); [done|by apply W|done..|congruence|].
  exists r. unfold int_reflect. rewrite Ed. cbn [mbind option_bind]. rewrite Ea. cbn [mbind option_bind]. rewrite Eb. cbn [mbind option_bind]. split; [done|].
  generalize dependent (sum_products v n). intros S Rd. clear -Rd Rd' Rc Ra Rb Rr Hv Hn.
  revert n a Ra Rb Hn. induction Rr as [|z x y r v b (y' & Ry & Rz) Rr IH]; intros n a Ra Rb Hn.
  - inversion Rb; subst. inversion Ra; subst. constructor.
  - inversion Rb as [|? ay ? a' Hay Rb']; subst. inversion Ra as [|? ny ? n' Hny Ra']; subst.
    inversion Hv as [|? ? Hx Hv']; subst. inversion Hn as [|? ? Hy Hn']; subst. constructor; [|by eapply IH].
    simpl in *. clear IH Ra Rb Ra' Rb' Rr Hv Hn. destruct Hx as [->| ->], Hy as [->| ->]; lia.
Qed.
(** So it is no reflection even where that is a bool: x - 2 is not 0. *)
Theorem int_reflect_bool_refuted : ∃ v n r, int_reflect Bool v n = Some r ∧
  ¬ Forall3 (λ z x y, represents Bool z (x - 2 * sum_products v n * y)) r v n.
Proof.
  exists [1], [1], [0]. split; [by vm_compute|]. intros H. inversion H as [|? ? ? ? ? ? H1]; subst. simpl in H1. lia.
Qed.
Theorem int_reflect_signed : ∀ w v n r, standard (Int w true) → 32 <= w → length v = length n → int_reflect (Int w true) v n = Some r →
  Forall3 (λ z x y, z = x - 2 * sum_products v n * y) r v n.
Proof.
  intros w v n r Ht Hw L H. unfold int_reflect in H. destruct (int_dot _ v n) as [d|] eqn:Ed; [|done]. cbn [mbind option_bind] in H.
  assert (Hd : member (Int w true) d).
  { pose proof Ed as F. apply int_dot_signed in F as (-> & _ & F); [|done..]. specialize (F (length v) ltac:(lia)). rewrite L in F at 2. by rewrite !firstn_all in F. }
  apply int_dot_signed in Ed as (-> & _ & _); [|done..].
  destruct (int_op_s _ Mul n _) as [a|] eqn:Ea; [|done]. cbn [mbind option_bind] in H. apply int_op_scalar_signed in Ea; [|done..].
  assert (H2 : member (Int w true) 2) by (destruct (half_pow w true Ht); simpl; lia). rewrite (convert_member _ 2 Ht H2) in H.
  destruct (int_op_s _ Mul a 2) as [b|] eqn:Eb; [|done]. cbn [mbind option_bind] in H. apply int_op_scalar_signed in Eb; [|done..].
  assert (La : length a = length n) by (by eapply Forall2_length). assert (Lb : length b = length a) by (by eapply Forall2_length).
  assert (Hb : Forall (member (Int w true)) b). { clear -Eb. induction Eb as [|? ? ? ? (? & ? & ?)]; constructor; done. }
  apply int_op_signed in H; [|done..|congruence]. revert Ea Eb H. generalize (sum_products v n). intros S Ea Eb H. clear -Ea Eb H.
  revert n a Ea Eb. induction H as [|z x y r v b (-> & _) H IH]; intros n a Ea Eb.
  - inversion Eb; subst. inversion Ea; subst. constructor.
  - inversion Eb as [|? ay ? a' (-> & _) Eb']; subst. inversion Ea as [|? ny ? n' (-> & _) Ea']; subst. constructor; [|by eapply IH]. simpl. lia.
Qed.
(** faceforward leaves v as it is exactly if the dot product of n and i is negative;
    with unsigned types it never is. *)
Theorem int_faceforward_signed : ∀ w v i n, standard (Int w true) → 32 <= w → length n = length i → is_Some (int_dot (Int w true) n i) →
  int_faceforward (Int w true) v i n = if decide (sum_products n i < 0) then Some v else int_neg (Int w true) v.
Proof.
  intros w v i n Ht Hw L [d Hd]. unfold int_faceforward. rewrite Hd. cbn [mbind option_bind]. apply int_dot_signed in Hd as (-> & _); [|done..].
  destruct (Z.ltb_spec (sum_products n i) 0); case_decide; try done; lia.
Qed.
Theorem int_faceforward_unsigned : ∀ t v i n, standard t → (∀ w, t ≠ Int w true) → wraps t Mul → length n = length i →
  Forall (member t) n → Forall (member t) i → int_faceforward t v i n = int_neg t v.
Proof.
  intros t v i n Ht Hu Hw L Hn Hi. destruct (int_dot_wraps_partial t n i) as (d & Ed & Rd); [done..|]. unfold int_faceforward. rewrite Ed. cbn [mbind option_bind].
  destruct (Z.ltb_spec d 0); [|done]. apply represents_member in Rd. destruct t as [|w [|]]; simpl in Rd; [lia|by destruct (Hu w)|lia].
Qed.
Theorem int_sign_values : ∀ w v, standard (Int w true) → int_sign (Int w true) v = Some (map Z.sgn v).
Proof.
  intros w v Ht. unfold int_sign, vsign. apply for_fill_read; [by rewrite map_length|]. intros i x r Hi Lr Hx.
  rewrite list_lookup_fmap in Hx. destruct (v !! i) as [y|] eqn:E; [|done]. simpl in Hx. injection Hx as <-.
  rewrite (index_lookup v i y E). cbn [mbind option_bind]. f_equal. f_equal. unfold VecModel.sign. simpl n0. rewrite convert_member; [|done|].
  - destruct (Z.ltb_spec 0 y), (Z.ltb_spec y 0); simpl; lia.
  - destruct (half_pow w true Ht). simpl. destruct (Z.ltb_spec 0 y), (Z.ltb_spec y 0); simpl; lia.
Qed.

(** * Length *)
Notation dexp := (FLT_exp (-1074) 53).
Lemma dexp_eq : SpecFloat.fexp 53 1024 = dexp.
Proof. reflexivity. Qed.
Lemma double_format (m e : Z) : Z.abs m < 2 ^ 53 → -1074 <= e → generic_format radix2 dexp (F2R (Float radix2 m e)).
Proof. intros Hm He. apply generic_format_FLT. by apply (FLT_spec radix2 (-1074) 53 _ (Float radix2 m e)). Qed.
Lemma integer_format (m : Z) : Z.abs m < 2 ^ 53 → generic_format radix2 dexp (IZR m).
Proof. intros Hm. replace (IZR m) with (F2R (Float radix2 m 0)) by (unfold F2R; simpl; lra). by apply double_format. Qed.
Lemma float64_integer z : 0 <= z < 2 ^ 53 → B2R (float64 z 0) = IZR z ∧ is_finite (float64 z 0) = true ∧ Bsign (float64 z 0) = false.
Proof.
  intros Hz. unfold float64. pose proof (binary_normalize_correct 53 1024 _ _ mode_NE z 0 false) as H. cbv zeta in H.
  replace (F2R (Float radix2 z 0)) with (IZR z) in H by (unfold F2R; simpl; lra). rewrite dexp_eq in H.
  rewrite round_generic in H; [|apply valid_rnd_round_mode|apply integer_format; lia].
  rewrite Rlt_bool_true in H.
  - destruct H as (H1 & H2 & H3). split; [done|]. split; [done|]. rewrite H3. destruct (Rcompare_spec (IZR z) 0) as [L|L|L]; [|done|done].
    apply lt_IZR in L. lia.
  - rewrite Rabs_pos_eq by (apply IZR_le; lia). apply Rlt_le_trans with (IZR (2 ^ 53)); [apply IZR_lt; lia|].
    change (IZR (2 ^ 53)) with (bpow radix2 53). apply bpow_le. lia.
Qed.
Lemma double_sqrt_spec z : 0 <= z < 2 ^ 53 →
  B2R (double_sqrt z) = round radix2 dexp ZnearestE (sqrt (IZR z)) ∧ is_finite (double_sqrt z) = true.
Proof.
  intros Hz. destruct (float64_integer z Hz) as (H1 & H2 & H3). unfold double_sqrt.
  destruct (Bsqrt_correct 53 1024 _ _ mode_NE (float64 z 0)) as (E1 & E2 & _). rewrite H1 in E1. split; [exact E1|]. rewrite E2.
  destruct (float64 z 0) as [s|s| |s m e He]; try done. simpl in H3. by subst.
Qed.
Lemma sqrt_root z : 0 <= z → (IZR (Z.sqrt z) <= sqrt (IZR z))%R.
Proof.
  intros Hz. rewrite <- (sqrt_square (IZR (Z.sqrt z))) by (apply IZR_le, Z.sqrt_nonneg). apply sqrt_le_1_alt.
  rewrite <- mult_IZR. apply IZR_le. by apply Z.sqrt_spec.
Qed.
Lemma trunc_sqrt z : 0 <= z < 2 ^ 52 → Btrunc (double_sqrt z) = Z.sqrt z.
Proof.
  intros Hz. destruct (double_sqrt_spec z ltac:(lia)) as [E _]. pose proof (Z.sqrt_spec z ltac:(lia)) as S. pose proof (Z.sqrt_nonneg z) as Hk. set (k := Z.sqrt z) in *. cbv zeta in S.
  assert (Hk2 : k < 2 ^ 26). { apply Z.lt_nge. intros C. assert (2 ^ 26 * 2 ^ 26 <= k * k) by (apply Z.mul_le_mono_nonneg; lia). lia. }
  apply eq_IZR. rewrite Btrunc_correct by done. rewrite E.
  assert (L : (IZR k <= round radix2 dexp ZnearestE (sqrt (IZR z)))%R).
  { apply round_ge_generic; [apply FLT_exp_valid; reflexivity|apply valid_rnd_N|apply integer_format; lia|]. apply sqrt_root. lia. }
  assert (U : (round radix2 dexp ZnearestE (sqrt (IZR z)) < IZR (k + 1))%R).
  { set (p := F2R (Float radix2 ((k + 1) * 2 ^ 27 - 1) (-27))).
    assert (Ep : p = (IZR (k + 1) - / 134217728)%R).
    { unfold p, F2R. simpl Fnum. simpl Fexp. rewrite minus_IZR, mult_IZR. change (IZR (2 ^ 27)) with 134217728%R.
      change (bpow radix2 (-27)) with (/ IZR (2 ^ 27))%R. change (IZR (2 ^ 27)) with 134217728%R. field. }
    apply Rle_lt_trans with p; [|rewrite Ep; lra].
    apply round_le_generic; [apply FLT_exp_valid; reflexivity|apply valid_rnd_N|apply double_format; lia|].
    assert (K : (1 <= IZR (k + 1) <= 67108864)%R) by (split; [apply (IZR_le 1)|apply (IZR_le _ 67108864)]; lia).
    rewrite <- (sqrt_square p) by (rewrite Ep; lra). apply sqrt_le_1_alt.
    assert (Z1 : (IZR z <= IZR (k + 1) * IZR (k + 1) - 1)%R). { rewrite <- mult_IZR, <- minus_IZR. apply IZR_le. lia. }
    rewrite Ep. replace ((IZR (k + 1) - / 134217728) * (IZR (k + 1) - / 134217728))%R
      with (IZR (k + 1) * IZR (k + 1) - 2 * (IZR (k + 1) * / 134217728) + / 134217728 * / 134217728)%R by ring. lra. }
  revert L U. generalize (round radix2 dexp ZnearestE (sqrt (IZR z))). intros r L U.
  unfold round, F2R, scaled_mantissa, cexp, FIX_exp. simpl. rewrite !Rmult_1_r. f_equal.
  rewrite Ztrunc_floor by (apply Rle_trans with (2 := L); by apply IZR_le). by apply Zfloor_imp.
Qed.
Definition sum_squares (v : list Z) : Z := foldr (λ x s, x * x + s) 0 v.
Lemma high_promote t : standard t → t ≠ Bool → high t <= high (promote t) ∧ low (promote t) <= 0 ∧ 0 <= high t.
Proof. intros Ht Hn. destruct t as [|w s]; [done|]. simpl in Ht. destruct Ht as [-> | [-> | [-> | ->]]]; destruct s; vm_compute; repeat split; congruence. Qed.
Lemma result_fits p z : standard p → p ≠ Bool → low p <= 0 → 0 <= z <= high p → result p z = Some z.
Proof.
  intros Hp Hn Hl Hz. destruct p as [|w [|]]; [done| |]; unfold result.
  - apply Z.leb_le in Hl. destruct (Z.leb_spec (low (Int w true)) z); [|simpl in *; lia]. destruct (Z.leb_spec z (high (Int w true))); [done|lia].
  - f_equal. apply convert_member; [done|]. simpl in *. lia.
Qed.
Lemma promote_standard t : standard t → standard (promote t) ∧ promote t ≠ Bool ∧ low (promote t) <= 0.
Proof.
  intros Ht. destruct t as [|w s]; simpl; [split; [lia|]; split; [done|vm_compute; congruence]|].
  simpl in Ht. destruct Ht as [-> | [-> | [-> | ->]]]; destruct s; vm_compute; repeat split; try congruence; tauto.
Qed.
Lemma arith_fits t op x y : standard t → op ≠ Div → 0 <= exact op x y <= high (promote t) → arith t op x y = Some (exact op x y).
Proof. intros Ht Hd H. destruct (promote_standard t Ht) as (H1 & H2 & H3). unfold arith. destruct op; [..|done]; by apply result_fits. Qed.
Lemma truncated_root t s : standard t → t ≠ Bool → 0 <= s < 2 ^ 52 →
  truncated t (double_sqrt s) = if decide (Z.sqrt s <= high t) then Some (Z.sqrt s) else None.
Proof.
  intros Ht Hn Hs. destruct (double_sqrt_spec s ltac:(lia)) as [_ Hf]. unfold truncated. rewrite Hf, trunc_sqrt by done.
  destruct t as [|w b]; [done|]. assert (H : low (Int w b) <= Z.sqrt s).
  { pose proof (Z.sqrt_nonneg s). destruct b; simpl; [|lia]. destruct (half_pow w true Ht). lia. }
  apply Z.leb_le in H. rewrite H. cbn [andb]. case_decide as D; [apply Z.leb_le in D|apply Z.nle_gt, Z.leb_gt in D]; by rewrite D.
Qed.
(** The exact length rounded down, if the sum of the squares is a value of the promoted
    type below 2^52 and the length one of the type *)
Theorem int_length2_partial : ∀ t x y, standard t → t ≠ Bool → sum_squares [x; y] <= high (promote t) → sum_squares [x; y] < 2 ^ 52 →
  int_length2 t x y = if decide (Z.sqrt (sum_squares [x; y]) <= high t) then Some (Z.sqrt (sum_squares [x; y])) else None.
Proof.
  intros t x y Ht Hn H1 H2. unfold sum_squares in *. simpl in H1, H2 |- *. rewrite Z.add_0_r in *. unfold int_length2.
  rewrite (arith_fits t Mul x x), (arith_fits t Mul y y) by (simpl; done || nia). cbn [mbind option_bind exact].
  rewrite (arith_fits t Add) by (simpl; done || nia). cbn [mbind option_bind exact]. apply truncated_root; [done..|nia].
Qed.
Theorem int_length3_partial : ∀ t x y z, standard t → t ≠ Bool → sum_squares [x; y; z] <= high (promote t) → sum_squares [x; y; z] < 2 ^ 52 →
  int_length3 t x y z = if decide (Z.sqrt (sum_squares [x; y; z]) <= high t) then Some (Z.sqrt (sum_squares [x; y; z])) else None.
Proof.
  intros t x y z Ht Hn H1 H2. unfold sum_squares in *. simpl in H1, H2 |- *. rewrite Z.add_0_r in *. rewrite Z.add_assoc in *. unfold int_length3.
  rewrite (arith_fits t Mul x x), (arith_fits t Mul y y), (arith_fits t Mul z z) by (simpl; done || nia). cbn [mbind option_bind exact].
  rewrite (arith_fits t Add (x * x)) by (simpl; done || nia). cbn [mbind option_bind exact]. rewrite (arith_fits t Add) by (simpl; done || nia).
  cbn [mbind option_bind exact]. apply truncated_root; [done..|nia].
Qed.
(** Vector<T, 4> gives a double: the exact length rounded to the nearest *)
Theorem int_length4_partial : ∀ t x y z w, standard t → sum_squares [x; y; z; w] <= high (promote t) → sum_squares [x; y; z; w] < 2 ^ 53 →
  ∃ d, int_length4 t x y z w = Some d ∧ is_finite d = true ∧
  B2R d = round radix2 (FLT_exp (-1074) 53) ZnearestE (sqrt (IZR (sum_squares [x; y; z; w]))).
Proof.
  intros t x y z w Ht H1 H2. unfold sum_squares in *. simpl in H1, H2 |- *. rewrite Z.add_0_r in *. rewrite !Z.add_assoc in *. unfold int_length4.
  rewrite (arith_fits t Mul x x), (arith_fits t Mul y y), (arith_fits t Mul z z), (arith_fits t Mul w w) by (simpl; done || nia). cbn [mbind option_bind exact].
  rewrite (arith_fits t Add (x * x)) by (simpl; done || nia). cbn [mbind option_bind exact].
  rewrite (arith_fits t Add (x * x + y * y)) by (simpl; done || nia). cbn [mbind option_bind exact]. rewrite (arith_fits t Add) by (simpl; done || nia).
  cbn [mbind option_bind exact]. eexists. split; [done|]. destruct (double_sqrt_spec (x * x + y * y + z * z + w * w)) as [E F]; [nia|]. done.
Qed.
Lemma loop_ext {S} (f g : nat → S → option S) i n s : (∀ k r, f k r = g k r) → loop i n f s = loop i n g s.
Proof. intros H. revert i s. induction n as [|n IH]; intros i s; [done|]. cbn [loop]. rewrite H. destruct (g i s); [apply IH|done]. Qed.
Lemma lengthn_list t v : int_lengthn t v = (r ← dot_list t 0 v v; truncated t (double_sqrt r)).
Proof.
  unfold int_lengthn, for_. f_equal. rewrite <- (loop_dot t 0 [] v [] v eq_refl eq_refl). apply loop_ext. intros k r. simpl app.
  destruct (index v k); done.
Qed.
Lemma dot_list_fits t acc v : standard t → t ≠ Bool → 0 <= acc → acc + sum_squares v <= high t → dot_list t acc v v = Some (acc + sum_squares v).
Proof.
  intros Ht Hn. destruct (high_promote t Ht Hn) as (H1 & H2 & H3). revert acc. induction v as [|x v IH]; intros acc Ha Hs.
  - simpl. by rewrite Z.add_0_r.
  - unfold sum_squares in *. simpl in Hs |- *. assert (P : 0 <= foldr (λ x s, x * x + s) 0 v) by (clear; induction v; simpl; nia).
    change (dot_list t acc (x :: v) (x :: v) = Some (acc + (x * x + foldr (λ x s, x * x + s) 0 v))). cbn [dot_list].
    rewrite (arith_fits t Mul x x) by (simpl; done || nia). cbn [mbind option_bind exact]. rewrite (arith_fits t Add) by (simpl; done || nia). cbn [mbind option_bind exact].
    rewrite convert_member; [|done|]. { rewrite IH by nia. f_equal. lia. }
    destruct t as [|w [|]]; [done| |]; simpl in *; nia.
Qed.
(** The other vectors sum in the type itself. *)
Theorem int_lengthn_partial : ∀ t v, standard t → t ≠ Bool → sum_squares v <= high t → sum_squares v < 2 ^ 52 →
  int_lengthn t v = Some (Z.sqrt (sum_squares v)).
Proof.
  intros t v Ht Hn H1 H2. assert (P : 0 <= sum_squares v) by (unfold sum_squares; clear; induction v; simpl; nia).
  rewrite lengthn_list, dot_list_fits by (done || lia). cbn [mbind option_bind]. rewrite Z.add_0_l, truncated_root by done.
  rewrite decide_True; [done|]. pose proof (Z.sqrt_le_lin (sum_squares v) P). lia.
Qed.
(** A nonzero vector with length zero *)
Theorem int_lengthn_refuted : ∃ v, Forall (member (Int 8 false)) v ∧ int_lengthn (Int 8 false) v = Some 0 ∧ Z.sqrt (sum_squares v) = 16.
Proof. exists [16; 0; 0; 0; 0]. split; [repeat constructor; simpl; lia|]. split; vm_compute; done. Qed.
(** A length that does not fit, and a sum that does not; a length that is rounded up *)
Theorem int_length_refuted :
  (∃ x y, member (Int 8 false) x ∧ member (Int 8 false) y ∧ int_length2 (Int 8 false) x y = None) ∧
  (∃ x y, member (Int 32 true) x ∧ member (Int 32 true) y ∧ Z.sqrt (sum_squares [x; y]) < 2 ^ 31 ∧ int_length2 (Int 32 true) x y = None) ∧
  (∃ x y z r, member (Int 64 true) x ∧ member (Int 64 true) y ∧ member (Int 64 true) z ∧
    int_length3 (Int 64 true) x y z = Some r ∧ sum_squares [x; y; z] < r * r).
Proof.
  split; [exists 255, 255; split; [simpl; lia|]; split; [simpl; lia|by vm_compute]|].
  split; [exists 65536, 1; split; [simpl; lia|]; split; [simpl; lia|]; split; by vm_compute|].
  exists 67108864, 8192, 8192, 67108865. split; [simpl; lia|]. split; [simpl; lia|]. split; [simpl; lia|]. split; by vm_compute.
Qed.
(** A vector of bool has length true if a component is. *)
Theorem int_length_bool : ∀ x y z, member Bool x → member Bool y → member Bool z →
  (∃ r, int_length2 Bool x y = Some r ∧ represents Bool r (x + y)) ∧ (∃ r, int_length3 Bool x y z = Some r ∧ represents Bool r (x + y + z)).
Proof.
  intros x y z [-> | ->] [-> | ->] [-> | ->]; split; eexists; (split; [by vm_compute|]); simpl; lia.
Qed.

(** * Examples *)
Notation u8 := (Int 8 false). Notation u32 := (Int 32 false). Notation i8 := (Int 8 true). Notation i32 := (Int 32 true).
Example int_op_wraps_partial_ex : wraps u8 Add ∧ int_op u8 Add [200; 1] [100; -1] = Some [44; 0] ∧ int_op Bool Add [1; 0] [1; 0] = Some [1; 0]
  ∧ int_op i8 Mul [-128; 3] [-128; 50] = Some [0; -106]. Proof. split; [split; [done|split; [by right|done]]|]. by vm_compute. Qed.
Example int_op_scalar_wraps_partial_ex : int_op_s u32 Sub [0; 7] 1 = Some [4294967295; 6] ∧ int_op_s u8 Mul [3; 200] 258 = Some [6; 144]. Proof. by vm_compute. Qed.
Example int_self_op_ex : int_self u8 Sub [1; 2] [2; 1] = Some [255; 1]. Proof. by vm_compute. Qed.
Example int_neg_wraps_ex : int_neg u8 [0; 1; 255] = Some [0; 255; 1] ∧ int_neg i8 [-128] = Some [-128]. Proof. by vm_compute. Qed.
Example int_op_signed_ex : int_op i32 Mul [65536; 3] [32767; -5] = Some [2147418112; -15] ∧ int_op i32 Add [2147483647] [1] = None ∧
  int_op i32 Div [-7; 7] [2; -2] = Some [-3; -3] ∧ int_op i32 Div [-2147483648] [-1] = None. Proof. by vm_compute. Qed.
Example int_op_scalar_signed_ex : int_op_s i32 Sub [-2147483648; 0] 0 = Some [-2147483648; 0] ∧ int_op_s i32 Sub [-2147483648; 0] 1 = None. Proof. by vm_compute. Qed.
Example int_div_ex : int_op u8 Div [200; 7] [3; 7] = Some [66; 1] ∧ int_op i8 Div [-128] [-1] = Some [-128] ∧ int_op u8 Div [1] [0] = None. Proof. by vm_compute. Qed.
Example int_neg_signed_ex : int_neg i32 [5; -6] = Some [-5; 6] ∧ int_neg i32 [-2147483648] = None. Proof. by vm_compute. Qed.
Example int_dot_wraps_partial_ex : int_dot u8 [200; 3] [2; 5] = Some 159 ∧ int_dot Bool [1; 1] [1; 1] = Some 1. Proof. by vm_compute. Qed.
Example int_dot_signed_ex : int_dot i32 [3; -4; 5] [6; 7; 8] = Some 30 ∧ int_dot i32 [2147483647; 1; -1] [1; 1; 1] = None. Proof. by vm_compute. Qed.
Example int_dot_symmetric_ex : int_dot u8 [9; 30] [100; 2] = Some 192 ∧ int_dot u8 [100; 2] [9; 30] = Some 192. Proof. by vm_compute. Qed.
Example int_cross_wraps_partial_ex : int_cross u8 [1; 2; 3] [4; 5; 6] = Some [253; 6; 253]. Proof. by vm_compute. Qed.
Example int_cross_signed_ex : int_cross i32 [1; 2; 3] [4; 5; 6] = Some [-3; 6; -3]. Proof. by vm_compute. Qed.
Example int_cross_self_ex : int_cross u32 [4000000000; 2; 3] [4000000000; 2; 3] = Some [0; 0; 0]. Proof. by vm_compute. Qed.
Example int_reflect_wraps_partial_ex : int_reflect i8 [100; 7] [1; 0] = Some [-100; 7]. Proof. by vm_compute. Qed.
Example int_reflect_bool_ex : Forall (member Bool) [1; 1; 0] ∧ int_reflect Bool [1; 1; 0] [0; 1; 1] = Some [1; 0; 1].
Proof. split; [|by vm_compute]. repeat constructor; lia. Qed.
Example int_reflect_signed_ex : int_reflect i32 [3; -4] [0; 1] = Some [3; 4]. Proof. by vm_compute. Qed.
Example int_faceforward_signed_ex : int_faceforward i32 [1; 2] [1; 0] [-1; 0] = Some [1; 2] ∧ int_faceforward i32 [1; 2] [1; 0] [1; 0] = Some [-1; -2]. Proof. by vm_compute. Qed.
Example int_faceforward_unsigned_ex : int_faceforward u8 [1; 2] [1; 0] [255; 0] = Some [255; 254]. Proof. by vm_compute. Qed.
Example int_sign_values_ex : int_sign i8 [-128; 0; 127] = Some [-1; 0; 1]. Proof. by vm_compute. Qed.
Example int_length2_partial_ex : int_length2 i32 3 (-4) = Some 5 ∧ int_length2 u8 255 20 = Some 255 ∧ int_length2 i8 (-128) 0 = None. Proof. by vm_compute. Qed.
Example int_length3_partial_ex : int_length3 i32 2 3 6 = Some 7 ∧ int_length3 i32 1 1 1 = Some 1. Proof. by vm_compute. Qed.
Example int_length4_partial_ex : option_map B2SF (int_length4 i32 1 1 1 1) = Some (SpecFloat.S754_finite false 4503599627370496 (-51)). Proof. by vm_compute. Qed.
Example int_lengthn_partial_ex : int_lengthn u8 [1; 2; 3; 4; 5] = Some 7. Proof. by vm_compute. Qed.
Example int_length_bool_ex : int_length3 Bool 1 1 1 = Some 1 ∧ int_length2 Bool 0 0 = Some 0. Proof. by vm_compute. Qed.

Definition int_vec_theorems := (int_op_wraps_partial, int_op_scalar_wraps_partial, int_op_wraps_refuted, int_self_op, int_neg_wraps, int_op_signed, int_op_scalar_signed, int_div,
  int_neg_signed, int_dot_wraps_partial, int_dot_signed, int_dot_symmetric, int_cross_wraps_partial, int_cross_signed, int_cross_self, int_reflect_wraps_partial, int_reflect_bool, int_reflect_bool_refuted,
  int_reflect_signed, int_faceforward_signed, int_faceforward_unsigned, int_sign_values, int_length2_partial, int_length3_partial, int_length4_partial,
  int_lengthn_partial, int_lengthn_refuted, int_length_refuted, int_length_bool).
Print Assumptions int_vec_theorems.
