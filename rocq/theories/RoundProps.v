(** The constants of constants.hpp in float, double and long double. *)
From Coq Require Import ZArith Lia List Reals Lra.
From Verif Require Import ConstModel ConstProps.
Import ListNotations.
Local Open Scope R_scope.

(** * Specification *)
(** 2^e for any integer e *)
Definition two (e : Z) : R := powerRZ 2 e.
(** The numbers with a significand of p bits, the exponent unbounded *)
Definition representable (p : Z) (v : R) : Prop := exists m e : Z, (Z.abs m < 2 ^ p)%Z /\ v = IZR m * two e.
Definition nearest (p : Z) (v x : R) : Prop :=
  representable p v /\ forall w, representable p w -> w <> v -> Rabs (v - x) < Rabs (w - x).
Definition fval (f : float) : R := IZR (significand f) * two (exponent f).

(** * Proofs *)
Lemma two_pos e : 0 < two e.
Proof. apply powerRZ_lt. lra. Qed.
Lemma two_add a b : two (a + b) = two a * two b.
Proof. apply powerRZ_add. lra. Qed.
Lemma two_IZR e : (0 <= e)%Z -> two e = IZR (2 ^ e).
Proof.
  intros He. unfold two. rewrite <- (Z2Nat.id e He) at 1. rewrite <- pow_powerRZ, (pow_IZR 2). do 2 f_equal. lia.
Qed.
(** Distinct numbers with p bits are at least a unit of the last place of either
    apart, if that one is not a power of 2. *)
Lemma representable_gap p m e w : (1 <= p)%Z -> (2 ^ (p - 1) < m < 2 ^ p)%Z -> representable p w -> w <> IZR m * two e ->
  two e <= Rabs (w - IZR m * two e).
Proof.
  intros Hp Hm (m' & e' & Hm' & ->) Hne. destruct (Z_le_gt_dec e e') as [Hle|Hgt].
  - replace e' with (e + (e' - e))%Z in * by lia. rewrite two_add, (two_IZR (e' - e)) in * by lia.
    replace (IZR m' * (two e * IZR (2 ^ (e' - e))) - IZR m * two e) with (IZR (m' * 2 ^ (e' - e) - m) * two e)
      by (rewrite minus_IZR, mult_IZR; ring).
    rewrite Rabs_mult, (Rabs_pos_eq (two e)) by apply Rlt_le, two_pos. rewrite <- (Rmult_1_l (two e)) at 1.
    apply Rmult_le_compat_r; [apply Rlt_le, two_pos|]. rewrite <- abs_IZR. apply IZR_le.
    assert (m' * 2 ^ (e' - e) - m <> 0)%Z; [|lia]. intros E. apply Hne.
    replace m with (m' * 2 ^ (e' - e))%Z by lia. rewrite mult_IZR. ring.
  - assert (H : IZR m' * two e' <= IZR (m - 1) * two e); [|].
    + replace e with (e' + (1 + (e - e' - 1)))%Z by lia. rewrite !two_add. rewrite (two_IZR 1), (two_IZR (e - e' - 1)) by lia.
      rewrite (Rmult_comm (two e')), <- Rmult_assoc. apply Rmult_le_compat_r; [apply Rlt_le, two_pos|].
      rewrite <- !mult_IZR. apply IZR_le. assert (1 <= 2 ^ (e - e' - 1))%Z by (apply Z.lt_pred_le, Z.pow_pos_nonneg; lia).
      assert (2 ^ p = 2 * 2 ^ (p - 1))%Z by (rewrite <- Z.pow_succ_r by lia; f_equal; lia). nia.
    + rewrite minus_IZR in H. rewrite Rabs_minus_sym. eapply Rle_trans; [|apply Rle_abs]. lra.
Qed.
(** The unit of the last place is more than twice the error. *)
Definition rounding_ok (p : Z) (f : float) (d : dec) : bool :=
  let m := significand f in let e := exponent f in let t := (10 ^ scale d)%Z in
  (2 ^ (p - 1) <? m)%Z && (m <? 2 ^ p)%Z && (0 <=? scale d)%Z && (e <=? 0)%Z &&
  (* 2 |m 2^e - mantissa / t| + 2 / t < 2^e *)
  (2 * Z.abs (m * t - mantissa d * 2 ^ (- e)) + 2 * 2 ^ (- e) <? t)%Z.
Lemma rounding_ok_nearest p f d x : (1 <= p)%Z -> rounding_ok p f d = true -> correct d x -> nearest p (fval f) x.
Proof.
  unfold rounding_ok. rewrite !Bool.andb_true_iff, !Z.ltb_lt, !Z.leb_le. intros Hp ((((Hm1 & Hm2) & Hs) & He) & Hr) Hx.
  destruct f as [m e]. unfold fval. cbn [significand exponent] in *. set (t := (10 ^ scale d)%Z) in *.
  assert (Ht : (0 < t)%Z) by (apply Z.pow_pos_nonneg; lia). pose proof (IZR_lt _ _ Ht) as Ht'.
  assert (Et : 10 ^ Z.to_nat (scale d) = IZR t) by (rewrite (pow_IZR 10); unfold t; do 2 f_equal; lia).
  assert (Eu : two e = / IZR (2 ^ (- e))).
  { rewrite <- two_IZR by lia. unfold two. rewrite <- powerRZ_neg' . f_equal. lia. }
  set (u := (2 ^ (- e))%Z) in *. assert (Hu : (0 < u)%Z) by (apply Z.pow_pos_nonneg; lia). pose proof (IZR_lt _ _ Hu) as Hu'.
  assert (Herr : 2 * Rabs (IZR m * two e - x) < two e).
  { unfold correct, val in Hx. rewrite Et in Hx. rewrite Eu.
    assert (A : Rabs (IZR m * / IZR u - IZR (mantissa d) / IZR t) * (IZR u * IZR t) = IZR (Z.abs (m * t - mantissa d * u))).
    { rewrite abs_IZR, <- (Rabs_pos_eq (IZR u * IZR t)) by (apply Rmult_le_pos; lra). rewrite <- Rabs_mult. f_equal.
      rewrite minus_IZR, !mult_IZR. field. split; lra. }
    apply IZR_lt in Hr. rewrite plus_IZR, !mult_IZR in Hr. rewrite <- A in Hr.
    apply (Rmult_lt_reg_r (IZR u * IZR t)); [apply Rmult_lt_0_compat; lra|].
    replace (/ IZR u * (IZR u * IZR t)) with (IZR t) by (field; lra).
    assert (B : Rabs (IZR m * / IZR u - x) <= Rabs (IZR m * / IZR u - IZR (mantissa d) / IZR t) + Rabs (x - IZR (mantissa d) / IZR t)).
    { rewrite (Rabs_minus_sym x). replace (IZR m * / IZR u - x) with ((IZR m * / IZR u - IZR (mantissa d) / IZR t) + (IZR (mantissa d) / IZR t - x)) by ring.
      apply Rabs_triang. }
    assert (C : Rabs (x - IZR (mantissa d) / IZR t) * (IZR u * IZR t) < IZR u).
    { apply (Rmult_lt_compat_r (IZR u * IZR t)) in Hx; [|apply Rmult_lt_0_compat; lra].
      replace (/ IZR t * (IZR u * IZR t)) with (IZR u) in Hx by (field; lra). exact Hx. }
    apply (Rmult_le_compat_r (IZR u * IZR t)) in B; [|apply Rmult_le_pos; lra]. lra. }
  split; [exists m, e; split; [lia|reflexivity]|]. intros w Hw Hne.
  pose proof (representable_gap p m e w Hp (conj Hm1 Hm2) Hw Hne) as Hg.
  assert (Rabs (w - IZR m * two e) <= Rabs (w - x) + Rabs (IZR m * two e - x)); [|lra].
  rewrite (Rabs_minus_sym (IZR m * two e) x). replace (w - IZR m * two e) with ((w - x) + (x - IZR m * two e)) by ring. apply Rabs_triang.
Qed.

(** Formats: [ld] bits of long double (MSVC, x87, quadruple) and [p] bits of float,
    double and long double. *)
Definition format (ld p : Z) : Prop := (ld = 53 \/ ld = 64 \/ ld = 113)%Z /\ (p = 24 \/ p = 53 \/ p = ld)%Z.

(** A constant is the number of its type that is nearest to the number it stands for:
    the literal is rounded twice, to long double and to T, and still no other number of
    T is as near. [correct d x] is proved for all literals in ConstProps.v and
    SeriesProps.v. *)
Theorem constants_nearest : forall ld p d x, format ld p -> In d literals -> correct d x -> nearest p (fval (constant ld p d)) x.
Proof.
  intros ld p d x [Hld Hp] Hd Hx.
  assert (Hall : forallb (fun '(ld, p) => forallb (fun d => rounding_ok p (constant ld p d) d) literals)
    [(53, 24); (53, 53); (64, 24); (64, 53); (64, 64); (113, 24); (113, 53); (113, 113)]%Z = true) by (vm_compute; reflexivity).
  rewrite forallb_forall in Hall. apply rounding_ok_nearest with (d := d); [destruct Hld as [->|[->| ->]], Hp as [->|[->| ->]]; lia| |exact Hx].
  assert (Hin : In (ld, p) [(53, 24); (53, 53); (64, 24); (64, 53); (64, 64); (113, 24); (113, 53); (113, 113)]%Z).
  { destruct Hld as [->|[->| ->]], Hp as [->|[->| ->]]; cbn; intuition. }
  specialize (Hall _ Hin). cbn beta iota in Hall. rewrite forallb_forall in Hall. exact (Hall d Hd).
Qed.
(** float pi on x86: 13176795 * 2^-22 *)
Example constants_nearest_ex : format 64 24 /\ In pi_v literals /\ correct pi_v PI /\ constant 64 24 pi_v = Float 13176795 (-22) /\
  nearest 24 (fval (Float 13176795 (-22))) PI.
Proof.
  assert (H : format 64 24) by (split; auto). assert (Hin : In pi_v literals) by (cbn; tauto).
  assert (E : constant 64 24 pi_v = Float 13176795 (-22)) by (vm_compute; reflexivity).
  split; [exact H|]. split; [exact Hin|]. split; [apply constants_pi|]. split; [exact E|]. rewrite <- E.
  apply (constants_nearest 64 24); [exact H|exact Hin|apply constants_pi].
Qed.

Print Assumptions constants_nearest.
