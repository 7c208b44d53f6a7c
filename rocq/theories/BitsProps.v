(** Theorems about xme::has_single_bit and xme::to_unsigned. *)
From Coq Require Import ZArith Lia Bool.
From Verif Require Import BitsModel.
Local Open Scope Z_scope.

Lemma land_pred_pow2 k : 0 <= k -> Z.land (2 ^ k - 1) (2 ^ k) = 0.
Proof.
  intros Hk. rewrite Z.land_comm. replace (2 ^ k - 1) with (Z.ones k) by (rewrite Z.ones_equiv; lia).
  rewrite Z.land_ones by lia. apply Z.mod_same. assert (0 < 2 ^ k) by (apply Z.pow_pos_nonneg; lia). lia.
Qed.
Lemma land_pred_zero n : 0 < n -> Z.land (n - 1) n = 0 -> n = 2 ^ Z.log2 n.
Proof.
  intros Hn H. pose proof (Z.log2_spec n Hn) as [Hlo Hhi].
  destruct (Z.eq_dec n (2 ^ Z.log2 n)) as [|Hne]; [assumption|exfalso].
  assert (2 ^ Z.log2 n <= n - 1 < 2 ^ Z.succ (Z.log2 n)) as Hb by lia.
  pose proof (Z.log2_nonneg n).
  assert (Z.log2 (n - 1) = Z.log2 n) as El by (apply Z.log2_unique; lia).
  assert (Z.testbit (Z.land (n - 1) n) (Z.log2 n) = true) as Ht.
  { rewrite Z.land_spec, Z.bit_log2 by lia. rewrite <- El, Z.bit_log2; [reflexivity|].
    assert (0 < 2 ^ Z.log2 n) by (apply Z.pow_pos_nonneg; lia). lia. }
  rewrite H, Z.bits_0 in Ht. discriminate.
Qed.

(** C40: has_single_bit decides powers of two, at every width. *)
Theorem has_single_bit_pow2 w n : 0 < w -> 0 <= n < 2 ^ w ->
  has_single_bit w n = true <-> exists k, 0 <= k < w /\ n = 2 ^ k.
Proof.
  intros Hw Hn. unfold has_single_bit, minus_one.
  destruct (Z.eq_dec n 0) as [->|Hnz].
  { rewrite Z.eqb_refl, andb_false_r. split; [discriminate|]. intros (k & Hk & E).
    assert (0 < 2 ^ k) by (apply Z.pow_pos_nonneg; lia). lia. }
  assert ((if w <? 32 then n - 1 else (n - 1) mod 2 ^ w) = n - 1) as ->.
  { destruct (w <? 32); [reflexivity|]. apply Z.mod_small. lia. }
  rewrite (proj2 (Z.eqb_neq n 0)) by lia. rewrite andb_true_r, Z.eqb_eq. split.
  - intros H. exists (Z.log2 n). split; [|apply land_pred_zero; lia].
    split; [apply Z.log2_nonneg|]. apply Z.log2_lt_pow2; lia.
  - intros (k & Hk & ->). apply land_pred_pow2. lia.
Qed.
Example has_single_bit_ex :
  (has_single_bit 64 (2 ^ 63), has_single_bit 64 (2 ^ 63 + 1), has_single_bit 8 0, has_single_bit 16 96,
   has_single_bit 32 1, has_single_bit 64 0, has_single_bit 64 (2 ^ 64 - 1))
  = (true, false, false, false, true, false, false).
Proof. reflexivity. Qed.

(** C40: to_unsigned returns the representative modulo [2^w] in [[0, 2^w)], so
    non-negative values are kept and negative ones are shifted by [2^w]. *)
Theorem to_unsigned_range w n : 0 < w ->
  0 <= to_unsigned w n < 2 ^ w /\ (exists q, n = q * 2 ^ w + to_unsigned w n) /\
  (0 <= n < 2 ^ w -> to_unsigned w n = n) /\
  (- 2 ^ (w - 1) <= n < 0 -> to_unsigned w n = n + 2 ^ w).
Proof.
  intros Hw. unfold to_unsigned.
  assert (0 < 2 ^ w) as Hp by (apply Z.pow_pos_nonneg; lia).
  split; [apply Z.mod_pos_bound; lia|]. split; [|split].
  - exists (n / 2 ^ w). rewrite Z.mul_comm. apply Z.div_mod. lia.
  - apply Z.mod_small.
  - intros H. assert (2 ^ w = 2 * 2 ^ (w - 1)) as E.
    { rewrite <- Z.pow_succ_r by lia. f_equal. lia. }
    rewrite <- (Z_mod_plus_full n 1). rewrite Z.mul_1_l. apply Z.mod_small. lia.
Qed.
(** No two values of a signed type are confused. *)
Theorem to_unsigned_inj w n m : 0 < w ->
  - 2 ^ (w - 1) <= n < 2 ^ (w - 1) -> - 2 ^ (w - 1) <= m < 2 ^ (w - 1) ->
  to_unsigned w n = to_unsigned w m -> n = m.
Proof.
  intros Hw Hn Hm E.
  assert (2 ^ w = 2 * 2 ^ (w - 1)) as E2 by (rewrite <- Z.pow_succ_r by lia; f_equal; lia).
  pose proof (to_unsigned_range w n Hw) as (_ & _ & Np & Nn).
  pose proof (to_unsigned_range w m Hw) as (_ & _ & Mp & Mn).
  destruct (Z_lt_le_dec n 0), (Z_lt_le_dec m 0);
    [rewrite Nn, Mn in E by lia|rewrite Nn, Mp in E by lia|rewrite Np, Mn in E by lia|rewrite Np, Mp in E by lia]; lia.
Qed.
Example to_unsigned_ex : (to_unsigned 8 (-1), to_unsigned 32 (-5), to_unsigned 64 7) = (255, 4294967291, 7).
Proof. reflexivity. Qed.

Definition bits_theorems := (@has_single_bit_pow2, @to_unsigned_range, @to_unsigned_inj).
Print Assumptions bits_theorems.
