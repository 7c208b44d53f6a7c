(** Index arithmetic of xme::SPSCQueue. *)
From stdpp Require Import list.
From Coq Require Import ZArith Lia.
From Verif Require Import Base Client SpscModel SpscSpec.
Local Open Scope Z_scope.

(** The index after [k] advances. *)
Definition idx (cap k : nat) : Z := Z.of_nat (k mod cap)%nat.

Section arith.
Context (cap : nat) (Hcap : pow2 cap).

Lemma cap_pos : (0 < cap)%nat.
Proof. destruct Hcap as (e & He & E). assert (0 < 2 ^ e) by (apply Z.pow_pos_nonneg; lia). lia. Qed.
Lemma cap_lt : Z.of_nat cap <= 2 ^ 63.
Proof. destruct Hcap as (e & He & E). rewrite E. apply Z.pow_le_mono_r; lia. Qed.
Lemma pow64 : 2 ^ 64 = 2 * 2 ^ 63.
Proof. reflexivity. Qed.
Lemma wrap_small z : 0 <= z < 2 ^ 64 → wrap z = z.
Proof. intros. by apply Z.mod_small. Qed.
Lemma wrap_neg z : - 2 ^ 64 <= z < 0 → wrap z = z + 2 ^ 64.
Proof.
  intros. unfold wrap. rewrite <- (Z_mod_plus_full z 1). rewrite Z.mul_1_l. apply Z.mod_small. lia.
Qed.
Lemma wrap_over z : 2 ^ 64 <= z < 2 * 2 ^ 64 → wrap z = z - 2 ^ 64.
Proof.
  intros. unfold wrap. rewrite <- (Z_mod_plus_full z (-1)). replace (z + -1 * 2 ^ 64) with (z - 2 ^ 64) by lia.
  apply Z.mod_small. lia.
Qed.
Lemma idx_range k : 0 <= idx cap k < Z.of_nat cap.
Proof. unfold idx. assert (k mod cap < cap)%nat by (apply Nat.mod_upper_bound; pose proof cap_pos; lia). lia. Qed.
Lemma idx_mod k : idx cap k = Z.of_nat k mod Z.of_nat cap.
Proof. unfold idx. rewrite Nat2Z.inj_mod. done. Qed.

Lemma next_idx k : next_index (Z.of_nat cap) (idx cap k) = idx cap (S k).
Proof.
  pose proof cap_pos. pose proof cap_lt. pose proof (idx_range k). pose proof pow64.
  unfold next_index. rewrite (wrap_small (idx cap k + 1)), (wrap_small (Z.of_nat cap - 1)) by lia.
  destruct Hcap as (e & He & E). rewrite E. replace (2 ^ e - 1) with (Z.ones e) by (rewrite Z.ones_equiv; lia).
  rewrite Z.land_ones by lia. rewrite <- E, !idx_mod, Nat2Z.inj_succ, Z.add_mod_idemp_l by lia. by rewrite Z.add_1_r.
Qed.

Lemma mod_window i j : (i <= j < i + cap → i mod cap = j mod cap → i = j)%nat.
Proof.
  intros Hw E. pose proof cap_pos as Hc.
  pose proof (Nat.div_mod i cap ltac:(lia)). pose proof (Nat.div_mod j cap ltac:(lia)).
  assert (i / cap = j / cap)%nat; [|lia].
  assert (cap * (i / cap) <= cap * (j / cap) < cap * (i / cap) + cap)%nat by lia. nia.
Qed.
Lemma idx_window i j : (i <= j < i + cap)%nat → idx cap i = idx cap j → i = j.
Proof. unfold idx. intros Hw E. apply mod_window; [done|]. lia. Qed.

(** The distance between two indices less than [cap] advances apart. *)
Lemma idx_diff r w : (r <= w < r + cap)%nat →
  idx cap w - idx cap r = Z.of_nat (w - r) ∨ idx cap w - idx cap r = Z.of_nat (w - r) - Z.of_nat cap.
Proof.
  intros Hw. unfold idx. pose proof cap_pos as Hc.
  pose proof (Nat.div_mod r cap ltac:(lia)) as E1. pose proof (Nat.div_mod w cap ltac:(lia)) as E2.
  pose proof (Nat.mod_upper_bound r cap ltac:(lia)). pose proof (Nat.mod_upper_bound w cap ltac:(lia)).
  assert (w / cap = r / cap ∨ w / cap = S (r / cap))%nat as [E|E]; [|left; nia|right; nia].
  assert (r / cap <= w / cap)%nat by (apply Nat.div_le_mono; lia).
  assert (w / cap < r / cap + 2)%nat; [|lia]. apply Nat.div_lt_upper_bound; [lia|]. nia.
Qed.

Lemma read_avail_eq r w : (r <= w < r + cap)%nat →
  (if idx cap r <=? idx cap w then wrap (idx cap w - idx cap r)
   else wrap (wrap (idx cap w + Z.of_nat cap) - idx cap r)) = Z.of_nat (w - r).
Proof.
  intros Hw. pose proof (idx_range r). pose proof (idx_range w). pose proof cap_lt. pose proof pow64. pose proof (idx_diff r w Hw).
  destruct (Z.leb_spec (idx cap r) (idx cap w)).
  - rewrite wrap_small by lia. lia.
  - rewrite (wrap_small (idx cap w + Z.of_nat cap)) by lia. rewrite wrap_small by lia. lia.
Qed.
Lemma write_avail_eq r w : (r <= w < r + cap)%nat →
  (let diff := wrap (wrap (idx cap r - idx cap w) - 1) in
   if idx cap r <=? diff then wrap (diff + Z.of_nat cap) else diff) = Z.of_nat cap - 1 - Z.of_nat (w - r).
Proof.
  intros Hw. pose proof (idx_range r). pose proof (idx_range w). pose proof cap_lt. pose proof pow64. pose proof (idx_diff r w Hw).
  cbv zeta. destruct (Z.le_gt_cases (idx cap r) (idx cap w)) as [Hle|Hlt].
  - assert (E : wrap (wrap (idx cap r - idx cap w) - 1) = idx cap r - idx cap w - 1 + 2 ^ 64).
    { destruct (Z.eq_dec (idx cap r) (idx cap w)) as [Ee|Hne].
      - rewrite Ee, Z.sub_diag. rewrite (wrap_small 0) by lia. rewrite wrap_neg by lia. lia.
      - rewrite (wrap_neg (idx cap r - idx cap w)) by lia. rewrite wrap_small by lia. lia. }
    rewrite E. destruct (Z.leb_spec (idx cap r) (idx cap r - idx cap w - 1 + 2 ^ 64)); [|lia].
    rewrite wrap_over by lia. lia.
  - rewrite (wrap_small (idx cap r - idx cap w)) by lia. rewrite wrap_small by lia.
    destruct (Z.leb_spec (idx cap r) (idx cap r - idx cap w - 1)); lia.
Qed.
End arith.
