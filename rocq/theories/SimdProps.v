(** Theorems about xme::find and xme::reverse. *)
From stdpp Require Import list.
From Coq Require Import ZArith Lia.
From Verif Require Import Base SimdModel SimdSpec SimdProofs SimdReverse.
Local Open Scope Z_scope.

Lemma le_bytes_length w z : length (le_bytes w z) = w.
Proof. revert z. induction w; simpl; auto. Qed.
Lemma le_value_bytes w z : le_value (le_bytes w z) = z mod 2 ^ (8 * Z.of_nat w).
Proof.
  revert z. induction w as [|w IH]; intros z; [by rewrite Z.mod_1_r|]. cbn [le_bytes le_value]. rewrite IH.
  replace (8 * Z.of_nat (S w)) with (8 + 8 * Z.of_nat w) by lia. rewrite Z.pow_add_r by lia.
  change (2 ^ 8) with 256. assert (0 < 2 ^ (8 * Z.of_nat w)) by (apply Z.pow_pos_nonneg; lia).
  rewrite Z.rem_mul_r by lia. lia.
Qed.
Lemma representable_inj sg w x y : (0 < w)%nat →
  representable sg w x → representable sg w y → x mod 2 ^ (8 * Z.of_nat w) = y mod 2 ^ (8 * Z.of_nat w) → x = y.
Proof.
  intros Hw Hx Hy E. unfold representable in *.
  assert (2 ^ (8 * Z.of_nat w) = 2 * 2 ^ (8 * Z.of_nat w - 1)) as E2.
  { rewrite <- Z.pow_succ_r by lia. f_equal. lia. }
  assert (0 < 2 ^ (8 * Z.of_nat w - 1)) by (apply Z.pow_pos_nonneg; lia).
  pose proof (Z.div_mod x (2 ^ (8 * Z.of_nat w)) ltac:(lia)).
  pose proof (Z.div_mod y (2 ^ (8 * Z.of_nat w)) ltac:(lia)).
  assert (- 2 ^ (8 * Z.of_nat w) < x - y < 2 ^ (8 * Z.of_nat w)) by (destruct sg; lia).
  assert (x / 2 ^ (8 * Z.of_nat w) = y / 2 ^ (8 * Z.of_nat w)) by nia. nia.
Qed.

(** operator== of an integer type, on the bytes of the two objects. *)
Definition int_eq (x y : list Z) : bool := le_value x =? le_value y.

Lemma first_match_map {A B} (f : A → B) (P : B → Prop) (Q : A → Prop) l k :
  (∀ a, a ∈ l → P (f a) ↔ Q a) → first_match P (map f l) k → first_match Q l k.
Proof.
  intros Hpq (H1 & H2 & H3). rewrite map_length in H1. split_and!; [done| |].
  - intros j a Hj Hl Hq. apply (H2 j (f a)); [done| |].
    + by rewrite list_lookup_fmap, Hl.
    + apply Hpq; [|done]. by eapply elem_of_list_lookup_2.
  - intros a Hl. apply Hpq; [by eapply elem_of_list_lookup_2|]. apply H3. by rewrite list_lookup_fmap, Hl.
Qed.
Lemma sized_map w (vals : list Z) : Forall (λ x, length x = w) (map (le_bytes w) vals).
Proof. apply Forall_map, Forall_true. intros. apply le_bytes_length. Qed.

(** C35. For integers of 1, 2, 4 and 8 bytes, signed or unsigned, in every
    SIMD configuration: find returns the position of the first element equal to
    the value, or the end. The range starts at a multiple of the vector size if
    it is at least one block long, and does not end within one vector of the top
    of the address space. The memory around the range is arbitrary, possibly
    empty, in which case a read outside the range would be a fault. *)
Theorem find_int c w sg base pre post vals v :
  size_ok w → Forall (representable sg w) vals → representable sg w v → 0 <= base →
  let i := base + Z.of_nat (length pre) in
  let e := i + Z.of_nat (length vals) * Z.of_nat w in
  let s := Mem base (pre ++ concat (map (le_bytes w) vals) ++ post) in
  e + 32 < 2 ^ 64 →
  (c ≠ NoSimd → (vsize c <= length vals * w)%nat → i mod Z.of_nat (vsize c) = 0) →
  ∃ k, find c Flat w int_eq i e (le_bytes w v) s = Ok (i + Z.of_nat k * Z.of_nat w) s ∧
       first_match (λ x, x = v) vals k.
Proof.
  intros Hsize Hvals Hv Hb i e s He Hal.
  assert (0 < w)%nat as Hw by (destruct Hsize as [E|[E|[E|E]]]; rewrite E; lia).
  assert (∀ x, x ∈ vals → int_eq (le_bytes w x) (le_bytes w v) = true ↔ x = v) as Heq.
  { intros x Hx. unfold int_eq. rewrite !le_value_bytes, Z.eqb_eq. split; [|by intros ->].
    apply (representable_inj sg); try done. by eapply Forall_forall in Hvals. }
  destruct (find_first c Flat w int_eq base pre post (map (le_bytes w) vals) (le_bytes w v)) as (k & Hf & Hk);
    try done; rewrite ?map_length.
  - apply sized_map.
  - apply le_bytes_length.
  - unfold addr_ok, overshoot. fold i e. destruct c; simpl; lia.
  - intros Hc Hn. apply Hal; [done|]. rewrite <- (block_vsize c w Hsize). nia.
  - intros Hc x Hx. apply elem_of_list_fmap in Hx as (z & -> & Hz). rewrite Heq by done.
    split; [by intros ->|]. intros E. apply (f_equal le_value) in E. rewrite !le_value_bytes in E.
    apply (representable_inj sg w); try done. by eapply Forall_forall in Hvals.
  - rewrite map_length in Hf. exists k. split; [exact Hf|].
    eapply first_match_map; [|exact Hk]. intros. by apply Heq.
Qed.
(** A 70-element int32 array at an aligned address inside a larger allocation;
    the match is in the second AVX2 block, after a decoy in front of the range. *)
Definition ex_vals : list Z := map (λ n, Z.of_nat n - 60) (seq 0 70).
Definition ex_mem (v : list Z) : mem := Mem 4080 (le_bytes 4 (-7) ++ replicate 12 0 ++ concat (map (le_bytes 4) v) ++ [1; 2]).
Example find_int_ex :
  (Forall (representable true 4) ex_vals ∧ representable true 4 (-7)) ∧ 4096 mod Z.of_nat (vsize AVX2) = 0 ∧
  match find AVX2 Flat 4 int_eq 4096 (4096 + 280) (le_bytes 4 (-7)) (ex_mem ex_vals),
        find SSE Flat 4 int_eq 4096 (4096 + 280) (le_bytes 4 (-7)) (ex_mem ex_vals),
        find NoSimd Flat 4 int_eq 4096 (4096 + 280) (le_bytes 4 99) (ex_mem ex_vals) with
  | Ok p _, Ok q _, Ok r _ => p = 4096 + 53 * 4 ∧ q = p ∧ r = 4096 + 280
  | _, _, _ => False
  end.
Proof.
  split; [|by vm_compute]. split; [|unfold representable; lia].
  apply Forall_map, Forall_forall. intros n Hn. apply elem_of_list_In, in_seq in Hn. unfold representable. simpl. lia.
Qed.

(** C36. With the C++ rule for pointer arithmetic find is defined if the
    allocation extends at least one vector beyond the range; reads stay inside
    the range in any case (find_int with nothing around the range). *)
Theorem find_slack c w sg base pre post vals v :
  size_ok w → Forall (representable sg w) vals → representable sg w v → 0 <= base →
  let i := base + Z.of_nat (length pre) in
  let e := i + Z.of_nat (length vals) * Z.of_nat w in
  let s := Mem base (pre ++ concat (map (le_bytes w) vals) ++ post) in
  (c ≠ NoSimd → (vsize c <= length post)%nat) →
  (c ≠ NoSimd → (vsize c <= length vals * w)%nat → i mod Z.of_nat (vsize c) = 0) →
  ∃ k, find c Strict w int_eq i e (le_bytes w v) s = Ok (i + Z.of_nat k * Z.of_nat w) s ∧
       first_match (λ x, x = v) vals k.
Proof.
  intros Hsize Hvals Hv Hb i e s He Hal.
  assert (0 < w)%nat as Hw by (destruct Hsize as [E|[E|[E|E]]]; rewrite E; lia).
  assert (∀ x, x ∈ vals → int_eq (le_bytes w x) (le_bytes w v) = true ↔ x = v) as Heq.
  { intros x Hx. unfold int_eq. rewrite !le_value_bytes, Z.eqb_eq. split; [|by intros ->].
    apply (representable_inj sg); try done. by eapply Forall_forall in Hvals. }
  destruct (find_first c Strict w int_eq base pre post (map (le_bytes w) vals) (le_bytes w v)) as (k & Hf & Hk);
    try done; rewrite ?map_length.
  - apply sized_map.
  - apply le_bytes_length.
  - unfold addr_ok, overshoot, m_end. fold i e. cbn [m_base m_bytes].
    rewrite !app_length, (sized_length w), map_length by apply sized_map.
    destruct c; [specialize (He ltac:(done))..|]; unfold e, i in *; simpl vsize in *; lia.
  - intros Hc Hn. apply Hal; [done|]. rewrite <- (block_vsize c w Hsize). nia.
  - intros Hc x Hx. apply elem_of_list_fmap in Hx as (z & -> & Hz). rewrite Heq by done.
    split; [by intros ->|]. intros E. apply (f_equal le_value) in E. rewrite !le_value_bytes in E.
    apply (representable_inj sg w); try done. by eapply Forall_forall in Hvals.
  - rewrite map_length in Hf. exists k. split; [exact Hf|].
    eapply first_match_map; [|exact Hk]. intros. by apply Heq.
Qed.
Example find_slack_ex :
  match find SSE Strict 2 int_eq 16 (16 + 18) (le_bytes 2 9)
    (Mem 16 (concat (map (le_bytes 2) [1; 2; 3; 4; 5; 6; 7; 8; 9]) ++ replicate 16 0)) with
  | Ok p _ => p = 32
  | _ => False
  end.
Proof. by vm_compute. Qed.

(** C36 refuted. A range that does not start at a multiple of the vector size:
    undefined behaviour (an aligned vector access), for the ints 0..7 at address 4. *)
Theorem find_unaligned_refuted : ∃ c w base vals v,
  size_ok w ∧ base mod Z.of_nat w = 0 ∧ Forall (representable true w) vals ∧
  find c Flat w int_eq base (base + Z.of_nat (length vals) * Z.of_nat w) (le_bytes w v)
    (Mem base (concat (map (le_bytes w) vals))) = UB Misaligned.
Proof.
  exists AVX2, 4%nat, 4, [0; 1; 2; 3; 4; 5; 6; 7], 3. split_and!; [right; right; by left|done| |by vm_compute].
  repeat constructor; vm_compute; done.
Qed.
(** C36 refuted. An allocation that ends where the range ends: the loop
    condition forms a pointer beyond one past the end, which C++ forbids. *)
Theorem find_past_end_refuted : ∃ c w base vals v,
  size_ok w ∧ base mod Z.of_nat (vsize c) = 0 ∧ Forall (representable true w) vals ∧
  find c Strict w int_eq base (base + Z.of_nat (length vals) * Z.of_nat w) (le_bytes w v)
    (Mem base (concat (map (le_bytes w) vals))) = UB OutOfBounds.
Proof.
  exists SSE, 4%nat, 4096, [10; 20; 30], 20. split_and!; [right; right; by left|done| |by vm_compute].
  repeat constructor; vm_compute; done.
Qed.
(** The same wrap makes find read outside the range if it ends at the top of
    the address space. *)
Theorem find_top_refuted : ∃ c w base vals v,
  size_ok w ∧ base mod Z.of_nat (vsize c) = 0 ∧ Forall (representable true w) vals ∧
  base + Z.of_nat (length vals) * Z.of_nat w < 2 ^ 64 ∧
  find c Flat w int_eq base (base + Z.of_nat (length vals) * Z.of_nat w) (le_bytes w v)
    (Mem base (concat (map (le_bytes w) vals))) = UB OutOfBounds.
Proof.
  exists AVX2, 1%nat, (2 ^ 64 - 32), [1; 2; 3; 4], 2. split_and!; [by left|done| |done|by vm_compute].
  repeat constructor; vm_compute; done.
Qed.

(** C37. find agrees with any operator== that, for the value searched, holds
    exactly for objects with the same bytes. *)
Theorem find_bitwise_partial c w eqv base pre post ls vb :
  size_ok w → Forall (λ x, length x = w) ls → length vb = w → 0 <= base →
  let i := base + Z.of_nat (length pre) in
  let e := i + Z.of_nat (length ls) * Z.of_nat w in
  let s := Mem base (pre ++ concat ls ++ post) in
  e + 32 < 2 ^ 64 →
  (c ≠ NoSimd → (vsize c <= length ls * w)%nat → i mod Z.of_nat (vsize c) = 0) →
  (c ≠ NoSimd → ∀ x, x ∈ ls → eqv x vb = true ↔ x = vb) →
  ∃ k, find c Flat w eqv i e vb s = Ok (i + Z.of_nat k * Z.of_nat w) s ∧
       first_match (λ x, eqv x vb = true) ls k.
Proof.
  intros Hsize Hsz Hv Hb i e s He Hal Heq. apply find_first; try done.
  - unfold addr_ok, overshoot. fold i e. destruct c; simpl; lia.
  - intros Hc Hn. apply Hal; [done|]. rewrite <- (block_vsize c w Hsize). nia.
Qed.

(** For float and double this covers every value except NaNs and the zeros. *)
Lemma ieee_eq_bits m e x y : is_nan m e y = false → is_zero m e y = false →
  ieee_eq m e x y = true ↔ x = y.
Proof.
  intros Hn Hz. unfold ieee_eq. rewrite Hn, Hz. rewrite andb_false_r, orb_false_r. simpl negb. rewrite andb_true_r. split.
  - intros [_ E]%andb_true_iff. by apply Z.eqb_eq.
  - intros ->. rewrite Hn, Z.eqb_refl. done.
Qed.
Theorem find_float_partial c w m e base pre post vals v :
  (w = 4%nat ∧ m = 23 ∧ e = 8) ∨ (w = 8%nat ∧ m = 52 ∧ e = 11) →
  Forall (λ x, 0 <= x < 2 ^ (8 * Z.of_nat w)) vals → 0 <= v < 2 ^ (8 * Z.of_nat w) → 0 <= base →
  is_nan m e v = false → is_zero m e v = false →
  let i := base + Z.of_nat (length pre) in
  let l := i + Z.of_nat (length vals) * Z.of_nat w in
  let s := Mem base (pre ++ concat (map (le_bytes w) vals) ++ post) in
  l + 32 < 2 ^ 64 →
  (c ≠ NoSimd → (vsize c <= length vals * w)%nat → i mod Z.of_nat (vsize c) = 0) →
  ∃ k, find c Flat w (λ x y, ieee_eq m e (le_value x) (le_value y)) i l (le_bytes w v) s =
         Ok (i + Z.of_nat k * Z.of_nat w) s ∧
       first_match (λ x, ieee_eq m e x v = true) vals k.
Proof.
  intros Hty Hvals Hv Hb Hnan Hzero i l s Hl Hal.
  assert (size_ok w) as Hsize by (unfold size_ok; naive_solver).
  assert (∀ x, 0 <= x < 2 ^ (8 * Z.of_nat w) → le_value (le_bytes w x) = x) as Hval.
  { intros x Hx. rewrite le_value_bytes. by apply Z.mod_small. }
  destruct (find_bitwise_partial c w (λ x y, ieee_eq m e (le_value x) (le_value y)) base pre post
    (map (le_bytes w) vals) (le_bytes w v)) as (k & Hf & Hk); try done; rewrite ?map_length; try done.
  - apply sized_map.
  - apply le_bytes_length.
  - intros _ x Hx. apply elem_of_list_fmap in Hx as (z & -> & Hz).
    eapply Forall_forall in Hvals; [|exact Hz]. rewrite !Hval by done. rewrite ieee_eq_bits by done.
    split; [by intros ->|]. intros E. apply (f_equal le_value) in E. by rewrite !Hval in E.
  - rewrite map_length in Hf. exists k. split; [exact Hf|].
    eapply first_match_map; [|exact Hk]. intros x Hx. simpl.
    eapply Forall_forall in Hvals; [|exact Hx]. by rewrite !Hval.
Qed.
(** 1.0f, 2.0f, NaN, -0.0f, 3.0f … : 3.0f is found behind the NaN. *)
Example find_float_partial_ex :
  is_nan 23 8 0x40400000 = false ∧ is_zero 23 8 0x40400000 = false ∧
  match find SSE Flat 4 float_eq 64 (64 + 20) (le_bytes 4 0x40400000)
    (Mem 64 (concat (map (le_bytes 4) [0x3F800000; 0x40000000; 0x7FC00000; 0x80000000; 0x40400000]))) with
  | Ok p _ => p = 80
  | _ => False
  end.
Proof. by vm_compute. Qed.

(** C37 refuted: searching +0.0f does not find -0.0f in a block … *)
Theorem find_zero_refuted : ∃ vals v k r, first_match (λ x, ieee_eq 23 8 x v = true) vals k ∧
  find SSE Flat 4 float_eq 64 (64 + Z.of_nat (length vals) * 4) (le_bytes 4 v)
    (Mem 64 (concat (map (le_bytes 4) vals))) = Ok r (Mem 64 (concat (map (le_bytes 4) vals))) ∧
  r ≠ 64 + Z.of_nat k * 4.
Proof.
  exists [0x3F800000; 0x80000000; 0x40000000; 0x40400000], 0, 1%nat, 80. split_and!; [|by vm_compute|done].
  split_and!; [simpl; lia| |by intros a [= <-]]. intros [|j] a Hj; [|lia]. by intros [= <-].
Qed.
(** … and searching a NaN finds it, although it compares unequal to itself. *)
Theorem find_nan_refuted : ∃ vals v k r, first_match (λ x, ieee_eq 52 11 x v = true) vals k ∧
  find AVX2 Flat 8 double_eq 64 (64 + Z.of_nat (length vals) * 8) (le_bytes 8 v)
    (Mem 64 (concat (map (le_bytes 8) vals))) = Ok r (Mem 64 (concat (map (le_bytes 8) vals))) ∧
  r ≠ 64 + Z.of_nat k * 8.
Proof.
  exists [1; 2; 0x7FF8000000000000; 3], 0x7FF8000000000000, 4%nat, 80. split; [|split; [by vm_compute|done]].
  split_and!; [simpl; lia| |done].
  intros [|[|[|[|j]]]] a Hj; simpl; try (by intros [= <-]).
Qed.

(* ------------------------------------------------------------------ *)

(** C38. One-byte elements: the range is reversed, the rest of memory is
    unchanged, the end is returned; in every configuration, and within the C++
    rules for pointer arithmetic. *)
Theorem reverse_bytes c pr base pre data post :
  0 <= base →
  let i := base + Z.of_nat (length pre) in
  let e := i + Z.of_nat (length data) in
  e < 2 ^ 64 →
  reverse c pr 1 i e (Mem base (pre ++ data ++ post)) = Ok e (Mem base (pre ++ rev data ++ post)).
Proof. intros Hb i e He. apply reverse_bytes_eq; [done|]. by destruct pr. Qed.
(** 70 bytes: one AVX2 block from each end and six bytes one by one. *)
Example reverse_bytes_ex : ∀ data, data = map Z.of_nat (seq 0 70) →
  reverse AVX2 Strict 1 101 171 (Mem 100 ([7] ++ data ++ [8; 9])) = Ok 171 (Mem 100 ([7] ++ rev data ++ [8; 9])) ∧
  reverse SSE Strict 1 101 171 (Mem 100 ([7] ++ data ++ [8; 9])) = Ok 171 (Mem 100 ([7] ++ rev data ++ [8; 9])).
Proof. intros ? ->. by vm_compute. Qed.

(** Reversing twice gives the original range back. *)
Theorem reverse_twice c pr base pre data post :
  0 <= base →
  let i := base + Z.of_nat (length pre) in
  let e := i + Z.of_nat (length data) in
  let s := Mem base (pre ++ data ++ post) in
  e < 2 ^ 64 →
  bind (reverse c pr 1 i e) (λ _, reverse c pr 1 i e) s = Ok e s.
Proof.
  intros Hb i e s He. unfold bind, s. unfold i, e in *. rewrite reverse_bytes by done.
  rewrite <- (rev_length data) at 1. rewrite reverse_bytes by (rewrite ?rev_length; done).
  by rewrite rev_involutive, rev_length.
Qed.

(** C38, without SIMD: elements of every size. *)
Theorem reverse_nosimd w pr base pre ls post :
  (0 < w)%nat → 0 <= base → Forall (λ x, length x = w) ls →
  let i := base + Z.of_nat (length pre) in
  let e := i + Z.of_nat (length ls) * Z.of_nat w in
  e < 2 ^ 64 →
  reverse NoSimd pr w i e (Mem base (pre ++ concat ls ++ post)) =
  Ok e (Mem base (pre ++ concat (rev ls) ++ post)).
Proof.
  intros Hw Hb Hsz i e He. unfold reverse, bind, gets.
  unfold i, e in *. rewrite reverse_scalar_spec; [done|done|done| |done|by destruct pr].
  simpl. rewrite !app_length, (sized_length w) by done. nia.
Qed.
Example reverse_nosimd_ex :
  reverse NoSimd Strict 3 0 9 (Mem 0 [1; 2; 3; 4; 5; 6; 7; 8; 9; 10]) = Ok 9 (Mem 0 [7; 8; 9; 4; 5; 6; 1; 2; 3; 10]).
Proof. by vm_compute. Qed.

(** C39. Two-byte elements: reversed if fewer than 16 (with SSE; with AVX2 it
    does not compile) or without SIMD. *)
Theorem reverse_pairs_partial c pr base pre ls post :
  c ≠ AVX2 → (c = NoSimd ∨ (length ls < 16)%nat) → 0 <= base → Forall (λ x, length x = 2%nat) ls →
  let i := base + Z.of_nat (length pre) in
  let e := i + Z.of_nat (length ls) * 2 in
  e < 2 ^ 64 →
  reverse c pr 2 i e (Mem base (pre ++ concat ls ++ post)) =
  Ok e (Mem base (pre ++ concat (rev ls) ++ post)).
Proof.
  intros Hc Hl Hb Hsz i e He. unfold e, i in *. rewrite reverse_pairs_eq by (done || by destruct pr).
  assert (skipped c (length ls) = 0%nat) as ->.
  { destruct c; [done| |done]. destruct Hl as [|Hl]; [done|]. unfold skipped.
    rewrite (Nat.div_small (length ls / 2)); [done|]. apply Nat.div_lt_upper_bound; lia. }
  by rewrite Nat.mul_0_r, Nat.sub_0_r, drop_0, take_0, !firstn_all, drop_all, app_nil_r.
Qed.
(** What happens to longer ranges: only the middle is reversed. *)
Theorem reverse_pairs_middle pr base pre ls post :
  0 <= base → Forall (λ x, length x = 2%nat) ls →
  let i := base + Z.of_nat (length pre) in
  let e := i + Z.of_nat (length ls) * 2 in
  e < 2 ^ 64 →
  let k := (length ls / 16 * 8)%nat in
  reverse SSE pr 2 i e (Mem base (pre ++ concat ls ++ post)) =
  Ok e (Mem base (pre ++ concat (take k ls ++ rev (take (length ls - 2 * k) (drop k ls)) ++
                                  drop (length ls - k) ls) ++ post)).
Proof.
  intros Hb Hsz i e He k. unfold e, i in *. rewrite reverse_pairs_eq by (done || by destruct pr).
  unfold skipped. rewrite Nat.div_div by lia. done.
Qed.
Example reverse_pairs_middle_ex : ∀ ls, ls = map (le_bytes 2) (map Z.of_nat (seq 0 18)) →
  reverse SSE Strict 2 50 86 (Mem 50 (concat ls)) =
  Ok 86 (Mem 50 (concat (map (le_bytes 2) [0; 1; 2; 3; 4; 5; 6; 7; 9; 8; 10; 11; 12; 13; 14; 15; 16; 17]))).
Proof. intros ? ->. by vm_compute. Qed.
(** C39 refuted: sixteen shorts are left as they are. *)
Theorem reverse_pairs_refuted : ∃ vals e s',
  Forall (representable true 2) vals ∧
  reverse SSE Flat 2 64 (64 + Z.of_nat (length vals) * 2) (Mem 64 (concat (map (le_bytes 2) vals))) = Ok e s' ∧
  s' = Mem 64 (concat (map (le_bytes 2) vals)) ∧ s' ≠ Mem 64 (concat (map (le_bytes 2) (rev vals))).
Proof.
  exists [1; 2; 3; 4; 5; 6; 7; 8; 9; 10; 11; 12; 13; 14; 15; 16]. eexists _, _.
  split_and!; [repeat constructor; vm_compute; done|by vm_compute|done|by vm_compute].
Qed.

Definition simd_theorems :=
  (@find_int, @find_slack, @find_unaligned_refuted, @find_past_end_refuted, @find_top_refuted,
   @find_bitwise_partial, @find_float_partial, @find_zero_refuted, @find_nan_refuted,
   @reverse_bytes, @reverse_twice, @reverse_nosimd, @reverse_pairs_partial, @reverse_pairs_middle,
   @reverse_pairs_refuted).
Print Assumptions simd_theorems.
