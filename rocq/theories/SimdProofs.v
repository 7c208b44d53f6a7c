(** Lane lemmas and the proofs about find. *)
From stdpp Require Import list.
From Coq Require Import ZArith Lia.
From Verif Require Import Base SimdModel SimdSpec.
Local Open Scope Z_scope.

Global Instance simd_eq_dec : EqDecision simd.
Proof. solve_decision. Defined.

(** Position of the first [true], or the length. *)
Fixpoint fidx (l : list bool) : nat :=
  match l with
  | [] => 0
  | b :: l => if b then 0 else S (fidx l)
  end.

Lemma fidx_le l : (fidx l <= length l)%nat.
Proof. induction l as [|[] l IH]; simpl; lia. Qed.
Lemma fidx_first {A} (f : A → bool) (l : list A) : first_match (λ a, f a = true) l (fidx (map f l)).
Proof.
  induction l as [|a l IH]; simpl.
  - split_and!; [simpl; lia|intros; lia|done].
  - destruct (f a) eqn:E.
    + split_and!; [simpl; lia|intros; lia|]. intros a' [= <-]. done.
    + destruct IH as (H1 & H2 & H3). split_and!; [simpl; lia| |].
      * intros [|j] b Hj; simpl; [intros [= <-]; congruence|]. intros Hl. apply (H2 j); [lia|done].
      * intros b Hb. apply (H3 b Hb).
Qed.
Lemma fidx_app l l' : fidx (l ++ l') = (if decide (fidx l = length l) then length l + fidx l' else fidx l)%nat.
Proof.
  induction l as [|[] l IH]; simpl; [done|by case_decide|].
  rewrite IH. repeat case_decide; lia.
Qed.

Section lanes.
Context (w : nat).
Implicit Types ls : list (list Z).
Local Notation sized ls := (Forall (λ x, length x = w) ls).

Lemma sized_length ls : sized ls → length (concat ls) = (length ls * w)%nat.
Proof. induction 1 as [|a ls Ha _ IH]; simpl; [done|]. rewrite app_length. lia. Qed.
Lemma lanes_concat ls : sized ls → lanes (length ls) w (concat ls) = ls.
Proof.
  induction 1 as [|a ls Ha _ IH]; simpl; [done|]. subst w. by rewrite take_app, drop_app, IH.
Qed.
Lemma lanes_set1 n (v : list Z) : length v = w → lanes n w (set1 n v) = replicate n v.
Proof.
  intros. unfold set1. rewrite <- (replicate_length n v) at 1. apply lanes_concat.
  by apply Forall_replicate.
Qed.
Lemma zip_replicate {B C} (f : list Z → B → C) ls (v : B) :
  zip_with f ls (replicate (length ls) v) = map (λ a, f a v) ls.
Proof. induction ls; simpl; congruence. Qed.

Definition hits (v : list Z) ls : list bool := map (λ a, bool_decide (a = v)) ls.
Lemma cmpeq_hits ls v : sized ls → length v = w →
  cmpeq (length ls) w (concat ls) (set1 (length ls) v) =
  concat (map (λ b : bool, replicate w (if b then 255 else 0)) (hits v ls)).
Proof.
  intros. unfold cmpeq, hits. rewrite lanes_concat, lanes_set1, zip_replicate by done. rewrite map_map.
  f_equal. apply map_ext. intros a. case_decide; case_bool_decide; done.
Qed.
Lemma movemask_hits l :
  movemask_epi8 (concat (map (λ b : bool, replicate w (if b then 255 else 0)) l)) =
  bits_to_Z (concat (map (replicate w) l)).
Proof.
  unfold movemask_epi8. f_equal. induction l as [|b l IH]; [done|]. cbn [map concat].
  rewrite map_app, IH. f_equal. clear. destruct b; induction w as [|n IH]; simpl in *; congruence.
Qed.
Lemma movemask_p_hits l : (0 < w)%nat →
  movemask_p (length l) w (concat (map (λ b : bool, replicate w (if b then 255 else 0)) l)) =
  bits_to_Z l.
Proof.
  intros. unfold movemask_p. f_equal.
  rewrite <- (map_length (λ b : bool, replicate w (if b then 255 else 0)) l) at 1.
  rewrite lanes_concat. 2: { apply Forall_map, Forall_true. intros. apply replicate_length. }
  rewrite map_map. rewrite <- (map_id l) at 2. apply map_ext. intros b.
  rewrite last_lookup, replicate_length. rewrite lookup_replicate_2 by lia. by destruct b.
Qed.
End lanes.

Lemma bits_bound l : 0 <= bits_to_Z l < 2 ^ Z.of_nat (length l).
Proof.
  induction l as [|b l IH]; [simpl; lia|]. cbn [bits_to_Z length].
  rewrite Nat2Z.inj_succ, Z.pow_succ_r by lia. destruct b; simpl Z.b2z; lia.
Qed.
Lemma to_u_bits n l : Z.of_nat (length l) <= n → to_u n (bits_to_Z l) = bits_to_Z l.
Proof.
  intros. unfold to_u. apply Z.mod_small. pose proof (bits_bound l).
  assert (2 ^ Z.of_nat (length l) <= 2 ^ n) by (apply Z.pow_le_mono_r; lia). lia.
Qed.
Lemma odd_bits b l : Z.odd (Z.b2z b + 2 * bits_to_Z l) = b.
Proof. rewrite Z.odd_add, Z.odd_mul. by destruct b. Qed.
Lemma div2_bits b l : Z.div2 (Z.b2z b + 2 * bits_to_Z l) = bits_to_Z l.
Proof. rewrite Z.add_comm, Z.mul_comm. rewrite Z.div2_div. rewrite Z.div_add_l by lia. destruct b; simpl Z.b2z; rewrite ?(Z.div_small 1 2), ?(Z.div_small 0 2) by lia; lia. Qed.
Lemma countr_zero_0 n : countr_zero n 0 = Z.of_nat n.
Proof. induction n as [|n IH]; [done|]. cbn [countr_zero]. simpl Z.odd. cbv iota. simpl Z.div2. rewrite IH. lia. Qed.
Lemma countr_zero_bits n l : (length l <= n)%nat →
  countr_zero n (bits_to_Z l) = if decide (fidx l = length l) then Z.of_nat n else Z.of_nat (fidx l).
Proof.
  revert n. induction l as [|b l IH]; intros n Hn.
  { cbn [bits_to_Z]. rewrite countr_zero_0. case_decide; [done|]. simpl in *. lia. }
  destruct n as [|n]; [simpl in Hn; lia|]. cbn [countr_zero bits_to_Z fidx length]. rewrite odd_bits, div2_bits.
  destruct b; [by case_decide|]. rewrite IH by (simpl in Hn; lia). repeat case_decide; lia.
Qed.
Lemma bits_zero l : bits_to_Z l = 0 ↔ fidx l = length l.
Proof.
  induction l as [|b l IH]; cbn [bits_to_Z fidx length]; [done|]. pose proof (bits_bound l).
  destruct b; simpl Z.b2z; [split; [|done]; lia|]. split; intros Hx.
  - f_equal. apply IH. lia.
  - assert (bits_to_Z l = 0) by (apply IH; lia). lia.
Qed.
Lemma fidx_spread w l : (0 < w)%nat → fidx (concat (map (replicate w) l)) = (w * fidx l)%nat.
Proof.
  intros Hw. induction l as [|b l IH]; simpl; [lia|]. rewrite fidx_app, replicate_length, IH.
  destruct b.
  - destruct w; [lia|]. simpl. lia.
  - assert (fidx (replicate w false) = w) as -> by (clear; induction w; simpl; lia).
    rewrite decide_True by done. lia.
Qed.
Lemma spread_length w (l : list bool) : length (concat (map (replicate w) l)) = (w * length l)%nat.
Proof. induction l; simpl; [lia|]. rewrite app_length, replicate_length. lia. Qed.

(** [readable] elements of [w] bytes fill a register. *)
Definition vsize (c : simd) : nat := match c with AVX2 => 32 | _ => 16 end.
Definition block (c : simd) (w : nat) : nat := vsize c / w.
Definition size_ok (w : nat) : Prop := w = 1%nat ∨ w = 2%nat ∨ w = 4%nat ∨ w = 8%nat.

Lemma readable_block c w : readable c w = Z.of_nat (block c w).
Proof. unfold readable, block. rewrite Nat2Z.inj_div. by destruct c. Qed.
Lemma block_vsize c w : size_ok w → (block c w * w)%nat = vsize c.
Proof. intros [->|[->|[->| ->]]]; by destruct c. Qed.

Lemma find_simd_spec c w data vb ls s :
  c ≠ NoSimd → size_ok w → length vb = w →
  length ls = block c w → Forall (λ x, length x = w) ls →
  data mod Z.of_nat (vsize c) = 0 →
  load data (vsize c) s = Ok (concat ls) s →
  find_simd c w data vb s = Ok (Z.of_nat (fidx (hits vb ls))) s.
Proof.
  intros Hc Hw Hv Hls Hsz Hal Hload.
  assert (load_aligned (vsize c) data s = Ok (concat ls) s) as Hld.
  { unfold load_aligned. rewrite Hal. by rewrite Z.eqb_refl. }
  assert (length (hits vb ls) = block c w) as Hh by (unfold hits; by rewrite map_length).
  pose proof (cmpeq_hits w ls vb Hsz Hv) as Hcmp. rewrite Hls in Hcmp.
  pose proof (fidx_le (hits vb ls)) as Hle.
  assert (∀ n, (w * block c w <= n)%nat →
    countr_zero n (to_u (Z.of_nat n) (movemask_epi8 (cmpeq (block c w) w (concat ls) (set1 (block c w) vb))))
    = if decide (fidx (hits vb ls) = block c w) then Z.of_nat n else Z.of_nat (w * fidx (hits vb ls))) as H8.
  { intros n Hn. rewrite Hcmp, movemask_hits, to_u_bits by (rewrite spread_length, Hh; lia).
    rewrite countr_zero_bits by (rewrite spread_length, Hh; lia).
    rewrite fidx_spread, spread_length, Hh by (destruct Hw as [->|[->|[->| ->]]]; lia).
    destruct Hw as [->|[->|[->| ->]]]; repeat case_decide; lia. }
  assert (∀ n, (block c w <= n)%nat →
    let m := to_u (Z.of_nat n) (movemask_p (block c w) w (cmpeq (block c w) w (concat ls) (set1 (block c w) vb))) in
    (m =? 0) = bool_decide (fidx (hits vb ls) = block c w) ∧
    countr_zero n m = if decide (fidx (hits vb ls) = block c w) then Z.of_nat n else Z.of_nat (fidx (hits vb ls))) as Hp.
  { intros n Hn. cbv zeta. rewrite Hcmp.
    pose proof (movemask_p_hits w (hits vb ls)) as Hm. rewrite Hh in Hm.
    rewrite Hm by (destruct Hw as [->|[->|[->| ->]]]; lia).
    rewrite to_u_bits by lia. rewrite countr_zero_bits by lia. split; [|repeat case_decide; lia].
    pose proof (bits_zero (hits vb ls)) as Hz. rewrite Hh in Hz.
    case_bool_decide; [apply Z.eqb_eq; tauto|apply Z.eqb_neq; tauto]. }
  clear Hv. destruct c; [| |done]; destruct Hw as [->|[->|[->| ->]]]; unfold find_simd, bind;
    simpl vsize in Hld; rewrite Hld; unfold ret; f_equal.
  all: match type of Hh with _ = ?b => let b' := eval vm_compute in b in change b with b' in * end.
  - specialize (H8 32%nat ltac:(lia)). change (Z.of_nat 32) with 32 in H8. rewrite H8. case_decide; lia.
  - specialize (H8 32%nat ltac:(lia)). change (Z.of_nat 32) with 32 in H8. rewrite H8. rewrite Z.shiftr_div_pow2 by lia. change (2 ^ 1) with 2. case_decide.
    + change (32 / 2) with 16. lia.
    + rewrite Nat2Z.inj_mul, Z.mul_comm, Z.div_mul by lia. done.
  - destruct (Hp 8%nat ltac:(lia)) as (Hp1 & Hp2). change (Z.of_nat 8) with 8 in *. rewrite Hp2. case_decide; lia.
  - destruct (Hp 8%nat ltac:(lia)) as (Hp1 & Hp2). change (Z.of_nat 8) with 8 in *. rewrite Hp1, Hp2. case_bool_decide; case_decide; try done; lia.
  - specialize (H8 16%nat ltac:(lia)). change (Z.of_nat 16) with 16 in H8. rewrite H8. case_decide; lia.
  - specialize (H8 16%nat ltac:(lia)). change (Z.of_nat 16) with 16 in H8. rewrite H8. rewrite Z.shiftr_div_pow2 by lia. change (2 ^ 1) with 2. case_decide.
    + change (16 / 2) with 8. lia.
    + rewrite Nat2Z.inj_mul, Z.mul_comm, Z.div_mul by lia. done.
  - destruct (Hp 8%nat ltac:(lia)) as (Hp1 & Hp2). change (Z.of_nat 8) with 8 in *. rewrite Hp1, Hp2. case_bool_decide; case_decide; try done; lia.
  - destruct (Hp 8%nat ltac:(lia)) as (Hp1 & Hp2). change (Z.of_nat 8) with 8 in *. rewrite Hp1, Hp2. case_bool_decide; case_decide; try done; lia.
Qed.

(* ------------------------------------------------------------------ *)
(** * The range in memory *)

(** How far beyond the end of the range find forms pointers. *)
Definition overshoot (c : simd) : Z := match c with NoSimd => 0 | _ => Z.of_nat (vsize c) end.

(** [p] may be computed: no wrap-around at the top of the address space, or,
    under the C++ rule, inside the allocation. *)
Definition addr_ok (pr : ptr_rule) (s : mem) (p : Z) : Prop :=
  match pr with Flat => p < 2 ^ 64 | Strict => p <= m_end s end.

Lemma padd_ok pr w p k s e :
  0 <= m_base s → addr_ok pr s e → m_base s <= p + k * Z.of_nat w <= e →
  padd pr w p k s = Ok (p + k * Z.of_nat w) s.
Proof.
  unfold padd, addr_ok. intros Hb He Hp. destruct pr.
  - by rewrite Z.mod_small by lia.
  - rewrite (proj2 (Z.leb_le _ _)), (proj2 (Z.leb_le _ _)) by lia. done.
Qed.

Lemma load_split base (a x z : list Z) p n :
  p = base + Z.of_nat (length a) → n = length x →
  load p n (Mem base (a ++ x ++ z)) = Ok x (Mem base (a ++ x ++ z)).
Proof.
  intros -> ->. unfold load, m_end. cbn [m_base m_bytes]. rewrite !app_length.
  rewrite (proj2 (Z.leb_le _ _)), (proj2 (Z.leb_le _ _)) by lia. cbn [andb].
  replace (Z.to_nat _) with (length a) by lia. by rewrite drop_app, take_app.
Qed.
Lemma store_split base (a x z v : list Z) p :
  p = base + Z.of_nat (length a) → length v = length x →
  store p v (Mem base (a ++ x ++ z)) = Ok tt (Mem base (a ++ v ++ z)).
Proof.
  intros -> Hv. unfold store, m_end. cbn [m_base m_bytes]. rewrite !app_length.
  rewrite (proj2 (Z.leb_le _ _)), (proj2 (Z.leb_le _ _)) by lia. cbn [andb].
  replace (Z.to_nat _) with (length a) by lia. rewrite take_app. do 4 f_equal.
  rewrite Hv, <- app_length, (app_assoc a x z). apply drop_app.
Qed.

Section range.
Context (w : nat) (Hw : (0 < w)%nat) (base : Z) (pre post : list Z) (ls : list (list Z))
  (Hsz : Forall (λ x, length x = w) ls).
Local Notation W := (Z.of_nat w).
Local Notation s := (Mem base (pre ++ concat ls ++ post)).
Local Notation i := (base + Z.of_nat (length pre)).
Local Notation e := (i + Z.of_nat (length ls) * W).

Lemma load_range k n : (k + n <= length ls)%nat →
  load (i + Z.of_nat k * W) (n * w) s = Ok (concat (take n (drop k ls))) s.
Proof.
  intros Hk.
  assert (pre ++ concat ls ++ post = (pre ++ concat (take k ls)) ++ concat (take n (drop k ls)) ++
    (concat (drop n (drop k ls)) ++ post)) as ->.
  { rewrite <- (take_drop k ls) at 1. rewrite <- (take_drop n (drop k ls)) at 1.
    rewrite !concat_app, <- !app_assoc. done. }
  apply load_split.
  - rewrite app_length, (sized_length w), take_length by (by apply Forall_take). rewrite Nat.min_l by lia. lia.
  - rewrite (sized_length w), take_length, drop_length by (by apply Forall_take, Forall_drop). rewrite Nat.min_l by lia. lia.
Qed.
Lemma load_elem k x : ls !! k = Some x → load (i + Z.of_nat k * W) w s = Ok x s.
Proof.
  intros Hx. pose proof (lookup_lt_Some _ _ _ Hx). pose proof (load_range k 1 ltac:(lia)) as Hl.
  rewrite Nat.mul_1_l in Hl. rewrite Hl. rewrite (drop_S _ _ _ Hx). simpl. by rewrite app_nil_r.
Qed.

Context (c : simd) (pr : ptr_rule) (eqv : list Z → list Z → bool) (vb : list Z).
Context (Hb : 0 <= base) (He : addr_ok pr s (e + overshoot c)).

Lemma padd_in k d (z : Z) : z = Z.of_nat d → (k + d <= length ls)%nat →
  padd pr w (i + Z.of_nat k * W) z s = Ok (i + Z.of_nat (k + d) * W) s.
Proof.
  intros -> Hk. rewrite (padd_ok _ _ _ _ _ (e + overshoot c)); [f_equal; lia|done|done|].
  cbn [m_base]. unfold overshoot. destruct c; nia.
Qed.

Lemma find_scalar_spec fuel k : (length ls - k < fuel)%nat → (k <= length ls)%nat →
  find_scalar pr w eqv fuel e vb (i + Z.of_nat k * W) s =
  Ok (i + Z.of_nat (k + fidx (map (λ x, eqv x vb) (drop k ls))) * W) s.
Proof.
  revert k. induction fuel as [|fuel IH]; intros k Hf Hk; [lia|]. cbn [find_scalar].
  destruct (decide (k = length ls)) as [->|Hne].
  { rewrite Z.eqb_refl, drop_all. simpl. unfold ret. do 2 f_equal. lia. }
  rewrite (proj2 (Z.eqb_neq _ _)) by nia.
  destruct (lookup_lt_is_Some_2 ls k ltac:(lia)) as [x Hx].
  unfold bind at 1. rewrite (load_elem k x Hx). rewrite (drop_S _ _ _ Hx). cbn [map fidx].
  destruct (eqv x vb). { unfold ret. do 2 f_equal. lia. }
  unfold bind. rewrite (padd_in k 1) by (done || lia). rewrite IH by lia.
  do 2 f_equal. rewrite Nat.add_1_r. lia.
Qed.

Context (Hc : c ≠ NoSimd) (Hsize : size_ok w) (Hv : length vb = w).
Local Notation B := (block c w).
Context (Hal : (B <= length ls)%nat → i mod Z.of_nat (vsize c) = 0).

Lemma block_pos : (0 < B)%nat.
Proof. clear -Hsize. destruct Hsize as [->|[->|[->| ->]]]; destruct c; vm_compute; lia. Qed.

(** The elements the block loop looks at, starting from position [k]. *)
Definition whole (n : nat) : nat := (n / B * B)%nat.

Lemma find_blocks_spec fuel q : (length ls / B - q < fuel)%nat → (q <= length ls / B)%nat →
  let k := (q * B)%nat in
  let h := fidx (hits vb (take (whole (length ls) - k) (drop k ls))) in
  find_blocks c pr w fuel i e vb (i + Z.of_nat k * W) s =
  Ok (if decide (h = whole (length ls) - k)%nat
      then inr (i + Z.of_nat (whole (length ls)) * W)
      else inl (i + Z.of_nat (k + h) * W)) s.
Proof.
  pose proof block_pos as HB. pose proof (block_vsize c w Hsize) as HV.
  pose proof (Nat.mul_div_le (length ls) B ltac:(lia)) as Hle.
  pose proof (Nat.mul_succ_div_gt (length ls) B ltac:(lia)) as Hgt.
  revert q. induction fuel as [|fuel IH]; intros q Hf Hq; [lia|]. cbv zeta. cbn [find_blocks].
  unfold bind at 1. rewrite (padd_ok _ _ _ _ _ (e + overshoot c)); [|done|done|].
  2: { cbn [m_base]. rewrite readable_block. unfold overshoot. destruct c; try done; rewrite <- HV; nia. }
  rewrite readable_block. unfold whole in *.
  destruct (decide (q = length ls / B)%nat) as [->|Hne].
  { rewrite (proj2 (Z.leb_gt _ _)) by nia. cbn [negb]. rewrite Nat.sub_diag. simpl. done. }
  assert (q * B + B <= length ls)%nat as Hfit by nia.
  rewrite (proj2 (Z.leb_le _ _)) by nia. cbn [negb].
  set (k := (q * B)%nat) in *.
  set (blk := take B (drop k ls)).
  assert (length blk = B) as Hblk by (unfold blk; rewrite take_length, drop_length; lia).
  unfold bind at 1. rewrite (find_simd_spec c w _ vb blk); [|done..| | |].
  2: { apply Forall_take, Forall_drop. done. }
  2: { rewrite <- HV in *. rewrite Nat2Z.inj_mul in *. unfold k. rewrite Nat2Z.inj_mul.
       replace (i + Z.of_nat q * Z.of_nat B * W) with (i + Z.of_nat q * (Z.of_nat B * W)) by lia.
       rewrite Z_mod_plus_full. apply Hal. lia. }
  2: { rewrite <- HV. unfold blk. apply load_range. lia. }
  assert (take (length ls / B * B - k) (drop k ls) =
    blk ++ take (length ls / B * B - (S q * B)) (drop (S q * B) ls)) as ->.
  { unfold blk. replace (S q * B)%nat with (k + B)%nat by (unfold k; lia).
    rewrite <- drop_drop. rewrite <- (take_drop B (drop k ls)) at 1.
    rewrite take_app_ge; rewrite Hblk || (fold blk; rewrite Hblk); [|nia]. f_equal. f_equal. lia. }
  unfold hits. rewrite map_app, fidx_app. fold (hits vb blk).
  assert (length (hits vb blk) = B) as HhB by (unfold hits; by rewrite map_length).
  pose proof (fidx_le (hits vb blk)) as Hfl.
  destruct (decide (fidx (hits vb blk) = B)) as [Eh|Eh].
  - rewrite Eh, Z.eqb_refl. cbn [negb]. unfold bind at 1.
    rewrite (padd_in k B) by (done || lia). replace (k + B)%nat with (S q * B)%nat by (unfold k; lia).
    rewrite IH by lia. rewrite (decide_True (P := B = length _)) by done. f_equal.
    fold (hits vb (take (length ls / B * B - S q * B) (drop (S q * B) ls))).
    rewrite HhB. repeat case_decide; try done; try nia. f_equal. lia.
  - rewrite (proj2 (Z.eqb_neq _ _)) by lia. cbn [negb]. unfold bind at 1.
    rewrite (padd_in k (fidx (hits vb blk))) by (done || lia). unfold bind at 1.
    replace (pdiff w _ i) with (Z.of_nat (k + fidx (hits vb blk))).
    2: { unfold pdiff. replace (_ - i) with (Z.of_nat (k + fidx (hits vb blk)) * W) by lia.
         by rewrite Z.div_mul by lia. }
    replace (padd pr w i) with (padd pr w (i + Z.of_nat 0 * W)) by (f_equal; lia).
    rewrite (padd_in 0 (k + fidx (hits vb blk))) by (done || lia). unfold ret. f_equal.
    rewrite (decide_False (P := fidx _ = length _)) by lia.
    rewrite decide_False by nia. done.
Qed.
End range.

(** The number of elements covered by whole blocks. *)
Definition covered (c : simd) (w n : nat) : nat :=
  match c with NoSimd => 0 | _ => whole w c n end.

(** What find computes, exactly: bitwise comparison in the blocks, operator==
    in the rest. *)
Theorem find_exact c pr w eqv base pre post ls vb :
  size_ok w → Forall (λ x, length x = w) ls → length vb = w → 0 <= base →
  let s := Mem base (pre ++ concat ls ++ post) in
  let i := base + Z.of_nat (length pre) in
  let e := i + Z.of_nat (length ls) * Z.of_nat w in
  addr_ok pr s (e + overshoot c) →
  (c ≠ NoSimd → (block c w <= length ls)%nat → i mod Z.of_nat (vsize c) = 0) →
  let m := covered c w (length ls) in
  find c pr w eqv i e vb s =
  Ok (i + Z.of_nat (fidx (hits vb (take m ls) ++ map (λ x, eqv x vb) (drop m ls))) * Z.of_nat w) s.
Proof.
  intros Hsize Hsz Hv Hb s i e He Hal m. unfold find.
  assert (0 < w)%nat as Hw by (destruct Hsize as [E|[E|[E|E]]]; rewrite E; lia).
  pose proof (sized_length w ls Hsz) as Hlen.
  assert (length ls <= length (m_bytes s))%nat as Hfuel.
  { simpl. rewrite !app_length, Hlen. nia. }
  destruct (decide (c = NoSimd)) as [->|Hc].
  { unfold bind, gets. rewrite <- (Z.add_0_r i) at 1. change 0 with (Z.of_nat 0 * Z.of_nat w).
    unfold i, e, s in *. rewrite (find_scalar_spec w Hw base pre post ls Hsz NoSimd pr eqv vb Hb He) by lia.
    done. }
  assert (m = whole w c (length ls)) as Hm by (unfold m; by destruct c).
  pose proof (block_pos w c Hsize) as HB.
  assert (∀ (A B : M mem Z), (match c with NoSimd => A | _ => B end) = B) as Hmatch by (intros; by destruct c).
  transitivity ((fuel <- gets (λ m0 : mem, S (length (m_bytes m0))) ;;
     r <- find_blocks c pr w fuel i e vb i ;;
     match r with inl p => ret p | inr p => find_scalar pr w eqv fuel e vb p end)%mon s).
  { unfold bind, gets. by destruct c. }
  unfold bind, gets.
  pose proof (find_blocks_spec w Hw base pre post ls Hsz c pr vb Hb He Hc Hsize Hv (Hal Hc)
    (S (length (m_bytes s))) 0) as Hbl. cbv zeta in Hbl.
  rewrite Nat.mul_0_l, Z.mul_0_l, Z.add_0_r, Nat.sub_0_r, drop_0, Nat.add_0_l in Hbl.
  fold i e s in Hbl. rewrite Hbl; clear Hbl; [| |lia].
  2: { pose proof (Nat.div_le_upper_bound (length ls) (block c w) (length ls) ltac:(lia) ltac:(nia)). lia. }
  rewrite <- Hm. rewrite fidx_app, Nat.sub_0_r.
  assert (m <= length ls)%nat as Hml.
  { rewrite Hm. unfold whole. rewrite Nat.mul_comm. apply Nat.mul_div_le. lia. }
  assert (length (hits vb (take m ls)) = m) as Hh.
  { unfold hits. rewrite map_length, take_length. lia. }
  destruct (decide (fidx (hits vb (take m ls)) = m)) as [E|E].
  - rewrite !decide_True by lia. unfold i, e, s in *.
    rewrite (find_scalar_spec w Hw base pre post ls Hsz c pr eqv vb Hb He) by lia. by rewrite Hh.
  - rewrite !decide_False by lia. done.
Qed.

(** If operator== agrees with equality of the bytes, for the value searched,
    find returns the first element that compares equal. *)
Theorem find_first c pr w eqv base pre post ls vb :
  size_ok w → Forall (λ x, length x = w) ls → length vb = w → 0 <= base →
  let s := Mem base (pre ++ concat ls ++ post) in
  let i := base + Z.of_nat (length pre) in
  let e := i + Z.of_nat (length ls) * Z.of_nat w in
  addr_ok pr s (e + overshoot c) →
  (c ≠ NoSimd → (block c w <= length ls)%nat → i mod Z.of_nat (vsize c) = 0) →
  (c ≠ NoSimd → ∀ x, x ∈ ls → eqv x vb = true ↔ x = vb) →
  ∃ k, find c pr w eqv i e vb s = Ok (i + Z.of_nat k * Z.of_nat w) s ∧
       first_match (λ x, eqv x vb = true) ls k.
Proof.
  intros Hsize Hsz Hv Hb s i e He Hal Heq.
  eexists. split; [by apply find_exact|].
  set (m := covered c w (length ls)).
  assert (hits vb (take m ls) ++ map (λ x, eqv x vb) (drop m ls) = map (λ x, eqv x vb) ls) as ->.
  2: apply (fidx_first (λ x, eqv x vb)).
  rewrite <- (take_drop m ls) at 3. rewrite map_app. f_equal. unfold hits.
  destruct (decide (c = NoSimd)) as [->|Hc]; [done|].
  apply list_eq. intros j. rewrite !list_lookup_fmap. destruct (take m ls !! j) as [x|] eqn:Hx; [|done].
  simpl. f_equal. apply elem_of_list_lookup_2, elem_of_take in Hx as (n & Hx & _).
  specialize (Heq Hc x (elem_of_list_lookup_2 _ _ _ Hx)).
  case_bool_decide; destruct (eqv x vb); try done; [by symmetry; apply Heq|exfalso; naive_solver].
Qed.
