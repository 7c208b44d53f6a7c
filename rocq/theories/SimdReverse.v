(** Proofs about reverse. *)
From stdpp Require Import list.
From Coq Require Import ZArith Lia.
From Verif Require Import Base SimdModel SimdSpec SimdProofs.
Local Open Scope Z_scope.

(** The shuffles reverse a register. *)
Ltac explode x n :=
  match n with
  | O => destruct x; [|discriminate]
  | S ?n => destruct x as [|? x]; [discriminate|]; explode x n
  end.
Lemma shuffle128_rev x : length x = 16%nat → shuffle128 x (set_epi8 SEQ) = rev x.
Proof. intros H. do 16 (destruct x as [|? x]; [discriminate|]). destruct x; [|discriminate]. reflexivity. Qed.
Lemma shuffle256_rev x : length x = 32%nat →
  let y := shuffle256 x (set_epi8 (SEQ ++ SEQ)) in permute2x128 y y 1 = rev x.
Proof. intros H. do 32 (destruct x as [|? x]; [discriminate|]). destruct x; [|discriminate]. reflexivity. Qed.

Lemma reverse_simd_bytes c base pre lo mid hi post :
  c ≠ NoSimd → length lo = vsize c → length hi = vsize c →
  let i := base + Z.of_nat (length pre) in
  reverse_simd c 1 i (i + Z.of_nat (length (lo ++ mid ++ hi))) (Mem base (pre ++ (lo ++ mid ++ hi) ++ post)) =
  Ok tt (Mem base (pre ++ (rev hi ++ mid ++ rev lo) ++ post)).
Proof.
  intros Hc Hlo Hhi i.
  assert (pre ++ (lo ++ mid ++ hi) ++ post = pre ++ lo ++ (mid ++ hi ++ post)) as E1 by (by rewrite <- !app_assoc).
  assert (pre ++ (lo ++ mid ++ hi) ++ post = (pre ++ lo ++ mid) ++ hi ++ post) as E2 by (by rewrite <- !app_assoc).
  assert (∀ v, i + Z.of_nat (length (lo ++ mid ++ hi)) - Z.of_nat (vsize c) =
    base + Z.of_nat (length (pre ++ v ++ mid)) ∨ length v ≠ vsize c) as E3.
  { intros v. unfold i. rewrite !app_length. destruct (decide (length v = vsize c)); [left|by right]. lia. }
  assert (∀ n, n = vsize c → load i n (Mem base (pre ++ (lo ++ mid ++ hi) ++ post)) =
    Ok lo (Mem base (pre ++ (lo ++ mid ++ hi) ++ post))) as L1.
  { intros n ->. rewrite E1. apply load_split; [done|lia]. }
  assert (∀ n, n = vsize c → load (i + Z.of_nat (length (lo ++ mid ++ hi)) - Z.of_nat (vsize c)) n
    (Mem base (pre ++ (lo ++ mid ++ hi) ++ post)) = Ok hi (Mem base (pre ++ (lo ++ mid ++ hi) ++ post))) as L2.
  { intros n ->. rewrite E2. apply load_split; [|lia]. destruct (E3 lo); [done|lia]. }
  assert (store i (rev hi) (Mem base (pre ++ (lo ++ mid ++ hi) ++ post)) =
    Ok tt (Mem base (pre ++ rev hi ++ (mid ++ hi ++ post)))) as S1.
  { rewrite E1. apply store_split; [done|]. rewrite rev_length. lia. }
  assert (store (i + Z.of_nat (length (lo ++ mid ++ hi)) - Z.of_nat (vsize c)) (rev lo)
    (Mem base (pre ++ rev hi ++ (mid ++ hi ++ post))) =
    Ok tt (Mem base (pre ++ (rev hi ++ mid ++ rev lo) ++ post))) as S2.
  { replace (pre ++ rev hi ++ mid ++ hi ++ post) with ((pre ++ rev hi ++ mid) ++ hi ++ post) by (by rewrite <- !app_assoc).
    rewrite (store_split base (pre ++ rev hi ++ mid) hi post (rev lo)).
    - by rewrite <- !app_assoc.
    - destruct (E3 (rev hi)) as [|Hn]; [done|]. rewrite rev_length in Hn. lia.
    - rewrite rev_length. lia. }
  destruct c; [| |done]; unfold reverse_simd, bind; simpl vsize in *.
  - change (Z.of_nat 32) with 32 in *. rewrite (L1 32%nat), (L2 32%nat) by done. cbv zeta. rewrite !shuffle256_rev by done.
    rewrite S1. exact S2.
  - change (Z.of_nat 16) with 16 in *. rewrite (L1 16%nat), (L2 16%nat) by done. cbv zeta. rewrite !shuffle128_rev by done.
    rewrite S1. exact S2.
Qed.

Section blocks.
Context (c : simd) (pr : ptr_rule) (base : Z) (Hb : 0 <= base).

Lemma length_split_ends {A} k (l : list A) : (2 * k <= length l)%nat →
  ∃ lo mid hi, l = lo ++ mid ++ hi ∧ length lo = k ∧ length hi = k.
Proof.
  intros Hk. exists (take k l), (take (length l - 2 * k) (drop k l)), (drop (length l - k) l).
  split_and!; [|rewrite take_length; lia|rewrite drop_length; lia].
  rewrite <- (take_drop k l) at 1. f_equal. rewrite <- (take_drop (length l - 2 * k) (drop k l)) at 1.
  f_equal. rewrite drop_drop. f_equal. lia.
Qed.

(** The block loop on bytes: [count] blocks from each end are exchanged and reversed. *)
Lemma reverse_blocks_bytes count pre lo mid hi post :
  c ≠ NoSimd → length lo = (count * vsize c)%nat → length hi = (count * vsize c)%nat →
  let i := base + Z.of_nat (length pre) in
  let e := i + Z.of_nat (length (lo ++ mid ++ hi)) in
  (match pr with Flat => e < 2 ^ 64 | Strict => True end) →
  reverse_blocks c pr 1 count i e (Mem base (pre ++ (lo ++ mid ++ hi) ++ post)) =
  Ok (i + Z.of_nat (length hi), i + Z.of_nat (length (hi ++ mid)))
     (Mem base (pre ++ (rev hi ++ mid ++ rev lo) ++ post)).
Proof.
  intros Hc. revert pre lo hi post. induction count as [|count IH]; intros pre lo hi post Hlo Hhi i e He.
  { destruct lo, hi; try done. cbn [reverse_blocks]. unfold ret, e. simpl. rewrite !app_nil_r. do 2 f_equal. lia. }
  cbn [reverse_blocks].
  assert (∃ l1 lo', lo = l1 ++ lo' ∧ length l1 = vsize c) as (l1 & lo' & -> & H1).
  { exists (take (vsize c) lo), (drop (vsize c) lo). rewrite take_drop, take_length. split; [done|lia]. }
  assert (∃ hi' l2, hi = hi' ++ l2 ∧ length l2 = vsize c) as (hi' & l2 & -> & H2).
  { exists (take (length hi - vsize c) hi), (drop (length hi - vsize c) hi).
    rewrite take_drop, drop_length. split; [done|lia]. }
  rewrite app_length in Hlo, Hhi.
  assert (((l1 ++ lo') ++ mid ++ hi' ++ l2) = l1 ++ (lo' ++ mid ++ hi') ++ l2) as E by (by rewrite <- !app_assoc).
  unfold e in *. rewrite E in *. unfold bind at 1.
  pose proof (reverse_simd_bytes c base pre l1 (lo' ++ mid ++ hi') l2 post Hc H1 H2) as Hs.
  cbv zeta in Hs. fold i in Hs. rewrite Hs.
  set (s1 := Mem base (pre ++ (rev l2 ++ (lo' ++ mid ++ hi') ++ rev l1) ++ post)).
  assert (addr_ok pr s1 e) as Hok.
  { unfold e. rewrite E. destruct pr; [done|]. unfold addr_ok, m_end, s1, i. cbn [m_base m_bytes].
    rewrite !app_length, !rev_length. lia. }
  assert (readable c 1 = Z.of_nat (vsize c)) as Hr by (by destruct c).
  unfold bind. rewrite !Hr.
  rewrite (padd_ok _ _ _ _ s1 e); [|done|done|unfold s1, e, i; rewrite E; cbn [m_base]; rewrite !app_length; lia].
  rewrite (padd_ok _ _ _ _ s1 e); [|done|done|unfold s1, e, i; rewrite E; cbn [m_base]; rewrite !app_length; lia].
  assert (s1 = Mem base ((pre ++ rev l2) ++ (lo' ++ mid ++ hi') ++ (rev l1 ++ post))) as ->.
  { unfold s1. f_equal. by rewrite <- !app_assoc. }
  specialize (IH (pre ++ rev l2) lo' hi' (rev l1 ++ post) ltac:(lia) ltac:(lia)). cbv zeta in IH.
  replace (i + Z.of_nat (vsize c) * Z.of_nat 1) with (base + Z.of_nat (length (pre ++ rev l2))).
  2: { unfold i. rewrite app_length, rev_length. lia. }
  match goal with |- reverse_blocks _ _ _ _ ?a ?b _ = _ => replace b with (a + Z.of_nat (length (lo' ++ mid ++ hi'))) end.
  2: { unfold i. rewrite !app_length, rev_length. lia. }
  rewrite IH; clear IH.
  - f_equal; [f_equal|f_equal].
    + unfold i. rewrite !app_length, rev_length. lia.
    + unfold i. rewrite !app_length, rev_length. lia.
    + rewrite !rev_app_distr, <- !app_assoc. done.
  - destruct pr; [|done]. unfold i in He. rewrite !app_length in *. rewrite rev_length. lia.
Qed.
End blocks.

Section scalar.
Context (pr : ptr_rule) (w : nat) (Hw : (0 < w)%nat) (base : Z) (Hb : 0 <= base).
Local Notation W := (Z.of_nat w).
Local Notation sized ls := (Forall (λ x, length x = w) ls).

Lemma iter_swap_ends pre x mid y post : length x = w → length y = w →
  let i := base + Z.of_nat (length pre) in
  iter_swap w i (i + Z.of_nat (length (x ++ mid))) (Mem base (pre ++ (x ++ mid ++ y) ++ post)) =
  Ok tt (Mem base (pre ++ (y ++ mid ++ x) ++ post)).
Proof.
  intros Hx Hy i. unfold iter_swap, bind.
  assert (pre ++ (x ++ mid ++ y) ++ post = pre ++ x ++ (mid ++ y ++ post)) as E1 by (by rewrite <- !app_assoc).
  assert (pre ++ (x ++ mid ++ y) ++ post = (pre ++ x ++ mid) ++ y ++ post) as E2 by (by rewrite <- !app_assoc).
  rewrite E1, load_split by done. rewrite <- E1, E2.
  rewrite load_split; [|unfold i; rewrite !app_length; lia|done]. rewrite <- E2, E1.
  rewrite (store_split _ pre x _ y) by (done || lia).
  replace (pre ++ y ++ mid ++ y ++ post) with ((pre ++ y ++ mid) ++ y ++ post) by (by rewrite <- !app_assoc).
  rewrite (store_split _ _ y post x) by (unfold i; rewrite ?app_length; lia). by rewrite <- !app_assoc.
Qed.

Lemma reverse_scalar_spec fuel pre ls post :
  (length ls < fuel)%nat → sized ls →
  let i := base + Z.of_nat (length pre) in
  let e := i + Z.of_nat (length ls) * W in
  (match pr with Flat => e < 2 ^ 64 | Strict => True end) →
  reverse_scalar pr w fuel i e (Mem base (pre ++ concat ls ++ post)) =
  Ok tt (Mem base (pre ++ concat (rev ls) ++ post)).
Proof.
  revert pre ls post. induction fuel as [|fuel IH]; intros pre ls post Hf Hsz i e He; [lia|].
  cbn [reverse_scalar].
  destruct ls as [|x ls].
  { unfold e. simpl. rewrite Z.add_0_r, Z.ltb_irrefl. done. }
  rewrite (proj2 (Z.ltb_lt _ _)) by (unfold e; simpl length; nia). cbn [negb].
  apply Forall_cons in Hsz as [Hx Hsz].
  set (s := Mem base (pre ++ concat (x :: ls) ++ post)).
  assert (addr_ok pr s e) as Hok.
  { destruct pr; [done|]. unfold addr_ok, m_end, s, e, i. cbn [m_base m_bytes concat length].
    rewrite !app_length, (sized_length w) by done. lia. }
  unfold bind at 1. rewrite (padd_ok _ _ _ _ s e); [|done|done|unfold e, i, s; simpl length; cbn [m_base]; nia].
  unfold bind at 1. rewrite (padd_ok _ _ _ _ s e); [|done|done|unfold e, i, s; simpl length; cbn [m_base]; nia].
  destruct ls as [|y ls _] using rev_ind.
  - (* one element: swapped with itself *)
    unfold s in *. cbn [concat rev app] in *. rewrite app_nil_r in *.
    assert (e + -1 * W = i) as -> by (unfold e; simpl length; lia).
    unfold bind, iter_swap, bind.
    rewrite load_split by done. rewrite load_split by done.
    rewrite (store_split _ pre x post x) by done. rewrite (store_split _ pre x post x) by done.
    destruct fuel as [|fuel]; [simpl in Hf; lia|]. cbn [reverse_scalar].
    rewrite (proj2 (Z.ltb_ge _ _)) by lia. done.
  - apply Forall_app in Hsz as [Hsz Hy]. apply Forall_cons in Hy as [Hy _].
    assert (s = Mem base (pre ++ (x ++ concat ls ++ y) ++ post)) as Es.
    { unfold s. cbn [concat]. rewrite concat_app. simpl. by rewrite app_nil_r. }
    assert (e + -1 * W = i + Z.of_nat (length (x ++ concat ls))) as ->.
    { unfold e. cbn [length]. rewrite !app_length, (sized_length w) by done. simpl. lia. }
    unfold bind at 1. rewrite Es.
    pose proof (iter_swap_ends pre x (concat ls) y post Hx Hy) as Hsw. cbv zeta in Hsw. fold i in Hsw. rewrite Hsw.
    cbn [rev]. rewrite rev_app_distr. cbn [rev app concat]. rewrite concat_app. cbn [concat]. rewrite app_nil_r.
    replace (pre ++ (y ++ concat ls ++ x) ++ post) with ((pre ++ y) ++ concat ls ++ (x ++ post)) by (by rewrite <- !app_assoc).
    replace (i + 1 * W) with (base + Z.of_nat (length (pre ++ y))) by (unfold i; rewrite app_length; lia).
    replace (i + Z.of_nat (length (x ++ concat ls))) with (base + Z.of_nat (length (pre ++ y)) + Z.of_nat (length ls) * W).
    2: { unfold i. rewrite !app_length, (sized_length w) by done. lia. }
    rewrite IH; [by rewrite <- !app_assoc|simpl in Hf; rewrite app_length in Hf; lia|done|].
    destruct pr; [|done]. revert He. unfold e, i. cbn [length]. rewrite !app_length. simpl. lia.
Qed.
End scalar.

Lemma sized_singletons (l : list Z) : Forall (λ x, length x = 1%nat) (map (λ b, [b]) l).
Proof. by apply Forall_map, Forall_true. Qed.
Lemma concat_singletons (l : list Z) : concat (map (λ b, [b]) l) = l.
Proof. induction l; simpl; congruence. Qed.
Lemma concat_rev_singletons (l : list Z) : concat (rev (map (λ b, [b]) l)) = rev l.
Proof. by rewrite <- map_rev, concat_singletons. Qed.

(** The bytes of the range are reversed, everything else is unchanged. *)
Theorem reverse_bytes_eq c pr base pre data post :
  0 <= base →
  let i := base + Z.of_nat (length pre) in
  let e := i + Z.of_nat (length data) in
  (match pr with Flat => e < 2 ^ 64 | Strict => True end) →
  reverse c pr 1 i e (Mem base (pre ++ data ++ post)) = Ok e (Mem base (pre ++ rev data ++ post)).
Proof.
  intros Hb i e He. unfold reverse, bind at 1, gets.
  set (fuel := S (length (m_bytes (Mem base (pre ++ data ++ post))))).
  assert (length data < fuel)%nat as Hf by (unfold fuel; simpl; rewrite !app_length; lia).
  assert (∀ pre' mid post', (length mid < fuel)%nat →
    let i' := base + Z.of_nat (length pre') in
    (match pr with Flat => i' + Z.of_nat (length mid) < 2 ^ 64 | Strict => True end) →
    reverse_scalar pr 1 fuel i' (i' + Z.of_nat (length mid)) (Mem base (pre' ++ mid ++ post')) =
    Ok tt (Mem base (pre' ++ rev mid ++ post'))) as Hsc.
  { intros pre' mid post' Hm i' Hi'.
    pose proof (reverse_scalar_spec pr 1 ltac:(lia) base Hb fuel pre' (map (λ b, [b]) mid) post') as Hr.
    cbv zeta in Hr. rewrite map_length, concat_singletons, concat_rev_singletons, Z.mul_1_r in Hr.
    apply Hr; [done|apply sized_singletons|done]. }
  destruct (decide (c = NoSimd)) as [->|Hc].
  { unfold bind, e, i. rewrite Hsc by done. done. }
  set (count := Z.to_nat (Z.quot (pdiff 1 e i) 2 / readable c 1)).
  assert (2 * (count * vsize c) <= length data)%nat as Hcount.
  { unfold count. unfold pdiff. replace (e - i) with (Z.of_nat (length data)) by (unfold e; lia).
    rewrite Z.div_1_r. assert (readable c 1 = Z.of_nat (vsize c)) as -> by (by destruct c).
    assert (0 < vsize c)%nat by (destruct c; simpl; lia). rewrite Z.quot_div_nonneg by lia.
    pose proof (Z.mul_div_le (Z.of_nat (length data)) 2 ltac:(lia)).
    pose proof (Z.mul_div_le (Z.of_nat (length data) / 2) (Z.of_nat (vsize c)) ltac:(lia)).
    assert (0 <= Z.of_nat (length data) / 2) by (apply Z.div_pos; lia).
    assert (0 <= Z.of_nat (length data) / 2 / Z.of_nat (vsize c)) by (apply Z.div_pos; lia).
    nia. }
  destruct (length_split_ends _ _ Hcount) as (lo & mid & hi & Ed & Hlo & Hhi).
  assert ((r <- reverse_blocks c pr 1 count i e ;;
     reverse_scalar pr 1 fuel (fst r) (snd r) ;;; ret e)%mon (Mem base (pre ++ data ++ post)) =
     Ok e (Mem base (pre ++ rev data ++ post))) as Hgoal.
  2: { destruct c; done. }
  unfold bind. subst data. unfold e in *.
  pose proof (reverse_blocks_bytes c pr base Hb count pre lo mid hi post Hc Hlo Hhi) as Hbl.
  cbv zeta in Hbl. fold i in Hbl. rewrite Hbl by done. cbn [fst snd]. clear Hbl.
  replace (pre ++ (rev hi ++ mid ++ rev lo) ++ post) with ((pre ++ rev hi) ++ mid ++ (rev lo ++ post))
    by (by rewrite <- !app_assoc).
  replace (i + Z.of_nat (length hi)) with (base + Z.of_nat (length (pre ++ rev hi)))
    by (unfold i; rewrite app_length, rev_length; lia).
  replace (i + Z.of_nat (length (hi ++ mid))) with (base + Z.of_nat (length (pre ++ rev hi)) + Z.of_nat (length mid))
    by (unfold i; rewrite !app_length, rev_length; lia).
  rewrite Hsc.
  - unfold ret. f_equal. f_equal. by rewrite !rev_app_distr, <- !app_assoc.
  - rewrite !app_length in Hf. lia.
  - destruct pr; [|done]. unfold i in He. rewrite !app_length in *. rewrite rev_length. lia.
Qed.

(** Two-byte elements. The SIMD step does nothing, so whole blocks at both ends
    stay in place. *)
Definition skipped (c : simd) (n : nat) : nat :=
  match c with NoSimd => 0 | _ => (n / 2 / 8 * 8)%nat end.
Theorem reverse_pairs_eq c pr base pre ls post :
  c ≠ AVX2 → 0 <= base → Forall (λ x, length x = 2%nat) ls →
  let i := base + Z.of_nat (length pre) in
  let e := i + Z.of_nat (length ls) * 2 in
  (match pr with Flat => e < 2 ^ 64 | Strict => True end) →
  let k := skipped c (length ls) in
  let mid := take (length ls - 2 * k) (drop k ls) in
  reverse c pr 2 i e (Mem base (pre ++ concat ls ++ post)) =
  Ok e (Mem base (pre ++ concat (take k ls ++ rev mid ++ drop (length ls - k) ls) ++ post)).
Proof.
  intros Hc Hb Hsz i e He k mid. unfold reverse, bind at 1, gets.
  set (s := Mem base (pre ++ concat ls ++ post)).
  set (fuel := S (length (m_bytes s))).
  assert (length ls < fuel)%nat as Hf.
  { unfold fuel, s; simpl; rewrite !app_length, (sized_length 2) by done. lia. }
  destruct c; [done| |].
  - assert (addr_ok pr s e) as Hok.
    { destruct pr; [done|]. unfold addr_ok, m_end, s, e, i. cbn [m_base m_bytes].
      rewrite !app_length, (sized_length 2) by done. lia. }
    assert (∀ n j, (2 * (j + n * 8) <= length ls)%nat →
      reverse_blocks SSE pr 2 n (i + Z.of_nat j * 2) (e - Z.of_nat j * 2) s =
      Ok (i + Z.of_nat (j + n * 8) * 2, e - Z.of_nat (j + n * 8) * 2) s) as Hbl.
    { induction n as [|n IH]; intros j Hj; cbn [reverse_blocks].
      { unfold ret. do 2 f_equal; lia. }
      unfold bind. cbn [reverse_simd]. unfold ret. change (readable SSE 2) with 8.
      rewrite (padd_ok _ _ _ _ s e); [|done|done|unfold e, i, s; cbn [m_base]; lia].
      rewrite (padd_ok _ _ _ _ s e); [|done|done|unfold e, i, s; cbn [m_base]; lia].
      specialize (IH (j + 8)%nat ltac:(lia)).
      replace (i + Z.of_nat j * 2 + 8 * Z.of_nat 2) with (i + Z.of_nat (j + 8) * 2) by lia.
      replace (e - Z.of_nat j * 2 + - (8) * Z.of_nat 2) with (e - Z.of_nat (j + 8) * 2) by lia.
      rewrite IH. do 2 f_equal; lia. }
    change (readable SSE 2) with 8.
    assert (Z.to_nat (Z.quot (pdiff 2 e i) 2 / 8) = (length ls / 2 / 8)%nat) as ->.
    { unfold pdiff. replace (e - i) with (Z.of_nat (length ls) * Z.of_nat 2) by (unfold e; lia).
      rewrite Z.div_mul by lia. rewrite Z.quot_div_nonneg by lia.
      change 2 with (Z.of_nat 2). change 8 with (Z.of_nat 8). rewrite <- !Nat2Z.inj_div. apply Nat2Z.id. }
    pose proof (Nat.mul_div_le (length ls) 2 ltac:(lia)) as D1.
    pose proof (Nat.mul_div_le (length ls / 2) 8 ltac:(lia)) as D2.
    specialize (Hbl (length ls / 2 / 8)%nat 0%nat ltac:(lia)).
    rewrite Z.mul_0_l, Z.add_0_r, Z.sub_0_r, Nat.add_0_l in Hbl.
    unfold bind. rewrite Hbl. clear Hbl. cbn [fst snd].
    change (length ls / 2 / 8 * 8)%nat with k in *.
    assert (2 * k <= length ls)%nat as Hk by (unfold k, skipped; lia).
    assert (ls = take k ls ++ mid ++ drop (length ls - k) ls) as E.
    { rewrite <- (take_drop k ls) at 1. f_equal. unfold mid.
      rewrite <- (take_drop (length ls - 2 * k) (drop k ls)) at 1. f_equal. rewrite drop_drop. f_equal. lia. }
    assert (length mid = length ls - 2 * k)%nat as Hml by (unfold mid; rewrite take_length, drop_length; lia).
    pose proof (reverse_scalar_spec pr 2 ltac:(lia) base Hb fuel (pre ++ concat (take k ls)) mid
      (concat (drop (length ls - k) ls) ++ post) ltac:(lia)) as Hr. cbv zeta in Hr.
    rewrite app_length, (sized_length 2), take_length in Hr by (by apply Forall_take).
    rewrite Nat.min_l in Hr by lia.
    assert (s = Mem base ((pre ++ concat (take k ls)) ++ concat mid ++ concat (drop (length ls - k) ls) ++ post)) as ->.
    { unfold s. f_equal. rewrite E at 1. by rewrite !concat_app, <- !app_assoc. }
    replace (i + Z.of_nat k * 2) with (base + Z.of_nat (length pre + k * 2)) by (unfold i; lia).
    replace (e - Z.of_nat k * 2) with (base + Z.of_nat (length pre + k * 2) + Z.of_nat (length mid) * Z.of_nat 2)
      by (unfold e, i; rewrite Hml; lia).
    rewrite Hr.
    + unfold ret. do 2 f_equal. by rewrite !concat_app, <- !app_assoc.
    + unfold mid. by apply Forall_take, Forall_drop.
    + destruct pr; [|done]. unfold e, i in He. rewrite Hml. lia.
  - unfold bind, s, e, i. pose proof (reverse_scalar_spec pr 2 ltac:(lia) base Hb fuel pre ls post Hf Hsz) as Hr.
    cbv zeta in Hr. change (Z.of_nat 2) with 2 in Hr. rewrite Hr by done. unfold ret, mid, k, skipped.
    rewrite Nat.mul_0_r, Nat.sub_0_r, drop_0, take_0, !firstn_all, drop_all, app_nil_r. done.
Qed.
