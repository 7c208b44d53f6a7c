(** When a determinant is zero, over the real numbers: property C153. When a cross product is,
    and division of quaternions: C56, C65. *)
From stdpp Require Import list.
From Coq Require Import Reals Lra Lia.
From Verif Require Import VecModel VecSpec VecProofs VecProps MatModel MatProofs MatProps.
Local Open Scope R_scope.

(** * Proofs *)
(** Linear combinations of vectors, which are functions of the row *)
Fixpoint lin (cs : list R) (vs : list (nat → R)) (i : nat) : R :=
  match cs, vs with c :: cs, v :: vs => c * v i + lin cs vs i | _, _ => 0 end.
Lemma lin_app cs ds vs ws i : length cs = length vs → lin (cs ++ ds) (vs ++ ws) i = lin cs vs i + lin ds ws i.
Proof.
  revert vs. induction cs as [|c cs IH]; intros [|v vs]; try done; cbn; intros H; [lra|]. rewrite IH by lia. lra.
Qed.
Lemma lin_sub cs vs v k i : length cs = length vs →
  lin cs (map (λ u i, u i - u k / v k * v i) vs) i = lin cs vs i - lin cs vs k / v k * v i.
Proof.
  revert vs. induction cs as [|c cs IH]; intros [|u vs]; try done; cbn; intros H; [unfold Rdiv; ring|]. rewrite IH by lia. unfold Rdiv. ring.
Qed.
Lemma pivot (vs : list (nat → R)) k : (∀ v, v ∈ vs → v k = 0) ∨ ∃ a v b, vs = a ++ v :: b ∧ v k ≠ 0.
Proof.
  induction vs as [|v vs [IH|(a & w & b & -> & Hw)]].
  - left. intros v Hv. by apply elem_of_nil in Hv.
  - destruct (Req_dec (v k) 0) as [Hv|Hv]; [left|right; by exists [], v, vs].
    intros w [-> |Hw]%elem_of_cons; auto.
  - right. by exists (v :: a), w, b.
Qed.
Lemma lin_zero cs vs k : (∀ v, v ∈ vs → v k = 0) → lin cs vs k = 0.
Proof.
  revert vs. induction cs as [|c cs IH]; intros [|v vs] H; try done; cbn. rewrite IH, (H v); [ring|left|]. intros w Hw. apply H. by right.
Qed.
(** More vectors than rows are linearly dependent. *)
Lemma dependent n : ∀ vs, (n < length vs)%nat → ∃ cs, length cs = length vs ∧ (∃ c, c ∈ cs ∧ c ≠ 0) ∧
  ∀ i, (i < n)%nat → lin cs vs i = 0.
Proof.
  induction n as [|n IH]; intros vs Hn.
  { exists (replicate (length vs) 1). split; [apply replicate_length|]. split; [|lia]. exists 1. split; [|lra].
    destruct vs; [cbn in Hn; lia|]. left. }
  destruct (pivot vs n) as [Hz|(a & v & b & -> & Hv)].
  { destruct (IH vs) as (cs & Hl & Hc & Hs); [lia|]. exists cs. split_and!; [done..|]. intros i Hi.
    destruct (decide (i = n)) as [->|]; [by apply lin_zero|apply Hs; lia]. }
  rewrite app_length in Hn. cbn in Hn.
  destruct (IH (map (λ u i, u i - u n / v n * v i) (a ++ b))) as (cs & Hl & (c & Hc & Hc0) & Hs).
  { rewrite map_length, app_length. lia. }
  rewrite map_length, app_length in Hl.
  set (ca := take (length a) cs). set (cb := drop (length a) cs).
  assert (Ha : length ca = length a) by (subst ca; rewrite take_length; lia).
  assert (Hb : length cb = length b) by (subst cb; rewrite drop_length; lia).
  assert (Hcs : cs = ca ++ cb) by (subst ca cb; by rewrite take_drop).
  exists (ca ++ - (lin cs (a ++ b) n / v n) :: cb). split_and!.
  - rewrite !app_length. cbn. lia.
  - exists c. split; [|done]. rewrite Hcs in Hc. apply elem_of_app in Hc as [Hc|Hc]; apply elem_of_app; [by left|right; by right].
  - intros i Hi. rewrite lin_app by done. cbn.
    assert (Hsub := lin_sub cs (a ++ b) v n i). rewrite app_length in Hsub. specialize (Hsub Hl).
    assert (Hab : lin cs (a ++ b) i = lin ca a i + lin cb b i) by (rewrite Hcs; by apply lin_app).
    destruct (decide (i = n)) as [->|].
    + rewrite Hab in *. field. done.
    + rewrite (Hs i) in Hsub by lia. lra.
Qed.
Lemma lin_sum n : ∀ cs f i, length cs = n → lin cs (vecf n f) i = sum rnum n (λ k, f k i * comp rnum cs k).
Proof.
  induction n as [|n IH]; intros cs f i Hl; [destruct cs; done|].
  destruct cs as [|x cs _] using rev_ind; [done|]. rewrite app_length in Hl. cbn in Hl.
  unfold vecf. rewrite seq_S, map_app. rewrite lin_app by (rewrite map_length, seq_length; lia).
  change (map f (seq 0 n)) with (vecf n f). rewrite IH by lia. cbn [sum nadd nmul rnum]. f_equal.
  - apply sum_ext. intros k Hk. unfold comp. rewrite lookup_app_l by lia. done.
  - unfold comp. rewrite lookup_app_r by lia. replace (n - length cs)%nat with 0%nat by lia. cbn. ring.
Qed.
(** A square system has a solution for every right-hand side, or the matrix a kernel. *)
Lemma solve n (f : nat → nat → R) : (∃ v, (∃ k, (k < n)%nat ∧ v k ≠ 0) ∧ ∀ i, (i < n)%nat → sum rnum n (λ k, f k i * v k) = 0) ∨
  ∀ e, ∃ v : nat → R, ∀ i, (i < n)%nat → sum rnum n (λ k, f k i * v k) = e i.
Proof.
  destruct (Classical_Prop.classic (∃ v, (∃ k, (k < n)%nat ∧ v k ≠ 0) ∧ ∀ i, (i < n)%nat → sum rnum n (λ k, f k i * v k) = 0)) as [|Hno]; [by left|].
  right. intros e. destruct (dependent n (vecf n f ++ [e])) as (cs & Hl & (c & Hc & Hc0) & Hs).
  { rewrite app_length, vecf_length. cbn. lia. }
  rewrite app_length, vecf_length in Hl. cbn in Hl. destruct cs as [|x cs _] using rev_ind; [cbn in Hl; lia|].
  rewrite app_length in Hl. cbn in Hl. assert (Hlen : length cs = n) by lia.
  assert (Hsum : ∀ i, (i < n)%nat → sum rnum n (λ k, f k i * comp rnum cs k) + x * e i = 0).
  { intros i Hi. specialize (Hs i Hi). rewrite lin_app in Hs by (by rewrite vecf_length). rewrite lin_sum in Hs by done. cbn in Hs. lra. }
  destruct (Req_dec x 0) as [->|Hx].
  - exfalso. apply Hno. exists (comp rnum cs). split.
    + apply elem_of_app in Hc as [Hc|Hc%elem_of_list_singleton]; [|done]. apply elem_of_list_lookup in Hc as [k Hk].
      exists k. split; [apply lookup_lt_Some in Hk; lia|]. unfold comp. by rewrite Hk.
    + intros i Hi. specialize (Hsum i Hi). lra.
  - exists (λ k, comp rnum cs k * - / x). intros i Hi. specialize (Hsum i Hi).
    rewrite (sum_ext rnum n _ (λ k, (f k i * comp rnum cs k) * - / x)) by (intros; ring).
    pose proof (sum_mul_r rnum rnum_ring n (- / x) (λ k, f k i * comp rnum cs k)) as Hm. cbn in Hm. rewrite Hm.
    replace (sum rnum n (λ k, f k i * comp rnum cs k)) with (- (x * e i)) by lra. field. done.
Qed.

(** Cramer: replacing a column by A v multiplies the determinant by that component of v. *)
Lemma kernel_zero n f v k : (2 ≤ n ≤ 4)%nat → (k < n)%nat → (∀ i, (i < n)%nat → sum rnum n (λ k, f k i * v k) = 0) →
  laplace rnum n f * v k = 0.
Proof.
  intros Hn Hk H.
  transitivity (laplace rnum n (λ j i, if (j =? k)%nat then sum rnum n (λ k, f k i * v k) else f j i)).
  - assert (n = 2 ∨ n = 3 ∨ n = 4)%nat as [-> | [-> | ->]] by lia; clear H.
    + assert (k = 0 ∨ k = 1)%nat as [-> | ->] by lia; cbn; unfold minor, id; cbn; ring.
    + assert (k = 0 ∨ k = 1 ∨ k = 2)%nat as [-> | [-> | ->]] by lia; cbn; unfold minor, id; cbn; ring.
    + assert (k = 0 ∨ k = 1 ∨ k = 2 ∨ k = 3)%nat as [-> | [-> | [-> | ->]]] by lia; cbn; unfold minor, id; cbn; ring.
  - transitivity (laplace rnum n (λ j i, if (j =? k)%nat then 0 else f j i)).
    + assert (H0 := H 0%nat ltac:(lia)). assert (H1 := H 1%nat ltac:(lia)).
      assert (n = 2 ∨ n = 3 ∨ n = 4)%nat as [-> | [-> | ->]] by lia.
      * clear H. cbn [laplace]. cbn. unfold minor. cbn. cbn in H0, H1. by rewrite H0, H1.
      * assert (H2 := H 2%nat ltac:(lia)). clear H. cbn. unfold minor. cbn. cbn in H0, H1, H2. by rewrite H0, H1, H2.
      * assert (H2 := H 2%nat ltac:(lia)). assert (H3 := H 3%nat ltac:(lia)). clear H.
        cbn. unfold minor. cbn. cbn in H0, H1, H2, H3. by rewrite H0, H1, H2, H3.
    + clear H. assert (n = 2 ∨ n = 3 ∨ n = 4)%nat as [-> | [-> | ->]] by lia.
      * assert (k = 0 ∨ k = 1)%nat as [-> | ->] by lia; cbn; unfold minor, id; cbn; ring.
      * assert (k = 0 ∨ k = 1 ∨ k = 2)%nat as [-> | [-> | ->]] by lia; cbn; unfold minor, id; cbn; ring.
      * assert (k = 0 ∨ k = 1 ∨ k = 2 ∨ k = 3)%nat as [-> | [-> | [-> | ->]]] by lia; cbn; unfold minor, id; cbn; ring.
Qed.
Lemma vec_of (v : list R) n : length v = n → v = vecf n (comp rnum v).
Proof. intros <-. apply vecf_eq; [done|]. intros i Hi. unfold comp. by destruct (lookup_lt_is_Some_2 v i Hi) as [x ->]. Qed.
Lemma zeros n : replicate n 0 = vecf n (λ _, 0).
Proof. apply vecf_eq; [apply replicate_length|]. intros i Hi. by apply lookup_replicate_2. Qed.
Lemma right_inverse n f : (2 ≤ n ≤ 4)%nat → laplace rnum n f ≠ 0 → ∃ g, 
  mat_mul rnum n n n (build n n f) (build n n g) = mat_default rnum n n.
Proof.
  intros Hn Hd. destruct (solve n f) as [(v & (k & Hk & Hv) & H)|H].
  { exfalso. pose proof (kernel_zero n f v k Hn Hk H) as Hz. apply Rmult_integral in Hz as [?|?]; done. }
  assert (Hg : ∀ m, ∃ g : nat → nat → R, ∀ j i, (j < m)%nat → (i < n)%nat → sum rnum n (λ k, f k i * g j k) = if (j =? i)%nat then 1 else 0).
  { induction m as [|m [g Hg]]; [exists (λ _ _, 0); lia|].
    destruct (H (λ i, if (m =? i)%nat then 1 else 0)) as [v Hv].
    exists (λ j, if (j =? m)%nat then v else g j). intros j i Hj Hi. destruct (Nat.eqb_spec j m) as [->|]; [by apply Hv|]. apply Hg; lia. }
  destruct (Hg n) as [g Hg']. exists g. rewrite mat_mul_eq, mat_default_eq. f_equal. apply build_ext. intros j i Hj Hi. by apply Hg'.
Qed.

(** * C153 *)
(** A determinant is zero exactly when the matrix sends a nonzero vector to zero. *)
Theorem determinant_singular : ∀ n A f, (2 ≤ n ≤ 4)%nat → denotes A n n f → ∃ d, det rnum n A = Some d ∧
  (d = 0 ↔ ∃ v, length v = n ∧ v ≠ replicate n 0 ∧ mat_vec rnum n n A v = Some (replicate n 0)).
Proof.
  intros n A f Hn HA. apply denotes_build in HA. subst. exists (laplace rnum n f). split; [by apply (det_laplace rnum rnum_ring)|]. split.
  - intros Hd. destruct (solve n f) as [(v & (k & Hk & Hv) & H)|H].
    + exists (vecf n v). split; [apply vecf_length|]. rewrite zeros. split.
      * intros He. apply Hv. pose proof (f_equal (.!! k) He) as He'. cbn in He'. rewrite !vecf_lookup in He' by done. by injection He'.
      * rewrite mat_vec_eq. f_equal. by apply vecf_ext.
    + exfalso.
      assert (Hg : ∀ m, ∃ g : nat → nat → R, ∀ j i, (j < m)%nat → (i < n)%nat → sum rnum n (λ k, f k i * g j k) = if (j =? i)%nat then 1 else 0).
      { induction m as [|m [g Hg]]; [exists (λ _ _, 0); lia|].
        destruct (H (λ i, if (m =? i)%nat then 1 else 0)) as [v Hv].
        exists (λ j, if (j =? m)%nat then v else g j). intros j i Hj Hi. destruct (Nat.eqb_spec j m) as [->|]; [by apply Hv|]. apply Hg; lia. }
      destruct (Hg n) as [g Hg'].
      destruct (determinant_multiplicative rnum rnum_ring n (build n n f) (build n n g) f g Hn) as (AB & a & b & HAB & Ha & Hb & Hab); [by apply denotes_build..|].
      rewrite (det_laplace rnum rnum_ring) in Ha by done. injection Ha as <-. rewrite Hd in Hab. cbn in Hab.
      destruct (determinant_identity rnum rnum_ring n Hn) as (I & HI & HdI).
      rewrite mat_mul_eq in HAB. rewrite mat_default_eq in HI. injection HAB as HAB. injection HI as HI.
      assert (AB = I) as ->. { rewrite <- HAB, <- HI. apply build_ext. intros j i Hj Hi. by apply Hg'. }
      rewrite HdI in Hab. injection Hab as Hab. cbn in Hab. lra.
  - intros (v & Hl & Hv & H). rewrite (vec_of v n Hl) in H. rewrite mat_vec_eq, zeros in H. injection H as H.
    assert (Hs : ∀ i, (i < n)%nat → sum rnum n (λ k, f k i * comp rnum v k) = 0).
    { intros i Hi. pose proof (f_equal (.!! i) H) as He. cbn in He. rewrite !vecf_lookup in He by done. by injection He. }
    destruct (Req_dec (laplace rnum n f) 0) as [|Hd]; [done|]. exfalso. apply Hv. rewrite zeros, (vec_of v n Hl). apply vecf_ext. intros k Hk.
    pose proof (kernel_zero n f (comp rnum v) k Hn Hk Hs) as Hz. by apply Rmult_integral in Hz as [?|?].
Qed.
(** The others, and no others, have an inverse. *)
Theorem determinant_invertible : ∀ n A f, (2 ≤ n ≤ 4)%nat → denotes A n n f → ∃ d I, det rnum n A = Some d ∧ mat_default rnum n n = Some I ∧
  (d ≠ 0 ↔ ∃ B g, denotes B n n g ∧ mat_mul rnum n n n A B = Some I ∧ mat_mul rnum n n n B A = Some I).
Proof.
  intros n A f Hn HA. apply denotes_build in HA. subst. destruct (determinant_identity rnum rnum_ring n Hn) as (I & HI & HdI).
  assert (Hmul : ∀ f g, mat_mul rnum n n n (build n n f) (build n n g) = Some I → laplace rnum n f * laplace rnum n g = 1).
  { clear f. intros f g H. destruct (determinant_multiplicative rnum rnum_ring n (build n n f) (build n n g) f g Hn) as (AB & a & b & HAB & Ha & Hb & Hab); [by apply denotes_build..|].
    rewrite (det_laplace rnum rnum_ring) in Ha, Hb by done. injection Ha as <-. injection Hb as <-. rewrite HAB in H. injection H as ->. rewrite HdI in Hab. injection Hab as Hab. by cbn in Hab. }
  exists (laplace rnum n f), I. split; [by apply (det_laplace rnum rnum_ring)|]. split; [done|]. split.
  - intros Hd. destruct (right_inverse n f Hn Hd) as [g Hg]. rewrite HI in Hg. exists (build n n g), g.
    split; [by apply denotes_build|]. split; [done|].
    assert (Hdg : laplace rnum n g ≠ 0). { intros Hz. apply Hmul in Hg. rewrite Hz in Hg. lra. }
    destruct (right_inverse n g Hn Hdg) as [h Hh]. rewrite HI in Hh.
    destruct (matrix_product_associative rnum rnum_ring n n n n (build n n f) (build n n g) (build n n h) f g h)
      as (AB & BC & R & HAB & HBC & HR1 & HR2); [by apply denotes_build..|].
    rewrite Hg in HAB. injection HAB as <-. rewrite Hh in HBC. injection HBC as <-.
    destruct (matrix_product_identity rnum rnum_ring n n (build n n f) f) as (I1 & I2 & HI1 & HI2 & Hr & _); [by apply denotes_build|].
    destruct (matrix_product_identity rnum rnum_ring n n (build n n h) h) as (I3 & I4 & HI3 & HI4 & _ & Hl); [by apply denotes_build|].
    rewrite HI in HI1, HI4. injection HI1 as <-. injection HI4 as <-. rewrite Hl in HR1. rewrite Hr in HR2.
    injection HR1 as HR1. injection HR2 as HR2. rewrite <- HR2 in HR1. by rewrite HR1 in Hh.
  - intros (B & g & HB & Hab & _) Hz. apply denotes_build in HB. subst. apply Hmul in Hab. rewrite Hz in Hab. lra.
Qed.
(** A 3x3 determinant is the triple product of the columns, over any ring. *)
Section triple.
Context {T : Type} (N : num T) (RT : ring_theory (n0 N) (n1 N) (nadd N) (nmul N) (nsub N) (nneg N) eq).
Add Ring nring : RT.
Theorem determinant_triple : ∀ a b c, length a = 3%nat → length b = 3%nat → length c = 3%nat → ∃ bc d,
  cross N b c = Some bc ∧ dot N a bc = Some d ∧ det3 N [a; b; c] = Some d.
Proof.
  intros a b c La Lb Lc. destruct a as [|? [|? [|? [|]]]]; try done. destruct b as [|? [|? [|? [|]]]]; try done. destruct c as [|? [|? [|? [|]]]]; try done.
  do 2 eexists. split; [done|]. split; [apply dot_eq; done|]. unfold det3. cbn. f_equal. unfold comp; cbn. ring.
Qed.
End triple.

(** * C56: cross is zero exactly for parallel vectors *)
Theorem cross_parallel : ∀ v w, length v = 3%nat → length w = 3%nat → ∃ c, cross rnum v w = Some c ∧
  (c = [0; 0; 0] ↔ ∃ a b, (a ≠ 0 ∨ b ≠ 0) ∧ ∀ i, (i < 3)%nat → a * comp rnum v i = b * comp rnum w i).
Proof.
  intros v w Lv Lw. destruct v as [|x [|y [|z [|]]]]; try done. destruct w as [|x' [|y' [|z' [|]]]]; try done.
  eexists. split; [done|]. cbn. unfold comp. split.
  - intros [= H1 H2 H3].
    assert (∀ a b, (a ≠ 0 ∨ b ≠ 0) → a * x = b * x' → a * y = b * y' → a * z = b * z' →
      ∃ a b, (a ≠ 0 ∨ b ≠ 0) ∧ ∀ i, (i < 3)%nat → a * default 0 ([x; y; z] !! i) = b * default 0 ([x'; y'; z'] !! i)) as K.
    { intros a b Hab Hx Hy Hz. exists a, b. split; [done|]. intros i Hi. assert (i = 0 ∨ i = 1 ∨ i = 2)%nat as [-> | [-> | ->]] by lia; done. }
    destruct (Req_dec x 0) as [Hx|Hx]; [|by apply (K x' x); [right|lra..]].
    destruct (Req_dec y 0) as [Hy|Hy]; [|by apply (K y' y); [right|lra..]].
    destruct (Req_dec z 0) as [Hz|Hz]; [|by apply (K z' z); [right|lra..]].
    apply (K 1 0); [left|..]; lra.
  - intros (a & b & Hab & H). pose proof (H 0%nat ltac:(lia)) as Hx. pose proof (H 1%nat ltac:(lia)) as Hy. pose proof (H 2%nat ltac:(lia)) as Hz. cbn in Hx, Hy, Hz.
    assert (∀ p q p' q', a * p = b * p' → a * q = b * q' → p * q' - q * p' = 0) as K.
    { intros p q p' q' Hp Hq. destruct Hab as [Ha|Hb].
      - apply (Rmult_eq_reg_l a); [|done]. replace (a * (p * q' - q * p')) with ((a * p) * q' - (a * q) * p') by ring. rewrite Hp, Hq. ring.
      - apply (Rmult_eq_reg_l b); [|done]. replace (b * (p * q' - q * p')) with (p * (b * q') - q * (b * p')) by ring. rewrite <- Hp, <- Hq. ring. }
    f_equal; [|f_equal; [|f_equal]]; by apply K.
Qed.
(** * C65: every quaternion but zero has an inverse, and no product of others is zero *)
Theorem quaternion_division : ∀ p q : quat, q ≠ qzero rnum →
  (∃ r, qmul rnum q r = qone rnum ∧ qmul rnum r q = qone rnum) ∧ (qmul rnum p q = qzero rnum → p = qzero rnum).
Proof.
  assert (Hn : ∀ p, qnorm2 rnum p = 0 → p = qzero rnum).
  { intros [w x y z]. unfold qnorm2, qzero. cbn. intros H.
    pose proof (Rle_0_sqr w). pose proof (Rle_0_sqr x). pose proof (Rle_0_sqr y). pose proof (Rle_0_sqr z). unfold Rsqr in *.
    f_equal; apply Rsqr_0_uniq; unfold Rsqr; lra. }
  intros p q Hq. assert (Hq2 : qnorm2 rnum q ≠ 0) by (intros H; by apply Hq, Hn). split.
  - destruct q as [w x y z]. unfold qnorm2 in Hq2. cbn in Hq2. set (n := w * w + x * x + y * y + z * z) in Hq2.
    exists (Quat (w / n) (- x / n) (- y / n) (- z / n)). unfold qmul, qone. cbn. split; f_equal; subst n; field; done.
  - intros H. apply Hn. pose proof (quaternion_norm rnum rnum_ring p q) as Hm. rewrite H in Hm.
    replace (qnorm2 rnum (qzero rnum)) with 0 in Hm by (unfold qnorm2; cbn; ring).
    assert (Hz : qnorm2 rnum p * qnorm2 rnum q = 0) by (symmetry; exact Hm). by apply Rmult_integral in Hz as [?|?].
Qed.

(** ** Examples *)
Ltac rcalc := cbv -[Rplus Rmult Rminus Ropp Rdiv IZR]; repeat f_equal; lra.
(** Columns (1,2) and (2,4): the determinant is zero and (2,-1) is sent to zero. *)
Example determinant_singular_ex : let A := [[1; 2]; [2; 4]] in denotes A 2 2 (λ j i, comp rnum (default [] (A !! j)) i) ∧
  det rnum 2 A = Some 0 ∧ [2; -1] ≠ replicate 2 0 ∧ mat_vec rnum 2 2 A [2; -1] = Some (replicate 2 0).
Proof.
  cbn zeta. split_and!; [|rcalc| |rcalc].
  - apply denotes_build. done.
  - intros [=]. lra.
Qed.
(** The matrix with columns (1,1,0), (0,1,1) and (1,0,1) has determinant 2 and an inverse. *)
Example determinant_invertible_ex : let A := [[1; 1; 0]; [0; 1; 1]; [1; 0; 1]] in
  let B := [[1/2; -1/2; 1/2]; [1/2; 1/2; -1/2]; [-1/2; 1/2; 1/2]] in
  det rnum 3 A = Some 2 ∧ mat_mul rnum 3 3 3 A B = mat_default rnum 3 3 ∧ mat_mul rnum 3 3 3 B A = mat_default rnum 3 3.
Proof. cbn zeta. split_and!; rcalc. Qed.
Example determinant_triple_ex : cross znum [4; 5; 6]%Z [7; 8; 10]%Z = Some [2; 2; -3]%Z ∧
  dot znum [1; 2; 3]%Z [2; 2; -3]%Z = Some (-3)%Z ∧ det3 znum [[1; 2; 3]; [4; 5; 6]; [7; 8; 10]]%Z = Some (-3)%Z.
Proof. done. Qed.
Example cross_parallel_ex : cross rnum [1; 2; -3] [2; 4; -6] = Some [0; 0; 0] ∧ (2 ≠ 0 ∨ 1 ≠ 0) ∧ ∀ i, (i < 3)%nat → 2 * comp rnum [1; 2; -3] i = 1 * comp rnum [2; 4; -6] i.
Proof.
  split_and!; [rcalc|left; lra|]. intros i Hi. assert (i = 0 ∨ i = 1 ∨ i = 2)%nat as [-> | [-> | ->]] by lia; unfold comp; cbn; lra.
Qed.
Example quaternion_division_ex : Quat 1 1 0 0 ≠ qzero rnum ∧ qmul rnum (Quat 1 1 0 0) (Quat (1/2) (-1/2) 0 0) = qone rnum.
Proof. split; [intros [=]; lra|rcalc]. Qed.

Definition singular_theorems := (determinant_singular, determinant_invertible, @determinant_triple, cross_parallel, quaternion_division).
Print Assumptions singular_theorems.
