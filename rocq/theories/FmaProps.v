(** Theorems about results with fused operations: properties C160 and C161. *)
From stdpp Require Import list.
From Coq Require Import ZArith Lia Reals Lra Psatz.
From Flocq Require Import Core Operations BinarySingleNaN.
From Verif Require Import VecModel VecSpec VecProofs MatModel MatProofs MatProps VecProps TransformSpec FloatModel FloatProps FloatOpsProps FloatExprProofs FloatMatProps FmaModel FmaProofs.
Local Open Scope R_scope.

Section fma.
Context (prec emax : Z) {Hprec : Prec_gt_0 prec} {Hmax : Prec_lt_emax prec emax}.
Local Notation F := (binary_float prec emax).
Local Notation N := (fnum prec emax).
Local Notation finite := (λ x : F, is_finite x = true).
Local Notation val := (B2R (prec:=prec) (emax:=emax)).
Local Notation rnd := (round radix2 (SpecFloat.fexp prec emax) ZnearestE).
Local Notation u := (u prec).
Local Notation eta := (eta prec emax).
Local Notation expr := (expr prec emax).
Local Notation X := (@X prec emax).
Local Notation xnum := (xnum prec emax).
Local Notation result := (result prec emax).
Local Notation ex f := (λ j i : nat, val (f j i)).
Local Notation q := (1 + u).

(** * The expressions *)
Lemma comp_X (v : list F) k : comp xnum (map X v) k = X (comp N v k).
Proof. unfold comp. change (map X v) with (X <$> v). rewrite list_lookup_fmap. by destruct (v !! k). Qed.
Lemma sum_X (x y : nat → expr) (f g : nat → F) n : (∀ k, (k < n)%nat → x k = X (f k)) → (∀ k, (k < n)%nat → y k = X (g k)) →
  sum xnum n (λ k, nmul xnum (x k) (y k)) = sum xnum n (xprods prec emax f g).
Proof. intros Hf Hg. apply sum_ext. intros k Hk. by rewrite Hf, Hg. Qed.
Lemma dot_X v w : dot xnum (map X v) (map X w) = if (length v =? length w)%nat then Some (sum xnum (length v) (xprods prec emax (comp N v) (comp N w))) else None.
Proof.
  destruct (Nat.eqb_spec (length v) (length w)) as [L|L].
  - rewrite dot_eq by (by rewrite !map_length). rewrite map_length. f_equal. apply sum_X; intros k _; apply comp_X.
  - unfold dot. rewrite !map_length. by rewrite (proj2 (Nat.eqb_neq _ _) L).
Qed.
Lemma dot_fused_sum v w s : dot_fused prec emax v w s ↔ length v = length w ∧ result (sum xnum (length v) (xprods prec emax (comp N v) (comp N w))) s.
Proof.
  unfold dot_fused. rewrite dot_X. destruct (Nat.eqb_spec (length v) (length w)) as [L|L]; [|naive_solver].
  split; [intros (e & E & H); by injection E as <-|intros [_ H]; eauto].
Qed.
Lemma denotes_X A cols rows (f : nat → nat → F) : denotes A cols rows f → denotes (map (map X) A) cols rows (xmat prec emax f).
Proof.
  intros [L H]. split; [by rewrite map_length|]. intros j Hj. destruct (H j Hj) as (c & Hc & Lc & Hi). exists (map X c).
  change (map (map X) A) with (map X <$> A). rewrite list_lookup_fmap, Hc. split; [done|]. rewrite map_length. split; [done|].
  intros i Hii. change (map X c) with (X <$> c). by rewrite list_lookup_fmap, Hi.
Qed.

Ltac found := repeat first [apply elem_of_list_here | apply elem_of_list_further].
Ltac qside :=
  match goal with
  | H : is_finite _ = true |- is_finite _ = true => exact H
  | |- ∀ x, _ → _ => cbn; let Hx := fresh in intros ? Hx; repeat (apply elem_of_cons in Hx as [-> |Hx]; [found|]); by apply elem_of_nil in Hx
  | |- _ = _ => first [reflexivity | unfold total; simpl; rewrite ?Rabs_Ropp, ?Rabs_mult; ring]
  | |- _ => simpl in *; lra
  end.

(** * C160: bounds that hold whatever is fused *)
(** Without fused operations the results are those of the functions on numbers: they are
    among the possible ones. *)
Theorem fused_default : 
  (∀ v w s, dot N v w = Some s → dot_fused prec emax v w s) ∧ (∀ v w c, cross N v w = Some c → cross_fused prec emax v w c) ∧
  (∀ cols rows A f v r, denotes A cols rows f → length v = cols → mat_vec N cols rows A v = Some r → mat_vec_fused prec emax cols rows A v r) ∧
  (∀ cols rows rows2 A B f g C, denotes A cols rows f → denotes B rows2 cols g → mat_mul N cols rows rows2 A B = Some C → mat_mul_fused prec emax cols rows rows2 A B C) ∧
  (∀ m f d, denotes m 2 2 f → det2 N m = Some d → det2_fused prec emax m d) ∧ (∀ m f d, denotes m 3 3 f → det3 N m = Some d → det3_fused prec emax m d) ∧
  (∀ m f d, denotes m 4 4 f → det4 N m = Some d → det4_fused prec emax m d) ∧ (∀ p q, qmul_fused prec emax p q (qmul N p q)).
Proof.
  assert (SF : ∀ n (f g : nat → F), result (sum xnum n (xprods prec emax f g)) (sum N n (λ k, nmul N (f k) (g k)))).
  { intros n f g. induction n as [|n IH]; [constructor|]. cbn [sum]. constructor; [done|]. by repeat constructor. }
  split_and!.
  - intros v w s H. apply dot_fused_sum. destruct (decide (length v = length w)) as [L|L].
    + split; [done|]. rewrite dot_eq in H by done. injection H as <-.
      apply SF.
    + unfold dot in H. apply Nat.eqb_neq in L. by rewrite L in H.
  - intros v w c H. destruct v as [|x [|y [|z [|? ?]]]]; try done. destruct w as [|x' [|y' [|z' [|? ?]]]]; try done. injection H as <-.
    eexists. split; [reflexivity|]. repeat (constructor; [by repeat constructor|]). constructor.
  - intros cols rows A f v r HA Hv H. destruct (matrix_vector_product N cols rows A v f HA Hv) as (r' & E & L & K). rewrite E in H. injection H as ->.
    destruct (matrix_vector_product xnum cols rows _ (map X v) _ (denotes_X _ _ _ _ HA)) as (es & E' & L' & K'); [by rewrite map_length|].
    exists es. split; [done|]. apply Forall2_same_length_lookup_2; [by rewrite L'|]. intros i e z He Hz.
    assert (Hi : (i < rows)%nat) by (rewrite <- L'; by eapply lookup_lt_Some). rewrite K' in He by done. rewrite K in Hz by done. injection He as <-. injection Hz as <-.
    rewrite (sum_ext xnum cols _ (xprods prec emax (λ k, f k i) (comp N v))) by (intros; by rewrite comp_X).
      apply SF.
  - intros cols rows rows2 A B f g C HA HB H. destruct (matrix_product N cols rows rows2 A B f g HA HB) as (C' & E & K). rewrite E in H. injection H as ->.
    destruct (matrix_product xnum cols rows rows2 _ _ _ _ (denotes_X _ _ _ _ HA) (denotes_X _ _ _ _ HB)) as (Es & E' & K').
    exists Es. split; [done|]. destruct K as [L K], K' as [L' K']. apply Forall2_same_length_lookup_2; [by rewrite L, L'|].
    intros j es c He Hc. assert (Hj : (j < rows2)%nat) by (rewrite <- L; by eapply lookup_lt_Some).
    destruct (K j Hj) as (c' & Hc' & Lc & Ki). rewrite Hc in Hc'. injection Hc' as <-. destruct (K' j Hj) as (e' & He' & Le & Ki'). rewrite He in He'. injection He' as <-.
    apply Forall2_same_length_lookup_2; [by rewrite Lc, Le|]. intros i e z Hx Hz. assert (Hi : (i < rows)%nat) by (rewrite <- Lc; by eapply lookup_lt_Some).
    rewrite Ki in Hz by done. rewrite Ki' in Hx by done. injection Hx as <-. injection Hz as <-. rewrite (sum_ext xnum cols _ (xprods prec emax (λ k, f k i) (g j))) by done.
      apply SF.
  - intros m f d Hm H. apply denotes_build in Hm as ->. rewrite det2_fl in H. apply (inj Some) in H. subst d. exists (e2 prec emax f). split; [reflexivity|apply result_fl].
  - intros m f d Hm H. apply denotes_build in Hm as ->. rewrite det3_fl in H. apply (inj Some) in H. subst d. exists (e3 prec emax f). split; [reflexivity|apply result_fl].
  - intros m f d Hm H. apply denotes_build in Hm as ->. rewrite det4_fl in H. apply (inj Some) in H. subst d. exists (e4 prec emax f). split; [reflexivity|apply result_fl].
  - intros [w x y z] [w' x' y' z']. cbv zeta. unfold qmul_fused. cbn. by repeat constructor.
Qed.

(** The bounds of the functions without fused operations (C84, C110, C134, C136). *)
Theorem dot_fused_error : ∀ v w s, dot_fused prec emax v w s → finite s →
  Rabs (val s - total (zip_with (λ a b, val a * val b) v w)) <=
    (q ^ length v - 1) * total (zip_with (λ a b, Rabs (val a * val b)) v w) + INR (length v) * q ^ length v * eta.
Proof.
  intros v w s H Hf. apply dot_fused_sum in H as [L H]. destruct (result_sum_error prec emax _ _ _ _ H Hf) as [_ B].
  by rewrite (rsum_zip prec emax (λ x, x)), (rsum_zip prec emax Rabs) in B by done.
Qed.
Theorem dot_fused_finite : ∀ v w s, dot_fused prec emax v w s → Forall finite v → Forall finite w →
  q ^ length v * (total (zip_with (λ a b, Rabs (val a * val b)) v w) + INR (length v) * eta) < bpow radix2 emax → finite s.
Proof.
  intros v w s H Hv Hw Hb. apply dot_fused_sum in H as [L H]. apply (result_sum_safe prec emax _ _ _ _ H).
  - intros k Hk. rewrite Forall_lookup in Hv, Hw.
    destruct (lookup_lt_is_Some_2 v k Hk) as [a Ha]. destruct (lookup_lt_is_Some_2 w k ltac:(lia)) as [b Hb'].
    rewrite (comp_lookup _ _ v k a Ha), (comp_lookup _ _ w k b Hb'). split; [by apply (Hv k)|by apply (Hw k)].
  - by rewrite (rsum_zip prec emax Rabs) by done.
Qed.
Theorem cross_fused_error : ∀ v w c, cross_fused prec emax v w c → ∃ x y z x' y' z', v = [x; y; z] ∧ w = [x'; y'; z'] ∧
  Forall2 (λ r '(a, b, c, d), finite r → finite a ∧ finite b ∧ finite c ∧ finite d ∧
    Rabs (val r - (val a * val b - val c * val d)) <= (q ^ 2 - 1) * (Rabs (val a * val b) + Rabs (val c * val d)) + 2 * q * eta)
    c [(y, z', z, y'); (z, x', x, z'); (x, y', y, x')].
Proof.
  intros v w c (es & E & H). destruct v as [|x [|y [|z [|? ?]]]]; try done. destruct w as [|x' [|y' [|z' [|? ?]]]]; try done. injection E as <-.
  exists x, y, z, x', y', z'. do 2 (split; [done|]). cbn [nsub nmul FloatExprProofs.xnum] in H.
  assert (K : ∀ a b c d r : F, result (Minus (Times (X a) (X b)) (Times (X c) (X d))) r → finite r → finite a ∧ finite b ∧ finite c ∧ finite d ∧
    Rabs (val r - (val a * val b - val c * val d)) <= (q ^ 2 - 1) * (Rabs (val a * val b) + Rabs (val c * val d)) + 2 * q * eta).
  { intros a b c' d r Hr Hf. destruct (result_error prec emax _ _ Hr Hf) as [L B]. cbn in L. do 4 (apply Forall_cons in L as [? L]; split; [done|]).
    eapply Rle_trans; [exact B|]. unfold bound. simpl. rewrite !Rabs_mult. apply Req_le. ring. }
  repeat match goal with H : Forall2 _ (_ :: _) _ |- _ => inversion H; clear H; subst | H : Forall2 _ [] _ |- _ => inversion H; clear H; subst end.
  do 3 (constructor; [by apply K|]). constructor.
Qed.
Theorem mat_vec_fused_error : ∀ cols rows A f v r, denotes A cols rows f → length v = cols → mat_vec_fused prec emax cols rows A v r → length r = rows ∧
  ∀ i z, r !! i = Some z → finite z →
  Rabs (val z - rsum cols (λ k, val (f k i) * val (comp N v k))) <=
    (q ^ cols - 1) * rsum cols (λ k, Rabs (val (f k i) * val (comp N v k))) + INR cols * q ^ cols * eta.
Proof.
  intros cols rows A f v r HA Hv (es & E & H).
  destruct (matrix_vector_product xnum cols rows _ (map X v) _ (denotes_X _ _ _ _ HA)) as (es' & E' & L' & K'); [by rewrite map_length|].
  rewrite E in E'. injection E' as <-. split; [rewrite <- L'; symmetry; by eapply Forall2_length|]. intros i z Hz Hf.
  destruct (Forall2_lookup_r _ _ _ _ _ H Hz) as (e & He & Hr). assert (Hi : (i < rows)%nat) by (rewrite <- L'; by eapply lookup_lt_Some).
  rewrite K' in He by done. injection He as <-. rewrite (sum_ext xnum cols _ (xprods prec emax (λ k, f k i) (comp N v))) in Hr by (intros; by rewrite comp_X).
  by apply (result_sum_error prec emax (λ k, f k i) (comp N v)).
Qed.
Theorem mat_mul_fused_error : ∀ cols rows rows2 A B f g C, denotes A cols rows f → denotes B rows2 cols g → mat_mul_fused prec emax cols rows rows2 A B C →
  ∃ h, denotes C rows2 rows h ∧ ∀ j i, (j < rows2)%nat → (i < rows)%nat → finite (h j i) →
  Rabs (val (h j i) - rsum cols (λ k, val (f k i) * val (g j k))) <=
    (q ^ cols - 1) * rsum cols (λ k, Rabs (val (f k i) * val (g j k))) + INR cols * q ^ cols * eta.
Proof.
  intros cols rows rows2 A B f g C HA HB (E & EE & H).
  destruct (matrix_product xnum cols rows rows2 _ _ _ _ (denotes_X _ _ _ _ HA) (denotes_X _ _ _ _ HB)) as (E' & EE' & [L' K']).
  rewrite EE in EE'. injection EE' as <-. exists (at_ N C).
  assert (LC : length C = rows2) by (rewrite <- L'; symmetry; by eapply Forall2_length).
  assert (Q : ∀ j, (j < rows2)%nat → ∃ c, C !! j = Some c ∧ length c = rows ∧ ∀ i, (i < rows)%nat → ∃ z, c !! i = Some z ∧ result (sum xnum cols (xprods prec emax (λ k, f k i) (g j))) z).
  { intros j Hj. destruct (K' j Hj) as (es & Hes & Le & Ki). destruct (Forall2_lookup_l _ _ _ _ _ H Hes) as (c & Hc & Hcc). exists c. split; [done|].
    split; [rewrite <- Le; symmetry; by eapply Forall2_length|]. intros i Hi. specialize (Ki i Hi). destruct (Forall2_lookup_l _ _ _ _ _ Hcc Ki) as (z & Hz & Hr).
    exists z. split; [done|]. by rewrite (sum_ext xnum cols _ (xprods prec emax (λ k, f k i) (g j))) in Hr by done. }
  split.
  - split; [done|]. intros j Hj. destruct (Q j Hj) as (c & Hc & Lc & Hi). exists c. do 2 (split; [done|]). intros i Hii. destruct (Hi i Hii) as (z & Hz & _).
    unfold at_. rewrite Hc. simpl. by rewrite Hz.
  - intros j i Hj Hi Hf. destruct (Q j Hj) as (c & Hc & Lc & Hii). destruct (Hii i Hi) as (z & Hz & Hr).
    assert (Ez : at_ N C j i = z) by (unfold at_; rewrite Hc; simpl; by rewrite Hz). rewrite Ez in Hf |- *. by apply (result_sum_error prec emax (λ k, f k i) (g j)).
Qed.
Theorem det2_fused_error : ∀ m f d, denotes m 2 2 f → det2_fused prec emax m d → finite d →
  (∀ j i, (j < 2)%nat → (i < 2)%nat → finite (f j i)) ∧
  Rabs (val d - laplace rnum 2 (ex f)) <= (q ^ 2 - 1) * permanent 2 (ex f) + eta * (q * 2).
Proof.
  intros m f d Hm (e & E & H) Hf. apply denotes_build in Hm as ->. change (Some (e2 prec emax f) = Some e) in E. apply (inj Some) in E. subst e.
  destruct (result_error prec emax _ _ H Hf) as [HL HE]. split.
  - clear -HL. rewrite Forall_forall in HL. intros j i Hj Hi. apply HL. clear HL. cbn. destruct j as [|[|]], i as [|[|]]; try lia; found.
  - rewrite <- (real2 prec emax f), <- (maj2 prec emax f). eapply Rle_trans; [exact HE|]. apply Rplus_le_compat_l. apply Rmult_le_compat_l; [apply Rlt_le, eta_pos|].
    eapply Rle_trans; [refine (und2 _ _ _ _ _ _)|]. lra.
Qed.
Theorem det3_fused_error : ∀ m f d, denotes m 3 3 f → det3_fused prec emax m d → finite d →
  (∀ j i, (j < 3)%nat → (i < 3)%nat → finite (f j i)) ∧
  Rabs (val d - laplace rnum 3 (ex f)) <= (q ^ 5 - 1) * permanent 3 (ex f) + eta * (q ^ 4 * rsum 3 (λ j, 2 * Rabs (val (f j 0%nat)) + 1)).
Proof.
  intros m f d Hm (e & E & H) Hf. apply denotes_build in Hm as ->. change (Some (e3 prec emax f) = Some e) in E. apply (inj Some) in E. subst e.
  destruct (result_error prec emax _ _ H Hf) as [HL HE]. split.
  - clear -HL. rewrite Forall_forall in HL. intros j i Hj Hi. apply HL. clear HL. cbn. destruct j as [|[|[|]]], i as [|[|[|]]]; try lia; found.
  - rewrite <- (real3 prec emax f), <- (maj3 prec emax f). eapply Rle_trans; [exact HE|]. apply Rplus_le_compat_l. apply Rmult_le_compat_l; [apply Rlt_le, eta_pos|].
    eapply Rle_trans; [refine (und3 _ _ _ _ _ _ _ _ _ _ _); apply und2|]. apply Req_le. f_equal. cbn. ring.
Qed.
Theorem det4_fused_error : ∀ m f d, denotes m 4 4 f → det4_fused prec emax m d → finite d →
  (∀ j i, (j < 4)%nat → (i < 4)%nat → finite (f j i)) ∧
  Rabs (val d - laplace rnum 4 (ex f)) <= (q ^ 9 - 1) * permanent 4 (ex f) +
    eta * (q ^ 8 * rsum 4 (λ j, Rabs (val (f j 0%nat)) * rsum 4 (λ k, if (k =? j)%nat then 0 else 2 * Rabs (val (f k 1%nat)) + 1) + 1)).
Proof.
  intros m f d Hm (e & E & H) Hf. apply denotes_build in Hm as ->. change (Some (e4 prec emax f) = Some e) in E. apply (inj Some) in E. subst e.
  destruct (result_error prec emax _ _ H Hf) as [HL HE]. split.
  - clear -HL. rewrite Forall_forall in HL. intros j i Hj Hi. apply HL. clear HL. cbn. destruct j as [|[|[|[|]]]], i as [|[|[|[|]]]]; try lia; found.
  - rewrite <- (real4 prec emax f), <- (maj4 prec emax f). eapply Rle_trans; [exact HE|]. apply Rplus_le_compat_l. apply Rmult_le_compat_l; [apply Rlt_le, eta_pos|].
    eapply Rle_trans; [refine (und4 _ _ _ _ _ _ _ _ _ _ _ _ _ _ _ _ _ _ _ _); [| |apply und3; apply und2|apply und3; apply und2|apply und3; apply und2|apply und3; apply und2]|].
    1,2: repeat match goal with |- context [Rabs ?x] => pose proof (Rabs_pos x); set (Rabs x) in * end; lra.
    apply Req_le. f_equal. cbn. ring.
Qed.
Theorem det_fused_finite : ∀ n m f d b, denotes m n n f → (0 <= b)%Z → (∀ j i, (j < n)%nat → (i < n)%nat → finite (f j i) ∧ Rabs (val (f j i)) <= bpow radix2 b) →
  (n = 2%nat → (2 * b + 1 < emax)%Z → det2_fused prec emax m d → finite d ∧ Rabs (val d) <= bpow radix2 (2 * b + 1)) ∧
  (n = 3%nat → (3 * b + 3 < emax)%Z → det3_fused prec emax m d → finite d ∧ Rabs (val d) <= bpow radix2 (3 * b + 3)) ∧
  (n = 4%nat → (4 * b + 6 < emax)%Z → det4_fused prec emax m d → finite d ∧ Rabs (val d) <= bpow radix2 (4 * b + 6)).
Proof.
  intros n m f d b Hm Hb Hf. apply denotes_build in Hm as ->. split_and!; intros -> Hl (e & E & H).
  - change (Some (e2 prec emax f) = Some e) in E. apply (inj Some) in E. subst e. replace (2 * b + 1)%Z with (log prec emax b (e2 prec emax f)) in Hl |- * by (cbn; lia).
    apply (result_finite prec emax); [done|done| |done]. cbn. repeat (apply Forall_cons_2; [apply Hf; lia|]). constructor.
  - change (Some (e3 prec emax f) = Some e) in E. apply (inj Some) in E. subst e. replace (3 * b + 3)%Z with (log prec emax b (e3 prec emax f)) in Hl |- * by (cbn; lia).
    apply (result_finite prec emax); [done|done| |done]. cbn. repeat (apply Forall_cons_2; [apply Hf; lia|]). constructor.
  - change (Some (e4 prec emax f) = Some e) in E. apply (inj Some) in E. subst e. replace (4 * b + 6)%Z with (log prec emax b (e4 prec emax f)) in Hl |- * by (cbn; lia).
    apply (result_finite prec emax); [done|done| |done]. cbn. repeat (apply Forall_cons_2; [apply Hf; lia|]). constructor.
Qed.
Lemma qmul_fused_component (e : expr) x ts l k : result e x → finite x → (∀ x, x ∈ l ++ k → x ∈ leaves prec emax e) → depth prec emax e = 4%nat →
  real prec emax e = total ts → maj prec emax e = total (map Rabs ts) → und prec emax e <= 4 * q ^ 3 →
  Forall finite l ∧ Forall finite k ∧ Rabs (val x - total ts) <= (q ^ 4 - 1) * total (map Rabs ts) + 4 * q ^ 3 * eta.
Proof.
  intros R H HL Hd Hr Hm Hu. destruct (result_error prec emax e x R H) as [L E]. rewrite Forall_forall in L. split; [|split].
  - apply Forall_forall. intros y Hy. apply L, HL, elem_of_app. by left.
  - apply Forall_forall. intros y Hy. apply L, HL, elem_of_app. by right.
  - unfold bound in E. rewrite Hd, Hr, Hm in E. pose proof (eta_pos prec emax). eapply Rle_trans; [exact E|]. apply Rplus_le_compat_l.
    rewrite Rmult_comm. apply Rmult_le_compat_r; lra.
Qed.
Theorem qmul_fused_error : ∀ p q r : @quat F, qmul_fused prec emax p q r →
  Forall2 (λ r ts, finite r → Forall finite (qlist p) ∧ Forall finite (qlist q) ∧
    Rabs (val r - total ts) <= ((1 + u) ^ 4 - 1) * total (map Rabs ts) + 4 * (1 + u) ^ 3 * eta)
    (qlist r) (hamilton (qval prec emax p) (qval prec emax q)).
Proof.
  intros [w x y z] [w' x' y' z'] [rw rx ry rz] (Hw & Hx & Hy & Hz). unfold qlist, qval, hamilton. cbn [qw qx qy qz].
  cbn [qw qx qy qz qmul nadd nsub nmul FloatExprProofs.xnum] in *. pose proof (u_pos prec) as Hq.
  assert (P : ∀ n, (n <= 3)%nat → q ^ n <= q ^ 3) by (intros n Hn; apply Rle_pow; [apply q_ge1|done]).
  pose proof (P 1%nat ltac:(lia)) as P1. pose proof (P 2%nat ltac:(lia)) as P2.
  constructor; [|constructor; [|constructor; [|constructor; [|constructor]]]]; intros H.
  - apply (qmul_fused_component _ _ _ _ _ Hw); qside.
  - apply (qmul_fused_component _ _ _ _ _ Hx); qside.
  - apply (qmul_fused_component _ _ _ _ _ Hy); qside.
  - apply (qmul_fused_component _ _ _ _ _ Hz); qside.
Qed.
Theorem qmul_fused_finite : ∀ (p q r : @quat F) b, qmul_fused prec emax p q r → (0 <= b)%Z → (2 * b + 3 < emax)%Z →
  Forall (λ x, finite x ∧ Rabs (val x) <= bpow radix2 b) (qlist p ++ qlist q) → Forall finite (qlist r).
Proof.
  intros [w x y z] [w' x' y' z'] [rw rx ry rz] b (Hw & Hx & Hy & Hz) Hb Hl H. unfold qlist in *.
  cbn [qw qx qy qz qmul nadd nsub nmul FloatExprProofs.xnum app] in *. rewrite Forall_forall in H.
  assert (K : ∀ (e : expr) r, result e r → (∀ t, t ∈ leaves prec emax e → t ∈ [w; x; y; z; w'; x'; y'; z']) → log prec emax b e = (2 * b + 3)%Z → finite r).
  { intros e r R HL He. apply (result_finite prec emax b e r Hb R); [|by rewrite He]. apply Forall_forall. intros a Ha. by apply H, HL. }
  constructor; [|constructor; [|constructor; [|constructor; [|constructor]]]].
  - apply (K _ _ Hw); [qside|cbn; lia].
  - apply (K _ _ Hx); [qside|cbn; lia].
  - apply (K _ _ Hy); [qside|cbn; lia].
  - apply (K _ _ Hz); [qside|cbn; lia].
Qed.

(** * C161: what fusing preserves and what it does not *)
Lemma fma_comm (x y z : F) : Bfma mode_NE x y z = Bfma mode_NE y x z.
Proof.
  assert (S : ∀ z : F, Bfma_szero prec emax mode_NE x y z = Bfma_szero prec emax mode_NE y x z) by (intros z'; unfold Bfma_szero; by rewrite (xorb_comm (Bsign x))).
  destruct x as [sx|sx| |sx mx ex Hx], y as [sy|sy| |sy my ey Hy]; try reflexivity; cbn [Bfma]; rewrite ?S; try done; try (by rewrite (xorb_comm sx)).
  unfold Fmult. rewrite (Z.mul_comm (SpecFloat.cond_Zopp sx _)), (Z.add_comm ex). destruct z; try done; by rewrite S.
Qed.
Theorem dot_fused_symmetric : ∀ v w s, dot_fused prec emax v w s → dot_fused prec emax w v s.
Proof.
  intros v w s H. apply dot_fused_sum in H as [L H]. apply dot_fused_sum. split; [done|]. rewrite <- L.
  generalize (length v), (comp N v), (comp N w), s, H. clear. intros n x y. induction n as [|n IH]; intros s H; [done|].
  apply result_step in H as (s' & H & [-> | ->]); apply IH in H; cbn [sum].
  - rewrite mult_comm. constructor; [done|]. by repeat constructor.
  - rewrite fma_comm. apply fused_right; [constructor..|done].
Qed.
(** The dot product of a vector with itself is not negative. *)
Theorem dot_fused_square : ∀ v s, dot_fused prec emax v v s → finite s → 0 <= val s.
Proof.
  intros v s H. apply dot_fused_sum in H as [_ H]. revert s H. generalize (length v), (comp N v). clear v. intros n x. induction n as [|n IH]; intros s H Hf.
  - cbn [sum] in H. apply result_X in H as ->. simpl. lra.
  - assert (M : ∀ x, 0 <= x → 0 <= rnd x).
    { intros t Ht. rewrite <- (round_0 radix2 (SpecFloat.fexp prec emax) ZnearestE). apply round_le; [typeclasses eauto..|done]. }
    apply result_step in H as (s' & H & [-> | ->]).
    + apply (plus_finite prec emax) in Hf as (Hs & Hp & ->). apply (mult_finite prec emax) in Hp as (_ & _ & ->). specialize (IH s' H Hs).
      apply M. pose proof (M _ (Rle_0_sqr (val (x n)))) as K. unfold Rsqr in K. lra.
    + apply (fma_finite prec emax) in Hf as (_ & _ & Hs & ->). specialize (IH s' H Hs). apply M. pose proof (Rle_0_sqr (val (x n))) as K. unfold Rsqr in K. lra.
Qed.
Lemma fma_opposite (a b p : F) : opposite prec emax (Bfma mode_NE a b (Bopp p)) (Bfma mode_NE (Bopp b) a p).
Proof.
  rewrite (fma_comm a). destruct (is_finite a && is_finite b && is_finite p) eqn:Hf.
  - rewrite !andb_true_iff in Hf. destruct Hf as [[Fa Fb] Fp].
    pose proof (Bfma_correct prec emax _ _ mode_NE b a (Bopp p) Fb Fa ltac:(by rewrite is_finite_Bopp)) as C1.
    pose proof (Bfma_correct prec emax _ _ mode_NE (Bopp b) a p ltac:(by rewrite is_finite_Bopp) Fa Fp) as C2.
    rewrite B2R_Bopp in C1, C2. cbn [round_mode] in C1, C2. cbv zeta in C1, C2. set (t := val b * val a + - val p) in *.
    replace (- val b * val a + val p) with (- t) in C2 by (unfold t; ring). rewrite round_NE_opp, Rabs_Ropp in C2.
    destruct (Rlt_bool (Rabs (rnd t)) (bpow radix2 emax)) eqn:B.
    + destruct C1 as (V1 & G1 & _), C2 as (V2 & G2 & _). apply opposite_val; [done|done|]. rewrite V1, V2. ring.
    + left. apply B2SF_inj. rewrite C1. set (r := Bfma mode_NE (Bopp b) a p) in *. clearbody r. destruct r as [s|s| |s m e H]; cbn in C2; try done.
      injection C2 as C2. cbn. unfold binary_overflow. cbn. f_equal. rewrite C2.
      assert (t ≠ 0).
      { intros E. rewrite E, round_0, Rabs_R0, Rlt_bool_true in B by (apply bpow_gt_0 || typeclasses eauto). done. }
      destruct (Rlt_le_dec t 0); [rewrite Rlt_bool_true, Rlt_bool_false by lra|rewrite Rlt_bool_false, Rlt_bool_true by lra]; done.
  - left. destruct b as [sx|sx| |sx mx ex Hx], a as [sy|sy| |sy my ey Hy], p as [sz|sz| |sz mz ez Hz]; try done; cbn;
      try (destruct sx, sy; reflexivity); try (destruct sx, sy, sz; reflexivity); destruct sz; reflexivity.
Qed.
(** Swapping the arguments of cross gives the opposite vectors. *)
Theorem cross_fused_antisymmetric : ∀ v w c, cross_fused prec emax v w c → ∃ d, cross_fused prec emax w v d ∧ Forall2 (opposite prec emax) c d.
Proof.
  intros v w c (es & E & H). destruct v as [|x [|y [|z [|? ?]]]]; try done. destruct w as [|x' [|y' [|z' [|? ?]]]]; try done. injection E as <-.
  cbn [nsub nmul FloatExprProofs.xnum] in H.
  assert (K : ∀ a b c d r : F, result (Minus (Times (X a) (X b)) (Times (X c) (X d))) r →
    ∃ r', result (Minus (Times (X d) (X c)) (Times (X b) (X a))) r' ∧ opposite prec emax r r').
  { intros a b c' d r Hr. inversion Hr as [| |? ? p p' H1 H2| | | |? ? ? p p' p'' H1 H2 H3|? ? ? p p' p'' H1 H2 H3]; subst.
    - apply result_prod in H1 as ->, H2 as ->. eexists. split; [by repeat constructor|]. rewrite (mult_comm prec emax d), (mult_comm prec emax b). apply minus_opposite.
    - apply result_X in H1 as ->, H2 as ->. apply result_prod in H3 as ->. eexists. split; [apply fused_negated; by repeat constructor|].
      rewrite (mult_comm prec emax d). apply fma_opposite.
    - apply result_X in H1 as ->, H2 as ->. apply result_prod in H3 as ->. eexists. split; [apply fused_minus; by repeat constructor|].
      rewrite (mult_comm prec emax b). apply opposite_sym, fma_opposite. }
  inversion H as [|? r1 ? l1 H1 Q1]; subst. inversion Q1 as [|? r2 ? l2 H2 Q2]; subst. inversion Q2 as [|? r3 ? l3 H3 Q3]; subst. inversion Q3; subst.
  apply K in H1 as (s1 & R1 & O1), H2 as (s2 & R2 & O2), H3 as (s3 & R3 & O3).
  exists [s1; s2; s3]. split; [eexists; split; [reflexivity|]|]; (do 3 (constructor; [eassumption|]); constructor).
Qed.
(** The ends of lerp are still met exactly. *)
Theorem lerp_fused_ends : ∀ v w t r, length v = length w → Forall finite v → Forall finite w → finite t → lerp_fused prec emax v w t r →
  (val t = 0 → Forall finite r ∧ map val r = map val v) ∧ (val t = 1 → Forall finite r ∧ map val r = map val w).
Proof.
  intros v w t r L Hv Hw Ht (es & E & H). unfold lerp in E. rewrite !vop_s_eq in E. cbn [mbind option_bind] in E. rewrite vadd_eq in E by (by rewrite !map_length).
  apply (inj Some) in E. subst es.
  assert (K : ∀ x y z, result (Plus (Times (X y) (X t)) (Times (X x) (Minus (X Bone) (X t)))) z → finite x → finite y →
    (val t = 0 → finite z ∧ val z = val x) ∧ (val t = 1 → finite z ∧ val z = val y)).
  { intros x y z Hr Hx Hy.
    assert (Fx : ∀ a b c d : F, finite a → finite b → finite c → val a * val b + val c = val d → finite (Bfma mode_NE a b c) ∧ val (Bfma mode_NE a b c) = val d).
    { intros a b c d Ha Hb Hc Ed. assert (Hf : finite (Bfma mode_NE a b c)) by (apply (fma_safe prec emax); [done..|]; rewrite Ed, rnd_val; apply val_lt).
      split; [done|]. by rewrite (proj2 (proj2 (proj2 (fma_finite prec emax _ _ _ Hf)))), Ed, rnd_val. }
    assert (RM : ∀ m, result (Minus (X Bone) (X t)) m → m = Bminus mode_NE Bone t).
    { intros m Hm. inversion Hm as [| |? ? ? ? H1 H2| | | | |]; subst. apply result_X in H1 as ->, H2 as ->. done. }
    assert (MX : ∀ p, result (Times (X x) (Minus (X Bone) (X t))) p → p = Bmult mode_NE x (Bminus mode_NE Bone t)).
    { intros p Hp. inversion Hp as [| | |? ? ? ? H1 H2| | | |]; subst. apply result_X in H1 as ->. apply RM in H2 as ->. done. }
    inversion Hr as [|? ? p p' H1 H2| | |? ? ? p p' p'' H1 H2 H3|? ? ? p p' p'' H1 H2 H3| |]; subst.
    - apply result_prod in H1 as ->. apply MX in H2 as ->. split; intros Et; [by apply mix_0|by apply mix_1].
    - apply result_X in H1 as ->, H2 as ->. apply MX in H3 as ->. split; intros Et; destruct (minus_one prec emax t Ht ltac:(lra)) as (Hm & Em & _); rewrite Et in Em.
      + rewrite Rminus_0_r in Em. pose proof (rnd_val prec emax Bone) as H1; rewrite Bone_correct in H1. rewrite H1 in Em.
        destruct (mult_exact prec emax x _ x Hx Hm) as [Hb Vb]; [rewrite Em; ring|]. apply Fx; [done..|]. rewrite Vb, Et. ring.
      + replace (1 - 1) with 0 in Em by ring. rewrite round_0 in Em by apply valid_rnd_N.
        destruct (mult_exact prec emax x _ (B754_zero false) Hx Hm) as [Hb Vb]; [rewrite Em; simpl; ring|]. apply Fx; [done..|]. rewrite Vb, Et. simpl. ring.
    - apply result_X in H1 as ->. apply RM in H2 as ->. apply result_prod in H3 as ->. split; intros Et; destruct (minus_one prec emax t Ht ltac:(lra)) as (Hm & Em & _); rewrite Et in Em.
      + rewrite Rminus_0_r in Em. pose proof (rnd_val prec emax Bone) as H1; rewrite Bone_correct in H1. rewrite H1 in Em.
        destruct (mult_exact prec emax y t (B754_zero false) Hy Ht) as [Ha Va]; [rewrite Et; simpl; ring|]. apply Fx; [done..|]. rewrite Va, Em. simpl. ring.
      + replace (1 - 1) with 0 in Em by ring. rewrite round_0 in Em by apply valid_rnd_N.
        destruct (mult_exact prec emax y t y Hy Ht) as [Ha Va]; [rewrite Et; ring|]. apply Fx; [done..|]. rewrite Va, Em. ring. }
  revert w L Hw r H. induction v as [|x v IH]; intros [|y w] L Hw r H; try done.
  - inversion H; subst. split; done.
  - cbn [map zip_with] in H. inversion H as [|? z ? r' Hz Hr]; subst. apply Forall_cons in Hv as [Hx Hv]. apply Forall_cons in Hw as [Hy Hw].
    destruct (IH Hv w ltac:(simpl in L; lia) Hw r' Hr) as [I0 I1]. destruct (K x y z Hz Hx Hy) as [K0 K1]. cbn [map].
    split; intros Et; [destruct (I0 Et) as [? ->], (K0 Et) as [? ->]|destruct (I1 Et) as [? ->], (K1 Et) as [? ->]]; (split; [by constructor|done]).
Qed.
(** The sign of a 2x2 determinant is right if the determinant is larger than the rounding
    error of one product. Without fused operations this holds without the condition (C135). *)
Theorem det2_fused_sign_partial : ∀ m f d, denotes m 2 2 f → det2_fused prec emax m d → finite d →
  u * Rmax (Rabs (val (f 0%nat 0%nat) * val (f 1%nat 1%nat))) (Rabs (val (f 1%nat 0%nat) * val (f 0%nat 1%nat))) + eta < Rabs (laplace rnum 2 (ex f)) →
  (0 < val d → 0 < laplace rnum 2 (ex f)) ∧ (val d < 0 → laplace rnum 2 (ex f) < 0).
Proof.
  intros m f d Hm (e & E & H) Hf. apply denotes_build in Hm as ->. change (Some (e2 prec emax f) = Some e) in E. apply (inj Some) in E. subst e.
  rewrite <- (real2 prec emax f). change (real prec emax (e2 prec emax f)) with (val (f 0%nat 0%nat) * val (f 1%nat 1%nat) - val (f 1%nat 0%nat) * val (f 0%nat 1%nat)).
  change (e2 prec emax f) with (Minus (Times (X (f 0%nat 0%nat)) (X (f 1%nat 1%nat))) (Times (X (f 1%nat 0%nat)) (X (f 0%nat 1%nat)))) in H.
  set (a := val (f 0%nat 0%nat) * val (f 1%nat 1%nat)). set (b := val (f 1%nat 0%nat) * val (f 0%nat 1%nat)). intros HB.
  assert (M : ∀ x y, x <= y → rnd x <= rnd y) by (intros x y; apply round_le; typeclasses eauto).
  assert (Z : rnd 0 = 0) by (apply round_0; typeclasses eauto).
  assert (Pos : ∀ x, 0 < rnd x → 0 < x) by (intros x Hx; destruct (Rle_lt_dec x 0) as [Q|Q]; [apply M in Q; lra|done]).
  assert (Neg : ∀ x, rnd x < 0 → x < 0) by (intros x Hx; destruct (Rle_lt_dec 0 x) as [Q|Q]; [apply M in Q; lra|done]).
  pose proof (u_pos prec) as Hu.
  assert (D : ∀ x, (x = a ∨ x = b) → Rabs (rnd x - x) < Rabs (a - b)).
  { intros x Hx. eapply Rle_lt_trans; [|exact HB]. destruct (rnd_mult prec emax x) as (t & t' & Ht & Ht' & ->).
    replace (x * (1 + t) + t' - x) with (t * x + t') by ring. eapply Rle_trans; [apply Rabs_triang|]. rewrite Rabs_mult. apply Rplus_le_compat; [|done].
    apply Rmult_le_compat; try apply Rabs_pos; [done|]. destruct Hx as [-> | ->]; [apply Rmax_l|apply Rmax_r]. }
  assert (Da := D a (or_introl eq_refl)). assert (Db := D b (or_intror eq_refl)).
  inversion H as [| |? ? p p' H1 H2| | | |? ? ? p p' p'' H1 H2 H3|? ? ? p p' p'' H1 H2 H3]; subst.
  - apply result_prod in H1 as ->, H2 as ->. apply (minus_finite prec emax) in Hf as (H1 & H2 & ->). apply (mult_finite prec emax) in H1 as (_ & _ & ->).
    apply (mult_finite prec emax) in H2 as (_ & _ & ->). fold a b. split; intros Hd.
    + apply Pos in Hd. destruct (Rle_lt_dec a b) as [Q|Q]; [apply M in Q; lra|lra].
    + apply Neg in Hd. destruct (Rle_lt_dec b a) as [Q|Q]; [apply M in Q; lra|lra].
  - apply result_X in H1 as ->, H2 as ->. apply result_prod in H3 as ->. apply (fma_finite prec emax) in Hf as (_ & _ & H3 & ->). rewrite opp_finite in H3.
    rewrite B2R_Bopp. apply (mult_finite prec emax) in H3 as (_ & _ & ->). fold a b. unfold Rabs in Db. split; intros Hd; [apply Pos in Hd|apply Neg in Hd]; repeat destruct (Rcase_abs _); lra.
  - apply result_X in H1 as ->, H2 as ->. apply result_prod in H3 as ->. apply (fma_finite prec emax) in Hf as (_ & _ & H3 & ->).
    rewrite B2R_Bopp. apply (mult_finite prec emax) in H3 as (_ & _ & ->). fold a. replace (- val (f 1%nat 0%nat) * val (f 0%nat 1%nat)) with (- b) by (unfold b; ring).
    unfold Rabs in Da. split; intros Hd; [apply Pos in Hd|apply Neg in Hd]; repeat destruct (Rcase_abs _); lra.
Qed.
End fma.

(** * float *)
Local Notation f32 := (binary_float 24 128).
Local Notation N32 := (fnum 24 128).
Local Notation val32 := (B2R (prec:=24) (emax:=128)).
Definition square_ex : list (list f32) := [[float32 4097 0; float32 4097 0]; [float32 4097 0; float32 4097 0]].
Definition near_ex : list (list f32) := [[float32 3 0; float32 194 0]; [float32 172961 0; float32 11184811 0]].
(** cross(v, v) is not the zero vector: x * y - round(y * x) is the rounding error. *)
Theorem cross_fused_self_refuted : ∃ v c : list f32, Forall (λ x, is_finite x = true) v ∧ cross_fused 24 128 v v c ∧ map val32 c = [0; 0; 1].
Proof.
  exists [float32 4097 0; float32 4097 0; float32 0 0], [float32 0 0; float32 0 0; Bfma mode_NE (float32 4097 0) (float32 4097 0) (Bopp (Bmult mode_NE (float32 4097 0) (float32 4097 0)))].
  split; [repeat constructor|]. split.
  - eexists. split; [reflexivity|]. cbn [nsub nmul FloatExprProofs.xnum].
    assert (E : ∀ a b : f32, Bminus mode_NE (Bmult mode_NE a b) (Bmult mode_NE b a) = float32 0 0 → result 24 128 (Minus (Times (X a) (X b)) (Times (X b) (X a))) (float32 0 0)).
    { intros a b <-. by repeat constructor. }
    constructor; [apply E; vm_compute; reflexivity|]. constructor; [apply E; vm_compute; reflexivity|]. constructor; [|constructor].
    apply fused_minus; by repeat constructor.
  - cbn [map]. repeat (apply f_equal2; [float_val; numerals; lra|]). done.
Qed.
(** The determinant of a singular 2x2 matrix is not zero. *)
Theorem det2_fused_singular_refuted : ∃ (m : list (list f32)) f d, denotes m 2 2 f ∧ det2_fused 24 128 m d ∧ is_finite d = true ∧
  laplace rnum 2 (λ j i, val32 (f j i)) = 0 ∧ val32 d = 1.
Proof.
  exists square_ex, (at_ N32 square_ex), (Bfma mode_NE (float32 4097 0) (float32 4097 0) (Bopp (Bmult mode_NE (float32 4097 0) (float32 4097 0)))).
  split; [by apply denotes_build|]. split; [eexists; split; [reflexivity|]; apply fused_minus; by repeat constructor|]. split; [vm_compute; reflexivity|].
  split; [|float_val; numerals; lra]. unfold laplace, minor. cbn [VecSpec.sum Nat.ltb Nat.leb Nat.even nadd nmul nneg n0 n1 rnum]. unfold Datatypes.id, at_. simpl. lra.
Qed.
(** The determinant is -1, the result 1. *)
Theorem det2_fused_sign_refuted : ∃ (m : list (list f32)) f d, denotes m 2 2 f ∧ det2_fused 24 128 m d ∧ is_finite d = true ∧
  laplace rnum 2 (λ j i, val32 (f j i)) = -1 ∧ val32 d = 1.
Proof.
  exists near_ex, (at_ N32 near_ex), (Bfma mode_NE (float32 3 0) (float32 11184811 0) (Bopp (Bmult mode_NE (float32 172961 0) (float32 194 0)))).
  split; [by apply denotes_build|]. split; [eexists; split; [reflexivity|]; apply fused_minus; by repeat constructor|]. split; [vm_compute; reflexivity|].
  split; [|float_val; numerals; lra]. unfold laplace, minor. cbn [VecSpec.sum Nat.ltb Nat.leb Nat.even nadd nmul nneg n0 n1 rnum]. unfold Datatypes.id, at_.
  cbn [near_ex lookup list_lookup default from_option]. unfold Datatypes.id. float_val. numerals. lra.
Qed.

(** * Examples *)
(** The fused dot product is exact where the other one is off by 1. *)
Definition va : list f32 := [float32 1 0; float32 4097 0].
Definition wa : list f32 := [float32 (-16785408) 0; float32 4097 0].
Definition sa : f32 := Bfma mode_NE (float32 4097 0) (float32 4097 0) (Bplus mode_NE (B754_zero false) (Bmult mode_NE (float32 1 0) (float32 (-16785408) 0))).
Example dot_fused_ex : dot_fused 24 128 va wa sa ∧ is_finite sa = true ∧ val32 sa = 1 ∧ total (zip_with (λ a b, val32 a * val32 b) va wa) = 1 ∧
  ∃ s, dot N32 va wa = Some s ∧ val32 s = 0.
Proof.
  split; [|split; [vm_compute; reflexivity|split; [float_val; numerals; lra|split]]].
  - eexists. split; [reflexivity|]. apply fused_right; [constructor..|]. by repeat constructor.
  - unfold va, wa, total. cbn [zip_with foldr]. float_val. numerals. lra.
  - eexists. split; [reflexivity|]. float_val. numerals. lra.
Qed.
Example dot_fused_finite_ex : Forall (λ x, is_finite x = true) va ∧ Forall (λ x, is_finite x = true) wa ∧
  (1 + u 24) ^ length va * (total (zip_with (λ a b, Rabs (val32 a * val32 b)) va wa) + INR (length va) * eta 24 128) < bpow radix2 128.
Proof.
  do 2 (split; [repeat constructor|]). assert (T : total (zip_with (λ a b, Rabs (val32 a * val32 b)) va wa) <= 40000000).
  { unfold va, wa, total. cbn [zip_with foldr]. float_val. numerals. unfold Rabs. repeat destruct (Rcase_abs _); lra. }
  set (t := total _) in *. clearbody t. rewrite u32. pose proof eta32. pose proof max32. pose proof (eta_pos 24 128). set (h := eta 24 128) in *. set (b := bpow radix2 128) in *. clearbody h b. cbn [length va pow INR]. lra.
Qed.
(** The same for a component of a cross product and of matrix products. *)
Example cross_fused_ex : ∃ c, cross_fused 24 128 [float32 0 0; float32 4097 0; float32 4098 0] [float32 0 0; float32 4096 0; float32 4097 0] c ∧
  ∃ x, c !! 0%nat = Some x ∧ is_finite x = true ∧ val32 x = 1.
Proof.
  eexists. split; [eexists; split; [reflexivity|]; constructor; [apply fused_minus; by repeat constructor|]; by repeat constructor|].
  eexists. split; [reflexivity|]. split; [vm_compute; reflexivity|]. float_val; numerals; lra.
Qed.
Definition ma : list (list f32) := [[float32 1 0]; [float32 4097 0]].
Example mat_fused_ex : denotes ma 2 1 (at_ N32 ma) ∧ denotes [wa] 1 2 (at_ N32 [wa]) ∧ mat_vec_fused 24 128 2 1 ma wa [sa] ∧ mat_mul_fused 24 128 2 1 1 ma [wa] [[sa]].
Proof.
  split; [by apply denotes_build|]. split; [by apply denotes_build|].
  assert (K : result 24 128 (Plus (Plus (X (B754_zero false)) (Times (X (float32 1 0)) (X (float32 (-16785408) 0)))) (Times (X (float32 4097 0)) (X (float32 4097 0)))) sa).
  { apply fused_right; [constructor..|]. by repeat constructor. }
  split; eexists; (split; [reflexivity|]); repeat (constructor; try exact K).
Qed.
Definition small (n : nat) : list (list f32) := build n n (λ j i, float32 (Z.of_nat (j * j + 3 * i + 1)) (-2)).
Example det_fused_ex : (∀ n, denotes (small n) n n (λ j i, float32 (Z.of_nat (j * j + 3 * i + 1)) (-2))) ∧
  (∃ d, det2_fused 24 128 (small 2) d ∧ is_finite d = true ∧ val32 d = -3/16) ∧ (∃ d, det3_fused 24 128 (small 3) d ∧ is_finite d = true ∧ val32 d = 0) ∧
  (∃ d, det4_fused 24 128 (small 4) d ∧ is_finite d = true ∧ val32 d = 0).
Proof.
  split; [intros n; by apply denotes_build|]. split_and!; eexists; (split; [eexists; split; [reflexivity|apply result_fl]|split; [vm_compute; reflexivity|]]);
    float_val; numerals; lra.
Qed.
Example det_fused_finite_ex : ∀ j i, (j < 4)%nat → (i < 4)%nat → is_finite (at_ N32 (small 4) j i) = true ∧ Rabs (val32 (at_ N32 (small 4) j i)) <= bpow radix2 3.
Proof.
  intros j i Hj Hi. replace (bpow radix2 3) with 8 by (simpl; lra).
  assert (E : at_ N32 (small 4) j i = float32 (Z.of_nat (j * j + 3 * i + 1)) (-2)) by (destruct j as [|[|[|[|]]]], i as [|[|[|[|]]]]; try lia; reflexivity).
  rewrite E. destruct j as [|[|[|[|]]]], i as [|[|[|[|]]]]; try lia; (split; [vm_compute; reflexivity|]); float_val; numerals; apply Rabs_le; lra.
Qed.
Example qmul_fused_ex : ∃ r, qmul_fused 24 128 (q_ex 2 2 (-2) 2) (q_ex 3 1 2 (-1)) r ∧ map val32 (qlist r) = [5 / 8; 3 / 8; 1 / 8; 5 / 8] ∧
  Forall (λ x, is_finite x = true) (qlist r).
Proof.
  exists (qmul N32 (q_ex 2 2 (-2) 2) (q_ex 3 1 2 (-1))). split; [apply fused_default|].
  unfold qlist, q_ex. split; [cbn [qmul qw qx qy qz map]; repeat (apply f_equal2; [float_val; numerals; lra|]); done|].
  repeat (apply Forall_cons_2; [vm_compute; reflexivity|]). by apply Forall_nil.
Qed.
Example dot_fused_square_ex : ∃ s, dot_fused 24 128 va va s ∧ is_finite s = true ∧ val32 s = 16785410.
Proof.
  eexists. split; [eexists; split; [reflexivity|]; apply fused_right; [constructor..|]; by repeat constructor|]. split; [vm_compute; reflexivity|]. float_val; numerals; lra.
Qed.
Example lerp_fused_ex : ∃ r, lerp_fused 24 128 [float32 3 0; float32 5 0] [float32 7 0; float32 1 0] (float32 1 0) r ∧ val32 (float32 1 0) = 1 ∧ map val32 r = [7; 1].
Proof.
  eexists. split; [eexists; split; [reflexivity|]; repeat (constructor; [apply fused_right; by repeat constructor|]); constructor|].
  split; [float_val; numerals; lra|]. cbn [map]. repeat (apply f_equal2; [float_val; numerals; lra|]). done.
Qed.
(** The determinant 8 is larger than the rounding error of the products 18 and 10. *)
Definition far_ex : list (list f32) := [[float32 2 0; float32 1 0]; [float32 10 0; float32 9 0]].
Example det2_fused_sign_ex : let f := at_ N32 far_ex in denotes far_ex 2 2 f ∧ (∃ d, det2_fused 24 128 far_ex d ∧ is_finite d = true ∧ val32 d = 8) ∧
  u 24 * Rmax (Rabs (val32 (f 0%nat 0%nat) * val32 (f 1%nat 1%nat))) (Rabs (val32 (f 1%nat 0%nat) * val32 (f 0%nat 1%nat))) + eta 24 128 < 8.
Proof.
  cbv zeta. split; [by apply denotes_build|]. split.
  - eexists. split; [eexists; split; [reflexivity|]; apply fused_minus; by repeat constructor|]. split; [vm_compute; reflexivity|]. float_val; numerals; lra.
  - pose proof eta32. rewrite u32. unfold at_, far_ex. cbn [lookup list_lookup default from_option]. unfold Datatypes.id. float_val. numerals. unfold Rmax, Rabs. repeat destruct (Rcase_abs _); repeat destruct (Rle_dec _ _); lra.
Qed.

Definition fma_theorems := (fused_default, dot_fused_error, dot_fused_finite, cross_fused_error, mat_vec_fused_error, mat_mul_fused_error, det2_fused_error, det3_fused_error,
  det4_fused_error, det_fused_finite, qmul_fused_error, qmul_fused_finite, dot_fused_symmetric, dot_fused_square, cross_fused_antisymmetric, lerp_fused_ends,
  det2_fused_sign_partial, cross_fused_self_refuted, det2_fused_singular_refuted, det2_fused_sign_refuted).
Print Assumptions fma_theorems.
