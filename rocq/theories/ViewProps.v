(** Theorems about xme::ArrayView. *)
From stdpp Require Import list.
From Coq Require Import ZArith Lia.
From Verif Require Import Base SimdModel SimdSpec ViewModel ViewSpec.
Local Open Scope Z_scope.
Local Open Scope mon_scope.

Lemma concat_sized w (ls : list (list Z)) : Forall (λ x, length x = w) ls → length (concat ls) = (length ls * w)%nat.
Proof. induction 1; simpl; [done|]. rewrite app_length. lia. Qed.

(** The bytes after the slice split. *)
Lemma views_bound w v s o ls : views w v s o ls → ls ≠ [] →
  Z.of_nat o + Z.of_nat (length ls * w) <= Z.of_nat (length (m_bytes s)).
Proof.
  intros (Hf & _ & [[-> _]|(pre & post & <- & -> & _)]) Hne; [done|].
  rewrite !app_length, (concat_sized w) by done. lia.
Qed.
Lemma views_small w v s o ls : (0 < w)%nat → real_mem s → views w v s o ls → size v < dynamic_size.
Proof.
  intros Hw [Hb He] Hv. destruct (decide (ls = [])) as [->|Hne].
  - destruct Hv as (_ & -> & _). unfold dynamic_size. simpl. lia.
  - pose proof (views_bound _ _ _ _ _ Hv Hne). destruct Hv as (_ & -> & _).
    unfold m_end in He. unfold dynamic_size. nia.
Qed.

Lemma vadd_ok pr w (s : mem) p k : real_mem s →
  (p = 0 ∧ k = 0 ∨ m_base s <= p + k * Z.of_nat w <= m_end s) →
  vadd pr w p k s = Ok (p + k * Z.of_nat w) s.
Proof.
  intros [Hb He] H. unfold vadd. destruct ((p =? 0) && (k =? 0)) eqn:E.
  - apply andb_true_iff in E as [E1 E2]. apply Z.eqb_eq in E1, E2. by subst.
  - destruct H as [[-> ->]|H]; [done|]. unfold padd. destruct pr.
    + rewrite Z.mod_small by lia. done.
    + rewrite (proj2 (Z.leb_le _ _)), (proj2 (Z.leb_le _ _)) by lia. done.
Qed.
Lemma load_ok (s : mem) pre x post : m_bytes s = pre ++ x ++ post →
  load (m_base s + Z.of_nat (length pre)) (length x) s = Ok x s.
Proof.
  intros E. unfold load, m_end. rewrite E, !app_length.
  rewrite !(proj2 (Z.leb_le _ _)) by lia. simpl.
  replace (Z.to_nat (m_base s + Z.of_nat (length pre) - m_base s)) with (length pre) by lia.
  by rewrite drop_app, take_app.
Qed.
Lemma store_ok (s : mem) pre y x post : m_bytes s = pre ++ y ++ post → length x = length y →
  store (m_base s + Z.of_nat (length pre)) x s = Ok tt (Mem (m_base s) (pre ++ x ++ post)).
Proof.
  intros E L. unfold store, m_end. rewrite E, !app_length, L.
  rewrite !(proj2 (Z.leb_le _ _)) by lia. simpl.
  replace (Z.to_nat (m_base s + Z.of_nat (length pre) - m_base s)) with (length pre) by lia.
  by rewrite take_app, (app_assoc pre y), drop_app_alt by (by rewrite app_length).
Qed.

Lemma views_slice w v s o ls off cnt v' :
  views w v s o ls → (off + cnt <= length ls)%nat →
  size v' = Z.of_nat cnt → v_ptr v' = v_ptr v + Z.of_nat (off * w) ∨ (ls = [] ∧ v_ptr v' = 0) →
  views w v' s (o + off * w) (slice off cnt ls).
Proof.
  intros (Hf & Hs & Hp) Hl Hs' Hp'. unfold slice. split; [by apply Forall_take, Forall_drop|]. split.
  { rewrite Hs', take_length, drop_length. lia. }
  destruct Hp as [[-> Hn]|(pre & post & Ho & E & Hp)].
  - left. simpl in Hl. rewrite drop_nil, take_nil. split; [done|].
    destruct Hp' as [->|[_ ->]]; [|done]. assert (off = 0%nat) as -> by lia. simpl. lia.
  - destruct Hp' as [Hp'|[-> ->]].
    + right. exists (pre ++ concat (take off ls)), (concat (drop cnt (drop off ls)) ++ post).
      split_and!.
      * rewrite app_length, (concat_sized w) by (by apply Forall_take). rewrite take_length, Nat.min_l by lia. lia.
      * rewrite E, <- !app_assoc. f_equal. rewrite !app_assoc, <- !concat_app. f_equal. f_equal.
        by rewrite <- app_assoc, take_drop, take_drop.
      * rewrite Hp', Hp. lia.
    + left. by rewrite drop_nil, take_nil.
Qed.

Lemma splice_insert w' (ls : list (list Z)) k x pre post : Forall (λ x, length x = w') ls → (k < length ls)%nat →
  let l := pre ++ concat ls ++ post in
  take (length pre + k * w') l ++ x ++ drop (length pre + k * w' + w') l = pre ++ concat (<[k:=x]> ls) ++ post.
Proof.
  intros Hf Hk l.
  destruct (lookup_lt_is_Some_2 ls k Hk) as [y Hy].
  assert (length y = w') as Hly by (by eapply Forall_lookup_1 in Hf).
  set (a := pre ++ concat (take k ls)). set (b := concat (drop (S k) ls) ++ post).
  assert (l = a ++ y ++ b) as ->.
  { unfold l, a, b. rewrite <- (take_drop_middle ls k y Hy) at 1. rewrite concat_app. simpl. by rewrite <- !app_assoc. }
  assert (length pre + k * w' = length a)%nat as ->.
  { unfold a. rewrite app_length, (concat_sized w'), take_length, Nat.min_l by (by apply Forall_take || lia). done. }
  rewrite take_app, (app_assoc a y b), drop_app_alt by (rewrite app_length; lia).
  unfold a, b. rewrite (insert_take_drop ls k x) by done. rewrite concat_app. simpl. by rewrite <- !app_assoc.
Qed.
Lemma take_before {A} (pre m post : list A) n : (length pre + length m <= n)%nat →
  take n (pre ++ m ++ post) = pre ++ m ++ take (n - length pre - length m) post.
Proof. intros. rewrite app_assoc, take_app_ge by (rewrite app_length; lia). rewrite app_length, <- app_assoc. do 3 f_equal. lia. Qed.
Lemma views_splice_disjoint w' v2 (s : mem) o2 ls2 p n x :
  views w' v2 s o2 ls2 → (p + n <= length (m_bytes s))%nat → length x = n →
  (p + n <= o2 ∨ o2 + length ls2 * w' <= p)%nat →
  views w' v2 (Mem (m_base s) (take p (m_bytes s) ++ x ++ drop (p + n) (m_bytes s))) o2 ls2.
Proof.
  intros (Hf & Hs & H) Hp Hx Hd. split; [done|]. split; [done|].
  destruct H as [H|(pre & post & Ho & E & Hptr)]; [by left|]. right. simpl. destruct Hd as [Hd|Hd].
  - exists (take p pre ++ x ++ drop (p + n) pre), post. split_and!; [|  |done].
    + rewrite !app_length, take_length, drop_length. lia.
    + rewrite E, take_app_le, drop_app_le by lia. by rewrite <- !app_assoc.
  - pose proof (concat_sized w' ls2 Hf). exists pre, (take (p - length pre - length (concat ls2)) post ++ x ++ drop (p + n - length pre - length (concat ls2)) post).
    split_and!; [done| |done].
    rewrite E, take_before by lia. rewrite drop_app_ge by lia. rewrite drop_app_ge by lia. by rewrite <- !app_assoc.
Qed.

Section props.
Context (pr : ptr_rule) (dbg : bool) (w : nat) (Hw : (0 < w)%nat).

Lemma assert_true b (s : mem) : b = true → assert_ dbg b s = Ok tt s.
Proof. intros ->. unfold assert_. by rewrite andb_false_r. Qed.

Lemma views_ptr v s o ls off : views w v s o ls → real_mem s → (off <= length ls)%nat →
  vadd pr w (v_ptr v) (Z.of_nat off) s = Ok (v_ptr v + Z.of_nat (off * w)) s.
Proof.
  intros Hv Hm Hl. rewrite vadd_ok; [f_equal; lia|done|].
  destruct Hv as (Hf & Hs & [[-> Hp]|(pre & post & Ho & E & Hp)]).
  - left. simpl in Hl. split; [done|lia].
  - right. rewrite Hp. unfold m_end. rewrite E, !app_length, (concat_sized w) by done. nia.
Qed.
Lemma views_word v s o ls n : views w v s o ls → real_mem s → (n <= length ls)%nat → Z.of_nat n < dynamic_size.
Proof.
  intros Hv Hm Hn. pose proof (views_small w _ _ _ _ Hw Hm Hv). destruct Hv as (_ & E & _). lia.
Qed.

(** ** C41 *)

(** Reading v[k] gives the k-th element shown; front and back the first and last. *)
Theorem view_get v s o ls k x : real_mem s → views w v s o ls → ls !! k = Some x →
  get pr w v (Z.of_nat k) s = Ok x s.
Proof.
  intros Hm Hv Hk. unfold get, index, begin, bind, ret.
  assert (k < length ls)%nat as Hkl by (by eapply lookup_lt_Some).
  rewrite (views_ptr v s o ls) by (done || lia).
  destruct Hv as (Hf & Hs & [[-> _]|(pre & post & Ho & E & Hp)]); [done|].
  assert (length x = w) as Hx by (by eapply Forall_lookup_1 in Hf).
  replace (v_ptr v + Z.of_nat (k * w)) with (m_base s + Z.of_nat (length (pre ++ concat (take k ls)))).
  2:{ rewrite app_length, (concat_sized w), take_length, Nat.min_l by (by apply Forall_take || lia). rewrite Hp. lia. }
  rewrite <- Hx. apply (load_ok s _ x (concat (drop (S k) ls) ++ post)).
  rewrite E, <- app_assoc. f_equal. rewrite <- (take_drop_middle ls k x Hk) at 1.
  rewrite concat_app. simpl. by rewrite <- !app_assoc.
Qed.
Theorem view_front_back v s o ls x y : real_mem s → views w v s o ls →
  ls !! 0%nat = Some x → ls !! pred (length ls) = Some y →
  front w v s = Ok x s ∧ back pr w v s = Ok y s.
Proof.
  intros Hm Hv Hx Hy. split.
  - pose proof (view_get v s o ls 0 x Hm Hv Hx) as H. revert H. unfold get, index, front, begin, bind, ret.
    rewrite (views_ptr v s o ls 0) by (done || lia). simpl. by rewrite Z.add_0_r.
  - assert (length ls ≠ 0%nat) as Hn by (destruct ls; done).
    pose proof (view_get v s o ls _ y Hm Hv Hy) as H. revert H. unfold get, index, back, end_, begin, bind, ret.
    rewrite (views_ptr v s o ls (pred (length ls))) by (done || lia).
    destruct Hv as (Hf & Hs & Hp). rewrite Hs, (views_ptr v s o ls) by (done || lia).
    rewrite vadd_ok; [|done|].
    + replace (v_ptr v + Z.of_nat (length ls * w) + -1 * Z.of_nat w) with (v_ptr v + Z.of_nat (pred (length ls) * w)) by nia.
      done.
    + right. destruct Hp as [[-> _]|(pre & post & Ho & E & Hp)]; [done|].
      rewrite Hp. unfold m_end. rewrite E, !app_length, (concat_sized w) by done. nia.
Qed.

(** begin() to end() spans size() elements; empty() tells whether there are any. *)
Theorem view_extent v s o ls : real_mem s → views w v s o ls →
  ∃ b e, begin v s = Ok b s ∧ data v s = Ok b s ∧ end_ pr w v s = Ok e s ∧
    e - b = Z.of_nat (length ls * w) ∧ pdiff w e b = size v ∧ size v = Z.of_nat (length ls) ∧
    (empty v = true ↔ ls = []).
Proof.
  intros Hm Hv. exists (v_ptr v), (v_ptr v + Z.of_nat (length ls * w)).
  assert (size v = Z.of_nat (length ls)) as Hs by apply Hv. split_and!; try done.
  - unfold end_. rewrite Hs. by eapply views_ptr.
  - lia.
  - unfold pdiff. rewrite Hs. replace (v_ptr v + _ - v_ptr v) with (Z.of_nat (length ls) * Z.of_nat w) by lia.
    apply Z.div_mul. lia.
  - unfold empty. rewrite Hs, Z.eqb_eq. destruct ls; simpl; split; (done || lia).
Qed.

(** subview, first, last, in dynamic and static form. *)
Theorem view_subview v s o ls off cnt : real_mem s → views w v s o ls → (off + cnt <= length ls)%nat →
  ∃ v', subview pr dbg w v (Z.of_nat off) (Z.of_nat cnt) s = Ok v' s ∧
    v_ext v' = Dynamic (Z.of_nat cnt) ∧ views w v' s (o + off * w) (slice off cnt ls).
Proof.
  intros Hm Hv Hl. eexists (View _ _). unfold subview, bind. rewrite assert_true.
  2:{ assert (size v = Z.of_nat (length ls)) as -> by apply Hv. apply Z.leb_le.
      pose proof (views_word v s o ls (off + cnt) Hv Hm ltac:(lia)). unfold dynamic_size in *.
      unfold uadd. rewrite Z.mod_small by lia. lia. }
  rewrite (views_ptr v s o ls) by (done || lia). unfold ctor_ptr, bind, ret. rewrite Z.eqb_refl. simpl.
  split_and!; [done|done|]. eapply views_slice; try done. by left.
Qed.
Theorem view_subview_static v s o ls off cnt : real_mem s → views w v s o ls → (off + cnt <= length ls)%nat →
  ∃ v', subview_static pr dbg w v (Z.of_nat off) (Z.of_nat cnt) s = Ok v' s ∧
    v_ext v' = Static (Z.of_nat cnt) ∧ views w v' s (o + off * w) (slice off cnt ls).
Proof.
  intros Hm Hv Hl. eexists (View _ _). unfold subview_static, bind.
  assert ((if is_dynamic v then assert_ dbg (uadd (Z.of_nat cnt) (Z.of_nat off) <=? size v)
           else static_assert_ (uadd (Z.of_nat cnt) (Z.of_nat off) <=? Size_of v)) s = Ok tt s) as ->.
  { pose proof (views_word v s o ls (off + cnt) Hv Hm ltac:(lia)) as Hb. unfold dynamic_size in Hb.
    assert (size v = Z.of_nat (length ls)) as Hs by apply Hv.
    unfold is_dynamic, Size_of. unfold size in *. destruct (v_ext v) as [n|n]; simpl in *.
    - destruct (n =? dynamic_size).
      + apply assert_true. apply Z.leb_le. unfold uadd. rewrite Z.mod_small by lia. lia.
      + unfold static_assert_. unfold uadd. rewrite Z.mod_small, (proj2 (Z.leb_le _ _)) by lia. done.
    - apply assert_true. apply Z.leb_le. unfold uadd. rewrite Z.mod_small by lia. lia. }
  rewrite (views_ptr v s o ls) by (done || lia). unfold ctor_ptr, bind, ret.
  pose proof (views_word v s o ls cnt Hv Hm ltac:(lia)).
  rewrite (proj2 (Z.eqb_neq _ _)) by lia. cbn [negb]. rewrite assert_true by apply Z.eqb_refl. simpl.
  split_and!; [done|done|]. eapply views_slice; try done. by left.
Qed.
Theorem view_first v s o ls n : real_mem s → views w v s o ls → (n <= length ls)%nat →
  (∃ v', first dbg v (Z.of_nat n) s = Ok v' s ∧
     v_ext v' = Dynamic (Z.of_nat n) ∧ views w v' s o (take n ls)) ∧
  (∃ v', first_static dbg v (Z.of_nat n) s = Ok v' s ∧
     v_ext v' = Static (Z.of_nat n) ∧ views w v' s o (take n ls)).
Proof.
  intros Hm Hv Hl.
  assert (size v = Z.of_nat (length ls)) as Hs by apply Hv.
  pose proof (views_word v s o ls n Hv Hm ltac:(lia)).
  assert (∀ v', size v' = Z.of_nat n → v_ptr v' = v_ptr v → views w v' s o (take n ls)) as Hsl.
  { intros v' ? E. replace o with (o + 0 * w)%nat by lia. apply (views_slice w v s o ls 0 n v'); try done. left. lia. }
  split; eexists (View _ _).
  - unfold first, bind. rewrite assert_true by (apply Z.leb_le; lia). unfold ctor_ptr, bind, ret. rewrite Z.eqb_refl. simpl.
    split_and!; [done|done|]. by apply Hsl.
  - unfold first_static, bind.
    assert ((if is_dynamic v then assert_ dbg (Z.of_nat n <=? size v) else static_assert_ (Z.of_nat n <=? Size_of v)) s = Ok tt s) as ->.
    { unfold is_dynamic, Size_of. unfold size in *. destruct (v_ext v) as [m|m]; simpl in *.
      - destruct (m =? dynamic_size); [apply assert_true; apply Z.leb_le; lia|].
        unfold static_assert_. rewrite (proj2 (Z.leb_le _ _)) by lia. done.
      - apply assert_true; apply Z.leb_le; lia. }
    unfold ctor_ptr, bind, ret. rewrite (proj2 (Z.eqb_neq _ _)) by lia. cbn [negb].
    rewrite assert_true by apply Z.eqb_refl. simpl. split_and!; [done|done|]. by apply Hsl.
Qed.
Theorem view_last v s o ls n : real_mem s → views w v s o ls → (n <= length ls)%nat →
  let d := (length ls - n)%nat in
  (∃ v', ViewModel.last pr dbg w v (Z.of_nat n) s = Ok v' s ∧
     v_ext v' = Dynamic (Z.of_nat n) ∧ views w v' s (o + d * w) (drop d ls)) ∧
  (∃ v', last_static pr dbg w v (Z.of_nat n) s = Ok v' s ∧
     v_ext v' = Static (Z.of_nat n) ∧ views w v' s (o + d * w) (drop d ls)).
Proof.
  intros Hm Hv Hl d.
  assert (size v = Z.of_nat (length ls)) as Hs by apply Hv.
  pose proof (views_word v s o ls (length ls) Hv Hm ltac:(lia)) as Hb. unfold dynamic_size in Hb.
  assert (∀ v', size v' = Z.of_nat n → v_ptr v' = v_ptr v + Z.of_nat (d * w) → views w v' s (o + d * w) (drop d ls)) as Hsl.
  { intros v' ? E. replace (drop d ls) with (slice d n ls).
    - apply (views_slice w v s o ls d n v'); try done; [unfold d; lia|]. by left.
    - unfold slice. apply take_ge. rewrite drop_length. unfold d. lia. }
  assert (usub (size v) (Z.of_nat n) = Z.of_nat d) as Hd.
  { rewrite Hs. unfold usub, d. rewrite Z.mod_small by lia. lia. }
  split; eexists (View _ _).
  - unfold ViewModel.last, bind. rewrite assert_true by (apply Z.leb_le; lia).
    rewrite Hd, (views_ptr v s o ls) by (done || unfold d; lia).
    unfold ctor_ptr, bind, ret. rewrite Z.eqb_refl. simpl.
    split_and!; [done|done|]. by apply Hsl.
  - unfold last_static, bind.
    assert ((if is_dynamic v then assert_ dbg (Z.of_nat n <=? size v) else static_assert_ (Z.of_nat n <=? Size_of v)) s = Ok tt s) as ->.
    { unfold is_dynamic, Size_of. unfold size in *. destruct (v_ext v) as [m|m]; simpl in *.
      - destruct (m =? dynamic_size); [apply assert_true; apply Z.leb_le; lia|].
        unfold static_assert_. rewrite (proj2 (Z.leb_le _ _)) by lia. done.
      - apply assert_true; apply Z.leb_le; lia. }
    rewrite Hd, (views_ptr v s o ls) by (done || unfold d; lia).
    unfold ctor_ptr, bind, ret. rewrite (proj2 (Z.eqb_neq _ _)) by (unfold dynamic_size; lia). cbn [negb].
    rewrite assert_true by apply Z.eqb_refl. simpl. split_and!; [done|done|]. by apply Hsl.
Qed.
(** Subviews compose: a subview of a subview is the subview at the sum of the
    offsets; first and last are subviews. *)
Theorem view_compose v s o ls o1 c1 o2 c2 : real_mem s → views w v s o ls →
  (o1 + c1 <= length ls)%nat → (o2 + c2 <= c1)%nat →
  (v1 <- subview pr dbg w v (Z.of_nat o1) (Z.of_nat c1) ;; subview pr dbg w v1 (Z.of_nat o2) (Z.of_nat c2)) s =
  subview pr dbg w v (Z.of_nat (o1 + o2)) (Z.of_nat c2) s.
Proof.
  intros Hm Hv H1 H2.
  assert (∀ v o ls off cnt, views w v s o ls → (off + cnt <= length ls)%nat →
    subview pr dbg w v (Z.of_nat off) (Z.of_nat cnt) s =
    Ok (View (v_ptr v + Z.of_nat (off * w)) (Dynamic (Z.of_nat cnt))) s) as Hsub.
  { clear -Hw Hm. intros v o ls off cnt Hv Hl. unfold subview, bind. rewrite assert_true.
    2:{ assert (size v = Z.of_nat (length ls)) as -> by apply Hv. apply Z.leb_le.
        pose proof (views_word v s o ls (off + cnt) Hv Hm ltac:(lia)). unfold dynamic_size in *.
        unfold uadd. rewrite Z.mod_small by lia. lia. }
    rewrite (views_ptr v s o ls) by (done || lia). unfold ctor_ptr, bind, ret. by rewrite Z.eqb_refl. }
  destruct (view_subview v s o ls o1 c1 Hm Hv H1) as (v1 & E1 & _ & Hv1).
  unfold bind. rewrite E1.
  rewrite (Hsub v1 _ _ o2 c2 Hv1) by (unfold slice; rewrite take_length, drop_length; lia).
  rewrite (Hsub v _ _ (o1 + o2)%nat c2 Hv) by lia.
  rewrite (Hsub v _ _ o1 c1 Hv) in E1 by lia. injection E1 as <-. simpl. do 2 f_equal. lia.
Qed.
Theorem view_first_last_sub v s o ls n : real_mem s → views w v s o ls → (n <= length ls)%nat →
  first dbg v (Z.of_nat n) s = subview pr dbg w v 0 (Z.of_nat n) s ∧
  ViewModel.last pr dbg w v (Z.of_nat n) s = subview pr dbg w v (Z.of_nat (length ls - n)) (Z.of_nat n) s.
Proof.
  intros Hm Hv Hl. assert (size v = Z.of_nat (length ls)) as Hs by apply Hv.
  pose proof (views_word v s o ls (length ls) Hv Hm ltac:(lia)) as Hb. unfold dynamic_size in Hb.
  split.
  - unfold first, subview, bind. rewrite !assert_true.
    2:{ unfold uadd. rewrite Z.mod_small by lia. apply Z.leb_le. lia. }
    2:{ apply Z.leb_le. lia. }
    change 0 with (Z.of_nat 0) at 1. rewrite (views_ptr v s o ls) by (done || lia). simpl. by rewrite Z.add_0_r.
  - unfold ViewModel.last, subview, bind. rewrite !assert_true.
    2:{ unfold uadd. rewrite Z.mod_small by lia. apply Z.leb_le. lia. }
    2:{ apply Z.leb_le. lia. }
    unfold usub. rewrite Hs, Z.mod_small by lia. by rewrite <- Nat2Z.inj_sub by lia.
Qed.

(** Assigning v[k] changes that element of the memory and nothing else: the
    bytes before and after it stay, and every other view that starts a whole
    number of elements later or earlier shows the change where it overlaps. *)
Lemma views_set v s o ls k x : real_mem s → views w v s o ls → (k < length ls)%nat → length x = w →
  set pr w v (Z.of_nat k) x s =
  Ok tt (Mem (m_base s) (take (o + k * w) (m_bytes s) ++ x ++ drop (o + k * w + w) (m_bytes s))) ∧
  (o + k * w + w <= length (m_bytes s))%nat.
Proof.
  intros Hm Hv Hk Hx. unfold set, index, begin, bind, ret.
  rewrite (views_ptr v s o ls) by (done || lia).
  pose proof (views_bound _ _ _ _ _ Hv) as Hb.
  destruct Hv as (Hf & Hs & [[-> _]|(pre & post & Ho & E & Hp)]); [simpl in Hk; lia|].
  assert (o + k * w + w <= length (m_bytes s))%nat as Hle.
  { specialize (Hb ltac:(destruct ls; simpl in *; [lia|done])). nia. }
  split; [|done].
  assert (m_bytes s = take (o + k * w) (m_bytes s) ++ take w (drop (o + k * w) (m_bytes s)) ++
                      drop (o + k * w + w) (m_bytes s)) as E2.
  { rewrite <- (take_drop (o + k * w) (m_bytes s)) at 1. f_equal.
    rewrite <- (take_drop w (drop (o + k * w) _)) at 1. f_equal. by rewrite drop_drop. }
  erewrite <- (store_ok s _ _ x _ E2).
  - f_equal. rewrite Hp, take_length. lia.
  - rewrite take_length, drop_length. lia.
Qed.
Theorem view_set v s o ls k x : real_mem s → views w v s o ls → (k < length ls)%nat → length x = w →
  ∃ s', set pr w v (Z.of_nat k) x s = Ok tt s' ∧ m_base s' = m_base s ∧ length (m_bytes s') = length (m_bytes s) ∧
    (∀ v2 o2 ls2 j, views w v2 s o2 ls2 → (o2 + j * w = o + k * w)%nat → views w v2 s' o2 (<[j:=x]> ls2)) ∧
    (∀ w2 v2 o2 ls2, views w2 v2 s o2 ls2 → (o + k * w + w <= o2 ∨ o2 + length ls2 * w2 <= o + k * w)%nat →
       views w2 v2 s' o2 ls2).
Proof.
  intros Hm Hv Hk Hx. destruct (views_set v s o ls k x Hm Hv Hk Hx) as [E Hle].
  eexists. split; [exact E|]. split_and!.
  - done.
  - simpl. rewrite !app_length, take_length, drop_length. lia.
  - intros v2 o2 ls2 j Hv2 Ho. destruct (decide (j < length ls2)%nat) as [Hj|Hj].
    + rewrite <- Ho. destruct Hv2 as (Hf2 & Hs2 & [[-> _]|(pre & post & Ho2 & E2 & Hp2)]); [simpl in Hj; lia|].
      split; [|split].
      * by apply Forall_insert.
      * by rewrite insert_length.
      * right. exists pre, post. simpl. split_and!; [done| |done].
        rewrite E2, <- Ho2. by apply splice_insert.
    + rewrite list_insert_ge by lia. apply views_splice_disjoint; try done. right. nia.
  - intros. by apply views_splice_disjoint.
Qed.

(** ** C43 *)

(** The byte view shows the object representations in order; its size is the
    number of bytes, and it is static exactly if the view is. *)
Theorem view_as_bytes v s o ls : real_mem s → views w v s o ls →
  ∃ v', as_bytes dbg w v s = Ok v' s ∧ views 1 v' s o (map (λ b, [b]) (concat ls)) ∧
    size v' = size_bytes w v ∧ size v' = size v * Z.of_nat w ∧
    (match v_ext v, v_ext v' with Static _, Static _ | Dynamic _, Dynamic _ => True | _, _ => False end).
Proof.
  intros Hm Hv. assert (size v = Z.of_nat (length ls)) as Hs by apply Hv.
  assert (Z.of_nat (length ls) * Z.of_nat w < dynamic_size) as Hb.
  { destruct (decide (ls = [])) as [->|Hne]; [unfold dynamic_size; simpl; lia|].
    pose proof (views_bound _ _ _ _ _ Hv Hne). destruct Hm as [? He]. unfold m_end in He. unfold dynamic_size. lia. }
  assert (size_bytes w v = size v * Z.of_nat w) as Hsb.
  { unfold size_bytes, umul. unfold dynamic_size in Hb. rewrite Hs. apply Z.mod_small. lia. }
  assert (∀ v', size v' = size v * Z.of_nat w → v_ptr v' = v_ptr v → views 1 v' s o (map (λ b, [b]) (concat ls))) as Hsl.
  { intros v' Hsz Hp. destruct Hv as (Hf & _ & H). split; [|split].
    - by apply Forall_map, Forall_true.
    - rewrite Hsz, Hs, map_length, (concat_sized w) by done. lia.
    - rewrite Hp. destruct H as [[-> ?]|(pre & post & Ho & E & ?)]; [by left|]. right.
      exists pre, post. split_and!; [done| |done]. rewrite E. do 2 f_equal. clear. induction (concat ls); simpl; congruence. }
  unfold as_bytes, data, begin, bind, ret. rewrite Hsb. unfold size, Size_of in *.
  destruct (v_ext v) as [n|n] eqn:Ev; simpl in *.
  - rewrite (proj2 (Z.eqb_neq n dynamic_size)) by nia. unfold ctor_ptr, bind, ret.
    assert (umul (Z.of_nat w) n = n * Z.of_nat w) as ->.
    { unfold umul. unfold dynamic_size in Hb. rewrite Z.mul_comm. apply Z.mod_small. lia. }
    rewrite (proj2 (Z.eqb_neq _ _)) by lia. cbn [negb]. rewrite assert_true by apply Z.eqb_refl.
    eexists. split; [done|]. split_and!; [|done|done|done]. by apply Hsl.
  - unfold ctor_ptr, bind, ret. simpl.
    eexists. split; [done|]. split_and!; [|done|done|done]. by apply Hsl.
Qed.

End props.

(** Assigning byte j through the byte view changes byte (j mod w) of element
    (j / w) and no other element. *)
Theorem view_write_byte pr dbg w v s o ls j b x : (0 < w)%nat → real_mem s → views w v s o ls →
  ls !! (j / w)%nat = Some x →
  ∃ v' s', as_bytes dbg w v s = Ok v' s ∧ set pr 1 v' (Z.of_nat j) [b] s = Ok tt s' ∧
    views w v s' o (<[(j / w)%nat := <[(j mod w)%nat := b]> x]> ls).
Proof.
  intros Hw Hm Hv Hx.
  destruct (view_as_bytes dbg w Hw v s o ls Hm Hv) as (v' & Ev' & Hv' & Hsz & _).
  assert (j / w < length ls)%nat as Hjl by (by eapply lookup_lt_Some).
  assert (length x = w) as Hlx by (destruct Hv as [Hf _]; by eapply Forall_lookup_1 in Hf).
  pose proof (Nat.div_mod j w ltac:(lia)) as Ej. pose proof (Nat.mod_upper_bound j w ltac:(lia)) as Hr.
  set (k := (j / w)%nat) in *. set (r := (j mod w)%nat) in *.
  assert (j < length (map (λ b, [b]) (concat ls)))%nat as Hj.
  { destruct Hv as [Hf _]. rewrite map_length, (concat_sized w) by done. nia. }
  destruct (views_set pr 1 ltac:(lia) v' s o _ j [b] Hm Hv' Hj eq_refl) as [Es Hle].
  exists v'. eexists. split; [done|]. split; [exact Es|].
  destruct Hv as (Hf & Hs & [[-> _]|(pre & post & Ho & E & Hp)]); [done|].
  split; [|split].
  - apply Forall_insert; [done|]. by rewrite insert_length.
  - by rewrite insert_length.
  - right. exists pre, post. simpl. split_and!; [done| |done].
    pose proof (splice_insert w ls k (<[r:=b]> x) pre post Hf Hjl) as Hsp. cbv zeta in Hsp. rewrite <- Hsp. clear Hsp.
    rewrite <- E.
    set (a := pre ++ concat (take k ls)). set (c := concat (drop (S k) ls) ++ post).
    assert (m_bytes s = a ++ x ++ c) as ->.
    { unfold a, c. rewrite E. rewrite <- (take_drop_middle ls k x Hx) at 1. rewrite concat_app. simpl. by rewrite <- !app_assoc. }
    assert (length pre + k * w = length a)%nat as Ha.
    { unfold a. rewrite app_length, (concat_sized w), take_length, Nat.min_l by (by apply Forall_take || lia). done. }
    rewrite Ha, (take_app a).
    assert (drop (length a + w) (a ++ x ++ c) = c) as ->.
    { rewrite app_assoc. apply drop_app_alt. rewrite app_length. lia. }
    replace (o + j * 1)%nat with (length a + r)%nat by nia.
    rewrite take_app_ge, Nat.add_comm, Nat.add_sub, take_app_le by lia.
    rewrite (drop_app_ge a) by lia. replace (r + length a + 1 - length a)%nat with (S r) by lia. rewrite drop_app_le by lia.
    rewrite (insert_take_drop x r b) by lia. by rewrite <- !app_assoc.
Qed.

(** Constructors: a pointer and a size, or two pointers, give a view of exactly
    these elements; a default-constructed view shows none. A static view asserts
    that the size is its own. *)
Theorem view_construct dbg w base pre ls post : (0 < w)%nat → Forall (λ x, length x = w) ls →
  let s := Mem base (pre ++ concat ls ++ post) in
  let p := base + Z.of_nat (length pre) in
  let n := Z.of_nat (length ls) in
  real_mem s →
  (∀ Size, Size = dynamic_size ∨ Size = n →
     ∃ v, ctor_ptr dbg Size p n s = Ok v s ∧ views w v s (length pre) ls ∧
          ctor_range dbg w Size p (p + n * Z.of_nat w) s = Ok v s) ∧
  (∀ Size, Size ≠ dynamic_size → Size ≠ n → ctor_ptr true Size p n s = UB AssertFail) ∧
  (∀ Size, Size = dynamic_size ∨ Size = 0 → ∃ v, ctor_default Size s = Ok v s ∧ views w v s (length pre) []).
Proof.
  intros Hw Hf s p n Hm.
  assert (n < dynamic_size) as Hn.
  { destruct Hm as [? He]. unfold m_end in He. simpl in *. rewrite !app_length, (concat_sized w) in He by done.
    unfold n, dynamic_size. nia. }
  split_and!.
  - intros Size HS.
    exists (View p (if Size =? dynamic_size then Dynamic n else Static Size)).
    assert (∀ m, m = n → ctor_ptr dbg Size p m s = Ok (View p (if Size =? dynamic_size then Dynamic n else Static Size)) s) as Hc.
    { intros m ->. unfold ctor_ptr, bind, ret. destruct HS as [->| ->]; [by rewrite Z.eqb_refl|].
      rewrite (proj2 (Z.eqb_neq n _)) by lia. cbn [negb]. by rewrite assert_true by apply Z.eqb_refl. }
    split_and!.
    + by apply Hc.
    + split; [done|]. split.
      * unfold size. simpl. destruct HS as [->| ->]; [by rewrite Z.eqb_refl|]. by rewrite (proj2 (Z.eqb_neq n _)) by lia.
      * right. by exists pre, post.
    + apply Hc. unfold pdiff. replace (p + n * Z.of_nat w - p) with (n * Z.of_nat w) by lia.
      rewrite Z.div_mul by lia. apply Z.mod_small. unfold dynamic_size in Hn. lia.
  - intros Size H1 H2. unfold ctor_ptr, bind, assert_. rewrite (proj2 (Z.eqb_neq Size _)) by done.
    by rewrite (proj2 (Z.eqb_neq n _)) by done.
  - intros Size HS. exists (View 0 (if Size =? dynamic_size then Dynamic 0 else Static 0)). split.
    + by destruct HS as [->| ->].
    + split; [done|]. split; [by destruct HS as [->| ->]|by left].
Qed.

(** A small allocation: two bytes, the 3 shorts 0x0102 0x0304 0x0506 and a byte. *)
Definition ex_s : mem := Mem 1000 ([9; 9] ++ concat [[1; 2]; [3; 4]; [5; 6]] ++ [8]).
Definition ex_v : view := View 1002 (Static 3).
Lemma ex_views : real_mem ex_s ∧ views 2 ex_v ex_s 2 [[1; 2]; [3; 4]; [5; 6]].
Proof.
  split; [by vm_compute|]. split; [by repeat constructor|]. split; [done|]. right. by exists [9; 9], [8].
Qed.
Example view_ex :
  get Strict 2 ex_v 1 ex_s = Ok [3; 4] ex_s ∧ back Strict 2 ex_v ex_s = Ok [5; 6] ex_s ∧
  (v <- subview Strict true 2 ex_v 1 2 ;; v' <- ViewModel.last Strict true 2 v 1 ;; set Strict 2 v' 0 [7; 7] ;;; get Strict 2 ex_v 2) ex_s
    = Ok [7; 7] (Mem 1000 [9; 9; 1; 2; 3; 4; 7; 7; 8]) ∧
  (v <- subview_static Strict true 2 ex_v 1 2 ;; ret v) ex_s = Ok (View 1004 (Static 2)) ex_s ∧
  (v <- as_bytes true 2 ex_v ;; set Strict 1 v 3 [7] ;;; get Strict 2 ex_v 1) ex_s
    = Ok [3; 7] (Mem 1000 [9; 9; 1; 2; 3; 7; 5; 6; 8]) ∧
  subview Strict true 2 ex_v 2 2 ex_s = UB AssertFail ∧
  ctor_ptr true 4 1002 3 ex_s = UB AssertFail.
Proof. by vm_compute. Qed.

(** ** C42 *)

(** Requests whose offset + count does not wrap are rejected when they leave the
    view: at run time by assert, for a static view at compile time. *)
Theorem view_reject_partial pr w v (s : mem) off cnt :
  0 <= off → 0 <= cnt → off + cnt < 2 ^ 64 → size v < off + cnt →
  subview pr true w v off cnt s = UB AssertFail ∧
  subview_static pr true w v off cnt s = UB AssertFail.
Proof.
  intros Ho Hc Hlt Hs. unfold subview, subview_static, bind, uadd, assert_, static_assert_.
  rewrite Z.mod_small by lia. rewrite (proj2 (Z.leb_gt (cnt + off) (size v))) by lia. split; [done|].
  unfold is_dynamic, Size_of. unfold size in Hs. destruct (v_ext v) as [n|n]; simpl in *; [|done].
  destruct (n =? dynamic_size); [done|]. by rewrite (proj2 (Z.leb_gt (cnt + off) n)) by lia.
Qed.
(** first and last reject every count larger than the view. *)
Theorem view_reject_first_last pr w v (s : mem) cnt : size v < cnt →
  first true v cnt s = UB AssertFail ∧ first_static true v cnt s = UB AssertFail ∧
  ViewModel.last pr true w v cnt s = UB AssertFail ∧ last_static pr true w v cnt s = UB AssertFail.
Proof.
  intros Hs. unfold first, first_static, ViewModel.last, last_static, bind, assert_, static_assert_.
  rewrite (proj2 (Z.leb_gt cnt (size v))) by lia.
  unfold is_dynamic, Size_of. unfold size in Hs. destruct (v_ext v) as [n|n]; simpl in *; [|done].
  destruct (n =? dynamic_size); [done|]. by rewrite (proj2 (Z.leb_gt cnt n)) by lia.
Qed.
(** Requests with static sizes on a static view are rejected with and without NDEBUG; on a
    dynamic one, and with sizes given at run time, NDEBUG turns the check off: first(count)
    then makes a view of whatever size is asked for. *)
Theorem view_reject_static pr dbg w n p (s : mem) off cnt : n ≠ dynamic_size → 0 <= off → 0 <= cnt → off + cnt < 2 ^ 64 →
  (n < off + cnt → subview_static pr dbg w (View p (Static n)) off cnt s = UB AssertFail) ∧
  (n < cnt → first_static dbg (View p (Static n)) cnt s = UB AssertFail ∧ last_static pr dbg w (View p (Static n)) cnt s = UB AssertFail) ∧
  first false (View p (Static n)) cnt s = Ok (View p (Dynamic cnt)) s.
Proof.
  intros Hn Ho Hc Hlt. unfold subview_static, first_static, last_static, first, bind, uadd, assert_, static_assert_, is_dynamic, Size_of. cbn [v_ext].
  rewrite (proj2 (Z.eqb_neq _ _) Hn), Z.mod_small by lia. split_and!.
  - intros H. by rewrite (proj2 (Z.leb_gt (cnt + off) n)) by lia.
  - intros H. by rewrite (proj2 (Z.leb_gt cnt n)) by lia.
  - unfold ctor_ptr. rewrite Z.eqb_refl. done.
Qed.
Example view_reject_ex :
  size ex_v < 2 + 2 ∧ subview Flat true 2 ex_v 2 2 ex_s = UB AssertFail ∧
  last_static Flat true 2 ex_v 4 ex_s = UB AssertFail ∧ subview_static Flat false 2 ex_v 2 2 ex_s = UB AssertFail.
Proof. by vm_compute. Qed.
(** The sum wraps: subview(2^64 - 1, 2) of a view of 3 elements passes the
    assertion. By the C++ rules the pointer arithmetic is undefined; on the
    machine the result is a view that starts one element before the original. *)
Theorem view_subview_refuted : ∃ v s off cnt,
  real_mem s ∧ views 2 v s 2 [[1; 2]; [3; 4]; [5; 6]] ∧ 0 <= off < 2 ^ 64 ∧ 0 <= cnt < 2 ^ 64 ∧ size v < off + cnt ∧
  subview Strict true 2 v off cnt s = UB OutOfBounds ∧
  ∃ v', subview Flat true 2 v off cnt s = Ok v' s ∧ views 2 v' s 0 [[9; 9]; [1; 2]].
Proof.
  exists (View 1002 (Dynamic 3)), ex_s, (2 ^ 64 - 1), 2. split_and!; try (by vm_compute).
  - split; [by repeat constructor|]. split; [done|]. right. by exists [9; 9], [8].
  - eexists. split; [by vm_compute|]. split; [by repeat constructor|]. split; [done|]. right.
    exists [], [3; 4; 5; 6; 8]. by vm_compute.
Qed.
(** The same for the static form, whose static_assert wraps too. *)
Theorem view_subview_static_refuted : ∃ off cnt v',
  size ex_v < off + cnt ∧ subview_static Flat true 2 ex_v off cnt ex_s = Ok v' ex_s ∧ views 2 v' ex_s 0 [[9; 9]; [1; 2]].
Proof.
  exists (2 ^ 64 - 1), 2. eexists. split_and!; [by vm_compute|by vm_compute|].
  split; [by repeat constructor|]. split; [done|]. right. exists [], [3; 4; 5; 6; 8]. by vm_compute.
Qed.

(** The default constructor: only for a size that is not known or zero, and then empty. *)
Theorem view_default : ∀ (Size : Z) (s s' : mem) v, ctor_default Size s = Ok v s' ↔
  s' = s ∧ (Size = 2 ^ 64 - 1 ∧ v = View 0 (Dynamic 0) ∨ Size = 0 ∧ v = View 0 (Static 0)).
Proof.
  intros Size s s' v. unfold ctor_default, static_assert_, bind, ret. change dynamic_size with (2 ^ 64 - 1).
  destruct (Z.eqb_spec Size (2 ^ 64 - 1)) as [->|Hn]; [|destruct (Z.eqb_spec Size 0) as [->|Hz]]; cbn.
  - split; [intros [= <- <-]; auto|]. intros [-> [[_ ->]|[[=] _]]]. done.
  - split; [intros [= <- <-]; auto|]. intros [-> [[[=] _]|[_ ->]]]. done.
  - split; [done|]. intros [_ [[? _]|[? _]]]; done.
Qed.
Theorem view_default_empty : ∀ Size (s s' : mem) v w, ctor_default Size s = Ok v s' → views w v s 0 [].
Proof.
  intros Size s s' v w [-> [[_ ->]|[_ ->]]]%view_default; (split; [constructor|]; split; [done|]; left; done).
Qed.
Example view_default_ex : ctor_default 0 ex_s = Ok (View 0 (Static 0)) ex_s ∧ ∀ v, ctor_default 3 ex_s ≠ Ok v ex_s.
Proof. split; [done|]. intros v H. apply view_default in H as [_ [[[=] _]|[[=] _]]]. Qed.

Definition view_theorems :=
  (@view_default, @view_default_empty, @view_get, @view_front_back, @view_extent, @view_subview, @view_subview_static, @view_first, @view_last,
   @view_compose, @view_first_last_sub, @view_set, @view_construct, @view_as_bytes, @view_write_byte,
   @view_reject_partial, @view_reject_first_last, @view_reject_static, @view_subview_refuted, @view_subview_static_refuted).
Print Assumptions view_theorems.
