(** Proofs about the model of vectors. *)
From stdpp Require Import list list_numbers.
From Coq Require Import Lia Ring_theory Ring.
From Verif Require Import VecModel VecSpec.

(** ** Loops *)
Lemma loop_ind {S} (P : nat → S → Prop) (body : nat → S → option S) n : ∀ i s, P i s →
  (∀ k s, i ≤ k < i + n → P k s → ∃ s', body k s = Some s' ∧ P (Datatypes.S k) s') →
  ∃ s', loop i n body s = Some s' ∧ P (i + n) s'.
Proof.
  induction n as [|n IH]; intros i s Hi Hb; simpl.
  - exists s. rewrite Nat.add_0_r. done.
  - destruct (Hb i s ltac:(lia) Hi) as (s1 & -> & H1). simpl.
    destruct (IH (Datatypes.S i) s1 H1) as (s2 & -> & H2).
    + intros k s' Hk. apply Hb. lia.
    + exists s2. replace (i + Datatypes.S n) with (Datatypes.S i + n) by lia. done.
Qed.
Lemma for_ind {S} (P : nat → S → Prop) (body : nat → S → option S) n s : P 0 s →
  (∀ k s, k < n → P k s → ∃ s', body k s = Some s' ∧ P (Datatypes.S k) s') →
  ∃ s', for_ n body s = Some s' ∧ P n s'.
Proof. intros H0 Hb. apply (loop_ind P body n 0 s H0). intros k s' Hk. apply Hb. lia. Qed.
Lemma set_Some {A} (r : list A) i x : i < length r → set r i x = Some (<[i := x]> r).
Proof. intros H. unfold set. destruct (Nat.ltb_spec i (length r)); [done|lia]. Qed.
(** A loop that writes the components of [t] one after the other. *)
Lemma for_fill {A} (body : nat → list A → option (list A)) (r0 t : list A) n : length r0 = n → length t = n →
  (∀ i r, i < n → length r = n → (∀ k, k < i → r !! k = t !! k) → (∀ k, i ≤ k → r !! k = r0 !! k) →
     ∃ x, t !! i = Some x ∧ body i r = set r i x) →
  for_ n body r0 = Some t.
Proof.
  intros L0 Lt Hb.
  destruct (for_ind (λ i r, length r = n ∧ (∀ k, k < i → r !! k = t !! k) ∧ (∀ k, i ≤ k → r !! k = r0 !! k)) body n r0) as (r & E & L & H & _).
  - split_and!; [done|lia|done].
  - intros i r Hi (L & H1 & H2). destruct (Hb i r Hi L H1 H2) as (x & Hx & ->).
    rewrite set_Some by lia. eexists. split; [done|]. split_and!.
    + by rewrite insert_length.
    + intros k Hk. destruct (decide (i = k)) as [<-|Hne]; [rewrite list_lookup_insert by lia; done|].
      rewrite list_lookup_insert_ne by done. apply H1. lia.
    + intros k Hk. rewrite list_lookup_insert_ne by lia. apply H2. lia.
  - rewrite E. f_equal. apply list_eq. intros k. destruct (decide (k < n)); [by apply H|].
    rewrite !lookup_ge_None_2 by lia. done.
Qed.
Lemma read_all_Some {A} (v : list A) : read_all (map Some v) = Some v.
Proof. unfold read_all. induction v as [|x v IH]; [done|]. simpl. by rewrite IH. Qed.
Lemma for_fill_read {A} (body : nat → list (option A) → option (list (option A))) (t : list A) n : length t = n →
  (∀ i x r, i < n → length r = n → t !! i = Some x → body i r = set r i (Some x)) →
  (r ← for_ n body (uninit n); read_all r) = Some t.
Proof.
  intros Lt Hb. rewrite (for_fill body (uninit n) (map Some t) n).
  - apply read_all_Some.
  - apply replicate_length.
  - by rewrite map_length.
  - intros i r Hi L _ _. destruct (lookup_lt_is_Some_2 t i) as [x Hx]; [lia|].
    exists (Some x). rewrite list_lookup_fmap, Hx. split; [done|]. by apply Hb.
Qed.
(** A loop that adds up. *)
Lemma for_sum {T} (N : num T) (body : nat → T → option T) (f : nat → T) n :
  (∀ i acc, i < n → body i acc = Some (nadd N acc (f i))) → for_ n body (n0 N) = Some (sum N n f).
Proof.
  intros Hb. destruct (for_ind (λ i acc, acc = sum N i f) body n (n0 N)) as (r & E & ->); [done| |done].
  intros k acc Hk ->. rewrite Hb by done. eexists. done.
Qed.
Lemma sum_ext {T} (N : num T) n f g : (∀ k, k < n → f k = g k) → sum N n f = sum N n g.
Proof. induction n as [|n IH]; intros H; [done|]. simpl. rewrite IH by (intros; apply H; lia). by rewrite H by lia. Qed.

Section vectors.
Context {T : Type} (N : num T).

Lemma index_lookup (v : list T) i x : v !! i = Some x → index v i = Some x.
Proof. intros H. unfold index. assert (Hl := lookup_lt_Some _ _ _ H). destruct (Nat.ltb_spec i (length v)); [done|lia]. Qed.
Lemma index_comp (v : list T) i : i < length v → index v i = Some (comp N v i).
Proof.
  intros H. destruct (lookup_lt_is_Some_2 v i H) as [x Hx]. rewrite (index_lookup _ _ _ Hx). unfold comp. by rewrite Hx.
Qed.
Lemma vneg_eq v : vneg N v = Some (map (nneg N) v).
Proof.
  assert (Hn : vecn_neg N v = Some (map (nneg N) v)).
  { unfold vecn_neg. apply for_fill_read; [by rewrite map_length|].
    intros i x r Hi L Hx. rewrite list_lookup_fmap in Hx. apply fmap_Some in Hx as (y & Hy & ->). by rewrite Hy. }
  destruct v as [|? [|? [|? [|? [|]]]]]; done.
Qed.
Lemma vop_s_eq {U} op (cast : U → T) v s : vop_s N op cast v s = Some (map (λ x, op x (cast s)) v).
Proof.
  assert (Hn : vecn_op_s N op cast v s = Some (map (λ x, op x (cast s)) v)).
  { unfold vecn_op_s. apply for_fill; [by rewrite replicate_length|by rewrite map_length|].
    intros i r Hi L _ _. destruct (lookup_lt_is_Some_2 v i) as [x Hx]; [lia|].
    exists (op x (cast s)). rewrite list_lookup_fmap, Hx. split; [done|]. by rewrite (index_lookup _ _ _ Hx). }
  destruct v as [|? [|? [|? [|? [|]]]]]; done.
Qed.
Lemma vop_eq {U} op (cast : U → T) v w : length v = length w →
  vop N op cast v w = Some (zip_with (λ x y, op x (cast y)) v w).
Proof.
  intros Hlen.
  assert (Hn : vecn_op N op cast v w = Some (zip_with (λ x y, op x (cast y)) v w)).
  { unfold vecn_op. apply for_fill; [by rewrite replicate_length|rewrite zip_with_length; lia|].
    intros i r Hi L _ _. destruct (lookup_lt_is_Some_2 v i) as [x Hx]; [lia|].
    destruct (lookup_lt_is_Some_2 w i) as [y Hy]; [lia|].
    exists (op x (cast y)). rewrite lookup_zip_with, Hx. simpl. rewrite Hy. split; [done|].
    by rewrite (index_lookup _ _ _ Hx). }
  unfold vop. rewrite Hlen, Nat.eqb_refl. cbn [negb].
  destruct v as [|? [|? [|? [|? [|]]]]], w as [|? [|? [|? [|? [|]]]]]; done.
Qed.
Lemma vself_s_eq {U} op (cast : U → T) v s : vself_s op cast v s = Some (map (λ x, op x (cast s)) v).
Proof.
  assert (Hn : vecn_self_s op cast v s = Some (map (λ x, op x (cast s)) v)).
  { unfold vecn_self_s. apply for_fill; [done|by rewrite map_length|].
    intros i r Hi L _ Hr. destruct (lookup_lt_is_Some_2 v i) as [x Hx]; [lia|].
    exists (op x (cast s)). rewrite list_lookup_fmap, Hx. split; [done|].
    rewrite (index_lookup r i x); [done|]. by rewrite Hr. }
  destruct v as [|? [|? [|? [|? [|]]]]]; done.
Qed.
Lemma vself_eq {U} op (cast : U → T) v w : length v = length w →
  vself op cast v w = Some (zip_with (λ x y, op x (cast y)) v w).
Proof.
  intros Hlen.
  assert (Hn : vecn_self op cast v w = Some (zip_with (λ x y, op x (cast y)) v w)).
  { unfold vecn_self. apply for_fill; [done|rewrite zip_with_length; lia|].
    intros i r Hi L _ Hr. destruct (lookup_lt_is_Some_2 v i) as [x Hx]; [lia|].
    destruct (lookup_lt_is_Some_2 w i) as [y Hy]; [lia|].
    exists (op x (cast y)). rewrite lookup_zip_with, Hx. simpl. rewrite Hy. split; [done|].
    rewrite (index_lookup r i x); [done|]. by rewrite Hr. }
  unfold vself. rewrite Hlen, Nat.eqb_refl. cbn [negb].
  destruct v as [|? [|? [|? [|? [|]]]]], w as [|? [|? [|? [|? [|]]]]]; done.
Qed.
Lemma vself_alias_eq op v : vself_alias op v = Some (map (λ x : T, op x x) v).
Proof.
  unfold vself_alias. apply for_fill; [done|by rewrite map_length|].
  intros i r Hi L _ Hr. destruct (lookup_lt_is_Some_2 v i) as [x Hx]; [lia|].
  exists (op x x). rewrite list_lookup_fmap, Hx. split; [done|].
  rewrite (index_lookup r i x); [done|]. by rewrite Hr.
Qed.
Lemma vassign_eq {U} (cast : U → T) v w : length v = length w → vassign cast v w = Some (map cast w).
Proof.
  intros Hlen.
  assert (Hn : (if length v =? length w then for_ (length v) (λ i r, y ← w !! i; set r i (cast y)) v else None) = Some (map cast w)).
  { rewrite Hlen, Nat.eqb_refl. rewrite <- Hlen. apply for_fill; [done|by rewrite map_length|].
    intros i r Hi L _ _. destruct (lookup_lt_is_Some_2 w i) as [y Hy]; [lia|].
    exists (cast y). rewrite list_lookup_fmap, Hy. done. }
  unfold vassign. destruct v as [|? [|? [|? [|? [|]]]]], w as [|? [|? [|? [|? [|]]]]]; done.
Qed.
Lemma dot_eq v w : length v = length w →
  dot N v w = Some (sum N (length v) (λ i, nmul N (comp N v i) (comp N w i))).
Proof.
  intros Hlen. unfold dot. rewrite Hlen, Nat.eqb_refl, <- Hlen. cbn [negb]. apply for_sum.
  intros i acc Hi. rewrite (index_comp v) by done. simpl. rewrite (index_comp w) by lia. done.
Qed.
Lemma vadd_eq v w : length v = length w → vadd N v w = Some (zip_with (nadd N) v w).
Proof. apply (vop_eq (nadd N) id). Qed.
Lemma vsub_eq v w : length v = length w → vsub N v w = Some (zip_with (nsub N) v w).
Proof. apply (vop_eq (nsub N) id). Qed.
Lemma vmul_eq v w : length v = length w → vmul N v w = Some (zip_with (nmul N) v w).
Proof. apply (vop_eq (nmul N) id). Qed.
Lemma vscale_eq v s : vscale N v s = Some (map (λ x, nmul N x s) v).
Proof. apply (vop_s_eq (nmul N) id). Qed.

Lemma comp_map (f : T → T) v i : i < length v → comp N (map f v) i = f (comp N v i).
Proof. intros H. unfold comp. rewrite list_lookup_fmap. destruct (lookup_lt_is_Some_2 v i H) as [x ->]. done. Qed.
Lemma comp_zip (f : T → T → T) v w i : i < length v → length v = length w →
  comp N (zip_with f v w) i = f (comp N v i) (comp N w i).
Proof.
  intros H L. unfold comp. rewrite lookup_zip_with. destruct (lookup_lt_is_Some_2 v i H) as [x ->].
  destruct (lookup_lt_is_Some_2 w i) as [y Hy]; [lia|]. simpl. rewrite Hy. done.
Qed.
Lemma vec_ext (v w : list T) : length v = length w → (∀ i, i < length v → comp N v i = comp N w i) → v = w.
Proof.
  intros L H. apply list_eq. intros i. destruct (decide (i < length v)) as [Hi|Hi].
  - specialize (H i Hi). unfold comp in H. destruct (lookup_lt_is_Some_2 v i Hi) as [x Hx].
    destruct (lookup_lt_is_Some_2 w i) as [y Hy]; [lia|]. rewrite Hx, Hy in *. simpl in H. by subst.
  - rewrite !lookup_ge_None_2 by lia. done.
Qed.
End vectors.

(** ** Sums in a ring *)
Section ring.
Context {T : Type} (N : num T) (RT : ring_theory (n0 N) (n1 N) (nadd N) (nmul N) (nsub N) (nneg N) eq).
Add Ring Tring : RT.
Lemma sum_add n f g : sum N n (λ k, nadd N (f k) (g k)) = nadd N (sum N n f) (sum N n g).
Proof. induction n as [|n IH]; simpl; [ring|]. rewrite IH. ring. Qed.
Lemma sum_mul_l n a f : sum N n (λ k, nmul N a (f k)) = nmul N a (sum N n f).
Proof. induction n as [|n IH]; simpl; [ring|]. rewrite IH. ring. Qed.
Lemma sum_mul_r n a f : sum N n (λ k, nmul N (f k) a) = nmul N (sum N n f) a.
Proof. induction n as [|n IH]; simpl; [ring|]. rewrite IH. ring. Qed.
Lemma sum_zero n : sum N n (λ _, n0 N) = n0 N.
Proof. induction n as [|n IH]; simpl; [done|]. rewrite IH. ring. Qed.
Lemma sum_swap n m f : sum N n (λ i, sum N m (λ j, f i j)) = sum N m (λ j, sum N n (λ i, f i j)).
Proof.
  induction n as [|n IH]; simpl; [by rewrite sum_zero|]. rewrite IH. symmetry. apply (sum_add m (λ j, sum N n (λ i, f i j)) (f n)).
Qed.
Lemma sum_delta n k f : k < n → sum N n (λ i, if i =? k then f i else n0 N) = f k.
Proof.
  intros Hk. assert (H0 : ∀ m, m ≤ k → sum N m (λ i, if i =? k then f i else n0 N) = n0 N).
  { intros m Hm. etransitivity; [|apply (sum_zero m)]. apply sum_ext. intros i Hi. destruct (Nat.eqb_spec i k); [lia|done]. }
  induction n as [|n IH]; [lia|]. simpl. destruct (Nat.eqb_spec n k) as [->|Hne].
  - rewrite H0 by done. ring.
  - rewrite IH by lia. ring.
Qed.
End ring.
