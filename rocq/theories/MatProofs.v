(** Proofs about the model of matrices. *)
From stdpp Require Import list list_numbers.
From Coq Require Import Lia Ring_theory Ring.
From Verif Require Import VecModel VecSpec VecProofs MatModel.

(** The vector and the matrix with given entries. *)
Definition vecf {A} (n : nat) (f : nat → A) : list A := map f (seq 0 n).
Definition build {T} (cols rows : nat) (f : nat → nat → T) : list (list T) := vecf cols (λ j, vecf rows (f j)).
Lemma vecf_length {A} n (f : nat → A) : length (vecf n f) = n.
Proof. unfold vecf. by rewrite map_length, seq_length. Qed.
Lemma vecf_lookup {A} n (f : nat → A) i : i < n → vecf n f !! i = Some (f i).
Proof. intros H. unfold vecf. rewrite list_lookup_fmap, lookup_seq_lt by done. done. Qed.
Lemma vecf_ext {A} n (f g : nat → A) : (∀ i, i < n → f i = g i) → vecf n f = vecf n g.
Proof.
  intros H. apply list_eq. intros i. destruct (decide (i < n)).
  - rewrite !vecf_lookup by done. by rewrite H.
  - rewrite !lookup_ge_None_2 by (rewrite vecf_length; lia). done.
Qed.
Lemma vecf_eq {A} (v : list A) n f : length v = n → (∀ i, i < n → v !! i = Some (f i)) → v = vecf n f.
Proof.
  intros L H. apply list_eq. intros i. destruct (decide (i < n)).
  - rewrite vecf_lookup by done. by apply H.
  - rewrite !lookup_ge_None_2 by (rewrite ?vecf_length; lia). done.
Qed.
Lemma build_ext {T} c r (f g : nat → nat → T) : (∀ j i, j < c → i < r → f j i = g j i) → build c r f = build c r g.
Proof. intros H. apply vecf_ext. intros j Hj. apply vecf_ext. intros i Hi. by apply H. Qed.
Lemma denotes_build {T} (m : list (list T)) c r f : denotes m c r f ↔ m = build c r f.
Proof.
  split.
  - intros [L H]. apply vecf_eq; [done|]. intros j Hj. destruct (H j Hj) as (col & -> & Lc & Hc). f_equal. by apply vecf_eq.
  - intros ->. split; [apply vecf_length|]. intros j Hj. exists (vecf r (f j)). split; [exact (vecf_lookup c (λ j, vecf r (f j)) j Hj)|].
    split; [apply vecf_length|]. intros i Hi. by apply vecf_lookup.
Qed.
Lemma build_col {T} c r (f : nat → nat → T) j : j < c → build c r f !! j = Some (vecf r (f j)).
Proof. exact (vecf_lookup c (λ j, vecf r (f j)) j). Qed.
Lemma set_vecf {A} n (f : nat → A) i x : i < n → set (vecf n f) i x = Some (vecf n (λ k, if k =? i then x else f k)).
Proof.
  intros Hi. rewrite set_Some by (by rewrite vecf_length). f_equal. apply vecf_eq; [by rewrite insert_length, vecf_length|].
  intros k Hk. destruct (Nat.eqb_spec k i) as [->|Hne].
  - apply list_lookup_insert. by rewrite vecf_length.
  - rewrite list_lookup_insert_ne by done. by apply vecf_lookup.
Qed.
Lemma put_build {T} c r (f : nat → nat → T) j i x : j < c → i < r →
  put (build c r f) j i x = Some (build c r (λ j' i', if (j' =? j) && (i' =? i) then x else f j' i')).
Proof.
  intros Hj Hi. unfold put. rewrite build_col by done. simpl. rewrite set_vecf by done. simpl.
  unfold build. rewrite set_vecf by done. f_equal. apply vecf_ext. intros k Hk.
  destruct (Nat.eqb_spec k j) as [->|]; done.
Qed.
Lemma replicate_vecf {A} n (x : A) : replicate n x = vecf n (λ _, x).
Proof. apply vecf_eq; [apply replicate_length|]. intros. by apply lookup_replicate_2. Qed.
Lemma map_vecf {A B} (g : A → B) n f : map g (vecf n f) = vecf n (λ i, g (f i)).
Proof. unfold vecf. by rewrite map_map. Qed.
Lemma zip_vecf {A B C} (g : A → B → C) n f f' : zip_with g (vecf n f) (vecf n f') = vecf n (λ i, g (f i) (f' i)).
Proof.
  apply vecf_eq; [rewrite zip_with_length, !vecf_length; lia|].
  intros i Hi. apply lookup_zip_with_Some. do 2 eexists. split; [done|]. split; by apply vecf_lookup.
Qed.
(** A loop that writes the columns. *)
Lemma for_columns {T} (body : nat → list (list T) → option (list (list T))) c r f g :
  (∀ j m, j < c → length m = c → m !! j = Some (vecf r (f j)) → body j m = set m j (vecf r (g j))) →
  for_ c body (build c r f) = Some (build c r g).
Proof.
  intros Hb. apply for_fill; [apply vecf_length..|]. intros j m Hj L _ Hm.
  exists (vecf r (g j)). split; [by apply build_col|]. apply Hb; [done..|]. rewrite Hm by done. by apply build_col.
Qed.
(** A list of four. *)
Lemma vecf_4 {A} (f : nat → A) : vecf 4 f = [f 0; f 1; f 2; f 3].
Proof. done. Qed.
Lemma is4 c r : (c =? 4) && (r =? 4) = true → c = 4 ∧ r = 4.
Proof. intros H. apply andb_prop in H as [H1 H2]. split; by apply Nat.eqb_eq. Qed.

Section matrices.
Context {T : Type} (N : num T).
Notation zero := (n0 N).

Lemma comp_vecf n (f : nat → T) i : i < n → comp N (vecf n f) i = f i.
Proof. intros H. unfold comp. by rewrite vecf_lookup. Qed.
Lemma dot_vecf n f g : dot N (vecf n f) (vecf n g) = Some (sum N n (λ k, nmul N (f k) (g k))).
Proof.
  rewrite dot_eq by (by rewrite !vecf_length). f_equal. rewrite vecf_length. apply sum_ext. intros k Hk.
  by rewrite !comp_vecf.
Qed.
Lemma index_vecf n (f : nat → T) i : i < n → index (vecf n f) i = Some (f i).
Proof. intros H. apply index_lookup. by apply vecf_lookup. Qed.

Lemma mat_fill_eq c r s : mat_fill N c r s = Some (build c r (λ j i, if j =? i then s else zero)).
Proof.
  unfold mat_fill. destruct (_ && _) eqn:E; [apply is4 in E as [-> ->]; done|]. unfold matn_fill.
  destruct (for_ind (λ k m, m = build c r (λ j i, if (j =? i) && (j <? k) then s else zero))
    (λ i m, c ← m !! i; c' ← set c i s; set m i c') (min c r) (replicate c (replicate r zero))) as (m & Em & ->).
  - rewrite (replicate_vecf r), replicate_vecf. apply vecf_ext. intros j Hj. apply vecf_ext. intros i Hi.
    destruct (j =? i); done.
  - intros k m Hk ->. eexists. split; [exact (put_build c r _ k k s ltac:(lia) ltac:(lia))|].
    apply build_ext. intros j i Hj Hi.
    destruct (Nat.eqb_spec j k), (Nat.eqb_spec i k), (Nat.eqb_spec j i), (Nat.ltb_spec j k), (Nat.ltb_spec j (S k)); simpl; try done; lia.
  - rewrite Em. f_equal. apply build_ext. intros j i Hj Hi.
    destruct (Nat.eqb_spec j i); simpl; [|done]. destruct (Nat.ltb_spec j (min c r)); [done|lia].
Qed.
Lemma mat_default_eq c r : mat_default N c r = Some (build c r (λ j i, if j =? i then n1 N else zero)).
Proof. apply mat_fill_eq. Qed.
Lemma mat_neg_eq c r f : mat_neg N c r (build c r f) = Some (build c r (λ j i, nneg N (f j i))).
Proof.
  unfold mat_neg. destruct (_ && _) eqn:E; [apply is4 in E as [-> ->]; done|].
  unfold matn_neg. rewrite mat_fill_eq. simpl. apply for_columns. intros j m Hj L _.
  rewrite build_col by done. simpl. rewrite vneg_eq. simpl. by rewrite map_vecf.
Qed.
Lemma mat_op_s_eq {U} op (cast : U → T) c r f s :
  mat_op_s N op cast c r (build c r f) s = Some (build c r (λ j i, op (f j i) (cast s))).
Proof.
  unfold mat_op_s. destruct (_ && _) eqn:E; [apply is4 in E as [-> ->]; done|].
  unfold matn_op_s. rewrite mat_fill_eq. simpl. apply for_columns. intros j m Hj L _.
  rewrite build_col by done. simpl. rewrite vop_s_eq. simpl. by rewrite map_vecf.
Qed.
Lemma mat_op_eq {U} op (cast : U → T) c r f g :
  mat_op N op cast c r (build c r f) (build c r g) = Some (build c r (λ j i, op (f j i) (cast (g j i)))).
Proof.
  unfold mat_op. destruct (_ && _) eqn:E; [apply is4 in E as [-> ->]; done|].
  unfold matn_op. rewrite mat_fill_eq. simpl. apply for_columns. intros j m Hj L _.
  rewrite !build_col by done. simpl.
  rewrite vop_eq by (by rewrite !vecf_length). simpl. by rewrite zip_vecf.
Qed.
Lemma mat_self_s_eq {U} op (cast : U → T) c r f s :
  mat_self_s op cast c (build c r f) s = Some (build c r (λ j i, op (f j i) (cast s))).
Proof.
  unfold mat_self_s. apply for_columns. intros j m Hj L Hm. rewrite Hm. simpl. rewrite vself_s_eq. simpl. by rewrite map_vecf.
Qed.
Lemma mat_self_eq {U} op (cast : U → T) c r f g :
  mat_self op cast c (build c r f) (build c r g) = Some (build c r (λ j i, op (f j i) (cast (g j i)))).
Proof.
  unfold mat_self. apply for_columns. intros j m Hj L Hm. rewrite Hm. simpl. rewrite build_col by done. simpl.
  rewrite vself_eq by (by rewrite !vecf_length). simpl. by rewrite zip_vecf.
Qed.
Lemma mat_row_eq c r (f : nat → nat → T) i : i < r → mat_row c r (build c r f) i = Some (vecf c (λ k, f k i)).
Proof.
  intros Hi. unfold mat_row. destruct (_ && _) eqn:E.
  - apply is4 in E as [-> ->]. unfold build. rewrite vecf_4. unfold mat4_row. rewrite !index_vecf by done. done.
  - unfold matn_row. apply for_fill_read; [apply vecf_length|]. intros k x l Hk L Hx.
    rewrite vecf_lookup in Hx by done. injection Hx as <-. rewrite build_col by done. simpl. by rewrite index_vecf.
Qed.
Lemma mat_vec_eq c r f v : mat_vec N c r (build c r f) (vecf c v) = Some (vecf r (λ i, sum N c (λ k, nmul N (f k i) (v k)))).
Proof.
  unfold mat_vec. destruct (_ && _) eqn:E.
  - apply is4 in E as [-> ->].
    assert (H : ∀ i, i < 4 → mat4_row (build 4 4 f) i = Some (vecf 4 (λ k, f k i))) by (intros i Hi; by apply (mat_row_eq 4 4)).
    rewrite !H by lia. cbn [mbind option_bind]. rewrite !dot_vecf. done.
  - unfold matn_vec. apply for_fill_read; [apply vecf_length|]. intros i x l Hi L Hx.
    rewrite vecf_lookup in Hx by done. injection Hx as <-. rewrite mat_row_eq by done. simpl. by rewrite dot_vecf.
Qed.
Lemma mat_mul_eq c r r2 f g : mat_mul N c r r2 (build c r f) (build r2 c g) =
  Some (build r2 r (λ j i, sum N c (λ k, nmul N (f k i) (g j k)))).
Proof.
  unfold mat_mul. rewrite mat_fill_eq. cbn [mbind option_bind].
  set (h := λ j i, sum N c (λ k, nmul N (f k i) (g j k))).
  match goal with |- for_ r ?body ?r0 = _ =>
    destruct (for_ind (λ k m, m = build r2 r (λ j i, if i <? k then h j i else if j =? i then zero else zero)) body r r0) as (m & Em & ->) end.
  - apply build_ext. intros; destruct (_ =? _); done.
  - intros i m Hi ->. rewrite mat_row_eq by done. cbn [mbind option_bind].
    match goal with |- ∃ _, for_ r2 ?body ?r0 = _ ∧ _ =>
      destruct (for_ind (λ k m, m = build r2 r (λ j i', if (i' <? i) || ((i' =? i) && (j <? k)) then h j i' else if j =? i' then zero else zero)) body r2 r0) as (m & Em & ->) end.
    + apply build_ext. intros j i' Hj Hi'. destruct (Nat.eqb_spec i' i); simpl; destruct (_ <? _); done.
    + intros j m Hj ->. rewrite (build_col r2 c g) by done. cbn [mbind option_bind]. rewrite dot_vecf. cbn [mbind option_bind].
      eexists. split; [exact (put_build r2 r _ j i _ Hj Hi)|]. apply build_ext. intros j' i' Hj' Hi'.
      destruct (Nat.eqb_spec j' j) as [->|], (Nat.eqb_spec i' i) as [->|]; simpl.
      * destruct (Nat.ltb_spec j (S j)); [|lia]. rewrite orb_true_r. done.
      * done.
      * destruct (Nat.ltb_spec j' j), (Nat.ltb_spec j' (S j)); try lia; done.
      * done.
    + eexists. split; [exact Em|]. apply build_ext. intros j i' Hj Hi'.
      destruct (Nat.ltb_spec j r2); [|lia].
      destruct (Nat.ltb_spec i' i), (Nat.eqb_spec i' i), (Nat.ltb_spec i' (S i)); simpl; try lia; done.
  - rewrite Em. f_equal. apply build_ext. intros j i Hj Hi. destruct (Nat.ltb_spec i r); [done|lia].
Qed.
Lemma transpose_eq c r f : transpose N c r (build c r f) = Some (build r c (λ j i, f i j)).
Proof.
  unfold transpose. rewrite mat_default_eq. cbn [mbind option_bind].
  set (e := λ j i : nat, if j =? i then n1 N else zero).
  match goal with |- for_ c ?body ?r0 = _ =>
    destruct (for_ind (λ k m, m = build r c (λ j i, if i <? k then f i j else e j i)) body c r0) as (m & Em & ->) end.
  - done.
  - intros i m Hi ->.
    match goal with |- ∃ _, for_ r ?body ?r0 = _ ∧ _ =>
      destruct (for_ind (λ k m, m = build r c (λ j i', if (i' <? i) || ((i' =? i) && (j <? k)) then f i' j else e j i')) body r r0) as (m & Em & ->) end.
    + apply build_ext. intros j i' Hj Hi'. destruct (Nat.eqb_spec i' i); simpl; destruct (_ <? _); done.
    + intros j m Hj ->. rewrite (build_col c r f) by done. cbn [mbind option_bind]. rewrite index_vecf by done. cbn [mbind option_bind].
      eexists. split; [exact (put_build r c _ j i _ Hj Hi)|]. apply build_ext. intros j' i' Hj' Hi'.
      destruct (Nat.eqb_spec j' j) as [->|], (Nat.eqb_spec i' i) as [->|]; simpl.
      * destruct (Nat.ltb_spec j (S j)); [|lia]. rewrite orb_true_r. done.
      * done.
      * destruct (Nat.ltb_spec j' j), (Nat.ltb_spec j' (S j)); try lia; done.
      * done.
    + eexists. split; [exact Em|]. apply build_ext. intros j i' Hj Hi'.
      destruct (Nat.ltb_spec j r); [|lia].
      destruct (Nat.ltb_spec i' i), (Nat.eqb_spec i' i), (Nat.ltb_spec i' (S i)); simpl; try lia; done.
  - rewrite Em. f_equal. apply build_ext. intros j i Hj Hi. destruct (Nat.ltb_spec i c); [done|lia].
Qed.
Lemma outer_product_eq n1 n2 u v : outer_product N (vecf n1 u) (vecf n2 v) = Some (build n2 n1 (λ j i, nmul N (u i) (v j))).
Proof.
  unfold outer_product. rewrite mat_default_eq, !vecf_length. cbn [mbind option_bind]. apply for_columns. intros j m Hj L _.
  rewrite index_vecf by done. cbn [mbind option_bind]. rewrite vscale_eq. simpl. by rewrite map_vecf.
Qed.
Lemma hadamard_product_eq c r f g :
  hadamard_product N c r (build c r f) (build c r g) = Some (build c r (λ j i, nmul N (f j i) (g j i))).
Proof.
  unfold hadamard_product. rewrite mat_default_eq. cbn [mbind option_bind]. apply for_columns. intros j m Hj L _.
  rewrite !build_col by done. cbn [mbind option_bind].
  rewrite vmul_eq by (by rewrite !vecf_length). simpl. by rewrite zip_vecf.
Qed.
End matrices.
