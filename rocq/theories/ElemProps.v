(** Theorems about the places of components and access by index. *)
From Coq Require Import ZArith List Bool Lia.
From Verif Require Import LayoutModel LayoutProps ElemModel.
Import ListNotations.
Local Open Scope Z_scope.

(** An element type: its size is a positive multiple of its alignment. *)
Definition element (w a : Z) : Prop := 0 < a /\ 0 < w /\ exists k, w = k * a.

Lemma round_up_multiple k a : 0 < a -> round_up (k * a) a = k * a.
Proof.
  intros Ha. unfold round_up. replace (k * a + a - 1) with ((a - 1) + k * a) by lia.
  rewrite Z.div_add, Z.div_small by lia. lia.
Qed.
Lemma place_repeat w a n : element w a -> forall k, 0 <= k ->
  place (k * w) (repeat (Field w a) n) = (map (fun i => (k + Z.of_nat i) * w) (seq 0 n), (k + Z.of_nat n) * w).
Proof.
  intros (Ha & Hw & m & Hm). induction n as [|n IH]; intros k Hk; simpl.
  - f_equal. lia.
  - assert (round_up (k * w) a = k * w) as ->.
    { rewrite Hm. rewrite Z.mul_assoc. apply round_up_multiple. exact Ha. }
    replace (k * w + w) with ((k + 1) * w) by lia. rewrite IH by lia.
    rewrite <- seq_shift, map_map. f_equal; [|lia].
    f_equal; [simpl; lia|]. apply map_ext. intros i. lia.
Qed.
Lemma storage_layout w a s : element w a -> (0 < storage_size s)%nat ->
  nth 0 (offsets (storage_fields w a s)) 0 = 0 /\ class_align (storage_fields w a s) = a /\
  class_size (storage_fields w a s) = Z.of_nat (storage_size s) * w.
Proof.
  intros He Hn. pose proof He as (Ha & Hw & m & Hm). destruct s as [n|n]; simpl in Hn |- *.
  - assert (class_align (repeat (Field w a) n) = a) as Hal.
    { destruct n; [lia|]. clear Hn. induction n as [|n IH]; [simpl; lia|]. change (Z.max a (class_align (repeat (Field w a) (S n))) = a).
      rewrite IH. lia. }
    pose proof (place_repeat w a n He 0 ltac:(lia)) as Hp. change (0 * w) with 0 in Hp.
    unfold offsets, class_size. rewrite Hp, Hal. simpl fst; simpl snd. split; [|split; [reflexivity|]].
    + destruct n; [lia|]. simpl. lia.
    + rewrite Hm, Z.mul_assoc, round_up_multiple by exact Ha. rewrite Z.max_r by nia. lia.
  - unfold class_align, class_size, offsets. simpl.
    assert (round_up 0 a = 0) as -> by (apply (round_up_multiple 0); exact Ha).
    rewrite Z.max_l by lia. split; [reflexivity|split; [reflexivity|]].
    replace (0 + Z.of_nat n * w) with ((Z.of_nat n * m) * a) by (rewrite Hm; lia).
    rewrite round_up_multiple by exact Ha. rewrite Z.max_r by nia. rewrite Hm. lia.
Qed.

(** Vectors and quaternions have no padding, and v[i] designates component [i], whether it is
    a member or an element of an array. *)
Theorem components_packed : forall w a s i checked, element w a -> (i < storage_size s)%nat ->
  index Bytes checked w a s i = Done (Z.of_nat i * w) /\
  class_size (storage_fields w a s) = Z.of_nat (storage_size s) * w /\ class_align (storage_fields w a s) = a /\
  (forall n, s = Members n -> nth_error (offsets (storage_fields w a s)) i = Some (Z.of_nat i * w)).
Proof.
  intros w a s i checked He Hi. destruct (storage_layout w a s He ltac:(lia)) as (H0 & H1 & H2).
  split; [|split; [exact H2|split; [exact H1|]]].
  - unfold index. rewrite H0. apply Nat.ltb_lt in Hi as Hb. rewrite Hb, andb_false_r.
    destruct s as [n|n]; simpl in *; [f_equal; lia|]. rewrite Hb. f_equal; lia.
  - intros n ->. simpl in *. pose proof (place_repeat w a n He 0 ltac:(lia)) as Hp. change (0 * w) with 0 in Hp.
    unfold offsets. rewrite Hp. simpl fst. rewrite nth_error_map.
    rewrite (nth_error_nth' _ 0%nat) by (rewrite seq_length; lia). rewrite seq_nth by lia. simpl. f_equal.
Qed.
Example components_packed_ex : index Bytes true 4 4 (vector_storage 3) 2 = Done 8 /\ class_size (storage_fields 4 4 (vector_storage 3)) = 12 /\ index Bytes false 8 8 quaternion_storage 3 = Done 24.
Proof. repeat split. Qed.

(** Matrices have no padding either: the component in column [col] and row [row] is number
    [col * rows + row], as OpenGL expects. *)
Theorem matrix_packed : forall w a cols rows col row, element w a -> (col < cols)%nat -> (row < rows)%nat ->
  matrix_index Bytes w a cols rows col row = Done (Z.of_nat (col * rows + row) * w) /\
  class_size (matrix_fields w a cols rows) = Z.of_nat (cols * rows) * w.
Proof.
  intros w a cols rows col row He Hc Hr.
  assert (storage_size (vector_storage rows) = rows) as Hs by (destruct rows as [|[|[|[|[|n]]]]]; reflexivity).
  destruct (components_packed w a (vector_storage rows) row true He ltac:(lia)) as (H1 & H2 & H3 & _).
  unfold matrix_index, matrix_fields. apply Nat.ltb_lt in Hc as Hb. rewrite Hb, H1. cbn [andThen class_field f_size f_align].
  rewrite H2, H3, Hs. split; [f_equal; nia|].
  assert (0 < cols * rows)%nat as Hp by (apply Nat.mul_pos_pos; lia).
  destruct (storage_layout w a (InArray (cols * rows)) He Hp) as (_ & _ & H4).
  cbn [storage_fields storage_size] in H4. rewrite <- H4.
  replace (Z.of_nat cols * (Z.of_nat rows * w)) with (Z.of_nat (cols * rows) * w) by (rewrite Nat2Z.inj_mul; ring).
  reflexivity.
Qed.
Example matrix_packed_ex : matrix_index Bytes 4 4 4 3 2 1 = Done 28 /\ class_size (matrix_fields 4 4 4 3) = 48.
Proof. apply (matrix_packed 4 4 4 3 2 1); [|lia|lia]. repeat split; try lia. exists 1; lia. Qed.

(** An index that is too large is noticed where assertions are enabled; nothing else is
    accessed. *)
Theorem index_checked : forall r w a s i, (storage_size s <= i)%nat -> index r true w a s i = Assert.
Proof. intros r w a s i H. unfold index. apply Nat.ltb_ge in H as ->. reflexivity. Qed.
Example index_checked_ex : index Bytes true 4 4 (vector_storage 2) 2 = Assert. Proof. apply index_checked. simpl. lia. Qed.
(** Quaternions do not check. *)
Theorem quaternion_index_refuted : exists i, (storage_size quaternion_storage <= i)%nat /\ index Bytes false 4 4 quaternion_storage i = Done 16 /\ class_size (storage_fields 4 4 quaternion_storage) = 16.
Proof. exists 4%nat. split; [simpl; lia|split; reflexivity]. Qed.

(** ** The rules of the standard, which hold in constant expressions *)

(** Vectors of other sizes than 2, 3 and 4 keep an array: every component can be accessed. Of
    the others, and of quaternions, only the first one can. *)
Theorem index_objects_partial : forall w a s i, element w a -> (i < storage_size s)%nat ->
  index Objects true w a s i = match s with InArray _ => Done (Z.of_nat i * w) | Members _ => if Nat.eqb i 0 then Done 0 else Undefined end.
Proof.
  intros w a s i He Hi. destruct (storage_layout w a s He ltac:(lia)) as (H0 & _ & _).
  unfold index. rewrite H0. apply Nat.ltb_lt in Hi as Hb. rewrite Hb. simpl.
  destruct s as [n|n]; simpl in *; [reflexivity|]. rewrite Hb. reflexivity.
Qed.
Example index_objects_partial_ex : index Objects true 4 4 (vector_storage 5) 3 = Done 12 /\ index Objects true 4 4 (vector_storage 3) 0 = Done 0.
Proof. split; apply (index_objects_partial 4 4); simpl; try lia; repeat split; try lia; exists 1; lia. Qed.
Theorem index_objects_refuted : forall n, (2 <= n <= 4)%nat -> exists i, (i < n)%nat /\ forall w a checked, index Objects checked w a (vector_storage n) i = Undefined.
Proof.
  intros n Hn. exists 1%nat. split; [lia|]. intros w a checked. destruct n as [|[|[|[|[|n]]]]]; try lia; destruct checked; reflexivity.
Qed.

Lemma accesses_bytes w a s is_ : element w a -> Forall (fun i => (i < storage_size s)%nat) is_ ->
  accesses Bytes true w a s is_ = Done (map (fun i => Z.of_nat i * w) is_).
Proof.
  intros He. induction 1 as [|i is_ Hi _ IH]; [reflexivity|]. simpl.
  rewrite (proj1 (components_packed w a s i true He Hi)). simpl. rewrite IH. reflexivity.
Qed.
Lemma accesses_objects w a s is_ : element w a -> Forall (fun i => (i < storage_size s)%nat) is_ ->
  (exists os, accesses Objects true w a s is_ = Done os) <-> (exists n, s = InArray n) \/ Forall (eq 0%nat) is_.
Proof.
  intros He H. induction H as [|i is_ Hi _ IH]; simpl.
  - split; [intros _; right; constructor|]. intros _. exists []. reflexivity.
  - rewrite (index_objects_partial w a s i He Hi). destruct s as [n|n].
    + destruct (Nat.eqb_spec i 0) as [->|Hn]; simpl.
      * split.
        -- intros [os Ho]. right. constructor; [reflexivity|]. destruct (accesses Objects true w a (Members n) is_) as [os'| |] eqn:E; try discriminate.
           destruct (proj1 IH (ex_intro _ os' eq_refl)) as [[m Hm]|Hf]; [discriminate|exact Hf].
        -- intros [[m Hm]|Hf]; [discriminate|]. apply Forall_inv_tail in Hf. destruct (proj2 IH (or_intror Hf)) as [os ->]. simpl. eauto.
      * split; [intros [os Ho]; discriminate|]. intros [[m Hm]|Hf]; [discriminate|]. apply Forall_inv in Hf. congruence.
    + simpl. split; [intros _; left; eauto|]. intros _. destruct (proj2 IH (or_introl (ex_intro _ n eq_refl))) as [os ->]. simpl. eauto.
Qed.
Lemma storage_size_vector n : storage_size (vector_storage n) = n.
Proof. destruct n as [|[|[|[|[|n]]]]]; reflexivity. Qed.
Definition small (n : nat) : Prop := (2 <= n <= 4)%nat.
Lemma vector_in_array n : (exists m, vector_storage n = InArray m) <-> ~ small n.
Proof.
  unfold small. split.
  - intros [m H]. destruct n as [|[|[|[|[|n]]]]]; try discriminate; lia.
  - intros H. destruct n as [|[|[|[|[|n]]]]]; try lia; eexists; reflexivity.
Qed.
Lemma Forall_seq_0 k : Forall (eq 0%nat) (seq 0 k) <-> (k <= 1)%nat.
Proof.
  split.
  - intros H. destruct k as [|[|k]]; [lia|lia|]. simpl in H. apply Forall_inv_tail, Forall_inv in H. discriminate.
  - intros H. destruct k as [|[|k]]; [constructor|repeat constructor|lia].
Qed.
(** The functions that go through components by index can be used in constant expressions
    exactly if ... *)
Theorem dot_objects_exact : forall w a n, element w a ->
  (exists os, dot_accesses Objects w a n = Done os) <-> ~ small n.
Proof.
  intros w a n He. unfold dot_accesses. rewrite accesses_objects by
    (exact He || (apply Forall_forall; intros i Hi; apply in_seq in Hi; rewrite storage_size_vector; lia)).
  rewrite vector_in_array, Forall_seq_0. unfold small. lia.
Qed.
Theorem matrix_fill_objects_exact : forall w a cols rows, element w a ->
  (exists os, matrix_fill_accesses Objects w a cols rows = Done os) <->
  ~ small rows \/ (cols <= 1)%nat \/ (cols = 4 /\ rows = 4)%nat.
Proof.
  intros w a cols rows He. unfold matrix_fill_accesses.
  destruct (Nat.eqb_spec cols 4) as [->|Hc]; [destruct (Nat.eqb_spec rows 4) as [->|Hr]|]; simpl andb; cbv iota.
  - split; [intros _; right; right; split; reflexivity|intros _; exists []; reflexivity].
  - rewrite accesses_objects by
      (exact He || (apply Forall_forall; intros i Hi; apply in_seq in Hi; rewrite storage_size_vector; lia)).
    rewrite vector_in_array, Forall_seq_0. unfold small. lia.
  - rewrite accesses_objects by
      (exact He || (apply Forall_forall; intros i Hi; apply in_seq in Hi; rewrite storage_size_vector; lia)).
    rewrite vector_in_array, Forall_seq_0. unfold small. lia.
Qed.
Theorem matrix_row_objects_exact : forall w a cols rows i, element w a -> (i < rows)%nat -> (0 < cols)%nat ->
  (exists os, matrix_row_accesses Objects w a cols rows i = Done os) <-> ~ small rows \/ i = 0%nat.
Proof.
  intros w a cols rows i He Hi Hc. unfold matrix_row_accesses. rewrite accesses_objects by
    (exact He || (apply Forall_forall; intros j Hj; apply repeat_spec in Hj; rewrite storage_size_vector; lia)).
  rewrite vector_in_array. split.
  - intros [H|H]; [left; exact H|right]. destruct cols; [lia|]. apply Forall_inv in H. congruence.
  - intros [H|H]; [left; exact H|right]. subst i. apply Forall_forall. intros j Hj. apply repeat_spec in Hj. congruence.
Qed.
Example objects_exact_ex : dot_accesses Objects 4 4 5 = Done [0; 4; 8; 12; 16] /\ dot_accesses Objects 4 4 3 = Undefined /\ matrix_fill_accesses Objects 4 4 3 3 = Undefined /\ matrix_row_accesses Objects 8 8 4 4 0 = Done [0; 0; 0; 0].
Proof. repeat split. Qed.
(** At run time, with addresses, all of them access the components they name. *)
Theorem accesses_bytes_total : forall w a n cols rows i, element w a -> (i < rows)%nat ->
  dot_accesses Bytes w a n = Done (map (fun i => Z.of_nat i * w) (seq 0 n)) /\
  (~ (cols = 4 /\ rows = 4)%nat -> matrix_fill_accesses Bytes w a cols rows = Done (map (fun i => Z.of_nat i * w) (seq 0 (Nat.min cols rows)))) /\
  (cols = 4%nat -> rows = 4%nat -> matrix_fill_accesses Bytes w a cols rows = Done []) /\
  matrix_row_accesses Bytes w a cols rows i = Done (repeat (Z.of_nat i * w) cols).
Proof.
  intros w a n cols rows i He Hi. split; [|split; [|split]].
  - apply accesses_bytes; [exact He|]. apply Forall_forall. intros j Hj. apply in_seq in Hj. rewrite storage_size_vector. lia.
  - intros Hn. unfold matrix_fill_accesses. destruct (Nat.eqb_spec cols 4), (Nat.eqb_spec rows 4); simpl; [tauto|..];
    (apply accesses_bytes; [exact He|]; apply Forall_forall; intros j Hj; apply in_seq in Hj; rewrite storage_size_vector; lia).
  - intros -> ->. reflexivity.
  - unfold matrix_row_accesses. rewrite accesses_bytes; [|exact He|].
    + f_equal. clear. induction cols as [|cols IH]; [reflexivity|]. simpl. rewrite IH. reflexivity.
    + apply Forall_forall. intros j Hj. apply repeat_spec in Hj. rewrite storage_size_vector. lia.
Qed.
Example accesses_bytes_total_ex : dot_accesses Bytes 4 4 3 = Done [0; 4; 8]. Proof. reflexivity. Qed.

Definition elem_theorems := (components_packed, matrix_packed, index_checked, quaternion_index_refuted, index_objects_partial, index_objects_refuted,
  dot_objects_exact, matrix_fill_objects_exact, matrix_row_objects_exact, accesses_bytes_total).
Print Assumptions elem_theorems.
