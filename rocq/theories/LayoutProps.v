(** Theorems about the memory layout of AlignedData, list nodes and the queue. *)
From Coq Require Import ZArith List Lia Bool Znumtheory.
Import ListNotations.
From Verif Require Import LayoutModel.
Local Open Scope Z_scope.

(** * Specification *)
Definition multiple (a x : Z) : Prop := exists k, x = k * a.
Definition power_of_two (a : Z) : Prop := exists k, 0 <= k /\ a = 2 ^ k.
(** The bytes from [x] to [x + n] and those from [y] to [y + m] have none in common. *)
Definition apart (x n y m : Z) : Prop := x + n <= y \/ y + m <= x.

(** * Classes *)
Lemma round_up_spec x a : 0 < a -> multiple a (round_up x a) /\ x <= round_up x a < x + a.
Proof.
  intros Ha. split; [eexists; reflexivity|]. unfold round_up. pose proof (Z.div_mod (x + a - 1) a ltac:(lia)) as E.
  pose proof (Z.mod_pos_bound (x + a - 1) a Ha). nia.
Qed.
Lemma round_up_multiple x a : 0 < a -> multiple a x -> round_up x a = x.
Proof. intros Ha [k ->]. unfold round_up. replace (k * a + a - 1) with ((a - 1) + k * a) by lia. rewrite Z.div_add, Z.div_small by lia. lia. Qed.
Lemma power_le a b : power_of_two a -> power_of_two b -> a <= b -> multiple a b.
Proof.
  intros (j & Hj & ->) (k & Hk & ->) H. apply Z.pow_le_mono_r_iff in H; [|lia|lia]. exists (2 ^ (k - j)).
  rewrite <- Z.pow_add_r by lia. f_equal. lia.
Qed.
Lemma power_pos a : power_of_two a -> 0 < a.
Proof. intros (k & Hk & ->). apply Z.pow_pos_nonneg; lia. Qed.
Lemma power_max a b : power_of_two a -> power_of_two b -> power_of_two (Z.max a b).
Proof. intros Ha Hb. destruct (Z.max_spec a b) as [[_ ->]|[_ ->]]; assumption. Qed.
Definition good (f : field) : Prop := 0 <= f_size f /\ power_of_two (f_align f).
Lemma class_align_power fs : Forall good fs -> power_of_two (class_align fs).
Proof.
  induction 1 as [|f fs Hf _ IH]; [exists 0; split; [lia|reflexivity]|]. simpl. apply power_max; [apply Hf|exact IH].
Qed.
Lemma class_align_ge fs f : In f fs -> f_align f <= class_align fs.
Proof. induction fs as [|g fs IH]; intros H; [contradiction|]. destruct H as [->|H]; simpl; [lia|]. specialize (IH H). lia. Qed.
Lemma place_spec fs : forall cur, 0 <= cur -> Forall good fs ->
  length (fst (place cur fs)) = length fs /\ cur <= snd (place cur fs) /\
  forall i f o, nth_error fs i = Some f -> nth_error (fst (place cur fs)) i = Some o ->
    multiple (f_align f) o /\ cur <= o /\ o + f_size f <= snd (place cur fs) /\
    forall j g o', (i < j)%nat -> nth_error fs j = Some g -> nth_error (fst (place cur fs)) j = Some o' -> o + f_size f <= o'.
Proof.
  induction fs as [|f fs IH]; intros cur Hc Hg; [simpl; split; [reflexivity|]; split; [lia|]; intros [|i] ? ? H; discriminate|].
  inversion Hg as [|? ? Hf Hg']; subst. destruct (round_up_spec cur (f_align f) (power_pos _ (proj2 Hf))) as [Hm [Hlo _]].
  simpl. set (o := round_up cur (f_align f)) in *. assert (Hfs : 0 <= f_size f) by apply Hf.
  destruct (IH (o + f_size f) ltac:(lia) Hg') as (Hlen & Hend & Hall). destruct (place (o + f_size f) fs) as [os e]. simpl in *.
  split; [lia|]. split; [lia|]. intros [|i] g o' Hi Ho; simpl in *.
  - injection Hi as <-. injection Ho as <-. split; [exact Hm|]. split; [exact Hlo|]. split; [lia|].
    intros [|j] h o'' Hj Hjf Hjo; [lia|]. simpl in *. apply (Hall j h o'' Hjf Hjo).
  - destruct (Hall i g o' Hi Ho) as (A & B & C & D). split; [exact A|]. split; [lia|]. split; [exact C|].
    intros [|j] h o'' Hj Hjf Hjo; [lia|]. simpl in *. apply (D j h o''); [lia|assumption|assumption].
Qed.
(** Every member of an object at an address that is a multiple of the alignment of the
    class is itself aligned and within the object, and no two overlap. *)
Theorem class_layout : forall fs base i f o, Forall good fs -> multiple (class_align fs) base ->
  nth_error fs i = Some f -> nth_error (offsets fs) i = Some o ->
  multiple (f_align f) (base + o) /\ 0 <= o /\ o + f_size f <= class_size fs /\ (0 < f_size f -> multiple (class_align fs) (class_size fs)) /\
  forall j g o', i <> j -> nth_error fs j = Some g -> nth_error (offsets fs) j = Some o' ->
    apart (base + o) (f_size f) (base + o') (f_size g).
Proof.
  intros fs base i f o Hg [k Hk] Hi Ho. destruct (place_spec fs 0 ltac:(lia) Hg) as (_ & _ & H).
  destruct (H i f o Hi Ho) as (A & B & C & D). pose proof (class_align_power fs Hg) as Hp.
  destruct (round_up_spec (snd (place 0 fs)) (class_align fs) (power_pos _ Hp)) as [E F].
  split; [|split; [lia|split; [unfold class_size; lia|split; [intros Hpos; unfold class_size; rewrite Z.max_r by lia; exact E|]]]].
  - assert (Hf : good f) by (rewrite Forall_forall in Hg; apply Hg; eapply nth_error_In, Hi).
    destruct (power_le (f_align f) (class_align fs) (proj2 Hf) Hp) as [m Hm]; [apply class_align_ge; eapply nth_error_In, Hi|].
    destruct A as [n ->]. exists (k * m + n). rewrite Hk, Hm. lia.
  - intros j g o' Hij Hj Ho'. destruct (Nat.lt_total i j) as [L|[E'|L]]; [|contradiction|].
    + left. specialize (D j g o' L Hj Ho'). lia.
    + right. destruct (H j g o' Hj Ho') as (_ & _ & _ & D'). specialize (D' i f o L Hi Ho). lia.
Qed.

(** * AlignedData *)
Lemma accepts_power a : aligned_accepts a = true <-> power_of_two a.
Proof.
  unfold aligned_accepts. rewrite andb_true_iff, Z.ltb_lt, Z.eqb_eq. split.
  - intros [H1 H2]. exists (Z.log2 a). split; [apply Z.log2_nonneg|exact H2].
  - intros (k & Hk & ->). rewrite Z.log2_pow2 by lia. split; [apply Z.pow_pos_nonneg; lia|reflexivity].
Qed.
Lemma aligned_size s a : 0 <= s -> power_of_two a -> class_align (aligned_fields s a) = a /\ class_size (aligned_fields s a) = Z.max 1 (round_up s a) /\
  offsets (aligned_fields s a) = [0].
Proof.
  intros Hs Ha. pose proof (power_pos a Ha) as Hp. unfold class_size, offsets, aligned_fields, class_align; simpl.
  assert (E : round_up 0 a = 0) by (apply round_up_multiple; [exact Hp|exists 0; lia]). rewrite E. simpl.
  replace (Z.max a 1) with a by lia. repeat split.
Qed.
(** The requested alignment is kept, and there is room for a T. *)
Theorem aligned_data_address : forall size_t align a, 0 < size_t -> aligned_accepts align = true ->
  multiple (class_align (aligned_fields size_t align)) a ->
  aligned_address size_t align a = a /\ multiple align (aligned_address size_t align a) /\
  aligned_address size_t align a + size_t <= a + class_size (aligned_fields size_t align).
Proof.
  intros s al a Hs Ha Hm. apply accepts_power in Ha. destruct (aligned_size s al ltac:(lia) Ha) as (E1 & E2 & E3).
  unfold aligned_address. rewrite E3, E2. rewrite E1 in Hm. simpl. replace (a + 0) with a by lia.
  pose proof (round_up_spec s al (power_pos _ Ha)). repeat split; [exact Hm|lia].
Qed.
(** A T in the storage is aligned for T if the requested alignment is at least that of T ... *)
Theorem aligned_data_object_partial : forall size_t align align_t a, 0 < size_t -> aligned_accepts align = true ->
  power_of_two align_t -> align_t <= align -> multiple (class_align (aligned_fields size_t align)) a ->
  multiple align_t (aligned_address size_t align a).
Proof.
  intros s al at_ a Hs Ha Ht Hle Hm. destruct (aligned_data_address s al a Hs Ha Hm) as (_ & [k Hk] & _). rewrite Hk.
  apply accepts_power in Ha. destruct (power_le at_ al Ht Ha Hle) as [m ->]. exists (k * m). lia.
Qed.
(** ... but a smaller one is accepted as well. *)
Theorem aligned_data_object_refuted : exists size_t align align_t a, aligned_accepts align = true /\ power_of_two align_t /\
  multiple align_t size_t /\ multiple (class_align (aligned_fields size_t align)) a /\ ~ multiple align_t (aligned_address size_t align a).
Proof.
  exists 8, 1, 8, 4. split; [reflexivity|]. split; [exists 3; split; [lia|reflexivity]|]. split; [exists 1; lia|].
  split; [exists 4; reflexivity|]. cbn. intros [k Hk]. lia.
Qed.
(** With the default alignment the wrapper has the size of T. *)
Theorem aligned_data_size : forall size_t align_t, 0 < size_t -> power_of_two align_t -> multiple align_t size_t ->
  class_size (aligned_fields size_t align_t) = size_t.
Proof.
  intros s a Hs Ha Hm. destruct (aligned_size s a ltac:(lia) Ha) as (_ & -> & _).
  rewrite round_up_multiple by (try exact Hm; apply power_pos, Ha). lia.
Qed.
(** Construction from arguments makes the T that its constructor makes from them. *)
Theorem aligned_data_construct : forall {V} di args (old : content V) make v, args <> [] -> (forall c r, args <> [Self c r]) ->
  make args = Some v -> aligned_construct di args old make = Some (Object v).
Proof.
  intros V di args old make v Hne Hs H. unfold aligned_construct. destruct args as [|[c r|] [|b args]]; try contradiction; simpl; try (rewrite H; reflexivity).
  - exfalso. apply (Hs c r). reflexivity.
  - destruct c, r; simpl; rewrite H; reflexivity.
Qed.
(** Default construction makes no T; without a default constructor of T it is ill-formed. *)
Theorem aligned_data_default : forall {V} di (old : content V) make,
  (di = true -> aligned_construct di [] old make = Some Bytes) /\
  (di = false -> make [] = None -> aligned_construct di [] old make = None).
Proof. intros V di old make. split; [intros ->; reflexivity|]. intros -> H. unfold aligned_construct. simpl. rewrite H. reflexivity. Qed.
(** A copy has the content of the original if that is a const lvalue or a non-const rvalue ... *)
Theorem aligned_data_copy_partial : forall {V} di const rvalue (old : content V) make,
  (const <> rvalue -> aligned_construct di [Self const rvalue] old make = Some old) /\
  (const = rvalue -> aligned_construct di [Self const rvalue] old make = option_map Object (make [Self const rvalue])).
Proof. intros V di [|] [|] old make; split; intros H; try discriminate; try contradiction; reflexivity. Qed.
(** ... and does not compile for a T that cannot be made from an AlignedData if the
    original is not const. *)
Theorem aligned_data_copy_refuted : exists const rvalue, forall V di (old : content V),
  aligned_construct di [Self const rvalue] old (fun args => None) = None.
Proof. exists false, false. reflexivity. Qed.
(** An object in the storage is never destroyed. *)
Theorem aligned_data_destroy_refuted : exists (V : Type) (c : content V) (v : V), c = Object v /\ ~ In v (aligned_destroy c).
Proof. exists Z, (Object 7), 7. split; [reflexivity|]. simpl. tauto. Qed.

(** * Nodes *)
Theorem node_layout : forall size_t align_t node, 0 < size_t -> power_of_two align_t -> multiple align_t size_t ->
  multiple (class_align (node_fields size_t align_t)) node ->
  exists o, offsets (node_fields size_t align_t) = [0; o] /\ multiple 8 node /\ multiple align_t (node + o) /\
  apart node 8 (node + o) size_t /\ o + size_t <= class_size (node_fields size_t align_t) /\ class_align (node_fields size_t align_t) = Z.max 8 align_t.
Proof.
  intros s a node Hs Ha Hm Hn. pose proof (power_pos a Ha) as Hp.
  assert (Hal : class_align (aligned_fields s a) = a) by (apply aligned_size; [lia|exact Ha]).
  assert (Hsz : class_size (aligned_fields s a) = s) by (apply aligned_data_size; assumption).
  assert (Hg : Forall good (node_fields s a)).
  { unfold node_fields, class_field. rewrite Hal, Hsz. repeat constructor; simpl; try lia; [exists 3; split; [lia|reflexivity]|exact Ha]. }
  set (o := round_up 8 a). assert (Ho : offsets (node_fields s a) = [0; o]).
  { unfold offsets, node_fields, class_field. rewrite Hal, Hsz. reflexivity. }
  exists o. split; [exact Ho|].
  destruct (class_layout (node_fields s a) node 0 (Field 8 8) 0 Hg Hn eq_refl ltac:(rewrite Ho; reflexivity)) as (A & _ & _ & _ & B).
  destruct (class_layout (node_fields s a) node 1 (Field s a) o Hg Hn ltac:(unfold node_fields, class_field; rewrite Hal, Hsz; reflexivity)
    ltac:(rewrite Ho; reflexivity)) as (C & _ & D & _).
  specialize (B 1%nat (Field s a) o ltac:(lia) ltac:(unfold node_fields, class_field; rewrite Hal, Hsz; reflexivity) ltac:(rewrite Ho; reflexivity)).
  simpl in *. replace (node + 0) with node in * by lia. repeat split; try assumption.
  unfold class_align, node_fields, class_field. simpl. fold (class_align (aligned_fields s a)). rewrite Hal. lia.
Qed.

(** * The queue *)
(** The two indices are never in the same 64 byte line of the cache. *)
Theorem queue_index_lines : exists w p r, offsets queue_fields = [w; p; r] /\ forall base, (base + w) / 64 <> (base + r) / 64.
Proof.
  exists 0, 8, 64. split; [reflexivity|]. intros base. replace (base + 64) with (base + 0 + 1 * 64) by lia. rewrite Z.div_add by lia. lia.
Qed.
Theorem queue_layout : offsets queue_fields = [0; 8; 64] /\ class_size queue_fields = 72 /\ class_align queue_fields = 8.
Proof. repeat split. Qed.
(** Slot [i] as the functions compute it is the storage of element [i] of the array. *)
Theorem queue_slots : forall size_t align_t base i, 0 < size_t -> power_of_two align_t -> multiple align_t size_t ->
  buffer_pointer size_t align_t base i = buffer_element size_t align_t base i.
Proof.
  intros s a base i Hs Ha Hm. unfold buffer_pointer, buffer_element, aligned_address.
  destruct (aligned_size s a ltac:(lia) Ha) as (_ & _ & ->). rewrite aligned_data_size by assumption. simpl. lia.
Qed.
(** The pointer is formed from the storage of element 0, and pointer arithmetic is
    defined up to one past the end of that. *)
Theorem queue_pointer_partial : forall size_t align_t base i, 0 < size_t -> power_of_two align_t -> multiple align_t size_t -> 0 <= i ->
  buffer_pointer size_t align_t base i <= buffer_element size_t align_t base 0 + size_t <-> i <= 1.
Proof.
  intros s a base i Hs Ha Hm Hi. rewrite queue_slots by assumption. unfold buffer_element. rewrite aligned_data_size by assumption. nia.
Qed.
Theorem queue_pointer_refuted : exists size_t align_t base i capacity, 0 <= i < capacity /\ aligned_accepts capacity = true /\
  buffer_element size_t align_t base 0 + size_t < buffer_pointer size_t align_t base i.
Proof. exists 4, 4, 0, 2, 4. split; [lia|]. split; reflexivity. Qed.

Example class_layout_ex : offsets [Field 1 1; Field 8 8; Field 2 2] = [0; 8; 16] /\ class_size [Field 1 1; Field 8 8; Field 2 2] = 24.
Proof. split; reflexivity. Qed.
Example aligned_data_address_ex : aligned_accepts 32 = true /\ class_size (aligned_fields 12 32) = 32 /\ aligned_address 12 32 64 = 64.
Proof. repeat split. Qed.
Example aligned_data_object_partial_ex : multiple 8 (aligned_address 16 32 96). Proof. exists 12. reflexivity. Qed.
Example aligned_data_size_ex : class_size (aligned_fields 24 8) = 24. Proof. reflexivity. Qed.
Example aligned_data_construct_ex : aligned_construct true [Other; Other] Bytes (fun a => Some (length a)) = Some (Object 2%nat). Proof. reflexivity. Qed.
Example aligned_data_default_ex : aligned_construct false [] (Object 1) (fun _ => None) = None. Proof. reflexivity. Qed.
Example aligned_data_copy_partial_ex : aligned_construct true [Self true false] (Object 5) (fun _ => None) = Some (Object 5). Proof. reflexivity. Qed.
Example node_layout_ex : offsets (node_fields 64 32) = [0; 32] /\ offsets (node_fields 12 4) = [0; 8] /\ class_size (node_fields 12 4) = 24.
Proof. repeat split. Qed.
Example queue_index_lines_ex : (1016 + 0) / 64 = 15 /\ (1016 + 64) / 64 = 16. Proof. split; reflexivity. Qed.
Example queue_slots_ex : buffer_pointer 24 8 1000 3 = 1072. Proof. reflexivity. Qed.
Example queue_pointer_partial_ex : buffer_pointer 24 8 1000 1 = 1024. Proof. reflexivity. Qed.

Definition layout_theorems := (class_layout, aligned_data_address, aligned_data_object_partial, aligned_data_object_refuted, aligned_data_size,
  @aligned_data_construct, @aligned_data_default, @aligned_data_copy_partial, aligned_data_copy_refuted, aligned_data_destroy_refuted,
  node_layout, queue_index_lines, queue_layout, queue_slots, queue_pointer_partial, queue_pointer_refuted).
Print Assumptions layout_theorems.
