(** How many existing elements each call on an xme::Array relocates
    (property C156). The model counts an element as relocated when it is
    move-constructed, move-assigned or copy-assigned to another place of some
    array ([moved]); elements that a call creates from its arguments are not
    counted. The counts hold for trivial and non-trivial element types. *)
From stdpp Require Import list.
From Verif Require Import Base ArrayModel ArraySpec ArrayRun ArrayObsSpec.
From Verif Require ArrayProps.
Local Open Scope mon_scope.

(** ** Specification *)
Section spec.
Context {V : Type}.

(** The array a call works on, for the calls that may relocate elements. *)
Definition relocates (o : op V) : option nat :=
  match o with
  | OReserve i _ | OResize i _ | OInsert i _ _ | OInsertRange i _ _
  | OPush i _ | OEmplace i _ | OPushRange i _ | OErase i _ | OEraseRange i _ _ => Some i
  | _ => None
  end.

(** The number of elements it relocates when the array has [n] elements and
    capacity [c]: everything when the storage is replaced, and otherwise the
    elements behind the place of an insertion or erasure. *)
Definition relocated (o : op V) (n c : nat) : nat :=
  match o with
  | OReserve _ m => if decide (m ≤ c) then 0 else n
  | OResize _ m => if decide (m = c) then 0 else if decide (c < m) then n else n `min` m
  | OPush _ _ | OEmplace _ _ => if decide (n = c) then n else 0
  | OPushRange _ xs => if decide (n + length xs ≤ c) then 0 else n
  | OInsert _ k _ => if decide (n = c) then n else n - k
  | OInsertRange _ k xs => if decide (n + length xs ≤ c) then n - k else n
  | OErase _ k => n - k - 1
  | OEraseRange _ _ m => n - m
  | _ => 0
  end.
End spec.

(** ** Proofs *)
Section proofs.
Context {V : Type} (triv : bool).
Notation MA := (@MA V).

(** A normal return of [m] adds [n] relocations. *)
Definition costs {A} (m : MA A) (n : nat) : Prop :=
  ∀ s r s', m s = Ok r s' → moved s' = n + moved s.
(** … and changes no array object. *)
Definition keeps {A} (m : MA A) (n : nat) : Prop :=
  ∀ s r s', m s = Ok r s' → moved s' = n + moved s ∧ objs s' = objs s.

Lemma keeps_costs {A} (m : MA A) n : keeps m n → costs m n.
Proof. intros H s r s' E. apply (H s r s' E). Qed.

Lemma bind_ok {A B} (m : MA A) (k : A → MA B) s r s' : bind m k s = Ok r s' →
  ∃ a s1, m s = Ok a s1 ∧ k a s1 = Ok r s'.
Proof. unfold bind. destruct (m s) as [a s1|s1|u]; try done. eauto. Qed.
Lemma on_throw_ok {A} (m : MA A) h s r s' : on_throw m h s = Ok r s' → m s = Ok r s'.
Proof. unfold on_throw. destruct (m s) as [a s1|s1|u]; try done. destruct (h s1); done. Qed.

Lemma keeps_bind {A B} (m : MA A) (k : A → MA B) n1 n2 n : keeps m n1 → (∀ a, keeps (k a) n2) →
  n = n1 + n2 → keeps (bind m k) n.
Proof.
  intros H1 H2 -> s r s' (a & s1 & E1 & E2)%bind_ok.
  destruct (H1 _ _ _ E1) as [-> <-] || destruct (H1 _ _ _ E1) as [Hm Ho].
  destruct (H2 _ _ _ _ E2) as [Hm2 Ho2]. rewrite Hm2, Ho2, Hm, Ho. split; [lia|done].
Qed.
Lemma costs_bind {A B} (m : MA A) (k : A → MA B) n1 n2 n : costs m n1 → (∀ a, costs (k a) n2) →
  n = n1 + n2 → costs (bind m k) n.
Proof.
  intros H1 H2 -> s r s' (a & s1 & E1 & E2)%bind_ok.
  rewrite (H2 _ _ _ _ E2), (H1 _ _ _ E1). lia.
Qed.
Lemma keeps_ret {A} (a : A) : keeps (ret a) 0.
Proof. intros s r s' E. unfold ret in E. injection E as <- <-. done. Qed.
Lemma keeps_fail {A} u n : keeps (@fail _ A u) n.
Proof. intros s r s' E. done. Qed.
Lemma keeps_gets {A} (f : st V → A) : keeps (gets f) 0.
Proof. intros s r s' E. unfold gets in E. injection E as <- <-. done. Qed.
Lemma keeps_on_throw {A} (m : MA A) h n : keeps m n → keeps (on_throw m h) n.
Proof. intros H s r s' E%on_throw_ok. eauto. Qed.
Lemma keeps_tick : keeps (@tick V) 0.
Proof. intros s r s' E. unfold tick in E. destruct (oracle s) as [|[] ?]; simplify_eq; done. Qed.
Lemma keeps_alloc n : keeps (@alloc V n) 0.
Proof.
  unfold alloc. eapply keeps_bind; [apply keeps_tick| |done]. intros _.
  eapply keeps_bind; [apply keeps_gets| |done]. intros b.
  eapply keeps_bind; [|intros; apply keeps_ret|done].
  intros s r s' E. unfold modify in E. injection E as _ <-. done.
Qed.
Lemma keeps_dealloc p n : keeps (@dealloc V triv p n) 0.
Proof. intros s r s' E. unfold dealloc in E. repeat case_match; simplify_eq; done. Qed.
Lemma keeps_get_cell p : keeps (@get_cell V p) 0.
Proof. intros s r s' E. unfold get_cell in E. repeat case_match; simplify_eq; done. Qed.
Lemma keeps_set_cell p c : keeps (@set_cell V p c) 0.
Proof. intros s r s' E. unfold set_cell in E. repeat case_match; simplify_eq; done. Qed.
Lemma keeps_padd p n : keeps (@padd V p n) 0.
Proof. intros s r s' E. unfold padd in E. repeat case_match; simplify_eq; done. Qed.
Lemma keeps_psub p n : keeps (@psub V p n) 0.
Proof. intros s r s' E. unfold psub in E. repeat case_match; simplify_eq; done. Qed.
Lemma keeps_get_arr i : keeps (@get_arr V i) 0.
Proof. intros s r s' E. unfold get_arr in E. repeat case_match; simplify_eq; done. Qed.
Lemma keeps_pdiff p q : keeps (@pdiff V p q) 0.
Proof. unfold pdiff. repeat case_match; first [apply keeps_ret|apply keeps_fail]. Qed.
Lemma keeps_leak n : keeps (modify (@add_leaked V n)) 0.
Proof. intros s r s' E. unfold modify in E. injection E as _ <-. done. Qed.
Lemma keeps_moved n : keeps (modify (@add_moved V n)) n.
Proof. intros s r s' E. unfold modify in E. injection E as _ <-. done. Qed.

Hint Resolve keeps_ret keeps_fail keeps_gets keeps_tick keeps_alloc keeps_dealloc keeps_get_cell
  keeps_set_cell keeps_padd keeps_psub keeps_get_arr keeps_pdiff keeps_leak keeps_moved keeps_on_throw : kp.

Ltac kstep := first
  [ solve [eauto with kp]
  | eapply keeps_bind; [| |reflexivity]
  | match goal with |- ∀ _, _ => intros ? end
  | match goal with |- keeps (match ?x with _ => _ end) _ => destruct x end
  | match goal with |- keeps (if ?x then _ else _) _ => destruct x end
  | apply keeps_on_throw ].
Ltac kp := repeat kstep.

Lemma keeps_load p : keeps (@load V p) 0.
Proof. unfold load. eapply (keeps_bind _ _ 0 0); kp. Qed.
Hint Resolve keeps_load : kp.
Lemma keeps_eval_arg a : keeps (@eval_arg V triv a) 0.
Proof.
  unfold eval_arg. destruct a.
  - eapply (keeps_bind _ _ 0 0); kp.
  - eapply (keeps_bind _ _ 0 0); kp.
  - eapply (keeps_bind _ _ 0 0); [kp| |done]. intros. eapply (keeps_bind _ _ 0 0); kp.
Qed.
Hint Resolve keeps_eval_arg : kp.
Lemma keeps_construct p a : keeps (@construct V triv p a) 0.
Proof.
  unfold construct. eapply (keeps_bind _ _ 0 0); [kp| |done]. intros.
  eapply (keeps_bind _ _ 0 0); [kp| |done]. intros. eapply (keeps_bind _ _ 0 0); kp.
Qed.
Lemma keeps_move_construct p q : keeps (@move_construct V triv p q) 1.
Proof.
  unfold move_construct. eapply (keeps_bind _ _ 0 1); [kp| |done]. intros.
  eapply (keeps_bind _ _ 0 1); [kp| |done]. intros. eapply (keeps_bind _ _ 0 1); [kp| |done]. intros.
  eapply (keeps_bind _ _ 0 1); [kp| |done]. intros. eapply (keeps_bind _ _ 1 0); kp.
Qed.
Lemma keeps_destroy p : keeps (@destroy V triv p) 0.
Proof. unfold destroy. eapply (keeps_bind _ _ 0 0); kp. Qed.
Lemma keeps_assign_check p : keeps (@assign_check V triv p) 0.
Proof. unfold assign_check. eapply (keeps_bind _ _ 0 0); kp. Qed.
Hint Resolve keeps_construct keeps_move_construct keeps_destroy keeps_assign_check : kp.
Lemma keeps_assign_copy p q : keeps (@assign_copy V triv p q) 1.
Proof.
  unfold assign_copy. eapply (keeps_bind _ _ 0 1); [kp| |done]. intros.
  eapply (keeps_bind _ _ 0 1); [kp| |done]. intros. eapply (keeps_bind _ _ 1 0); kp.
Qed.
Lemma keeps_assign_move p q : keeps (@assign_move V triv p q) 1.
Proof.
  unfold assign_move. eapply (keeps_bind _ _ 0 1); [kp| |done]. intros.
  eapply (keeps_bind _ _ 0 1); [kp| |done]. intros. eapply (keeps_bind _ _ 0 1); [kp| |done]. intros.
  eapply (keeps_bind _ _ 1 0); kp.
Qed.
Lemma keeps_assign_arg p a : keeps (@assign_arg V triv p a) 0.
Proof.
  unfold assign_arg. eapply (keeps_bind _ _ 0 0); [kp| |done]. intros.
  eapply (keeps_bind _ _ 0 0); kp.
Qed.
Hint Resolve keeps_assign_copy keeps_assign_move keeps_assign_arg : kp.

Lemma keeps_move_fwd n : ∀ p q, keeps (@move_fwd V triv n p q) n.
Proof.
  induction n as [|n IH]; intros p q; cbn [move_fwd]; [kp|].
  eapply (keeps_bind _ _ 1 n); [kp| |done]. intros. eapply (keeps_bind _ _ 0 n); [kp| |done]. intros.
  eapply (keeps_bind _ _ 0 n); [kp| |done]. intros. apply IH.
Qed.
Lemma keeps_copy_fwd n : ∀ p q, keeps (@copy_fwd V triv n p q) n.
Proof.
  induction n as [|n IH]; intros p q; cbn [copy_fwd]; [kp|].
  eapply (keeps_bind _ _ 1 n); [kp| |done]. intros. eapply (keeps_bind _ _ 0 n); [kp| |done]. intros.
  eapply (keeps_bind _ _ 0 n); [kp| |done]. intros. apply IH.
Qed.
Lemma keeps_move_bwd n : ∀ p q, keeps (@move_bwd V triv n p q) n.
Proof.
  induction n as [|n IH]; intros p q; cbn [move_bwd]; [kp|].
  eapply (keeps_bind _ _ 0 (S n)); [kp| |done]. intros. eapply (keeps_bind _ _ 0 (S n)); [kp| |done]. intros.
  eapply (keeps_bind _ _ 1 n); [kp| |done]. intros. apply IH.
Qed.
Lemma keeps_copy_bwd n : ∀ p q, keeps (@copy_bwd V triv n p q) n.
Proof.
  induction n as [|n IH]; intros p q; cbn [copy_bwd]; [kp|].
  eapply (keeps_bind _ _ 0 (S n)); [kp| |done]. intros. eapply (keeps_bind _ _ 0 (S n)); [kp| |done]. intros.
  eapply (keeps_bind _ _ 1 n); [kp| |done]. intros. apply IH.
Qed.
Lemma keeps_destroy_a p q : keeps (@destroy_a V triv p q) 0.
Proof.
  unfold destroy_a. eapply (keeps_bind _ _ 0 0); [kp| |done]. intros n. generalize (S n). clear n.
  intros n. revert p. induction n as [|n IH]; intros p; cbn [destroy_loop]; case_match; try solve [kp].
  eapply (keeps_bind _ _ 0 0); [kp| |done]. intros. eapply (keeps_bind _ _ 0 0); [kp| |done]. intros. apply IH.
Qed.
Lemma keeps_destroy_n n : ∀ p, keeps (@destroy_n V triv p n) 0.
Proof.
  induction n as [|n IH]; intros p; cbn [destroy_n]; [kp|].
  eapply (keeps_bind _ _ 0 0); [kp| |done]. intros. eapply (keeps_bind _ _ 0 0); [kp| |done]. intros. apply IH.
Qed.
Lemma keeps_construct_range xs : ∀ p, keeps (@construct_range V triv p xs) 0.
Proof.
  induction xs as [|x xs IH]; intros p; cbn [construct_range]; [kp|].
  eapply (keeps_bind _ _ 0 0); [kp| |done]. intros. eapply (keeps_bind _ _ 0 0); [kp| |done]. intros. apply IH.
Qed.
Lemma keeps_fill n a : ∀ p q, keeps (@fill_loop V triv p q n a) 0.
Proof.
  induction n as [|n IH]; intros p q; cbn [fill_loop]; [kp|].
  eapply (keeps_bind _ _ 0 0); [kp| |done]. intros. eapply (keeps_bind _ _ 0 0); [kp| |done]. intros. apply IH.
Qed.
Lemma keeps_ucopy xs : ∀ p q, keeps (@uninitialized_copy_a V triv xs p q) 0.
Proof.
  induction xs as [|x xs IH]; intros p q; cbn [uninitialized_copy_a]; [kp|]. case_match; [kp|].
  eapply (keeps_bind _ _ 0 0); [kp| |done]. intros. eapply (keeps_bind _ _ 0 0); [kp| |done]. intros. apply IH.
Qed.
Lemma keeps_size i : keeps (@size V i) 0.
Proof. unfold size. eapply (keeps_bind _ _ 0 0); kp. Qed.
Lemma keeps_capacity i : keeps (@capacity V i) 0.
Proof. unfold capacity. eapply (keeps_bind _ _ 0 0); kp. Qed.
Lemma keeps_begin i : keeps (@begin_ V i) 0.
Proof. unfold begin_. eapply (keeps_bind _ _ 0 0); kp. Qed.
Lemma keeps_end i : keeps (@end_ V i) 0.
Proof. unfold end_. eapply (keeps_bind _ _ 0 0); kp. Qed.
Lemma keeps_dtor i : keeps (@dtor V triv i) 0.
Proof.
  unfold dtor. eapply (keeps_bind _ _ 0 0); [kp| |done]. intros.
  eapply (keeps_bind _ _ 0 0); [apply keeps_destroy_a| |done]. intros.
  case_match; [kp|]. eapply (keeps_bind _ _ 0 0); [apply keeps_capacity| |done]. kp.
Qed.
Hint Resolve keeps_size keeps_capacity keeps_begin keeps_end keeps_dtor keeps_destroy_a keeps_destroy_n
  keeps_construct_range keeps_ucopy : kp.

Lemma costs_set_arr i a : costs (@set_arr V i a) 0.
Proof. intros s r s' E. unfold set_arr, modify in E. injection E as _ <-. done. Qed.
Lemma costs_set_end i p : costs (@set_end V i p) 0.
Proof. eapply (costs_bind _ _ 0 0); [apply keeps_costs; kp|intros; apply costs_set_arr|done]. Qed.

(** The fields of an array of [n] elements and capacity [c]. *)
Definition shape (a : arr) (n c : nat) : Prop :=
  (a = mkArr Null Null Null ∧ n = 0 ∧ c = 0) ∨
  ∃ b o, a = mkArr (Ptr b o) (Ptr b (o + n)) (Ptr b (o + c)).
Definition holds (s : st V) (i n c : nat) : Prop := ∃ a, objs s !! i = Some (Some a) ∧ shape a n c.

Lemma read_loop_length n : ∀ p s r s', @read_loop V n p s = Ok r s' → length r = n.
Proof.
  induction n as [|n IH]; intros p s r s' E; cbn [read_loop] in E.
  - unfold ret in E. by simplify_eq.
  - apply bind_ok in E as (v & s1 & _ & E). apply bind_ok in E as (p' & s2 & _ & E).
    apply bind_ok in E as (r' & s3 & E3 & E). unfold ret in E. injection E as <- _. simpl. f_equal. eauto.
Qed.
Lemma get_arr_ok i s a s' : @get_arr V i s = Ok a s' → objs s !! i = Some (Some a) ∧ s' = s.
Proof. unfold get_arr. intros E. repeat case_match; simplify_eq; done. Qed.
Lemma pdiff_ok p q s n s' : @pdiff V p q s = Ok n s' →
  s' = s ∧ ((p = Null ∧ q = Null ∧ n = 0) ∨ ∃ b o, q = Ptr b o ∧ p = Ptr b (o + n)).
Proof.
  unfold pdiff. intros E. destruct p as [|b o], q as [|b' o']; try done.
  - unfold ret in E. simplify_eq. auto.
  - destruct (Nat.eqb_spec b b') as [->|]; [|done]. destruct (Nat.leb_spec o' o); [|done].
    unfold ret in E. simplify_eq. split; [done|]. right. exists b', o'. split; [done|]. f_equal. lia.
Qed.
Lemma obs_holds s i l c : obs s i l c → holds s i (length l) c.
Proof.
  intros [Hl Hc]. unfold to_list in Hl. apply bind_ok in Hl as (n & s1 & Hn & Hl).
  apply bind_ok in Hl as (p & s2 & _ & Hl). apply read_loop_length in Hl. subst n.
  unfold size in Hn. apply bind_ok in Hn as (a & s0 & Ha & Hn). apply get_arr_ok in Ha as [Ha ->].
  apply pdiff_ok in Hn as [_ Hn]. unfold capacity in Hc. apply bind_ok in Hc as (a' & s0 & Ha' & Hc).
  apply get_arr_ok in Ha' as [Ha' ->]. rewrite Ha in Ha'. injection Ha' as <-.
  apply pdiff_ok in Hc as [_ Hc]. exists a. split; [done|]. destruct a as [x y z]; simpl in *.
  destruct Hn as [(-> & -> & ->)|(b & o & -> & ->)].
  - destruct Hc as [(-> & _ & ->)|(b & o & ? & _)]; [by left|done].
  - destruct Hc as [(_ & ? & _)|(b' & o' & [= <- <-] & ->)]; [done|]. right. eauto.
Qed.
Lemma padd_ok p n s q s' : @padd V p n s = Ok q s' →
  s' = s ∧ ((p = Null ∧ n = 0 ∧ q = Null) ∨ ∃ b o, p = Ptr b o ∧ q = Ptr b (o + n)).
Proof. unfold padd. intros E. repeat case_match; simplify_eq; split; try done; [left|right; eauto]. by rewrite <-Nat.eqb_eq. Qed.
Lemma psub_ok p n s q s' : @psub V p n s = Ok q s' →
  s' = s ∧ ((p = Null ∧ n = 0 ∧ q = Null) ∨ ∃ b o, p = Ptr b o ∧ n ≤ o ∧ q = Ptr b (o - n)).
Proof.
  unfold psub. intros E. repeat case_match; simplify_eq; split; try done.
  - left. by rewrite <-Nat.eqb_eq.
  - right. eexists _, _. split_and!; [done| |done]. by apply Nat.leb_le.
Qed.
Lemma holds_objs s s' i n c : objs s' = objs s → holds s i n c → holds s' i n c.
Proof. intros E (a & Ha & Hs). exists a. by rewrite E. Qed.
Lemma holds_get s i n c a s' : holds s i n c → @get_arr V i s = Ok a s' → s' = s ∧ shape a n c.
Proof. intros (a' & Ha & Hs) E. apply get_arr_ok in E as [E ->]. rewrite Ha in E. by simplify_eq. Qed.
Lemma holds_size s i n c m s' : holds s i n c → @size V i s = Ok m s' → s' = s ∧ m = n.
Proof.
  intros H E. unfold size in E. apply bind_ok in E as (a & s1 & Ha & E).
  destruct (holds_get _ _ _ _ _ _ H Ha) as [-> Hs]. apply pdiff_ok in E as [-> E]. split; [done|].
  destruct Hs as [(-> & -> & ->)|(b & o & ->)]; simpl in E; destruct E as [(? & ? & ?)|(? & ? & ? & ?)]; simplify_eq; lia.
Qed.
Lemma holds_capacity s i n c m s' : holds s i n c → @capacity V i s = Ok m s' → s' = s ∧ m = c.
Proof.
  intros H E. unfold capacity in E. apply bind_ok in E as (a & s1 & Ha & E).
  destruct (holds_get _ _ _ _ _ _ H Ha) as [-> Hs]. apply pdiff_ok in E as [-> E]. split; [done|].
  destruct Hs as [(-> & -> & ->)|(b & o & ->)]; simpl in E; destruct E as [(? & ? & ?)|(? & ? & ? & ?)]; simplify_eq; lia.
Qed.

(** Take the first step of a run apart; [known] handles steps that keep the
    objects and relocate a known number of elements. *)
Ltac step H := apply bind_ok in H as (? & ? & ?E & H).
Ltac known L E := let M := fresh "M" in let O := fresh "O" in
  destruct (L _ _ _ E) as [M O]; clear E.

Lemma cost_grow i m s n c r s' : holds s i n c → @grow_storage V triv i m s = Ok r s' →
  moved s' = n + moved s.
Proof.
  intros H E. unfold grow_storage in E.
  apply bind_ok in E as (sz & s1 & E1 & E). destruct (holds_size _ _ _ _ _ _ H E1) as [-> ->].
  apply bind_ok in E as (nb & s2 & E2 & E). destruct (keeps_alloc _ _ _ _ E2) as [M2 O2].
  apply (holds_objs _ _ _ _ _ O2) in H.
  apply bind_ok in E as (a & s3 & E3 & E). destruct (holds_get _ _ _ _ _ _ H E3) as [-> Hs].
  apply bind_ok in E as (k & s4 & E4 & E). apply pdiff_ok in E4 as [-> E4].
  assert (k = n) as ->.
  { destruct Hs as [(-> & -> & ->)|(b & o & ->)]; simpl in E4; destruct E4 as [(? & ? & ?)|(? & ? & ? & ?)]; simplify_eq; lia. }
  apply bind_ok in E as (u & s5 & E5 & E). destruct (keeps_move_fwd _ _ _ _ _ _ E5) as [M5 O5].
  apply bind_ok in E as (u6 & s6 & E6 & E).
  assert (K : costs (e <- padd nb n;; se <- padd nb m;; @set_arr V i (mkArr nb e se)) 0).
  { eapply (costs_bind _ _ 0 0); [apply keeps_costs, keeps_padd| |done]. intros.
    eapply (costs_bind _ _ 0 0); [apply keeps_costs, keeps_padd| |done]. intros. apply costs_set_arr. }
  rewrite (K _ _ _ E). simpl.
  assert (moved s6 = moved s5) as ->; [|lia].
  destruct (a_begin a); [unfold ret in E6; by simplify_eq|].
  apply bind_ok in E6 as (cc & s7 & E7 & E6). destruct (keeps_capacity _ _ _ _ E7) as [M7 _].
  destruct (keeps_dealloc _ _ _ _ _ E6) as [M8 _]. lia.
Qed.
Lemma cost_shrink i m s n c r s' : holds s i n c → @shrink_storage V triv i m s = Ok r s' →
  moved s' = n `min` m + moved s.
Proof.
  intros H E. unfold shrink_storage in E.
  apply bind_ok in E as (sz & s1 & E1 & E). destruct (holds_size _ _ _ _ _ _ H E1) as [-> ->].
  apply bind_ok in E as (nb & s2 & E2 & E). destruct (keeps_alloc _ _ _ _ E2) as [M2 O2].
  apply (holds_objs _ _ _ _ _ O2) in H.
  apply bind_ok in E as (a & s3 & E3 & E). destruct (holds_get _ _ _ _ _ _ H E3) as [-> Hs].
  apply bind_ok in E as (mid & s4 & E4 & E). apply padd_ok in E4 as [-> E4].
  apply bind_ok in E as (k & s4 & E5 & E). apply pdiff_ok in E5 as [-> E5].
  assert (k = n `min` m) as ->.
  { destruct E4 as [(E4 & -> & ->)|(b & o & E4 & ->)]; rewrite E4 in E5;
      destruct E5 as [(? & ? & ?)|(? & ? & ? & ?)]; simplify_eq; lia. }
  apply bind_ok in E as (u & s5 & E6 & E). destruct (keeps_move_fwd _ _ _ _ _ _ E6) as [M5 O5].
  assert (K : costs (destroy_a triv mid (a_end a);;; c <- capacity i;; dealloc triv (a_begin a) c;;;
    e <- padd nb (n `min` m);; se <- padd nb m;; @set_arr V i (mkArr nb e se)) 0).
  { eapply (costs_bind _ _ 0 0); [apply keeps_costs, keeps_destroy_a| |done]. intros.
    eapply (costs_bind _ _ 0 0); [apply keeps_costs, keeps_capacity| |done]. intros.
    eapply (costs_bind _ _ 0 0); [apply keeps_costs, keeps_dealloc| |done]. intros.
    eapply (costs_bind _ _ 0 0); [apply keeps_costs, keeps_padd| |done]. intros.
    eapply (costs_bind _ _ 0 0); [apply keeps_costs, keeps_padd| |done]. intros. apply costs_set_arr. }
  rewrite (K _ _ _ E). lia.
Qed.
Lemma ptr_eqb_eq p q : ptr_eqb p q = true ↔ p = q.
Proof.
  destruct p as [|b o], q as [|b' o']; simpl; try done.
  rewrite andb_true_iff, !Nat.eqb_eq. split; [intros [-> ->]; done|intros [= -> ->]; done].
Qed.
Lemma shape_full a n c : shape a n c → ptr_eqb (a_end a) (a_stor a) = bool_decide (n = c).
Proof.
  intros H. apply eq_true_iff_eq. rewrite ptr_eqb_eq, bool_decide_eq_true.
  destruct H as [(-> & -> & ->)|(b & o & ->)]; simpl; [done|]. split; [intros [= ?]; lia|intros ->; done].
Qed.

Lemma cost_emplace i x s n c r s' : holds s i n c → @emplace_back V triv i x s = Ok r s' →
  moved s' = (if decide (n = c) then n else 0) + moved s.
Proof.
  intros H E. unfold emplace_back in E.
  apply bind_ok in E as (a & s1 & E1 & E). destruct (holds_get _ _ _ _ _ _ H E1) as [-> Hs].
  apply bind_ok in E as (u & s2 & E2 & E).
  assert (K : costs (a' <- get_arr i;; construct triv (a_end a') x;;; e <- padd (a_end a') 1;;
    set_end i e;;; e' <- @end_ V i;; psub e' 1) 0).
  { eapply (costs_bind _ _ 0 0); [apply keeps_costs, keeps_get_arr| |done]. intros.
    eapply (costs_bind _ _ 0 0); [apply keeps_costs, keeps_construct| |done]. intros.
    eapply (costs_bind _ _ 0 0); [apply keeps_costs, keeps_padd| |done]. intros.
    eapply (costs_bind _ _ 0 0); [apply costs_set_end| |done]. intros.
    eapply (costs_bind _ _ 0 0); [apply keeps_costs, keeps_end| |done]. intros. apply keeps_costs, keeps_psub. }
  rewrite (K _ _ _ E). simpl. rewrite (shape_full _ _ _ Hs) in E2.
  destruct (bool_decide_reflect (n = c)) as [->|Hn].
  - rewrite decide_True by done. apply bind_ok in E2 as (sz & s3 & E3 & E2).
    destruct (holds_size _ _ _ _ _ _ H E3) as [-> ->]. by apply (cost_grow _ _ _ _ _ _ _ H E2).
  - rewrite decide_False by done. unfold ret in E2. by simplify_eq.
Qed.
Lemma costs_push_loop i xs : costs (@push_loop V triv i xs) 0.
Proof.
  induction xs as [|x xs IH]; cbn [push_loop]; [apply keeps_costs, keeps_ret|].
  eapply (costs_bind _ _ 0 0); [apply keeps_costs, keeps_get_arr| |done]. intros.
  eapply (costs_bind _ _ 0 0); [apply keeps_costs, keeps_construct| |done]. intros.
  eapply (costs_bind _ _ 0 0); [apply keeps_costs, keeps_padd| |done]. intros.
  eapply (costs_bind _ _ 0 0); [apply costs_set_end| |done]. intros. apply IH.
Qed.
Lemma cost_push_range i xs s n c r s' : holds s i n c → @push_back_range V triv i xs s = Ok r s' →
  moved s' = (if decide (n + length xs ≤ c) then 0 else n) + moved s.
Proof.
  intros H E. unfold push_back_range in E.
  apply bind_ok in E as (sz & s1 & E1 & E). destruct (holds_size _ _ _ _ _ _ H E1) as [-> ->].
  apply bind_ok in E as (cp & s1 & E2 & E). destruct (holds_capacity _ _ _ _ _ _ H E2) as [-> ->].
  apply bind_ok in E as (u & s2 & E3 & E). rewrite (costs_push_loop _ _ _ _ _ E). simpl.
  destruct (Nat.ltb_spec c (n + length xs)).
  - rewrite decide_False by lia. by apply (cost_grow _ _ _ _ _ _ _ H E3).
  - rewrite decide_True by lia. unfold ret in E3. by simplify_eq.
Qed.

(** Positions: the iterator of index [k]. *)
Lemma index_ok i k s n c p s' : holds s i n c → @index V i k s = Ok p s' → s' = s ∧
  ∃ a, objs s !! i = Some (Some a) ∧ shape a n c ∧
    ((a = mkArr Null Null Null ∧ k = 0 ∧ p = Null ∧ n = 0 ∧ c = 0) ∨
     ∃ b o, a = mkArr (Ptr b o) (Ptr b (o + n)) (Ptr b (o + c)) ∧ p = Ptr b (o + k)).
Proof.
  intros (a & Ha & Hs) E. unfold index, begin_ in E. apply bind_ok in E as (q & s1 & E1 & E).
  apply bind_ok in E1 as (a' & s2 & E2 & E1). apply get_arr_ok in E2 as [E2 ->].
  rewrite Ha in E2. injection E2 as <-. unfold ret in E1. injection E1 as <- <-.
  apply padd_ok in E as [-> E]. split; [done|]. exists a. split_and!; [done..|].
  destruct Hs as [(-> & -> & ->)|(b & o & ->)]; simpl in E.
  - left. destruct E as [(_ & -> & ->)|(? & ? & ? & ?)]; done.
  - right. destruct E as [(? & _)|(? & ? & [= <- <-] & ->)]; [done|]. eauto.
Qed.

Lemma cost_erase i k s n c p r s' : holds s i n c → @index V i k s = Ok p s →
  @erase V triv i p s = Ok r s' → moved s' = n - k - 1 + moved s ∧ k < n.
Proof.
  intros H Ei E. destruct (index_ok _ _ _ _ _ _ _ H Ei) as (_ & a & Ha & _ & Hp).
  unfold erase in E. apply bind_ok in E as (u & s1 & E1 & E).
  destruct (keeps_destroy _ _ _ _ E1) as [M1 O1].
  apply bind_ok in E as (nx & s2 & E2 & E). apply padd_ok in E2 as [-> E2].
  apply bind_ok in E as (a' & s2 & E3 & E). apply get_arr_ok in E3 as [E3 ->]. rewrite O1, Ha in E3.
  injection E3 as <-. apply bind_ok in E as (m & s2 & E4 & E). apply pdiff_ok in E4 as [-> E4].
  destruct Hp as [(-> & -> & -> & _)|(b & o & -> & ->)]; [destruct E2 as [(_ & ? & _)|(? & ? & ? & _)]; done|].
  destruct E2 as [(? & _)|(? & ? & [= <- <-] & ->)]; [done|]. simpl in E4.
  destruct E4 as [(? & _)|(? & ? & [= <- <-] & [= ?])]; [done|].
  apply bind_ok in E as (u2 & s2 & E5 & E). destruct (keeps_copy_fwd _ _ _ _ _ _ E5) as [M5 O5].
  assert (K : costs (e <- psub (Ptr b (o + n)) 1;; set_end i e;;; ret (Ptr b (o + k)) : MA ptr) 0).
  { eapply (costs_bind _ _ 0 0); [apply keeps_costs, keeps_psub| |done]. intros.
    eapply (costs_bind _ _ 0 0); [apply costs_set_end| |done]. intros. apply keeps_costs, keeps_ret. }
  rewrite (K _ _ _ E). lia.
Qed.
Lemma cost_erase_range i k m s n c p q r s' : holds s i n c → @index V i k s = Ok p s →
  @index V i m s = Ok q s → @erase_range V triv i p q s = Ok r s' → moved s' = n - m + moved s.
Proof.
  intros H Ep Eq E. destruct (index_ok _ _ _ _ _ _ _ H Ep) as (_ & a & Ha & _ & Hp).
  destruct (index_ok _ _ _ _ _ _ _ H Eq) as (_ & a' & Ha' & _ & Hq). rewrite Ha in Ha'. injection Ha' as <-.
  unfold erase_range in E. apply bind_ok in E as (d & s1 & E0 & E). apply pdiff_ok in E0 as [-> E0].
  apply bind_ok in E as (u & s1 & E1 & E). destruct (keeps_destroy_n _ _ _ _ _ E1) as [M1 O1].
  apply bind_ok in E as (sr & s2 & E2 & E). apply padd_ok in E2 as [-> E2].
  apply bind_ok in E as (a' & s2 & E3 & E). apply get_arr_ok in E3 as [E3 ->]. rewrite O1, Ha in E3.
  injection E3 as <-. apply bind_ok in E as (j & s2 & E4 & E). apply pdiff_ok in E4 as [-> E4].
  apply bind_ok in E as (u2 & s2 & E5 & E). destruct (keeps_copy_fwd _ _ _ _ _ _ E5) as [M5 O5].
  assert (K : costs (e <- psub (a_end a) d;; set_end i e;;; ret p : MA ptr) 0).
  { eapply (costs_bind _ _ 0 0); [apply keeps_costs, keeps_psub| |done]. intros.
    eapply (costs_bind _ _ 0 0); [apply costs_set_end| |done]. intros. apply keeps_costs, keeps_ret. }
  rewrite (K _ _ _ E). simpl.
  destruct Hp as [(-> & -> & -> & -> & ->)|(b & o & -> & ->)].
  - destruct Hq as [(_ & -> & -> & _)|(b & o & ? & _)]; [|done].
    destruct E2 as [(_ & -> & ->)|(? & ? & ? & _)]; [|done].
    destruct E4 as [(_ & _ & ->)|(? & ? & ? & _)]; [lia|done].
  - destruct Hq as [(? & _)|(b' & o' & [= <- <- _] & ->)]; [done|].
    destruct E0 as [(? & _)|(? & ? & [= <- <-] & [= ?])]; [done|].
    destruct E2 as [(? & _)|(? & ? & [= <- <-] & ->)]; [done|]. simpl in E4.
    destruct E4 as [(? & _)|(? & ? & [= <- <-] & [= ?])]; [done|]. lia.
Qed.
Lemma cost_realloc_insert i k x s n c p r s' : holds s i n c → @index V i k s = Ok p s →
  @realloc_insert V triv i p x s = Ok r s' → moved s' = n + moved s.
Proof.
  intros H Ei E. destruct (index_ok _ _ _ _ _ _ _ H Ei) as (_ & a & Ha & _ & Hp).
  unfold realloc_insert in E. apply bind_ok in E as (a' & s1 & E1 & E).
  apply get_arr_ok in E1 as [E1 ->]. rewrite Ha in E1. injection E1 as <-.
  apply bind_ok in E as (eb & s1 & E1 & E). apply pdiff_ok in E1 as [-> E1].
  apply bind_ok in E as (sz & s1 & E2 & E). destruct (holds_size _ _ _ _ _ _ H E2) as [-> ->].
  apply bind_ok in E as (ns & s1 & E3 & E). destruct (keeps_alloc _ _ _ _ E3) as [M3 O3].
  apply bind_ok in E as (sl & s2 & E4 & E). destruct (keeps_padd _ _ _ _ _ E4) as [M4 O4].
  apply bind_ok in E as (u & s3 & E5 & E). apply on_throw_ok in E5.
  assert (K : costs (c <- capacity i;; dealloc triv (a_begin a) c;;; e <- padd ns (n + 1);;
    se <- padd ns (n + n `max` 1);; set_arr i (mkArr ns e se);;; b <- begin_ i;; padd b eb : MA ptr) 0).
  { eapply (costs_bind _ _ 0 0); [apply keeps_costs, keeps_capacity| |done]. intros.
    eapply (costs_bind _ _ 0 0); [apply keeps_costs, keeps_dealloc| |done]. intros.
    eapply (costs_bind _ _ 0 0); [apply keeps_costs, keeps_padd| |done]. intros.
    eapply (costs_bind _ _ 0 0); [apply keeps_costs, keeps_padd| |done]. intros.
    eapply (costs_bind _ _ 0 0); [apply costs_set_arr| |done]. intros.
    eapply (costs_bind _ _ 0 0); [apply keeps_costs, keeps_begin| |done]. intros. apply keeps_costs, keeps_padd. }
  rewrite (K _ _ _ E). simpl. clear K E.
  apply bind_ok in E5 as (u1 & s4 & E & E5). destruct (keeps_construct _ _ _ _ _ E) as [M5 _]. clear E.
  apply bind_ok in E5 as (k1 & s5 & E & E5). apply pdiff_ok in E as [-> E6].
  apply bind_ok in E5 as (u2 & s6 & E & E5). destruct (keeps_move_fwd _ _ _ _ _ _ E) as [M6 _]. clear E.
  apply bind_ok in E5 as (k2 & s7 & E & E5). apply pdiff_ok in E as [-> E7].
  apply bind_ok in E5 as (d2 & s8 & E & E5). destruct (keeps_padd _ _ _ _ _ E) as [M7 _]. clear E.
  destruct (keeps_move_fwd _ _ _ _ _ _ E5) as [M8 _].
  assert (k1 + k2 = n); [|lia].
  destruct Hp as [(-> & -> & -> & -> & ->)|(b & o & -> & ->)]; simpl in *.
  - destruct E6 as [(_ & _ & ->)|(? & ? & ? & _)]; [|done].
    destruct E7 as [(_ & _ & ->)|(? & ? & ? & _)]; done.
  - destruct E6 as [(? & _)|(? & ? & [= <- <-] & [= ?])]; [done|].
    destruct E7 as [(? & _)|(? & ? & [= <- <-] & [= ?])]; [done|]. lia.
Qed.
Lemma cost_insert i k x s n c p r s' : holds s i n c → @index V i k s = Ok p s →
  @insert V triv i p x s = Ok r s' → moved s' = (if decide (n = c) then n else n - k) + moved s.
Proof.
  intros H Ei E. destruct (index_ok _ _ _ _ _ _ _ H Ei) as (_ & a & Ha & Hs & Hp).
  unfold insert in E. apply bind_ok in E as (a' & s1 & E1 & E).
  apply get_arr_ok in E1 as [E1 ->]. rewrite Ha in E1. injection E1 as <-.
  destruct (ptr_eqb p (a_end a)) eqn:Epe.
  - apply ptr_eqb_eq in Epe.
    assert (k = n) as ->.
    { destruct Hp as [(-> & -> & -> & -> & ->)|(b & o & -> & ->)]; [done|]. simpl in Epe. injection Epe. lia. }
    apply bind_ok in E as (u & s1 & E1 & E). rewrite Nat.sub_diag. rewrite <-(cost_emplace _ _ _ _ _ _ _ H E1).
    apply bind_ok in E as (e & s2 & E2 & E). destruct (keeps_end _ _ _ _ E2) as [M2 _].
    destruct (keeps_psub _ _ _ _ _ E) as [M3 _]. lia.
  - rewrite (shape_full _ _ _ Hs) in E. destruct (bool_decide_reflect (n = c)) as [->|Hn].
    + rewrite decide_True by done. by apply (cost_realloc_insert _ _ _ _ _ _ _ _ _ H Ei E).
    + rewrite decide_False by done.
      destruct Hp as [(-> & -> & -> & -> & ->)|(b & o & -> & ->)]; [done|]. simpl in E.
      apply bind_ok in E as (la & s1 & E1 & E). apply psub_ok in E1 as [-> E1].
      destruct E1 as [(? & _)|(? & ? & [= <- <-] & Hle & ->)]; [done|].
      apply bind_ok in E as (u & s1 & E2 & E). destruct (keeps_move_construct _ _ _ _ _ E2) as [M2 O2].
      apply bind_ok in E as (e & s2 & E3 & E). apply padd_ok in E3 as [-> E3].
      destruct E3 as [(? & _)|(? & ? & [= <- <-] & ->)]; [done|].
      apply bind_ok in E as (u2 & s2 & E4 & E). unfold set_end in E4.
      apply bind_ok in E4 as (a4 & s3 & E5 & E4). apply get_arr_ok in E5 as [E5 ->].
      rewrite O2, Ha in E5. injection E5 as <-. unfold set_arr, modify in E4. injection E4 as _ <-. simpl in E.
      apply bind_ok in E as (a5 & s3 & E5 & E). apply get_arr_ok in E5 as [E5 ->]. simpl in E5.
      rewrite list_lookup_insert in E5 by (rewrite O2; by apply lookup_lt_Some in Ha).
      injection E5 as <-. simpl in E.
      apply bind_ok in E as (se & s3 & E6 & E). apply psub_ok in E6 as [-> E6].
      destruct E6 as [(? & _)|(? & ? & [= <- <-] & Hle2 & ->)]; [done|].
      apply bind_ok in E as (de & s3 & E7 & E). apply psub_ok in E7 as [-> E7].
      apply bind_ok in E as (j & s3 & E8 & E). apply pdiff_ok in E8 as [-> E8].
      destruct E8 as [(? & _)|(? & ? & [= <- <-] & [= ?])]; [done|].
      apply bind_ok in E as (u3 & s3 & E9 & E). destruct (keeps_move_bwd _ _ _ _ _ _ E9) as [M9 _].
      apply bind_ok in E as (u4 & s4 & E10 & E). destruct (keeps_assign_arg _ _ _ _ _ E10) as [M10 _].
      unfold ret in E. injection E as _ <-. simpl in *.
      assert (k ≠ n).
      { intros ->. simpl in Epe. rewrite !Nat.eqb_refl in Epe. done. }
      lia.
Qed.

Lemma costs_on_throw {A} (m : MA A) h n : costs m n → costs (on_throw m h) n.
Proof. intros H s r s' E%on_throw_ok. eauto. Qed.
Lemma costs_new_array f : (∀ i, costs (f i) 0) → costs (@new_array V f) 0.
Proof.
  intros Hf. unfold new_array. eapply (costs_bind _ _ 0 0); [| |done].
  - intros s r s' E. unfold push_obj, bind, gets, modify, ret in E. injection E as _ <-. done.
  - intros i. eapply (costs_bind _ _ 0 0); [apply costs_on_throw, Hf|intros; apply keeps_costs, keeps_ret|done].
Qed.
Lemma costs_pop_obj : costs (@pop_obj V) 0.
Proof. intros s r s' E. unfold pop_obj, modify in E. injection E as _ <-. done. Qed.
Lemma costs_with_tmp {A} f (g : nat → MA A) : (∀ i, costs (f i) 0) → (∀ i, costs (g i) 0) →
  costs (with_tmp triv f g) 0.
Proof.
  intros Hf Hg. unfold with_tmp. eapply (costs_bind _ _ 0 0); [by apply costs_new_array| |done]. intros i.
  eapply (costs_bind _ _ 0 0); [apply costs_on_throw, Hg| |done]. intros.
  eapply (costs_bind _ _ 0 0); [apply keeps_costs, keeps_dtor| |done]. intros.
  eapply (costs_bind _ _ 0 0); [apply costs_pop_obj| |done]. intros. apply keeps_costs, keeps_ret.
Qed.
Lemma costs_swap i j : costs (@swap V i j) 0.
Proof.
  unfold swap. eapply (costs_bind _ _ 0 0); [apply keeps_costs, keeps_get_arr| |done]. intros.
  eapply (costs_bind _ _ 0 0); [apply costs_set_arr| |done]. intros.
  eapply (costs_bind _ _ 0 0); [apply keeps_costs, keeps_get_arr| |done]. intros.
  eapply (costs_bind _ _ 0 0); [apply keeps_costs, keeps_get_arr| |done]. intros.
  eapply (costs_bind _ _ 0 0); [apply costs_set_arr| |done]. intros.
  eapply (costs_bind _ _ 0 0); [apply costs_set_arr| |done]. intros.
  eapply (costs_bind _ _ 0 0); [|intros; apply costs_set_arr|done].
  case_match; [apply costs_set_arr|apply keeps_costs, keeps_ret].
Qed.
Lemma costs_ctor_cap i n : costs (@ctor_cap V i n) 0.
Proof.
  unfold ctor_cap. eapply (costs_bind _ _ 0 0); [apply keeps_costs, keeps_alloc| |done]. intros.
  eapply (costs_bind _ _ 0 0); [apply keeps_costs, keeps_padd| |done]. intros. apply costs_set_arr.
Qed.
Lemma costs_ctor_range i xs : costs (@ctor_range V triv i xs) 0.
Proof.
  unfold ctor_range. eapply (costs_bind _ _ 0 0); [apply costs_ctor_cap| |done]. intros.
  apply costs_on_throw. eapply (costs_bind _ _ 0 0); [apply keeps_costs, keeps_get_arr| |done]. intros.
  eapply (costs_bind _ _ 0 0); [apply keeps_costs, keeps_ucopy| |done]. intros. apply costs_set_end.
Qed.
Lemma costs_ctor_copy i j : costs (@ctor_copy V triv i j) 0.
Proof.
  unfold ctor_copy. eapply (costs_bind _ _ 0 0); [apply keeps_costs, keeps_get_arr| |done]. intros.
  eapply (costs_bind _ _ 0 0); [apply keeps_costs, keeps_pdiff| |done]. intros. apply costs_ctor_range.
Qed.
Lemma costs_ctor_move i j : costs (@ctor_move V i j) 0.
Proof.
  unfold ctor_move. eapply (costs_bind _ _ 0 0); [apply keeps_costs, keeps_get_arr| |done]. intros.
  eapply (costs_bind _ _ 0 0); [apply costs_set_arr|intros; apply costs_set_arr|done].
Qed.
Lemma costs_ctor_fill i n v : costs (@ctor_fill V triv i n v) 0.
Proof.
  unfold ctor_fill. eapply (costs_bind _ _ 0 0); [apply costs_ctor_cap| |done]. intros.
  apply costs_on_throw. eapply (costs_bind _ _ 0 0); [apply keeps_costs, keeps_get_arr| |done]. intros.
  eapply (costs_bind _ _ 0 0); [apply keeps_costs, keeps_fill| |done]. intros. apply costs_set_end.
Qed.
Lemma costs_destroy_array i : costs (@destroy_array V triv i) 0.
Proof.
  unfold destroy_array. eapply (costs_bind _ _ 0 0); [apply keeps_costs, keeps_dtor| |done].
  intros _ s r s' E. unfold modify in E. injection E as _ <-. done.
Qed.
Lemma costs_clear i : costs (@clear V triv i) 0.
Proof.
  unfold clear. eapply (costs_bind _ _ 0 0); [apply keeps_costs, keeps_get_arr| |done]. intros.
  eapply (costs_bind _ _ 0 0); [apply keeps_costs, keeps_destroy_a| |done]. intros. apply costs_set_end.
Qed.
Lemma costs_pop_back i : costs (@pop_back V triv i) 0.
Proof.
  unfold pop_back. eapply (costs_bind _ _ 0 0); [apply keeps_costs, keeps_size| |done]. intros.
  eapply (costs_bind _ _ 0 0); [case_match; apply keeps_costs; [apply keeps_ret|apply keeps_fail]| |done]. intros.
  eapply (costs_bind _ _ 0 0); [apply keeps_costs, keeps_get_arr| |done]. intros.
  eapply (costs_bind _ _ 0 0); [apply keeps_costs, keeps_psub| |done]. intros.
  eapply (costs_bind _ _ 0 0); [apply costs_set_end| |done]. intros. apply keeps_costs, keeps_destroy.
Qed.
Lemma keeps_index i k : keeps (@index V i k) 0.
Proof. eapply (keeps_bind _ _ 0 0); [apply keeps_begin|intros; apply keeps_padd|done]. Qed.
Lemma keeps_read_loop n : ∀ p, keeps (@read_loop V n p) 0.
Proof.
  induction n as [|n IH]; intros p; cbn [read_loop]; [apply keeps_ret|].
  eapply (keeps_bind _ _ 0 0); [apply keeps_load| |done]. intros.
  eapply (keeps_bind _ _ 0 0); [apply keeps_padd| |done]. intros.
  eapply (keeps_bind _ _ 0 0); [apply IH|intros; apply keeps_ret|done].
Qed.
Lemma keeps_idx_of i p : keeps (@idx_of V i p) 0.
Proof.
  unfold idx_of. eapply (keeps_bind _ _ 0 0); [apply keeps_begin| |done]. intros.
  eapply (keeps_bind _ _ 0 0); [apply keeps_pdiff|intros; apply keeps_ret|done].
Qed.

(** insert_range: the growing case goes through a temporary array. *)
Lemma cost_insert_range i k xs s n c p r s' : holds s i n c → @index V i k s = Ok p s →
  @insert_range V triv i p xs s = Ok r s' →
  moved s' = (if decide (n + length xs ≤ c) then n - k else n) + moved s.
Proof.
  intros H Ei E. destruct (index_ok _ _ _ _ _ _ _ H Ei) as (_ & a & Ha & Hs & Hp).
  unfold insert_range in E.
  apply bind_ok in E as (sz & s1 & E1 & E). destruct (holds_size _ _ _ _ _ _ H E1) as [-> ->].
  apply bind_ok in E as (cp & s1 & E2 & E). destruct (holds_capacity _ _ _ _ _ _ H E2) as [-> ->].
  destruct (Nat.ltb_spec c (n + length xs)).
  - rewrite decide_False by lia. unfold with_tmp in E.
    apply bind_ok in E as (t & s1 & E3 & E).
    assert (Hm1 : moved s1 = moved s) by (by apply (costs_new_array _ (λ i, costs_ctor_cap i _) _ _ _ E3)).
    assert (Ha1 : objs s1 !! i = Some (Some a)).
    { unfold new_array in E3. apply bind_ok in E3 as (j & s2 & E4 & E3).
      unfold push_obj, bind, gets, modify, ret in E4. injection E4 as <- <-.
      apply bind_ok in E3 as (u & s3 & E4 & E3). unfold ret in E3. injection E3 as _ <-.
      apply on_throw_ok in E4. unfold ctor_cap in E4.
      apply bind_ok in E4 as (q & s4 & E5 & E4). destruct (keeps_alloc _ _ _ _ E5) as [_ O5].
      apply bind_ok in E4 as (q' & s5 & E6 & E4). destruct (keeps_padd _ _ _ _ _ E6) as [_ O6].
      unfold set_arr, modify in E4. injection E4 as _ <-. simpl.
      rewrite list_lookup_insert_ne by (apply lookup_lt_Some in Ha; lia).
      rewrite O6, O5. simpl. by apply lookup_app_l_Some. }
    apply bind_ok in E as (r2 & s2 & E4 & E). apply on_throw_ok in E4.
    assert (K : costs (dtor triv t;;; pop_obj;;; ret r2 : MA ptr) 0).
    { eapply (costs_bind _ _ 0 0); [apply keeps_costs, keeps_dtor| |done]. intros.
      eapply (costs_bind _ _ 0 0); [apply costs_pop_obj| |done]. intros. apply keeps_costs, keeps_ret. }
    rewrite (K _ _ _ E). simpl. clear K E.
    apply bind_ok in E4 as (a' & s3 & E5 & E4). apply get_arr_ok in E5 as [E5 ->]. rewrite Ha1 in E5.
    injection E5 as <-. apply bind_ok in E4 as (eb & s3 & E5 & E4). apply pdiff_ok in E5 as [-> _].
    apply bind_ok in E4 as (ta & s3 & E5 & E4). apply get_arr_ok in E5 as [_ ->].
    apply bind_ok in E4 as (sl & s3 & E5 & E4). destruct (keeps_padd _ _ _ _ _ E5) as [M5 _].
    apply bind_ok in E4 as (u & s4 & E6 & E4). destruct (keeps_construct_range _ _ _ _ _ E6) as [M6 _].
    apply bind_ok in E4 as (k1 & s5 & E7 & E4). apply pdiff_ok in E7 as [-> E7].
    apply bind_ok in E4 as (u2 & s5 & E8 & E4). destruct (keeps_copy_fwd _ _ _ _ _ _ E8) as [M8 _].
    apply bind_ok in E4 as (k2 & s6 & E9 & E4). apply pdiff_ok in E9 as [-> E9].
    apply bind_ok in E4 as (d2 & s6 & E10 & E4). destruct (keeps_padd _ _ _ _ _ E10) as [M10 _].
    apply bind_ok in E4 as (u3 & s7 & E11 & E4). destruct (keeps_copy_fwd _ _ _ _ _ _ E11) as [M11 _].
    assert (K : costs (sz' <- size i;; e <- padd (a_begin ta) (sz' + length xs);; set_end t e;;; swap i t;;;
      b <- begin_ i;; padd b eb : MA ptr) 0).
    { eapply (costs_bind _ _ 0 0); [apply keeps_costs, keeps_size| |done]. intros.
      eapply (costs_bind _ _ 0 0); [apply keeps_costs, keeps_padd| |done]. intros.
      eapply (costs_bind _ _ 0 0); [apply costs_set_end| |done]. intros.
      eapply (costs_bind _ _ 0 0); [apply costs_swap| |done]. intros.
      eapply (costs_bind _ _ 0 0); [apply keeps_costs, keeps_begin| |done]. intros. apply keeps_costs, keeps_padd. }
    rewrite (K _ _ _ E4). simpl. assert (k1 + k2 = n); [|lia].
    destruct Hp as [(-> & -> & -> & -> & ->)|(b & o & -> & ->)]; simpl in *.
    + destruct E7 as [(_ & _ & ->)|(? & ? & ? & _)]; [|done].
      destruct E9 as [(_ & _ & ->)|(? & ? & ? & _)]; done.
    + destruct E7 as [(? & _)|(? & ? & [= <- <-] & [= ?])]; [done|].
      destruct E9 as [(? & _)|(? & ? & [= <- <-] & [= ?])]; [done|]. lia.
  - rewrite decide_True by lia.
    apply bind_ok in E as (a' & s1 & E3 & E). apply get_arr_ok in E3 as [E3 ->]. rewrite Ha in E3. injection E3 as <-.
    apply bind_ok in E as (j & s1 & E3 & E). apply pdiff_ok in E3 as [-> E3].
    apply bind_ok in E as (d & s1 & E4 & E). apply padd_ok in E4 as [-> _].
    apply bind_ok in E as (u & s1 & E5 & E). destruct (keeps_copy_bwd _ _ _ _ _ _ E5) as [M5 _].
    assert (K : costs (set_end i d;;; construct_range triv p xs;;; ret p : MA ptr) 0).
    { eapply (costs_bind _ _ 0 0); [apply costs_set_end| |done]. intros.
      eapply (costs_bind _ _ 0 0); [apply keeps_costs, keeps_construct_range| |done]. intros. apply keeps_costs, keeps_ret. }
    rewrite (K _ _ _ E). simpl. rewrite M5. f_equal.
    destruct Hp as [(-> & -> & -> & -> & ->)|(b & o & -> & ->)]; simpl in *;
      destruct E3 as [(? & ? & ?)|(? & ? & ? & ?)]; simplify_eq; lia.
Qed.
End proofs.

(** ** C156 *)

(** Calls that may relocate elements relocate exactly the announced number;
    all other calls relocate none. *)
Theorem array_relocations {V} triv (o : op V) (s : st V) i l c r s' :
  relocates o = Some i → obs s i l c → run_op triv o s = Ok r s' →
  moved s' = relocated o (length l) c + moved s.
Proof.
  intros Ho H%obs_holds E. destruct o; simplify_eq/=.
  - (* reserve *) apply bind_ok in E as (u & s1 & E & E2). unfold ret in E2. injection E2 as _ <-.
    unfold reserve in E. apply bind_ok in E as (cp & s2 & E2 & E).
    destruct (holds_capacity _ _ _ _ _ _ H E2) as [-> ->]. destruct (Nat.ltb_spec c n).
    + rewrite decide_False by lia. by apply (cost_grow _ _ _ _ _ _ _ _ H E).
    + rewrite decide_True by lia. unfold ret in E. by simplify_eq.
  - (* resize *) apply bind_ok in E as (u & s1 & E & E2). unfold ret in E2. injection E2 as _ <-.
    unfold resize in E. apply bind_ok in E as (cp & s2 & E2 & E).
    destruct (holds_capacity _ _ _ _ _ _ H E2) as [-> ->].
    destruct (Nat.ltb_spec c n); [|destruct (Nat.ltb_spec n c)].
    + rewrite decide_False, decide_True by lia. by apply (cost_grow _ _ _ _ _ _ _ _ H E).
    + rewrite !decide_False by lia. by apply (cost_shrink _ _ _ _ _ _ _ _ H E).
    + rewrite decide_True by lia. unfold ret in E. by simplify_eq.
  - (* insert *) apply bind_ok in E as (p & s1 & E1 & E). destruct (index_ok _ _ _ _ _ _ _ H E1) as [-> _].
    apply bind_ok in E as (q & s2 & E2 & E). destruct (keeps_idx_of _ _ _ _ _ E) as [-> _].
    by apply (cost_insert _ _ _ _ _ _ _ _ _ _ H E1 E2).
  - (* insert a range *) apply bind_ok in E as (p & s1 & E1 & E). destruct (index_ok _ _ _ _ _ _ _ H E1) as [-> _].
    apply bind_ok in E as (q & s2 & E2 & E). destruct (keeps_idx_of _ _ _ _ _ E) as [-> _].
    simpl. by rewrite (cost_insert_range _ _ _ _ _ _ _ _ _ _ H E1 E2), map_length.
  - (* push_back *) apply bind_ok in E as (u & s1 & E & E2). unfold ret in E2. injection E2 as _ <-.
    unfold push_back in E. apply bind_ok in E as (q & s2 & E & E2). unfold ret in E2. injection E2 as _ <-.
    by apply (cost_emplace _ _ _ _ _ _ _ _ H E).
  - (* emplace_back *) apply bind_ok in E as (q & s1 & E1 & E). destruct (keeps_idx_of _ _ _ _ _ E) as [-> _].
    by apply (cost_emplace _ _ _ _ _ _ _ _ H E1).
  - (* push back a range *) apply bind_ok in E as (u & s1 & E & E2). unfold ret in E2. injection E2 as _ <-.
    by rewrite (cost_push_range _ _ _ _ _ _ _ _ H E), map_length.
  - (* erase *) apply bind_ok in E as (p & s1 & E1 & E). destruct (index_ok _ _ _ _ _ _ _ H E1) as [-> _].
    apply bind_ok in E as (q & s2 & E2 & E). destruct (keeps_idx_of _ _ _ _ _ E) as [-> _].
    by apply (cost_erase _ _ _ _ _ _ _ _ _ H E1 E2).
  - (* erase a range *) apply bind_ok in E as (p & s1 & E1 & E). destruct (index_ok _ _ _ _ _ _ _ H E1) as [-> _].
    apply bind_ok in E as (p' & s1 & E2 & E). destruct (index_ok _ _ _ _ _ _ _ H E2) as [-> _].
    apply bind_ok in E as (q & s2 & E3 & E). destruct (keeps_idx_of _ _ _ _ _ E) as [-> _].
    by apply (cost_erase_range _ _ _ _ _ _ _ _ _ _ _ H E1 E2 E3).
Qed.
Theorem array_no_relocations {V} triv (o : op V) (s : st V) r s' :
  relocates o = None → run_op triv o s = Ok r s' → moved s' = moved s.
Proof.
  intros Ho E. assert (K : costs (run_op triv o) 0); [|by apply (K _ _ _ E)]. clear E.
  destruct o; try done; unfold run_op.
  - eapply (costs_bind _ _ 0 0); [apply costs_new_array; intros; apply keeps_costs, keeps_ret|intros; apply keeps_costs, keeps_ret|done].
  - eapply (costs_bind _ _ 0 0); [apply costs_new_array; intros; apply costs_ctor_cap|intros; apply keeps_costs, keeps_ret|done].
  - eapply (costs_bind _ _ 0 0); [apply costs_new_array; intros; apply costs_ctor_fill|intros; apply keeps_costs, keeps_ret|done].
  - eapply (costs_bind _ _ 0 0); [apply costs_new_array; intros; apply costs_ctor_range|intros; apply keeps_costs, keeps_ret|done].
  - eapply (costs_bind _ _ 0 0); [apply costs_new_array; intros; apply costs_ctor_copy|intros; apply keeps_costs, keeps_ret|done].
  - eapply (costs_bind _ _ 0 0); [apply costs_new_array; intros; apply costs_ctor_move|intros; apply keeps_costs, keeps_ret|done].
  - eapply (costs_bind _ _ 0 0); [apply costs_destroy_array|intros; apply keeps_costs, keeps_ret|done].
  - eapply (costs_bind _ _ 0 0); [apply costs_with_tmp; intros; [apply costs_ctor_copy|apply costs_swap]|intros; apply keeps_costs, keeps_ret|done].
  - eapply (costs_bind _ _ 0 0); [apply costs_with_tmp; intros; [apply costs_ctor_move|apply costs_swap]|intros; apply keeps_costs, keeps_ret|done].
  - eapply (costs_bind _ _ 0 0); [apply costs_with_tmp; intros; [apply costs_ctor_range|apply costs_swap]|intros; apply keeps_costs, keeps_ret|done].
  - eapply (costs_bind _ _ 0 0); [apply costs_swap|intros; apply keeps_costs, keeps_ret|done].
  - eapply (costs_bind _ _ 0 0); [apply costs_clear|intros; apply keeps_costs, keeps_ret|done].
  - eapply (costs_bind _ _ 0 0); [apply costs_pop_back|intros; apply keeps_costs, keeps_ret|done].
  - apply keeps_costs. eapply (keeps_bind _ _ 0 0); [|intros; apply keeps_ret|done].
    eapply (keeps_bind _ _ 0 0); [apply keeps_index|intros; apply keeps_load|done].
  - apply keeps_costs. eapply (keeps_bind _ _ 0 0); [|intros; apply keeps_ret|done].
    eapply (keeps_bind _ _ 0 0); [apply keeps_begin|intros; apply keeps_load|done].
  - apply keeps_costs. eapply (keeps_bind _ _ 0 0); [|intros; apply keeps_ret|done].
    eapply (keeps_bind _ _ 0 0); [apply keeps_end| |done]. intros.
    eapply (keeps_bind _ _ 0 0); [apply keeps_psub|intros; apply keeps_load|done].
  - apply keeps_costs. eapply (keeps_bind _ _ 0 0); [apply keeps_size|intros; apply keeps_ret|done].
  - apply keeps_costs. eapply (keeps_bind _ _ 0 0); [|intros; apply keeps_ret|done].
    eapply (keeps_bind _ _ 0 0); [apply keeps_size|intros; apply keeps_ret|done].
  - apply keeps_costs. eapply (keeps_bind _ _ 0 0); [apply keeps_capacity|intros; apply keeps_ret|done].
  - apply keeps_costs. eapply (keeps_bind _ _ 0 0); [|intros; apply keeps_ret|done].
    eapply (keeps_bind _ _ 0 0); [apply keeps_size| |done]. intros.
    eapply (keeps_bind _ _ 0 0); [apply keeps_begin|intros; apply keeps_read_loop|done].
Qed.
(** Array 0 is full and holds 3,1,2; array 1 holds 7,8 with capacity 5. *)
Example array_relocations_ex : obs ArrayProps.ex_s 0 [3;1;2] 3 ∧ obs ArrayProps.ex_s 1 [7;8] 5 ∧
  moved ArrayProps.ex_s = 0 ∧
  (∃ r s, run_op true (OErase 0 0) ArrayProps.ex_s = Ok r s ∧ moved s = 2) ∧
  (∃ r s, run_op true (OErase 0 2) ArrayProps.ex_s = Ok r s ∧ moved s = 0) ∧
  (∃ r s, run_op true (OEraseRange 0 0 2) ArrayProps.ex_s = Ok r s ∧ moved s = 1) ∧
  (∃ r s, run_op true (OInsert 0 2 9) ArrayProps.ex_s = Ok r s ∧ moved s = 3) ∧
  (∃ r s, run_op true (OInsert 1 1 9) ArrayProps.ex_s = Ok r s ∧ moved s = 1) ∧
  (∃ r s, run_op true (OInsertRange 1 0 [1;2;3]) ArrayProps.ex_s = Ok r s ∧ moved s = 2) ∧
  (∃ r s, run_op true (OResize 0 2) ArrayProps.ex_s = Ok r s ∧ moved s = 2) ∧
  (∃ r s, run_op true (OSwap 0 1) ArrayProps.ex_s = Ok r s ∧ moved s = 0) ∧
  (∃ r s, run_op true (OPop 0) ArrayProps.ex_s = Ok r s ∧ moved s = 0).
Proof.
  split_and!; try (vm_compute; by repeat split); eexists _, _; split; vm_compute; reflexivity.
Qed.

(** Emptying an array of [n] elements from the front relocates n(n-1)/2
    elements; emptying it from the back relocates none. *)
Theorem array_drain {V} (s : st V) i l c rs s' : reach s → obs s i l c →
  run_ops true (replicate (length l) (OErase i 0)) s = Ok rs s' →
  obs s' i [] c ∧ 2 * moved s' = length l * (length l - 1) + 2 * moved s.
Proof.
  revert s rs. induction l as [|v l IH]; intros s rs Hr Ho E.
  - cbn in E. unfold ret in E. injection E as _ <-. split; [done|]. simpl. lia.
  - cbn [length replicate run_ops] in E. apply bind_ok in E as (r & s1 & E1 & E).
    apply bind_ok in E as (rs' & s2 & E2 & E). unfold ret in E. injection E as _ <-.
    assert (Hc := ArrayProps.array_erase s i (v :: l) c 0 Hr Ho ltac:(simpl; lia)).
    unfold call in Hc. rewrite E1 in Hc. destruct Hc as (_ & Ho1 & _ & Hr1). simpl in Ho1.
    rewrite drop_0 in Ho1. destruct (IH s1 _ Hr1 Ho1 E2) as [Hf Hm]. split; [done|].
    assert (Hm1 := array_relocations true (OErase i 0) s i _ c _ _ eq_refl Ho E1). simpl in Hm1.
    rewrite Hm, Hm1. simpl length. destruct (length l); simpl; lia.
Qed.
Theorem array_drain_back {V} (s : st V) i l c rs s' : reach s → obs s i l c →
  run_ops true (replicate (length l) (OPop i)) s = Ok rs s' → obs s' i [] c ∧ moved s' = moved s.
Proof.
  revert s rs. induction l as [|v l IH] using rev_ind; intros s rs Hr Ho E.
  - cbn in E. unfold ret in E. injection E as _ <-. done.
  - rewrite app_length, Nat.add_comm in E. cbn [length Nat.add replicate run_ops] in E.
    apply bind_ok in E as (r & s1 & E1 & E).
    apply bind_ok in E as (rs' & s2 & E2 & E). unfold ret in E. injection E as _ <-.
    assert (Hc := ArrayProps.array_pop_back s i l c v Hr Ho).
    unfold call in Hc. rewrite E1 in Hc. destruct Hc as (_ & Ho1 & _ & Hr1).
    destruct (IH s1 _ Hr1 Ho1 E2) as [Hf Hm]. split; [done|].
    by rewrite Hm, (array_no_relocations true (OPop i) s _ _ eq_refl E1).
Qed.
Example array_drain_ex : reach ArrayProps.ex_s ∧ obs ArrayProps.ex_s 0 [3;1;2] 3 ∧
  (∃ rs s, run_ops true (replicate 3 (OErase 0 0)) ArrayProps.ex_s = Ok rs s ∧
           moved ArrayProps.ex_s = 0 ∧ moved s = 3) ∧
  (∃ rs s, run_ops true (replicate 3 (OPop 0)) ArrayProps.ex_s = Ok rs s ∧ moved s = 0).
Proof.
  split_and!; [apply ArrayProps.ex_reach|apply ArrayProps.ex_obs| |];
    eexists _, _; split_and!; vm_compute; reflexivity.
Qed.

Definition array_cost_theorems :=
  (@array_relocations, @array_no_relocations, @array_drain, @array_drain_back).
Print Assumptions array_cost_theorems.
