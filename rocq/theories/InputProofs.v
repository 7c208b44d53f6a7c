(** The functions of InputModel go through the elements of the range as their
    counterparts on lists of elements do. *)
From stdpp Require Import list.
From Verif Require Import Base InputModel.
From Verif Require ArrayModel HeapModel ListModel.
Local Open Scope mon_scope.

Section agree.
Context {St V : Type}.
(** Same outcome and same state of the containers; [P] holds of the stream. *)
Definition agree {A} (P : list V → Prop) (r1 : res (St * list V) A) (r2 : res St A) : Prop :=
  match r1, r2 with
  | Ok a s, Ok b s' => a = b ∧ s.1 = s' ∧ P s.2
  | Throw s, Throw s' => s.1 = s' ∧ P s.2
  | UB u, UB v => u = v
  | _, _ => False
  end.
Lemma agree_lift {A} (P : list V → Prop) (m : M St A) s w : P w → agree P (lift m (s, w)) (m s).
Proof. intros Hw. unfold lift. simpl. destruct (m s); simpl; auto. Qed.
Lemma agree_ret {A} (P : list V → Prop) (a : A) (s : St) w : P w → agree P (ret a (s, w)) (ret a s).
Proof. done. Qed.
Lemma agree_bind {A B} (P Q : list V → Prop) (m1 : MI St A) (m2 : M St A) (k1 : A → MI St B) (k2 : A → M St B) s w :
  agree P (m1 (s, w)) (m2 s) → (∀ a s' w', P w' → agree Q (k1 a (s', w')) (k2 a s')) → (∀ w', P w' → Q w') →
  agree Q (bind m1 k1 (s, w)) (bind m2 k2 s).
Proof.
  intros H Hk HQ. unfold bind. destruct (m1 (s, w)) as [a [s1 w1]|[s1 w1]|u], (m2 s); simpl in *; try done.
  - destruct H as (-> & <- & HP). by apply Hk.
  - destruct H as (<- & HP). auto.
Qed.
Lemma agree_lift_bind {A B} (P : list V → Prop) (m : M St A) (k1 : A → MI St B) (k2 : A → M St B) s w : P w →
  (∀ a s', agree P (k1 a (s', w)) (k2 a s')) → agree P (bind (lift m) k1 (s, w)) (bind m k2 s).
Proof.
  intros Hw Hk. eapply (agree_bind (λ w', w' = w)); [by apply agree_lift|intros a s' w' ->; apply Hk|by intros w' ->].
Qed.
Lemma agree_lift_bind' {A B} (P : list V → Prop) (m : M St A) (k1 : A → MI St B) (k2 : A → M St B) s w :
  (∀ s', m s ≠ Throw s') → (∀ a s', agree P (k1 a (s', w)) (k2 a s')) → agree P (bind (lift m) k1 (s, w)) (bind m k2 s).
Proof. intros Hm Hk. unfold bind, lift. simpl. destruct (m s) eqn:E; [apply Hk|by destruct (Hm s0)|done]. Qed.
Lemma agree_on_throw {A} (P Q : list V → Prop) (m1 : MI St A) (m2 : M St A) h s w :
  agree P (m1 (s, w)) (m2 s) → (∀ w', P w' → Q w') → agree Q (on_throw m1 (lift h) (s, w)) (on_throw m2 h s).
Proof.
  intros H HQ. unfold on_throw. destruct (m1 (s, w)) as [a [s1 w1]|[s1 w1]|u], (m2 s); simpl in *; try done.
  - destruct H as (-> & <- & HP). auto.
  - destruct H as (<- & HP). unfold lift. simpl. destruct (h s1); simpl; auto.
Qed.

(** A loop over the elements of a list. *)
Fixpoint foldM {A} (body : A → V → M St A) (a : A) (xs : list V) : M St A :=
  match xs with [] => ret a | v :: xs' => a' <- body a v ;; foldM body a' xs' end.

(** The streams a loop over the range may leave behind: for a multi-pass iterator
    that of before, for a single-pass one a rest of it. *)
Definition leaves (x : iter V) (w w' : list V) : Prop :=
  match x with Multi _ => w' = w | _ => w' `suffix_of` w end.
Lemma leaves_refl x w : leaves x w w.
Proof. by destruct x as [|[]|]; simpl. Qed.
Lemma suffix_cons (v : V) w : w `suffix_of` v :: w.
Proof. by exists [v]. Qed.
Lemma incr_eq x w v xs (s : St) : left_of x w = v :: xs → ∃ x' w',
  incr x (s, w) = Ok x' (s, w') ∧ left_of x' w' = xs ∧ leaves x w w' ∧ (∀ w'', leaves x' w' w'' → leaves x w w'').
Proof.
  destruct x as [[|v' rest]|[v'|]|]; simpl; try done; intros E.
  - injection E as -> ->. by exists (Multi xs), w.
  - injection E as -> ->. destruct xs as [|v' xs']; simpl.
    + exists (Cached None), []. by split_and!.
    + exists (Cached (Some v')), xs'. split_and!; [done|done|apply suffix_cons|].
      intros w'' H. simpl in *. etrans; [exact H|]. apply suffix_cons.
  - subst w. exists Shared, xs. split_and!; [done|done|apply suffix_cons|].
    intros w'' H. simpl in *. etrans; [exact H|]. apply suffix_cons.
Qed.
Lemma for_loop_agree {A} (body : A → V → M St A) xs : ∀ f x a s w, left_of x w = xs → length xs ≤ f →
  agree (leaves x w) (for_loop f x a (λ a v, lift (body a v)) (s, w)) (foldM body a xs s).
Proof.
  induction xs as [|v xs IH]; intros f x a s w Hx Hf.
  - destruct f; simpl; unfold bind, at_end, gets; simpl; rewrite Hx; simpl; split_and!; try done; apply leaves_refl.
  - destruct f as [|f]; [simpl in Hf; lia|]. simpl. unfold bind at 1, at_end at 1, gets. simpl. rewrite Hx.
    unfold bind at 1, it_deref. simpl. rewrite Hx.
    apply agree_lift_bind; [apply leaves_refl|]. intros a' s'.
    destruct (incr_eq x w v xs s' Hx) as (x' & w' & E & Hl & Hle & Htr). unfold bind. rewrite E.
    specialize (IH f x' a' s' w' Hl ltac:(simpl in Hf; lia)).
    destruct (for_loop _ _ _ _ _) as [b [s2 w2]|[s2 w2]|u], (foldM body a' xs s'); simpl in *; try done.
    + destruct IH as (-> & -> & H). auto.
    + destruct IH as (-> & H). auto.
Qed.
Lemma for_each_agree {A} (body : A → V → M St A) x a s w :
  agree (leaves x w) (for_each x a (λ a v, lift (body a v)) (s, w)) (foldM body a (left_of x w) s).
Proof. unfold for_each, fuel_of, gets, bind at 1. simpl. by apply for_loop_agree. Qed.

(** The stream left behind by std::ranges::distance. *)
Definition counted (sized : bool) (x : iter V) (w : list V) : list V :=
  match x with Multi _ => w | _ => if sized then w else [] end.
Lemma distance_loop_eq f : ∀ (x : iter V) (s : St) w, length (left_of x w) ≤ f →
  distance_loop f x (s, w) = Ok (length (left_of x w)) (s, match x with Multi _ | Cached None => w | _ => [] end).
Proof.
  induction f as [|f IH]; intros x s w Hf; simpl; unfold bind at 1, at_end at 1, gets; simpl.
  - destruct x as [[|? ?]|[?|]|]; simpl in *; try lia; try done. by destruct w; simpl in *; [|lia].
  - destruct x as [[|v rest]|[v|]|]; simpl in *; try done.
    + unfold bind, incr; simpl. rewrite IH; simpl; [done|lia].
    + destruct w as [|v' w]; unfold bind, incr; simpl; rewrite IH; simpl in *; try done; lia.
    + destruct w as [|v' w]; [done|]. unfold bind, incr; simpl. rewrite IH; simpl in *; [done|lia].
Qed.
(** An iterator at the end has nothing left in its stream. *)
Definition at_rest (x : iter V) (w : list V) : Prop := match x with Cached None => w = [] | _ => True end.
Lemma distance_eq sized (x : iter V) (s : St) w : at_rest x w →
  distance sized x (s, w) = Ok (length (left_of x w)) (s, counted sized x w).
Proof.
  intros Hr. unfold distance. destruct sized.
  - unfold gets. by destruct x.
  - unfold fuel_of, gets, bind at 1. simpl. rewrite distance_loop_eq by done.
    by destruct x as [|[]|]; simpl in *; subst.
Qed.
(** What the range holds after its size was asked. *)
Definition remaining (sized : bool) (x : iter V) (w : list V) : list V :=
  match x with
  | Multi rest => rest
  | _ => if sized then left_of x w else match x with Cached (Some v) => [v] | _ => [] end
  end.
Lemma left_counted sized x w : left_of x (counted sized x w) = remaining sized x w.
Proof. by destruct x as [|[]|], sized. Qed.
End agree.

Section array.
Import ArrayModel.
Context {V : Type} (triv : bool).
Lemma push_loop_fold this xs (s : st V) :
  push_loop triv this (map AVal xs) s =
  foldM (λ _ v, a <- get_arr this ;; construct triv (a_end a) (AVal v) ;;; e <- padd (a_end a) 1 ;; set_end this e) tt xs s.
Proof.
  revert s. induction xs as [|v xs IH]; intros s; [done|]. simpl. unfold bind.
  destruct (get_arr this s); [|done..]. destruct (construct _ _ _ _); [|done..]. destruct (padd _ _ _); [|done..].
  destruct (set_end _ _ _) as [[] ? | |]; [apply IH|done..].
Qed.
Lemma construct_range_fold p xs (s : st V) :
  construct_range triv p (map AVal xs) s =
  bind (foldM (λ p v, construct triv p (AVal v) ;;; padd p 1) p xs) (λ _, ret tt) s.
Proof.
  revert p s. induction xs as [|v xs IH]; intros p s; [done|]. simpl. unfold bind in *.
  destruct (construct _ _ _ _); [|done..]. destruct (padd _ _ _); [|done..]. apply IH.
Qed.
Lemma construct_input_agree p x (s : st V) w :
  agree (leaves x w) (construct_input triv p x (s, w)) (foldM (λ p v, construct triv p (AVal v) ;;; padd p 1) p (left_of x w) s).
Proof. apply for_each_agree. Qed.

Lemma construct_input_bind {B} p x (s : st V) w (k1 : MI (st V) B) (k2 : M (st V) B) :
  (∀ s' w', leaves x w w' → agree (leaves x w) (k1 (s', w')) (k2 s')) →
  agree (leaves x w) (bind (construct_input triv p x) (λ _, k1) (s, w))
    (bind (construct_range triv p (map AVal (left_of x w))) (λ _, k2) s).
Proof.
  intros Hk. assert (H := construct_input_agree p x s w). unfold bind at 1 2. rewrite construct_range_fold. unfold bind.
  destruct (construct_input _ _ _ _) as [q [s8 w8]|[s8 w8]|u], (foldM _ _ _ _) as [q' s8'|s8'|u']; simpl in *; try done.
  destruct H as (-> & -> & Hw). by apply Hk.
Qed.
(** If the size is known or can be found without losing elements. *)
Definition keeps (sized : bool) (x : iter V) : Prop := match x with Multi _ => True | _ => sized = true end.
Lemma keeps_remaining sized x w : keeps sized x → remaining sized x w = left_of x w.
Proof. by destruct x; simpl; intros; subst. Qed.
Lemma counted_keeps sized x w : keeps sized x → counted sized x w = w.
Proof. by destruct x; simpl; intros; subst. Qed.

(** push_back: asks for the size, then pushes what is left. *)
Lemma push_back_agree this sized x (s : st V) w : at_rest x w →
  agree (leaves x (counted sized x w)) (push_back_input triv this sized x (s, w))
    ((sz <- size this ;; c <- capacity this ;;
      (if Nat.ltb c (sz + length (left_of x w)) then grow_storage triv this (sz + length (left_of x w)) else ret tt) ;;;
      push_loop triv this (map AVal (remaining sized x w)))%mon s).
Proof.
  intros Hr. unfold push_back_input. apply agree_lift_bind'.
  { intros s'. unfold size, bind, get_arr, pdiff. repeat case_match; done. }
  intros sz s1.
  unfold bind at 1. rewrite (distance_eq _ _ _ _ Hr).
  apply agree_lift_bind; [apply leaves_refl|]. intros c s2.
  eapply (agree_bind (λ w', w' = counted sized x w)).
  - destruct (Nat.ltb _ _); [by apply agree_lift|done].
  - intros _ s3 w' ->. rewrite push_loop_fold, <- left_counted. apply for_each_agree.
  - intros w' ->. apply leaves_refl.
Qed.
Lemma push_back_keeps this sized x (s : st V) w : at_rest x w → keeps sized x →
  agree (leaves x w) (push_back_input triv this sized x (s, w)) (push_back_range triv this (map AVal (left_of x w)) s).
Proof.
  intros Hr Hk. assert (H := push_back_agree this sized x s w Hr).
  rewrite counted_keeps, keeps_remaining in H by done. unfold push_back_range. by rewrite map_length.
Qed.
(** insert where the size asked for and the elements left may differ *)
Definition insert_counted (this : nat) (pos : ptr) (elements : nat) (xs : list (arg V)) : M (st V) ptr :=
  sz <- size this ;;
  c <- capacity this ;;
  if Nat.ltb c (sz + elements) then
    with_tmp triv (λ t, ctor_cap t (if Nat.eqb c 0 then elements else c + elements)) (λ t,
      a <- get_arr this ;;
      elements_before <- pdiff pos (a_begin a) ;;
      ta <- get_arr t ;;
      slot <- padd (a_begin ta) elements_before ;;
      construct_range triv slot xs ;;;
      k1 <- pdiff pos (a_begin a) ;;
      copy_fwd triv k1 (a_begin a) (a_begin ta) ;;;
      k2 <- pdiff (a_end a) pos ;;
      d2 <- padd (a_begin ta) (elements_before + elements) ;;
      copy_fwd triv k2 pos d2 ;;;
      sz' <- size this ;;
      e <- padd (a_begin ta) (sz' + elements) ;;
      set_end t e ;;;
      swap this t ;;;
      b <- begin_ this ;;
      padd b elements_before)
  else
    a <- get_arr this ;;
    k <- pdiff (a_end a) pos ;;
    d <- padd (a_end a) elements ;;
    copy_bwd triv k (a_end a) d ;;;
    set_end this d ;;;
    construct_range triv pos xs ;;;
    ret pos.
Lemma insert_agree this p sized x (s : st V) w : at_rest x w →
  agree (leaves x (counted sized x w)) (insert_input triv this p sized x (s, w))
    (insert_counted this p (length (left_of x w)) (map AVal (remaining sized x w)) s).
Proof.
  intros Hr. unfold insert_input, insert_counted. unfold bind at 1. rewrite (distance_eq _ _ _ _ Hr).
  rewrite <- left_counted. generalize (counted sized x w) (length (left_of x w)). clear w Hr. intros w n.
  pose proof (leaves_refl x w) as Hl.
  apply agree_lift_bind; [done|]. intros sz s1. apply agree_lift_bind; [done|]. intros c s2.
  destruct (Nat.ltb _ _).
  - unfold with_tmp. apply agree_lift_bind; [done|]. intros t s3.
    eapply (agree_bind (leaves x w)).
    + apply (agree_on_throw (leaves x w)); [|done].
      apply agree_lift_bind; [done|]. intros a s4. apply agree_lift_bind; [done|]. intros eb s5.
      apply agree_lift_bind; [done|]. intros ta s6. apply agree_lift_bind; [done|]. intros slot s7.
      apply construct_input_bind. intros s8 w8 Hw. by apply agree_lift.
    + intros r s4 w4 Hw.
      assert (H : agree (leaves x w) (bind (lift (dtor triv t ;;; pop_obj)%mon) (λ _, ret r) (s4, w4))
                    (bind (dtor triv t ;;; pop_obj)%mon (λ _, ret r) s4)).
      { eapply agree_bind; [by apply (agree_lift (leaves x w))| |done]. intros. by apply agree_ret. }
      revert H. generalize (bind (lift (dtor triv t ;;; pop_obj)%mon) (λ _, ret r) (s4, w4)). intros r1.
      unfold bind. destruct (dtor triv t s4) as [? s5|s5|]; [|done..]. by destruct (pop_obj s5).
    + done.
  - apply agree_lift_bind; [done|]. intros a s3. apply agree_lift_bind; [done|]. intros k s4.
    apply agree_lift_bind; [done|]. intros d s5. apply agree_lift_bind; [done|]. intros [] s6.
    apply agree_lift_bind; [done|]. intros [] s7.
    apply construct_input_bind. intros s8 w8 Hw. by apply agree_ret.
Qed.
Lemma insert_keeps this p sized x (s : st V) w : at_rest x w → keeps sized x →
  agree (leaves x w) (insert_input triv this p sized x (s, w)) (insert_range triv this p (map AVal (left_of x w)) s).
Proof.
  intros Hr Hk. assert (H := insert_agree this p sized x s w Hr).
  rewrite counted_keeps, keeps_remaining in H by done. unfold insert_range. by rewrite map_length.
Qed.
End array.

Section heap.
Import ArrayModel HeapModel.
Context {V : Type} (lt : V → V → bool).
Lemma push_all_fold this xs (s : st V) :
  push_all lt this (map AVal xs) s = foldM (λ _ v, push lt this (AVal v) ;;; ret tt) tt xs s.
Proof.
  revert s. induction xs as [|v xs IH]; intros s; [done|]. simpl. unfold bind.
  destruct (push _ _ _ _); [apply IH|done..].
Qed.
Lemma ctor_heap_agree this known x (s : st V) w :
  agree (leaves x w) (ctor_heap_input lt this known x (s, w)) (ctor_heap lt this known (map AVal (left_of x w)) s).
Proof.
  unfold ctor_heap_input, ctor_heap. apply (agree_on_throw (leaves x w)); [|done].
  eapply (agree_bind (λ w', w' = w)).
  - rewrite map_length. destruct known; [|done]. unfold distance, gets, bind. simpl. by apply agree_lift.
  - intros _ s1 w1 ->. rewrite push_all_fold. apply for_each_agree.
  - intros w1 ->. apply leaves_refl.
Qed.
End heap.

Section lists.
Import ListModel.
Context {V : Type}.
Lemma range_loop_fold xs : ∀ f curr (s : st V), length xs < f →
  range_loop f curr (SVals xs) s =
  bind (foldM (λ curr v, n <- create_node (LVal v) ;; set_next curr (Nod n) ;;; get_next curr) curr xs) (λ _, ret tt) s.
Proof.
  induction xs as [|v xs IH]; intros f curr s Hf; (destruct f as [|f]; [lia|]); [done|]. simpl. unfold bind in *.
  destruct (create_node _ s); [|done..]. destruct (set_next _ _ _); [|done..]. destruct (get_next _ _); [|done..].
  simpl. apply IH. simpl in Hf. lia.
Qed.
Lemma insert_loop_fold xs : ∀ f p (s : st V), length xs < f →
  insert_loop f p (SVals xs) s = foldM (λ p v, emplace_after p (LVal v)) p xs s.
Proof.
  induction xs as [|v xs IH]; intros f p s Hf; (destruct f as [|f]; [lia|]); [done|]. simpl. unfold bind in *.
  destruct (emplace_after _ _ s); [|done..]. simpl. apply IH. simpl in Hf. lia.
Qed.
Lemma insert_after_agree p x (s : st V) w :
  agree (leaves x w) (insert_after_input p x (s, w)) (insert_range p (SVals (left_of x w)) s).
Proof.
  assert (E : insert_range p (SVals (left_of x w)) s = insert_loop (S (length (left_of x w))) p (SVals (left_of x w)) s) by done.
  rewrite E, insert_loop_fold by lia. apply for_each_agree.
Qed.
Lemma range_initialize_agree i x (s : st V) w :
  agree (leaves x w) (range_initialize_input i x (s, w)) (range_initialize i (SVals (left_of x w)) s).
Proof.
  unfold range_initialize_input. assert (E : range_initialize i (SVals (left_of x w)) s = range_loop (S (length (left_of x w))) (Head i) (SVals (left_of x w)) s) by done.
  rewrite E, range_loop_fold by lia.
  eapply agree_bind; [apply for_each_agree| |done]. intros _ s' w' Hw. by apply agree_ret.
Qed.
Lemma ctor_range_agree x (s : st V) w :
  agree (leaves x w) (ctor_range_input x (s, w)) (ctor_range (SVals (left_of x w)) s).
Proof.
  unfold ctor_range_input, ctor_range, new_list. apply agree_lift_bind; [apply leaves_refl|]. intros i s1.
  apply agree_lift_bind; [apply leaves_refl|]. intros [] s2. eapply agree_bind; [|intros ? s' w' Hw; by apply agree_ret|done].
  apply (agree_on_throw (leaves x w)); [|done]. apply range_initialize_agree.
Qed.
Lemma assign_loop_agree xs : ∀ f f' prev curr x (s : st V) w, left_of x w = xs → length xs ≤ f → length xs < f' →
  match assign_loop_input f prev curr x (s, w), assign_loop f' prev curr (SVals xs) s with
  | Ok (p1, c1, x1) s1, Ok (p2, c2, x2) s2 => p1 = p2 ∧ c1 = c2 ∧ s1.1 = s2 ∧ x2 = SVals (left_of x1 s1.2) ∧
      leaves x w s1.2 ∧ (∀ w'', leaves x1 s1.2 w'' → leaves x w w'')
  | Throw s1, Throw s2 => s1.1 = s2 ∧ leaves x w s1.2
  | UB u, UB v => u = v
  | _, _ => False
  end.
Proof.
  induction xs as [|v xs IH]; intros f f' prev curr x s w Hx Hf Hf'; (destruct f' as [|f']; [simpl in *; lia|]).
  - simpl. destruct f; simpl; (destruct (decide (curr = end_)); [simpl; rewrite Hx; split_and!; try done; apply leaves_refl|]);
      unfold bind, at_end, gets; simpl; rewrite Hx; simpl; rewrite Hx; split_and!; try done; apply leaves_refl.
  - destruct f as [|f]; [simpl in Hf; lia|]. simpl.
    destruct (decide (curr = end_)); [simpl; rewrite Hx; split_and!; try done; apply leaves_refl|].
    unfold bind at 1, at_end at 1, gets. simpl. rewrite Hx. unfold bind at 1, it_deref at 1. simpl. rewrite Hx.
    unfold bind, lift. simpl. destruct (assign_elem curr (LVal v) s) as [[] s1|s1|]; simpl; [|split; [done|apply leaves_refl]|done].
    destruct (get_next prev s1) as [pv s2|s2|]; simpl; [|split; [done|apply leaves_refl]|done].
    destruct (get_next curr s2) as [cu s3|s3|]; simpl; [|split; [done|apply leaves_refl]|done].
    destruct (incr_eq x w v xs s3 Hx) as (x' & w' & E & Hl & Hle & Htr). rewrite E. simpl.
    specialize (IH f f' pv cu x' s3 w' Hl ltac:(simpl in Hf; lia) ltac:(simpl in Hf'; lia)).
    destruct (assign_loop_input _ _ _ _ _) as [[[p1 c1] x1] [s4 w4]|[s4 w4]|],
      (assign_loop _ _ _ _ _) as [[[p2 c2] x2] s5|s5|]; try done.
    + destruct IH as (-> & -> & ? & ? & ? & ?). split_and!; auto.
    + destruct IH as (? & ?). auto.
Qed.
Lemma assign_agree i x (s : st V) w :
  agree (leaves x w) (assign_input i x (s, w)) (assign i (SVals (left_of x w)) s).
Proof.
  unfold assign_input, assign. apply agree_lift_bind; [apply leaves_refl|]. intros curr s1.
  unfold fuel_of, gets, src_fuel, bind. cbn [fst snd].
  assert (H := assign_loop_agree (left_of x w) (length (left_of x w)) (S (length (left_of x w))) (before_begin i) curr x s1 w
    eq_refl ltac:(lia) ltac:(lia)).
  destruct (assign_loop_input _ _ _ _ _) as [[[p1 c1] x1] [s4 w4]|[s4 w4]|],
    (assign_loop _ _ _ _ _) as [[[p2 c2] x2] s5|s5|]; try done.
  simpl in H. destruct H as (-> & -> & -> & -> & Hl & Htr). unfold at_end, gets. cbn [fst snd].
  destruct (left_of x1 w4) as [|v vs] eqn:E; cbn [src_peek].
  - destruct (decide _); [by apply agree_ret|]. by apply agree_lift.
  - assert (H := insert_after_agree p2 x1 s5 w4). rewrite E in H.
    destruct (insert_after_input _ _ _) as [? [? ?]|[? ?]|], (insert_range _ _ _); simpl in *; try done.
    + destruct H as (_ & -> & H). auto.
    + destruct H as (-> & H). auto.
Qed.
End lists.
