(** Theorems about xme::hal: properties C69, C70, C71, C81 and C82. *)
From stdpp Require Import base gmap list list_numbers.
From Coq Require Import ZArith Lia.
From Verif Require Import HalModel.
Local Open Scope Z_scope.

(** * SharedLibrary *)

(** What an object is worth to its user: nothing, an open library that it has to close,
    or a pointer to a library that close() was already called for. *)
Inductive status := Nothing | Owns (h : positive) | Stale (h : positive).
#[global] Instance status_eq_dec : EqDecision status.
Proof. solve_decision. Defined.
Notation table := (gmap nat status).
(** A string that a function reading up to the first NUL sees as [n]. *)
Definition reads (v : sview) (n : list Z) : Prop := ∃ rest, v_data v = Some (n ++ 0 :: rest) ∧ 0 ∉ n.
(** The uses of SharedLibrary that this file shows to be safe, and what they do to the
    table: an open library is not opened again or closed twice, and a library that
    close() was called for has to be opened again before the object dies. [find] says
    what dlopen finds under a name. *)
Definition opened (find : option (list Z) → option positive) (n : option (list Z)) : status :=
  match find n with Some h => Owns h | None => Nothing end.
Inductive names : sview → option (list Z) → Prop :=
  | names_null v : v_data v = None → names v None
  | names_bytes v n : reads v n → names v (Some n).
Inductive safe_step (find : option (list Z) → option positive) : lib_op → table → table → Prop :=
  | s_new o t : t !! o = None → safe_step find (LNew o) t (<[o := Nothing]> t)
  | s_new_open o v n t : t !! o = None → names v n → safe_step find (LNewOpen o v) t (<[o := opened find n]> t)
  | s_new_move o p x t : t !! o = None → t !! p = Some x →
      safe_step find (LNewMove o p) t (<[o := x]> (<[p := Nothing]> t))
  | s_assign o p x y t : t !! o = Some x → t !! p = Some y → safe_step find (LAssign o p) t (<[o := y]> (<[p := x]> t))
  | s_open o v n x t : t !! o = Some x → (∀ h, x ≠ Owns h) → names v n →
      safe_step find (LOpen o v) t (<[o := opened find n]> t)
  | s_close o h t : t !! o = Some (Owns h) → safe_step find (LClose o) t (<[o := Stale h]> t)
  | s_destroy o x t : t !! o = Some x → (∀ h, x ≠ Stale h) → safe_step find (LDestroy o) t (delete o t).
Inductive safe_run (find : option (list Z) → option positive) : list lib_op → table → table → Prop :=
  | safe_nil t : safe_run find [] t t
  | safe_cons op ops t t1 t2 : safe_step find op t t1 → safe_run find ops t1 t2 → safe_run find (op :: ops) t t2.
(** How many objects have to close [h]. *)
Definition owners (t : table) (h : positive) : nat := size (filter (λ kx, kx.2 = Owns h) t).

Definition pointer (x : status) : option positive :=
  match x with Nothing => None | Owns h => Some h | Stale h => Some h end.
(** The state [s] has the objects of [t], and of each library there are as many open
    references as objects that have to close it, besides those in [other]. *)
Definition holds (find : option (list Z) → option positive) (other : positive → nat) (t : table) (s : libs) : Prop :=
  (∀ o, objects s !! o = pointer <$> t !! o) ∧ l_find (world s) = find ∧
  ∀ h, count_of (world s) h = (owners t h + other h)%nat.

Lemma owners_insert_new t o x h : t !! o = None →
  owners (<[o := x]> t) h = ((if decide (x = Owns h) then 1 else 0) + owners t h)%nat.
Proof.
  intros Ho. unfold owners. destruct (decide (x = Owns h)) as [E|E].
  - rewrite map_filter_insert_True by exact E. rewrite map_size_insert_None; [lia|].
    apply map_filter_lookup_None. left. exact Ho.
  - rewrite map_filter_insert_not' ; [reflexivity|exact E|]. intros y Hy. congruence.
Qed.
Lemma owners_delete t o x h : t !! o = Some x →
  owners t h = ((if decide (x = Owns h) then 1 else 0) + owners (delete o t) h)%nat.
Proof.
  intros Ho. rewrite <- (insert_delete t o x Ho) at 1. apply owners_insert_new. apply lookup_delete.
Qed.
Lemma owners_insert t o x y h : t !! o = Some x →
  (owners (<[o := y]> t) h + (if decide (x = Owns h) then 1 else 0) = (if decide (y = Owns h) then 1 else 0) + owners t h)%nat.
Proof.
  intros Ho. rewrite <- insert_delete_insert, owners_insert_new by apply lookup_delete.
  rewrite (owners_delete t o x h Ho). lia.
Qed.
Lemma reads_c_bytes n rest : 0 ∉ n → c_bytes (n ++ 0 :: rest) = Some n.
Proof.
  induction n as [|b n IH]; intros Hn; [reflexivity|]. cbn [app c_bytes]. apply not_elem_of_cons in Hn as [Hb Hn].
  rewrite decide_False by congruence. rewrite IH by exact Hn. reflexivity.
Qed.
Lemma names_file v n : names v n → file_name v = Some n.
Proof.
  intros [v' Hv|v' n' (rest & Hv & Hn)]; unfold file_name; rewrite Hv; [reflexivity|].
  rewrite reads_c_bytes by exact Hn. reflexivity.
Qed.
Lemma reads_c_string v n : reads v n → c_string v = Some n.
Proof. intros (rest & Hv & Hn). unfold c_string. rewrite Hv. cbn. apply reads_c_bytes. exact Hn. Qed.
Lemma count_dlopen find w n h' : l_find w = find →
  count_of (snd (dlopen w n)) h' = ((if decide (opened find n = Owns h') then 1 else 0) + count_of w h')%nat ∧
  fst (dlopen w n) = pointer (opened find n) ∧ l_find (snd (dlopen w n)) = find.
Proof.
  intros Hf. unfold dlopen, opened. rewrite Hf. destruct (find n) as [h|]; cbn; [|auto].
  split; [|auto]. unfold count_of; cbn. destruct (decide (h = h')) as [->|Hne].
  - rewrite lookup_insert, decide_True by reflexivity. cbn. lia.
  - rewrite lookup_insert_ne, decide_False by congruence. reflexivity.
Qed.
Lemma count_dlclose w h : (0 < count_of w h)%nat → ∃ w', dlclose w (Some h) = Some w' ∧ l_find w' = l_find w ∧
  ∀ h', count_of w h' = ((if decide (h = h') then 1 else 0) + count_of w' h')%nat.
Proof.
  intros Hc. cbn. destruct (count_of w h) as [|n] eqn:E; [lia|]. eexists. split; [reflexivity|]. split; [reflexivity|].
  intros h'. destruct (decide (h = h')) as [<-|Hne]; unfold count_of in *; cbn.
  - rewrite E, lookup_insert. reflexivity.
  - rewrite lookup_insert_ne by exact Hne. reflexivity.
Qed.
Lemma objects_insert (t : table) s o x : (∀ o, objects s !! o = pointer <$> t !! o) →
  ∀ o', <[o := pointer x]> (objects s) !! o' = pointer <$> (<[o := x]> t) !! o'.
Proof.
  intros H o'. destruct (decide (o = o')) as [<-|Hne]; [rewrite !lookup_insert; reflexivity|].
  rewrite !lookup_insert_ne by exact Hne. apply H.
Qed.
Lemma safe_step_holds find other op t t' s : safe_step find op t t' → holds find other t s →
  ∃ s', lib_step op s = Some s' ∧ holds find other t' s'.
Proof.
  intros Hs (Ho & Hf & Hc).
  destruct Hs as [o t E|o v n t E Hn|o p x t E Ep|o p x y t E Ep|o v n x t E Hx Hn|o h t E|o x t E Hx]; cbn [lib_step].
  - unfold lib_new. rewrite Ho, E. cbn. eexists. split; [reflexivity|]. split_and!; [|exact Hf|].
    + exact (objects_insert t s o Nothing Ho).
    + intros h. cbn. rewrite owners_insert_new by exact E. apply Hc.
  - unfold lib_new_open, lib_new. rewrite Ho, E. cbn. unfold lib_open. cbn. rewrite lookup_insert. cbn.
    rewrite (names_file v n Hn). cbn. destruct (dlopen (world s) n) as [h w] eqn:Ed.
    eexists. split; [reflexivity|]. pose proof (fun h' => count_dlopen find (world s) n h' Hf) as K. rewrite Ed in K. cbn in K.
    split_and!; cbn.
    + rewrite insert_insert. destruct (K 1%positive) as (_ & -> & _). apply (objects_insert t s o _ Ho).
    + apply (K 1%positive).
    + intros h'. destruct (K h') as (-> & _). rewrite owners_insert_new by exact E. rewrite Hc. lia.
  - unfold lib_new_move. rewrite Ho, Ep. cbn. unfold lib_new. rewrite Ho, E. cbn. eexists. split; [reflexivity|].
    assert (Hne : o ≠ p) by congruence. split_and!; cbn; [|exact Hf|].
    + intros o'. rewrite insert_insert, insert_commute by congruence.
      change (@None positive) with (pointer Nothing). destruct (decide (o' = o)) as [->|Hne1]; [rewrite !lookup_insert; reflexivity|].
      rewrite !(lookup_insert_ne _ o) by congruence. apply (objects_insert t s p Nothing Ho).
    + intros h. rewrite owners_insert_new by (rewrite lookup_insert_ne by congruence; exact E).
      pose proof (owners_insert t p x Nothing h Ep). rewrite Hc. rewrite (decide_False (P := Nothing = Owns h)) in H by discriminate.
      lia.
  - unfold lib_assign. rewrite !Ho, E, Ep. cbn. eexists. split; [reflexivity|]. split_and!; cbn; [|exact Hf|].
    + intros o'. destruct (decide (o = p)) as [->|Hne].
      * rewrite !insert_insert. assert (x = y) by congruence. subst y. apply (objects_insert t s p x Ho).
      * rewrite insert_commute by congruence. destruct (decide (o' = o)) as [->|Hne1]; [rewrite !lookup_insert; reflexivity|].
        rewrite !(lookup_insert_ne _ o) by congruence. apply (objects_insert t s p x Ho).
    + intros h. rewrite Hc. f_equal. destruct (decide (o = p)) as [->|Hne].
      * assert (x = y) by congruence. subst y. rewrite insert_insert, insert_id by exact E. reflexivity.
      * pose proof (owners_insert t p y x h Ep) as H1.
        pose proof (owners_insert (<[p := x]> t) o x y h ltac:(rewrite lookup_insert_ne by congruence; exact E)) as H2. lia.
  - unfold lib_open. rewrite Ho, E. cbn. rewrite (names_file v n Hn). cbn.
    destruct (dlopen (world s) n) as [h w] eqn:Ed. eexists. split; [reflexivity|].
    pose proof (fun h' => count_dlopen find (world s) n h' Hf) as K. rewrite Ed in K. cbn in K. split_and!; cbn.
    + destruct (K 1%positive) as (_ & -> & _). apply (objects_insert t s o _ Ho).
    + apply (K 1%positive).
    + intros h'. destruct (K h') as (-> & _). pose proof (owners_insert t o x (opened find n) h' E) as H.
      rewrite (decide_False (P := x = Owns h')) in H by apply Hx. rewrite Hc. lia.
  - unfold lib_close. rewrite Ho, E. cbn.
    assert (Hpos : (0 < count_of (world s) h)%nat).
    { rewrite Hc, (owners_delete t o _ h E), decide_True by reflexivity. lia. }
    destruct (count_dlclose (world s) h Hpos) as (w & Hw & Hwf & Hwc). cbn in Hw. rewrite Hw. cbn.
    eexists. split; [reflexivity|]. split_and!; cbn; [|congruence|].
    + intros o'. rewrite Ho. destruct (decide (o = o')) as [<-|Hne]; [rewrite E, lookup_insert; reflexivity|].
      rewrite lookup_insert_ne by exact Hne. reflexivity.
    + intros h'. pose proof (owners_insert t o _ (Stale h) h' E) as H. specialize (Hwc h'). rewrite Hc in Hwc.
      rewrite (decide_False (P := Stale h = Owns h')) in H by discriminate.
      destruct (decide (h = h')) as [->|Hne]; [rewrite decide_True in H by reflexivity; lia|].
      rewrite decide_False in H by congruence. lia.
  - unfold lib_destroy. rewrite Ho, E. cbn. destruct x as [|h|h]; cbn.
    + eexists. split; [reflexivity|]. split_and!; cbn; [|exact Hf|].
      * intros o'. destruct (decide (o = o')) as [<-|Hne]; [rewrite !lookup_delete; reflexivity|].
        rewrite !lookup_delete_ne by exact Hne. apply Ho.
      * intros h. rewrite Hc, (owners_delete t o _ h E), decide_False by discriminate. reflexivity.
    + unfold lib_close. rewrite Ho, E. cbn.
      assert (Hpos : (0 < count_of (world s) h)%nat).
      { rewrite Hc, (owners_delete t o _ h E), decide_True by reflexivity. lia. }
      destruct (count_dlclose (world s) h Hpos) as (w & Hw & Hwf & Hwc). cbn in Hw. rewrite Hw. cbn.
      eexists. split; [reflexivity|]. split_and!; cbn; [|congruence|].
      * intros o'. destruct (decide (o = o')) as [<-|Hne]; [rewrite !lookup_delete; reflexivity|].
        rewrite !lookup_delete_ne by exact Hne. apply Ho.
      * intros h'. specialize (Hwc h'). rewrite Hc, (owners_delete t o _ h' E) in Hwc.
        destruct (decide (h = h')) as [->|Hne]; [rewrite decide_True in Hwc by reflexivity; lia|].
        rewrite decide_False in Hwc by congruence. lia.
    + exfalso. exact (Hx h eq_refl).
Qed.

(** Over any history of safe uses nothing goes wrong, and at every point each library
    has one open reference for each object that has to close it, and those from
    elsewhere. Missing from C69: histories with close() before the destructor and with
    open() on an open object, see the refutations. *)
Theorem library_balanced_partial : ∀ find other ops t t' s, safe_run find ops t t' → holds find other t s →
  ∃ s', lib_run ops s = Some s' ∧ holds find other t' s'.
Proof.
  intros find other ops t t' s H. revert s. induction H as [t|op ops t t1 t2 Hs _ IH]; intros s Hh; [exists s; auto|].
  destruct (safe_step_holds find other op t t1 s Hs Hh) as (s1 & E & H1). destruct (IH s1 H1) as (s2 & E2 & H2).
  exists s2. cbn. rewrite E. cbn. auto.
Qed.
(** In particular a program that has destroyed all its objects has closed every library
    exactly as often as it opened it. *)
Corollary library_closed_once_partial : ∀ w ops s', safe_run (l_find w) ops ∅ ∅ → lib_run ops (Libs ∅ w) = Some s' →
  ∀ h, count_of (world s') h = count_of w h.
Proof.
  intros w ops s' H Hr h.
  destruct (library_balanced_partial (l_find w) (count_of w) ops ∅ ∅ (Libs ∅ w) H) as (s'' & E & (_ & _ & Hc)).
  - split_and!; [|reflexivity|].
    + intros o. cbn. rewrite !lookup_empty. reflexivity.
    + intros h'. unfold owners. rewrite map_filter_empty, map_size_empty. reflexivity.
  - rewrite E in Hr. injection Hr as <-. rewrite Hc. unfold owners. rewrite map_filter_empty, map_size_empty. reflexivity.
Qed.
(** is_open() tells whether the object has to close a library, but for stale ones. *)
Theorem library_is_open_partial : ∀ find other t s o x, holds find other t s → t !! o = Some x → (∀ h, x ≠ Stale h) →
  lib_is_open o s = Some (match x with Owns _ => true | _ => false end).
Proof.
  intros find other t s o x (Ho & _) Hx Hs. unfold lib_is_open. rewrite Ho, Hx. cbn.
  destruct x as [|h|h]; [reflexivity|reflexivity|]. exfalso. exact (Hs h eq_refl).
Qed.

(** Names "a" and "b", terminated; dlopen finds both. *)
Definition name_a := View (Some [97; 0]) 1.
Definition name_b := View (Some [98; 0]) 1.
Definition find_ab (n : option (list Z)) : option positive :=
  match n with Some [97] => Some 1%positive | Some [98] => Some 2%positive | _ => None end.
Definition world_ab := Loader find_ab ∅.
Lemma names_a : names name_a (Some [97]).
Proof. apply names_bytes. exists []. split; [reflexivity|]. rewrite elem_of_list_singleton. discriminate. Qed.
Lemma names_b : names name_b (Some [98]).
Proof. apply names_bytes. exists []. split; [reflexivity|]. rewrite elem_of_list_singleton. discriminate. Qed.
(** Two objects, a move, a swap and a close with a new open; then all are destroyed. *)
Definition history_ab := [LNewOpen 0 name_a; LNewOpen 1 name_b; LNewMove 2 0; LAssign 0 1; LClose 2; LOpen 2 name_b;
  LDestroy 0; LDestroy 1; LDestroy 2].
Example library_balanced_ex : ∃ t, safe_run find_ab (take 6 history_ab) ∅ t ∧ owners t 1 = 0%nat ∧ owners t 2 = 2%nat.
Proof.
  eexists. split.
  - unfold history_ab. cbn [take].
    eapply safe_cons; [eapply s_new_open; [reflexivity|apply names_a]|].
    eapply safe_cons; [eapply s_new_open; [reflexivity|apply names_b]|].
    eapply safe_cons; [eapply s_new_move; reflexivity|].
    eapply safe_cons; [eapply s_assign; reflexivity|].
    eapply safe_cons; [eapply s_close; reflexivity|].
    eapply safe_cons; [eapply s_open; [reflexivity|discriminate|apply names_b]|]. apply safe_nil.
  - split; reflexivity.
Qed.
Example library_closed_once_ex : safe_run find_ab history_ab ∅ ∅ ∧
  (λ s, (map_to_list (objects s), map_to_list (l_count (world s)))) <$> lib_run history_ab (Libs ∅ world_ab) =
  Some ([], [(1%positive, 0%nat); (2%positive, 0%nat)]).
Proof.
  split; [|reflexivity].
  unfold history_ab.
  eapply safe_cons; [eapply s_new_open; [reflexivity|apply names_a]|].
  eapply safe_cons; [eapply s_new_open; [reflexivity|apply names_b]|].
  eapply safe_cons; [eapply s_new_move; reflexivity|].
  eapply safe_cons; [eapply s_assign; reflexivity|].
  eapply safe_cons; [eapply s_close; reflexivity|].
  eapply safe_cons; [eapply s_open; [reflexivity|discriminate|apply names_b]|].
  eapply safe_cons; [eapply s_destroy; [reflexivity|discriminate]|].
  eapply safe_cons; [eapply s_destroy; [reflexivity|discriminate]|].
  eapply safe_cons; [eapply s_destroy; [reflexivity|discriminate]|].
  match goal with |- safe_run _ _ ?t _ => replace t with (∅ : table) end.
  2: { apply map_eq. intros [|[|[|i]]]; [reflexivity..|]. rewrite !lookup_delete_ne, !lookup_insert_ne by lia. reflexivity. } apply safe_nil.
Qed.
Example library_is_open_ex : (lib_is_open 0 <$> lib_run [LNewOpen 0 name_a] (Libs ∅ world_ab)) = Some (Some true) ∧
  (lib_is_open 0 <$> lib_run [LNew 0] (Libs ∅ world_ab)) = Some (Some false).
Proof. split; reflexivity. Qed.

(** close() leaves the pointer in the object: is_open() stays true, and the destructor
    closes the handle a second time - which is undefined, or takes the library away from
    another object. open() on an open object forgets the old handle. *)
Theorem library_double_close_refuted : ∃ w ops, lib_run ops (Libs ∅ w) = None ∧
  ops = [LNewOpen 0 name_a; LClose 0; LDestroy 0] ∧
  (lib_run (take 2 ops) (Libs ∅ w) ≫= lib_is_open 0) = Some true.
Proof. exists world_ab, [LNewOpen 0 name_a; LClose 0; LDestroy 0]. split_and!; reflexivity. Qed.
Theorem library_steals_refuted : ∃ w ops s, lib_run ops (Libs ∅ w) = Some s ∧
  ops = [LNewOpen 0 name_a; LNewOpen 1 name_a; LClose 0; LDestroy 0] ∧
  objects s !! 1%nat = Some (Some 1%positive) ∧ count_of (world s) 1 = 0%nat.
Proof.
  exists world_ab, [LNewOpen 0 name_a; LNewOpen 1 name_a; LClose 0; LDestroy 0]. eexists. split_and!; [reflexivity..|reflexivity].
Qed.
Theorem library_leak_refuted : ∃ w ops s, lib_run ops (Libs ∅ w) = Some s ∧
  ops = [LNewOpen 0 name_a; LOpen 0 name_b; LDestroy 0] ∧ size (objects s) = 0%nat ∧ count_of (world s) 1 = 1%nat ∧ count_of w 1 = 0%nat.
Proof.
  exists world_ab, [LNewOpen 0 name_a; LOpen 0 name_b; LDestroy 0]. eexists. split_and!; reflexivity.
Qed.

(** * Environment variables *)

(** A view that is followed by a NUL and contains none, of the bytes [n]. *)
Definition terminated (v : sview) (n : list Z) : Prop := reads v n ∧ v_size v = length n.
(** The value of a variable in the environment, as the user sees it. *)
Definition variable (env : environ) (n : list Z) : option (list Z) := getenv n env.

Lemma entry_value_entry n v : equals ∉ n → ∀ n', equals ∉ n' →
  entry_value n' (n ++ equals :: v) = if decide (n' = n) then Some v else None.
Proof.
  induction n as [|a n IH]; intros Hn [|b n'] Hn'; cbn [app entry_value].
  - rewrite !decide_True by reflexivity. reflexivity.
  - apply not_elem_of_cons in Hn' as [Hb _]. rewrite decide_False by congruence. rewrite decide_False by discriminate. reflexivity.
  - apply not_elem_of_cons in Hn as [Ha _]. rewrite decide_False by congruence. rewrite decide_False by discriminate. reflexivity.
  - apply not_elem_of_cons in Hn as [_ Hn]. apply not_elem_of_cons in Hn' as [_ Hn'].
    destruct (decide (b = a)) as [->|Hne]; [|rewrite decide_False by congruence; reflexivity].
    rewrite IH by assumption. destruct (decide (n' = n)) as [->|Hne]; [rewrite decide_True by reflexivity|rewrite decide_False by congruence]; reflexivity.
Qed.
(** A string belongs to one name only. *)
Lemma entry_value_inv n e v : entry_value n e = Some v → e = n ++ equals :: v.
Proof.
  revert e. induction n as [|a n IH]; intros [|b e]; cbn; [discriminate| |discriminate|].
  - destruct (decide (b = equals)) as [->|]; [|discriminate]. intros [= ->]. reflexivity.
  - destruct (decide (a = b)) as [->|]; [|discriminate]. intros H. rewrite (IH _ H). reflexivity.
Qed.
Lemma getenv_put n v env n' : equals ∉ n → equals ∉ n' →
  getenv n' (put_entry n v env) = if decide (n' = n) then Some v else getenv n' env.
Proof.
  intros Hn Hn'. induction env as [|e env IH]; cbn [put_entry getenv].
  - rewrite entry_value_entry by assumption. destruct (decide (n' = n)); reflexivity.
  - destruct (entry_value n e) as [x|] eqn:E; cbn [getenv].
    + rewrite entry_value_entry by assumption. destruct (decide (n' = n)) as [->|Hne]; [reflexivity|].
      rewrite (entry_value_inv _ _ _ E), entry_value_entry, decide_False by congruence. reflexivity.
    + destruct (entry_value n' e) as [y|] eqn:E'; [|exact IH].
      destruct (decide (n' = n)) as [->|Hne]; [congruence|reflexivity].
Qed.
Lemma getenv_unset n env n' : equals ∉ n → equals ∉ n' →
  getenv n' (filter (λ e, entry_value n e = None) env) = if decide (n' = n) then None else getenv n' env.
Proof.
  intros Hn Hn'. induction env as [|e env IH]; [cbn; destruct (decide (n' = n)); reflexivity|].
  rewrite filter_cons. destruct (entry_value n e) as [x|] eqn:E.
  - rewrite decide_False by discriminate. rewrite IH. destruct (decide (n' = n)) as [->|Hne]; [reflexivity|].
    cbn [getenv]. rewrite (entry_value_inv _ _ _ E), entry_value_entry, decide_False by congruence. reflexivity.
  - rewrite decide_True by reflexivity. cbn [getenv]. rewrite IH. destruct (entry_value n' e) as [y|] eqn:E'; [|reflexivity].
    destruct (decide (n' = n)) as [->|Hne]; [congruence|reflexivity].
Qed.
(** Setting a variable and reading it and any other variable, for views that end at a
    NUL and names that are neither empty nor contain '='. Missing from C70: all other
    views and names, see the refutations. *)
Theorem environment_set_get_partial : ∀ name value n v env, terminated name n → n ≠ [] → equals ∉ n → terminated value v →
  ∃ env', set_environment_variable name value env = Some env' ∧
  ∀ name' n', terminated name' n' → equals ∉ n' →
    get_environment_variable false name' env' =
    if decide (n' = n) then Some (if decide (v = []) then None else Some v) else get_environment_variable false name' env.
Proof.
  intros name value n v env [Hn _] Hne Heq [Hv Hsz]. unfold set_environment_variable, get_environment_variable.
  rewrite (reads_c_string _ _ Hn). cbn. unfold setenv, unsetenv, valid_name. rewrite bool_decide_true by auto. rewrite Hsz.
  destruct (decide (length v = 0%nat)) as [E|E].
  - apply nil_length_inv in E as ->. rewrite (decide_True (P := [] = [])) by reflexivity. eexists. split; [reflexivity|].
    intros name' n' [Hn' _] Heq'. rewrite (reads_c_string _ _ Hn'). cbn. rewrite getenv_unset by assumption.
    destruct (decide (n' = n)); reflexivity.
  - rewrite (decide_False (P := v = [])) by (intros ->; exact (E eq_refl)). rewrite (reads_c_string _ _ Hv). cbn. eexists. split; [reflexivity|].
    intros name' n' [Hn' _] Heq'. rewrite (reads_c_string _ _ Hn'). cbn. rewrite getenv_put by assumption.
    destruct (decide (n' = n)); reflexivity.
Qed.
Lemma terminated_a : terminated name_a [97].
Proof. split; [|reflexivity]. exists []. split; [reflexivity|]. rewrite elem_of_list_singleton. discriminate. Qed.
Lemma terminated_b : terminated name_b [98].
Proof. split; [|reflexivity]. exists []. split; [reflexivity|]. rewrite elem_of_list_singleton. discriminate. Qed.
(** "a" is set to "b" in an environment with a=x and b=y. *)
Example environment_set_get_ex : terminated name_a [97] ∧ terminated name_b [98] ∧ equals ∉ [97] ∧
  set_environment_variable name_a name_b [[97; equals; 120]; [98; equals; 121]] = Some [[97; equals; 98]; [98; equals; 121]].
Proof.
  split; [apply terminated_a|]. split; [apply terminated_b|]. split; [|reflexivity].
  rewrite elem_of_list_singleton. discriminate.
Qed.
(** A program with raised privileges reads nothing. *)
Theorem environment_secure : ∀ name n env, terminated name n → get_environment_variable true name env = Some None.
Proof. intros name n env [Hn _]. unfold get_environment_variable. rewrite (reads_c_string _ _ Hn). reflexivity. Qed.
Example environment_secure_ex : get_environment_variable true name_a [[97; equals; 120]] = Some None ∧
  get_environment_variable false name_a [[97; equals; 120]] = Some (Some [120]).
Proof. split; reflexivity. Qed.
(** A view of the first letter of "ab" sets the variable ab, not a. *)
Theorem environment_substring_refuted : ∃ name value env env', v_data name = Some [97; 98; 0] ∧ v_size name = 1%nat ∧
  set_environment_variable name value env = Some env' ∧
  get_environment_variable false name_a env' = Some None ∧ variable env' [97; 98] = Some [98].
Proof. exists (View (Some [97; 98; 0]) 1), name_b, []. eexists. split_and!; reflexivity. Qed.
(** A view of the first letter of "bc" as the value stores both letters. *)
Theorem environment_value_refuted : ∃ value env', v_data value = Some [98; 99; 0] ∧ v_size value = 1%nat ∧
  set_environment_variable name_a value [] = Some env' ∧ get_environment_variable false name_a env' = Some (Some [98; 99]).
Proof. exists (View (Some [98; 99; 0]) 1). eexists. split_and!; reflexivity. Qed.
(** A view of an array that holds no NUL is read past the end. *)
Theorem environment_unterminated_refuted : ∃ name env, v_data name = Some [97] ∧ v_size name = 1%nat ∧
  get_environment_variable false name env = None.
Proof. exists (View (Some [97]) 1), []. split_and!; reflexivity. Qed.
(** A name with '=' is ignored without notice. *)
Theorem environment_equals_refuted : ∃ name n env', terminated name n ∧ n = [97; equals] ∧
  set_environment_variable name name_b [] = Some env' ∧ get_environment_variable false name env' = Some None.
Proof.
  exists (View (Some [97; equals; 0]) 2), [97; equals]. eexists. split; [|split_and!; reflexivity].
  split; [|reflexivity]. exists []. split; [reflexivity|]. rewrite !elem_of_cons, elem_of_nil.
  intros [H|[H|H]]; [discriminate H|discriminate H|exact H].
Qed.

(** Nor does an empty name or one with '=' change any variable. *)
Theorem environment_invalid_ignored : ∀ name value n v env, terminated name n → n = [] ∨ equals ∈ n → terminated value v →
  set_environment_variable name value env = Some env.
Proof.
  intros name value n v env [Hn _] Hbad [Hv _]. unfold set_environment_variable.
  rewrite (reads_c_string _ _ Hn), (reads_c_string _ _ Hv). cbn. unfold setenv, unsetenv, valid_name.
  rewrite bool_decide_false by (intros [H1 H2]; destruct Hbad; auto). by destruct (decide _).
Qed.
Example environment_invalid_ignored_ex : terminated (View (Some [0]) 0) [] ∧ terminated name_b [98] ∧
  set_environment_variable (View (Some [0]) 0) name_b [[97; equals; 120]] = Some [[97; equals; 120]].
Proof. split; [|split; [apply terminated_b|reflexivity]]. split; [|reflexivity]. exists []. split; [reflexivity|]. apply not_elem_of_nil. Qed.

(** * SIMD levels *)

(** The levels from the lowest to the highest. *)
Definition levels : list level := [MMX; SSE1; SSE2; SSE3; SSSE3; SSE41; SSE42; AVX; AVX2; AVX512F].
Definition below (a b : level) : Prop := ∃ i j, (i ≤ j)%nat ∧ levels !! i = Some a ∧ levels !! j = Some b.
Definition strictly_below (a b : level) : Prop := ∃ i j, (i < j)%nat ∧ levels !! i = Some a ∧ levels !! j = Some b.
(** A level is requested when its XME_SIMD_ENABLE_ macro is defined. *)
Definition requested (m : macros) (l : level) : Prop := is_Some (enable m l).
Definition rank (l : level) : nat :=
  match l with MMX => 0 | SSE1 => 1 | SSE2 => 2 | SSE3 => 3 | SSSE3 => 4 | SSE41 => 5 | SSE42 => 6 | AVX => 7 | AVX2 => 8 | AVX512F => 9 end.
Lemma rank_spec l i : levels !! i = Some l ↔ i = rank l.
Proof. split; [|intros ->; destruct l; reflexivity]. do 10 (destruct i as [|i]; [intros [= <-]; reflexivity|]). discriminate. Qed.
Lemma below_rank a b : below a b ↔ (rank a ≤ rank b)%nat.
Proof.
  split.
  - intros (i & j & Hij & Hi & Hj). apply rank_spec in Hi, Hj. lia.
  - intros H. exists (rank a), (rank b). rewrite !rank_spec. auto.
Qed.
Lemma strictly_below_rank a b : strictly_below a b ↔ (rank a < rank b)%nat.
Proof.
  split.
  - intros (i & j & Hij & Hi & Hj). apply rank_spec in Hi, Hj. lia.
  - intros H. exists (rank a), (rank b). rewrite !rank_spec. auto.
Qed.
Definition from (m : macros) (l : level) : bool :=
  existsb (λ k, bool_decide (rank l ≤ rank k)%nat && defined k m) levels.
Lemma defined_define k l m : defined k (define l m) = bool_decide (k = l) || defined k m.
Proof.
  unfold defined, define. cbn [enable]. destruct (decide (k = l)) as [->|Hne].
  - rewrite (bool_decide_true (l = l)) by reflexivity. reflexivity.
  - rewrite (bool_decide_false (k = l)) by exact Hne. reflexivity.
Qed.
(** The macros that are defined after a block, and its XME_SIMD_USE_ macro. *)
Lemma block_eq l b m u : block l b (m, u) = (match b with Some b => if defined l m then define b m else m | None => m end, use l (defined l m) u).
Proof. unfold block. destruct (defined l m), b; reflexivity. Qed.
Lemma defined_if k c l m : defined k (if c : bool then define l m else m) = c && bool_decide (k = l) || defined k m.
Proof. destruct c; [rewrite defined_define|]; reflexivity. Qed.
Lemma uses_from m l : snd (enable_section m) l = from m l.
Proof.
  unfold enable_section. rewrite !block_eq. cbn [snd]. rewrite !defined_if.
  repeat match goal with |- context [bool_decide (?a = ?b :> level)] =>
    first [rewrite (bool_decide_true (a = b)) by reflexivity|rewrite (bool_decide_false (a = b)) by discriminate] end.
  rewrite ?andb_false_r, ?andb_true_r. cbn [orb]. unfold use, from, levels. cbn [existsb].
  destruct l; repeat match goal with |- context [decide (?a = ?b)] => first [rewrite (decide_True (P := a = b)) by reflexivity|rewrite (decide_False (P := a = b)) by discriminate] end; cbn [rank];
    repeat match goal with |- context [bool_decide (?a ≤ ?b)%nat] => first [rewrite (bool_decide_true (a ≤ b)%nat) by lia|rewrite (bool_decide_false (a ≤ b)%nat) by lia] end; cbn [andb orb];
    rewrite orb_false_r; apply eq_true_iff_eq; rewrite ?orb_true_iff; tauto.
Qed.
Theorem simd_enabled_levels : ∀ m l, snd (enable_section m) l = true ↔ ∃ k, requested m k ∧ below l k.
Proof.
  intros m l. rewrite uses_from. unfold from. rewrite existsb_exists. split.
  - intros (k & _ & H). apply andb_true_iff in H as [H1 H2]. exists k. rewrite below_rank.
    apply bool_decide_eq_true in H1. unfold defined in H2. apply bool_decide_eq_true in H2.
    split; [apply not_eq_None_Some; exact H2|exact H1].
  - intros (k & Hk & Hb). exists k. split; [destruct k; cbn; tauto|]. apply andb_true_iff. rewrite below_rank in Hb.
    split; [apply bool_decide_eq_true; exact Hb|]. apply bool_decide_eq_true. apply not_eq_None_Some. exact Hk.
Qed.
(** The enabled levels as a mask: all up to the highest requested one. *)
Lemma testbit_flag b l i : Z.testbit (mul_flag b l) i = b && Z.testbit (mask l) i.
Proof. destruct b; [reflexivity|]. apply Z.testbit_0_l. Qed.
Theorem simd_mask_bits : ∀ u i l, levels !! i = Some l → Z.testbit (simd_mask u) (Z.of_nat i) = u l.
Proof.
  intros u i l Hi. apply rank_spec in Hi as ->. unfold simd_mask. rewrite !Z.lor_spec, !testbit_flag.
  destruct l; cbn [rank mask]; repeat match goal with |- context [Z.testbit ?a ?b] => let r := eval vm_compute in (Z.testbit a b) in change (Z.testbit a b) with r end;
    rewrite ?andb_false_r, ?andb_true_r, ?orb_false_r; reflexivity.
Qed.
Theorem simd_mask_range : ∀ u, 0 ≤ simd_mask u < 2 ^ 10.
Proof.
  intros u. assert (H : simd_mask u mod 2 ^ 10 = simd_mask u); [|pose proof (Z.mod_pos_bound (simd_mask u) (2 ^ 10) eq_refl); lia].
  rewrite <- Z.land_ones by lia. unfold simd_mask. rewrite !Z.land_lor_distr_l.
  assert (K : ∀ b l, Z.land (mul_flag b l) (Z.ones 10) = mul_flag b l) by (intros [] []; reflexivity). rewrite !K. reflexivity.
Qed.
Theorem simd_enabled_mask : ∀ m i k, levels !! i = Some k → requested m k → (∀ k', requested m k' → below k' k) →
  enabled_simd m = 2 ^ (Z.of_nat i + 1) - 1.
Proof.
  intros m i k Hi Hk Hmax. apply rank_spec in Hi as ->. unfold enabled_simd.
  assert (U : ∀ l, snd (enable_section m) l = bool_decide (rank l ≤ rank k)%nat).
  { intros l. apply eq_true_iff_eq. rewrite simd_enabled_levels, bool_decide_eq_true. split.
    - intros (k' & Hk' & Hb). apply Hmax in Hk'. rewrite below_rank in *. lia.
    - intros H. exists k. rewrite below_rank. auto. }
  unfold simd_mask. rewrite !U. clear. destruct k; reflexivity.
Qed.
Theorem simd_enabled_none : ∀ m, (∀ k, ¬ requested m k) → enabled_simd m = 0.
Proof.
  intros m H. unfold enabled_simd.
  assert (U : ∀ l, snd (enable_section m) l = false).
  { intros l. apply not_true_iff_false. rewrite simd_enabled_levels. intros (k & Hk & _). exact (H k Hk). }
  unfold simd_mask. rewrite !U. reflexivity.
Qed.
(** supported_simd has the bits of the levels that the compiler announces. *)
Theorem simd_supported_bits : ∀ has i l, levels !! i = Some l → Z.testbit (supported_simd has) (Z.of_nat i) = has l.
Proof. exact simd_mask_bits. Qed.
Theorem simd_operators : ∀ a b i, 0 ≤ a < 2 ^ 32 → 0 ≤ b < 2 ^ 32 → 0 ≤ i →
  Z.testbit (simd_or a b) i = Z.testbit a i || Z.testbit b i ∧ Z.testbit (simd_and a b) i = Z.testbit a i && Z.testbit b i.
Proof.
  intros a b i Ha Hb Hi. unfold simd_or, simd_and. destruct (Z.lt_ge_cases i 32) as [Hlt|Hge].
  - rewrite !Z.mod_pow2_bits_low by lia. rewrite Z.lor_spec, Z.land_spec. auto.
  - rewrite !Z.mod_pow2_bits_high by lia. rewrite !(Z.bits_above_log2 _ i); [auto| | | |]; try lia.
    + destruct (decide (b = 0)) as [->|]; [cbn; lia|]. enough (Z.log2 b < 32) by lia. apply Z.log2_lt_pow2; lia.
    + destruct (decide (a = 0)) as [->|]; [cbn; lia|]. enough (Z.log2 a < 32) by lia. apply Z.log2_lt_pow2; lia.
Qed.
(** Asking for a level, or for several at once, with the operators. *)
Theorem simd_query : ∀ u l k,
  (simd_and (simd_mask u) (esimd l) = esimd l ↔ u l = true) ∧ (simd_and (simd_mask u) (esimd l) = 0 ↔ u l = false) ∧
  (simd_and (simd_mask u) (simd_or (esimd l) (esimd k)) = simd_or (esimd l) (esimd k) ↔ u l = true ∧ u k = true).
Proof.
  intros u l k.
  assert (E : ∀ l, esimd l = 2 ^ Z.of_nat (rank l)) by (intros []; reflexivity).
  assert (B : ∀ l i, 0 ≤ i → Z.testbit (esimd l) i = bool_decide (i = Z.of_nat (rank l))).
  { intros l' i Hi. rewrite E, Z.pow2_bits_eqb by lia. case_bool_decide; [apply Z.eqb_eq|apply Z.eqb_neq]; lia. }
  assert (R : ∀ l, 0 ≤ esimd l < 2 ^ 32) by (intros []; cbn; lia).
  assert (M : 0 ≤ simd_mask u < 2 ^ 32) by (pose proof (simd_mask_range u); lia).
  assert (U : ∀ l, Z.testbit (simd_mask u) (Z.of_nat (rank l)) = u l) by (intros l'; apply simd_mask_bits; by apply rank_spec).
  assert (O : 0 ≤ simd_or (esimd l) (esimd k) < 2 ^ 32) by (unfold simd_or; apply Z.mod_pos_bound; lia).
  assert (Q : ∀ x, 0 ≤ x < 2 ^ 32 → simd_and (simd_mask u) x = x ↔ ∀ i, 0 ≤ i → Z.testbit x i = true → Z.testbit (simd_mask u) i = true).
  { intros x Hx. split.
    - intros H i Hi Hb. destruct (simd_operators (simd_mask u) x i M Hx Hi) as [_ Ha]. rewrite H, Hb in Ha. by rewrite andb_true_r in Ha.
    - intros H. apply Z.bits_inj'. intros i Hi. destruct (simd_operators (simd_mask u) x i M Hx Hi) as [_ ->].
      destruct (Z.testbit x i) eqn:Hb; [rewrite (H i Hi Hb); done|apply andb_false_r]. }
  split_and!.
  - rewrite Q by done. split.
    + intros H. rewrite <- U. apply H; [lia|]. rewrite B by lia. by apply bool_decide_eq_true.
    + intros H i Hi. rewrite B, bool_decide_eq_true by done. intros ->. by rewrite U.
  - split.
    + intros H. rewrite <- U. assert (Hr : 0 ≤ Z.of_nat (rank l)) by lia. destruct (simd_operators (simd_mask u) (esimd l) _ M (R l) Hr) as [_ Ha].
      rewrite H, Z.bits_0, B, bool_decide_eq_true_2, andb_true_r in Ha by done. done.
    + intros H. apply Z.bits_inj'. intros i Hi. destruct (simd_operators (simd_mask u) (esimd l) i M (R l) Hi) as [_ ->].
      rewrite Z.bits_0, B by done. case_bool_decide as Hc; [|apply andb_false_r]. subst i. by rewrite U, H.
  - rewrite Q by done. split.
    + intros H. rewrite <- !U. split; (apply H; [lia|]);
        match goal with |- Z.testbit _ ?i = _ => destruct (simd_operators (esimd l) (esimd k) i (R l) (R k) ltac:(lia)) as [-> _] end; rewrite !B by lia.
      * by rewrite bool_decide_eq_true_2.
      * rewrite (bool_decide_eq_true_2 (Z.of_nat (rank k) = Z.of_nat (rank k))) by done. apply orb_true_r.
    + intros [Hl Hk] i Hi. destruct (simd_operators (esimd l) (esimd k) i (R l) (R k) Hi) as [-> _]. rewrite !B by done.
      rewrite orb_true_iff, !bool_decide_eq_true. intros [-> | ->]; by rewrite U.
Qed.
(** Requested on the command line: -DXME_SIMD_ENABLE_<level> for each of [ls]. *)
Definition one : list Z := [49].
Definition command_line (ls : list level) : macros := Macros (λ l, if decide (l ∈ ls) then Some one else None) false.
Example simd_enabled_ex : enabled_simd (command_line [AVX2]) = 0x1FF ∧ enabled_simd (command_line [SSE2; MMX]) = 0x7 ∧
  enabled_simd (command_line []) = 0 ∧ requested (command_line [SSE2; MMX]) SSE2 ∧ below MMX SSE2 ∧ ¬ below SSE3 SSE2.
Proof.
  split_and!; [reflexivity..|exists one; reflexivity|exists 0%nat, 2%nat; auto|]. rewrite below_rank. cbn. lia.
Qed.
Example simd_supported_ex : Z.testbit (supported_simd (λ l, bool_decide (l = SSE41))) 5 = true ∧
  supported_simd (λ l, bool_decide (l = SSE41)) = 0x20.
Proof. split; reflexivity. Qed.
Example simd_query_ex : simd_and (supported_simd (λ l, bool_decide (l ≠ AVX512F))) (esimd AVX2) = esimd AVX2 ∧
  simd_and (supported_simd (λ l, bool_decide (l ≠ AVX512F))) (simd_or (esimd AVX2) (esimd AVX512F)) = esimd AVX2.
Proof. split; reflexivity. Qed.
Example simd_operators_ex : simd_or 0x3 0x6 = 0x7 ∧ simd_and 0x3 0x6 = 0x2.
Proof. split; reflexivity. Qed.

(** ** Requests that clash (C81) *)

Definition other_body (m : macros) (l : level) : bool := bool_decide (enable m l ≠ None ∧ enable m l ≠ Some []).
Lemma clash_if c l m : clash (if c : bool then define l m else m) = clash m || c && other_body m l.
Proof. destruct c; cbn; [reflexivity|]. rewrite orb_false_r. reflexivity. Qed.
Lemma other_if c l k m : k ≠ l → other_body (if c : bool then define l m else m) k = other_body m k.
Proof. intros H. destruct c; [|reflexivity]. unfold other_body, define. cbn. rewrite decide_False by exact H. reflexivity. Qed.
(** The header defines a macro again with other contents exactly when a level was given
    some contents (as -D does) and a higher level is requested too. Missing from C81:
    that this does not happen, see the refutation. *)
Theorem simd_requests_partial : ∀ m, clash m = false →
  (clash (fst (enable_section m)) = true ↔
   ∃ l k body, enable m l = Some body ∧ body ≠ [] ∧ requested m k ∧ strictly_below l k).
Proof.
  intros m Hm. unfold enable_section. rewrite !block_eq. cbn [fst]. rewrite !clash_if, !other_if by discriminate. rewrite Hm. cbn [orb].
  rewrite !defined_if.
  repeat match goal with |- context [bool_decide (?a = ?b :> level)] =>
    first [rewrite (bool_decide_true (a = b)) by reflexivity|rewrite (bool_decide_false (a = b)) by discriminate] end.
  rewrite ?andb_false_r, ?andb_true_r. cbn [orb].
  assert (B : ∀ l, other_body m l = true ↔ ∃ body, enable m l = Some body ∧ body ≠ []).
  { intros l. unfold other_body. rewrite bool_decide_eq_true. destruct (enable m l) as [b|]; split.
    - intros [_ H]. exists b. split; [reflexivity|]. congruence.
    - intros (b' & [= <-] & H). split; [discriminate|congruence].
    - intros [H _]. congruence.
    - intros (b' & H & _). discriminate. }
  assert (D : ∀ l, defined l m = true ↔ requested m l).
  { intros l. unfold defined, requested. rewrite bool_decide_eq_true. apply not_eq_None_Some. }
  rewrite !orb_true_iff, !andb_true_iff, !orb_true_iff, !B, !D. split.
  - intros H. repeat (destruct H as [H|H]; [|
      destruct H as [Hr (body & Hb & Hne)];
      repeat destruct Hr as [Hr|Hr]; (eexists _, _, body; split_and!; [exact Hb|exact Hne|exact Hr|]; rewrite strictly_below_rank; cbn; lia)]).
    destruct H as [Hr (body & Hb & Hne)].
    repeat destruct Hr as [Hr|Hr]; (eexists _, _, body; split_and!; [exact Hb|exact Hne|exact Hr|]; rewrite strictly_below_rank; cbn; lia).
  - intros (l & k & body & Hb & Hne & Hr & Hlt). apply strictly_below_rank in Hlt.
    assert (E : ∃ body, enable m l = Some body ∧ body ≠ []) by eauto. clear Hb Hne.
    destruct l, k; cbn in Hlt; try lia; tauto.
Qed.
Example simd_requests_ex : clash (fst (enable_section (command_line [AVX2]))) = false ∧
  clash (fst (enable_section (Macros (λ l, if decide (l = SSE2 ∨ l = AVX2) then Some [] else None) false))) = false.
Proof. split; reflexivity. Qed.
(** -DXME_SIMD_ENABLE_AVX2 -DXME_SIMD_ENABLE_SSE2 is ill-formed. *)
Theorem simd_requests_refuted : ∃ ls, ls = [AVX2; SSE2] ∧ clash (fst (enable_section (command_line ls))) = true.
Proof. exists [AVX2; SSE2]. split; reflexivity. Qed.

(** ** Instructions beyond the enabled levels (C82) *)

(** All intrinsics belong to levels that are in use. *)
Definition available (u : uses) (l : list intrinsic) : Prop := ∀ i, i ∈ l → u (intrinsic_level i) = true.
Lemma available_cons u i l : available u (i :: l) ↔ u (intrinsic_level i) = true ∧ available u l.
Proof.
  unfold available. setoid_rewrite elem_of_cons. split; [intros H; split; auto|]. intros [H1 H2] j [->|Hj]; auto.
Qed.
Lemma available_nil u : available u [] ↔ True.
Proof. unfold available. setoid_rewrite elem_of_nil. tauto. Qed.
Lemma uses_down m a b : below a b → snd (enable_section m) b = true → snd (enable_section m) a = true.
Proof.
  rewrite !simd_enabled_levels. intros Hb (k & Hk & Hk'). exists k. rewrite below_rank in *. split; [exact Hk|lia].
Qed.
(** Of the element sizes only 8 needs more than the level that selects the code, under
    SSE2 to SSSE3. Missing from C82: those levels. *)
Theorem simd_find_available_partial : ∀ m size l, find_intrinsics (snd (enable_section m)) size = Some l →
  size ≠ 8%nat ∨ (∃ k, requested m k ∧ below SSE41 k) → available (snd (enable_section m)) l.
Proof.
  intros m size l. pose proof (simd_enabled_levels m SSE41) as H41. set (u := snd (enable_section m)) in *.
  assert (D : ∀ a b, below a b → u b = true → u a = true) by (intros a b; apply uses_down). clearbody u.
  unfold find_intrinsics. destruct (u AVX2) eqn:EA; [|destruct (u SSE2) eqn:ES; [|discriminate]].
  - assert (HA : u AVX = true) by (apply (D AVX AVX2); [rewrite below_rank; cbn; lia|exact EA]).
    intros Hs _. do 9 (destruct size as [|size]; [try discriminate Hs; injection Hs as <-; rewrite !available_cons, available_nil; cbn; auto|]).
    discriminate Hs.
  - assert (HA : u SSE1 = true) by (apply (D SSE1 SSE2); [rewrite below_rank; cbn; lia|exact ES]).
    intros Hs Hc. do 9 (destruct size as [|size]; [try discriminate Hs; injection Hs as <-; rewrite !available_cons, available_nil; cbn; try tauto|]).
    discriminate Hs.
Qed.
(** reverse needs SSE2 in any case (for the constant of the shuffle) and SSSE3 when SSE3
    selects its code. *)
Theorem simd_reverse_available_partial : ∀ m, (∃ k, requested m k ∧ below SSSE3 k) ∨
  ((∃ k, requested m k ∧ below SSE2 k) ∧ ¬ ∃ k, requested m k ∧ below SSE3 k) →
  available (snd (enable_section m)) (reverse_intrinsics (snd (enable_section m))).
Proof.
  intros m Hm. rewrite <- !simd_enabled_levels in Hm. set (u := snd (enable_section m)) in *.
  assert (D : ∀ a b, below a b → u b = true → u a = true) by (intros a b; apply uses_down). clearbody u.
  assert (H2 : u SSE2 = true).
  { destruct Hm as [H|[H _]]; [|exact H]. apply (D SSE2 SSSE3); [rewrite below_rank; cbn; lia|exact H]. }
  unfold reverse_intrinsics. rewrite available_cons. split; [exact H2|].
  destruct (u AVX2) eqn:EA; [|destruct (u SSE3) eqn:ES].
  - assert (HA : u AVX = true) by (apply (D AVX AVX2); [rewrite below_rank; cbn; lia|exact EA]).
    rewrite !available_cons, available_nil. cbn. auto 10.
  - rewrite !available_cons, available_nil. cbn. destruct Hm as [H|[_ H]]; [auto|congruence].
  - apply available_nil. exact I.
Qed.
Example simd_find_available_ex : find_intrinsics (snd (enable_section (command_line [SSE42]))) 8 = Some [mm_set1; mm_cmpeq_64; mm_movemask_pd] ∧
  requested (command_line [SSE42]) SSE42 ∧ below SSE41 SSE42.
Proof. split; [reflexivity|]. split; [exists one; reflexivity|]. exists 5%nat, 6%nat. auto. Qed.
Example simd_reverse_available_ex : reverse_intrinsics (snd (enable_section (command_line [SSSE3]))) = [mm_set_epi8; mm_loadu; mm_shuffle_epi8; mm_storeu] ∧
  requested (command_line [SSSE3]) SSSE3.
Proof. split; [reflexivity|]. exists one. reflexivity. Qed.
(** With SSE2 the search for 8-byte elements is SSE4.1 code, and with SSE3 the reversal
    is SSSE3 code. *)
Theorem simd_find_available_refuted : ∃ m l, m = command_line [SSE2] ∧ find_intrinsics (snd (enable_section m)) 8 = Some l ∧
  ¬ available (snd (enable_section m)) l.
Proof.
  eexists _, _. split; [reflexivity|]. split; [reflexivity|]. rewrite !available_cons. intros (_ & H & _). discriminate H.
Qed.
Theorem simd_reverse_available_refuted : ∃ m, m = command_line [SSE3] ∧
  ¬ available (snd (enable_section m)) (reverse_intrinsics (snd (enable_section m))).
Proof.
  eexists. split; [reflexivity|]. change (reverse_intrinsics _) with [mm_set_epi8; mm_loadu; mm_shuffle_epi8; mm_storeu].
  rewrite !available_cons. intros (_ & _ & H & _). discriminate H.
Qed.

Definition hal_theorems := (@library_balanced_partial, @library_closed_once_partial, @library_is_open_partial,
  @library_double_close_refuted, @library_steals_refuted, @library_leak_refuted, @environment_set_get_partial,
  @environment_secure, @environment_substring_refuted, @environment_value_refuted, @environment_unterminated_refuted,
  @environment_equals_refuted, @environment_invalid_ignored, @simd_enabled_levels, @simd_mask_bits, @simd_mask_range, @simd_enabled_mask,
  @simd_enabled_none, @simd_supported_bits, @simd_operators, @simd_query, @simd_requests_partial, @simd_requests_refuted,
  @simd_find_available_partial, @simd_find_available_refuted, @simd_reverse_available_partial, @simd_reverse_available_refuted).
Print Assumptions hal_theorems.
