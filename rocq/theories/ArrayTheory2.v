(** Proofs of the Array theorems stated in ArrayProps.v, second part. *)
From stdpp Require Import list list_numbers functions.
From Verif Require Import Base ArrayModel ArraySpec ArrayRun ArrayProofs ArrayOps ArrayOps2 ArrayOps3 ArrayOps4 ArrayHistory ArrayObsSpec ArrayObs ArrayTheory.
Local Open Scope mon_scope.

Section theory.
Context {V : Type}.
Implicit Types (l : list V) (cs : list (cell V)) (s : st V) (σ : astore V).
Notation heapT := (list (option (list (cell V)))).
Notation S_ h o r m k := (@mkSt V h o r m k).

Lemma independent j l c s s' : reach s → obs s j l c → history_avoiding j s s' → obs s' j l c ∧ reach s'.
Proof.
  intros Hr Ho H. induction H as [s|s σ o σ1 r s1 s2 Hv Hsp Ht Hrun H IH]; [done|].
  assert (Hs : srs true s (upd σ j (Good l c)) ∧ j < length σ).
  { destruct (reach_srs s Hr) as [σ0 Hs0]. destruct (obs_upd s σ j l c Hv Ho) as [Hv' Hj].
    split; [by eapply view_srs|done]. }
  destruct Hs as [Hs Hj].
  assert (Hσ : σ !! j = Some (Some (Good l c)) ∨ σ !! j = Some (Some (Broken c))).
  { destruct (lookup_lt_is_Some_2 σ j Hj) as [[[l0 c0|c0]|] Hx].
    - left. destruct Hv as [_ Hv]. specialize (Hv j). rewrite Hx in Hv.
      by destruct (obs_fun _ _ _ _ _ _ Ho Hv) as [<- <-].
    - right. destruct Hv as [_ Hv]. specialize (Hv j). rewrite Hx in Hv.
      destruct Ho as [_ Hc]. rewrite Hc in Hv. by simplify_eq.
    - destruct Hv as [_ Hv]. specialize (Hv j). rewrite Hx in Hv.
      destruct Ho as [_ Hc]. by rewrite Hc in Hv. }
  (* the same call from the sharper view *)
  assert (Hsp' : ∃ σ1', spec_step o (upd σ j (Good l c)) = Some (σ1', r)).
  { destruct Hσ as [Hσ|Hσ].
    { rewrite <-(upd_same σ j l c Hσ). eauto. }
    assert (Hget : ∀ i p, get_good σ i = Some p → get_good (upd σ j (Good l c)) i = Some p).
    { intros i p Hg. unfold get_good, upd in *. destruct (decide (i = j)) as [->|].
      - by rewrite Hσ in Hg.
      - by rewrite list_lookup_insert_ne. }
    assert (Hany : ∀ i x, get_any σ i = Some x → i ∉ targets o → ∃ x', get_any (upd σ j (Good l c)) i = Some x').
    { intros i x Hg _. unfold get_any, upd in *. destruct (decide (i = j)) as [->|].
      - rewrite list_lookup_insert by done. eauto.
      - rewrite list_lookup_insert_ne by done. eauto. }
    assert (Hany' : ∀ i x, get_any σ i = Some x → i ≠ j → get_any (upd σ j (Good l c)) i = Some x).
    { intros i x Hg Hne. unfold get_any, upd in *. by rewrite list_lookup_insert_ne. }
    assert (Hl : length (upd σ j (Good l c)) = length σ) by (unfold upd; by rewrite insert_length).
    destruct o; simpl in Hsp, Ht |- *; rewrite ?Hl; rewrite ?elem_of_cons in Ht;
    repeat match type of Hsp with
    | mbind _ (get_good _ ?i) = Some _ => 
        let Hg := fresh "Hg" in
        destruct (get_good σ i) as [[? ?]|] eqn:Hg; simpl in Hsp; [|done]; apply Hget in Hg; rewrite ?Hg; simpl
    | mbind _ (get_any _ ?i) = Some _ => 
        destruct (get_any σ i) as [?|] eqn:?Hg; simpl in Hsp; [|done]
    end;
    repeat match goal with
    | H : get_any σ ?i = Some ?x |- context [get_any (upd _ _ _) ?i] =>
        first [rewrite (Hany' i x H) by (intros ->; apply Ht; auto)
              |destruct (decide (i = j)) as [->|Hne];
               [unfold get_any in H; rewrite Hσ in H; simplify_eq;
                unfold get_any at 1; unfold upd at 1; rewrite list_lookup_insert by done
               |rewrite (Hany' i x H) by done]]; simpl
    | H : get_good (upd _ _ _) ?i = Some _ |- context [get_good (upd _ _ _) ?i] => rewrite H; simpl
    | H : mbind _ ?e = Some _ |- context [?e] => destruct e eqn:?; simpl in *; [|done]
    end; unfold guard_ in *; repeat (case_match; try done); simplify_eq; eauto.
    destruct (decide (i = j)) as [->|Hne]; [|rewrite (Hany' i a Hg) by done; simpl; eauto].
    unfold get_any in Hg |- *. rewrite Hσ in Hg. injection Hg as <-. unfold upd.
    rewrite list_lookup_insert by done. eauto. }
  destruct Hsp' as [σ1' Hsp'].
  assert (Hst := step_sim true o s _ _ r Hs (or_introl eq_refl) Hsp').
  assert (Hj' : upd σ j (Good l c) !! j = Some (Some (Good l c))) by (by apply list_lookup_insert).
  destruct Hrun as [E|E]; rewrite E in Hst; simpl in Hst.
  - destruct Hst as (_ & Hs1 & _). apply IH; [by eapply reach_ret|].
    eapply srs_obs; [exact Hs1|]. by eapply spec_frame.
  - destruct Hst as (_ & _ & _ & σ' & Hth & Hs1). apply IH; [by eapply reach_exn|].
    eapply srs_obs; [exact Hs1|]. by eapply throw_frame.
Qed.

Lemma result_obs triv i (h : heapT) o r k own l' c' own' s' :
  i < length o → result triv i h o r k own l' c' own' s' → obs s' i l' c'.
Proof.
  intros Hi (a' & Ho & _ & _ & _ & HR). destruct s' as [h' o' r' m' k']. cbn [heap objs] in *.
  split.
  - eapply (to_list_eq triv); [|exact HR]. rewrite Ho. by apply list_lookup_insert.
  - eapply (capacity_eq_rep triv); [|exact HR]. rewrite Ho. by apply list_lookup_insert.
Qed.

Lemma result_index triv i (h : heapT) o r k own l' c' b' n s' :
  i < length o → result triv i h o r k own l' c' (Some b') s' → n ≤ length l' →
  index i n s' = Ok (Ptr b' n) s'.
Proof.
  intros Hi (a' & Ho & _ & _ & _ & HR) Hn. destruct s' as [h' o' r' m' k']. cbn [heap objs] in *.
  rewrite (index_eq triv i n a' (Some b') l' c'); [done| |exact HR|done].
  rewrite Ho. by apply list_lookup_insert.
Qed.

(** ** Move and swap *)
Lemma obs_obj s i l c : obs s i l c → ∃ a, objs s !! i = Some (Some a).
Proof. intros [_ Hc]. destruct s as [h o r m k]. by eapply capacity_obj. Qed.
Lemma step_reach (o : op V) s σ σ1 r s' : reach s → srs true s σ → spec_step o σ = Some (σ1, r) →
  run_op true o s = Ok r s' → reach s' ∧ view s' σ1 .
Proof.
  intros Hr Hs Hsp E. split; [eapply reach_ret; [done|by apply srs_view|done|done]|].
  assert (Hst := step_sim true o s _ _ r Hs (or_introl eq_refl) Hsp). rewrite E in Hst.
  destruct Hst as (_ & Hs1 & _). by apply srs_view.
Qed.
Lemma view_obs s σ i l c : view s σ → σ !! i = Some (Some (Good l c)) → obs s i l c.
Proof. intros [_ Hv] Hi. specialize (Hv i). by rewrite Hi in Hv. Qed.

Lemma swap_call s i j li ci lj cj : reach s → obs s i li ci → obs s j lj cj →
  ∃ s', run_op true (OSwap i j) s = Ok RUnit s' ∧ only_objs s s' ∧
        obs s' i lj cj ∧ obs s' j li ci ∧ reach s'.
Proof.
  intros Hr Hi Hj. destruct (obs_obj _ _ _ _ Hi) as [a Ha]. destruct (obs_obj _ _ _ _ Hj) as [b Hb].
  destruct (decide (i = j)) as [<-|Hne].
  - destruct (obs_fun _ _ _ _ _ _ Hi Hj) as [<- <-].
    destruct s as [h o r m k]. simpl in *. exists (S_ h o r m k).
    unfold bind. erewrite swap_self by done. split_and!; try done.
  - destruct (obs_get2 s i li ci j lj cj Hr Hne Hi Hj) as (σ & Hs & Hv & Hσi & Hσj).
    destruct s as [h o r m k]. simpl in *.
    assert (E : run_op true (OSwap i j) (S_ h o r m k) =
      Ok RUnit (S_ h (<[j:=Some a]> (<[i:=Some b]> o)) r m k)).
    { simpl. unfold bind. by erewrite swap_eq by done. }
    eexists. split; [exact E|]. split; [done|].
    assert (Hsp : spec_step (OSwap i j) σ = Some (upd (upd σ i (Good lj cj)) j (Good li ci), RUnit)).
    { simpl. by rewrite (good_any σ _ _ _ Hσi), (good_any σ _ _ _ Hσj). }
    destruct (step_reach _ _ _ _ _ _ Hr Hs Hsp E) as [Hr' Hv'].
    apply lookup_lt_Some in Hσi, Hσj. unfold upd in Hv'.
    split_and!; [eapply view_obs; [done|]..|done].
    + rewrite list_lookup_insert_ne by done. by rewrite list_lookup_insert.
    + rewrite list_lookup_insert; [done|]. by rewrite insert_length.
Qed.

Lemma move_call s j l c p : reach s → obs s j l c → begin_ j s = Ok p s →
  let n := length (objs s) in
  ∃ s', run_op true (OMove j) s = Ok (RNew n) s' ∧ only_objs s s' ∧
        obs s' n l c ∧ begin_ n s' = Ok p s' ∧ obs s' j [] 0 ∧ reach s'.
Proof.
  intros Hr Hj Hp n. destruct (obs_obj _ _ _ _ Hj) as [b Hb].
  destruct (obs_get s j l c Hr Hj) as (σ & Hs & Hv & Hσj).
  assert (Hjl := lookup_lt_Some _ _ _ Hb).
  destruct s as [h o r m k]. simpl in *.
  assert (E : run_op true (OMove j) (S_ h o r m k) =
    Ok (RNew n) (S_ h (<[n:=Some b]> (<[j:=Some null_arr]> (o ++ [Some null_arr]))) r m k)).
  { cbn [run_op]. unfold new_array, push_obj. unfold bind, gets, modify, ret. cbn.
    unfold on_throw, set_objs. cbn [heap objs oracle moved leaked]. erewrite ctor_move_eq by (by apply lookup_app_l_Some). done. }
  eexists. split; [exact E|]. split; [done|].
  assert (Hsp : spec_step (OMove j) σ = Some (upd σ j (Good [] 0) ++ [Some (Good l c)], RNew n)).
  { simpl. rewrite (good_any σ _ _ _ Hσj). simpl. destruct Hv as [Hlen _]. by rewrite <-Hlen. }
  destruct (step_reach _ _ _ _ _ _ Hr Hs Hsp E) as [Hr' Hv'].
  destruct Hv as [Hlen _]. simpl in Hlen. assert (Hjl' := lookup_lt_Some _ _ _ Hσj). unfold upd in Hv'.
  split_and!; [eapply view_obs; [done|]| |eapply view_obs; [done|]|done].
  + rewrite lookup_app_r; rewrite insert_length; [|lia]. subst n. by rewrite Hlen, Nat.sub_diag.
  + unfold begin_, bind, get_arr in Hp |- *. simpl in *. rewrite Hb in Hp. 
    rewrite list_lookup_insert; [unfold ret in *; congruence|].
    rewrite insert_length, app_length. simpl. lia.
  + rewrite lookup_app_l by (by rewrite insert_length). by rewrite list_lookup_insert.
Qed.

Lemma assign_move_call s i j li ci lj cj p : reach s → i ≠ j → obs s i li ci → obs s j lj cj →
  begin_ j s = Ok p s →
  ∃ s', run_op true (OAssignMove i j) s = Ok RUnit s' ∧
        obs s' i lj cj ∧ begin_ i s' = Ok p s' ∧ obs s' j [] 0 ∧ reach s' ∧
        length (heap s') = length (heap s) ∧ oracle s' = oracle s ∧ moved s' = moved s ∧
        (∀ b, begin_ i s ≠ Ok (Ptr b 0) s → heap s' !! b = heap s !! b).
Proof.
  intros Hr Hne Hi Hj Hp. destruct (obs_obj _ _ _ _ Hi) as [a0 Ha0].
  destruct (obs_obj _ _ _ _ Hj) as [b Hb].
  destruct (obs_rep s i li ci Hr Hi) as (a & own & Ha & HR). simplify_eq.
  destruct (obs_get2 s i li ci j lj cj Hr Hne Hi Hj) as (σ & Hs & Hv & Hσi & Hσj).
  destruct s as [h o r m k]. simpl in *.
  assert (E : run_op true (OAssignMove i j) (S_ h o r m k) =
    Ok RUnit (S_ (free own h) (<[i:=Some b]> (<[j:=Some null_arr]> o)) r m k)).
  { cbn [run_op]. unfold bind. erewrite assign_move_eq; [done|done|done| |done].
    left. eauto. }
  eexists. split; [exact E|].
  assert (Hsp : spec_step (OAssignMove i j) σ = Some (upd (upd σ j (Good [] 0)) i (Good lj cj), RUnit)).
  { simpl. by rewrite (good_any σ _ _ _ Hσi), (good_any σ _ _ _ Hσj). }
  destruct (step_reach _ _ _ _ _ _ Hr Hs Hsp E) as [Hr' Hv'].
  assert (Hil := lookup_lt_Some _ _ _ Hσi). assert (Hjl := lookup_lt_Some _ _ _ Hσj).
  assert (Hil' := lookup_lt_Some _ _ _ Ha0). unfold upd in Hv'.
  split_and!; [eapply view_obs; [done|]| |eapply view_obs; [done|]|done| |done|done|].
  - rewrite list_lookup_insert; [done|]. by rewrite insert_length.
  - unfold begin_, bind, get_arr in Hp |- *. simpl in *. rewrite Hb in Hp. 
    rewrite list_lookup_insert; [unfold ret in *; congruence|]. by rewrite insert_length.
  - rewrite list_lookup_insert_ne by done. by rewrite list_lookup_insert.
  - simpl. unfold free. destruct own; [by rewrite insert_length|done].
  - intros b' Hb'. simpl. unfold free. destruct own as [b0|]; [|done].
    rewrite list_lookup_insert_ne; [done|]. intros ->. apply Hb'.
    unfold begin_, bind, get_arr. simpl. rewrite Ha0. destruct HR as (tl & -> & _). done.
Qed.

Lemma assign_move_self_call s i l c : reach s → obs s i l c →
  call (OAssignMove i i) s i RUnit l c never.
Proof.
  intros Hr Ho. eapply call_intro; [done..| |].
  - intros σ Hσ. simpl. rewrite (good_any σ _ _ _ Hσ). simpl. unfold upd.
    by rewrite list_insert_insert.
  - by intros σ σ' Hσ Ht.
Qed.

(** ** Throwing constructors of element types with non-trivial lifetimes *)
Lemma fill_any (triv : bool) s n v :
  match run_op triv (OFill n v) s with
  | Ok r s' => r = RNew (length (objs s)) ∧ heap s' = heap s ++ [Some (replicate n (Live v))] ∧
               leaked s' = leaked s
  | Throw s' => oracle s ≠ [] ∧ objs s' = objs s ∧ leaked s' = leaked s ∧
                (heap s' = heap s ∨ heap s' = heap s ++ [None])
  | UB _ => False
  end.
Proof.
  destruct s as [h o r m k]. cbn [run_op]. unfold new_array, push_obj.
  unfold bind, gets, modify, ret. cbn. unfold on_throw, set_objs. cbn [heap objs oracle moved leaked].
  assert (H := ctor_fill_post triv (length o) n v h (o ++ [Some null_arr]) r m k).
  destruct (ctor_fill triv (length o) n v _) as [? s'|s'|u]; simpl in H.
  - destruct H as (r' & Hsuf & ->); [rewrite app_length; simpl; lia|].
    cbn. split_and!; [done| |done]. by rewrite fmap_replicate.
  - destruct H as (r' & Hsuf & Hne & H); [rewrite app_length; simpl; lia|].
    unfold pop_obj, modify, set_objs. destruct H as [->|[-> ->]]; cbn.
    + rewrite app_length. simpl. rewrite take_app_alt by lia. auto.
    + rewrite insert_app_r_alt, Nat.sub_diag, app_length by done. simpl.
      rewrite take_app_alt by lia. auto.
  - apply H. rewrite app_length. simpl. lia.
Qed.

(** Copying elements of a type with a throwing copy constructor: the first copy
    that throws runs the broken handler. *)
Lemma copy_any l : ∀ (h : heapT) o r m k b p, h !! b = Some (Some (p ++ replicate (length l) Raw)) →
  uninitialized_copy_a false (map AObj l) (Ptr b (length p)) (Ptr b (length p + length l)) (S_ h o r m k) =
  if decide (true ∈ take (length l) r) then UB PtrDiff
  else Ok (Ptr b (length p + length l)) (S_ (<[b := Some (p ++ map Live l)]> h) o (drop (length l) r) m k).
Proof.
  induction l as [|v l IH]; intros h o r m k b p Hb.
  { cbn [length map uninitialized_copy_a]. rewrite take_0, decide_False by (by intros ?%elem_of_nil).
    rewrite drop_0, Nat.add_0_r. simpl in Hb. rewrite app_nil_r in Hb |- *. by rewrite list_insert_id. }
  cbn [map uninitialized_copy_a length]. rewrite ptr_eqb_neq by (intros [=]; lia).
  unfold bind at 1, on_throw, construct. unfold bind at 1.
  simpl in Hb. erewrite get_cell_eq; [|exact Hb|by apply lookup_mid].
  unfold bind at 1. cbn [eval_arg]. unfold bind at 1, tick. cbn [oracle].
  assert (Hgo : ∀ r0,
    bind (on_throw
        ((if negb false && cell_alive (@Raw V) then modify (add_leaked 1) else ret tt) ;;;
         set_cell (Ptr b (length p)) (Live v)) (copy_handler false (AObj v) (Ptr b (length p))))
      (λ _, bind (padd (Ptr b (length p)) 1) (λ out',
        uninitialized_copy_a false (map AObj l) out' (Ptr b (length p + S (length l))))) (S_ h o r0 m k)
    = if decide (true ∈ take (length l) r0) then UB PtrDiff
          else Ok (Ptr b (length p + S (length l)))
                  (S_ (<[b := Some (p ++ map Live (v :: l))]> h) o (drop (length l) r0) m k)).
  { intros r0. unfold bind at 1, on_throw, bind at 1. simpl. erewrite set_cell_eq; [|exact Hb|by apply lookup_mid].
    rewrite insert_mid' by done. unfold bind at 1, padd. cbn [heap].
    assert (b < length h) by (by eapply lookup_lt_Some).
    rewrite list_lookup_insert by done.
    rewrite (proj2 (Nat.leb_le _ _)) by (rewrite app_length; simpl; lia).
    assert (E := IH (<[b:=Some (p ++ Live v :: replicate (length l) Raw)]> h) o r0 m k b (p ++ [Live v])).
    rewrite app_length in E. simpl in E. rewrite <-app_assoc in E.
    replace (length p + 1 + length l) with (length p + S (length l)) in E by lia.
    rewrite E by (simpl; by apply list_lookup_insert). case_decide; [done|].
    rewrite list_insert_insert, <-app_assoc. done. }
  destruct r as [|[] r].
  - specialize (Hgo []). rewrite !take_nil, !drop_nil in Hgo |- *.
    exact Hgo.
  - cbn [take]. rewrite decide_True by left. done.
  - specialize (Hgo r). cbn [take drop].
    rewrite (decide_ext (true ∈ false :: take (length l) r) (true ∈ take (length l) r)); [exact Hgo|].
    rewrite elem_of_cons. naive_solver.
Qed.
Lemma ctor_range_any l (h : heapT) o r m k :
  ctor_range false (length o) (map AObj l) (S_ h (o ++ [Some null_arr]) r m k) =
  match r with
  | true :: r' => Throw (S_ h (o ++ [Some null_arr]) r' m k)
  | _ =>
    if decide (true ∈ take (length l) (tail r)) then UB PtrDiff
    else Ok tt (S_ (h ++ [Some (map Live l)])
      (o ++ [Some (mkArr (Ptr (length h) 0) (Ptr (length h) (length l)) (Ptr (length h) (length l)))])
      (drop (length l) (tail r)) m k)
  end.
Proof.
  assert (Hgo : ∀ r0,
    (((p <- (b <- gets (λ s : st V, length (heap s)) ;;
             modify (λ s, set_heap (heap s ++ [Some (replicate (length (map (@AObj V) l)) Raw)]) s) ;;;
             ret (Ptr b 0)) ;;
       q <- padd p (length (map (@AObj V) l)) ;; set_arr (length o) (mkArr p p q)) ;;;
     on_throw
      (a <- get_arr (length o) ;;
       out <- uninitialized_copy_a false (map AObj l) (a_begin a) (a_stor a) ;; set_end (length o) out)
      (dtor false (length o)))
      (S_ h (o ++ [Some null_arr]) r0 m k)) =
    if decide (true ∈ take (length l) r0) then UB PtrDiff
    else Ok tt (S_ (h ++ [Some (map Live l)])
      (o ++ [Some (mkArr (Ptr (length h) 0) (Ptr (length h) (length l)) (Ptr (length h) (length l)))])
      (drop (length l) r0) m k)).
  { intros r0. rewrite map_length. unfold bind at 1 2 3 4, gets, modify, ret, set_heap. cbn [heap objs oracle moved leaked].
    unfold bind at 1, padd. cbn [heap]. rewrite lookup_last, replicate_length, Nat.leb_refl.
    rewrite set_arr_eq, insert_last. cbn [Nat.add].
    unfold on_throw. unfold bind at 1. erewrite get_arr_eq by apply lookup_last. cbn [a_begin a_stor].
    assert (E := copy_any l (h ++ [Some (replicate (length l) Raw)])
      (o ++ [Some (mkArr (Ptr (length h) 0) (Ptr (length h) 0) (Ptr (length h) (length l)))]) r0 m k (length h) []).
    cbn [length Nat.add app] in E. unfold bind at 1. rewrite E by apply lookup_last. case_decide; [done|].
    unfold set_end, bind. erewrite get_arr_eq by apply lookup_last. rewrite set_arr_eq. cbn [a_begin a_stor].
    by rewrite !insert_last. }
  unfold ctor_range, ctor_cap, alloc. destruct r as [|[] r]; [exact (Hgo [])|done|exact (Hgo r)].
Qed.
Lemma range_any s l :
  match run_op false (ORange l) s with
  | Ok r s' => true ∉ take (S (length l)) (oracle s) ∧ r = RNew (length (objs s)) ∧
               heap s' = heap s ++ [Some (map Live l)] ∧ leaked s' = leaked s
  | Throw s' => head (oracle s) = Some true ∧ heap s' = heap s ∧ objs s' = objs s ∧ leaked s' = leaked s
  | UB u => u = PtrDiff ∧ head (oracle s) ≠ Some true ∧ true ∈ take (length l) (tail (oracle s))
  end.
Proof.
  destruct s as [h o r m k]. cbn [run_op]. unfold new_array, push_obj.
  unfold bind at 1 2 3, gets, modify, ret. unfold bind at 1. unfold bind at 1, on_throw, set_objs.
  cbn [heap objs oracle moved leaked]. rewrite ctor_range_any.
  destruct r as [|[] r].
  - cbn [tail]. rewrite take_nil, drop_nil, decide_False by (by intros ?%elem_of_nil). simpl.
    split_and!; [by intros ?%elem_of_nil|done..].
  - unfold pop_obj, modify. simpl. rewrite app_length. simpl. rewrite take_app_alt by lia. done.
  - cbn [tail]. case_decide as H; [done|]. cbn [heap leaked take]. split_and!; [|done..].
    rewrite elem_of_cons. by intros [?|?].
Qed.

(** After any gentle history with element type of any kind. *)
Lemma gentle_history (triv : bool) (os : list (op V)) rs σ : all_gentle os [] →
  spec_exec os [] = Some (rs, σ) →
  ∃ s, run_ops triv os (init []) = Ok rs s ∧ leaked s = 0 ∧
       (∀ i l c, σ !! i = Some (Some (Good l c)) → obs s i l c) ∧
       ((∀ i x, σ !! i ≠ Some (Some x)) → ∀ b cs, heap s !! b ≠ Some (Some cs)).
Proof.
  intros Hg Hsp.
  destruct (ops_sim triv os (init []) [] rs σ) as (s & E & Hs & _ & Hk); [apply srs_init|done|by right|done|].
  exists s. split_and!; [done|done| |].
  - intros i l c Hi. destruct Hs as [ow H]. destruct (sr_obj _ _ _ _ _ H i _ Hi) as (a & Ha & HR).
    destruct s as [h o r m k]. simpl in *. split; [by eapply to_list_eq|by eapply capacity_eq_rep].
  - intros Hd. by eapply srs_no_leak.
Qed.

(** push_back of a non-trivial T whose copy constructor throws. *)
Lemma gentle_push_throw (triv : bool) (os : list (op V)) rs σ s i l c orc v : all_gentle os [] →
  spec_exec os [] = Some (rs, σ) → run_ops triv os (init []) = Ok rs s →
  σ !! i = Some (Some (Good l c)) → length l < c →
  match push_back triv i (AObj v) (set_oracle orc s) with
  | Ok _ s' => obs s' i (l ++ [v]) c ∧ leaked s' = 0
  | Throw s' => obs s' i l c ∧ leaked s' = 0
  | UB _ => False
  end.
Proof.
  intros Hg Hsp E0 Hi Hlt.
  destruct (ops_sim triv os (init []) [] rs σ) as (s1 & E & [ow H] & _ & Hk); [apply srs_init|done|by right|done|].
  rewrite E0 in E. injection E as <-.
  destruct (sr_obj _ _ _ _ _ H i _ Hi) as (a & Ha & HR). simpl in HR.
  destruct s as [h o r m k]. simpl in *. unfold set_oracle. cbn.
  assert (Hs := emplace_back_post triv i (AObj v) v a (ow i) l c h o orc m k Ha HR (or_intror (or_intror Hlt)) eq_refl).
  unfold push_back, bind. assert (Hil := lookup_lt_Some _ _ _ Ha).
  assert (Hgr : grown l c = c). { unfold grown. assert (En : length l =? c = false) by (apply Nat.eqb_neq; lia). by rewrite En. }
  destruct (emplace_back triv i (AObj v) (S_ h o orc m k)) as [p s'|s'|u]; simpl in Hs.
  - destruct Hs as (b' & Hres & _); [done|]. rewrite Hgr in Hres. unfold ret.
    split; [by eapply result_obs|]. destruct Hres as (_ & _ & _ & Hk' & _). congruence.
  - destruct Hs as (_ & own' & cap' & Hcap & _ & Hres); [done|].
    assert (cap' = c) as -> by (destruct Hcap; congruence).
    split; [by eapply result_obs|]. destruct Hres as (_ & _ & _ & Hk' & _). congruence.
  - by apply Hs.
Qed.

(** ** Inserting an element of the array itself (trivial T) *)
Lemma index_obs s i l c k : reach s → obs s i l c → k ≤ length l →
  ∃ a own, objs s !! i = Some (Some a) ∧ arr_rep true (heap s) a own l c ∧
           index i k s = Ok (pos_ptr own k) s.
Proof.
  intros Hr Ho Hk. destruct (obs_rep s i l c Hr Ho) as (a & own & Ha & HR). exists a, own.
  split_and!; [done..|]. destruct s as [h o r m kk]. by eapply index_eq.
Qed.

Lemma push_own_spare s i l c j v p : reach s → obs s i l c → l !! j = Some v → length l < c →
  index i j s = Ok p s →
  match push_back true i (ARef p) s with
  | Ok _ s' => obs s' i (l ++ [v]) c
  | Throw s' => oracle s ≠ [] ∧ obs s' i l c
  | UB _ => False
  end.
Proof.
  intros Hr Ho Hj Hc Hp.
  destruct (index_obs s i l c j Hr Ho) as (a & own & Ha & HR & Hp'); [apply lookup_lt_Some in Hj; lia|].
  rewrite Hp in Hp'. injection Hp' as ->. destruct s as [h o r m k]. simpl in *.
  destruct own as [b|]; [|simpl in HR; destruct HR as (_ & -> & _); by rewrite lookup_nil in Hj].
  assert (Hav : aval h (ARef (Ptr b j)) v).
  { destruct HR as (tl & _ & Hh & _). exists (map Live l ++ tl). split; [done|].
    apply lookup_app_l_Some. by rewrite list_lookup_fmap, Hj. }
  assert (Hs := emplace_back_post true i (ARef (Ptr b j)) v a (Some b) l c h o r m k Ha HR (or_introl eq_refl) Hav).
  assert (Hgr : grown l c = c). { unfold grown. assert (En : length l =? c = false) by (apply Nat.eqb_neq; lia). by rewrite En. }
  assert (Hil := lookup_lt_Some _ _ _ Ha). simpl pos_ptr. unfold push_back, bind.
  destruct (emplace_back true i (ARef (Ptr b j)) (S_ h o r m k)) as [q s'|s'|u]; simpl in Hs.
  - destruct Hs as (b' & Hres & _); [lia|]. rewrite Hgr in Hres. unfold ret. by eapply result_obs.
  - destruct Hs as (Hne & own' & cap' & Hcap & _ & Hres); [lia|]. split; [done|].
    assert (cap' = c) as -> by (destruct Hcap; congruence). by eapply result_obs.
  - apply Hs. lia.
Qed.

(** On a full array the block of [v[j]] is freed before it is read. *)
Lemma push_own_full s i l c j v p : reach s → obs s i l c → l !! j = Some v → length l = c →
  index i j s = Ok p s →
  match push_back true i (ARef p) s with
  | Ok _ _ => False
  | Throw s' => oracle s ≠ [] ∧ obs s' i l c
  | UB u => u = Dangling
  end.
Proof.
  intros Hr Ho Hj Hc Hp.
  destruct (index_obs s i l c j Hr Ho) as (a & own & Ha & HR & Hp'); [apply lookup_lt_Some in Hj; lia|].
  rewrite Hp in Hp'. injection Hp' as ->. destruct s as [h o r m k]. simpl in *.
  destruct own as [b|]; [|simpl in HR; destruct HR as (_ & -> & _); by rewrite lookup_nil in Hj].
  assert (Hil := lookup_lt_Some _ _ _ Ha).
  assert (Hb : b < length h) by (destruct HR as (tl & _ & Hh & _); by eapply lookup_lt_Some).
  unfold push_back, emplace_back. unfold bind at 1 2. erewrite get_arr_eq by done.
  rewrite (rep_full _ _ _ _ _ _ HR), Hc, Nat.eqb_refl. unfold bind at 1 2.
  erewrite size_eq_rep by eauto.
  assert (Hg := grow_storage_post true i (length l + Nat.max (length l) 1) a (Some b) l c h o r m k Ha HR).
  destruct (grow_storage true i _ _) as [[] s1|s1|u]; simpl in Hg.
  - destruct Hg as (r' & _ & ->); [lia|by left|]. unfold bind at 1.
    erewrite get_arr_eq by (by apply list_lookup_insert). cbn [a_end]. unfold bind at 1, construct.
    assert (Hnew : (<[b:=None]> h ++ [Some (map Live l ++ replicate (length l `max` 1) Raw)]) !! length h =
      Some (Some (map Live l ++ Raw :: replicate (length l `max` 1 - 1) (@Raw V)))).
    { rewrite lookup_app_r by (rewrite insert_length; lia). rewrite insert_length, Nat.sub_diag. simpl.
      do 3 f_equal. destruct (length l `max` 1) eqn:E; [lia|]. simpl. by rewrite Nat.sub_0_r. }
    replace (length l + length l `max` 1 - length l) with (length l `max` 1) by lia.
    unfold bind at 1. unfold get_cell. cbn [heap]. simpl free. rewrite Hnew.
    rewrite lookup_app_r by (by rewrite map_length). rewrite map_length, Nat.sub_diag. simpl.
    unfold bind at 1. cbn [eval_arg]. unfold bind at 1, load, bind at 1, get_cell. simpl.
    rewrite lookup_app_l by (by rewrite insert_length). by rewrite list_lookup_insert.
  - destruct Hg as (r' & _ & Hne & ->); [lia|by left|]. split; [done|].
    split; [exact (to_list_eq true _ _ _ _ _ _ _ _ _ _ Ha HR)|exact (capacity_eq_rep true _ _ _ _ _ _ _ _ _ _ Ha HR)].
  - exfalso. apply Hg; [lia|by left].
Qed.

(** Which element an insert in place copies: elements from [n] on have moved up. *)
Lemma insert_own s i l c j v n p q : reach s → obs s i l c → j < length l → n < length l →
  l !! (if decide (length l = c ∨ j ≤ n) then j else j - 1) = Some v →
  index i j s = Ok p s → index i n s = Ok q s →
  match insert true i q (ARef p) s with
  | Ok q' s' => index i n s' = Ok q' s' ∧
      obs s' i (take n l ++ v :: drop n l) (grown l c)
  | Throw s' => oracle s ≠ []
  | UB _ => False
  end.
Proof.
  intros Hr Ho Hjl Hn Hj Hp Hq.
  destruct (index_obs s i l c j Hr Ho) as (a & own & Ha & HR & Hp'); [lia|].
  rewrite Hp in Hp'. injection Hp' as ->. destruct s as [h o r m k]. simpl in *.
  erewrite index_eq in Hq; [|done|done|lia]. injection Hq as <-.
  destruct own as [b|]; [|simpl in HR; destruct HR as (_ & -> & _); simpl in Hjl; lia].
  assert (Hil := lookup_lt_Some _ _ _ Ha). simpl pos_ptr.
  destruct (lookup_lt_is_Some_2 l n Hn) as [w Hw].
  assert (El : l = take n l ++ w :: drop (S n) l) by (by rewrite take_drop_middle).
  assert (Etl : length (take n l) = n) by (apply take_length_le; lia).
  assert (Ed : w :: drop (S n) l = drop n l) by (symmetry; by apply drop_S).
  assert (Hcap : length l ≤ c).
  { destruct HR as (tl & _ & _ & -> & _). lia. }
  destruct (decide (length l = c)) as [Hfull|Hspare].
  - (* reallocating *)
    rewrite decide_True in Hj by auto.
    assert (Hav : aval h (ARef (Ptr b j)) v).
    { destruct HR as (tl & _ & Hh & _). exists (map Live l ++ tl). split; [done|].
      apply lookup_app_l_Some. by rewrite list_lookup_fmap, Hj. }
    assert (HR' : arr_rep true h a (Some b) (take n l ++ drop n l) (length (take n l ++ drop n l))).
    { by rewrite take_drop, Hfull. }
    assert (Hs := realloc_insert_post i (ARef (Ptr b j)) v a b _ _ h o r m k Ha HR' Hav).
    rewrite Etl in Hs. rewrite take_drop in Hs.
    unfold insert, bind at 1. erewrite get_arr_eq by done.
    destruct HR as (tl & -> & _). cbn [a_end a_stor ptr_eqb].
    rewrite !Nat.eqb_refl. assert (En : n =? length l = false) by (apply Nat.eqb_neq; lia). rewrite En. simpl.
    rewrite Hfull, Nat.eqb_refl.
    destruct (realloc_insert true i (Ptr b n) (ARef (Ptr b j)) (S_ h o r m k)) as [q s'|s'|u]; simpl in Hs.
    + destruct Hs as (-> & Hres). split.
      { eapply (result_index true i _ _ _ _ _ _ _ _ n s' Hil Hres). rewrite app_length, Etl. lia. }
      unfold grown. rewrite Hfull, Nat.eqb_refl. rewrite Hfull in Hres. by eapply result_obs.
    + by destruct Hs.
    + done.
  - rewrite El in HR.
    assert (Hs := insert_shift_post true i (ARef (Ptr b j)) v a b (take n l) w (drop (S n) l) c h o r m k Ha HR).
    rewrite Etl, <-El in Hs. 
    assert (Hgr : grown l c = c). { unfold grown. assert (En : length l =? c = false) by (apply Nat.eqb_neq; lia). by rewrite En. }
    rewrite Hgr. rewrite <-Ed.
    assert (Hav : ∀ h', hframe h h' (Some b) (Some b) →
      (true = true → ∃ tl, h' !! b = Some (Some (map Live (take n l ++ w :: w :: drop (S n) l) ++ tl))) →
      aval h' (ARef (Ptr b j)) v).
    { intros h' _ (tl & Hh'); [done|]. eexists. split; [done|].
      apply lookup_app_l_Some. rewrite list_lookup_fmap.
      assert (E : (take n l ++ w :: w :: drop (S n) l) !! j = Some v); [|by rewrite E].
      destruct (decide (length l = c ∨ j ≤ n)) as [[?|Hjn]|Hjn]; [lia| |].
      - destruct (decide (j = n)) as [->|].
        + rewrite lookup_app_r, Etl, Nat.sub_diag by lia. simpl. congruence.
        + rewrite lookup_app_l by lia. by rewrite lookup_take by lia.
      - assert (n < j) by lia. rewrite lookup_app_r, Etl by lia.
        destruct (j - n) as [|d] eqn:Ejn; [lia|]. simpl.
        rewrite Ed, lookup_drop. replace (n + d) with (j - 1) by lia. done. }
    destruct (insert true i (Ptr b n) (ARef (Ptr b j)) (S_ h o r m k)) as [q s'|s'|u]; simpl in Hs.
    + destruct Hs as (-> & Hres); [lia|done|]. split; [|by eapply result_obs].
      eapply (result_index true i _ _ _ _ _ _ _ _ n s' Hil Hres). rewrite app_length, Etl. lia.
    + destruct Hs as (? & _); [lia|done|done].
    + apply Hs; [lia|done].
Qed.

Lemma data_call s i l c : reach s → obs s i l c →
  ∃ p, data i s = Ok p s ∧ (c = 0 ∨ p ≠ Null) ∧
    ∀ k v, l !! k = Some v → ∃ q, padd p k s = Ok q s ∧ load q s = Ok v s.
Proof.
  intros Hr Ho. destruct (obs_rep s i l c Hr Ho) as (a & own & Ha & HR).
  destruct (ArrayTheory.reads_all s i l c Hr Ho) as (_ & _ & _ & _ & Hg & _).
  exists (a_begin a). split; [|split].
  - unfold data, begin_, bind. destruct s. by erewrite get_arr_eq by done.
  - destruct own as [b|]; simpl in HR; [destruct HR as (tl & -> & _); by right|].
    left. by destruct HR as (_ & _ & ->).
  - intros k v Hk. specialize (Hg k v Hk). unfold reads, run_op, at_, index, begin_ in Hg.
    unfold bind in Hg. destruct s as [h o r m kk]. erewrite get_arr_eq in Hg by done. cbn [ret] in Hg.
    unfold ret in Hg. destruct (padd (a_begin a) k _) as [q s1|s1|u] eqn:E; [|done|done].
    assert (s1 = S_ h o r m kk) as ->.
    { unfold padd in E. destruct (a_begin a); repeat case_match; congruence. }
    exists q. split; [done|]. destruct (load q _) as [w s2|s2|u]; congruence.
Qed.
End theory.
