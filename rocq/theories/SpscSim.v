(** Whole executions of xme::SPSCQueue: the invariant holds from a fresh queue
    on, and the destructor empties the queue. *)
From stdpp Require Import list.
From Coq Require Import ZArith Lia.
From Verif Require Import Base Client SpscModel SpscSpec SpscArith SpscInv SpscStep.

Section sim.
Context {V : Type} (nd : bool) (cap : nat) (Hcap : pow2 cap).
Notation zc := (Z.of_nat cap).
Notation idx := (idx cap).
Implicit Types (s : st V) (p c : prog (op V) (out V)) (o : op V).

Lemma inv_start p c : producer p → consumer 0 c → inv nd cap (start cap p c).
Proof.
  intros Hp Hc. pose proof (cap_pos cap Hcap) as Hpos. exists None, false, false. simpl. split_and!.
  - split; simpl; try done; try lia.
    + intros k x Hk. destruct k; [|done]. injection Hk as <-. simpl. split; [by rewrite idx_mod|]. eexists. split; [done|]. simpl. lia.
    + intros k x Hk. destruct k; [|done]. injection Hk as <-. simpl. split; [by rewrite idx_mod|]. eexists. split; [done|]. simpl. lia.
    + by rewrite replicate_length.
    + intros q x Hq. apply lookup_replicate in Hq as [-> _]. by left.
    + intros q x Hq. apply lookup_replicate in Hq as [-> _]. done.
    + intros q x k y w Hq. apply lookup_replicate in Hq as [-> _]. intros _ _. left. simpl. lia.
    + intros q x k y w Hq. apply lookup_replicate in Hq as [-> _]. intros _ _. left. simpl. lia.
  - split; simpl; try done.
    + intros l1 z l2 E. by destruct l1.
    + intros o z Hi. by apply elem_of_nil in Hi.
  - split; simpl.
    + exists 0%Z, 0. split_and!; try done. by eexists _, _.
    + intros o z Hi. by apply elem_of_nil in Hi.
Qed.
Lemma step_inv t n s : inv nd cap s → ∃ s', step nd zc t n s = Ok tt s' ∧ inv nd cap s'.
Proof. destruct t; [by apply stepP|by apply stepC]. Qed.
Lemma run_inv sched s : inv nd cap s → ∃ s', run nd zc sched s = Ok tt s' ∧ inv nd cap s'.
Proof.
  revert s. induction sched as [|[t n] sched IH]; intros s Hs; [by exists s|]. simpl. unfold bind.
  destruct (step_inv t n s Hs) as (s' & -> & Hs'). by apply IH.
Qed.

(** ** The destructor *)
Record sq (pv : view) (pl : list V) (rl : list (option (option V))) (d hm : bool) s : Prop := SQ {
  sq_q : qinv cap (hW s) (hR s) (slots s) pv (tview (thC s)) (made s) (gone s) pl rl True None d hm;
  sq_k : kP pv ≤ kP (tview (thC s));
  sq_w : vW (tview (thC s)) = length pl
}.
Lemma sq_set_view pv pl rl d hm s w : sq pv pl rl d hm s → kP (tview (thC s)) ≤ kP w → kC (tview (thC s)) ≤ kC w →
  vW w = length pl → vR w = length rl → sq pv pl rl d hm (set_view C w s).
Proof.
  intros [HQ ? ?] ? ? ? ?. split; simpl; try done; try lia. eapply qinv_cview; try done; lia.
Qed.
Lemma load_R pv pl rl d hm s : sq pv pl rl d hm s →
  ∃ s', do_load C 0 R Acq s = Ok (idx (length rl)) s' ∧ sq pv pl rl d hm s'.
Proof.
  intros H. pose proof H as [HQ Hk Hw]. pose proof (q_cv _ _ _ _ _ _ _ _ _ _ _ _ _ _ HQ) as [HcR HcW].
  pose proof (q_hR _ _ _ _ _ _ _ _ _ _ _ _ _ _ HQ) as HhR.
  unfold do_load. simpl. rewrite HcR, HhR. replace (Nat.min (length rl + 0) (S (length rl) - 1)) with (length rl) by lia.
  destruct (lookup_lt_is_Some_2 (hR s) (length rl)) as [m Hm]; [lia|]. rewrite Hm.
  destruct (q_mR _ _ _ _ _ _ _ _ _ _ _ _ _ _ HQ _ _ Hm) as (Hv & w & Ew & HwR & HwW). rewrite Ew, Hv.
  eexists. split; [reflexivity|]. apply sq_set_view; try done; simpl; lia.
Qed.
Lemma load_W pv pl rl d hm s : sq pv pl rl d hm s →
  ∃ s', do_load C 0 W Acq s = Ok (idx (length pl)) s' ∧ sq pv pl rl d hm s'.
Proof.
  intros H. pose proof H as [HQ Hk Hw]. pose proof (q_cv _ _ _ _ _ _ _ _ _ _ _ _ _ _ HQ) as [HcR HcW].
  pose proof (q_hW _ _ _ _ _ _ _ _ _ _ _ _ _ _ HQ) as HhW.
  unfold do_load. simpl. rewrite Hw, HhW. replace (Nat.min (length pl + 0) (S (length pl) - 1)) with (length pl) by lia.
  destruct (lookup_lt_is_Some_2 (hW s) (length pl)) as [m Hm]; [lia|]. rewrite Hm.
  destruct (q_mW _ _ _ _ _ _ _ _ _ _ _ _ _ _ HQ _ _ Hm) as (Hv & w & Ew & HwW & HwR). rewrite Ew, Hv.
  eexists. split; [reflexivity|]. apply sq_set_view; try done; simpl; lia.
Qed.

Lemma dtor_runs pv pl fuel : ∀ rl hm s, sq pv pl rl false hm s → length pl - length rl ≤ fuel →
  ∃ s' rl' hm', alone (dtor zc fuel) s = Ok true s' ∧ sq pv pl rl' false hm' s' ∧ length rl' = length pl.
Proof.
  assert (Hgo : ∀ A (m : M (st V) A) (f : A → M (st V) bool) s a s', m s = Ok a s' → bind m f s = f a s')
    by (intros * E; unfold bind; by rewrite E).
  induction fuel as [|fuel IH]; intros rl hm s H Hf.
  all: pose proof (sq_q _ _ _ _ _ _ H) as HQ.
  all: pose proof (q_pv _ _ _ _ _ _ _ _ _ _ _ _ _ _ HQ) as (HvW & HvR & Hfit).
  all: pose proof (q_mn _ _ _ _ _ _ _ _ _ _ _ _ _ _ HQ) as Hmn; simpl in Hmn.
  all: destruct (load_R _ _ _ _ _ _ H) as (s1 & E1 & H1); destruct (load_W _ _ _ _ _ _ H1) as (s2 & E2 & H2).
  all: cbn [dtor alone]; rewrite (Hgo _ _ _ _ _ _ E1); cbn [alone]; rewrite (Hgo _ _ _ _ _ _ E2); cbn [alone].
  - assert (length rl = length pl) as E by lia. rewrite E, Z.eqb_refl. by exists s2, rl, hm.
  - destruct (Z.eqb_spec (idx (length rl)) (idx (length pl))) as [E|Hne].
    { apply (idx_window cap Hcap) in E; [|lia]. by exists s2, rl, hm. }
    assert (Hlt : length rl < length pl).
    { destruct (decide (length rl < length pl)); [done|]. destruct Hne. f_equal. lia. }
    destruct (load_R _ _ _ _ _ _ H2) as (s3 & E3 & H3). cbn [alone]. rewrite (Hgo _ _ _ _ _ _ E3). cbn [alone].
    destruct H3 as [HQ3 Hk3 Hw3].
    destruct (qinv_head_gen cap Hcap _ _ _ _ _ _ _ _ _ _ _ _ HQ3 Hlt) as (x & v & Hx & Hv & Hc & HsP & _ & HQ4).
    { intros x Hx. destruct (q_acc _ _ _ _ _ _ _ _ _ _ _ _ _ _ HQ3 _ _ Hx). lia. }
    assert (Ei : Z.to_nat (idx (length rl)) = length rl mod cap) by (unfold SpscArith.idx; apply Nat2Z.id).
    assert (∃ s4, do_destroy C (idx (length rl)) s3 = Ok tt s4 ∧ sq pv pl rl true hm s4) as (s4 & E4 & H4).
    { unfold do_destroy, bind, access. rewrite Ei, Hx. simpl.
      destruct (Nat.leb_spec (sP x) (kP (tview (thC s3)))); [|lia].
      destruct (scell x) eqn:Ex; [by destruct Hc as [|[]]| |]; (eexists; split; [reflexivity|]); split; simpl; try done. }
    rewrite (Hgo _ _ _ _ _ _ E4). cbn [alone].
    destruct (load_R _ _ _ _ _ _ H4) as (s5 & E5 & H5). rewrite (Hgo _ _ _ _ _ _ E5). cbn [alone].
    rewrite (next_idx cap Hcap).
    assert (∃ s6, do_store C R Rel (idx (S (length rl))) s5 = Ok tt s6 ∧ sq pv pl (rl ++ [None]) false false s6) as (s6 & E6 & H6).
    { eexists. split; [reflexivity|]. destruct H5 as [HQ5 Hk5 Hw5].
      pose proof (q_hR _ _ _ _ _ _ _ _ _ _ _ _ _ _ HQ5) as HhR. simpl. rewrite HhR. split; simpl; try done.
      eapply qinv_remove; try done. }
    rewrite (Hgo _ _ _ _ _ _ E6). apply (IH _ _ _ H6). rewrite app_length. simpl. lia.
Qed.

(** After the calls in progress have returned and the threads were joined, the
    destructor destroys every remaining element and nothing else. *)
Lemma destroy_runs s : inv nd cap s → (∃ p, tctl (thP s) = Idle p) → (∃ c, tctl (thC s) = Idle c) →
  ∃ s', destroy_queue zc cap s = Ok true s' ∧ gone s' = length (pushed (tlog (thP s))) ∧ made s' = gone s' ∧
    length (slots s') = cap ∧ ∀ i x, slots s' !! i = Some x → scell x = Raw.
Proof.
  intros (inf & d & hm & HQ & [Hp _ _] & [(cr & a & _ & _ & _ & _ & Hc) _]) [p Ep] [c Ec].
  rewrite Ep in Hp. destruct Hp as [_ ->]. rewrite Ec in Hc. destruct Hc as (_ & -> & _).
  pose proof (q_pv _ _ _ _ _ _ _ _ _ _ _ _ _ _ HQ) as (HvW & HvR & Hfit).
  pose proof (q_cv _ _ _ _ _ _ _ _ _ _ _ _ _ _ HQ) as [HcR HcW].
  destruct (dtor_runs (tview (thP s)) (pushed (tlog (thP s))) cap (removed (tlog (thC s))) hm (join_threads s))
    as (s' & rl' & hm' & E & [HQ' _ _] & El).
  { split; simpl; try lia. apply (qinv_sp cap _ _ _ _ _ _ _ _ _ (spoiled (tlog (thC s)))); [done|]. eapply qinv_cview; [exact HQ|..]; simpl; lia. }
  { lia. }
  exists s'. split; [exact E|]. destruct HQ'. simpl in *. rewrite q_mk, q_gn, app_nil_r. split_and!; try lia.
  intros i x Hx. destruct (q_raw i x Hx) as [|(j & Hj & _)]; [done|]. rewrite app_nil_r in Hj. lia.
Qed.

(** ** What the step that completes a call has done *)
Lemma log_neq {A} (l : list A) x : l ≠ l ++ [x].
Proof. intros E. apply (f_equal length) in E. rewrite app_length in E. simpl in E. lia. Qed.
Lemma snoc_inj {A} (l : list A) x y : l ++ [x] = l ++ [y] → x = y.
Proof. intros E. by apply app_inj_tail in E as [_ ->]. Qed.

Notation nP s := (length (pushed (tlog (thP s)))).
Notation nC s := (length (removed (tlog (thC s)))).
Definition same_store s s' : Prop :=
  hW s' = hW s ∧ hR s' = hR s ∧ made s' = made s ∧ gone s' = gone s ∧
  ∀ i, scell <$> slots s' !! i = scell <$> slots s !! i.
Ltac inj := match goal with H : Ok tt ?x = Ok tt ?s' |- _ => assert (s' = x) as -> by (by injection H); clear H end.
Definition resP s s' o (r : outcome (out V)) : Prop :=
  match o, r with
  | OEmplace _, Ret (RBool true) => nP s + 2 ≤ vR (tview (thP s')) + cap ∧ vR (tview (thP s')) ≤ nC s
  | OEmplace _, Ret (RBool false) => nP s + 1 = vR (tview (thP s')) + cap ∧
      vR (tview (thP s)) ≤ vR (tview (thP s')) ≤ nC s ∧ same_store s s'
  | OEmplace _, Exn => same_store s s'
  | OReadAvailable, Ret (RCount z) => same_store s s'
  | OWriteAvailable, Ret (RCount z) => same_store s s' ∧ (z <= zc - 1 - Z.of_nat (nP s - nC s))%Z
  | _, _ => False
  end.
Lemma resultP s n s' o r : inv nd cap s → step nd zc P n s = Ok tt s' →
  tlog (thP s') = tlog (thP s) ++ [(o, r)] → resP s s' o r.
Proof.
  intros (inf & d & hm & HQ & [Hctl Hroom Hcnt] & HC) Hstep Hlog.
  pose proof (q_pv _ _ _ _ _ _ _ _ _ _ _ _ _ _ HQ) as (HvW & HvR & Hfit).
  pose proof (q_mn _ _ _ _ _ _ _ _ _ _ _ _ _ _ HQ) as Hmn.
  destruct (tctl (thP s)) as [[|o' k]|o' c k] eqn:Ectl.
  1,2: unfold step, bind, gets in Hstep; simpl in Hstep; rewrite Ectl in Hstep; injection Hstep as <-; by apply log_neq in Hlog.
  destruct Hctl as [Hp Hcode]. set (w := tview (thP s)) in *. set (lg := tlog (thP s)) in *.
  destruct o' as [v| |mv th| |]; try done.
  - destruct Hcode as [[-> ->]|[[-> ->]|[(-> & -> & a & Ha & Haw & Hav)|(-> & -> & Hr3)]]].
    + destruct (load_W_P cap s n _ _ _ HQ) as (Ets & m & Hm & Hv & Hw).
      rewrite (step_load nd cap P n s _ _ _ _ _ m _ Ectl Ets Hm) in Hstep. inj. by apply log_neq in Hlog.
    + destruct (load_R_P cap s n _ _ _ _ HQ eq_refl) as (Hts & m & Hm & Hv & Hw & Hacq). destruct (Hw Acq) as (Ew1 & Ew2 & Ew3).
      set (ts := Nat.min _ _) in *. fold lg w in Hts, Hw, Hacq, Ew1, Ew2, Ew3.
      rewrite (step_load nd cap P n s _ _ _ _ _ m ts Ectl eq_refl Hm) in Hstep. inj.
      change (thr P s) with (thP s) in *. fold w lg. set (w2 := lview P R Acq ts m w) in *. clearbody w2.
      rewrite Hv, (next_idx cap Hcap) in Hlog |- *. fold lg w in Hlog |- *.
      destruct (Z.eqb_spec (idx (S (length (pushed lg)))) (idx ts)) as [E|Hne]; [|by apply log_neq in Hlog].
      apply snoc_inj in Hlog as [= <- <-]. simpl. rewrite Ew2. split; [|split; [exact Hts|done]]. fold lg.
      destruct (decide (S (length (pushed lg)) < ts + cap)) as [Hlt|]; [|lia].
      symmetry in E. apply (idx_window cap Hcap) in E; lia.
    + destruct Ha as (y & yw & Hy1 & Hy2 & Hy3).
      destruct (qinv_construct cap Hcap _ _ _ _ _ _ _ _ _ _ _ _ v a y yw HQ Hy1 Hy2 Hy3 Haw Hav)
        as (x & Hx & Hraw & HsC & HQ1 & HQ2). fold lg in Hx, HQ1, HQ2.
      assert (Ei : Z.to_nat (idx (length (pushed lg))) = length (pushed lg) mod cap) by (unfold SpscArith.idx; apply Nat2Z.id).
      rewrite (step_construct nd cap n s _ _ _ _ _ x Ectl) in Hstep by (rewrite ?Ei; done). inj.
      destruct (Nat.eqb n 0); simpl in Hlog; [by apply log_neq in Hlog|].
      apply snoc_inj in Hlog as [= <- <-]. simpl. split_and!; try done. intros i. simpl. rewrite Ei.
      destruct (decide (i = length (pushed lg) mod cap)) as [->|Hne]; [|by rewrite list_lookup_insert_ne].
      rewrite list_lookup_insert by by apply lookup_lt_Some in Hx. by rewrite Hx; simpl; rewrite Hraw.
    + rewrite (step_store nd cap P n s _ _ _ _ _ _ Ectl) in Hstep. inj. simpl in Hlog.
      apply snoc_inj in Hlog as [= <- <-]. simpl. fold lg w. lia.
  - destruct Hcode as [[-> ->]|[-> ->]].
    + destruct (load_W_P cap s n _ _ _ HQ) as (Ets & m & Hm & Hv & Hw).
      rewrite (step_load nd cap P n s _ _ _ _ _ m _ Ectl Ets Hm) in Hstep. inj. by apply log_neq in Hlog.
    + destruct (load_R_P cap s n _ _ _ _ HQ eq_refl) as (Hts & m & Hm & Hv & Hw & Hacq).
      rewrite (step_load nd cap P n s _ _ _ _ _ m _ Ectl eq_refl Hm) in Hstep. inj.
      simpl in Hlog. apply snoc_inj in Hlog as [= <- <-]. done.
  - destruct Hcode as [[-> ->]|[-> ->]].
    + destruct (load_W_P cap s n _ _ _ HQ) as (Ets & m & Hm & Hv & Hw).
      rewrite (step_load nd cap P n s _ _ _ _ _ m _ Ectl Ets Hm) in Hstep. inj. by apply log_neq in Hlog.
    + destruct (load_R_P cap s n _ _ _ _ HQ eq_refl) as (Hts & m & Hm & Hv & Hw & Hacq).
      set (ts := Nat.min _ _) in *. fold w in Hts.
      rewrite (step_load nd cap P n s _ _ _ _ _ m ts Ectl eq_refl Hm) in Hstep. inj.
      change (thr P s) with (thP s) in *. fold w lg. set (w2 := lview P R Acq ts m w) in *. clearbody w2.
      rewrite Hv in Hlog |- *. fold lg w in Hlog |- *.
      pose proof (write_avail_eq cap Hcap ts (length (pushed lg)) ltac:(lia)) as Ewa.
      cbv beta zeta in Hlog, Ewa |- *. rewrite Ewa in Hlog |- *.
      simpl in Hlog. apply snoc_inj in Hlog as [= <- <-]. simpl. split; [done|]. fold lg. lia.
Qed.

Definition resC s s' o (r : outcome (out V)) : Prop :=
  match o, r with
  | OPop, Ret RUnit | OConsume _ false, Ret (RVal _) => nC s < nP s
  | OConsume mv true, Exn => nC s < nP s ∧ hW s' = hW s ∧ hR s' = hR s ∧ made s' = made s ∧ gone s' = gone s ∧
      ∃ x, slots s !! (nC s mod cap) = Some x ∧ scell x ≠ Raw ∧
        ∀ i, scell <$> slots s' !! i =
          if decide (i = nC s mod cap) then Some (if mv then Moved else scell x) else scell <$> slots s !! i
  | OReadAvailable, Ret (RCount z) => same_store s s' ∧ (z <= Z.of_nat (nP s - nC s))%Z
  | OWriteAvailable, Ret (RCount z) => same_store s s'
  | _, _ => False
  end.
Lemma resultC s n s' o r : inv nd cap s → step nd zc C n s = Ok tt s' →
  tlog (thC s') = tlog (thC s) ++ [(o, r)] → resC s s' o r.
Proof.
  intros (inf & d & hm & HQ & HP & [(cr & a & Hcr & Hacq0 & Hle & Hav & Hctl) Hcnt]) Hstep Hlog.
  pose proof (q_pv _ _ _ _ _ _ _ _ _ _ _ _ _ _ HQ) as (HvW & HvR & Hfit).
  pose proof (q_cv _ _ _ _ _ _ _ _ _ _ _ _ _ _ HQ) as (HcR & HcW).
  pose proof (q_mn _ _ _ _ _ _ _ _ _ _ _ _ _ _ HQ) as Hmn.
  destruct (tctl (thC s)) as [[|o' k]|o' c k] eqn:Ectl.
  1,2: unfold step, bind, gets in Hstep; simpl in Hstep; rewrite Ectl in Hstep; injection Hstep as <-; by apply log_neq in Hlog.
  destruct Hctl as [Hp Hcode]. set (w := tview (thC s)) in *. set (lg := tlog (thC s)) in *.
  assert (HloadR : ∀ mo kk, c = Load R mo kk →
     ∃ w', step nd zc C n s = Ok tt (set_thr C (fin w' o' (kk (idx (length (removed lg)))) k lg) s)).
  { intros mo kk ->. destruct (load_R_C cap s n _ _ _ HQ) as (Ets & m & Hm & Hv & Hw). fold lg w in Ets, Hm, Hv, Hw.
    rewrite (step_load nd cap C n s _ _ _ _ _ m _ Ectl Ets Hm). rewrite Hv. by eexists. }
  assert (Hpre : ∀ rest, (∀ r, rest ≠ Leaf r) → d = false → length (removed lg) < vW w →
     (c = Load W Acq (λ wi, Assert (negb (wi =? idx (nC s))%Z) rest) ∨ c = Assert true rest) → False).
  { intros rest Hrest -> Hlt Hc. destruct (pre_step nd cap Hcap s n _ _ _ _ _ rest HQ Ectl Hrest Hlt Hc)
      as (w' & c' & Hs & _). rewrite Hs in Hstep. inj. by apply log_neq in Hlog. }
  assert (Hhead : d = false → (0 < cr)%Z → ∃ x v, slots s !! (length (removed lg) mod cap) = Some x ∧
      pushed (tlog (thP s)) !! length (removed lg) = Some v ∧
      (scell x = Live v ∨ hm = true ∧ scell x = Moved) ∧ sP x ≤ kP w).
  { intros -> Hcr0. destruct Hacq0 as (y & yw & Hy1 & Hy2 & Hy3).
    destruct (qinv_head cap Hcap _ _ _ _ _ _ _ _ _ _ _ _ a y yw HQ Hy1 Hy2 Hy3 ltac:(lia)) as (x & v & ? & ? & ? & ? & _). by exists x, v. }
  assert (Ei : Z.to_nat (idx (length (removed lg))) = length (removed lg) mod cap) by (unfold SpscArith.idx; apply Nat2Z.id).
  destruct o' as [v| |mv th| |]; try done.
  - (* pop *)
    destruct Hp as [Hcr0 Hp].
    destruct Hcode as [(-> & Hd & Hm)|[(Hd & Hm & Hc)|(Hd & Hc)]].
    + destruct (HloadR _ _ eq_refl) as (w' & Hs). rewrite Hs, fin_assert in Hstep by done. inj. by apply log_neq in Hlog.
    + assert (Hc' : (c = Load W Acq (λ wi, Assert (negb (wi =? idx (nC s))%Z) (pop2 cap (length (removed lg)))) ∨ c = Assert true (pop2 cap (length (removed lg)))) ∨ c = pop2 cap (length (removed lg))).
      { destruct Hc as [->|[->| ->]]; [|by left; right|by right].
        destruct (assert_cases nd _ (idx (length (removed lg))) (pop2 (V:=V) cap (length (removed lg)))) as [E|E]; rewrite E; [by right|by left; left]. }
      clear Hc. destruct Hc' as [Hc| ->].
      * destruct (Hpre (pop2 cap (length (removed lg)))); try done. lia.
      * destruct (Hhead Hd Hcr0) as (x & v & Hx & Hv & Hcell & HsP).
        rewrite (step_destroy nd cap n s _ _ _ _ x Ectl) in Hstep; [|rewrite Ei; done|by destruct Hcell as [->|[_ ->]]|done].
        inj. by apply log_neq in Hlog.
    + subst c. rewrite (step_store nd cap C n s _ _ _ _ _ _ Ectl) in Hstep. inj.
      simpl in Hlog. apply snoc_inj in Hlog as [= <- <-]. simpl. fold lg. lia.
  - (* consume *)
    destruct Hcode as [(-> & Hd & Hm)|[(Hd & Hm & Hc)|(-> & y & Hy & Hc)]].
    + destruct (HloadR _ _ eq_refl) as (w' & Hs). rewrite Hs, fin_assert in Hstep by done. inj. by apply log_neq in Hlog.
    + assert (Hcr0 : (0 < cr)%Z) by (destruct th; destruct Hp; done).
      assert (Hc' : (c = Load W Acq (λ wi, Assert (negb (wi =? idx (nC s))%Z) (co2 cap mv th (length (removed lg)))) ∨ c = Assert true (co2 cap mv th (length (removed lg)))) ∨ c = co2 cap mv th (length (removed lg))).
      { destruct Hc as [->|[->| ->]]; [|by left; right|by right].
        destruct (assert_cases nd _ (idx (length (removed lg))) (co2 (V:=V) cap mv th (length (removed lg)))) as [E|E]; rewrite E; [by right|by left; left]. }
      clear Hc. destruct Hc' as [Hc| ->].
      * destruct (Hpre (co2 cap mv th (length (removed lg)))); try done. lia.
      * destruct (Hhead Hd Hcr0) as (x & v & Hx & Hv & Hcell & HsP).
        rewrite (step_use nd cap n s _ _ _ _ _ x Ectl) in Hstep; [|rewrite Ei; done|by destruct Hcell as [->|[_ ->]]|done].
        inj. destruct th; simpl in Hlog; [|by apply log_neq in Hlog].
        apply snoc_inj in Hlog as [= <- <-]. simpl. fold lg. split_and!; try done; [lia|].
        exists x. split_and!; [done|by destruct Hcell as [->|[_ ->]]|]. intros i. rewrite Ei.
        destruct (decide (i = length (removed lg) mod cap)) as [->|Hne]; [|by rewrite list_lookup_insert_ne].
        rewrite list_lookup_insert by by apply lookup_lt_Some in Hx. done.
    + destruct Hp as [Hcr0 Hp]. destruct Hc as [[Hd ->]|[Hd ->]].
      * destruct (Hhead Hd Hcr0) as (x & v & Hx & Hv & Hcell & HsP).
        rewrite (step_destroy nd cap n s _ _ _ _ x Ectl) in Hstep; [|rewrite Ei; done|by destruct Hcell as [->|[_ ->]]|done].
        inj. by apply log_neq in Hlog.
      * rewrite (step_store nd cap C n s _ _ _ _ _ _ Ectl) in Hstep. inj.
        simpl in Hlog. apply snoc_inj in Hlog as [= <- <-]. simpl. fold lg. lia.
  - (* read_available *)
    destruct Hcode as [(-> & Hd & Hm)|(Hd & Hm & i & Hacq & Hi & ->)].
    + destruct (load_W_C cap s n _ _ _ _ HQ eq_refl) as (Hts & m & Hm' & Hv & _).
      rewrite (step_load nd cap C n s _ _ _ _ _ m _ Ectl eq_refl Hm') in Hstep. inj. by apply log_neq in Hlog.
    + destruct (HloadR _ _ eq_refl) as (w' & Hs). rewrite Hs in Hstep. inj.
      cbv beta zeta in Hlog |- *. unfold kN in Hlog |- *. rewrite (read_avail_eq cap Hcap) in Hlog |- * by lia.
      simpl in Hlog. apply snoc_inj in Hlog as [= <- <-]. simpl. split; [done|]. fold lg. lia.
  - (* write_available *)
    destruct Hcode as [(-> & Hd & Hm)|(Hd & Hm & i & Hi & ->)].
    + destruct (load_W_C cap s n _ _ _ _ HQ eq_refl) as (Hts & m & Hm' & Hv & _).
      rewrite (step_load nd cap C n s _ _ _ _ _ m _ Ectl eq_refl Hm') in Hstep. inj. by apply log_neq in Hlog.
    + destruct (HloadR _ _ eq_refl) as (w' & Hs). rewrite Hs in Hstep. inj.
      simpl in Hlog. apply snoc_inj in Hlog as [= <- <-]. done.
Qed.
End sim.
