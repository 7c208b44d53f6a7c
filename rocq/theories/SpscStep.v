(** Every step of xme::SPSCQueue executions preserves the invariant. *)
From stdpp Require Import list.
From Coq Require Import ZArith Lia.
From Verif Require Import Base Client SpscModel SpscSpec SpscArith SpscInv.

Section steps.
Context {V : Type} (nd : bool) (cap : nat) (Hcap : pow2 cap).
Notation log := (list (op V * outcome (out V))).
Notation idx := (idx cap).
Notation zc := (Z.of_nat cap).
Notation nxt := (next_index zc).
Notation code := (code V (outcome (out V))).
Implicit Types (s : st V) (w : view) (c : code) (o : op V).

(** ** Reductions of the machine *)
Definition fin w o c (k : outcome (out V) → prog (op V) (out V)) (lg : log) : thread V :=
  match c with
  | Leaf r => Thread w (Idle (k r)) (lg ++ [(o, r)])
  | _ => Thread w (Busy o c k) lg
  end.
Definition lview (t : tid) (x : var) (mo : order) (ts : nat) (m : msg) w : view :=
  match mo, mview m with Acq, Some v => join (see x ts (tick t w)) v | _, _ => see x ts (tick t w) end.

Lemma step_load t n s o x mo kk k m ts :
  tctl (thr t s) = Busy o (Load x mo kk) k →
  ts = Nat.min (seen x (tview (thr t s)) + n) (length (hist x s) - 1) → hist x s !! ts = Some m →
  step nd zc t n s =
    Ok tt (set_thr t (fin (lview t x mo ts m (tview (thr t s))) o (kk (mval m)) k (tlog (thr t s))) s).
Proof.
  intros Hc -> Hm. unfold step, bind, gets. rewrite Hc. simpl. unfold bind, do_load.
  assert (seen x (tick t (tview (thr t s))) = seen x (tview (thr t s))) as -> by (by destruct x, t).
  rewrite Hm. unfold tview_of, gets, modify. simpl. unfold lview. f_equal.
  destruct t, s; simpl; destruct (kk (mval m)); done.
Qed.
Lemma step_store t n s o x mo v kk k :
  tctl (thr t s) = Busy o (Store x mo v kk) k →
  step nd zc t n s =
    Ok tt (let w := see x (length (hist x s)) (tick t (tview (thr t s))) in
           set_hist x (hist x s ++ [Msg v (match mo with Rel => Some w | _ => None end)])
             (set_thr t (fin w o kk k (tlog (thr t s))) s)).
Proof.
  intros Hc. unfold step, bind, gets. rewrite Hc. simpl. unfold bind, do_store, tview_of, gets, modify. simpl. f_equal.
  all: destruct t, x, s; simpl; destruct kk; done.
Qed.
Lemma step_assert t n s o b kk k :
  tctl (thr t s) = Busy o (Assert b kk) k → b = true →
  step nd zc t n s = Ok tt (set_thr t (fin (tview (thr t s)) o kk k (tlog (thr t s))) s).
Proof.
  intros Hc ->. unfold step, bind, gets. rewrite Hc. simpl. unfold tview_of, gets, modify, ret. simpl. f_equal.
  all: destruct t, s; simpl; destruct kk; done.
Qed.
Lemma step_construct n s o i v kk k sl :
  tctl (thP s) = Busy o (Construct i v kk) k →
  slots s !! Z.to_nat i = Some sl → scell sl = Raw → sC sl ≤ kC (tview (thP s)) →
  step nd zc P n s =
    Ok tt (let w := tick P (tview (thP s)) in
           let thr := negb (Nat.eqb n 0) in
           set_counts (if thr then made s else S (made s)) (gone s)
             (set_slots (<[Z.to_nat i := Slot (if thr then Raw else Live v) (kP w) (sC sl)]> (slots s))
               (set_thr P (fin w o (kk thr) k (tlog (thP s))) s))).
Proof.
  intros Hc Hs Hr Hk. unfold step, bind, gets. simpl. rewrite Hc. simpl. unfold bind, do_construct, bind, access. simpl.
  rewrite Hs, Hr. destruct (Nat.leb_spec (sC sl) (kC (tview (thP s)))); [|lia].
  destruct (Nat.eqb n 0); simpl; unfold tview_of, gets, modify, ret, bind; simpl; f_equal; destruct s; simpl.
  all: try (destruct (kk false); done); destruct (kk true); done.
Qed.
Lemma step_use n s o i mv kk k sl :
  tctl (thC s) = Busy o (Use i mv kk) k →
  slots s !! Z.to_nat i = Some sl → scell sl ≠ Raw → sP sl ≤ kP (tview (thC s)) →
  step nd zc C n s =
    Ok tt (let w := tick C (tview (thC s)) in
           set_slots (<[Z.to_nat i := Slot (if mv : bool then Moved else scell sl) (sP sl) (kC w)]> (slots s))
             (set_thr C (fin w o (kk (match scell sl with Live v => Some v | _ => None end)) k (tlog (thC s))) s)).
Proof.
  intros Hc Hs Hr Hk. unfold step, bind, gets. simpl. rewrite Hc. simpl. unfold bind, do_use, bind, access. simpl.
  rewrite Hs. destruct (Nat.leb_spec (sP sl) (kP (tview (thC s)))); [|lia].
  destruct (scell sl) eqn:E; [done| |]; simpl; unfold tview_of, gets, modify, ret, bind; simpl; f_equal; destruct s; simpl.
  all: try (destruct (kk (Some v)); done); destruct (kk None); done.
Qed.
Lemma step_destroy n s o i kk k sl :
  tctl (thC s) = Busy o (Destroy i kk) k →
  slots s !! Z.to_nat i = Some sl → scell sl ≠ Raw → sP sl ≤ kP (tview (thC s)) →
  step nd zc C n s =
    Ok tt (let w := tick C (tview (thC s)) in
           set_counts (made s) (S (gone s))
             (set_slots (<[Z.to_nat i := Slot Raw (sP sl) (kC w)]> (slots s))
               (set_thr C (fin w o kk k (tlog (thC s))) s))).
Proof.
  intros Hc Hs Hr Hk. unfold step, bind, gets. simpl. rewrite Hc. simpl. unfold bind, do_destroy, bind, access. simpl.
  rewrite Hs. destruct (Nat.leb_spec (sP sl) (kP (tview (thC s)))); [|lia].
  destruct (scell sl) eqn:E; [done| |]; simpl; unfold tview_of, gets, modify, ret, bind; simpl; f_equal; destruct s; simpl.
  all: destruct kk; done.
Qed.

(** ** Thread-local parts of the invariant *)
Notation kE := (λ r : option bool, Leaf (match r with Some b => Ret (RBool b) | None => Exn end) : code).
Definition em3 (n : nat) : code := Store W Rel (nxt (idx n)) (kE (Some true)).
Definition em2 (v : V) (n : nat) : code :=
  Construct (idx n) v (λ threw, if threw : bool then kE None else em3 n).
Definition em1 (v : V) (n : nat) : code :=
  Load R Acq (λ r, if (nxt (idx n) =? r)%Z then kE (Some false) else em2 v n).
Definition kN : Z → code := λ z, Leaf (Ret (RCount z)).
Definition ra1 (i : nat) : code :=
  Load R Rlx (λ r, kN (if (r <=? idx i)%Z then wrap (idx i - r) else wrap (wrap (idx i + zc) - r))).
Definition wa1 (i : nat) : code :=
  Load R Acq (λ r, let diff := wrap (wrap (r - idx i) - 1) in
                   kN (if (r <=? diff)%Z then wrap (diff + zc) else diff)).

Definition acq (h : list msg) (t : tid) (a : nat) w : Prop :=
  ∃ y yw, h !! a = Some y ∧ mview y = Some yw ∧ known t yw ≤ known t w.
Definition counts (lg : log) : Prop := ∀ o z, (o, Ret (RCount z)) ∈ lg → (0 <= z < zc)%Z.

Definition pcode o c (n : nat) w (hr : list msg) (inf : option V) : Prop :=
  (c = run_op nd zc o ∧ inf = None) ∨
  match o with
  | OEmplace v =>
      (c = em1 v n ∧ inf = None) ∨
      (c = em2 v n ∧ inf = None ∧ ∃ a, acq hr C a w ∧ n + 2 ≤ a + cap ∧ a ≤ vR w) ∨
      (c = em3 n ∧ inf = Some v ∧ n + 2 ≤ vR w + cap)
  | OReadAvailable => c = ra1 n ∧ inf = None
  | OWriteAvailable => c = wa1 n ∧ inf = None
  | _ => False
  end.
Record pst (th : thread V) (hr : list msg) (inf : option V) : Prop := PSt {
  p_ctl : match tctl th with
          | Idle p => producer p ∧ inf = None
          | Busy o c k => producer (Do o k) ∧ pcode o c (length (pushed (tlog th))) (tview th) hr inf
          end;
  p_room : ∀ l1 z l2, tlog th = l1 ++ (OWriteAvailable, Ret (RCount z)) :: l2 →
           (Z.of_nat (length (pushed l1)) + z + 1 <= Z.of_nat (vR (tview th)) + zc)%Z;
  p_counts : counts (tlog th)
}.

Notation kC_ := (λ r : option (option V), Leaf (match r with Some v => Ret (RVal v) | None => Exn end) : code).
Definition pop3 (m : nat) : code := Store R Rel (nxt (idx m)) (Leaf (Ret RUnit)).
Definition pop2 (m : nat) : code := Destroy (idx m) (pop3 m).
Definition co4 (m : nat) (x : option V) : code := Store R Rel (nxt (idx m)) (kC_ (Some x)).
Definition co3 (m : nat) (x : option V) : code := Destroy (idx m) (co4 m x).
Definition co2 (mv thr : bool) (m : nat) : code :=
  Use (idx m) mv (λ x, if thr then kC_ None else co3 m x).

Definition seenx (pl : list V) (m : nat) (sp : Prop) (x : option V) : Prop := (∃ v, x = Some v ∧ pl !! m = Some v) ∨ x = None ∧ sp.
Definition ccode o c (m : nat) w (hw : list msg) (pl : list V) (sp : Prop) (d hm : bool) : Prop :=
  (c = run_op nd zc o ∧ d = false ∧ (hm = true → sp)) ∨
  match o with
  | OPop =>
      (d = false ∧ (hm = true → sp) ∧
       (c = assert_not_empty nd (idx m) (pop2 m) ∨ c = Assert true (pop2 m) ∨ c = pop2 m)) ∨
      (d = true ∧ c = pop3 m)
  | OConsume mv thr =>
      (d = false ∧ (hm = true → sp) ∧
       (c = assert_not_empty nd (idx m) (co2 mv thr m) ∨ c = Assert true (co2 mv thr m) ∨ c = co2 mv thr m)) ∨
      (thr = false ∧ ∃ x, seenx pl m sp x ∧ (d = false ∧ c = co3 m x ∨ d = true ∧ c = co4 m x))
  | OReadAvailable =>
      d = false ∧ (hm = true → sp) ∧ ∃ i, acq hw P i w ∧ m ≤ i ≤ vW w ∧ c = ra1 i
  | OWriteAvailable =>
      d = false ∧ (hm = true → sp) ∧ ∃ i, m ≤ i ≤ vW w ∧ c = wa1 i
  | _ => False
  end.
Record cst (th : thread V) (hw : list msg) (pl : list V) (d hm : bool) : Prop := CSt {
  c_ctl : ∃ cr a, (0 <= cr)%Z ∧ acq hw P a (tview th) ∧ (Z.of_nat (length (removed (tlog th))) + cr <= Z.of_nat a)%Z ∧
    a ≤ vW (tview th) ∧
    match tctl th with
    | Idle p => consumer cr p ∧ d = false ∧ (hm = true → spoiled (tlog th))
    | Busy o c k => consumer cr (Do o k) ∧
        ccode o c (length (removed (tlog th))) (tview th) hw pl (spoiled (tlog th)) d hm
    end;
  c_counts : counts (tlog th)
}.

Definition inv s : Prop := ∃ inf d hm,
  qinv cap (hW s) (hR s) (slots s) (tview (thP s)) (tview (thC s)) (made s) (gone s)
    (pushed (tlog (thP s))) (removed (tlog (thC s))) (spoiled (tlog (thC s))) inf d hm ∧
  pst (thP s) (hR s) inf ∧ cst (thC s) (hW s) (pushed (tlog (thP s))) d hm.

(** Frames *)
Lemma acq_app h x t a w w' : acq h t a w → known t w ≤ known t w' → acq (h ++ [x]) t a w'.
Proof.
  intros (y & yw & Ha & Hy & Hk) Hw. exists y, yw. split_and!; [by apply lookup_app_l_Some|done|lia].
Qed.
Lemma acq_mono h t a w w' : acq h t a w → known t w ≤ known t w' → acq h t a w'.
Proof. intros (y & yw & Ha & Hy & Hk) Hw. exists y, yw. split_and!; [done|done|lia]. Qed.
Lemma pst_frame th hr x inf : pst th hr inf → pst th (hr ++ [x]) inf.
Proof.
  intros []. split; [|done..]. destruct (tctl th) as [|o c k]; [done|].
  destruct p_ctl0 as [? [[]|Hc]]; (split; [done|]); [by left|right].
  destruct o; try done. destruct Hc as [?|[(? & ? & a & ? & ?)|?]]; [by left| |by right; right].
  right; left. split_and!; [done|done|]. exists a. split; [|done]. by eapply acq_app.
Qed.
Lemma cst_frame th hw hw' pl pl' d hm : (hw' = hw ∨ ∃ x, hw' = hw ++ [x]) → pl `prefix_of` pl' →
  cst th hw pl d hm → cst th hw' pl' d hm.
Proof.
  intros Hh [pl2 ->] [(cr & a & Hcr & Ha & Hle & Hav & Hc) Hn].
  assert (Hacq : ∀ i w, acq hw P i w → acq hw' P i w).
  { intros i w Hi. destruct Hh as [->|[x ->]]; [done|]. by eapply acq_app. }
  split; [|done]. exists cr, a. split_and!; [done|by apply Hacq|done|done|].
  destruct (tctl th) as [|o c k]; [done|]. destruct Hc as [? [?|Hc]]; (split; [done|]); [by left|right].
  destruct o; try done.
  - destruct Hc as [?|(Ht & x & Hx & Hd)]; [by left|right]. split; [done|]. exists x. split; [|done].
    destruct Hx as [(v & -> & Hv)|?]; [left|by right]. exists v. split; [done|]. by apply lookup_app_l_Some.
  - destruct Hc as (? & ? & i & ? & ?). split_and!; [done|done|]. exists i. split; [by apply Hacq|done].
Qed.

(** ** Loads *)
Lemma load_W_P s n inf d hm : 
  qinv cap (hW s) (hR s) (slots s) (tview (thP s)) (tview (thC s)) (made s) (gone s)
    (pushed (tlog (thP s))) (removed (tlog (thC s))) (spoiled (tlog (thC s))) inf d hm →
  let k := length (pushed (tlog (thP s))) in
  k = Nat.min (seen W (tview (thP s)) + n) (length (hW s) - 1) ∧
  ∃ m, hW s !! k = Some m ∧ mval m = idx k ∧ ∀ mo, let w' := lview P W mo k m (tview (thP s)) in
    vW w' = k ∧ vR (tview (thP s)) ≤ vR w' ≤ length (removed (tlog (thC s))) ∧ kP (tview (thP s)) ≤ kP w'.
Proof.
  intros [] k. destruct q_pv as (Ep & Hp & _). simpl. rewrite q_hW, Ep. split; [lia|].
  destruct (lookup_lt_is_Some_2 (hW s) k) as [m Hm]; [rewrite q_hW; lia|]. exists m. split; [done|].
  destruct (q_mW k m Hm) as (Hv & w & Hw & Hwk & Hwr). split; [done|]. intros mo. unfold lview. rewrite Hw.
  destruct mo; simpl; subst k; lia.
Qed.
Lemma load_R_P s n inf d hm ts : 
  qinv cap (hW s) (hR s) (slots s) (tview (thP s)) (tview (thC s)) (made s) (gone s)
    (pushed (tlog (thP s))) (removed (tlog (thC s))) (spoiled (tlog (thC s))) inf d hm →
  ts = Nat.min (seen R (tview (thP s)) + n) (length (hR s) - 1) →
  vR (tview (thP s)) ≤ ts ≤ length (removed (tlog (thC s))) ∧
  ∃ m, hR s !! ts = Some m ∧ mval m = idx ts ∧
   (∀ mo, let w' := lview P R mo ts m (tview (thP s)) in
    vW w' = length (pushed (tlog (thP s))) ∧ vR w' = ts ∧ kP (tview (thP s)) ≤ kP w') ∧
   acq (hR s) C ts (lview P R Acq ts m (tview (thP s))).
Proof.
  intros [] ->. destruct q_pv as (Ep & Hp & _). simpl. rewrite q_hR. split; [lia|]. set (ts := Nat.min _ _).
  destruct (lookup_lt_is_Some_2 (hR s) ts) as [m Hm]; [rewrite q_hR; lia|]. exists m. split; [done|].
  destruct (q_mR ts m Hm) as (Hv & w & Hw & Hwk & Hwr). split; [done|]. split.
  - intros mo. unfold lview. rewrite Hw. destruct mo; simpl; lia.
  - exists m, w. split_and!; [done|done|]. unfold lview. rewrite Hw. simpl. lia.
Qed.
Lemma load_R_C s n inf d hm : 
  qinv cap (hW s) (hR s) (slots s) (tview (thP s)) (tview (thC s)) (made s) (gone s)
    (pushed (tlog (thP s))) (removed (tlog (thC s))) (spoiled (tlog (thC s))) inf d hm →
  let k := length (removed (tlog (thC s))) in
  k = Nat.min (seen R (tview (thC s)) + n) (length (hR s) - 1) ∧
  ∃ m, hR s !! k = Some m ∧ mval m = idx k ∧ ∀ mo, let w' := lview C R mo k m (tview (thC s)) in
    vR w' = k ∧ vW (tview (thC s)) ≤ vW w' ≤ length (pushed (tlog (thP s))) ∧
    kC (tview (thC s)) ≤ kC w' ∧ kP (tview (thC s)) ≤ kP w'.
Proof.
  intros [] k. destruct q_cv as (Ep & Hp). simpl. rewrite q_hR, Ep. split; [lia|].
  destruct (lookup_lt_is_Some_2 (hR s) k) as [m Hm]; [rewrite q_hR; lia|]. exists m. split; [done|].
  destruct (q_mR k m Hm) as (Hv & w & Hw & Hwk & Hwr). split; [done|]. intros mo. unfold lview. rewrite Hw.
  destruct mo; simpl; subst k; lia.
Qed.
Lemma load_W_C s n inf d hm ts : 
  qinv cap (hW s) (hR s) (slots s) (tview (thP s)) (tview (thC s)) (made s) (gone s)
    (pushed (tlog (thP s))) (removed (tlog (thC s))) (spoiled (tlog (thC s))) inf d hm →
  ts = Nat.min (seen W (tview (thC s)) + n) (length (hW s) - 1) →
  vW (tview (thC s)) ≤ ts ≤ length (pushed (tlog (thP s))) ∧
  ∃ m, hW s !! ts = Some m ∧ mval m = idx ts ∧
   (∀ mo, let w' := lview C W mo ts m (tview (thC s)) in
    vR w' = length (removed (tlog (thC s))) ∧ vW w' = ts ∧ kC (tview (thC s)) ≤ kC w' ∧ kP (tview (thC s)) ≤ kP w') ∧
   acq (hW s) P ts (lview C W Acq ts m (tview (thC s))).
Proof.
  intros [] ->. destruct q_cv as (Ep & Hp). simpl. rewrite q_hW. split; [lia|]. set (ts := Nat.min _ _).
  destruct (lookup_lt_is_Some_2 (hW s) ts) as [m Hm]; [rewrite q_hW; lia|]. exists m. split; [done|].
  destruct (q_mW ts m Hm) as (Hv & w & Hw & Hwk & Hwr). split; [done|]. split.
  - intros mo. unfold lview. rewrite Hw. destruct mo; simpl; lia.
  - exists m, w. split_and!; [done|done|]. unfold lview. rewrite Hw. simpl. lia.
Qed.

(** ** The producer's steps *)
Lemma snoc_split {A} (l l1 l2 : list A) x y : l ++ [x] = l1 ++ y :: l2 →
  (l1 = l ∧ y = x ∧ l2 = []) ∨ ∃ l3, l2 = l3 ++ [x] ∧ l = l1 ++ y :: l3.
Proof.
  intros E. destruct l2 as [|z l2 _] using rev_ind.
  - left. apply app_inj_tail in E as [-> ->]. done.
  - right. exists l2. rewrite app_comm_cons, app_assoc in E. apply app_inj_tail in E as [-> ->]. done.
Qed.
Definition proom (lg : log) (r : nat) : Prop := ∀ l1 z l2, lg = l1 ++ (OWriteAvailable, Ret (RCount z)) :: l2 →
  (Z.of_nat (length (pushed l1)) + z + 1 <= Z.of_nat r + zc)%Z.
Lemma proom_snoc lg r r' o x : proom lg r → r ≤ r' →
  (∀ z, o = OWriteAvailable → x = Ret (RCount z) → (Z.of_nat (length (pushed lg)) + z + 1 <= Z.of_nat r' + zc)%Z) →
  proom (lg ++ [(o, x)]) r'.
Proof.
  intros H Hr Hx l1 z l2 E. apply snoc_split in E as [(-> & E & ->)|(l3 & -> & E)].
  - injection E as <- <-. by apply Hx.
  - specialize (H l1 z l3 E). lia.
Qed.
Lemma proom_mono lg r r' : proom lg r → r ≤ r' → proom lg r'.
Proof. intros H Hr l1 z l2 E. specialize (H l1 z l2 E). lia. Qed.
Lemma counts_snoc lg o x : counts lg → (∀ z, x = Ret (RCount z) → (0 <= z < zc)%Z) → counts (lg ++ [(o, x)]).
Proof.
  intros H Hx o' z [Hi|Hi]%elem_of_app; [by eapply H|]. apply elem_of_list_singleton in Hi. injection Hi as _ <-. auto.
Qed.

Notation Q s := (qinv cap (hW s) (hR s) (slots s) (tview (thP s)) (tview (thC s)) (made s) (gone s)
    (pushed (tlog (thP s))) (removed (tlog (thC s))) (spoiled (tlog (thC s)))).
Notation nP s := (length (pushed (tlog (thP s)))).
Notation nC s := (length (removed (tlog (thC s)))).

Lemma inv_setP s th' inf d hm : Q s inf d hm → cst (thC s) (hW s) (pushed (tlog (thP s))) d hm →
  vW (tview th') = nP s → vR (tview (thP s)) ≤ vR (tview th') ≤ nC s → kP (tview (thP s)) ≤ kP (tview th') →
  pushed (tlog th') = pushed (tlog (thP s)) → pst th' (hR s) inf → inv (set_thr P th' s).
Proof.
  intros HQ HC ? ? ? E HP. exists inf, d, hm. simpl. rewrite E. split_and!; [|done|done].
  by eapply qinv_pview.
Qed.

Lemma stepP s n : inv s → ∃ s', step nd zc P n s = Ok tt s' ∧ inv s'.
Proof.
  intros (inf & d & hm & HQ & [Hctl Hroom Hcnt] & HC).
  pose proof (q_pv _ _ _ _ _ _ _ _ _ _ _ _ _ _ HQ) as (HvW & HvR & Hfit).
  pose proof (q_mn _ _ _ _ _ _ _ _ _ _ _ _ _ _ HQ) as Hmn.
  assert (Hstay : ∀ (ct : ctl) th', inf = None → tlog th' = tlog (thP s) → tview th' = tview (thP s) → tctl th' = ct →
     (match ct with Idle p => producer p | Busy o c k => producer (Do o k) ∧ pcode o c (nP s) (tview (thP s)) (hR s) None end) →
     inv (set_thr P th' s)).
  { intros c th' Hi El Ev Ec Hc. eapply inv_setP; rewrite ?El, ?Ev; try done; try lia. split; rewrite ?El, ?Ev; try done.
    rewrite Ec, Hi. destruct c; [done|]. done. }
  destruct (tctl (thP s)) as [[|o k]|o c k] eqn:Ectl.
  - exists s. unfold step, bind, gets. simpl. rewrite Ectl. split; [done|]. exists inf, d, hm. split_and!; try done.
    split; [|done..]. by rewrite Ectl.
  - eexists. unfold step, bind, gets. simpl. rewrite Ectl. split; [reflexivity|].
    destruct Hctl as [Hp Hi]. eapply Hstay; try done. simpl. split; [done|]. by left.
  - destruct Hctl as [Hp Hcode].
    set (w := tview (thP s)) in *. set (lg := tlog (thP s)) in *.
    destruct o as [v| |mv th| |]; try done.
    + (* emplace *) destruct Hp as [HpR HpE]. destruct Hcode as [[-> ->]|[[-> ->]|[(-> & -> & a & Ha & Haw & Hav)|(-> & -> & Hr3)]]].
      * (* load W *)
        destruct (load_W_P s n _ _ _ HQ) as (Ets & m & Hm & Hv & Hw). fold lg w in Ets, Hm, Hv, Hw.
        destruct (Hw Rlx) as (? & ? & ?).
        rewrite (step_load P n s _ _ _ _ _ m _ Ectl Ets Hm). eexists. split; [reflexivity|].
        change (thr P s) with (thP s). fold w lg. set (w2 := lview P W Rlx _ m w) in *. clearbody w2.
        eapply inv_setP; try done. rewrite Hv. split; try done.
        { split; [done|]. right. left. done. }
        all: eapply proom_mono; [exact Hroom|]; simpl; lia.
      * (* load R *)
        destruct (load_R_P s n _ _ _ _ HQ eq_refl) as (Hts & m & Hm & Hv & Hw & Hacq). destruct (Hw Acq) as (Ew1 & Ew2 & Ew3).
        set (ts := Nat.min _ _) in *. fold lg w in Hts, Hw, Hacq, Ew1, Ew2, Ew3.
        rewrite (step_load P n s _ _ _ _ _ m ts Ectl eq_refl Hm). eexists. split; [reflexivity|].
        change (thr P s) with (thP s). fold w lg. set (w2 := lview P R Acq ts m w) in *. clearbody w2.
        rewrite Hv, (next_idx cap Hcap). fold lg w. destruct (Z.eqb_spec (idx (S (length (pushed lg)))) (idx ts)) as [E|Hne].
        -- (* full *)
           eapply inv_setP; try done; simpl; rewrite ?Ew1, ?Ew2; try done.
           { fold lg. by rewrite pushed_app, app_nil_r. }
           split; simpl; try done.
           ++ eapply proom_snoc; [exact Hroom| |done]. rewrite Ew2. lia.
           ++ by apply counts_snoc.
        -- assert (length (pushed lg) + 2 ≤ ts + cap).
           { destruct (decide (length (pushed lg) + 2 ≤ ts + cap)) as [|Hn]; [done|exfalso]. apply Hne.
             assert (S (length (pushed lg)) = ts + cap) as -> by lia. unfold SpscArith.idx.
             replace (ts + cap) with (ts + 1 * cap) by lia. rewrite Nat.mod_add; [done|]. pose proof (cap_pos cap Hcap). lia. }
           eapply inv_setP; try done; simpl; rewrite ?Ew1, ?Ew2; try done.
           split; simpl; try done.
           ++ split; [done|]. right. right. left. split_and!; try done. exists ts. split_and!; [done|done|by rewrite Ew2].
           ++ eapply proom_mono; [exact Hroom|]. rewrite Ew2. lia.
      * (* construct *)
        destruct Ha as (y & yw & Hy1 & Hy2 & Hy3).
        destruct (qinv_construct cap Hcap _ _ _ _ _ _ _ _ _ _ _ _ v a y yw HQ Hy1 Hy2 Hy3 Haw Hav)
          as (x & Hx & Hraw & HsC & HQ1 & HQ2). fold lg in Hx, HQ1, HQ2.
        assert (Ei : Z.to_nat (idx (length (pushed lg))) = length (pushed lg) mod cap) by (unfold SpscArith.idx; apply Nat2Z.id).
        rewrite (step_construct n s _ _ _ _ _ x Ectl) by (rewrite ?Ei; done). eexists. split; [reflexivity|].
        rewrite Ei. destruct (Nat.eqb n 0); simpl.
        -- exists (Some v), d, hm. simpl. split_and!; [exact HQ1| |done]. split; simpl; try done.
           split; [done|]. right. right. right. split_and!; try done. fold w lg. simpl. lia.
        -- exists None, d, hm. simpl. fold lg. rewrite pushed_app, app_nil_r. split_and!; [exact HQ2| |done].
           split; simpl; try done.
           ++ eapply proom_snoc; [exact Hroom|done|done].
           ++ by apply counts_snoc.
      * (* store W *)
        rewrite (step_store P n s _ _ _ _ _ _ Ectl). eexists. split; [reflexivity|].
        pose proof (q_hW _ _ _ _ _ _ _ _ _ _ _ _ _ _ HQ) as HhW. fold lg in HhW. simpl. rewrite HhW.
        exists None, d, hm. simpl. fold lg w. rewrite pushed_app. simpl. rewrite (next_idx cap Hcap). split_and!.
        -- eapply qinv_publish; try done.
        -- split; simpl; try done.
           ++ eapply proom_snoc; [exact Hroom|done|done].
           ++ by apply counts_snoc.
        -- eapply cst_frame; [right; by eexists|by apply prefix_app_r|done].
    + (* read_available *) destruct Hcode as [[-> ->]|[-> ->]].
      * destruct (load_W_P s n _ _ _ HQ) as (Ets & m & Hm & Hv & Hw). fold lg w in Ets, Hm, Hv, Hw.
        destruct (Hw Acq) as (? & ? & ?).
        rewrite (step_load P n s _ _ _ _ _ m _ Ectl Ets Hm). eexists. split; [reflexivity|].
        change (thr P s) with (thP s). fold w lg. set (w2 := lview P W Acq _ m w) in *. clearbody w2.
        eapply inv_setP; try done. rewrite Hv. split; try done.
        { split; [done|]. right. done. }
        all: eapply proom_mono; [exact Hroom|]; simpl; lia.
      * destruct (load_R_P s n _ _ _ _ HQ eq_refl) as (Hts & m & Hm & Hv & Hw & Hacq). destruct (Hw Rlx) as (Ew1 & Ew2 & Ew3).
        set (ts := Nat.min _ _) in *. fold lg w in Hts, Hw, Hacq, Ew1, Ew2, Ew3.
        rewrite (step_load P n s _ _ _ _ _ m ts Ectl eq_refl Hm). eexists. split; [reflexivity|].
        change (thr P s) with (thP s). fold w lg. set (w2 := lview P R Rlx ts m w) in *. clearbody w2.
        rewrite Hv. fold lg w. rewrite (read_avail_eq cap Hcap) by lia.
        eapply inv_setP; try done; simpl; rewrite ?Ew1, ?Ew2; try done.
        { fold lg. by rewrite pushed_app, app_nil_r. }
        split; simpl; try done.
        -- eapply proom_snoc; [exact Hroom| |done]. rewrite Ew2. lia.
        -- apply counts_snoc; [done|]. intros z [= <-]. lia.
    + (* write_available *) destruct Hcode as [[-> ->]|[-> ->]].
      * destruct (load_W_P s n _ _ _ HQ) as (Ets & m & Hm & Hv & Hw). fold lg w in Ets, Hm, Hv, Hw.
        destruct (Hw Rlx) as (? & ? & ?).
        rewrite (step_load P n s _ _ _ _ _ m _ Ectl Ets Hm). eexists. split; [reflexivity|].
        change (thr P s) with (thP s). fold w lg. set (w2 := lview P W Rlx _ m w) in *. clearbody w2.
        eapply inv_setP; try done. rewrite Hv. split; try done.
        { split; [done|]. right. done. }
        all: eapply proom_mono; [exact Hroom|]; simpl; lia.
      * destruct (load_R_P s n _ _ _ _ HQ eq_refl) as (Hts & m & Hm & Hv & Hw & Hacq). destruct (Hw Acq) as (Ew1 & Ew2 & Ew3).
        set (ts := Nat.min _ _) in *. fold lg w in Hts, Hw, Hacq, Ew1, Ew2, Ew3.
        rewrite (step_load P n s _ _ _ _ _ m ts Ectl eq_refl Hm). eexists. split; [reflexivity|].
        change (thr P s) with (thP s). fold w lg. set (w2 := lview P R Acq ts m w) in *. clearbody w2.
        rewrite Hv. fold lg w. pose proof (write_avail_eq cap Hcap ts (length (pushed lg)) ltac:(lia)) as Ewa. cbv zeta in *. rewrite Ewa.
        eapply inv_setP; try done; simpl; rewrite ?Ew1, ?Ew2; try done.
        { fold lg. by rewrite pushed_app, app_nil_r. }
        split; simpl; try done.
        -- eapply proom_snoc; [exact Hroom| |]; rewrite Ew2; [lia|]. intros z _ [= <-]. lia.
        -- apply counts_snoc; [done|]. intros z [= <-]. lia.
Qed.

(** ** The consumer's steps *)
Lemma inv_setC s th' inf d hm : Q s inf d hm → pst (thP s) (hR s) inf →
  vR (tview th') = nC s → vW (tview (thC s)) ≤ vW (tview th') ≤ nP s → kC (tview (thC s)) ≤ kC (tview th') →
  removed (tlog th') = removed (tlog (thC s)) → (spoiled (tlog (thC s)) → spoiled (tlog th')) →
  cst th' (hW s) (pushed (tlog (thP s))) d hm → inv (set_thr C th' s).
Proof.
  intros HQ HP ? ? ? E Hs HC. exists inf, d, hm. simpl. rewrite E. split_and!; [|done|done].
  eapply qinv_sp; [exact Hs|]. eapply qinv_cview; try done. lia.
Qed.
Lemma spoiled_app (lg l : log) : spoiled lg → spoiled (lg ++ l).
Proof. intros ?. apply elem_of_app. by left. Qed.
Lemma consumer_mono cr cr' (p : prog (op V) (out V)) : (cr <= cr')%Z → consumer cr p → consumer cr' p.
Proof.
  revert cr cr'. induction p as [|o k IH]; intros cr cr' Hle; [done|]. simpl.
  destruct o as [v| |mv [] | |]; simpl; try done.
  - intros [? H]. split; [lia|]. eapply IH; [|exact H]. lia.
  - intros [? H]. split; [lia|]. eapply IH; [|exact H]. lia.
  - intros [? H]. split; [lia|]. intros v. eapply IH; [|apply H]. lia.
  - intros H z. by eapply IH.
Qed.

Lemma assert_cases A i (k : SpscModel.code V A) : assert_not_empty nd i k = k ∨
  assert_not_empty nd i k = Load W Acq (λ wi, Assert (negb (wi =? i)%Z) k).
Proof. unfold assert_not_empty. case nd; auto. Qed.
Lemma fin_assert w o i rest k lg : (∀ r, rest ≠ Leaf r) →
  fin w o (assert_not_empty nd i rest) k lg = Thread w (Busy o (assert_not_empty nd i rest) k) lg.
Proof.
  intros Hr. destruct (assert_cases _ i rest) as [E|E]; rewrite E; [|done].
  unfold fin. destruct rest; try done. by destruct (Hr a).
Qed.
Lemma pre_step s n inf hm o c k rest : Q s inf false hm → tctl (thC s) = Busy o c k → (∀ r, rest ≠ Leaf r) →
  nC s < vW (tview (thC s)) →
  (c = Load W Acq (λ wi, Assert (negb (wi =? idx (nC s))%Z) rest) ∨ c = Assert true rest) →
  ∃ w' c', step nd zc C n s = Ok tt (set_thr C (Thread w' (Busy o c' k) (tlog (thC s))) s) ∧
    (c' = Assert true rest ∨ c' = rest) ∧ vR w' = nC s ∧ vW (tview (thC s)) ≤ vW w' ≤ nP s ∧
    kC (tview (thC s)) ≤ kC w' ∧ kP (tview (thC s)) ≤ kP w'.
Proof.
  intros HQ Ectl Hrest Hlt Hc.
  pose proof (q_pv _ _ _ _ _ _ _ _ _ _ _ _ _ _ HQ) as (HvW & HvR & Hfit).
  pose proof (q_cv _ _ _ _ _ _ _ _ _ _ _ _ _ _ HQ) as (HcR & HcW).
  destruct Hc as [->| ->].
  - destruct (load_W_C s n _ _ _ _ HQ eq_refl) as (Hts & m & Hm & Hv & Hw & Hacq). destruct (Hw Acq) as (Ew1 & Ew2 & Ew3 & Ew4).
    set (ts := Nat.min _ _) in *. rewrite (step_load C n s _ _ _ _ _ m ts Ectl eq_refl Hm).
    change (thr C s) with (thC s). set (w2 := lview C W Acq ts m (tview (thC s))) in *. clearbody w2.
    rewrite Hv. assert ((idx ts =? idx (nC s))%Z = false) as ->.
    { apply Z.eqb_neq. intros E. symmetry in E. apply (idx_window cap Hcap) in E; lia. }
    simpl. eexists _, _. split; [reflexivity|]. split_and!; try done; try lia. by left.
  - rewrite (step_assert C n s _ _ _ _ Ectl eq_refl). change (thr C s) with (thC s).
    eexists _, rest. split; [|split_and!; try done; try lia; by right].
    unfold fin. destruct rest; try done. by destruct (Hrest a).
Qed.

Lemma stepC s n : inv s → ∃ s', step nd zc C n s = Ok tt s' ∧ inv s'.
Proof.
  intros (inf & d & hm & HQ & HP & [(cr & a & Hcr & Hacq0 & Hle & Hav & Hctl) Hcnt]).
  pose proof (q_pv _ _ _ _ _ _ _ _ _ _ _ _ _ _ HQ) as (HvW & HvR & Hfit).
  pose proof (q_cv _ _ _ _ _ _ _ _ _ _ _ _ _ _ HQ) as (HcR & HcW).
  pose proof (q_mn _ _ _ _ _ _ _ _ _ _ _ _ _ _ HQ) as Hmn.
  pose proof (q_hR _ _ _ _ _ _ _ _ _ _ _ _ _ _ HQ) as HhR.
  destruct (tctl (thC s)) as [[|o k]|o c k] eqn:Ectl.
  - exists s. unfold step, bind, gets. simpl. rewrite Ectl. split; [done|]. exists inf, d, hm. split_and!; try done.
    split; [|done]. exists cr, a. split_and!; try done. by rewrite Ectl.
  - eexists. unfold step, bind, gets. simpl. rewrite Ectl. split; [reflexivity|].
    destruct Hctl as (Hp & Hd & Hm). eapply inv_setC; try done. split; [|done]. exists cr, a. split_and!; try done.
    split; [done|]. by left.
  - destruct Hctl as [Hp Hcode].
    set (w := tview (thC s)) in *. set (lg := tlog (thC s)) in *.
    (* the calls that stay in progress or complete without touching the elements *)
    assert (Hbusy : ∀ w' c', vR w' = length (removed lg) → vW w ≤ vW w' ≤ nP s → kC w ≤ kC w' → kP w ≤ kP w' →
      ccode o c' (length (removed lg)) w' (hW s) (pushed (tlog (thP s))) (spoiled lg) d hm →
      inv (set_thr C (Thread w' (Busy o c' k) lg) s)).
    { intros w' c' H1 H2 H3 H4 Hcc. eapply inv_setC; try done. split; [|done]. exists cr, a. split_and!; try done; simpl; try lia.
      by eapply acq_mono. }
    (* the first load of the three removal functions *)
    assert (HloadR : ∀ kk, c = Load R Rlx kk → ∃ w', vR w' = length (removed lg) ∧ vW w ≤ vW w' ≤ nP s ∧ kC w ≤ kC w' ∧ kP w ≤ kP w' ∧
       step nd zc C n s = Ok tt (set_thr C (fin w' o (kk (idx (length (removed lg)))) k lg) s)).
    { intros kk ->. destruct (load_R_C s n _ _ _ HQ) as (Ets & m & Hm & Hv & Hw). fold lg w in Ets, Hm, Hv, Hw.
      destruct (Hw Rlx) as (? & ? & ? & ?). rewrite (step_load C n s _ _ _ _ _ m _ Ectl Ets Hm). rewrite Hv.
      eexists. split_and!; [..|reflexivity]; done || lia. }
    (* the assertion *)
    assert (Hpre : ∀ rest, (∀ r, rest ≠ Leaf r) → d = false → length (removed lg) < vW w →
       (c = Load W Acq (λ wi, Assert (negb (wi =? idx (nC s))%Z) rest) ∨ c = Assert true rest) →
       (∀ w' c', c' = Assert true rest ∨ c' = rest → 
         ccode o c' (length (removed lg)) w' (hW s) (pushed (tlog (thP s))) (spoiled lg) d hm) →
       ∃ s', step nd zc C n s = Ok tt s' ∧ inv s').
    { intros rest Hrest -> Hlt Hc Hcc. destruct (pre_step s n _ _ _ _ _ rest HQ Ectl Hrest Hlt Hc)
        as (w' & c' & Hs & Hc' & ? & ? & ? & ?). eexists. split; [exact Hs|]. by apply Hbusy, Hcc. }
    (* the store that frees the slot *)
    assert (Hstore : ∀ r x cr', c = Store R Rel (nxt (idx (length (removed lg)))) (Leaf r) → d = true →
       removed (lg ++ [(o, r)]) = removed lg ++ [x] →
       (∀ y, x = Some y → y = pushed (tlog (thP s)) !! length (removed lg) ∨ y = None ∧ spoiled (lg ++ [(o, r)])) →
       cr' = (cr - 1)%Z → (0 < cr)%Z → consumer cr' (k r) → (∀ z, r ≠ Ret (RCount z)) →
       ∃ s', step nd zc C n s = Ok tt s' ∧ inv s').
    { intros r x cr' -> -> Er Hx -> Hcr0 Hk Hr. rewrite (step_store C n s _ _ _ _ _ _ Ectl). eexists. split; [reflexivity|].
      change (thr C s) with (thC s). fold lg w. change (hist R s) with (hR s). rewrite HhR.
      exists inf, false, false. simpl. rewrite Er, (next_idx cap Hcap). split_and!.
      - eapply qinv_remove; try done. by apply spoiled_app.
      - by apply pst_frame.
      - split; [|apply counts_snoc; [done|]; intros z Ez; by destruct (Hr z)]. exists (cr - 1)%Z, a. simpl. rewrite Er, app_length. simpl. split_and!; try done; try lia. }
    (* access to the oldest element *)
    assert (Hhead : d = false → (0 < cr)%Z → ∃ x v, slots s !! (length (removed lg) mod cap) = Some x ∧
      pushed (tlog (thP s)) !! length (removed lg) = Some v ∧
      (scell x = Live v ∨ hm = true ∧ scell x = Moved) ∧ sP x ≤ kP w ∧
      (∀ cl, cl = scell x ∨ cl = Moved →
         qinv cap (hW s) (hR s) (<[length (removed lg) mod cap := Slot cl (sP x) (S (kC w))]> (slots s)) (tview (thP s)) (tick C w)
           (made s) (gone s) (pushed (tlog (thP s))) (removed lg) (spoiled lg) inf false
           (match cl with Moved => true | _ => hm end)) ∧
      qinv cap (hW s) (hR s) (<[length (removed lg) mod cap := Slot Raw (sP x) (S (kC w))]> (slots s)) (tview (thP s)) (tick C w)
         (made s) (S (gone s)) (pushed (tlog (thP s))) (removed lg) (spoiled lg) inf true hm).
    { intros -> Hcr0. destruct Hacq0 as (y & yw & Hy1 & Hy2 & Hy3). eapply qinv_head; try done. lia. }
    assert (Ei : Z.to_nat (idx (length (removed lg))) = length (removed lg) mod cap) by (unfold SpscArith.idx; apply Nat2Z.id).
    destruct o as [v| |mv th| |]; try done.
    + (* pop *)
      destruct Hp as [Hcr0 Hp].
      destruct Hcode as [(-> & Hd & Hm)|[(Hd & Hm & Hc)|(Hd & Hc)]].
      * destruct (HloadR _ eq_refl) as (w' & ? & ? & ? & ? & Hs). rewrite Hs, fin_assert by done. eexists. split; [reflexivity|].
        apply Hbusy; try done. right. left. split_and!; try done. by left.
      * assert (Hc' : (c = Load W Acq (λ wi, Assert (negb (wi =? idx (nC s))%Z) (pop2 (length (removed lg)))) ∨ c = Assert true (pop2 (length (removed lg)))) ∨ c = pop2 (length (removed lg))).
        { destruct Hc as [->|[->| ->]]; [|by left; right|by right].
          destruct (assert_cases _ (idx (length (removed lg))) (pop2 (length (removed lg)))) as [E|E]; rewrite E; [by right|by left; left]. }
        clear Hc. destruct Hc' as [Hc| ->].
        -- eapply Hpre; [| |  |exact Hc|]; try done; try lia. intros w' c' Hc'. right. left. split_and!; try done. by right.
        -- destruct (Hhead Hd Hcr0) as (x & v & Hx & Hv & Hcell & HsP & _ & HQ').
           rewrite (step_destroy n s _ _ _ _ x Ectl); [|rewrite Ei; done|by destruct Hcell as [->|[_ ->]]|done].
           eexists. split; [reflexivity|]. fold lg w. rewrite Ei. exists inf, true, hm. simpl. split_and!; [exact HQ'|done|].
           split; [|done]. exists cr, a. simpl. fold w lg. split_and!; try done; try (split; [done|]). right. right. done.
      * eapply (Hstore (Ret RUnit) None); try done. by rewrite removed_app.
    + (* consume *)
      destruct Hcode as [(-> & Hd & Hm)|[(Hd & Hm & Hc)|(-> & y & Hy & Hc)]].
      * destruct (HloadR _ eq_refl) as (w' & ? & ? & ? & ? & Hs). rewrite Hs, fin_assert by done. eexists. split; [reflexivity|].
        apply Hbusy; try done. right. left. split_and!; try done. by left.
      * assert (Hcr0 : (0 < cr)%Z) by (destruct th; destruct Hp; done).
        assert (Hc' : (c = Load W Acq (λ wi, Assert (negb (wi =? idx (nC s))%Z) (co2 mv th (length (removed lg)))) ∨ c = Assert true (co2 mv th (length (removed lg)))) ∨ c = co2 mv th (length (removed lg))).
        { destruct Hc as [->|[->| ->]]; [|by left; right|by right].
          destruct (assert_cases _ (idx (length (removed lg))) (co2 mv th (length (removed lg)))) as [E|E]; rewrite E; [by right|by left; left]. }
        clear Hc. destruct Hc' as [Hc| ->].
        -- eapply Hpre; [| |  |exact Hc|]; try done; try lia. intros w' c' Hc'. right. left. split_and!; try done. by right.
        -- destruct (Hhead Hd Hcr0) as (x & v & Hx & Hv & Hcell & HsP & HQ' & _).
           rewrite (step_use n s _ _ _ _ _ x Ectl); [|rewrite Ei; done|by destruct Hcell as [->|[_ ->]]|done].
           eexists. split; [reflexivity|]. fold lg w. rewrite Ei.
           set (c' := if mv then Moved else scell x). specialize (HQ' c' ltac:(subst c'; destruct mv; auto)).
           set (hm' := match c' with Moved => true | _ => hm end) in *.
           destruct th.
           ++ destruct Hp as [_ Hp]. exists inf, false, hm'. simpl. fold lg. rewrite removed_app, app_nil_r.
              split_and!; [eapply qinv_sp; [|exact HQ']; by apply spoiled_app|done|].
              split; [|by apply counts_snoc]. exists cr, a. simpl. rewrite removed_app, app_nil_r. fold w lg.
              split_and!; try done. intros Hhm. destruct mv.
              { apply elem_of_app. right. by apply elem_of_list_singleton. }
              apply spoiled_app, Hm. subst hm' c'. by destruct Hcell as [E|[? E]]; rewrite E in Hhm.
           ++ destruct Hp as [_ Hp]. exists inf, false, hm'. simpl. split_and!; [exact HQ'|done|].
              split; [|done]. exists cr, a. simpl. fold w lg. split_and!; try done; try (split; [done|]). right. right. split; [done|].
              eexists. split; [|by left].
              destruct Hcell as [->|[Hh ->]]; [left; by eexists|right; auto].
      * destruct Hp as [Hcr0 Hp]. destruct Hc as [[Hd ->]|[Hd ->]].
        -- destruct (Hhead Hd Hcr0) as (x & v & Hx & Hv & Hcell & HsP & _ & HQ').
           rewrite (step_destroy n s _ _ _ _ x Ectl); [|rewrite Ei; done|by destruct Hcell as [->|[_ ->]]|done].
           eexists. split; [reflexivity|]. fold lg w. rewrite Ei. exists inf, true, hm. simpl. split_and!; [exact HQ'|done|].
           split; [|done]. exists cr, a. simpl. fold w lg. split_and!; try done; try (split; [done|]). right. right. split; [done|].
           exists y. split; [done|]. by right.
        -- eapply (Hstore (Ret (RVal y)) (Some y)); try done.
           ++ by rewrite removed_app.
           ++ intros y' [= ->]. destruct Hy as [(v & -> & ?)|[-> ?]]; [by left|right]. split; [done|]. by apply spoiled_app.
    + (* read_available *)
      destruct Hcode as [(-> & Hd & Hm)|(Hd & Hm & i & Hacq & Hi & ->)].
      * destruct (load_W_C s n _ _ _ _ HQ eq_refl) as (Hts & m & Hm' & Hv & Hw & Hacq). destruct (Hw Acq) as (Ew1 & Ew2 & Ew3 & Ew4).
        set (ts := Nat.min _ _) in *. rewrite (step_load C n s _ _ _ _ _ m ts Ectl eq_refl Hm').
        change (thr C s) with (thC s). fold w lg. fold w in Hacq, Ew1, Ew2, Ew3, Ew4, Hts.
        set (w2 := lview C W Acq ts m w) in *. clearbody w2.
        eexists. split; [reflexivity|]. rewrite Hv. apply Hbusy; try done; try lia. right. split_and!; try done.
        exists ts. split_and!; try done; try lia.
      * destruct (HloadR _ eq_refl) as (w' & ? & ? & ? & ? & Hs). rewrite Hs. eexists. split; [reflexivity|].
        fold lg. rewrite (read_avail_eq cap Hcap) by lia.
        eapply inv_setC; try done; simpl.
        { by rewrite removed_app, app_nil_r. }
        { by apply spoiled_app. }
        split; [|apply counts_snoc; [done|intros z [= <-]; lia]].
        exists (Z.of_nat (i - length (removed lg))), i. simpl. rewrite removed_app, app_nil_r. split_and!; try done; try lia.
        { by eapply acq_mono. }
        intros Hh. by apply spoiled_app, Hm.
    + (* write_available *)
      destruct Hcode as [(-> & Hd & Hm)|(Hd & Hm & i & Hi & ->)].
      * destruct (load_W_C s n _ _ _ _ HQ eq_refl) as (Hts & m & Hm' & Hv & Hw & Hacq). destruct (Hw Rlx) as (Ew1 & Ew2 & Ew3 & Ew4).
        set (ts := Nat.min _ _) in *. rewrite (step_load C n s _ _ _ _ _ m ts Ectl eq_refl Hm').
        change (thr C s) with (thC s). fold w lg. fold w in Ew1, Ew2, Ew3, Ew4, Hts.
        set (w2 := lview C W Rlx ts m w) in *. clearbody w2.
        eexists. split; [reflexivity|]. rewrite Hv. apply Hbusy; try done; try lia. right. split_and!; try done.
        exists ts. split_and!; try done; try lia.
      * destruct (load_R_C s n _ _ _ HQ) as (Ets & m & Hm' & Hv & Hw). fold lg w in Ets, Hm', Hv, Hw.
        destruct (Hw Acq) as (? & ? & ? & ?). rewrite (step_load C n s _ _ _ _ _ m _ Ectl Ets Hm'). rewrite Hv.
        change (thr C s) with (thC s). fold w lg. set (w2 := lview C R Acq _ m w) in *. clearbody w2.
        eexists. split; [reflexivity|].
        pose proof (write_avail_eq cap Hcap (length (removed lg)) i ltac:(lia)) as Ewa. cbv zeta in Ewa. cbv beta zeta. rewrite Ewa.
        eapply inv_setC; try done; simpl.
        { by rewrite removed_app, app_nil_r. }
        { by apply spoiled_app. }
        split; [|apply counts_snoc; [done|intros z [= <-]; lia]].
        exists cr, a. simpl. rewrite removed_app, app_nil_r. split_and!; try done; try lia.
        { by eapply acq_mono. }
        intros Hh. by apply spoiled_app, Hm.
Qed.
End steps.
