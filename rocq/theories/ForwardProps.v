(** Theorems about the arguments of a call of a Delegate (property C167). *)
From stdpp Require Import list.
From Coq Require Import Lia.
From Verif Require Import Base ForwardModel.
Local Open Scope mon_scope.
Local Arguments objects {_}. Local Arguments copies {_}. Local Arguments moves {_}.

(** ** What is expected *)
Section spec.
Context {V : Type}.
(** The object of an argument that has one already *)
Definition object_of (e : arg V) : option nat := match e with Lv _ a | Xv a => Some a | Pr _ => None end.
Definition content (os : list (option V)) (e : arg V) : option (option V) :=
  match e with Lv _ a | Xv a => os !! a | Pr v => Some (Some v) end.
(** The arguments exist, and what is passed as an rvalue is passed once. *)
Definition sound (os : list (option V)) (es : list (arg V)) : Prop :=
  (∀ i e, es !! i = Some e → is_Some (content os e)) ∧
  ∀ i j e a, i ≠ j → es !! i = Some (Xv a) → es !! j = Some e → object_of e ≠ Some a.
(** Which parameters can be initialised with which arguments *)
Definition fits (p : par) (e : arg V) : bool :=
  match p, e with
  | Ref, Lv false _ | CRef, _ | Val, _ | Mov, Xv _ | Mov, Pr _ => true
  | _, _ => false
  end.
(** Which parameter types of the functor go with which of the signature *)
Definition takes (p f : par) : bool :=
  match f, p with
  | Val, _ | CRef, _ | Ref, Ref | Mov, Val | Mov, Mov => true
  | _, _ => false
  end.
Definition is_ref (p : par) : bool := match p with Val => false | _ => true end.
Definition is_x (e : arg V) : bool := match e with Xv _ => true | _ => false end.
Definition is_l (e : arg V) : bool := match e with Lv _ _ => true | _ => false end.
(** Does the call take the value of the argument away from the caller's object? *)
Definition taken (p f : par) (e : arg V) : bool :=
  is_x e && match p, f with Val, _ | Mov, Val => true | _, _ => false end.
(** The copies and moves for one argument *)
Definition copied (p f : par) (e : arg V) : nat :=
  match p with
  | Val => if is_l e then 1 else 0
  | Ref | CRef => match f with Val => 1 | _ => 0 end
  | Mov => 0
  end.
Definition moved (p f : par) (e : arg V) : nat :=
  (match p with Val => (if is_x e then 1 else 0) + 1 | _ => 0 end) +
  match p, f with Val, Val | Mov, Val => 1 | _, _ => 0 end.
Fixpoint total (c : par → par → arg V → nat) (ps fs : list par) (es : list (arg V)) : nat :=
  match ps, fs, es with p :: ps, f :: fs, e :: es => c p f e + total c ps fs es | _, _, _ => 0 end.
End spec.

(** ** One stage *)
Section proofs.
Context {V : Type}.
Notation mem := (mem V).
Definition made (p : par) (e : arg V) : bool := match p, e with Val, _ | _, Pr _ => true | _, _ => false end.
Definition copies1 (p : par) (e : arg V) : nat := match p, e with Val, Lv _ _ => 1 | _, _ => 0 end.
Definition moves1 (p : par) (e : arg V) : nat := match p, e with Val, Xv _ => 1 | _, _ => 0 end.
Fixpoint sum1 (c : par → arg V → nat) (ps : list par) (es : list (arg V)) : nat :=
  match ps, es with p :: ps, e :: es => c p e + sum1 c ps es | _, _ => 0 end.
Definition from (p : par) (e : arg V) (b : nat) : bool := match p, e with Val, Xv a => a =? b | _, _ => false end.
Lemma from_true p e b : from p e b = true → p = Val ∧ e = Xv b.
Proof. destruct p, e; simpl; try done. by intros ->%Nat.eqb_eq. Qed.
Definition away (ps : list par) (es : list (arg V)) (a : nat) : Prop := ∃ i, ps !! i = Some Val ∧ es !! i = Some (Xv a).

Lemma init_spec p e (s : mem) : is_Some (content (objects s) e) → fits p e = true →
  ∃ a s', init p e s = Ok a s' ∧ copies s' = copies s + copies1 p e ∧ moves s' = moves s + moves1 p e ∧
    length (objects s') = length (objects s) + (if made p e then 1 else 0) ∧
    objects s' !! a = content (objects s) e ∧
    (if made p e then a = length (objects s) else object_of e = Some a) ∧
    (∀ b, b < length (objects s) → objects s' !! b = if from p e b then Some None else objects s !! b).
Proof.
  intros [o Ho] Hf. destruct p, e as [c a|a|v]; simpl in *; try done; try (destruct c; [done|]).
  all: unfold copy, move, make, ret; try rewrite Ho; do 2 eexists; split; [reflexivity|]; simpl.
  all: rewrite ?app_length, ?insert_length; simpl.
  all: split_and!; try lia; try done.
  all: try (by rewrite list_lookup_middle by done).
  all: try (by rewrite list_lookup_middle by (by rewrite insert_length)).
  all: intros b Hb; rewrite ?lookup_app_l by (rewrite ?insert_length; lia).
  all: try done.
  destruct (a =? b) eqn:E.
  - apply Nat.eqb_eq in E as ->. by apply list_lookup_insert.
  - apply Nat.eqb_neq in E. by rewrite list_lookup_insert_ne.
Qed.

Lemma content_lt os (e : arg V) b : is_Some (content os e) → object_of e = Some b → b < length os.
Proof. destruct e; simpl; intros H [= <-]; by apply lookup_lt_is_Some. Qed.

Definition stage ps es (s : mem) as_ (s' : mem) : Prop :=
    length as_ = length ps ∧
    copies s' = copies s + sum1 copies1 ps es ∧ moves s' = moves s + sum1 moves1 ps es ∧
    length (objects s) ≤ length (objects s') ∧
    (∀ i p e a, ps !! i = Some p → es !! i = Some e → as_ !! i = Some a →
       objects s' !! a = content (objects s) e ∧
       if made p e then length (objects s) ≤ a else object_of e = Some a) ∧
    (∀ i j p q e e' a b, i < j → ps !! i = Some p → ps !! j = Some q → es !! i = Some e → es !! j = Some e' →
       as_ !! i = Some a → as_ !! j = Some b → made p e = true → made q e' = true → a < b) ∧
    (∀ b, b < length (objects s) → ¬ away ps es b → objects s' !! b = objects s !! b) ∧
    (∀ b, away ps es b → objects s' !! b = Some None).
Lemma inits_spec ps : ∀ es (s : mem), length ps = length es → sound (objects s) es →
  (∀ i p e, ps !! i = Some p → es !! i = Some e → fits p e = true) →
  ∃ as_ s', inits ps es s = Ok as_ s' ∧ stage ps es s as_ s'.
Proof.
  induction ps as [|p ps IH]; intros [|e es] s Hl [Hc Hx] Hf; try done.
  { exists [], s. unfold stage. split_and!; try done; try (simpl; lia). intros b (i & H & _). by rewrite lookup_nil in H. }
  destruct (init_spec p e s) as (a & s1 & E1 & C1 & M1 & L1 & O1 & A1 & K1); [by apply (Hc 0)|by apply (Hf 0)|].
  assert (Hold : ∀ j e', es !! j = Some e' → content (objects s1) e' = content (objects s) e').
  { intros j e' He. destruct e' as [c b|b|v]; simpl; [| |done];
      (rewrite K1; [|apply lookup_lt_is_Some; by apply (Hc (S j) _ He)]);
      (destruct (from p e b) eqn:Hfr; [apply from_true in Hfr as [_ ->]|done]); by destruct (Hx 0 (S j) _ b (ltac:(lia)) eq_refl He). }
  destruct (IH es s1) as (as_ & s' & E & Ln & C & M & L & O & D & K & W).
  { simpl in Hl. lia. }
  { split.
    - intros j e' He. rewrite (Hold j) by done. by apply (Hc (S j)).
    - intros i j e' b n Hi Hj. apply (Hx (S i) (S j)); [lia|done..]. }
  { intros i p' e' Hp He. by apply (Hf (S i)). }
  assert (Hna : ∀ b, b < length (objects s) → ¬ away ps es b → objects s' !! b = objects s1 !! b).
  { intros b Hb Hn. apply K; [lia|done]. }
  assert (Hfresh : ∀ b, length (objects s) ≤ b → ¬ away ps es b).
  { intros b Hb (i & _ & Hi). assert (H := content_lt _ _ b (Hc (S i) _ Hi) eq_refl). lia. }
  exists (a :: as_), s'. unfold stage. split_and!.
  - simpl. unfold bind. rewrite E1, E. done.
  - simpl. lia.
  - simpl. lia.
  - simpl. lia.
  - lia.
  - intros [|i] p' e' a' Hp He Ha; simpl in *.
    + injection Hp as <-. injection He as <-. injection Ha as <-. split.
      * rewrite <- O1. destruct (made p e) eqn:Hm.
        -- apply K; [lia|]. apply Hfresh. lia.
        -- apply K.
           { assert (H := content_lt _ _ a (Hc 0 _ eq_refl) A1). lia. }
           intros (i & _ & Hi). by apply (Hx (S i) 0 e a (ltac:(lia)) Hi eq_refl).
      * destruct (made p e); [lia|done].
    + destruct (O i p' e' a' Hp He Ha) as [O' A']. rewrite O', (Hold i) by done. split; [done|].
      destruct (made p' e'); [lia|done].
  - intros [|i] [|j] p' q' e' e'' a' b' Hij Hp Hq He He' Ha Hb Hm Hm'; simpl in *; try lia.
    + injection Hp as <-. injection He as <-. injection Ha as <-. rewrite Hm in *.
      destruct (O j q' e'' b' Hq He' Hb) as [_ H]. rewrite Hm' in H. lia.
    + eapply (D i j); eauto. lia.
  - intros b Hb Hn. rewrite Hna; [|done|].
    + rewrite K1 by done. destruct (from p e b) eqn:Hfr; [|done]. apply from_true in Hfr as [-> ->]. destruct Hn. by exists 0.
    + intros (i & Hp & He). apply Hn. by exists (S i).
  - intros b ([|i] & Hp & He); simpl in *.
    + injection Hp as ->. injection He as ->.
      assert (Hb := content_lt _ _ b (Hc 0 _ eq_refl) eq_refl).
      rewrite Hna; [rewrite K1 by done; simpl; by rewrite Nat.eqb_refl|done|].
      intros (i & _ & Hi). by apply (Hx 0 (S i) _ b (ltac:(lia)) eq_refl Hi).
    + apply W. by exists i.
Qed.

Lemma forwards_lookup ps as_ i e : forwards (V := V) ps as_ !! i = Some e → ∃ p a, ps !! i = Some p ∧ as_ !! i = Some a ∧ e = forward p a.
Proof. unfold forwards. rewrite lookup_zip_with. destruct (ps !! i) as [p|], (as_ !! i) as [a|]; simpl; intros [= <-]; eauto 10. Qed.
Lemma forwards_sound ps es s as_ s' : length ps = length es → sound (objects s) es →
  (∀ i p e, ps !! i = Some p → es !! i = Some e → fits p e = true) →
  stage ps es s as_ s' → sound (objects s') (forwards ps as_).
Proof.
  intros Hl [Hc Hx] Hf (Ln & _ & _ & _ & O & D & _).
  assert (He : ∀ i p, ps !! i = Some p → ∃ e, es !! i = Some e).
  { intros i p Hp. apply lookup_lt_is_Some. rewrite <- Hl. by eapply lookup_lt_Some. }
  split.
  - intros i e' (p & a & Hp & Ha & ->)%forwards_lookup. destruct (He i p Hp) as [e Hei].
    destruct (O i p e a Hp Hei Ha) as [O' _].
    assert (content (objects s') (forward (V := V) p a) = objects s' !! a) as -> by (by destruct p).
    rewrite O'. by apply (Hc i).
  - intros i j e' a n (p & a' & Hp & Ha & Efw)%forwards_lookup (q & b & Hq & Hb & ->)%forwards_lookup.
    destruct (He i p Hp) as [e Hei]. destruct (He j q Hq) as [e'' Hej].
    assert (a' = a ∧ (p = Val ∨ p = Mov)) as [-> Hpm].
    { destruct p; simpl in Efw; try done; injection Efw as ->; auto. }
    assert (object_of (forward (V := V) q b) = Some b) as -> by (by destruct q). intros [= ->].
    destruct (O i p e a Hp Hei Ha) as [_ Hi]. destruct (O j q e'' a Hq Hej Hb) as [_ Hj].
    destruct (made p e) eqn:Hm, (made q e'') eqn:Hm'.
    + destruct (decide (i < j)) as [Hij|Hij].
      * assert (a < a) by (eapply (D i j); eauto). lia.
      * assert (a < a) by (eapply (D j i); eauto; lia). lia.
    + assert (H := content_lt _ _ a (Hc j _ Hej) Hj). lia.
    + assert (H := content_lt _ _ a (Hc i _ Hei) Hi). lia.
    + assert (Hfit := Hf i p e Hp Hei). destruct Hpm as [->| ->]; [done|]. destruct e as [[] a'|a'|v]; try done.
      simpl in Hi. injection Hi as ->. by apply (Hx i j e'' a n Hei Hej).
Qed.
End proofs.

Lemma sum_split {V} (c : par → par → arg V → nat) (d : par → arg V → nat) ps : ∀ fs es as1 as2,
  (∀ p f e a b, c p f e = d p e + d p (forward p a) + d f (forward p b)) →
  length fs = length ps → length es = length ps → length as1 = length ps → length as2 = length ps →
  total c ps fs es = sum1 d ps es + sum1 d ps (forwards ps as1) + sum1 d fs (forwards ps as2).
Proof.
  induction ps as [|p ps IH]; intros [|f fs] [|e es] [|a as1] [|b as2] Hc L1 L2 L3 L4; try done.
  simpl in *. unfold forwards in *. rewrite (IH fs es as1 as2) by (done || lia). rewrite (Hc p f e a b). lia.
Qed.
Lemma away_lookup {V} ps es (b : nat) i p e : ps !! i = Some p → es !! i = Some e → p = Val → e = Xv b → away (V := V) ps es b.
Proof. intros ? ? -> ->. by exists i. Qed.

Lemma away_dec {V} ps (es : list (arg V)) b : away ps es b ∨ ¬ away ps es b.
Proof.
  revert es. induction ps as [|p ps IH]; intros es; [right; by intros (i & ? & _)|].
  destruct es as [|e es]; [right; by intros (i & _ & ?)|].
  destruct (from p e b) eqn:E; [left; apply from_true in E as [-> ->]; by exists 0|].
  destruct (IH es) as [(i & H)|H]; [left; by exists (S i)|].
  right. intros ([|i] & Hp & He); simpl in *; [|apply H; by exists i].
  injection Hp as ->. injection He as ->. simpl in E. by rewrite Nat.eqb_refl in E.
Qed.

(** ** C167 *)

(** In every call that compiles, the functor receives the values of the arguments; where
    the signature and the functor have references it works on the caller's objects, elsewhere
    on objects of its own; the caller's objects change only if they are passed as rvalues and
    taken by value; and exactly the given numbers of copies and moves are made. *)
Theorem delegate_arguments {V} (ps fs : list par) (es : list (arg V)) s :
  length fs = length ps → length es = length ps → sound (objects s) es →
  (∀ i p e, ps !! i = Some p → es !! i = Some e → fits p e = true) →
  (∀ i p f, ps !! i = Some p → fs !! i = Some f → takes p f = true) →
  ∃ as_ s', op_call ps fs es s = Ok as_ s' ∧ length as_ = length ps ∧
    (∀ i p f e a, ps !! i = Some p → fs !! i = Some f → es !! i = Some e → as_ !! i = Some a →
       objects s' !! a = content (objects s) e ∧
       (is_ref p && is_ref f = true → ∀ b, object_of e = Some b → a = b) ∧
       (is_ref p && is_ref f = false → length (objects s) ≤ a ∧
          ∀ j p' f' b, j ≠ i → ps !! j = Some p' → fs !! j = Some f' → as_ !! j = Some b → a ≠ b)) ∧
    (∀ b o, objects s !! b = Some o → objects s' !! b = Some o ∨
       objects s' !! b = Some None ∧ ∃ i p f e, ps !! i = Some p ∧ fs !! i = Some f ∧ es !! i = Some e ∧
         object_of e = Some b ∧ taken p f e = true) ∧
    (∀ i p f e b, ps !! i = Some p → fs !! i = Some f → es !! i = Some e → object_of e = Some b → taken p f e = true →
       objects s' !! b = Some None) ∧
    copies s' = copies s + total copied ps fs es ∧ moves s' = moves s + total moved ps fs es.
Proof.
  intros Lf Le Hs Hfit Htake.
  destruct (inits_spec ps es s) as (as1 & s1 & E1 & S1); [done..|].
  assert (Hs1 := forwards_sound _ _ _ _ _ (eq_sym Le) Hs Hfit S1).
  assert (L1 : length as1 = length ps) by apply S1.
  destruct (inits_spec ps (forwards ps as1) s1) as (as2 & s2 & E2 & S2).
  { unfold forwards. rewrite zip_with_length. lia. } { done. }
  { intros i p e Hp (p' & a & Hp' & _ & ->)%forwards_lookup. assert (p' = p) as -> by congruence. by destruct p. }
  assert (Hs2 : sound (objects s2) (forwards ps as2)).
  { eapply forwards_sound; [|exact Hs1| |exact S2].
    - unfold forwards. rewrite zip_with_length. lia.
    - intros i p e Hp (p' & a & Hp' & _ & ->)%forwards_lookup. assert (p' = p) as -> by congruence. by destruct p. }
  assert (L2 : length as2 = length ps) by apply S2.
  destruct (inits_spec fs (forwards ps as2) s2) as (as3 & s3 & E3 & S3).
  { unfold forwards. rewrite zip_with_length. lia. } { done. }
  { intros i f e Hf (p & a & Hp & _ & ->)%forwards_lookup. specialize (Htake i p f Hp Hf). by destruct p, f. }
  assert (L3 : length as3 = length ps) by (rewrite <- Lf; apply S3).
  destruct S1 as (_ & C1 & M1 & N1 & O1 & D1 & K1 & W1). destruct S2 as (_ & C2 & M2 & N2 & O2 & D2 & K2 & W2).
  destruct S3 as (_ & C3 & M3 & N3 & O3 & D3 & K3 & W3).
  assert (Hw : ∀ as_ i p, length as_ = length ps → ps !! i = Some p → ∃ a, as_ !! i = Some a ∧
    forwards (V := V) ps as_ !! i = Some (forward p a)).
  { intros as_ i p L Hp. destruct (lookup_lt_is_Some_2 as_ i) as [a Ha].
    - rewrite L. by eapply lookup_lt_Some.
    - exists a. split; [done|]. unfold forwards. rewrite lookup_zip_with, Hp, Ha. done. }
  assert (Hfwd : ∀ os p a, content os (forward (V := V) p a) = os !! a) by (by intros os [] a).
  assert (Hob : ∀ p a, object_of (forward (V := V) p a) = Some a) by (by intros [] a).
  assert (Hmd : ∀ q p a, made q (forward (V := V) p a) = negb (is_ref q)) by (by intros [] [] a).
  assert (Hgone : ∀ i b, ps !! i = Some Val → es !! i = Some (Xv b) → objects s3 !! b = Some None).
  { intros i b Hp He. assert (Lb := content_lt _ _ b (proj1 Hs i _ He) eq_refl).
    assert (W := W1 b (ex_intro _ i (conj Hp He))).
    assert (V2 : objects s2 !! b = Some None).
    { destruct (away_dec (V := V) ps (forwards ps as1) b) as [H|H]; [by apply W2|]. rewrite K2; [done|lia|done]. }
    destruct (away_dec (V := V) fs (forwards ps as2) b) as [H|H]; [by apply W3|]. rewrite K3; [done|lia|done]. }
  exists as3, s3. split_and!.
  - unfold op_call, invoke, bind. by rewrite E1, E2, E3.
  - done.
  - intros i p f e a Hp Hf He Ha.
    destruct (Hw as1 i p L1 Hp) as (a1 & Ha1 & F1). destruct (Hw as2 i p L2 Hp) as (a2 & Ha2 & F2).
    destruct (O1 i p e a1 Hp He Ha1) as [V1 A1]. destruct (O2 i p _ a2 Hp F1 Ha2) as [V2 A2].
    destruct (O3 i f _ a Hf F2 Ha) as [V3 A3]. rewrite Hmd in A2, A3. rewrite Hob in A2, A3. split_and!.
    + rewrite V3, Hfwd, V2, Hfwd. done.
    + intros [Hrp Hrf]%andb_true_iff b Hb. rewrite Hrp in A2. rewrite Hrf in A3. simpl in *.
      assert (made p e = false) as Hm by (destruct p, e; done). rewrite Hm in A1. congruence.
    + intros Hr. split.
      * destruct (is_ref f); simpl in A3; [|lia]. rewrite andb_true_r in Hr. rewrite Hr in A2. simpl in A2. injection A3 as <-. lia.
      * intros j p' f' b n Hp' Hf' Hb ->.
        destruct (Hw as1 j p' L1 Hp') as (b1 & Hb1 & F1'). destruct (Hw as2 j p' L2 Hp') as (b2 & Hb2 & F2').
        destruct (O2 j p' _ b2 Hp' F1' Hb2) as [V2' A2']. destruct (O3 j f' _ b Hf' F2' Hb) as [V3' A3'].
        rewrite Hmd in A2', A3'. rewrite Hob in A2', A3'.
        assert (B2 : a2 < length (objects s2)). { apply lookup_lt_is_Some. rewrite <- (Hfwd (objects s2) p a2). by apply (proj1 Hs2 i). }
        assert (B2' : b2 < length (objects s2)). { apply lookup_lt_is_Some. rewrite <- (Hfwd (objects s2) p' b2). by apply (proj1 Hs2 j). }
        destruct (is_ref f) eqn:Rf, (is_ref f') eqn:Rf'; simpl in A3, A3'.
        -- rewrite andb_true_r in Hr. injection A3 as <-. injection A3' as <-.
           assert (p = Val) as -> by (by destruct p). apply (proj2 Hs2 i j _ b2 (not_eq_sym n) F2 F2'), Hob.
        -- injection A3 as <-. lia.
        -- injection A3' as <-. lia.
        -- destruct (decide (i < j)).
           ++ assert (b < b); [|lia]. apply (D3 i j f f' _ _ b b l Hf Hf' F2 F2' Ha Hb); by rewrite Hmd, ?Rf, ?Rf'.
           ++ assert (b < b); [|lia]. apply (D3 j i f' f _ _ b b ltac:(lia) Hf' Hf F2' F2 Hb Ha); by rewrite Hmd, ?Rf, ?Rf'.
  - intros b o Hb. assert (Lb := lookup_lt_Some _ _ _ Hb).
    destruct (away_dec ps es b) as [(i & Hp & He)|H1].
    { right. destruct (lookup_lt_is_Some_2 fs i) as [f Hf]; [rewrite Lf; by eapply lookup_lt_Some|].
      split; [by eapply Hgone|]. exists i, Val, f, (Xv b). done. }
    assert (V1 := K1 b Lb H1).
    assert (V2 : objects s2 !! b = objects s1 !! b).
    { apply K2; [lia|]. intros (i & Hp & F). destruct (Hw as1 i Val L1 Hp) as (a1 & Ha1 & F1). rewrite F1 in F. injection F as ->.
      destruct (lookup_lt_is_Some_2 es i) as [e He]; [rewrite Le; by eapply lookup_lt_Some|].
      destruct (O1 i Val e b Hp He Ha1) as [_ A1]. simpl in A1. lia. }
    destruct (away_dec (V := V) fs (forwards ps as2) b) as [(i & Hf & F)|H3].
    { right. destruct (lookup_lt_is_Some_2 ps i) as [p Hp]; [rewrite <- Lf; by eapply lookup_lt_Some|].
      destruct (lookup_lt_is_Some_2 es i) as [e He]; [rewrite Le; by eapply lookup_lt_Some|].
      destruct (Hw as1 i p L1 Hp) as (a1 & Ha1 & F1). destruct (Hw as2 i p L2 Hp) as (a2 & Ha2 & F2).
      destruct (O1 i p e a1 Hp He Ha1) as [_ A1]. destruct (O2 i p _ a2 Hp F1 Ha2) as [_ A2]. rewrite Hmd, Hob in A2.
      rewrite F2 in F. specialize (Hfit i p e Hp He). destruct p; simpl in F; try done; injection F as ->; simpl in A2; [lia|].
      injection A2 as ->. destruct e as [c a|a|v]; simpl in A1, Hfit; [done| |lia]. injection A1 as ->.
      split; [apply W3; exists i; by rewrite F2|]. exists i, Mov, Val, (Xv b). done. }
    left. rewrite K3, V2, V1; [done|lia|done].
  - intros i p f e b Hp Hf He Ho Ht. destruct e as [c a|a|v]; try done. injection Ho as ->.
    destruct p; try done; [by eapply Hgone|]. destruct f; try done.
    destruct (Hw as1 i Mov L1 Hp) as (a1 & Ha1 & F1). destruct (Hw as2 i Mov L2 Hp) as (a2 & Ha2 & F2).
    destruct (O1 i Mov _ a1 Hp He Ha1) as [_ A1]. destruct (O2 i Mov _ a2 Hp F1 Ha2) as [_ A2]. simpl in *.
    injection A1 as ->. injection A2 as ->. apply W3. by exists i.
  - rewrite C3, C2, C1. rewrite (sum_split copied copies1 ps fs es as1 as2); try done; try lia.
    intros p f e a b. by destruct p, f, e.
  - rewrite M3, M2, M1. rewrite (sum_split moved moves1 ps fs es as1 as2); try done; try lia.
    intros p f e a b. by destruct p, f, e.
Qed.
(** Three arguments: an lvalue by value, an xvalue as T&& that the functor takes by value,
    an lvalue by reference. *)
Definition ex_mem : mem nat := Mem [Some 10; Some 20; Some 30] 0 0.
Definition ex_sig : list par := [Val; Mov; Ref; Val].
Definition ex_fun : list par := [CRef; Val; Ref; Val].
Definition ex_args : list (arg nat) := [Lv true 0; Xv 1; Lv false 2; Pr 40].
Example delegate_arguments_ex : sound (objects ex_mem) ex_args ∧
  (∀ i p e, ex_sig !! i = Some p → ex_args !! i = Some e → fits p e = true) ∧
  (∀ i p f, ex_sig !! i = Some p → ex_fun !! i = Some f → takes p f = true) ∧
  op_call ex_sig ex_fun ex_args ex_mem =
    Ok [5; 7; 2; 8] (Mem [Some 10; None; Some 30; None; None; Some 10; None; Some 20; Some 40] 1 4) ∧
  total copied ex_sig ex_fun ex_args = 1 ∧ total moved ex_sig ex_fun ex_args = 4.
Proof.
  split_and!; try (by vm_compute).
  - split.
    + intros [|[|[|[|i]]]] e H; simplify_eq/=; by eexists.
    + intros [|[|[|[|i]]]] [|[|[|[|j]]]] e a n Hi Hj; simplify_eq/=; done.
  - intros [|[|[|[|i]]]] p e H1 H2; by simplify_eq/=.
  - intros [|[|[|[|i]]]] p f H1 H2; by simplify_eq/=.
Qed.

(** A call with too many or too few arguments, or whose arguments do not fit the signature, or with a functor whose parameters do
    not take those of the signature, does not compile. *)
Lemma inits_bad {V} ps : ∀ (es : list (arg V)) s, sound (objects s) es →
  length ps ≠ length es ∨ (∃ i p e, ps !! i = Some p ∧ es !! i = Some e ∧ fits p e = false) → inits ps es s = UB NoObject.
Proof.
  induction ps as [|q ps IH]; intros [|d es] s [Hc Hx] Hbad; try done.
  { by destruct Hbad as [?|(i & p & e & ? & _)]. }
  destruct (fits q d) eqn:Hq.
  - destruct (init_spec q d s) as (a & s1 & E1 & _ & _ & L1 & _ & _ & K1); [by apply (Hc 0)|done|].
    simpl. unfold bind. rewrite E1. rewrite IH; [done| |].
    + split.
      * intros j e' Hj. assert (H := Hc (S j) _ Hj). destruct e' as [c b|b|v]; simpl in *; [| |by eexists];
          (rewrite K1; [|by apply lookup_lt_is_Some]); by destruct (from q d b).
      * intros i' j e' b n Hi Hj. apply (Hx (S i') (S j)); [lia|done..].
    + destruct Hbad as [Hl|(i & p & e & Hp & He & Hf)]; [left; simpl in Hl; lia|].
      destruct i as [|i]; simpl in *; [congruence|]. right. by exists i, p, e.
  - simpl. unfold bind. by destruct q, d as [[] ?|?|?].
Qed.
Lemma fits_dec {V} (ps : list par) : ∀ es : list (arg V), (∀ i p e, ps !! i = Some p → es !! i = Some e → fits p e = true) ∨
  ∃ i p e, ps !! i = Some p ∧ es !! i = Some e ∧ fits p e = false.
Proof.
  induction ps as [|p ps IH]; intros [|e es]; [by left..|].
  destruct (fits p e) eqn:E; [|right; by exists 0, p, e].
  destruct (IH es) as [H|(i & p' & e' & H)]; [left|right; by exists (S i), p', e'].
  intros [|i] p' e' Hp He; simpl in *; [congruence|by eapply H].
Qed.
Theorem delegate_arguments_compile {V} (ps fs : list par) (es : list (arg V)) s : sound (objects s) es →
  length es ≠ length ps ∨ length fs ≠ length ps ∨
  (∃ i p e, ps !! i = Some p ∧ es !! i = Some e ∧ fits p e = false) ∨
  (∃ i p f, ps !! i = Some p ∧ fs !! i = Some f ∧ takes p f = false) →
  op_call ps fs es s = UB NoObject.
Proof.
  intros Hs Hbad. destruct (decide (length es = length ps)) as [Le|Le].
  2:{ unfold op_call, bind. rewrite inits_bad; [done..|]. left. lia. }
  destruct (fits_dec ps es) as [Hfit|H]; [|unfold op_call, bind; by rewrite inits_bad by eauto].
  destruct (inits_spec ps es s) as (as1 & s1 & E1 & S1); [done..|].
  assert (Hs1 := forwards_sound _ _ _ _ _ (eq_sym Le) Hs Hfit S1).
  assert (L1 : length as1 = length ps) by apply S1.
  assert (Hfit1 : ∀ i p e, ps !! i = Some p → forwards (V := V) ps as1 !! i = Some e → fits p e = true).
  { intros j p' e' Hp' (p'' & a & Hp'' & _ & ->)%forwards_lookup. assert (p'' = p') as -> by congruence. by destruct p'. }
  assert (Lw : length ps = length (forwards (V := V) ps as1)) by (unfold forwards; rewrite zip_with_length; lia).
  destruct (inits_spec ps (forwards ps as1) s1) as (as2 & s2 & E2 & S2); [done..|].
  assert (Hs2 := forwards_sound _ _ _ _ _ Lw Hs1 Hfit1 S2).
  assert (L2 : length as2 = length ps) by apply S2.
  unfold op_call, invoke, bind. rewrite E1, E2. apply inits_bad; [done|].
  destruct Hbad as [H|[H|[(i & p & e & Hp & He & H)|(i & p & f & Hp & Hf & H)]]].
  - done.
  - left. unfold forwards. rewrite zip_with_length. lia.
  - by rewrite (Hfit i p e) in H.
  - right. destruct (lookup_lt_is_Some_2 as2 i) as [a Ha]; [rewrite L2; by eapply lookup_lt_Some|].
    exists i, f, (forward p a). split_and!; [done| |by destruct p, f].
    unfold forwards. rewrite lookup_zip_with, Hp. simpl. by rewrite Ha.
Qed.
Example delegate_arguments_compile_ex :
  op_call [Val] [Ref] [Pr 1] ex_mem = UB NoObject ∧ op_call [Mov] [Mov] [Lv false 0] ex_mem = UB NoObject ∧
  op_call [Ref] [Mov] [Lv false 0] ex_mem = UB NoObject ∧ op_call [Ref] [CRef] [Xv 0] ex_mem = UB NoObject ∧
  op_call [Val] [Val] [Pr 1; Pr 2] ex_mem = UB NoObject ∧ op_call [Val] [Val; Val] [Pr 1] ex_mem = UB NoObject.
Proof. by vm_compute. Qed.

(** Calling through a Delegate is not as cheap as calling the functor: here nothing is moved
    by a direct call, and twice by the delegate, whose m_callable takes Args... by value too. *)
Theorem delegate_arguments_refuted : ∃ ps fs (es : list (arg nat)) s s1 s2,
  inits fs es s = Ok [0] s1 ∧ moves s1 = moves s ∧ (∃ as_, op_call ps fs es s = Ok as_ s2) ∧ moves s2 = 2 + moves s.
Proof. exists [Val], [CRef], [Xv 0], ex_mem. do 2 eexists. split_and!; [vm_compute; done|done|eexists; vm_compute; done|done]. Qed.

Definition forward_theorems := (@delegate_arguments, @delegate_arguments_compile, delegate_arguments_refuted).
Print Assumptions forward_theorems.
