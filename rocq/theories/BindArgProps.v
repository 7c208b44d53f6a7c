(** Theorems about the arguments of bind_front and bind_back (property C168). *)
From stdpp Require Import list.
From Coq Require Import Lia.
From Verif Require Import Base ForwardModel ForwardProps BindArgModel.
Local Open Scope mon_scope.
Local Arguments objects {_}. Local Arguments copies {_}. Local Arguments moves {_}.

(** ** What is expected *)
Section spec.
Context {V : Type}.
(** A bound argument as an argument of the callable *)
Definition bound_arg (c : cat) (a : nat) : arg V :=
  match c with X => Xv a | L => Lv false a | _ => Lv true a end.
Definition copied_to (f : par) (e : arg V) : nat := match f, e with Val, Lv _ _ => 1 | _, _ => 0 end.
Definition moved_to (f : par) (e : arg V) : nat := match f, e with Val, Xv _ | Val, Pr _ => 1 | _, _ => 0 end.
Fixpoint sum (c : par → arg V → nat) (fs : list par) (es : list (arg V)) : nat :=
  match fs, es with f :: fs, e :: es => c f e + sum c fs es | _, _ => 0 end.
(** The parameters [fs] are initialised with [es] at [as_]: they have the values, references
    refer to the arguments, everything else is new, and only what is passed as an rvalue and
    taken by value changes. *)
Definition passed (fs : list par) (es : list (arg V)) (s : mem V) (as_ : list nat) (s' : mem V) : Prop :=
  length as_ = length fs ∧
  (∀ i f e a, fs !! i = Some f → es !! i = Some e → as_ !! i = Some a →
     objects s' !! a = content (objects s) e ∧
     (f ≠ Val → ∀ b, object_of e = Some b → a = b) ∧
     (f = Val → length (objects s) ≤ a ∧ ∀ j b, j ≠ i → as_ !! j = Some b → a ≠ b)) ∧
  (∀ b o, objects s !! b = Some o → objects s' !! b = Some o ∨
     objects s' !! b = Some None ∧ ∃ i, fs !! i = Some Val ∧ es !! i = Some (Xv b)) ∧
  (∀ i b, fs !! i = Some Val → es !! i = Some (Xv b) → objects s' !! b = Some None) ∧
  copies s' = copies s + sum copied_to fs es ∧ moves s' = moves s + sum moved_to fs es.
End spec.

(** ** Passing by T&& *)
Definition is_pr {V} (e : arg V) : bool := match e with Pr _ => true | _ => false end.
Definition plain {V} (es : list (arg V)) : Prop := Forall (λ e, is_pr e = false) es.
Lemma pass_id {V} (es : list (arg V)) s : plain es → pass es s = Ok es s.
Proof.
  unfold pass, bind. induction es as [|e es IH]; intros H; [done|]. apply Forall_cons in H as [He H]. specialize (IH H).
  cbn [map inits]. unfold bind, ret in *. assert (init (universal e) e s = Ok (default 0 (object_of e)) s) as ->.
  { by destruct e as [[]|?|?]. }
  destruct (inits (map universal es) es s) as [as_ s'|?|?]; [|done..]. injection IH as IH ->. unfold forwards in *. cbn [zip_with]. rewrite IH.
  by destruct e as [[]|?|?].
Qed.
Lemma pass_app_l {V} (xs es : list (arg V)) s : plain xs → pass (xs ++ es) s = (ws <- pass es ;; ret (xs ++ ws)) s.
Proof.
  unfold pass. revert s. induction xs as [|e xs IH]; intros s H.
  { cbn [app]. unfold bind, ret. by destruct (inits _ _ s). }
  apply Forall_cons in H as [He H]. specialize (IH s H). cbn [app map inits]. unfold bind, ret in *.
  assert (init (universal e) e s = Ok (default 0 (object_of e)) s) as -> by (by destruct e as [[]|?|?]).
  destruct (inits (map universal (xs ++ es)) (xs ++ es) s) as [as_ s'|?|?].
  - destruct (inits (map universal es) es s) as [bs t|?|?]; try done. injection IH as IH ->. unfold forwards in *. cbn [zip_with]. rewrite IH. by destruct e as [[]|?|?].
  - by destruct (inits (map universal es) es s) as [bs t|?|?].
  - by destruct (inits (map universal es) es s) as [bs t|?|?].
Qed.
Lemma pass_app_r {V} (xs es : list (arg V)) : ∀ s, plain xs → pass (es ++ xs) s = (ws <- pass es ;; ret (ws ++ xs)) s.
Proof.
  induction es as [|e es IH]; intros s H.
  { cbn [app]. rewrite pass_id by done. done. }
  cbn [app]. unfold pass in *. cbn [app map inits]. unfold bind, ret in *.
  destruct (init (universal e) e s) as [a s1|?|?]; [|done..]. specialize (IH s1 H).
  destruct (inits (map universal (es ++ xs)) (es ++ xs) s1) as [as_ s'|?|?].
  - destruct (inits (map universal es) es s1) as [bs t|?|?]; try done. injection IH as IH ->. unfold forwards in *. cbn [zip_with]. by rewrite IH.
  - by destruct (inits (map universal es) es s1) as [bs t|?|?].
  - by destruct (inits (map universal es) es s1) as [bs t|?|?].
Qed.

Lemma pass_spec {V} (es : list (arg V)) s : sound (objects s) es → ∃ ws s', pass es s = Ok ws s' ∧ plain ws ∧
  length ws = length es ∧ sound (objects s') ws ∧ copies s' = copies s ∧ moves s' = moves s ∧
  length (objects s) ≤ length (objects s') ∧ (∀ b, b < length (objects s) → objects s' !! b = objects s !! b) ∧
  (∀ i e w, es !! i = Some e → ws !! i = Some w → content (objects s') w = content (objects s) e ∧
     if is_pr e then ∃ a, w = Xv a ∧ length (objects s) ≤ a else w = e).
Proof.
  intros Hs. assert (Hu : ∀ i p e, map universal es !! i = Some p → es !! i = Some e → p = universal e).
  { intros i p e Hp He. rewrite list_lookup_fmap, He in Hp. by injection Hp. }
  assert (Hf : ∀ i p e, map universal es !! i = Some p → es !! i = Some e → fits p e = true).
  { intros i p e Hp He. rewrite (Hu i p e) by done. by destruct e as [[]|?|?]. }
  assert (Hl : length (map universal es) = length es) by apply map_length.
  destruct (inits_spec (map universal es) es s Hl Hs Hf) as (as_ & s' & E & St).
  assert (Hs' := forwards_sound _ _ _ _ _ Hl Hs Hf St). destruct St as (Ln & C & M & N & O & _ & K & _).
  assert (Hz : ∀ d, (∀ e, d (universal e) e = 0) → sum1 d (map universal es) es = 0).
  { intros d Hd. clear - Hd. induction es as [|e es IH]; [done|]. cbn. by rewrite Hd, IH. }
  assert (Hna : ∀ b, ¬ away (map universal es) es b).
  { intros b (i & Hp & He). specialize (Hu i _ _ Hp He). done. }
  exists (forwards (map universal es) as_), s'. split_and!.
  - unfold pass, bind. by rewrite E.
  - apply Forall_lookup. intros i w (p & a & _ & _ & ->)%forwards_lookup. by destruct p.
  - unfold forwards. rewrite zip_with_length. lia.
  - done.
  - rewrite C, Hz; [lia|]. by intros [[]|?|?].
  - rewrite M, Hz; [lia|]. by intros [[]|?|?].
  - done.
  - intros b Hb. by apply K.
  - intros i e w He (p & a & Hp & Ha & ->)%forwards_lookup. destruct (O i p e a Hp He Ha) as [O' A].
    rewrite (Hu i p e Hp He) in *. split.
    + rewrite <- O'. by destruct e as [[]|?|?].
    + destruct e as [[]|?|?]; simpl in *; [congruence..|]. eauto.
Qed.

(** ** The callable's parameters *)
Lemma sum_passed {V} (d e' : par → arg V → nat) fs : ∀ es ws, length ws = length es →
  (∀ i f e w, es !! i = Some e → ws !! i = Some w → d f w = e' f e) → sum1 d fs ws = sum e' fs es.
Proof.
  induction fs as [|f fs IH]; intros [|e es] [|w ws] Hl H; try done. cbn. rewrite (H 0 f e w) by done.
  rewrite (IH es ws); [done|by simpl in Hl; lia|]. intros i g x y Hx Hy. by apply (H (Datatypes.S i)).
Qed.
Lemma pass_inits {V} fs (es : list (arg V)) s : length fs = length es → sound (objects s) es →
  (∀ i f e, fs !! i = Some f → es !! i = Some e → fits f e = true) →
  ∃ as_ s', (es1 <- pass es ;; es2 <- pass es1 ;; inits fs es2) s = Ok as_ s' ∧ passed fs es s as_ s'.
Proof.
  intros Hl Hs Hf. destruct (pass_spec es s Hs) as (ws & s1 & E1 & Hp & Lw & Hs1 & C1 & M1 & N1 & K1 & W).
  assert (Hw : ∀ i e, es !! i = Some e → ∃ w, ws !! i = Some w).
  { intros i e He. apply lookup_lt_is_Some. rewrite Lw. by eapply lookup_lt_Some. }
  assert (He : ∀ i w, ws !! i = Some w → ∃ e, es !! i = Some e).
  { intros i w Hw'. apply lookup_lt_is_Some. rewrite <- Lw. by eapply lookup_lt_Some. }
  assert (Hf1 : ∀ i f w, fs !! i = Some f → ws !! i = Some w → fits f w = true).
  { intros i f w Hfi Hwi. destruct (He i w Hwi) as [e Hei]. destruct (W i e w Hei Hwi) as [_ H]. specialize (Hf i f e Hfi Hei).
    destruct e as [c a|a|v]; simpl in H; [by subst..|]. destruct H as (a & -> & _). by destruct f. }
  destruct (inits_spec fs ws s1) as (as_ & s2 & E2 & Ln & C & M & N & O & D & K & A); [congruence|done..|].
  exists as_, s2. split; [unfold bind; rewrite E1, pass_id by done; exact E2|].
  assert (Hmade : ∀ f w i, ws !! i = Some w → made f w = negb (is_ref f)).
  { intros f w i Hwi. unfold plain in Hp. rewrite Forall_lookup in Hp. specialize (Hp i w Hwi). by destruct f, w. }
  assert (Hxv : ∀ i b, b < length (objects s) → ws !! i = Some (Xv b) → es !! i = Some (Xv b)).
  { intros i b Hb Hwi. destruct (He i _ Hwi) as [e Hei]. destruct (W i e _ Hei Hwi) as [_ H].
    destruct e as [c a|a|v]; simpl in H; [congruence..|]. destruct H as (a & [= ->] & ?). lia. }
  assert (Hvx : ∀ i b, es !! i = Some (Xv b) → ws !! i = Some (Xv b)).
  { intros i b Hei. destruct (Hw i _ Hei) as [w Hwi]. destruct (W i _ _ Hei Hwi) as [_ H]. simpl in H. congruence. }
  unfold passed. split_and!.
  - done.
  - intros i f e a Hfi Hei Ha. destruct (Hw i e Hei) as [w Hwi]. destruct (W i e w Hei Hwi) as [V1 H].
    destruct (O i f w a Hfi Hwi Ha) as [V2 A2]. rewrite (Hmade f w i Hwi) in A2. split_and!.
    + congruence.
    + intros n b Hb. destruct f; try done; simpl in A2; destruct e; simpl in *; try done; subst; simpl in *; congruence.
    + intros ->. simpl in A2. split; [lia|]. intros j b n Hb ->.
      destruct (lookup_lt_is_Some_2 fs j) as [g Hg]; [rewrite <- Ln; by eapply lookup_lt_Some|].
      destruct (lookup_lt_is_Some_2 ws j) as [x Hx]; [rewrite Lw, <- Hl; by eapply lookup_lt_Some|].
      destruct (O j g x b Hg Hx Hb) as [_ B2]. rewrite (Hmade g x j Hx) in B2. destruct (is_ref g) eqn:Rg; simpl in B2.
      * assert (Hb' := content_lt _ _ b (proj1 Hs1 j x Hx) B2). lia.
      * destruct (decide (i < j)).
        -- assert (b < b); [|lia]. eapply (D i j Val g w x b b); try done. by rewrite (Hmade g x j Hx), Rg.
        -- assert (b < b); [|lia]. eapply (D j i g Val x w b b); try done; [lia|]. by rewrite (Hmade g x j Hx), Rg.
  - intros b o Hb. assert (Lb := lookup_lt_Some _ _ _ Hb). destruct (away_dec fs ws b) as [(i & Hfi & Hwi)|Hn].
    + right. split; [apply A; by exists i|]. exists i. split; [done|]. by apply Hxv.
    + left. rewrite K, K1; [done|lia|lia|done].
  - intros i b Hfi Hei. apply A. exists i. split; [done|]. by apply Hvx.
  - rewrite C, C1. f_equal. apply (sum_passed _ _ fs es ws Lw). intros i f e w Hei Hwi. destruct (W i e w Hei Hwi) as [_ H].
    destruct e as [c a|a|v]; simpl in H; [by subst..|]. destruct H as (a & -> & _). by destruct f.
  - rewrite M, M1. f_equal. apply (sum_passed _ _ fs es ws Lw). intros i f e w Hei Hwi. destruct (W i e w Hei Hwi) as [_ H].
    destruct e as [c a|a|v]; simpl in H; [by subst..|]. destruct H as (a & -> & _). by destruct f.
Qed.

(** ** C168 *)

(** Binding makes a new object for each argument: lvalues are copied once, rvalues are moved
    once and never copied. *)
Theorem bind_arguments {V} (es : list (arg V)) s : sound (objects s) es →
  ∃ bound s', bind_args es s = Ok bound s' ∧ passed (replicate (length es) Val) es s bound s'.
Proof.
  intros Hs. destruct (pass_inits (replicate (length es) Val) es s) as (as_ & s' & E & P).
  - by rewrite replicate_length.
  - done.
  - intros i f e [-> _]%lookup_replicate _. done.
  - exists as_, s'. split; [|done]. rewrite <- E. destruct (pass_spec es s Hs) as (ws & s1 & E1 & Hp & Lw & _).
    unfold bind_args, bind. rewrite E1, pass_id by done. by rewrite Lw.
Qed.

Lemma plain_get {V} c as_ : plain (V := V) (map (get c) as_).
Proof. apply Forall_lookup. intros i e H. rewrite list_lookup_fmap in H. destruct (as_ !! i); [|done]. injection H as <-. by destruct c. Qed.
Lemma get_bound {V} c as_ : map (get (V := V) c) as_ = map (bound_arg c) as_.
Proof. apply map_ext. by destruct c. Qed.
Lemma front_eq {V} c fs bound (es : list (arg V)) s : sound (objects s) (map (bound_arg c) bound ++ es) → call_front c fs bound es s =
  (es1 <- pass (map (bound_arg c) bound ++ es) ;; es2 <- pass es1 ;; inits fs es2) s.
Proof.
  intros Hs. rewrite <- get_bound. unfold call_front. unfold bind at 3. rewrite pass_app_l by apply plain_get. unfold bind, ret.
  destruct (pass es s) as [ws s1|?|?] eqn:E; [|done..]. rewrite pass_app_l by apply plain_get. unfold bind, ret.
  by destruct (pass ws s1).
Qed.
Lemma back_eq {V} c fs bound (es : list (arg V)) s : call_back c fs bound es s =
  (es1 <- pass (es ++ map (bound_arg c) bound) ;; es2 <- pass es1 ;; inits fs es2) s.
Proof.
  rewrite <- get_bound. unfold call_back. unfold bind at 3. rewrite pass_app_r by apply plain_get. unfold bind, ret.
  destruct (pass es s) as [ws s1|?|?] eqn:E; [|done..]. rewrite pass_app_r by apply plain_get. unfold bind, ret.
  by destruct (pass ws s1).
Qed.

(** A call of the bound callable is a call with the bound arguments before (after) the given
    ones. They are lvalues of the bound callable's constness, or rvalues if it is called as a
    non-const rvalue; by [passed] a call as an lvalue leaves them as they are. *)
Theorem bound_arguments {V} (front : bool) c (fs : list par) bound (es : list (arg V)) s :
  let all := if front then map (bound_arg c) bound ++ es else es ++ map (bound_arg c) bound in
  length fs = length all → sound (objects s) all →
  (∀ i f e, fs !! i = Some f → all !! i = Some e → fits f e = true) →
  ∃ as_ s', (if front then call_front else call_back) c fs bound es s = Ok as_ s' ∧ passed fs all s as_ s'.
Proof.
  intros all Hl Hs Hf. destruct (pass_inits fs all s Hl Hs Hf) as (as_ & s' & E & P).
  exists as_, s'. split; [|done]. rewrite <- E. unfold all in *. destruct front; [by apply front_eq|apply back_eq].
Qed.

(** A callable whose parameters do not fit these arguments does not compile: bound
    arguments are no rvalues unless the bound callable is one, for example. *)
Theorem bound_arguments_compile {V} (front : bool) c (fs : list par) bound (es : list (arg V)) s :
  let all := if front then map (bound_arg c) bound ++ es else es ++ map (bound_arg c) bound in
  sound (objects s) all →
  length fs ≠ length all ∨ (∃ i f e, fs !! i = Some f ∧ all !! i = Some e ∧ fits f e = false) →
  (if front then call_front else call_back) c fs bound es s = UB NoObject.
Proof.
  intros all Hs Hbad.
  assert ((es1 <- pass all ;; es2 <- pass es1 ;; inits fs es2) s = UB NoObject) as E.
  { destruct (pass_spec all s Hs) as (ws & s1 & E1 & Hp & Lw & Hs1 & _ & _ & _ & _ & W).
    unfold bind. rewrite E1, pass_id by done. apply inits_bad; [done|].
    destruct Hbad as [H|(i & f & e & Hfi & Hei & Hf)]; [left; congruence|right].
    destruct (lookup_lt_is_Some_2 ws i) as [w Hw]; [rewrite Lw; by eapply lookup_lt_Some|].
    exists i, f, w. split_and!; [done..|]. destruct (W i e w Hei Hw) as [_ H].
    destruct e as [cc a|a|v]; simpl in H; [by subst..|]. destruct H as (a & -> & _). by destruct f. }
  rewrite <- E. unfold all in *. destruct front; [by apply front_eq|apply back_eq].
Qed.

(** An lvalue and a prvalue are bound; the callable takes the first by value, the second by
    reference and the call argument by value. *)
Example bind_arguments_ex : bind_args [Lv false 0; Pr 40] (Mem [Some 10; Some 20] 0 0) =
  Ok [3; 4] (Mem [Some 10; Some 20; None; Some 10; Some 40] 1 1).
Proof. by vm_compute. Qed.
Example bound_arguments_ex : let s := Mem [Some 10; Some 20; None; Some 10; Some 40] 1 1 in
  call_front L [Val; Ref; Val] [3; 4] [Xv 1] s = Ok [5; 4; 6] (Mem [Some 10; None; None; Some 10; Some 40; Some 10; Some 20] 2 2) ∧
  call_front X [Val; CRef; Val] [3; 4] [Xv 1] s = Ok [5; 4; 6] (Mem [Some 10; None; None; None; Some 40; Some 10; Some 20] 1 3) ∧
  call_back CX [Val; Val; CRef] [3; 4] [Xv 1] s = Ok [5; 6; 4] (Mem [Some 10; None; None; Some 10; Some 40; Some 20; Some 10] 2 2).
Proof. by vm_compute. Qed.
Example bound_arguments_compile_ex : let s := Mem [Some 10] 0 0 in
  call_front L [Mov] [0] [] s = UB NoObject ∧ call_front CL [Ref] [0] [] s = UB NoObject ∧
  call_back CX [Mov] [0] [] s = UB NoObject ∧ call_back X [Ref] [0] [] s = UB NoObject ∧
  call_back X [Mov] [0] [] s = Ok [0] s ∧ call_back L [Val] [0] [Pr 1] s = UB NoObject.
Proof. by vm_compute. Qed.

Definition bind_arg_theorems := (@bind_arguments, @bound_arguments, @bound_arguments_compile).
Print Assumptions bind_arg_theorems.
