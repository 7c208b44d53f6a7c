(** Enclosures of the limits behind zeta_three_v, catalan_v and euler_v, for SeriesProps.v.

    The remainder of each series is approximated by a polynomial in 1/x. That the
    approximation errs on one side is an inequality between rational functions for all
    x from some n on. [check] decides it: in y = 1/x the lowest coefficient of the
    numerator is positive and outweighs all the others for y up to 1/n. *)
From Coq Require Import ZArith Lia List Reals Lra.
Import ListNotations.
Local Open Scope R_scope.

(** * Polynomials with integer coefficients, lowest degree first *)
Fixpoint peval (p : list Z) (x : R) : R :=
  match p with [] => 0 | c :: p' => IZR c + x * peval p' x end.
Fixpoint padd (p q : list Z) : list Z :=
  match p, q with [], _ => q | _, [] => p | a :: p', b :: q' => (a + b)%Z :: padd p' q' end.
Definition pscale (k : Z) (p : list Z) : list Z := map (Z.mul k) p.
Fixpoint pmul (p q : list Z) : list Z :=
  match p with [] => [] | a :: p' => padd (pscale a q) (0%Z :: pmul p' q) end.
Fixpoint pderiv (k : Z) (p : list Z) : list Z := match p with [] => [] | c :: p' => (k * c)%Z :: pderiv (k + 1) p' end.

Lemma padd_eval p q x : peval (padd p q) x = peval p x + peval q x.
Proof.
  revert q; induction p as [|a p IH]; intros q; [cbn; ring|]. destruct q as [|b q]; [cbn; ring|].
  cbn. rewrite IH, plus_IZR. ring.
Qed.
Lemma pscale_eval k p x : peval (pscale k p) x = IZR k * peval p x.
Proof. unfold pscale. induction p as [|a p IH]; [cbn; ring|]. cbn [map peval]. rewrite IH, mult_IZR. ring. Qed.
Lemma pmul_eval p q x : peval (pmul p q) x = peval p x * peval q x.
Proof. induction p as [|a p IH]; [cbn; ring|]. cbn [pmul peval]. rewrite padd_eval, pscale_eval. cbn [peval]. rewrite IH. ring. Qed.
Lemma nonneg_eval p x : forallb (Z.leb 0) p = true -> 0 <= x -> 0 <= peval p x.
Proof.
  intros Hp Hx. induction p as [|a p IH]; [cbn; lra|]. cbn in *. apply andb_prop in Hp as [Ha Hp].
  apply Z.leb_le, IZR_le in Ha. specialize (IH Hp). pose proof (Rmult_le_pos _ _ Hx IH). lra.
Qed.

(** * Sums of terms q(1/(b + t)) *)
(** With x = n + t, y = 1/x and a = b - n the term is q(y / (1 + a y)). *)
Definition mullin (a : Z) (p : list Z) : list Z := padd p (0%Z :: pscale a p).
Definition mulpow (a : Z) (k : nat) (p : list Z) : list Z := if (a =? 0)%Z then p else Nat.iter k (mullin a) p.
Lemma mullin_eval a p y : peval (mullin a p) y = (1 + IZR a * y) * peval p y.
Proof. unfold mullin. rewrite padd_eval. cbn [peval]. rewrite pscale_eval. ring. Qed.
Lemma mulpow_eval a k p y : peval (mulpow a k p) y = (1 + IZR a * y) ^ k * peval p y.
Proof.
  unfold mulpow. destruct (Z.eqb_spec a 0) as [->|_]; [rewrite Rmult_0_l, Rplus_0_r, pow1; ring|].
  induction k as [|k IH]; [cbn; ring|]. cbn [Nat.iter nat_rect pow]. unfold Nat.iter in IH. rewrite mullin_eval, IH. ring.
Qed.
(** The numerator of q(y / (1 + a y)) over (1 + a y)^(length q). *)
Fixpoint hom (a : Z) (acc : list Z) (k : nat) (q : list Z) : list Z :=
  match q with [] => mullin a acc | c :: q' => hom a (padd (mullin a acc) (repeat 0%Z k ++ [c])) (S k) q' end.
Lemma monomial_eval k c y : peval (repeat 0%Z k ++ [c]) y = IZR c * y ^ k.
Proof. induction k as [|k IH]; [cbn; ring|]. cbn [repeat app peval pow]. rewrite IH. ring. Qed.
Lemma hom_eval a q y : 0 < 1 + IZR a * y -> forall acc k, peval (hom a acc k q) y =
  (1 + IZR a * y) ^ S (length q) * peval acc y + y ^ k * (1 + IZR a * y) ^ length q * peval q (y / (1 + IZR a * y)).
Proof.
  intros Ha. induction q as [|c q IH]; intros acc k; cbn [hom length].
  - rewrite mullin_eval. cbn. ring.
  - rewrite IH, padd_eval, mullin_eval, monomial_eval. cbn [peval pow]. field. lra.
Qed.
Definition term : Type := list Z * list Z.
Definition term_eval (a : term) (t : R) : R := peval (fst a) (/ peval (snd a) t).
Definition terms_eval (l : list term) (t : R) : R := fold_right (fun a r => term_eval a t + r) 0 l.
(** The terms as (q, a), for the smallest b among them. *)
Fixpoint shifts (n : Z) (l : list term) : option (list (list Z * Z)) :=
  match l with
  | [] => Some []
  | (q, [b; 1%Z]) :: l' => if (n <=? b)%Z then match shifts n l' with Some r => Some ((q, (b - n)%Z) :: r) | None => None end else None
  | _ => None
  end.
Definition den (l : list (list Z * Z)) (y : R) : R := fold_right (fun a r => (1 + IZR (snd a) * y) ^ length (fst a) * r) 1 l.
Definition mulden (l : list (list Z * Z)) (p : list Z) : list Z := fold_right (fun a r => mulpow (snd a) (length (fst a)) r) p l.
Fixpoint num (l : list (list Z * Z)) : list Z :=
  match l with [] => [] | (q, a) :: l' => padd (mulden l' (hom a [] 0 q)) (mulpow a (length q) (num l')) end.
Lemma mulden_eval l p y : peval (mulden l p) y = den l y * peval p y.
Proof. induction l as [|[q a] l IH]; cbn; [ring|]. unfold mulden in IH. rewrite mulpow_eval, IH. unfold den. ring. Qed.
Lemma shifts_eval n l r t : (0 < n)%Z -> 0 <= t -> shifts n l = Some r ->
  0 < den r (/ (IZR n + t)) /\ terms_eval l t * den r (/ (IZR n + t)) = peval (num r) (/ (IZR n + t)).
Proof.
  intros Hn Ht. apply IZR_lt in Hn. revert r; induction l as [|[q B] l IH]; intros r H; [injection H as <-; cbn; lra|].
  destruct B as [|b B]; [discriminate|]. destruct B as [|b1 B]; [discriminate|]. destruct b1 as [|p|]; [discriminate| |discriminate].
  destruct p; [discriminate|discriminate|]. destruct B as [|? B]; [|discriminate]. cbn [shifts] in H.
  destruct (Z.leb_spec n b) as [Hb|]; [|discriminate]. destruct (shifts n l) as [r'|]; [|discriminate]. injection H as <-.
  destruct (IH r' eq_refl) as [Hd IH']. set (y := / (IZR n + t)) in *. assert (Hy : 0 < y) by (apply Rinv_0_lt_compat; lra).
  apply IZR_le in Hb. assert (Ha : 0 < 1 + IZR (b - n) * y).
  { rewrite minus_IZR. pose proof (Rmult_le_pos (IZR b - IZR n) y ltac:(lra) ltac:(lra)). lra. }
  cbn [num]. rewrite padd_eval, mulden_eval, mulpow_eval, <- IH', (hom_eval _ _ _ Ha). cbn [peval pow].
  replace (y / (1 + IZR (b - n) * y)) with (/ peval [b; 1%Z] t).
  - cbn [den fold_right fst snd terms_eval]. unfold term_eval at 1. cbn [fst snd]. fold (den r' y) (terms_eval l t). split.
    + apply Rmult_lt_0_compat; [apply pow_lt|]; assumption.
    + ring.
  - cbn. unfold y in *. rewrite minus_IZR in *. field. split; [lra|]. intros E. lra.
Qed.
(** A polynomial is nonnegative between 0 and 1/n if its first coefficient outweighs the others. *)
Fixpoint bound (n : Z) (p : list Z) : Z := match p with [] => 0 | c :: p' => Z.abs c + (bound n p' / n + 1) end.
Fixpoint lowest (n : Z) (p : list Z) : bool :=
  match p with [] => true | 0%Z :: p' => lowest n p' | c :: p' => (bound n p' / n + 1 <=? c)%Z end.
Lemma bound_nonneg n p : (0 < n)%Z -> (0 <= bound n p)%Z.
Proof. intros Hn. induction p as [|c p IH]; cbn; [lia|]. pose proof (Z.div_pos _ _ IH Hn). lia. Qed.
Lemma bound_eval n p y : (0 < n)%Z -> 0 <= y <= / IZR n -> Rabs (peval p y) <= IZR (bound n p) /\ Rabs (y * peval p y) <= IZR (bound n p / n + 1).
Proof.
  intros Hn Hy. pose proof (IZR_lt _ _ Hn) as Hn'.
  assert (S : forall z k, Rabs z <= IZR k -> Rabs (y * z) <= IZR (k / n + 1)).
  { intros z k Hz. rewrite Rabs_mult, (Rabs_pos_eq y) by lra.
    apply (Rle_trans _ (/ IZR n * IZR k)); [apply Rmult_le_compat; [lra|apply Rabs_pos|lra|exact Hz]|].
    apply (Rmult_le_reg_l (IZR n)); [exact Hn'|]. rewrite <- Rmult_assoc, Rinv_r, Rmult_1_l, <- mult_IZR by lra. apply IZR_le.
    pose proof (Z.mul_succ_div_gt k n Hn). lia. }
  induction p as [|c p [_ IH]].
  - cbn [bound peval]. split; [rewrite Rabs_R0; lra|]. apply S. rewrite Rabs_R0; lra.
  - assert (B : Rabs (peval (c :: p) y) <= IZR (bound n (c :: p))).
    { cbn [bound peval]. rewrite plus_IZR, abs_IZR. eapply Rle_trans; [apply Rabs_triang|]. lra. }
    split; [exact B|]. apply S, B.
Qed.
Lemma lowest_eval n p y : (0 < n)%Z -> 0 <= y <= / IZR n -> lowest n p = true -> 0 <= peval p y.
Proof.
  intros Hn Hy. induction p as [|c p IH]; [cbn; lra|]. intros H. destruct (bound_eval n p y Hn Hy) as [_ B].
  destruct c as [|c|c]; [cbn [peval]; specialize (IH H); pose proof (Rmult_le_pos y _ ltac:(lra) IH); lra| |];
    cbn [lowest] in H; apply Z.leb_le, IZR_le in H; cbn [peval];
    match type of B with Rabs ?z <= _ => pose proof (Rle_abs (- z)) as A end; rewrite Rabs_Ropp in A; lra.
Qed.
Definition check (l : list term) : bool :=
  match l with
  | (_, n :: _) :: _ => (0 <? n)%Z && match shifts n l with Some r => lowest n (num r) | None => false end
  | _ => false
  end.
Lemma check_nonneg l t : check l = true -> 0 <= t -> 0 <= terms_eval l t.
Proof.
  intros H Ht. unfold check in H. destruct l as [|[q [|n B]] l]; [discriminate|discriminate|].
  apply andb_prop in H as [Hn H]. apply Z.ltb_lt in Hn. destruct (shifts n _) as [r|] eqn:E; [|discriminate].
  destruct (shifts_eval _ _ _ _ Hn Ht E) as [Hd He]. pose proof (IZR_lt _ _ Hn) as Hn'.
  apply (lowest_eval n _ (/ (IZR n + t)) Hn) in H.
  - rewrite <- He in H. revert Hd H. match goal with |- 0 < ?d -> _ -> 0 <= ?a => generalize a d end. intros a d Hd H.
    destruct (Rle_lt_dec 0 a) as [|Hlt]; [assumption|]. pose proof (Rmult_lt_compat_r _ _ _ Hd Hlt). lra.
  - split; [apply Rlt_le, Rinv_0_lt_compat; lra|]. apply Rinv_le_contravar; lra.
Qed.

(** * Approximations of the remainders
    Found with the formulas of Euler-Maclaurin and Boole; nothing below relies on
    where they come from. *)
Local Open Scope Z_scope.
Definition zeta_lo : list Z := [0; 0; 223092870; (-223092870); 111546435; 0; (-37182145); 0; 37182145; 0; (-66927861); 0; 185910725; 0; 
  (-734081777); 0; 3904125225; 0; (-26897563693); 0; 233009879245; 0; (-2478920762409); 0; 31772626270385; 0; 
  (-482885928810725); 0; 8586613330540245; 0; (-176611180730425441); 0; 4160460514563674425; 0; 
  (-111287294854125747357); 0; 3354538730008944002525; 0; (-113181982949683006181273); 0; 
  4248794883589399796798145; 0; (-176502099929620968022235989); 0; 8074355858617153815131878885; 0; 
  (-404961129908475527643315364305); 0; 22177331716696023172264821206345; 0; 
  (-1321255697743852971272178249803021)].
Definition zeta_lo_den : Z := 446185740.
Definition zeta_hi : list Z := [0; 0; 223092870; (-223092870); 111546435; 0; (-37182145); 0; 37182145; 0; (-66927861); 0; 185910725; 0; 
  (-734081777); 0; 3904125225; 0; (-26897563693); 0; 233009879245; 0; (-2478920762409); 0; 31772626270385; 0; 
  (-482885928810725); 0; 8586613330540245; 0; (-176611180730425441); 0; 4160460514563674425; 0; 
  (-111287294854125747357); 0; 3354538730008944002525; 0; (-113181982949683006181273); 0; 
  4248794883589399796798145; 0; (-176502099929620968022235989); 0; 8074355858617153815131878885; 0; 
  (-404961129908475527643315364305); 0; 22177331716696023172264821206345; 0; 
  (-1321255697743852971272178249803021); 0; 85342884383363432295968348848486125].
Definition zeta_hi_den : Z := 446185740.
Definition catalan_lo : list Z := [0; 0; 1; 2; 0; (-8); 0; 96; 0; (-2176); 0; 79360; 0; (-4245504); 0; 313155584; 0; (-30460116992); 0; 
  3777576173568; 0; (-581777702256640); 0; 108932957168730112; 0; (-24370173276164456448); 0; 
  6419958484945407574016; 0; (-1967044844910430876860416); 0; 693575525634287935244206080; 0; 
  (-278846808228005417477465964544); 0; 126799861926498005417315327279104; 0; 
  (-64751460964231996082583012567416832); 0; 36897346809832246270417188902181797888; 0; 
  (-23328132996692401757727665665019771617280); 0; 16280711318427487336776614208091355697119232; 0; 
  (-12484028563927004009384065917014664836062117888)].
Definition catalan_lo_den : Z := 2.
Definition catalan_hi : list Z := [0; 0; 1; 2; 0; (-8); 0; 96; 0; (-2176); 0; 79360; 0; (-4245504); 0; 313155584; 0; (-30460116992); 0; 
  3777576173568; 0; (-581777702256640); 0; 108932957168730112; 0; (-24370173276164456448); 0; 
  6419958484945407574016; 0; (-1967044844910430876860416); 0; 693575525634287935244206080; 0; 
  (-278846808228005417477465964544); 0; 126799861926498005417315327279104; 0; 
  (-64751460964231996082583012567416832); 0; 36897346809832246270417188902181797888; 0; 
  (-23328132996692401757727665665019771617280); 0; 16280711318427487336776614208091355697119232; 0; 
  (-12484028563927004009384065917014664836062117888); 0; 10473343439976820778475613079470543571780355751936].
Definition catalan_hi_den : Z := 2.
Definition euler_lo : list Z := [0; (-3099044504245996706400); 516507417374332784400; 0; (-51650741737433278440); 0; 24595591303539656400; 0; 
  (-25825370868716639220); 0; 46955219761302980400; 0; (-130735027621122327480); 0; 516507417374332784400; 0; 
  (-2747363718592590707610); 0; 18928680766883756268400; 0; (-163977957554817494212488); 0; 
  1744515030603925812632400; 0; (-22359671465648676797839740); 0; 339826241620512143173076400; 0; 
  (-6042745211882341856150176920); 0; 124288393408085979161580800400; 0; (-2927883456403378542412696157805); 
  0; 78317346971900828316211291004400; 0; (-2360723872635834029545936227981160); 0; 
  79650715229516682441393025310888400; 0; (-2990047908019309992815453073997478244); 0; 
  124211629206918350502891350766439652400; 0; (-5682249085963776282079723191011478098040); 0; 
  284987440554506502998155551624055108496400; 0; (-15607080624498730196623287113885572105899870)].
Definition euler_lo_den : Z := 6198089008491993412800.
Definition euler_hi : list Z := [0; (-3099044504245996706400); 516507417374332784400; 0; (-51650741737433278440); 0; 24595591303539656400; 0; 
  (-25825370868716639220); 0; 46955219761302980400; 0; (-130735027621122327480); 0; 516507417374332784400; 0; 
  (-2747363718592590707610); 0; 18928680766883756268400; 0; (-163977957554817494212488); 0; 
  1744515030603925812632400; 0; (-22359671465648676797839740); 0; 339826241620512143173076400; 0; 
  (-6042745211882341856150176920); 0; 124288393408085979161580800400; 0; (-2927883456403378542412696157805); 
  0; 78317346971900828316211291004400; 0; (-2360723872635834029545936227981160); 0; 
  79650715229516682441393025310888400; 0; (-2990047908019309992815453073997478244); 0; 
  124211629206918350502891350766439652400; 0; (-5682249085963776282079723191011478098040); 0; 
  284987440554506502998155551624055108496400; 0; (-15607080624498730196623287113885572105899870); 0; 
  929820794660454739871531096675825890020620400].
Definition euler_hi_den : Z := 6198089008491993412800.
Definition neg (p : list Z) : list Z := pscale (-1) p.
Lemma neg_eval p x : (peval (neg p) x = - peval p x)%R.
Proof. unfold neg. rewrite pscale_eval. lra. Qed.

(** f(x) - f(x+1) - 1/(x+1)^3 *)
Definition zeta_terms (q : list Z) (den : Z) : list term := [(q, [200; 1]); (padd (neg q) [0; 0; 0; - den], [201; 1])].
Lemma zeta_hi_check : check (zeta_terms zeta_hi zeta_hi_den) = true.
Proof. vm_cast_no_check (eq_refl true). Qed.
Lemma zeta_lo_check : check (zeta_terms (neg zeta_lo) (- zeta_lo_den)) = true.
Proof. vm_cast_no_check (eq_refl true). Qed.
Lemma zeta_hi_sign : check [(zeta_hi, [200; 1])] = true.
Proof. vm_cast_no_check (eq_refl true). Qed.
(** at most 1/x *)
Lemma zeta_lo_small : check [(padd (neg zeta_lo) [0; zeta_lo_den], [200; 1])] = true.
Proof. vm_cast_no_check (eq_refl true). Qed.

(** f(x) - f(x+4) - 1/x^2 + 1/(x+2)^2 *)
Definition catalan_terms (q : list Z) (den : Z) : list term :=
  [(padd q [0; 0; - den], [801; 1]); ([0; 0; den], [803; 1]); (neg q, [805; 1])].
Lemma catalan_hi_check : check (catalan_terms catalan_hi catalan_hi_den) = true.
Proof. vm_cast_no_check (eq_refl true). Qed.
Lemma catalan_lo_check : check (catalan_terms (neg catalan_lo) (- catalan_lo_den)) = true.
Proof. vm_cast_no_check (eq_refl true). Qed.
Lemma catalan_hi_sign : check [(catalan_hi, [801; 1])] = true.
Proof. vm_cast_no_check (eq_refl true). Qed.
Lemma catalan_lo_small : check [(padd (neg catalan_lo) [0; catalan_lo_den], [801; 1])] = true.
Proof. vm_cast_no_check (eq_refl true). Qed.

(** The derivative of f(x+1) - f(x) - ln(1 + 1/x) + 1/(x+1), where f(x) = q(1/x) / den and
    so f'(x) = - x^-2 q'(1/x) / den *)
Definition euler_terms (q : list Z) (den : Z) : list term :=
  let d := 0 :: 0 :: pderiv 1 (tl q) in [(padd d [0; den], [200; 1]); (padd (neg d) [0; - den; - den], [201; 1])].
Lemma euler_hi_check : check (euler_terms euler_hi euler_hi_den) = true.
Proof. vm_cast_no_check (eq_refl true). Qed.
Lemma euler_lo_check : check (euler_terms (neg euler_lo) (- euler_lo_den)) = true.
Proof. vm_cast_no_check (eq_refl true). Qed.
Lemma euler_lo_sign : check [(neg euler_lo, [200; 1])] = true.
Proof. vm_cast_no_check (eq_refl true). Qed.
(** at most 1/x in absolute value *)
Lemma euler_small : check [(padd euler_hi [0; euler_hi_den], [200; 1])] = true /\ check [(padd (neg euler_hi) [0; euler_hi_den], [200; 1])] = true /\
  check [(padd euler_lo [0; euler_lo_den], [200; 1])] = true /\ check [(padd (neg euler_lo) [0; euler_lo_den], [200; 1])] = true.
Proof. repeat split; vm_cast_no_check (eq_refl true). Qed.
