(** Theorems about what a Delegate can be made from: properties C144 and C145. *)
From stdpp Require Import list.
From Coq Require Import ZArith Lia.
From Verif Require Import TypesModel LikeModel LikeProps FunctorModel.

(** * Specification *)
(** An expression whose type is the class itself, with any qualifiers *)
Definition is_self (self : nat) (e : expr) : Prop := q_core (e_type e) = Class self.
(** As for std::function: the object that would be stored can be called with Args..., and the
    result converts to R or is thrown away. *)
Definition fits (invoke : qual → option ty) (r_void : bool) (to_result : ty → bool) (e : expr) : Prop :=
  ∃ t, invoke (e_type e) = Some t ∧ (r_void = true ∨ to_result t = true).
Definition no_value (t : ty) : Prop := remove_cvref t = Scalar Void.
(** Objects of a type can be made from rvalues and from lvalues of it. *)
Definition movable (constructs : core → expr → bool) (q : qual) : Prop := constructs (q_core q) (Expr q XValue) = true.
Definition copyable (constructs : core → expr → bool) (q : qual) : Prop := constructs (q_core q) (Expr q LValue) = true.

Lemma core_class self c : core_eqb (Class self) c = true ↔ c = Class self.
Proof. destruct c as [[]|?|?|?|?]; simpl; try (split; [done|intros H; discriminate]). rewrite Nat.eqb_eq. split; [by intros ->|intros H; by injection H]. Qed.
Lemma different_self self e : c_different_from_self (deduce e) (Obj (Q false false (Class self))) = false ↔ is_self self e.
Proof.
  unfold c_different_from_self. rewrite negb_false_iff. unfold is_self. rewrite <- core_class.
  assert (R : remove_cvref (deduce e) = q_core (e_type e)) by (unfold deduce; by destruct (is_lvalue e)). by rewrite R.
Qed.

(** * C144: construction *)
(** For all other types the template is chosen. It compiles exactly for rvalues that can be
    called, whose result is R exactly if that is void, and that can be moved and copied;
    otherwise the program does not compile. *)
Theorem delegate_from_partial : ∀ self data invoke r_void to_result constructs e, ¬ is_self self e →
  (construct self data invoke r_void to_result constructs e = Accepted tt ↔
     is_lvalue e = false ∧ movable constructs (e_type e) ∧ copyable constructs (e_type e) ∧
     ∃ t, invoke (e_type e) = Some t ∧ (if r_void then no_value t else to_result t = true)) ∧
  construct self data invoke r_void to_result constructs e ≠ Rejected.
Proof.
  intros self data invoke r_void to_result constructs e Hs. unfold construct, ctor, movable, copyable.
  destruct (c_different_from_self (deduce e) _) eqn:D; [|by apply different_self in D].
  unfold deduce. destruct (is_lvalue e) eqn:L; cbn [functor_manager and_then]; [split; [|done]; split; [done|by intros (? & _)]|].
  unfold create, manager, create, invoke_fn. cbn [rref call]. destruct (constructs (q_core (e_type e)) (Expr (e_type e) XValue)) eqn:M; cbn [and_then]; [|split; [|done]; split; [done|by intros (_ & ? & _)]].
  assert (V : ∀ t, is_void t = true ↔ no_value t).
  { intros t. unfold is_void, no_value. destruct (remove_cvref t) as [[]|?|?|?|?]; split; intros H; try done. }
  destruct (invoke (e_type e)) as [t|] eqn:I; cbn [and_then]; [|split; [|done]; split; [done|by intros (_ & _ & _ & ? & ? & _)]].
  unfold return_ok. destruct (if r_void then is_void t else to_result t) eqn:R; cbn [and_then].
  - destruct (constructs _ (Expr (e_type e) LValue)) eqn:C; (split; [|done]); split; try done; [|by intros (_ & _ & ? & _)].
    intros _. split_and!; try done. exists t. split; [done|]. destruct r_void; [by apply V|done].
  - split; [|done]. split; [done|]. intros (_ & _ & _ & t' & E & H). injection E as <-. destruct r_void; [apply V in H; by rewrite H in R|by rewrite H in R].
Qed.
(** A Delegate that is an rvalue and not const is moved; copies of Delegates do not compile. *)
Theorem delegate_copies_partial : ∀ self data invoke r_void to_result constructs e, is_self self e → q_volatile (e_type e) = false →
  construct self data invoke r_void to_result constructs e = if is_lvalue e || q_const (e_type e) then Hard else Accepted tt.
Proof.
  intros self data invoke r_void to_result constructs [q k] Hs Hv. unfold construct, ctor. apply different_self in Hs. rewrite Hs.
  assert (C : ctor_copy self data = Hard).
  { unfold ctor_copy, binds. cbn. by rewrite andb_false_r. }
  destruct q as [[] [] c]; simpl in *; try done; [by rewrite orb_true_r, C|]. by destruct (is_lvalue _).
Qed.
(** Assignment: nullptr empties the Delegate; all else as in a construction. *)
Theorem delegate_assign_types : ∀ self data invoke r_void to_result constructs e, q_volatile (e_type e) = false →
  (q_core (e_type e) = Scalar NullptrT → assign self data invoke r_void to_result constructs e = Accepted tt) ∧
  (q_core (e_type e) ≠ Scalar NullptrT → assign self data invoke r_void to_result constructs e = construct self data invoke r_void to_result constructs e).
Proof.
  intros self data invoke r_void to_result constructs [[c v k] ct] Hv. simpl in Hv. subst v. unfold assign. simpl.
  split; [by intros ->|]. intros H. destruct k as [[]| | | |]; done.
Qed.
(** is_constructible_v says yes whatever the type. *)
Theorem delegate_claims : ∀ self e, q_volatile (e_type e) = false → is_constructible self e = true.
Proof. intros self e H. unfold is_constructible. by rewrite H, orb_true_r. Qed.

(** A world for the examples: Class 1 is a functor that returns int, Class 2 one that cannot be
    copied, Class 3 one that cannot be called; Class 0 is the Delegate. *)
Definition ex_invoke (q : qual) : option ty :=
  match q_core q with Class 1 | Class 2 | Function _ => Some t_int | Class 4 => Some (Obj (Q false false (Scalar Void))) | _ => None end.
Definition ex_constructs (c : core) (e : expr) : bool :=
  core_eqb c (q_core (e_type e)) && match c with Class 2 => negb (is_lvalue e) && negb (q_const (e_type e)) | _ => true end.
Definition ex_to_result (t : ty) : bool := match remove_cvref t with Scalar (Integer _ _) => true | _ => false end.
Definition obj (n : nat) (k : cat) : expr := Expr (Q false false (Class n)) k.
Notation ex_construct := (construct 0 9 ex_invoke false ex_to_result ex_constructs).
(** Callables that fit and can be stored, but do not compile: one with a name, a function, one
    that can only be moved, one whose result would be thrown away; and none of those that do
    not fit is rejected. *)
Theorem delegate_from_refuted :
  (∃ e, fits ex_invoke false ex_to_result e ∧ copyable ex_constructs (e_type e) ∧ is_constructible 0 e = true ∧ ex_construct e = Hard) ∧
  (∃ e, fits ex_invoke false ex_to_result e ∧ is_lvalue e = false ∧ movable ex_constructs (e_type e) ∧ ex_construct e = Hard) ∧
  (∃ e, fits ex_invoke true ex_to_result e ∧ is_lvalue e = false ∧ copyable ex_constructs (e_type e) ∧
        construct 0 9 ex_invoke true ex_to_result ex_constructs e = Hard) ∧
  (∃ e, ¬ fits ex_invoke false ex_to_result e ∧ is_constructible 0 e = true ∧ ex_construct e = Hard).
Proof.
  split_and!.
  - exists (obj 1 LValue). split; [by exists t_int; split; [|right]|]. split_and!; reflexivity.
  - exists (obj 2 XValue). split; [by exists t_int; split; [|right]|]. split_and!; reflexivity.
  - exists (obj 1 XValue). split; [by exists t_int; split; [|left]|]. split_and!; reflexivity.
  - exists (Expr (Q false false (Scalar NullptrT)) PRValue). split; [by intros (t & H & _)|]. split_and!; reflexivity.
Qed.
(** A Delegate says that it can be copied. *)
Theorem delegate_copies_refuted : ∃ e, is_self 0 e ∧ is_lvalue e = true ∧ is_constructible 0 e = true ∧ ex_construct e = Hard.
Proof. exists (obj 0 LValue). split_and!; reflexivity. Qed.
Example delegate_from_ex : ex_construct (obj 1 PRValue) = Accepted tt ∧ ex_construct (obj 0 XValue) = Accepted tt ∧
  ex_construct (Expr (Q true false (Class 1)) XValue) = Accepted tt ∧ ex_construct (Expr (Q false false (Function 5)) LValue) = Hard ∧
  construct 0 9 ex_invoke true ex_to_result ex_constructs (obj 4 PRValue) = Accepted tt ∧
  assign 0 9 ex_invoke false ex_to_result ex_constructs (Expr (Q false false (Scalar NullptrT)) PRValue) = Accepted tt ∧
  ¬ is_self 0 (obj 1 PRValue).
Proof. split_and!; reflexivity || (intros H; discriminate H). Qed.

(** * C145: deduction *)
(** The signature of what is called when an object of the type is called by its name: a
    function or an operator() that is neither overloaded nor for rvalues only *)
Definition signature (f : callee) : option (ty * list ty) :=
  match f with
  | FunctionPtr _ r args => Some (r, args)
  | Functor (MemberFn _ _ ref _ r args) => match ref with RefR => None | _ => Some (r, args) end
  | Functor (StaticFn r args) => Some (r, args)
  | Functor NotFormed => None
  end.
(** What is deduced is the signature; it is deduced unless the operator() is volatile or
    static. *)
Theorem deduced_signature_partial : ∀ f,
  (∀ s, deduce_signature f = Some s → signature f = Some s) ∧
  ((∀ c ref n r args, f ≠ Functor (MemberFn c true ref n r args)) → (∀ r args, f ≠ Functor (StaticFn r args)) → deduce_signature f = signature f).
Proof.
  intros f. split.
  - destruct f as [n r args|[|[] [] [] n r args|r args]]; done.
  - intros H1 H2. destruct f as [n r args|[|[] [] [] n r args|r args]]; try done; exfalso; (by eapply H1) || (by eapply H2).
Qed.
Theorem deduced_signature_refuted : ∃ r args, ∃ f g, signature (Functor (StaticFn r args)) = Some (r, args) ∧ deduce_signature (Functor (StaticFn r args)) = None ∧
  f = Functor (MemberFn false true RefNone false r args) ∧ signature f = Some (r, args) ∧ deduce_signature f = None ∧
  g = Functor (MemberFn true false RefNone true r args) ∧ deduce_signature g = Some (r, args).
Proof. exists t_int, [t_int], (Functor (MemberFn false true RefNone false t_int [t_int])), (Functor (MemberFn true false RefNone true t_int [t_int])). split_and!; reflexivity. Qed.
Example deduced_signature_ex : deduce_signature (FunctionPtr true t_int [t_class 1; t_int]) = Some (t_int, [t_class 1; t_int]) ∧
  deduce_signature (Functor (MemberFn true false RefL true t_int [])) = Some (t_int, []) ∧
  deduce_signature (Functor (MemberFn false false RefR true t_int [])) = None ∧ deduce_signature (Functor NotFormed) = None.
Proof. split_and!; reflexivity. Qed.

Definition functor_theorems := (delegate_from_partial, delegate_copies_partial, delegate_assign_types, delegate_claims, delegate_from_refuted,
  delegate_copies_refuted, deduced_signature_partial, deduced_signature_refuted).
Print Assumptions functor_theorems.
