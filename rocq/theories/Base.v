(** Outcome monad shared by the sequential models.

    A C++ call is a function from a state to an outcome: normal return, a C++
    exception that propagates to the caller (the state is kept: side effects
    made before the throw stay visible), or undefined behaviour. *)
From Coq Require Import List Arith Lia ZArith.
Import ListNotations.

(** Reasons for undefined behaviour that the models distinguish. *)
Inductive ub :=
| AssignRaw      (* assignment to storage holding no object of a non-trivial type *)
| ReadRaw        (* read of an element that was never constructed *)
| ReadMoved      (* read of the value of a moved-from element *)
| Dangling       (* access to a freed or never allocated block *)
| OutOfBounds    (* access or pointer arithmetic outside a block *)
| DestroyDead    (* destructor run on an element that is not alive *)
| NullDeref      (* access through a null pointer *)
| BadDealloc     (* deallocate with a wrong pointer or element count *)
| PtrDiff        (* difference or range of pointers into different blocks *)
| AssertFail     (* a failing assert() *)
| NoObject       (* use of a destroyed or never constructed container object *)
| ConstructLive  (* construction on top of a live element *)
| Race           (* data race *)
| Misaligned     (* over-aligned access through an under-aligned pointer *)
| Terminate      (* not undefined: std::terminate, an exception leaves a noexcept function *)
| NoFuel.        (* artefact: loop bound of the model exhausted; excluded by theorems *)

Inductive res (St A : Type) :=
| Ok (a : A) (s : St)
| Throw (s : St)
| UB (u : ub).
Arguments Ok {St A}. Arguments Throw {St A}. Arguments UB {St A}.

Definition M (St A : Type) := St -> res St A.

Definition ret {St A} (a : A) : M St A := fun s => Ok a s.
Definition bind {St A B} (m : M St A) (k : A -> M St B) : M St B := fun s =>
  match m s with
  | Ok a s' => k a s'
  | Throw s' => Throw s'
  | UB u => UB u
  end.
Definition fail {St A} (u : ub) : M St A := fun _ => UB u.
Definition throw {St A} : M St A := fun s => Throw s.
Definition gets {St A} (f : St -> A) : M St A := fun s => Ok (f s) s.
Definition modify {St} (f : St -> St) : M St unit := fun s => Ok tt (f s).

(** [try { m } catch(...) { h; throw; }] *)
Definition on_throw {St A} (m : M St A) (h : M St unit) : M St A := fun s =>
  match m s with
  | Throw s' => match h s' with
                | Ok _ s'' => Throw s''
                | Throw s'' => Throw s''
                | UB u => UB u
                end
  | r => r
  end.

Declare Scope mon_scope.
Delimit Scope mon_scope with mon.
Notation "x <- m ;; k" := (bind m (fun x => k))
  (at level 100, m at next level, right associativity) : mon_scope.
Notation "m ;;; k" := (bind m (fun _ => k))
  (at level 100, right associativity) : mon_scope.

(** [post r Q E]: no undefined behaviour, normal results satisfy [Q],
    exceptional states satisfy [E]. *)
Definition post {St A} (r : res St A) (Q : A -> St -> Prop) (E : St -> Prop) : Prop :=
  match r with
  | Ok a s => Q a s
  | Throw s => E s
  | UB _ => False
  end.

Lemma post_bind {St A B} (m : M St A) (k : A -> M St B) s (Q : B -> St -> Prop) E :
  post (m s) (fun a s' => post (k a s') Q E) E -> post (bind m k s) Q E.
Proof. unfold bind. destruct (m s); simpl; auto. Qed.

Lemma post_conseq {St A} (r : res St A) (Q Q' : A -> St -> Prop) (E E' : St -> Prop) :
  post r Q E -> (forall a s, Q a s -> Q' a s) -> (forall s, E s -> E' s) -> post r Q' E'.
Proof. destruct r; simpl; auto. Qed.

Lemma post_on_throw {St A} (m : M St A) (h : M St unit) s (Q : A -> St -> Prop) E :
  post (m s) Q (fun s' => post (h s') (fun _ s'' => E s'') E) -> post (on_throw m h s) Q E.
Proof.
  unfold on_throw. destruct (m s); simpl; auto. destruct (h s0); simpl; auto.
Qed.

Lemma post_eq {St A} (r r' : res St A) Q E : r = r' -> post r' Q E -> post r Q E.
Proof. intros ->; auto. Qed.
