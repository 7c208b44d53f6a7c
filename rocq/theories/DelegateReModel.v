(** Functors that use delegates while they run: xme::Delegate
    (/repo/include/xme/core/functional/delegate.hpp) as in DelegateModel.v, but the
    call operator of a functor is a program that reads and writes its own members and
    makes calls on any delegates, among them the one that it is stored in.

    Simplifications: as in DelegateModel.v, except that functors may touch delegates;
    a functor catches the exceptions of the calls it makes (it may throw afterwards);
    constructors and destructors of functors do not touch delegates. *)
From stdpp Require Import list gmap.
From Verif Require Import Base DelegateModel.
Local Open Scope mon_scope.

Section model.
Context {Ty S A R : Type} `{EqDecision Ty}.
Notation st := (st Ty S).
Notation op := (op Ty S A).
Notation out := (out S R).
Notation MD := (M st).

(** The body of a call operator: [Return None] throws. *)
Inductive body :=
| Return (r : option R)
| Read (k : S → body)
| Write (v : S) (k : body)
| Do (o : op) (k : out → body).

Context (big pinned : Ty → bool) (is_null : Ty → S → bool).
Context (code : Ty → A → body).
(** Calls are made by [run_body], never by [run_op]. *)
Definition no_call (ty : Ty) (s : S) (a : A) : S * option R := (s, None).

(** The address of a running functor: in the storage of delegate [d], where it is
    object number [id], or on the heap *)
Inductive self := InStorage (d id : nat) | OnHeap (p : nat).
(** 61-71 invoke, handle: *handle(functor) *)
Definition locate (ty : Ty) (d : nat) : MD self :=
  if big ty then p <- pointer d ;; o <- on_heap ty p ;; ret (OnHeap p)
  else o <- inline pinned ty d ;; ret (InStorage d o.1.2).
(** The functor's own access to its members through [this]. *)
Definition read_self (ty : Ty) (l : self) : MD S :=
  match l with
  | InStorage d id => o <- inline pinned ty d ;; if o.1.2 =? id then ret o.1.1 else fail Dangling
  | OnHeap p => o <- on_heap ty p ;; ret o.1
  end.
Definition write_self (ty : Ty) (l : self) (v : S) : MD unit :=
  match l with
  | InStorage d id =>
      o <- inline pinned ty d ;; if o.1.2 =? id then set_storage d (Inline ty v id o.2) else fail Dangling
  | OnHeap p => o <- on_heap ty p ;; hwrite p (ty, v, o.2)
  end.
(** Running a body; [me] is [None] for the main program, which has no members.
    177-182 operator(): the case of OCall. [fuel] bounds the number of steps. *)
Fixpoint run_body (fuel : nat) (me : option (Ty * self)) (b : body) : MD R :=
  match fuel with
  | O => fail NoFuel
  | Datatypes.S f =>
      match b with
      | Return (Some r) => ret r
      | Return None => throw_ FunctorExn
      | Read k =>
          match me with
          | Some (ty, l) => v <- read_self ty l ;; run_body f me (k v)
          | None => fail NoObject
          end
      | Write v k =>
          match me with
          | Some (ty, l) => write_self ty l v ;;; run_body f me k
          | None => fail NoObject
          end
      | Do o k =>
          r <- match o with
               | OCall i a =>
                   catch (x <- get (1 + i) ;;
                   match m_manager x with
                   | None => throw_ BadFunctionCall
                   | Some _ =>
                       match m_callable x with
                       | Some ty =>
                           l <- locate ty (1 + i) ;;
                           r <- run_body f (Some (ty, l)) (code ty a) ;; ret (RVal r)
                       | None => fail NullDeref
                       end
                   end)
               | _ => run_op big pinned is_null no_call o
               end ;;
          run_body f me (k r)
      end
  end.
End model.
Arguments body : clear implicits.
