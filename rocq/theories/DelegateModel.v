(** Model of xme::Delegate<R(Args...)>
    (/repo/include/xme/core/functional/delegate.hpp).

    A functor is a type [ty : Ty] and the value [s : S] of its data members;
    [call ty s args] is what its call operator does: the new value of the members
    and the result, [None] if it throws. [is_null ty s] says that the functor is a
    null function or member pointer (is_empty_function, lines 103-114), [big ty]
    that it does not fit into the 16 bytes of [AnyCallable] (is_local_storage is
    false, lines 56-59), [pinned ty] that objects of this type must stay at the
    address where they were constructed (they hold pointers into themselves).

    Ghost state: every functor object gets a number when it is constructed; [dead]
    lists the numbers of the destroyed ones. Bytes can be copied, so two storages
    can hold the representation of one object.

    Simplifications: functors do not touch the delegate they are stored in (but see
    DelegateReModel.v); the
    copy constructor and copy assignment (119-125, 152-155) are left out, they do
    not compile because they bind a const storage to [AnyData&]; constructing the
    stored functor from the given one moves its value. *)
From stdpp Require Import list gmap.
From Verif Require Import Base.
Local Open Scope mon_scope.

Section model.
Context {Ty S A R : Type} `{EqDecision Ty}.
Context (big pinned : Ty → bool) (is_null : Ty → S → bool).
Context (call : Ty → S → A → S * option R).

(** 23-47 [AnyData]: zero bytes, the bytes of a functor (its type, value, object
    number and the delegate it was constructed in) or a [Functor*] *)
Inductive storage := Zero | Inline (ty : Ty) (s : S) (id home : nat) | Ptr (p : nat).
(** 199-201; a pointer to FunctorManager<ty>::invoke or ::manager is [Some ty] *)
Record delegate := Delegate {
  m_storage : storage; m_callable : option Ty; m_manager : option Ty }.
(** An object on the heap: type, value, object number. *)
Notation hobj := (Ty * S * nat)%type.
Inductive exc := BadFunctionCall | FunctorExn.
(** Delegates are numbered; number 0 is the temporary that assignments use. *)
Record st := St {
  objs : list (option delegate);
  heap : gmap nat hobj; next : nat;     (** heap cells and the next fresh address *)
  born : nat; dead : list nat;
  thrown : option exc }.                (** the last exception *)
Notation MD := (M st).

Definition get (d : nat) : MD delegate := fun σ =>
  match objs σ !! d with Some (Some x) => Ok x σ | _ => UB NoObject end.
Definition put (d : nat) (x : option delegate) : MD unit := fun σ =>
  Ok tt (St (<[d := x]> (objs σ)) (heap σ) (next σ) (born σ) (dead σ) (thrown σ)).
Definition set_storage (d : nat) (v : storage) : MD unit :=
  x <- get d ;; put d (Some (Delegate v (m_callable x) (m_manager x))).
Definition set_callable (d : nat) (c : option Ty) : MD unit :=
  x <- get d ;; put d (Some (Delegate (m_storage x) c (m_manager x))).
Definition set_manager (d : nat) (c : option Ty) : MD unit :=
  x <- get d ;; put d (Some (Delegate (m_storage x) (m_callable x) c)).
Definition throw_ {B} (e : exc) : MD B := fun σ =>
  Throw (St (objs σ) (heap σ) (next σ) (born σ) (dead σ) (Some e)).

(** Lifetimes of functor objects. *)
Definition birth : MD nat := fun σ =>
  Ok (born σ) (St (objs σ) (heap σ) (next σ) (Datatypes.S (born σ)) (dead σ) (thrown σ)).
Definition death (id : nat) : MD unit := fun σ =>
  if decide (id ∈ dead σ) then UB DestroyDead
  else Ok tt (St (objs σ) (heap σ) (next σ) (born σ) (id :: dead σ) (thrown σ)).
Definition alive (id : nat) : MD unit := fun σ =>
  if decide (id ∈ dead σ) then UB Dangling else Ok tt σ.
(** The heap. *)
Definition hread (p : nat) : MD hobj := fun σ =>
  match heap σ !! p with Some o => Ok o σ | None => UB Dangling end.
Definition hwrite (p : nat) (o : hobj) : MD unit := fun σ =>
  Ok tt (St (objs σ) (<[p := o]> (heap σ)) (next σ) (born σ) (dead σ) (thrown σ)).
Definition halloc (o : hobj) : MD nat := fun σ =>
  Ok (next σ) (St (objs σ) (<[next σ := o]> (heap σ)) (Datatypes.S (next σ)) (born σ) (dead σ) (thrown σ)).
Definition hfree (p : nat) : MD unit := fun σ =>
  match heap σ !! p with
  | Some _ => Ok tt (St (objs σ) (delete p (heap σ)) (next σ) (born σ) (dead σ) (thrown σ))
  | None => UB BadDealloc
  end.

(** The object of type [ty] in the storage of delegate [d], as
    static_cast<Functor*>(access()) finds it. *)
Definition inline (ty : Ty) (d : nat) : MD (S * nat * nat) :=
  x <- get d ;;
  match m_storage x with
  | Inline ty' s id home =>
      if decide (ty' = ty) then
        alive id ;;;
        if pinned ty && negb (home =? d) then fail Dangling else ret (s, id, home)
      else fail ReadRaw
  | _ => fail ReadRaw
  end.
(** access<Functor*>() *)
Definition pointer (d : nat) : MD nat :=
  x <- get d ;; match m_storage x with Ptr p => ret p | Zero => fail NullDeref | _ => fail ReadRaw end.
(** The object of type [ty] at heap address [p]. *)
Definition on_heap (ty : Ty) (p : nat) : MD (S * nat) :=
  o <- hread p ;; if decide (o.1.1 = ty) then ret (o.1.2, o.2) else fail ReadRaw.

(** 73-81 create_functor; [throws]: the constructor of the functor or the
    allocation throws (a new-expression frees its memory then) *)
Definition create_functor (d : nat) (ty : Ty) (s : S) (throws : bool) : MD unit :=
  if throws then throw_ FunctorExn else
  id <- birth ;;
  if big ty then p <- halloc (ty, s, id) ;; set_storage d (Ptr p)
  else set_storage d (Inline ty s id d).
(** 83-93 destroy_functor, destroy *)
Definition destroy_functor (ty : Ty) (d : nat) : MD unit :=
  if big ty then p <- pointer d ;; o <- on_heap ty p ;; death o.2 ;;; hfree p
  else o <- inline ty d ;; death o.1.2.
(** 61-71 invoke, handle: calls the stored object, which may change its members *)
Definition invoke (ty : Ty) (d : nat) (a : A) : MD R :=
  if big ty then
    p <- pointer d ;; o <- on_heap ty p ;;
    let r := call ty o.1 a in
    hwrite p (ty, r.1, o.2) ;;;
    match r.2 with Some v => ret v | None => throw_ FunctorExn end
  else
    o <- inline ty d ;;
    let r := call ty o.1.1 a in
    set_storage d (Inline ty r.1 o.1.2 o.2) ;;;
    match r.2 with Some v => ret v | None => throw_ FunctorExn end.

(** 117 Delegate() *)
Definition ctor_default (d : nat) : MD unit := put d (Some (Delegate Zero None None)).
(** 127-133 Delegate(Delegate&&): storages are copied byte by byte *)
Definition ctor_move (d other : nat) : MD unit :=
  o <- get other ;;
  put d (Some (Delegate Zero (m_callable o) None)) ;;;
  o <- get other ;;
  if m_manager o then
    set_manager d (m_manager o) ;;;
    set_storage d (m_storage o) ;;;
    set_manager other None
  else ret tt.
(** 135-143 Delegate(Fn&&); if it throws, no delegate comes into being *)
Definition ctor_fn (d : nat) (ty : Ty) (s : S) (throws : bool) : MD unit :=
  ctor_default d ;;;
  if negb (is_null ty s) then
    on_throw (create_functor d ty s throws) (put d None) ;;;
    set_callable d (Some ty) ;;;
    set_manager d (Some ty)
  else ret tt.
(** 145-148 ~Delegate(); 95-100 manager(destroy) *)
Definition dtor (d : nat) : MD unit :=
  x <- get d ;;
  match m_manager x with Some ty => destroy_functor ty d | None => ret tt end ;;;
  put d None.
(** 150 operator bool *)
Definition op_bool (d : nat) : MD bool :=
  x <- get d ;; ret (if m_manager x then true else false).
(** 184-188 swap *)
Definition swap (d other : nat) : MD unit :=
  x <- get d ;; y <- get other ;;
  set_storage d (m_storage y) ;;; set_storage other (m_storage x) ;;;
  x <- get d ;; y <- get other ;;
  set_callable d (m_callable y) ;;; set_callable other (m_callable x) ;;;
  x <- get d ;; y <- get other ;;
  set_manager d (m_manager y) ;;; set_manager other (m_manager x).
(** 157-160 operator=(Delegate&&) *)
Definition assign_move (this other : nat) : MD unit :=
  ctor_move 0 other ;;; swap 0 this ;;; dtor 0.
(** 162-169 operator=(nullptr_t) *)
Definition assign_null (this : nat) : MD unit :=
  x <- get this ;;
  match m_manager x with
  | Some ty =>
      destroy_functor ty this ;;;
      set_manager this None ;;;
      set_callable this None
  | None => ret tt
  end.
(** 171-175 operator=(Fn&&), noexcept *)
Definition assign_fn (this : nat) (ty : Ty) (s : S) (throws : bool) : MD unit := fun σ =>
  match (ctor_fn 0 ty s throws ;;; swap 0 this ;;; dtor 0) σ with
  | Throw _ => UB Terminate
  | r => r
  end.
(** 177-182 operator() *)
Definition op_call (this : nat) (a : A) : MD R :=
  x <- get this ;;
  match m_manager x with
  | None => throw_ BadFunctionCall
  | Some _ => match m_callable x with Some ty => invoke ty this a | None => fail NullDeref end
  end.
(** 190-196 handle<Functor>(): null or the address of the storage of [this] *)
Definition handle (ty : Ty) (this : nat) : MD (option nat) :=
  x <- get this ;;
  ret (if decide (m_manager x = Some ty) then Some this else None).
(** Reading the functor through that pointer. *)
Definition handle_read (ty : Ty) (this : nat) : MD (option S) :=
  h <- handle ty this ;;
  match h with None => ret None | Some d => o <- inline ty d ;; ret (Some o.1.1) end.

(** Calls as clients make them; delegate [i] is number [1 + i], exceptions that
    reach the client are caught and returned. *)
Inductive op :=
| ONew | ONewFn (ty : Ty) (s : S) (throws : bool) | OMoveNew (j : nat) | ODestroy (i : nat)
| OAssign (i j : nat) | OAssignNull (i : nat) | OAssignFn (i : nat) (ty : Ty) (s : S) (throws : bool)
| OSwap (i j : nat) | OCall (i : nat) (a : A) | OBool (i : nat) | OHandle (i : nat) (ty : Ty).
Inductive out :=
| RNew (i : nat) | RUnit | RVal (r : R) | RBool (b : bool) | RFn (s : option S) | RExn (e : exc).
Definition catch (m : MD out) : MD out := fun σ =>
  match m σ with
  | Throw σ' => match thrown σ' with Some e => Ok (RExn e) σ' | None => UB NoFuel end
  | r => r
  end.
(** A new variable: the constructor runs in the next free number. *)
Definition new_var (ctor : nat → MD unit) : MD out :=
  n <- gets (λ σ, length (objs σ)) ;;
  modify (λ σ, St (objs σ ++ [None]) (heap σ) (next σ) (born σ) (dead σ) (thrown σ)) ;;;
  ctor n ;;; ret (RNew (pred n)).
Definition run_op (o : op) : MD out := catch
  match o with
  | ONew => new_var ctor_default
  | ONewFn ty s t => new_var (λ n, ctor_fn n ty s t)
  | OMoveNew j => new_var (λ n, ctor_move n (1 + j))
  | ODestroy i => dtor (1 + i) ;;; ret RUnit
  | OAssign i j => assign_move (1 + i) (1 + j) ;;; ret RUnit
  | OAssignNull i => assign_null (1 + i) ;;; ret RUnit
  | OAssignFn i ty s t => assign_fn (1 + i) ty s t ;;; ret RUnit
  | OSwap i j => swap (1 + i) (1 + j) ;;; ret RUnit
  | OCall i a => r <- op_call (1 + i) a ;; ret (RVal r)
  | OBool i => b <- op_bool (1 + i) ;; ret (RBool b)
  | OHandle i ty => s <- handle_read ty (1 + i) ;; ret (RFn s)
  end.
Definition init : st := St [None] ∅ 0 0 [] None.
End model.
Arguments storage : clear implicits. Arguments delegate : clear implicits.
Arguments st : clear implicits. Arguments op : clear implicits. Arguments out : clear implicits.
