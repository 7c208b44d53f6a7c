(** Model of xme::SPSCQueue (include/xme/container/spsc_queue.hpp,
    private/container/spsc_queue_base.hpp): the member functions as sequences of
    atomic and slot accesses, and a machine that interleaves one producer and
    one consumer under release/acquire semantics.

    Simplifications, valid for every definition below:
    - push forwards to emplace (spsc_queue_base.hpp:123-126, 179-182), so one
      model function stands for both; the element is built from the value [v];
    - the callback given to consume is described by two flags: whether it moves
      the value out and whether it throws; it does not use the queue itself;
    - seq_cst accesses (destructor only) are treated as acquire/release. *)
From stdpp Require Import list.
From Coq Require Import ZArith.
From Verif Require Import Base Client.
Local Open Scope Z_scope.

(** std::size_t arithmetic *)
Definition wrap (z : Z) : Z := z mod 2 ^ 64.

Inductive var := W | R.                 (* m_write_index, m_read_index *)
Inductive order := Rlx | Acq | Rel.
Inductive tid := P | C.                 (* producer, consumer *)

Section model.
Context {V : Type}.

(** ** Code: what a member function does, access by access *)
Inductive code (A : Type) :=
| Leaf (a : A)
| Load (x : var) (o : order) (k : Z → code A)
| Store (x : var) (o : order) (v : Z) (k : code A)
| Construct (i : Z) (v : V) (k : bool → code A)       (* true: the constructor threw *)
| Use (i : Z) (moves : bool) (k : option V → code A)  (* the callback gets buffer[i] *)
| Destroy (i : Z) (k : code A)
| Assert (b : bool) (k : code A).
Arguments Leaf {A}. Arguments Load {A}. Arguments Store {A}. Arguments Construct {A}.
Arguments Use {A}. Arguments Destroy {A}. Arguments Assert {A}.

Section functions.
Context (ndebug : bool) (max_size : Z).

(** spsc_queue_base.hpp:52-54 *)
Definition next_index (index : Z) : Z := Z.land (wrap (index + 1)) (wrap (max_size - 1)).

(** spsc_queue_base.hpp:31-37 *)
Definition read_available {A} (k : Z → code A) : code A :=
  Load W Acq (λ write_index,
  Load R Rlx (λ read_index,
  k (if read_index <=? write_index then wrap (write_index - read_index)
     else wrap (wrap (write_index + max_size) - read_index)))).
(** spsc_queue_base.hpp:39-46 *)
Definition write_available {A} (k : Z → code A) : code A :=
  Load W Rlx (λ write_index,
  Load R Acq (λ read_index,
  let diff := wrap (wrap (read_index - write_index) - 1) in
  k (if read_index <=? diff then wrap (diff + max_size) else diff))).

(** spsc_queue_base.hpp:56-65; the continuation gets None if the constructor threw *)
Definition emplace {A} (v : V) (k : option bool → code A) : code A :=
  Load W Rlx (λ write_index,
  let next := next_index write_index in
  Load R Acq (λ read_index,
  if next =? read_index then k (Some false) else
  Construct write_index v (λ threw,
  if threw : bool then k None else
  Store W Rel next (k (Some true))))).

(** The assertion at spsc_queue_base.hpp:69 and 78; with NDEBUG its condition,
    including the load, is not evaluated. *)
Definition assert_not_empty {A} (read_index : Z) (k : code A) : code A :=
  if ndebug then k else
  Load W Acq (λ write_index, Assert (negb (write_index =? read_index)) k).
(** spsc_queue_base.hpp:67-73 *)
Definition pop {A} (k : code A) : code A :=
  Load R Rlx (λ read_index,
  assert_not_empty read_index
  (Destroy read_index
  (Store R Rel (next_index read_index) k))).
(** spsc_queue_base.hpp:75-83; the continuation gets the value seen by the
    callback, unless the callback threw *)
Definition consume {A} (moves throws : bool) (k : option (option V) → code A) : code A :=
  Load R Rlx (λ read_index,
  assert_not_empty read_index
  (Use read_index moves (λ v,
  if throws then k None else
  Destroy read_index
  (Store R Rel (next_index read_index) (k (Some v)))))).

(** spsc_queue_base.hpp:106-111 and 161-165. Result false: not enough fuel. *)
Fixpoint dtor (fuel : nat) : code bool :=
  Load R Acq (λ r, Load W Acq (λ w,
  if r =? w then Leaf true else
  match fuel with
  | O => Leaf false
  | S f =>
      Load R Acq (λ i, Destroy i (
      Load R Acq (λ j, Store R Rel (next_index j) (
      dtor f))))
  end)).
End functions.

(** ** Calls *)
Inductive op :=
| OEmplace (v : V) | OPop | OConsume (moves throws : bool) | OReadAvailable | OWriteAvailable.
Inductive out := RBool (b : bool) | RUnit | RVal (v : option V) | RCount (n : Z).
Definition run_op (ndebug : bool) (max_size : Z) (o : op) : code (outcome out) :=
  match o with
  | OEmplace v => emplace max_size v (λ r, Leaf (match r with Some b => Ret (RBool b) | None => Exn end))
  | OPop => pop ndebug max_size (Leaf (Ret RUnit))
  | OConsume mv th =>
      consume ndebug max_size mv th (λ r, Leaf (match r with Some v => Ret (RVal v) | None => Exn end))
  | OReadAvailable => read_available max_size (λ n, Leaf (Ret (RCount n)))
  | OWriteAvailable => write_available max_size (λ n, Leaf (Ret (RCount n)))
  end.

(** ** The machine *)

(** What a thread knows: the newest store to each index it has seen, and how
    many steps of each thread happen before its own next step. *)
Record view := View { vW : nat; vR : nat; kP : nat; kC : nat }.
Definition join (a b : view) : view :=
  View (Nat.max (vW a) (vW b)) (Nat.max (vR a) (vR b)) (Nat.max (kP a) (kP b)) (Nat.max (kC a) (kC b)).
Definition seen (x : var) (w : view) : nat := match x with W => vW w | R => vR w end.
Definition see (x : var) (t : nat) (w : view) : view :=
  match x with W => View t (vR w) (kP w) (kC w) | R => View (vW w) t (kP w) (kC w) end.
Definition known (t : tid) (w : view) : nat := match t with P => kP w | C => kC w end.
Definition tick (t : tid) (w : view) : view :=
  match t with
  | P => View (vW w) (vR w) (S (kP w)) (kC w)
  | C => View (vW w) (vR w) (kP w) (S (kC w))
  end.

(** A store to an index: its value and, for a release store, what it publishes. *)
Record msg := Msg { mval : Z; mview : option view }.
(** An element slot: its lifetime state and when each thread last accessed it. *)
Inductive cell := Raw | Live (v : V) | Moved.
Record slot := Slot { scell : cell; sP : nat; sC : nat }.
Inductive ctl :=
| Idle (p : prog op out)
| Busy (o : op) (c : code (outcome out)) (k : outcome out → prog op out).
Record thread := Thread { tview : view; tctl : ctl; tlog : list (op * outcome out) }.
Record st := St {
  hW : list msg; hR : list msg;      (* all stores to each index, oldest first *)
  slots : list slot;
  thP : thread; thC : thread;
  made : nat; gone : nat             (* ghost: elements constructed and destroyed *)
}.
Definition hist (x : var) (s : st) : list msg := match x with W => hW s | R => hR s end.
Definition thr (t : tid) (s : st) : thread := match t with P => thP s | C => thC s end.
Definition set_hist (x : var) (h : list msg) (s : st) : st :=
  match x with
  | W => St h (hR s) (slots s) (thP s) (thC s) (made s) (gone s)
  | R => St (hW s) h (slots s) (thP s) (thC s) (made s) (gone s)
  end.
Definition set_thr (t : tid) (th : thread) (s : st) : st :=
  match t with
  | P => St (hW s) (hR s) (slots s) th (thC s) (made s) (gone s)
  | C => St (hW s) (hR s) (slots s) (thP s) th (made s) (gone s)
  end.
Definition set_slots (l : list slot) (s : st) : st :=
  St (hW s) (hR s) l (thP s) (thC s) (made s) (gone s).
Definition set_counts (a b : nat) (s : st) : st :=
  St (hW s) (hR s) (slots s) (thP s) (thC s) a b.
Definition set_view (t : tid) (w : view) (s : st) : st :=
  set_thr t (Thread w (tctl (thr t s)) (tlog (thr t s))) s.

Notation MQ := (M st).
Local Open Scope mon_scope.
Definition tview_of (t : tid) : MQ view := gets (λ s, tview (thr t s)).

(** An atomic load by thread [t]: [n] picks one of the stores that are not older
    than what [t] has seen. Reading a release store with acquire order makes
    everything it publishes known. *)
Definition do_load (t : tid) (n : nat) (x : var) (o : order) : MQ Z := λ s,
  let w := tick t (tview (thr t s)) in
  let ts := Nat.min (seen x w + n) (length (hist x s) - 1) in
  match hist x s !! ts with
  | None => UB NoObject
  | Some m =>
      let w1 := see x ts w in
      let w2 := match o, mview m with Acq, Some v => join w1 v | _, _ => w1 end in
      Ok (mval m) (set_view t w2 s)
  end.
Definition do_store (t : tid) (x : var) (o : order) (v : Z) : MQ unit := λ s,
  let w := see x (length (hist x s)) (tick t (tview (thr t s))) in
  let m := Msg v (match o with Rel => Some w | _ => None end) in
  Ok tt (set_hist x (hist x s ++ [m]) (set_view t w s)).
(** A non-atomic access to slot [i], replacing its state by [f]: a data race
    unless the other thread's last access happens before. All accesses are
    treated as conflicting. Returns the state the slot was in. *)
Definition access (t : tid) (i : Z) (f : cell → ub + cell) : MQ cell := λ s,
  let w := tick t (tview (thr t s)) in
  match slots s !! Z.to_nat i with
  | None => UB OutOfBounds
  | Some sl =>
      if Nat.leb (match t with P => sC sl | C => sP sl end) (match t with P => kC w | C => kP w end) then
        match f (scell sl) with
        | inl u => UB u
        | inr c' =>
            let sl' := match t with P => Slot c' (kP w) (sC sl) | C => Slot c' (sP sl) (kC w) end in
            Ok (scell sl) (set_view t w (set_slots (<[Z.to_nat i := sl']> (slots s)) s))
        end
      else UB Race
  end.
(** std::ranges::construct_at; [n <> 0]: the constructor throws *)
Definition do_construct (t : tid) (n : nat) (i : Z) (v : V) : MQ bool :=
  access t i (λ c, match c with Raw => inr (if Nat.eqb n 0 then Live v else Raw) | _ => inl ConstructLive end) ;;;
  if Nat.eqb n 0 then modify (λ s, set_counts (S (made s)) (gone s) s) ;;; ret false else ret true.
(** fn(std::move(buffer[i])): None if the element is moved-from *)
Definition do_use (t : tid) (i : Z) (moves : bool) : MQ (option V) :=
  c <- access t i (λ c, match c with Raw => inl ReadRaw | _ => inr (if moves then Moved else c) end) ;;
  ret (match c with Live v => Some v | _ => None end).
(** std::ranges::destroy_at *)
Definition do_destroy (t : tid) (i : Z) : MQ unit :=
  access t i (λ c, match c with Raw => inl DestroyDead | _ => inr Raw end) ;;;
  modify (λ s, set_counts (made s) (S (gone s)) s).

(** One access. *)
Definition exec {A} (t : tid) (n : nat) (c : code A) : MQ (code A) :=
  match c with
  | Leaf a => ret (Leaf a)
  | Load x o k => z <- do_load t n x o ;; ret (k z)
  | Store x o v k => do_store t x o v ;;; ret k
  | Construct i v k => b <- do_construct t n i v ;; ret (k b)
  | Use i mv k => v <- do_use t i mv ;; ret (k v)
  | Destroy i k => do_destroy t i ;;; ret k
  | Assert b k => if b then ret k else fail AssertFail
  end.

(** One step of thread [t] with choice [n]: begin the next call, or make one
    access of the current call; a call whose last access was made returns. *)
Definition step (ndebug : bool) (max_size : Z) (t : tid) (n : nat) : MQ unit :=
  th <- gets (thr t) ;;
  match tctl th with
  | Idle Done => ret tt
  | Idle (Do o k) => modify (set_thr t (Thread (tview th) (Busy o (run_op ndebug max_size o) k) (tlog th)))
  | Busy o c k =>
      c' <- exec t n c ;;
      w <- tview_of t ;;
      modify (set_thr t
        match c' with
        | Leaf r => Thread w (Idle (k r)) (tlog th ++ [(o, r)])
        | _ => Thread w (Busy o c' k) (tlog th)
        end)
  end.
(** A schedule picks the thread and the choice of every step. *)
Fixpoint run (ndebug : bool) (max_size : Z) (sched : list (tid * nat)) : MQ unit :=
  match sched with
  | [] => ret tt
  | (t, n) :: sched' => step ndebug max_size t n ;;; run ndebug max_size sched'
  end.

(** A fresh queue (both indices 0, spsc_queue_base.hpp:85-88) and two threads. *)
Definition start (cap : nat) (p c : prog op out) : st :=
  let w := View 0 0 0 0 in
  St [Msg 0 (Some w)] [Msg 0 (Some w)] (replicate cap (Slot Raw 0 0))
     (Thread w (Idle p) []) (Thread w (Idle c) []) 0 0.

(** Running code alone, after all threads have been joined by the caller. *)
Fixpoint alone {A} (c : code A) : MQ A :=
  match c with
  | Leaf a => ret a
  | Load x o k => z <- do_load C 0 x o ;; alone (k z)
  | Store x o v k => do_store C x o v ;;; alone k
  | Construct i v k => b <- do_construct C 0 i v ;; alone (k b)
  | Use i mv k => v <- do_use C i mv ;; alone (k v)
  | Destroy i k => do_destroy C i ;;; alone k
  | Assert b k => if b then alone k else fail AssertFail
  end.
Definition join_threads (s : st) : st := set_view C (join (tview (thC s)) (tview (thP s))) s.
Definition destroy_queue (max_size : Z) (fuel : nat) (s : st) : res st bool :=
  alone (dtor max_size fuel) (join_threads s).
End model.
Arguments code : clear implicits.
Arguments op : clear implicits.
Arguments out : clear implicits.
Arguments st : clear implicits.
Arguments slot : clear implicits.
Arguments cell : clear implicits.
Arguments thread : clear implicits.
Arguments Leaf {V A}. Arguments Load {V A}. Arguments Store {V A}. Arguments Construct {V A}.
Arguments Use {V A}. Arguments Destroy {V A}. Arguments Assert {V A}.
