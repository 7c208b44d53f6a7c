(** xme::SPSCQueue used by one thread that both pushes and pops, with callbacks of
    consume that use the queue themselves, and with clear
    (private/container/spsc_queue_base.hpp). The member functions are those of
    SpscModel.v; one thread always loads the last value that was stored.

    Simplification: the constructors of elements and the callbacks do not throw. *)
From stdpp Require Import list.
From Coq Require Import ZArith.
From Verif Require Import Base Client SpscModel.
Local Open Scope Z_scope.

Section model.
Context {V : Type}.
Notation code := (code V).

(** What one thread does with a queue *)
Inductive call :=
| Push (v : V)
| Pop
| Consume (moves : bool) (callback : list call)
| ReadAvailable | WriteAvailable
| Clear.
Inductive result := Pushed (b : bool) | Saw (v : option V) | Count (n : Z) | Done.

Section functions.
Context (triv ndebug : bool) (max_size : Z).

(** spsc_queue_base.hpp:18-29 clear; [triv]: std::is_trivially_destructible_v<T>.
    The operators of std::atomic are sequentially consistent; the order is of no
    importance here. [stuck]: not enough fuel. *)
Fixpoint clear_loop {A} (fuel : nat) (k stuck : code A) : code A :=
  Load R Acq (λ r, Load W Acq (λ w,
  if r =? w then k else
  match fuel with
  | O => stuck
  | S f =>
      Load R Acq (λ i, Destroy i (
      Load R Acq (λ j, Store R Rel (next_index max_size j) (
      clear_loop f k stuck))))
  end)).
Definition clear {A} (fuel : nat) (k stuck : code A) : code A :=
  if triv then Store W Rlx 0 (Store R Rel 0 k) else clear_loop fuel k stuck.

(** A call and what comes after it, given the results so far. Consume is
    spsc_queue_base.hpp:75-83 with the calls of the callback in place of fn. *)
Fixpoint call_code {A} (c : call) (acc : list result) (k : list result → code A) (stuck : code A) : code A :=
  match c with
  | Push v => emplace max_size v (λ r, k (acc ++ [Pushed (match r with Some b => b | None => false end)]))
  | Pop => pop ndebug max_size (k (acc ++ [Done]))
  | Consume moves callback =>
      Load R Rlx (λ read_index,
      assert_not_empty ndebug read_index
      (Use read_index moves (λ v,
      (fix calls cs acc k := match cs with [] => k acc | c :: cs => call_code c acc (λ acc, calls cs acc k) stuck end)
        callback (acc ++ [Saw v]) (λ acc,
      Destroy read_index
      (Store R Rel (next_index max_size read_index) (k (acc ++ [Done])))))))
  | ReadAvailable => read_available max_size (λ n, k (acc ++ [Count n]))
  | WriteAvailable => write_available max_size (λ n, k (acc ++ [Count n]))
  | Clear => clear (Z.to_nat max_size) (k (acc ++ [Done])) stuck
  end.
Fixpoint calls_code {A} (cs : list call) (acc : list result) (k : list result → code A) (stuck : code A) : code A :=
  match cs with [] => k acc | c :: cs => call_code c acc (λ acc, calls_code cs acc k stuck) stuck end.
End functions.

(** ** One thread *)
Record qst := Q { q_write : Z; q_read : Z; q_cells : list (cell V); q_gone : nat }.
Definition at_slot (i : Z) (s : qst) : option (cell V) := if 0 <=? i then q_cells s !! Z.to_nat i else None.
Definition put_slot (i : Z) (c : cell V) (g : nat) (s : qst) : qst :=
  Q (q_write s) (q_read s) (<[Z.to_nat i := c]> (q_cells s)) (g + q_gone s).
(** As the machine of SpscModel.v; elements of a trivially destructible type may be
    constructed over an older one, and destroying them has no effect. *)
Fixpoint run_code {A} (triv : bool) (c : code A) : M qst A := λ s,
  match c with
  | Leaf a => Ok a s
  | Load x _ k => run_code triv (k (match x with W => q_write s | R => q_read s end)) s
  | Store W _ v k => run_code triv k (Q v (q_read s) (q_cells s) (q_gone s))
  | Store R _ v k => run_code triv k (Q (q_write s) v (q_cells s) (q_gone s))
  | Construct i v k =>
      match at_slot i s with
      | None => UB OutOfBounds
      | Some Raw => run_code triv (k false) (put_slot i (Live v) 0 s)
      | Some _ => if triv then run_code triv (k false) (put_slot i (Live v) 0 s) else UB ConstructLive
      end
  | Use i moves k =>
      match at_slot i s with
      | None => UB OutOfBounds
      | Some Raw => UB ReadRaw
      | Some (Live v) => run_code triv (k (Some v)) (if moves then put_slot i Moved 0 s else s)
      | Some Moved => run_code triv (k None) s
      end
  | Destroy i k =>
      match at_slot i s with
      | None => UB OutOfBounds
      | Some Raw => if triv then run_code triv k s else UB DestroyDead
      | Some _ => run_code triv k (if triv then s else put_slot i Raw 1 s)
      end
  | Assert b k => if b then run_code triv k s else UB AssertFail
  end.
(** spsc_queue_base.hpp:151-157, 85-88: the queue as constructed *)
Definition fresh (cap : nat) : qst := Q 0 0 (replicate cap Raw) 0.
Definition run_calls (triv ndebug : bool) (cap : nat) (cs : list call) (s : qst) : res qst (option (list result)) :=
  run_code triv (calls_code triv ndebug (Z.of_nat cap) cs [] (λ rs, Leaf (Some rs)) (Leaf None)) s.
End model.
Arguments call : clear implicits. Arguments result : clear implicits. Arguments qst : clear implicits.
