(** Execution of client programs ([ArraySpec.prog]) on the Array model. *)
From stdpp Require Import list.
From Verif Require Import Base ArrayModel ArraySpec.
Local Open Scope mon_scope.

Section run.
Context {V : Type} (triv : bool).
Notation MA := (@MA V).

(** The index an iterator into array [i] designates. *)
Definition idx_of (i : nat) (p : ptr) : MA (out V) :=
  b <- begin_ i ;; n <- pdiff p b ;; ret (RIdx n).

(** One client call. Values passed by the client are outside the arrays:
    ranges handed to constructors and [operator=(initializer_list)] consist of
    T objects, all other values are converted ([AVal]). *)
Definition run_op (o : op V) : MA (out V) :=
  match o with
  | ODefault => i <- new_array (λ _, ret tt) ;; ret (RNew i)
  | OCap n => i <- new_array (λ i, ctor_cap i n) ;; ret (RNew i)
  | OFill n v => i <- new_array (λ i, ctor_fill triv i n v) ;; ret (RNew i)
  | ORange l => i <- new_array (λ i, ctor_range triv i (map AObj l)) ;; ret (RNew i)
  | OCopy j => i <- new_array (λ i, ctor_copy triv i j) ;; ret (RNew i)
  | OMove j => i <- new_array (λ i, ctor_move i j) ;; ret (RNew i)
  | ODestroy i => destroy_array triv i ;;; ret RUnit
  | OAssignCopy i j => assign_copy_arr triv i j ;;; ret RUnit
  | OAssignMove i j => assign_move_arr triv i j ;;; ret RUnit
  | OAssignList i l => assign_list triv i (map AObj l) ;;; ret RUnit
  | OSwap i j => swap i j ;;; ret RUnit
  | OClear i => clear triv i ;;; ret RUnit
  | OReserve i n => reserve triv i n ;;; ret RUnit
  | OResize i n => resize triv i n ;;; ret RUnit
  | OInsert i k v => p <- index i k ;; q <- insert triv i p (AVal v) ;; idx_of i q
  | OInsertRange i k l =>
      p <- index i k ;; q <- insert_range triv i p (map AVal l) ;; idx_of i q
  | OPush i v => push_back triv i (AVal v) ;;; ret RUnit
  | OEmplace i v => q <- emplace_back triv i (AVal v) ;; idx_of i q
  | OPushRange i l => push_back_range triv i (map AVal l) ;;; ret RUnit
  | OPop i => pop_back triv i ;;; ret RUnit
  | OErase i k => p <- index i k ;; q <- erase triv i p ;; idx_of i q
  | OEraseRange i k m =>
      p <- index i k ;; p' <- index i m ;; q <- erase_range triv i p p' ;; idx_of i q
  | OGet i k => v <- at_ i k ;; ret (RVal v)
  | OFront i => v <- front i ;; ret (RVal v)
  | OBack i => v <- back i ;; ret (RVal v)
  | OSize i => n <- size i ;; ret (RNat n)
  | OEmpty i => b <- empty i ;; ret (RBool b)
  | OCapacity i => n <- capacity i ;; ret (RNat n)
  | OToList i => l <- to_list i ;; ret (RList l)
  end.

(** A client program; exceptions are caught by the client, which continues. *)
Fixpoint run_prog (p : prog V) : MA (list (outcome V)) :=
  match p with
  | Done => ret []
  | Do o k => fun s =>
      match run_op o s with
      | Ok r s' => bind (run_prog (k (Ret r))) (fun rs => ret (Ret r :: rs)) s'
      | Throw s' => bind (run_prog (k Exn)) (fun rs => ret (Exn :: rs)) s'
      | UB u => UB u
      end
  end.

Fixpoint run_ops (os : list (op V)) : MA (list (out V)) :=
  match os with
  | [] => ret []
  | o :: os' => r <- run_op o ;; rs <- run_ops os' ;; ret (r :: rs)
  end.

Definition init (o : list bool) : st V := mkSt [] [] o 0 0.
End run.
