(** Execution of client calls ([HeapSpec.op]) on the Heap model. Copying, moving
    and assigning heaps are the implicit members, i.e. those of m_array. *)
From stdpp Require Import list.
From Verif Require Import Base ArrayModel HeapModel HeapSpec.
Local Open Scope mon_scope.

Section run.
Context {V : Type} (lt : V → V → bool).
Definition run_op (o : op V) : MA (out V) :=
  match o with
  | HDefault => i <- new_array (λ _, ret tt) ;; ret (RNew i)
  | HRange known vs => i <- new_array (λ i, ctor_heap lt i known (map AVal vs)) ;; ret (RNew i)
  | HCopy j => i <- new_array (λ i, ctor_copy true i j) ;; ret (RNew i)
  | HMove j => i <- new_array (λ i, ctor_move i j) ;; ret (RNew i)
  | HDestroy i => destroy_array true i ;;; ret RUnit
  | HAssignCopy i j => assign_copy_arr true i j ;;; ret RUnit
  | HAssignMove i j => assign_move_arr true i j ;;; ret RUnit
  | HPush i v => push lt i (AVal v) ;;; ret RUnit
  | HEmplace i v => emplace lt i (AVal v) ;;; ret RUnit
  | HPop i => pop lt i ;;; ret RUnit
  | HFront i => v <- front i ;; ret (RVal v)
  | HSize i => n <- size i ;; ret (RNat n)
  | HEmpty i => b <- empty i ;; ret (RBool b)
  | HToList i => l <- to_list i ;; ret (RList l)
  end.
Definition init (orc : list bool) : st V := mkSt [] [] orc 0 0.
End run.
