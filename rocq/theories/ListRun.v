(** Execution of client calls ([ListSpec.op]) on the LinkedList model. *)
From stdpp Require Import list.
From Verif Require Import Base ListModel ListSpec.
Local Open Scope mon_scope.

Section run.
Context {V : Type}.
Definition run_op (o : op V) : M (st V) (out V) :=
  match o with
  | LDefault => i <- new_list (λ _, ret tt) ;; ret (RNew i)
  | LFill n v => i <- ctor_fill n v ;; ret (RNew i)
  | LRange vs => i <- ctor_range (SVals vs) ;; ret (RNew i)
  | LCopy j => i <- ctor_copy j ;; ret (RNew i)
  | LMove j => i <- ctor_move j ;; ret (RNew i)
  | LDestroy i => destroy_list i ;;; ret RUnit
  | LAssignCopy i j => assign_copy i j ;;; ret RUnit
  | LAssignMove i j => assign_move i j ;;; ret RUnit
  | LAssign i vs => assign i (SVals vs) ;;; ret RUnit
  | LClear i => clear i ;;; ret RUnit
  | LPushFront i v => push_front i (LVal v) ;;; ret RUnit
  | LEmplaceFront i v => p <- emplace_front i (LVal v) ;; ret (RIter p)
  | LPopFront i => pop_front i ;;; ret RUnit
  | LInsertAfter _ p v => q <- emplace_after p (LVal v) ;; ret (RIter q)
  | LInsertRange _ p vs => q <- insert_range p (SVals vs) ;; ret (RIter q)
  | LInsertElem _ p _ q => r <- emplace_after p (LRef q) ;; ret (RIter r)
  | LEraseAfter _ p => erase_after p ;;; ret RUnit
  | LEraseRange _ p q => erase_after_range p q ;;; ret RUnit
  | LReverse i => reverse i ;;; ret RUnit
  | LSet _ p v => assign_elem p (LVal v) ;;; ret RUnit
  | LDeref _ p => v <- deref p ;; ret (RVal v)
  | LIncr _ p => q <- get_next p ;; ret (RIter q)
  | LBeforeBegin i => _ <- begin_ i ;; ret (RIter (before_begin i))
  | LBegin i => p <- begin_ i ;; ret (RIter p)
  | LToList i => l <- to_list i ;; ret (RList l)
  | LEmpty i => b <- empty i ;; ret (RBool b)
  | LFront i => v <- front i ;; ret (RVal v)
  | LRangeNodes _ f l => i <- ctor_range (SNodes f l) ;; ret (RNew i)
  | LInsertNodes _ p _ f l => q <- insert_range p (SNodes f l) ;; ret (RIter q)
  | LAssignNodes i _ f l => assign i (SNodes f l) ;;; ret RUnit
  end.
Definition init (orc : list bool) : st V := mkSt [] [] orc 0.
Definition ainit : ast V := mkA [] 0 [].
End run.
