(** Specification of the allocators of xme::Array and xme::LinkedList: which
    allocator each container has, how many elements and how much room; no
    memory. *)
From stdpp Require Import list.
From Verif Require Import Base Client AllocModel.
Local Open Scope mon_scope.

Inductive out := RUnit | RNew (i : nat).
Definition guard_ {A} (b : bool) (x : option A) : option A := if b then x else None.

(** ** Array: programs. Allocator arguments: [Some n] one the user made,
    [None] the default argument. *)
Inductive op :=
| ADefault | AWith (n : nat) | ACap (n : nat) (a : option nat) | AFill (n : nat) (a : option nat)
| ACopy (j : nat) | AMove (j : nat) | ADestroy (i : nat)
| AAssignCopy (i j : nat) | AAssignMove (i j : nat) | AAssignList (i n : nat)
| ASwap (i j : nat) | AClear (i : nat) | AReserve (i n : nat) | AResize (i n : nat)
| AInsert (i k : nat) | AInsertRange (i k n : nat) | APush (i : nat) | APushRange (i n : nat)
| APop (i : nat) | AErase (i k m : nat).

(** The calls of the model. *)
Section run.
Context (tr : traits).
Definition run_op (o : op) : M (st arr) out :=
  match o with
  | ADefault => a <- default_alloc tr ;; i <- new_obj (ctor_default a) ;; ret (RNew i)
  | AWith n => i <- new_obj (ctor_default (Given n)) ;; ret (RNew i)
  | ACap n x => a <- arg_alloc tr x ;; t <- ctor_cap n a ;; i <- new_obj t ;; ret (RNew i)
  | AFill n x => a <- arg_alloc tr x ;; t <- ctor_elems tr n a ;; i <- new_obj t ;; ret (RNew i)
  | ACopy j => o <- get_obj j ;; t <- ctor_elems tr (len o) (al o) ;; i <- new_obj t ;; ret (RNew i)
  | AMove j => o <- get_obj j ;; put_obj j (snd (ctor_move o)) ;;; i <- new_obj (fst (ctor_move o)) ;; ret (RNew i)
  | ADestroy i => x <- get_obj i ;; dtor tr x ;;; drop_obj i ;;; ret RUnit
  | AAssignCopy i j => assign_copy tr i j ;;; ret RUnit
  | AAssignMove i j => assign_move tr i j ;;; ret RUnit
  | AAssignList i n => assign_list tr i n ;;; ret RUnit
  | ASwap i j =>
      x <- get_obj i ;; y <- get_obj j ;;
      put_obj i (fst (swap tr x y)) ;;; (if Nat.eqb i j then ret tt else put_obj j (snd (swap tr x y))) ;;; ret RUnit
  | AClear i => set_len i 0 ;;; ret RUnit
  | AReserve i n => reserve tr i n ;;; ret RUnit
  | AResize i n => resize tr i n ;;; ret RUnit
  | AInsert i k => insert tr i k ;;; ret RUnit
  | AInsertRange i k n => insert_range tr i k n ;;; ret RUnit
  | APush i => emplace_back tr i ;;; ret RUnit
  | APushRange i n => push_range tr i n ;;; ret RUnit
  | APop i => pop_back i ;;; ret RUnit
  | AErase i k m => erase_range i k m ;;; ret RUnit
  end.
End run.

(** An array: its allocator, size and capacity. *)
Record aspec := mkA { sal : aid; slen : nat; scap : nat }.
(** The arrays, and how many allocators have been default constructed. *)
Record ast := mkSpec { arrs : list (option aspec); nal : nat }.

Section spec.
Context (tr : traits).
(** Two allocators are interchangeable. *)
Definition interchangeable (a b : aid) : Prop := always_equal tr = true ∨ a = b.
Definition same_alloc (a b : aid) : bool := always_equal tr || bool_decide (a = b).
(** The value the next default constructed allocator will have. *)
Definition dflt (σ : ast) : aid := if dflt_same tr then Dflt 0 else Dflt (nal σ).
Definition bump (σ : ast) : ast := if dflt_same tr then σ else mkSpec (arrs σ) (S (nal σ)).
Definition chosen (a : option nat) (σ : ast) : aid := match a with Some n => Given n | None => dflt σ end.
Definition choose (a : option nat) (σ : ast) : ast := match a with Some _ => σ | None => bump σ end.

Definition get (σ : ast) (i : nat) : option aspec := match arrs σ !! i with Some (Some x) => Some x | _ => None end.
Definition upd (i : nat) (x : aspec) (σ : ast) : ast := mkSpec (<[i := Some x]> (arrs σ)) (nal σ).
Definition add (x : aspec) (σ : ast) : ast * out := (mkSpec (arrs σ ++ [Some x]) (nal σ), RNew (length (arrs σ))).
Definition grown (n c : nat) : nat := if Nat.eqb n c then n + Nat.max n 1 else c.

(** The allocator of an array after it has been swapped with, or assigned from
    a temporary with, allocator [b]. *)
Definition taken (a b : aid) : aid := if pocs tr then b else a.
(** swap is ill-formed otherwise *)
Definition can_swap : bool := pocs tr || always_equal tr.

Definition spec_step (o : op) (σ : ast) : option (ast * out) :=
  match o with
  | ADefault => Some (add (mkA (dflt σ) 0 0) (bump σ))
  | AWith n => Some (add (mkA (Given n) 0 0) σ)
  | ACap n a => Some (add (mkA (chosen a σ) 0 n) (choose a σ))
  | AFill n a => Some (add (mkA (chosen a σ) n n) (choose a σ))
  | ACopy j => x ← get σ j; Some (add (mkA (sal x) (slen x) (slen x)) σ)
  | AMove j => x ← get σ j; Some (add x (upd j (mkA (sal x) 0 0) σ))
  | ADestroy i => _ ← get σ i; Some (mkSpec (<[i := None]> (arrs σ)) (nal σ), RUnit)
  | AAssignCopy i j =>
      x ← get σ i; y ← get σ j;
      guard_ can_swap (Some (upd i (mkA (taken (sal x) (sal y)) (slen y) (slen y)) σ, RUnit))
  | AAssignMove i j =>
      x ← get σ i; y ← get σ j;
      guard_ can_swap (Some (upd i (mkA (taken (sal x) (sal y)) (slen y) (scap y)) (upd j (mkA (sal y) 0 0) σ), RUnit))
  | AAssignList i n =>
      x ← get σ i;
      guard_ can_swap (Some (upd i (mkA (taken (sal x) (dflt σ)) n n) (bump σ), RUnit))
  | ASwap i j =>
      x ← get σ i; y ← get σ j;
      guard_ can_swap
        (Some (upd j (mkA (taken (sal y) (sal x)) (slen x) (scap x))
                 (upd i (mkA (taken (sal x) (sal y)) (slen y) (scap y)) σ), RUnit))
  | AClear i => x ← get σ i; Some (upd i (mkA (sal x) 0 (scap x)) σ, RUnit)
  | AReserve i n => x ← get σ i; Some (upd i (mkA (sal x) (slen x) (Nat.max (scap x) n)) σ, RUnit)
  | AResize i n => x ← get σ i; Some (upd i (mkA (sal x) (Nat.min (slen x) n) n) σ, RUnit)
  | AInsert i k =>
      x ← get σ i;
      guard_ (Nat.leb k (slen x)) (Some (upd i (mkA (sal x) (S (slen x)) (grown (slen x) (scap x))) σ, RUnit))
  | AInsertRange i k n =>
      (* if the array has to grow, only with an allocator that a default
         constructed one may stand in for *)
      x ← get σ i;
      guard_ (Nat.leb k (slen x)) (
        if Nat.leb (slen x + n) (scap x) then Some (upd i (mkA (sal x) (slen x + n) (scap x)) σ, RUnit)
        else guard_ (same_alloc (sal x) (dflt σ))
               (Some (upd i (mkA (sal x) (slen x + n) (scap x + n)) (bump σ), RUnit)))
  | APush i => x ← get σ i; Some (upd i (mkA (sal x) (S (slen x)) (grown (slen x) (scap x))) σ, RUnit)
  | APushRange i n =>
      x ← get σ i; Some (upd i (mkA (sal x) (slen x + n) (Nat.max (scap x) (slen x + n))) σ, RUnit)
  | APop i =>
      x ← get σ i; guard_ (Nat.ltb 0 (slen x)) (Some (upd i (mkA (sal x) (slen x - 1) (scap x)) σ, RUnit))
  | AErase i k m =>
      x ← get σ i;
      guard_ (Nat.leb k m && Nat.leb m (slen x)) (Some (upd i (mkA (sal x) (slen x - (m - k)) (scap x)) σ, RUnit))
  end.

(** Possible states after a call has thrown: no array changes its allocator. *)
Definition spec_throw (o : op) (σ σ' : ast) : Prop :=
  match o with
  | ACap _ a | AFill _ a => σ' = choose a σ
  | ACopy _ | AAssignCopy _ _ | AReserve _ _ | AResize _ _ => σ' = σ
  | AAssignList _ _ => σ' = bump σ
  | AInsert i k =>
      ∃ x, get σ i = Some x ∧
        (σ' = σ ∨ (k = slen x ∧ σ' = upd i (mkA (sal x) (slen x) (grown (slen x) (scap x))) σ) ∨
         (k < slen x ∧ slen x < scap x ∧ σ' = upd i (mkA (sal x) (S (slen x)) (scap x)) σ))
  | AInsertRange i k n =>
      ∃ x, get σ i = Some x ∧
        (if Nat.leb (slen x + n) (scap x) then σ' = upd i (mkA (sal x) (slen x + n) (scap x)) σ else σ' = bump σ)
  | APush i =>
      ∃ x, get σ i = Some x ∧ (σ' = σ ∨ σ' = upd i (mkA (sal x) (slen x) (grown (slen x) (scap x))) σ)
  | APushRange i n =>
      ∃ x, get σ i = Some x ∧
        (σ' = σ ∨ ∃ k, k < n ∧ σ' = upd i (mkA (sal x) (slen x + k) (Nat.max (scap x) (slen x + n))) σ)
  | _ => False
  end.
End spec.

(** ** LinkedList *)
Inductive lop :=
| LNew (n : nat) | LCopy (j : nat) | LMove (j : nat) | LDestroy (i : nat)
| LAssign (i n : nat) | LAssignCopy (i j : nat) | LAssignMove (i j : nat)
| LInsert (i k n : nat) | LErase (i k m : nat) | LReverse (i : nat).

Section lrun.
Context (tr : traits).
Definition run_lop (o : lop) : M (st lst) out :=
  match o with
  | LNew n => i <- lctor tr n ;; ret (RNew i)
  | LCopy j => o <- get_obj j ;; i <- lctor tr (length (lnodes o)) ;; ret (RNew i)
  | LMove j => i <- lctor_move tr j ;; ret (RNew i)
  | LDestroy i => ldestroy tr i ;;; ret RUnit
  | LAssign i n => lassign tr i n ;;; ret RUnit
  | LAssignCopy i j => lassign_copy tr i j ;;; ret RUnit
  | LAssignMove i j => lassign_move tr i j ;;; ret RUnit
  | LInsert i k n =>
      x <- get_obj i ;; (if Nat.leb k (length (lnodes x)) then insert_after tr i k n else fail OutOfBounds) ;;; ret RUnit
  | LErase i k m => erase_after tr i k m ;;; ret RUnit
  | LReverse i => lreverse i ;;; ret RUnit
  end.

(** Any two default constructed allocators are interchangeable. *)
Definition dflt_equal : bool := dflt_same tr || always_equal tr.

(** The lists' lengths. Moving nodes between lists is only allowed when their
    allocators are interchangeable, or when there are none to move. *)
Definition lget (σ : list (option nat)) (i : nat) : option nat := match σ !! i with Some (Some n) => Some n | _ => None end.
Definition lspec_step (o : lop) (σ : list (option nat)) : option (list (option nat) * out) :=
  match o with
  | LNew n => Some (σ ++ [Some n], RNew (length σ))
  | LCopy j => n ← lget σ j; Some (σ ++ [Some n], RNew (length σ))
  | LMove j =>
      n ← lget σ j; guard_ (dflt_equal || Nat.eqb n 0) (Some (<[j := Some 0]> σ ++ [Some n], RNew (length σ)))
  | LDestroy i => _ ← lget σ i; Some (<[i := None]> σ, RUnit)
  | LAssign i n => _ ← lget σ i; Some (<[i := Some n]> σ, RUnit)
  | LAssignCopy i j => _ ← lget σ i; n ← lget σ j; Some (<[i := Some n]> σ, RUnit)
  | LAssignMove i j =>
      _ ← lget σ i; n ← lget σ j;
      if Nat.eqb i j then Some (<[i := Some 0]> σ, RUnit)
      else guard_ (dflt_equal || Nat.eqb n 0) (Some (<[i := Some n]> (<[j := Some 0]> σ), RUnit))
  | LInsert i k n => m ← lget σ i; guard_ (Nat.leb k m) (Some (<[i := Some (m + n)]> σ, RUnit))
  | LErase i k m => n ← lget σ i; guard_ (Nat.leb k m && Nat.leb m n) (Some (<[i := Some (n - (m - k))]> σ, RUnit))
  | LReverse i => _ ← lget σ i; Some (σ, RUnit)
  end.
(** After a throw: some of the nodes may have been inserted. *)
Definition lspec_throw (o : lop) (σ σ' : list (option nat)) : Prop :=
  match o with
  | LNew _ | LCopy _ => σ' = σ
  | LAssign i n => ∃ m, lget σ i = Some m ∧ (σ' = σ ∨ ∃ k, m ≤ k < n ∧ σ' = <[i := Some k]> σ)
  | LAssignCopy i j =>
      ∃ m n, lget σ i = Some m ∧ lget σ j = Some n ∧ (σ' = σ ∨ ∃ k, m ≤ k < n ∧ σ' = <[i := Some k]> σ)
  | LInsert i k n => ∃ m j, lget σ i = Some m ∧ j < n ∧ σ' = <[i := Some (m + j)]> σ
  | _ => False
  end.
End lrun.
