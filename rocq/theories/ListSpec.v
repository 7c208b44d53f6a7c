(** Specification of xme::LinkedList, independent of the memory model. A list is
    a sequence of nodes, each with an identity (what iterators designate) and a
    value. Identities are numbers handed out in increasing order. *)
From stdpp Require Import list.
From Verif Require Import ListModel.

Section spec.
Context {V : Type}.
Notation anode := (nat * V)%type.

Record ast := mkA {
  ls   : list (option (list anode));  (* list id -> contents, None once destroyed *)
  fresh_id : nat;                     (* the next identity *)
  lost : list nat                     (* nodes no list owns any more: leaked *)
}.

(** The calls a client can make; positions are iterators ([pos]). *)
Inductive op :=
| LDefault | LFill (n : nat) (v : V) | LRange (vs : list V) | LCopy (j : nat) | LMove (j : nat)
| LDestroy (i : nat)
| LAssignCopy (i j : nat) | LAssignMove (i j : nat) | LAssign (i : nat) (vs : list V)
| LClear (i : nat) | LPushFront (i : nat) (v : V) | LEmplaceFront (i : nat) (v : V)
| LPopFront (i : nat)
| LInsertAfter (i : nat) (p : pos) (v : V) | LInsertRange (i : nat) (p : pos) (vs : list V)
| LInsertElem (i : nat) (p : pos) (j : nat) (q : pos)   (* insert_after(p, *q), q in list j *)
| LEraseAfter (i : nat) (p : pos) | LEraseRange (i : nat) (p q : pos)
| LReverse (i : nat)
| LSet (i : nat) (p : pos) (v : V)                      (* *p = v *)
| LDeref (i : nat) (p : pos) | LIncr (i : nat) (p : pos)
| LBeforeBegin (i : nat) | LBegin (i : nat) | LToList (i : nat) | LEmpty (i : nat) | LFront (i : nat)
(* the same calls with a range [f, l) of elements of list [j] *)
| LRangeNodes (j : nat) (f l : pos) | LInsertNodes (i : nat) (p : pos) (j : nat) (f l : pos)
| LAssignNodes (i j : nat) (f l : pos).

Inductive out := RUnit | RIter (p : pos) | RVal (v : V) | RBool (b : bool) | RList (l : list V)
               | RNew (i : nat).

(** Split a list right after / right before the node with identity [n]. *)
Fixpoint cut_after (n : nat) (xs : list anode) : option (list anode * list anode) :=
  match xs with
  | [] => None
  | x :: xs' => if Nat.eqb x.1 n then Some ([x], xs')
                else '(a, b) ← cut_after n xs'; Some (x :: a, b)
  end.
Fixpoint cut_before (n : nat) (xs : list anode) : option (list anode * list anode) :=
  match xs with
  | [] => None
  | x :: xs' => if Nat.eqb x.1 n then Some ([], x :: xs')
                else '(a, b) ← cut_before n xs'; Some (x :: a, b)
  end.
(** What lies before-and-at, and after, position [p] of list [i]. *)
Definition at_pos (i : nat) (p : pos) (xs : list anode) : option (list anode * list anode) :=
  match p with
  | Nul => None
  | Head j => if Nat.eqb i j then Some ([], xs) else None
  | Nod n => cut_after n xs
  end.
(** What lies before, and at-and-after, the end position [q]. *)
Definition until (q : pos) (xs : list anode) : option (list anode * list anode) :=
  match q with
  | Nul => Some (xs, [])
  | Head _ => None
  | Nod n => cut_before n xs
  end.
(** The elements in [f, l). *)
Definition rng (f l : pos) (xs : list anode) : option (list anode) :=
  '(_, b) ← until f xs; '(c, _) ← until l b; Some c.
(** Is [p] the position of one of the elements [xs]? *)
Definition pos_in (p : pos) (xs : list anode) : bool :=
  match p with Nod n => existsb (Nat.eqb n) xs.*1 | _ => false end.
Definition first_pos (xs : list anode) : pos :=
  match xs with [] => Nul | x :: _ => Nod x.1 end.
Definition last_id (p : pos) (xs : list anode) : pos :=
  match last xs with None => p | Some x => Nod x.1 end.
Definition vals (xs : list anode) : list V := xs.*2.
Definition new_nodes (k : nat) (vs : list V) : list anode := zip (seq k (length vs)) vs.
(** Overwrite the values of [xs] by [vs] as far as both go; the rest of [xs]. *)
Definition overwrite (xs : list anode) (vs : list V) : list anode := zip xs.*1 vs.

Definition get (σ : ast) (i : nat) : option (list anode) :=
  match ls σ !! i with Some (Some xs) => Some xs | _ => None end.
Definition put (σ : ast) (i : nat) (xs : list anode) : ast :=
  mkA (<[i := Some xs]> (ls σ)) (fresh_id σ) (lost σ).
Definition bump (n : nat) (σ : ast) : ast := mkA (ls σ) (n + fresh_id σ) (lost σ).
Definition add (σ : ast) (xs : list anode) : ast :=
  mkA (ls σ ++ [Some xs]) (fresh_id σ) (lost σ).

(** assign(first, last): existing nodes are reused, surplus ones erased, missing
    ones created. *)
Definition assigned (xs : list anode) (k : nat) (vs : list V) : list anode :=
  overwrite xs vs ++ new_nodes k (drop (length xs) vs).

Definition spec_step (o : op) (σ : ast) : option (ast * out) :=
  let k := fresh_id σ in
  match o with
  | LDefault => Some (add σ [], RNew (length (ls σ)))
  | LFill n v => Some (bump n (add σ (new_nodes k (replicate n v))), RNew (length (ls σ)))
  | LRange vs => Some (bump (length vs) (add σ (new_nodes k vs)), RNew (length (ls σ)))
  | LCopy j => xs ← get σ j; Some (bump (length xs) (add σ (new_nodes k (vals xs))), RNew (length (ls σ)))
  | LMove j => xs ← get σ j; Some (add (put σ j []) xs, RNew (length (ls σ)))
  | LDestroy i => _ ← get σ i; Some (mkA (<[i := None]> (ls σ)) k (lost σ), RUnit)
  | LAssignCopy i j =>
      xs ← get σ i; ys ← get σ j;
      Some (bump (length ys - length xs) (put σ i (assigned xs k (vals ys))), RUnit)
  | LAssignMove i j =>
      _ ← get σ i; ys ← get σ j;
      Some (if Nat.eqb i j then put σ i [] else put (put σ i ys) j [], RUnit)
  | LAssign i vs =>
      xs ← get σ i; Some (bump (length vs - length xs) (put σ i (assigned xs k vs)), RUnit)
  | LClear i => _ ← get σ i; Some (put σ i [], RUnit)
  | LPushFront i v => xs ← get σ i; Some (bump 1 (put σ i ((k, v) :: xs)), RUnit)
  | LEmplaceFront i v => xs ← get σ i; Some (bump 1 (put σ i ((k, v) :: xs)), RIter (Nod k))
  | LPopFront i => xs ← get σ i; match xs with [] => None | _ :: xs' => Some (put σ i xs', RUnit) end
  | LInsertAfter i p v =>
      xs ← get σ i; '(a, b) ← at_pos i p xs; Some (bump 1 (put σ i (a ++ (k, v) :: b)), RIter (Nod k))
  | LInsertRange i p vs =>
      xs ← get σ i; '(a, b) ← at_pos i p xs;
      Some (bump (length vs) (put σ i (a ++ new_nodes k vs ++ b)), RIter (last_id p (new_nodes k vs)))
  | LInsertElem i p j q =>
      xs ← get σ i; '(a, b) ← at_pos i p xs; ys ← get σ j; '(c, _) ← at_pos j q ys; y ← last c;
      Some (bump 1 (put σ i (a ++ (k, y.2) :: b)), RIter (Nod k))
  | LEraseAfter i p =>
      xs ← get σ i; '(a, b) ← at_pos i p xs;
      match b with [] => None | _ :: b' => Some (put σ i (a ++ b'), RUnit) end
  | LEraseRange i p q =>
      xs ← get σ i; '(a, b) ← at_pos i p xs; '(_, c) ← until q b; Some (put σ i (a ++ c), RUnit)
  | LReverse i => xs ← get σ i; Some (put σ i (rev xs), RUnit)
  | LSet i p v =>
      xs ← get σ i; '(a, b) ← at_pos i p xs; y ← last a;
      Some (put σ i (take (length a - 1) a ++ (y.1, v) :: b), RUnit)
  | LDeref i p => xs ← get σ i; '(a, _) ← at_pos i p xs; y ← last a; Some (σ, RVal y.2)
  | LIncr i p => xs ← get σ i; '(_, b) ← at_pos i p xs; Some (σ, RIter (first_pos b))
  | LBeforeBegin i => _ ← get σ i; Some (σ, RIter (Head i))
  | LBegin i => xs ← get σ i; Some (σ, RIter (first_pos xs))
  | LToList i => xs ← get σ i; Some (σ, RList (vals xs))
  | LEmpty i => xs ← get σ i; Some (σ, RBool (Nat.eqb (length xs) 0))
  | LFront i => xs ← get σ i; match xs with [] => None | x :: _ => Some (σ, RVal x.2) end
  | LRangeNodes j f l =>
      ys ← get σ j; r ← rng f l ys;
      Some (bump (length r) (add σ (new_nodes k (vals r))), RNew (length (ls σ)))
  | LInsertNodes i p j f l =>
      xs ← get σ i; '(a, b) ← at_pos i p xs; ys ← get σ j; r ← rng f l ys;
      if pos_in p r then None else
      Some (bump (length r) (put σ i (a ++ new_nodes k (vals r) ++ b)), RIter (last_id p (new_nodes k (vals r))))
  | LAssignNodes i j f l =>
      xs ← get σ i; ys ← get σ j; r ← rng f l ys;
      Some (bump (length r - length xs) (put σ i (assigned xs k (vals r))), RUnit)
  end.

(** Same lists and losses; only identities may have been used up. *)
Definition same_lists (σ σ' : ast) : Prop :=
  ls σ' = ls σ ∧ lost σ' = lost σ ∧ fresh_id σ ≤ fresh_id σ'.
(** List [i] becomes [xs]. *)
Definition only_list (i : nat) (xs : list anode) (σ σ' : ast) : Prop :=
  ls σ' = <[i := Some xs]> (ls σ) ∧ lost σ' = lost σ ∧ fresh_id σ ≤ fresh_id σ'.

(** A constructor that built [m] nodes and then threw: they are lost. *)
Definition ctor_throw (n : nat) (σ σ' : ast) : Prop :=
  ∃ m, m ≤ n ∧ ls σ' = ls σ ∧ lost σ' = seq (fresh_id σ) m ++ lost σ ∧ fresh_id σ + m ≤ fresh_id σ'.
(** assign stopped after overwriting [m] values, or after creating [m] nodes. *)
Definition assign_throw (i : nat) (vs : list V) (σ σ' : ast) : Prop :=
  ∃ xs, get σ i = Some xs ∧
    ((∃ m, m < length xs ∧ m < length vs ∧ only_list i (overwrite xs (take m vs) ++ drop m xs) σ σ') ∨
     (∃ m, length xs + m < length vs ∧
        only_list i (overwrite xs vs ++ new_nodes (fresh_id σ) (take m (drop (length xs) vs))) σ σ')).

(** Possible states after the call has thrown. *)
Definition spec_throw (o : op) (σ σ' : ast) : Prop :=
  match o with
  | LFill n _ => ctor_throw n σ σ'
  | LRange vs => ctor_throw (length vs) σ σ'
  | LCopy j => ∃ xs, get σ j = Some xs ∧ ctor_throw (length xs) σ σ'
  | LPushFront _ _ | LEmplaceFront _ _ | LInsertAfter _ _ _ | LInsertElem _ _ _ _ | LSet _ _ _ =>
      same_lists σ σ'
  | LInsertRange i p vs =>
      ∃ xs a b m, get σ i = Some xs ∧ at_pos i p xs = Some (a, b) ∧ m < length vs ∧
        only_list i (a ++ new_nodes (fresh_id σ) (take m vs) ++ b) σ σ'
  | LAssign i vs => assign_throw i vs σ σ'
  | LAssignCopy i j => ∃ ys, get σ j = Some ys ∧ assign_throw i (vals ys) σ σ'
  | LRangeNodes j f l => ∃ ys r, get σ j = Some ys ∧ rng f l ys = Some r ∧ ctor_throw (length r) σ σ'
  | LInsertNodes i p j f l =>
      ∃ xs a b ys r m, get σ i = Some xs ∧ at_pos i p xs = Some (a, b) ∧ get σ j = Some ys ∧
        rng f l ys = Some r ∧ m < length r ∧
        only_list i (a ++ new_nodes (fresh_id σ) (take m (vals r)) ++ b) σ σ'
  | LAssignNodes i j f l =>
      ∃ ys r, get σ j = Some ys ∧ rng f l ys = Some r ∧ assign_throw i (vals r) σ σ'
  | _ => False
  end.
End spec.
Arguments ast : clear implicits.
Arguments op : clear implicits.
Arguments out : clear implicits.
