(* Concrete instances of the LinkedList theorems, evaluated on the (possibly
   edited) model: programs run in lockstep with the specification. Each entry of
   [report] is a theorem name with the number of violated instances; the unedited
   model gives none. *)
From Coq Require Import String.
From stdpp Require Import list.
From Verif Require Import Base ListModel ListSpec ListRun.
Local Open Scope string_scope.
Local Open Scope list_scope.

Notation V := nat.
Global Instance out_eq : EqDecision (out V). Proof. solve_decision. Defined.

Definition lobsb (s : st V) (i : nat) (xs : list (nat * V)) : bool :=
  (match to_list i s with Ok l _ => bool_decide (l = vals xs) | _ => false end) &&
  (match begin_ i s with Ok p _ => bool_decide (p = first_pos xs) | _ => false end) &&
  forallb (λ k, match xs !! k with
    | Some x => (match deref (Nod x.1) s with Ok v _ => Nat.eqb v x.2 | _ => false end) &&
                (match get_next (Nod x.1) s with Ok p _ => bool_decide (p = first_pos (drop (S k) xs)) | _ => false end)
    | None => true end) (seq 0 (length xs)).
Definition owned_ids (σ : ast V) : list nat := x ← ls σ; match x with Some xs => xs.*1 | None => [] end.
(* observable part *)
Definition viewb (s : st V) (σ : ast V) : bool :=
  Nat.eqb (length (heads s)) (length (ls σ)) &&
  forallb (λ i, match ls σ !! i with
    | Some (Some xs) => lobsb s i xs
    | Some None => match begin_ i s with UB _ => true | _ => false end
    | None => true end) (seq 0 (length (ls σ))).
(* every allocated node is in a list or lost; every object destroyed *)
Definition ownsb (s : st V) (σ : ast V) : bool :=
  forallb (λ n, Bool.eqb (match nodes s !! n with Some (Some _) => true | _ => false end)
                         (bool_decide (n ∈ owned_ids σ ++ lost σ))) (seq 0 (S (length (nodes s)))) &&
  bool_decide (NoDup (owned_ids σ ++ lost σ)) && Nat.eqb (fresh_id σ) (length (nodes s)).
Definition freshen (s : st V) (σ : ast V) : ast V := mkA (ls σ) (length (nodes s)) (lost σ).
Definition ctor_throws (n : nat) (σ : ast V) : list (ast V) :=
  map (λ m, mkA (ls σ) (fresh_id σ) (seq (fresh_id σ) m ++ lost σ)) (seq 0 (S n)).
Definition assign_throws i (vs : list V) (σ : ast V) : list (ast V) :=
  match get σ i with
  | Some xs =>
      map (λ m, put σ i (overwrite xs (take m vs) ++ drop m xs)) (seq 0 (length xs `min` length vs)) ++
      map (λ m, put σ i (overwrite xs vs ++ new_nodes (fresh_id σ) (take m (drop (length xs) vs)))) (seq 0 (length vs - length xs))
  | None => [] end.
Definition insert_throws i p (vs : list V) (σ : ast V) : list (ast V) :=
  match get σ i with
  | Some xs => match at_pos i p xs with
      | Some (a, b) => map (λ m, put σ i (a ++ new_nodes (fresh_id σ) (take m vs) ++ b)) (seq 0 (length vs))
      | None => [] end
  | None => [] end.
Definition range_vals (σ : ast V) j f l : list V :=
  match get σ j with Some ys => match rng f l ys with Some r => vals r | None => [] end | None => [] end.
Definition throws (o : op V) (σ : ast V) : list (ast V) :=
  match o with
  | LFill n _ => ctor_throws n σ
  | LRange vs => ctor_throws (length vs) σ
  | LCopy j => match get σ j with Some xs => ctor_throws (length xs) σ | None => [] end
  | LRangeNodes j f l => ctor_throws (length (range_vals σ j f l)) σ
  | LPushFront _ _ | LEmplaceFront _ _ | LInsertAfter _ _ _ | LInsertElem _ _ _ _ | LSet _ _ _ => [σ]
  | LInsertRange i p vs => insert_throws i p vs σ
  | LInsertNodes i p j f l => insert_throws i p (range_vals σ j f l) σ
  | LAssign i vs => assign_throws i vs σ
  | LAssignCopy i j => match get σ j with Some ys => assign_throws i (vals ys) σ | None => [] end
  | LAssignNodes i j f l => assign_throws i (range_vals σ j f l) σ
  | _ => []
  end.
Definition name (o : op V) : string :=
  match o with
  | LDefault | LFill _ _ | LRange _ | LCopy _ | LRangeNodes _ _ _ => "list_ctor_throw_partial"
  | LMove _ => "list_move_construct" | LDestroy _ => "list_no_leak"
  | LAssignCopy i j => if Nat.eqb i j then "list_self_assign" else "list_copy_assign"
  | LAssignMove i j => if Nat.eqb i j then "list_self_move" else "list_move_assign"
  | LAssign _ _ => "list_assign" | LClear _ => "list_clear"
  | LPushFront _ _ | LEmplaceFront _ _ => "list_push_front" | LPopFront _ => "list_pop_front"
  | LInsertAfter _ _ _ => "list_insert_after" | LInsertRange _ _ _ => "list_insert_range"
  | LInsertElem _ _ _ _ => "list_insert_own" | LEraseAfter _ _ => "list_erase_after"
  | LEraseRange _ _ _ => "list_erase_range" | LReverse _ => "list_reverse"
  | LInsertNodes _ _ _ _ _ => "list_insert_nodes_partial" | LAssignNodes _ _ _ _ => "list_assign_nodes"
  | _ => "list_history" end.

Fixpoint lock (os : list (op V)) (s : st V) (σ : ast V) : list string :=
  match os with
  | [] => []
  | o :: os =>
      match spec_step o σ with
      | None => lock os s σ
      | Some (σ1, r) =>
          match run_op o s with
          | UB _ => [name o]
          | Ok r' s' =>
              if bool_decide (r' = r) && viewb s' σ1 then
                if ownsb s' σ1 && Nat.eqb (leaked s') 0 then lock os s' σ1 else ["list_nodes_owned"]
              else [name o]
          | Throw s' =>
              (match oracle s with [] => [name o] | _ => [] end) ++
              match List.filter (λ σ', viewb s' σ' && ownsb s' σ') (map (freshen s') (throws o σ)) with
              | σ' :: _ => if Nat.eqb (leaked s') 0 then lock os s' σ' else ["list_nodes_owned"]
              | [] => if existsb (viewb s') (map (freshen s') (throws o σ)) then ["list_nodes_owned"] else [name o]
              end
          end
      end
  end.
(* insertion at an element of the range never returns *)
Definition diverge (k : nat) : list string :=
  match run_op (LRange [1;2;3]) (init []) with
  | Ok _ s => match insert_loop (10 + k) (Nod k) (SNodes (Nod 0) Nul) s with UB NoFuel => [] | _ => ["list_insert_nodes_diverges"] end
  | _ => ["list_insert_nodes_diverges"] end.

Definition ops : list (op V) :=
  [LDefault; LFill 2 1; LFill 3 4; LRange [1;2;3]; LCopy 0; LCopy 1; LMove 0; LMove 1; LDestroy 0; LAssignCopy 0 1; LAssignCopy 1 0;
   LAssignCopy 0 0; LAssignMove 0 1; LAssignMove 1 0; LAssignMove 0 0; LAssign 0 []; LAssign 0 [5;6]; LAssign 0 [5;6;7;8;9]; LClear 0;
   LPushFront 0 4; LEmplaceFront 0 4; LPopFront 0; LInsertAfter 0 (Head 0) 9; LInsertAfter 0 (Nod 1) 9; LInsertAfter 0 (Nod 2) 9;
   LInsertRange 0 (Head 0) [7;8]; LInsertRange 0 (Nod 0) [7;8]; LInsertRange 0 (Nod 2) []; LInsertElem 0 (Head 0) 0 (Nod 2);
   LInsertElem 0 (Nod 1) 0 (Nod 1); LInsertElem 1 (Head 1) 0 (Nod 1); LEraseAfter 0 (Head 0); LEraseAfter 0 (Nod 0); LEraseAfter 0 (Nod 1);
   LEraseRange 0 (Head 0) (Nod 2); LEraseRange 0 (Nod 0) (Nod 2); LEraseRange 0 (Nod 0) Nul; LEraseRange 0 (Nod 1) (Nod 2);
   LReverse 0; LReverse 1; LSet 0 (Nod 1) 8; LDeref 0 (Nod 1); LIncr 0 (Nod 0); LBeforeBegin 0; LBegin 0; LToList 0; LEmpty 0; LFront 0;
   LRangeNodes 0 (Nod 1) Nul; LRangeNodes 0 (Nod 0) (Nod 2); LRangeNodes 0 (Nod 0) (Nod 0); LInsertNodes 0 (Head 0) 0 (Nod 0) Nul;
   LInsertNodes 0 (Nod 2) 0 (Nod 0) (Nod 2); LInsertNodes 0 (Nod 0) 0 (Nod 1) Nul; LInsertNodes 1 (Head 1) 0 (Nod 0) (Nod 2);
   LInsertNodes 0 (Nod 1) 0 (Nod 0) (Nod 1); LAssignNodes 0 0 (Nod 1) Nul; LAssignNodes 0 0 (Nod 1) (Nod 2); LAssignNodes 1 0 (Nod 0) (Nod 2);
   LAssignNodes 0 0 (Nod 0) (Nod 2); LAssignNodes 0 1 (Nod 3) Nul].
Definition lcg (x : N) : N := ((x * 1103515245 + 12345) mod 2147483648)%N.
Fixpoint random (n : nat) (x : N) : list (op V) * N :=
  match n with
  | O => ([], x)
  | S n => let x := lcg x in
           let o := default LDefault (ops !! N.to_nat ((x / 65536) mod N.of_nat (length ops))%N) in
           let '(l, y) := random n x in (o :: l, y)
  end.
Fixpoint randoms (k n : nat) (x : N) : list (list (op V)) :=
  match k with
  | O => []
  | S k => let '(l, y) := random n x in (LRange [1;2;3] :: l) :: randoms k n y
  end.
Definition starts : list (list (op V)) := [[LDefault; LFill 2 1]; [LRange [1;2;3]; LRange [4;5]]; [LRange [1;2;3]; LDefault]].
Definition short : list (list (op V)) := c ← starts; o ← ops; p ← ops; [c ++ [o; p; LDestroy 0; LDestroy 1]].
Definition oracles : list (list bool) := [] :: map (λ k, app (replicate k false) [true]) [0; 1; 2; 3; 5; 6; 7; 8; 9; 10; 11; 12].
Definition report : list (string * nat) :=
  let all := (p ← short ++ randoms 400 9 7; orc ← oracles; lock p (init orc) ainit) ++ (k ← [0; 1; 2]; diverge k) in
  fold_right (λ x acc, match acc with
     | (y, n) :: r => if String.eqb x y then (y, S n) :: r else
         if existsb (λ z, String.eqb x z.1) acc then map (λ z, if String.eqb x z.1 then (z.1, S z.2) else z) acc else (x, 1) :: acc
     | [] => [(x, 1)] end) [] all.
Time Eval vm_compute in ("REPORT", report).
