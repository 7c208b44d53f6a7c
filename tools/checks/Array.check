(* Concrete instances of the Array theorems, evaluated on the (possibly edited)
   model. Needs only the model and specification files. Each entry of [report]
   is a theorem name with the number of violated instances; the unedited model
   gives none. *)
From Coq Require Import String.
From stdpp Require Import list.
From Verif Require Import Base ArrayModel ArraySpec ArrayRun.
Local Open Scope string_scope.
Local Open Scope list_scope.

Notation V := nat.
Global Instance aobj_eq : EqDecision (aobj V). Proof. solve_decision. Defined.
Global Instance out_eq : EqDecision (out V). Proof. solve_decision. Defined.
Global Instance ptr_eq : EqDecision ptr. Proof. solve_decision. Defined.
Global Instance cell_eq : EqDecision (@cell V). Proof. solve_decision. Defined.
Global Instance arr_eq : EqDecision arr. Proof. solve_decision. Defined.

Definition see (s : st V) (i : nat) : option (aobj V) :=
  match capacity i s with
  | Ok c s1 => match to_list i s with Ok l s2 => Some (Good l c) | _ => Some (Broken c) end
  | _ => None
  end.
Definition matches (x y : option (aobj V)) : bool :=   (* x specified, y observed *)
  match x, y with
  | None, None => true
  | Some (Broken c), Some z => Nat.eqb c (acap z)
  | Some a, Some b => bool_decide (a = b)
  | _, _ => false
  end.
Definition viewb (s : st V) (σ : astore V) : bool :=
  Nat.eqb (length (objs s)) (length σ) &&
  forallb (λ i, matches (default None (σ !! i)) (see s i)) (seq 0 (length σ)).
Definition throws (o : op V) (σ : astore V) : list (astore V) :=
  match o with
  | OPush i v | OEmplace i v =>
      match get_good σ i with Some (l, c) => [σ; upd σ i (Good l (grown l c))] | None => [] end
  | OPushRange i xs =>
      match get_good σ i with
      | Some (l, c) => σ :: map (λ k, upd σ i (Good (l ++ take k xs) (grown_end l c (length xs)))) (seq 0 (length xs))
      | None => [] end
  | OInsert i k v =>
      match get_good σ i with
      | Some (l, c) => σ :: (if Nat.eqb k (length l) then [upd σ i (Good l (grown l c))] else []) ++
          (match l !! k with Some x => if Nat.ltb (length l) c then [upd σ i (Good (take k l ++ x :: drop k l) c)] else [] | None => [] end)
      | None => [] end
  | OInsertRange i k xs =>
      match get_good σ i with
      | Some (l, c) => if Nat.ltb c (length l + length xs) then [σ] else [upd σ i (Broken c)]
      | None => [] end
  | OCap _ | OFill _ _ | ORange _ | OCopy _
  | OAssignCopy _ _ | OAssignList _ _ | OReserve _ _ | OResize _ _ => [σ]
  | _ => []
  end.
Definition ownedb (s : st V) : bool :=
  forallb (λ b, match heap s !! b with
    | Some (Some cs) =>
        match List.filter (λ i, match begin_ i s with Ok (Ptr b' 0) _ => Nat.eqb b' b | _ => false end) (seq 0 (length (objs s))) with
        | [i] => match capacity i s with Ok c _ => Nat.eqb c (length cs) | _ => false end
        | _ => false end
    | _ => true end) (seq 0 (length (heap s))).
Definition fitsb (o : op V) (σ : astore V) : option nat :=
  let g i f := match get_good σ i with Some (l, c) => if (f l c : bool) then Some i else None | None => None end in
  match o with
  | OPush j _ | OEmplace j _ => g j (λ l c, Nat.ltb (length l) c)
  | OInsert j k _ => g j (λ l c, Nat.leb k (length l) && Nat.ltb (length l) c)
  | OReserve j n => g j (λ l c, Nat.leb n c)
  | OPushRange j xs => g j (λ l c, Nat.leb (length l + length xs) c)
  | OInsertRange j k xs => g j (λ l c, Nat.leb k (length l) && Nat.leb (length l + length xs) c)
  | OPop j => g j (λ l c, Nat.ltb 0 (length l))
  | OClear j => g j (λ _ _, true)
  | OErase j k => g j (λ l c, Nat.ltb k (length l))
  | OEraseRange j k m => g j (λ l c, Nat.leb k m && Nat.leb m (length l))
  | _ => None
  end.
Definition begin_of (s : st V) i : option ptr := match begin_ i s with Ok p _ => Some p | _ => None end.
Definition gentleb (o : op V) (σ : astore V) : bool :=
  let g i f := match get_good σ i with Some (l, c) => (f l c : bool) | None => false end in
  let nil (l : list V) := Nat.eqb (length l) 0 in
  match o with
  | OReserve i n => g i (λ l c, nil l || Nat.leb n c)
  | OResize i n => g i (λ l c, nil l || Nat.eqb n 0 || Nat.eqb n c)
  | OPush i _ | OEmplace i _ | OInsert i _ _ => g i (λ l c, nil l || Nat.ltb (length l) c)
  | OPushRange i xs => g i (λ l c, nil l || Nat.leb (length l + length xs) c)
  | OInsertRange _ _ _ => false
  | OErase i k => g i (λ l c, Nat.eqb (S k) (length l))
  | OEraseRange i k m => g i (λ l c, Nat.eqb m (length l))
  | _ => true
  end.
Definition only_objsb (s s' : st V) : bool :=
  bool_decide (heap s' = heap s) && bool_decide (oracle s' = oracle s) && Nat.eqb (moved s') (moved s) && Nat.eqb (leaked s') (leaked s).
Definition relocs (o : op V) (σ : astore V) (s s' : st V) : bool :=
  match o with
  | OPush i _ => match get_good σ i with
      | Some (l, c) => Nat.leb (moved s' + c) (moved s + grown l c) | None => true end
  | _ => true end.

(* run a program in lockstep; collects the names of violated theorems *)
Fixpoint lock (os : list (op V)) (s : st V) (σ : astore V) : list string :=
  match os with
  | [] => []
  | o :: os =>
      match spec_step o σ with
      | None => lock os s σ
      | Some (σ1, r) =>
          match run_op true o s with
          | UB _ => ["array_history"]
          | Ok r' s' =>
              (if bool_decide (r' = r) && viewb s' σ1 then [] else ["array_history"]) ++
              (if ownedb s' then [] else ["array_blocks_owned"]) ++
              (match fitsb o σ with Some i => if bool_decide (begin_of s i = begin_of s' i) then [] else ["array_no_realloc"] | None => [] end) ++
              (if relocs o σ s s' then [] else ["array_push_amortised"]) ++
              (match o with OSwap _ _ | OMove _ => if only_objsb s s' then [] else ["array_swap/array_move_construct"] | _ => [] end) ++
              (if bool_decide (r' = r) && viewb s' σ1 then lock os s' σ1 else [])
          | Throw s' =>
              (match oracle s with [] => ["array_history"] | _ => [] end) ++
              (if ownedb s' then [] else ["array_blocks_owned"]) ++
              match List.filter (viewb s') (throws o σ) with
              | σ' :: _ => lock os s' σ'
              | [] => ["array_history"]
              end
          end
      end
  end.
Fixpoint lock_nt (os : list (op V)) (s : st V) (σ : astore V) : list string :=
  match os with
  | [] => []
  | o :: os =>
      match spec_step o σ with
      | None => lock_nt os s σ
      | Some (σ1, r) =>
          if negb (gentleb o σ) then lock_nt os s σ else
          match run_op false o s with
          | Ok r' s' =>
              if bool_decide (r' = r) && viewb s' σ1 && Nat.eqb (leaked s') 0 && ownedb s'
              then lock_nt os s' σ1 else ["array_nontrivial_gentle_partial"]
          | _ => ["array_nontrivial_gentle_partial"]
          end
      end
  end.
Definition fill_throw (triv : bool) (orc : list bool) : list string :=
  let s := init orc in
  match run_op triv (OFill 3 7) s with
  | Ok r s' => if Nat.eqb (leaked s') 0 then [] else ["array_fill_throw"]
  | Throw s' => if Nat.eqb (leaked s') 0 && bool_decide (objs s' = []) && bool_decide (heap s' = [] ∨ heap s' = [None]) then [] else ["array_fill_throw"]
  | UB _ => ["array_fill_throw"]
  end.
Definition push_throw (triv : bool) (orc : list bool) : list string :=
  match run_ops triv [OCap 3; OPush 0 1] (init []) with
  | Ok _ s => match push_back triv 0 (AObj 2) (set_oracle orc s) with
      | Ok _ s' => if matches (Some (Good [1;2] 3)) (see s' 0) && Nat.eqb (leaked s') 0 then [] else ["array_push_throw"]
      | Throw s' => if matches (Some (Good [1] 3)) (see s' 0) && Nat.eqb (leaked s') 0 then [] else ["array_push_throw"]
      | UB _ => ["array_push_throw"] end
  | _ => ["array_push_throw"]
  end.

Definition ops : list (op V) :=
  [OCap 2; OFill 2 1; ORange [1;2;3]; ODefault; OCopy 0; OMove 0; ODestroy 0; OAssignCopy 0 1; OAssignCopy 1 0;
   OAssignCopy 0 0; OAssignMove 0 1; OAssignMove 0 0; OAssignList 0 [5;6]; OSwap 0 1; OSwap 0 0; OClear 0;
   OReserve 0 0; OReserve 0 2; OReserve 0 3; OReserve 0 5; OResize 0 0; OResize 0 1; OResize 0 3; OResize 0 5;
   OInsert 0 0 9; OInsert 0 1 9; OInsert 0 3 9; OInsertRange 0 0 [7;8]; OInsertRange 0 1 [7;8]; OInsertRange 0 2 [];
   OPush 0 4; OEmplace 0 4; OPushRange 0 [7;8]; OPop 0; OErase 0 0; OErase 0 2; OEraseRange 0 0 2; OEraseRange 0 1 2;
   OEraseRange 0 1 1; OGet 0 1; OFront 0; OBack 0; OSize 0; OEmpty 0; OCapacity 0].
Definition lcg (x : N) : N := ((x * 1103515245 + 12345) mod 2147483648)%N.
Fixpoint random (n : nat) (x : N) : list (op V) * N :=
  match n with
  | O => ([], x)
  | S n => let x := lcg x in
           let o := default ODefault (ops !! N.to_nat ((x / 65536) mod N.of_nat (length ops))%N) in
           let '(l, y) := random n x in (o :: l, y)
  end.
Fixpoint randoms (k n : nat) (x : N) : list (list (op V)) :=
  match k with
  | O => []
  | S k => let '(l, y) := random n x in (ORange [1;2;3] :: l) :: randoms k n y
  end.
Definition starts : list (op V) := [OCap 2; OFill 2 1; ORange [1;2;3]; ODefault].
Definition short : list (list (op V)) := c ← starts; o ← ops; p ← ops; [[c; o; p; ODestroy 0; ODestroy 1]].
Definition oracles : list (list bool) := [] :: map (λ k, app (replicate k false) [true]) (seq 1 8).
Definition report : list (string * nat) :=
  let all :=
    (p ← short ++ randoms 400 9 7; orc ← oracles; lock p (init orc) []) ++
    (p ← short ++ randoms 1500 9 11; lock_nt p (init []) []) ++
    (t ← [true; false]; orc ← oracles; fill_throw t orc ++ push_throw t orc) in
  fold_right (λ x acc, match acc with
     | (y, n) :: r => if String.eqb x y then (y, S n) :: r else
         if existsb (λ z, String.eqb x z.1) acc then map (λ z, if String.eqb x z.1 then (z.1, S z.2) else z) acc else (x, 1) :: acc
     | [] => [(x, 1)] end) [] all.
Time Eval vm_compute in ("REPORT", report).
