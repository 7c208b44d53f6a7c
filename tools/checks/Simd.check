(* Concrete instances of the find and reverse theorems, evaluated on the
   (possibly edited) model; see Array.check. *)
From Coq Require Import String ZArith.
From stdpp Require Import list.
From Verif Require Import Base SimdModel SimdSpec.
Local Open Scope string_scope.
Local Open Scope list_scope.
Local Open Scope Z_scope.
Definition int_eq (x y : list Z) : bool := le_value x =? le_value y.
Definition vs (c : simd) : nat := match c with AVX2 => 32 | _ => 16 end.
Fixpoint first (v : Z) (l : list Z) : nat := match l with [] => O | x :: l => if x =? v then O else S (first v l) end.
Definition find_i (r : ptr_rule) (nm : string) (c : simd) (w : nat) (n k : nat) (post : list Z) : list string :=
  let hot := 2 ^ (8 * Z.of_nat w - 1) + 1 in
  (* neighbours of the value share bytes with it *)
  let vals := map (λ j, if (k <=? j)%nat && (negb (Nat.eqb (j - k) 1)) then hot else if Nat.even j then 1 else hot - 1) (seq 0 n) in
  let s := Mem 96 (replicate 32 1 ++ concat (map (le_bytes w) vals) ++ post) in
  let e := 128 + Z.of_nat (n * w) in
  match find c r w int_eq 128 e (le_bytes w hot) s with
  | Ok p s' => if (p =? 128 + Z.of_nat (first hot vals * w)) && bool_decide (m_bytes s' = m_bytes s) then [] else [nm]
  | _ => [nm] end.
Definition rev_i (nm : string) (c : simd) (r : ptr_rule) (w n : nat) : list string :=
  let ls := map (λ j, le_bytes w (Z.of_nat j)) (seq 1 n) in
  match reverse c r w 101 (101 + Z.of_nat (n * w)) (Mem 100 ([7] ++ concat ls ++ [8; 9])) with
  | Ok e s' => if (e =? 101 + Z.of_nat (n * w)) && bool_decide (m_bytes s' = [7] ++ concat (rev ls) ++ [8; 9]) then [] else [nm]
  | _ => [nm] end.
Definition report : list (string * nat) :=
  let all :=
    (c ← [AVX2; SSE; NoSimd]; w ← [1; 2; 4; 8]%nat; nk ← [(0,0);(1,0);(1,1);(3,2);(40,33);(40,40);(64,63);(65,64);(80,5);(80,17);(80,80);(16,15);(32,32)]%nat;
       find_i Flat "find_int" c w nk.1 nk.2 [] ++ find_i Strict "find_slack" c w nk.1 nk.2 (replicate 32 0)) ++
    (c ← [AVX2; SSE; NoSimd]; r ← [Flat; Strict]; n ← [0;1;2;3;15;16;31;32;33;63;64;65;70;97;128;129]%nat; rev_i "reverse_bytes" c r 1 n) ++
    (r ← [Flat; Strict]; w ← [1;2;3;8]%nat; n ← [0;1;2;3;16;17]%nat; rev_i "reverse_nosimd" NoSimd r w n) ++
    (r ← [Flat; Strict]; n ← [0;1;2;3;14;15]%nat; rev_i "reverse_pairs_partial" SSE r 2 n) in
  fold_right (λ x acc, match acc with
     | (y, n) :: r => if String.eqb x y then (y, S n) :: r else
         if existsb (λ z, String.eqb x z.1) acc then map (λ z, if String.eqb x z.1 then (z.1, S z.2) else z) acc else (x, 1%nat) :: acc
     | [] => [(x, 1%nat)] end) [] all.
Local Open Scope nat_scope.
Time Eval vm_compute in ("REPORT", report).
