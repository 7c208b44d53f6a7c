(** The unit tests of the repository, run on the model.

    Every Example below is one block of a test program in /repo/tests: the same calls with
    the same arguments on the model of the code under test, and the results the test
    expects. They are no properties of their own, but show that the model agrees with the
    behaviour its authors observe. Numbers such as 0.25f in tests of containers are
    replaced by integers, since containers do not look at the values of their elements. *)
From stdpp Require Import list.
From Coq Require Import ZArith.
From Verif Require Import Base.
From Verif Require ArrayModel ArraySpec ArrayRun HeapModel HeapSpec HeapRun ListModel ListSpec ListRun.
From Verif Require Client SpscModel SimdModel SimdSpec SimdProps ViewModel IterModel TupleModel TypesModel LikeModel LikeProps.
Local Open Scope mon_scope.

(** ** tests/container/array.cpp *)
Section array.
Import ArraySpec ArrayRun.
(** The element types are int and float: no loops over destructors or moves. *)
Definition array_test (os : list (op Z)) : option (list (out Z)) :=
  match run_ops true os (init []) with Ok r _ => Some r | _ => None end.
(** :9-16 operator[] *)
Example array_index_test :
  array_test [ORange [50; 30; 25]; OGet 0 0; OGet 0 1; OGet 0 2]%Z = Some [RNew 0; RVal 50; RVal 30; RVal 25]%Z.
Proof. by vm_compute. Qed.
(** :17-28 construction from two iterators, then a walk over the elements *)
Example array_iterators_test : array_test [ORange [50; 5]; OToList 0]%Z = Some [RNew 0; RList [50; 5]]%Z.
Proof. by vm_compute. Qed.
(** :41-49 front and back *)
Example array_ends_test : array_test [ORange [250; 125]; OFront 0; OBack 0]%Z = Some [RNew 0; RVal 250; RVal 125]%Z.
Proof. by vm_compute. Qed.
(** :55-67 the copy has its own capacity *)
Example array_copy_test :
  array_test [ORange [5; 3]; OReserve 0 5; OCopy 0; OToList 1; OCapacity 1; OSize 1; OCapacity 0; OSize 0; OToList 0]%Z =
  Some [RNew 0; RUnit; RNew 1; RList [5; 3]; RNat 2; RNat 2; RNat 5; RNat 2; RList [5; 3]]%Z.
Proof. by vm_compute. Qed.
(** :79-89 *)
Example array_move_test :
  array_test [ORange [3; 1]; OReserve 0 3; OMove 0; OEmpty 0; OCapacity 1; OSize 1; OGet 1 0; OGet 1 1]%Z =
  Some [RNew 0; RUnit; RNew 1; RBool true; RNat 3; RNat 2; RVal 3; RVal 1]%Z.
Proof. by vm_compute. Qed.
(** :90-102; [{5}] of an int array is a list of one element *)
Example array_copy_assign_test :
  array_test [ORange [8; 1]; OReserve 0 3; ORange [5]; OAssignCopy 1 0; OSize 0; OCapacity 0; OSize 1; OCapacity 1; OGet 1 0; OGet 1 1]%Z =
  Some [RNew 0; RUnit; RNew 1; RUnit; RNat 2; RNat 3; RNat 2; RNat 2; RVal 8; RVal 1]%Z.
Proof. by vm_compute. Qed.
(** :103-114 *)
Example array_move_assign_test :
  array_test [ORange [5; 3]; OReserve 0 3; ORange [1]; OAssignMove 1 0; OEmpty 0; OSize 1; OCapacity 1; OGet 1 0; OGet 1 1]%Z =
  Some [RNew 0; RUnit; RNew 1; RUnit; RBool true; RNat 2; RNat 3; RVal 5; RVal 3]%Z.
Proof. by vm_compute. Qed.
(** :120-129 *)
Example array_push_test :
  array_test [OFill 2 50; OPush 0 25; OToList 0; OCapacity 0; OSize 0]%Z = Some [RNew 0; RUnit; RList [50; 50; 25]; RNat 4; RNat 3]%Z.
Proof. by vm_compute. Qed.
(** :130-149 *)
Example array_push_range_test :
  array_test [ODefault; OPushRange 0 [1; 5; 3]; OGet 0 0; OGet 0 1; OGet 0 2]%Z = Some [RNew 0; RUnit; RVal 1; RVal 5; RVal 3]%Z.
Proof. by vm_compute. Qed.
(** :150-159 *)
Example array_emplace_test :
  array_test [ODefault; OEmplace 0 125; OGet 0 0; OCapacity 0; OSize 0]%Z = Some [RNew 0; RIdx 0; RVal 125; RNat 1; RNat 1]%Z.
Proof. by vm_compute. Qed.
(** :160-173 *)
Example array_insert_test :
  array_test [OCap 3; OInsert 0 0 25; OInsert 0 1 50; OInsert 0 1 100; OToList 0; OInsert 0 1 250; OToList 0; OSize 0; OCapacity 0]%Z =
  Some [RNew 0; RIdx 0; RIdx 1; RIdx 1; RList [25; 100; 50]; RIdx 1; RList [25; 250; 100; 50]; RNat 4; RNat 6]%Z.
Proof. by vm_compute. Qed.
(** :174-186 *)
Example array_insert_range_test :
  array_test [OCap 3; OInsertRange 0 0 [5; 3]; OToList 0; OInsertRange 0 1 [7; 1]; OToList 0]%Z =
  Some [RNew 0; RIdx 0; RList [5; 3]; RIdx 1; RList [5; 7; 1; 3]]%Z.
Proof. by vm_compute. Qed.
(** :187-199 *)
Example array_insert_end_test :
  array_test [OCap 3; OInsertRange 0 0 [5; 3]; OToList 0; OInsertRange 0 2 [7; 1]; OToList 0]%Z =
  Some [RNew 0; RIdx 0; RList [5; 3]; RIdx 2; RList [5; 3; 7; 1]]%Z.
Proof. by vm_compute. Qed.
(** :205-215 *)
Example array_pop_test :
  array_test [ORange [50; 25]; OPop 0; OGet 0 0; OSize 0; OCapacity 0; OPop 0; OSize 0; OCapacity 0]%Z =
  Some [RNew 0; RUnit; RVal 50; RNat 1; RNat 2; RUnit; RNat 0; RNat 2]%Z.
Proof. by vm_compute. Qed.
(** :216-233 the iterator returned by erase is followed to the end *)
Example array_erase_test :
  array_test [ORange [2; 3; 1]; OErase 0 0; OToList 0]%Z = Some [RNew 0; RIdx 0; RList [3; 1]]%Z ∧
  array_test [ORange [2; 3; 1]; OEraseRange 0 0 2; OToList 0]%Z = Some [RNew 0; RIdx 0; RList [1]]%Z.
Proof. by vm_compute. Qed.
(** :239-251 *)
Example array_reserve_test :
  array_test [ORange [100; 250]; OSize 0; OCapacity 0; OReserve 0 3; OSize 0; OCapacity 0; OReserve 0 1; OSize 0; OCapacity 0; OGet 0 0]%Z =
  Some [RNew 0; RNat 2; RNat 2; RUnit; RNat 2; RNat 3; RUnit; RNat 2; RNat 3; RVal 100]%Z.
Proof. by vm_compute. Qed.
(** :252-264 *)
Example array_resize_test :
  array_test [ORange [100; 250]; OResize 0 3; OSize 0; OCapacity 0; OResize 0 1; OSize 0; OCapacity 0; OGet 0 0]%Z =
  Some [RNew 0; RUnit; RNat 2; RNat 3; RUnit; RNat 1; RNat 1; RVal 100]%Z.
Proof. by vm_compute. Qed.
(** :266-274 *)
Example array_clear_test : array_test [ORange [5; 3]; OClear 0; OSize 0; OCapacity 0]%Z = Some [RNew 0; RUnit; RNat 0; RNat 2]%Z.
Proof. by vm_compute. Qed.
(** :280-292 std::back_insert_iterator calls push_back *)
Example array_back_inserter_test :
  array_test [OCap 2; OPush 0 10; OPush 0 (-3); OPush 0 5; OSize 0; OCapacity 0; OToList 0]%Z =
  Some [RNew 0; RUnit; RUnit; RUnit; RNat 3; RNat 4; RList [10; -3; 5]]%Z.
Proof. by vm_compute. Qed.
(** :293-305 std::insert_iterator calls insert and steps past the new element *)
Example array_inserter_test :
  array_test [ODefault; OInsert 0 0 (-3); OInsert 0 1 2; OInsert 0 2 7; OSize 0; OCapacity 0; OToList 0]%Z =
  Some [RNew 0; RIdx 0; RIdx 1; RIdx 2; RNat 3; RNat 4; RList [-3; 2; 7]]%Z.
Proof. by vm_compute. Qed.
End array.

(** ** tests/container/heap.cpp *)
Section heap.
Import HeapSpec HeapRun.
Fixpoint heap_ops (lt : Z → Z → bool) (os : list (op Z)) : ArrayModel.MA (list (out Z)) :=
  match os with [] => ret [] | o :: os' => r <- run_op lt o ;; rs <- heap_ops lt os' ;; ret (r :: rs) end.
Definition heap_test (lt : Z → Z → bool) (os : list (op Z)) : option (list (out Z)) :=
  match heap_ops lt os (init []) with Ok r _ => Some (List.filter (λ o, match o with RUnit => false | _ => true end) r) | _ => None end.
(** :6-21 *)
Example heap_push_test :
  heap_test Z.ltb ([HDefault] ++ map (HPush 0 ∘ Z.of_nat) (seq 0 10) ++ [HSize 0; HToList 0]) =
  Some [RNew 0; RNat 10; RList [9; 8; 5; 6; 7; 1; 4; 0; 3; 2]]%Z.
Proof. by vm_compute. Qed.
(** :22-38 *)
Example heap_pop_test :
  heap_test Z.ltb ([HDefault] ++ map (HPush 0 ∘ Z.of_nat) (seq 0 10) ++ [HPop 0; HSize 0; HToList 0]) =
  Some [RNew 0; RNat 9; RList [8; 7; 5; 6; 2; 1; 4; 0; 3]]%Z.
Proof. by vm_compute. Qed.
(** :43-72 *)
Example heap_construct_test :
  heap_test Z.gtb [HRange true [0; 1; 2]; HSize 0; HToList 0]%Z = Some [RNew 0; RNat 3; RList [0; 1; 2]]%Z ∧
  heap_test Z.gtb [HRange true [0; 1; 2; 3]; HSize 0; HToList 0]%Z = Some [RNew 0; RNat 4; RList [0; 1; 2; 3]]%Z.
Proof. by vm_compute. Qed.
End heap.

(** ** tests/container/linked_list.cpp *)
Section linked_list.
Import ListModel ListSpec ListRun.
Fixpoint list_ops (os : list (op Z)) : M (st Z) (list (out Z)) :=
  match os with [] => ret [] | o :: os' => r <- run_op o ;; rs <- list_ops os' ;; ret (r :: rs) end.
Definition list_test (os : list (op Z)) : option (list (out Z)) :=
  match list_ops os (init []) with Ok r _ => Some r | _ => None end.
(** :9-27 *)
Example list_access_test :
  list_test [LRange [2; 5]; LBegin 0; LDeref 0 (Nod 0); LIncr 0 (Nod 0); LDeref 0 (Nod 1); LIncr 0 (Nod 1); LFront 0]%Z =
  Some [RNew 0; RIter (Nod 0); RVal 2; RIter (Nod 1); RVal 5; RIter Nul; RVal 2]%Z.
Proof. by vm_compute. Qed.
(** :33-43 push_front, :44-54 emplace_front *)
Example list_push_front_test :
  list_test [LFill 2 0; LPushFront 0 3; LToList 0]%Z = Some [RNew 0; RUnit; RList [3; 0; 0]]%Z ∧
  list_test [LFill 2 1; LEmplaceFront 0 5; LToList 0]%Z = Some [RNew 0; RIter (Nod 2); RList [5; 1; 1]]%Z.
Proof. by vm_compute. Qed.
(** :55-78 emplace_after and insert_after behind begin() *)
Example list_insert_after_test :
  list_test [LRange [5; 3]; LInsertAfter 0 (Nod 0) (-6); LToList 0]%Z = Some [RNew 0; RIter (Nod 2); RList [5; -6; 3]]%Z ∧
  list_test [LRange [7; 1]; LInsertAfter 0 (Nod 0) 5; LToList 0]%Z = Some [RNew 0; RIter (Nod 2); RList [7; 5; 1]]%Z.
Proof. by vm_compute. Qed.
(** :85-96 *)
Example list_erase_after_test :
  list_test [LRange [5; 3; 1; 4]; LBeforeBegin 0; LEraseAfter 0 (Head 0); LFront 0; LBegin 0; LEraseAfter 0 (Nod 1); LToList 0]%Z =
  Some [RNew 0; RIter (Head 0); RUnit; RVal 3; RIter (Nod 1); RUnit; RList [3; 4]]%Z.
Proof. by vm_compute. Qed.
(** :97-107 *)
Example list_erase_range_test :
  list_test [LRange [5; 3; 1; 7]; LBegin 0; LIncr 0 (Nod 0); LIncr 0 (Nod 1); LIncr 0 (Nod 2); LEraseRange 0 (Nod 0) (Nod 3); LToList 0]%Z =
  Some [RNew 0; RIter (Nod 0); RIter (Nod 1); RIter (Nod 2); RIter (Nod 3); RUnit; RList [5; 7]]%Z.
Proof. by vm_compute. Qed.
(** :108-126 *)
Example list_pop_clear_test :
  list_test [LRange [9; 3; 1]; LPopFront 0; LToList 0]%Z = Some [RNew 0; RUnit; RList [3; 1]]%Z ∧
  list_test [LRange [5; 3; 1]; LClear 0; LEmpty 0; LBegin 0]%Z = Some [RNew 0; RUnit; RBool true; RIter Nul].
Proof. by vm_compute. Qed.
(** :132-154 *)
Example list_move_test :
  list_test [LRange [1; 5]; LMove 0; LEmpty 0; LToList 1]%Z = Some [RNew 0; RNew 1; RBool true; RList [1; 5]]%Z ∧
  list_test [LRange [5; 3]; LRange [1]; LAssignMove 1 0; LEmpty 0; LToList 1]%Z = Some [RNew 0; RNew 1; RUnit; RBool true; RList [5; 3]]%Z.
Proof. by vm_compute. Qed.
(** :155-181 *)
Example list_copy_test :
  list_test [LRange [5; 3]; LCopy 0; LToList 1; LToList 0]%Z = Some [RNew 0; RNew 1; RList [5; 3]; RList [5; 3]]%Z ∧
  list_test [LRange [2; 7]; LRange [5; 8; 1; -3; 2]; LAssignCopy 1 0; LToList 1; LToList 0]%Z =
  Some [RNew 0; RNew 1; RUnit; RList [2; 7]; RList [2; 7]]%Z.
Proof. by vm_compute. Qed.
(** :182-221 *)
Example list_assign_test :
  list_test [LRange [5; 1; 5]; LAssign 0 [7; 3]; LToList 0]%Z = Some [RNew 0; RUnit; RList [7; 3]]%Z ∧
  list_test [LDefault; LAssign 0 [5; 3]; LToList 0]%Z = Some [RNew 0; RUnit; RList [5; 3]]%Z ∧
  list_test [LRange [5; 3; 1; 6]; LAssign 0 [1; -3]; LToList 0]%Z = Some [RNew 0; RUnit; RList [1; -3]]%Z ∧
  list_test [LRange [5; 3; 1; 6]; LAssign 0 [3; 2]; LToList 0]%Z = Some [RNew 0; RUnit; RList [3; 2]]%Z.
Proof. by vm_compute. Qed.
(** :227-238 *)
Example list_reverse_test : list_test [LRange [2; 5; 1]; LReverse 0; LToList 0]%Z = Some [RNew 0; RUnit; RList [1; 5; 2]]%Z.
Proof. by vm_compute. Qed.
End linked_list.

(** ** tests/container/spsc.cpp; one thread makes all calls *)
Section spsc.
Import SpscModel Client.
Fixpoint queue_ops (cap : Z) (os : list (op Z)) : M (st Z) (list (outcome (out Z))) :=
  match os with [] => ret [] | o :: os' => r <- alone (run_op false cap o) ;; rs <- queue_ops cap os' ;; ret (r :: rs) end.
Definition queue_test (cap : nat) (os : list (op Z)) : option (list (outcome (out Z))) :=
  match queue_ops (Z.of_nat cap) os (start cap Done Done) with Ok r _ => Some r | _ => None end.
(** :36-51 *)
Example spsc_push_test :
  queue_test 16 ([OReadAvailable; OWriteAvailable] ++ map (OEmplace ∘ Z.of_nat) (seq 0 13) ++ [OReadAvailable; OWriteAvailable]) =
  Some ([Ret (RCount 0); Ret (RCount 15)] ++ replicate 13 (Ret (RBool true)) ++ [Ret (RCount 13); Ret (RCount 2)])%Z.
Proof. by vm_compute. Qed.
(** :53-73 *)
Example spsc_pop_test :
  queue_test 8 ([OReadAvailable; OWriteAvailable] ++ map (OEmplace ∘ Z.of_nat) (seq 0 7) ++ replicate 4 OPop ++ [OReadAvailable; OWriteAvailable] ++
    map (OEmplace ∘ Z.of_nat) (seq 0 4) ++ [OReadAvailable; OWriteAvailable]) =
  Some ([Ret (RCount 0); Ret (RCount 7)] ++ replicate 7 (Ret (RBool true)) ++ replicate 4 (Ret RUnit) ++ [Ret (RCount 3); Ret (RCount 4)] ++
    replicate 4 (Ret (RBool true)) ++ [Ret (RCount 7); Ret (RCount 0)])%Z.
Proof. by vm_compute. Qed.
End spsc.

(** ** tests/core/algorithm.cpp, built with and without SIMD; the arrays start at an
    address that is a multiple of 32 *)
Section algorithm.
Import SimdModel SimdSpec SimdProps.
Local Open Scope Z_scope.
(** The position of [v] among values of [w] bytes, counted in elements *)
Definition find_test (c : simd) (w : nat) (l : list Z) (v : Z) : option Z :=
  match find c Flat w int_eq 64 (64 + Z.of_nat (w * length l)) (le_bytes w v) (Mem 64 (concat (map (le_bytes w) l))) with
  | Ok p _ => Some ((p - 64) / Z.of_nat w)
  | _ => None
  end.
(** :27-46 the vectors v16, v32 and v64 *)
Definition ones : list Z := replicate 42 1 ++ [4; 7] ++ replicate 31 1 ++ [9].
(** :52-65 *)
Example find_vectors_test : Forall (λ c, Forall (λ w, map (find_test c w ones) [4; 7; 9; 10] = [Some 42; Some 43; Some 75; Some 76]) [2; 4; 8]%nat)
  [NoSimd; SSE; AVX2].
Proof. repeat constructor; vm_compute; reflexivity. Qed.
(** :6-22, 48-50 a string of 862 bytes with one '5' and one '0', and without '\'; the
    other characters are of no interest *)
Definition text : list Z := replicate 845 97 ++ [53] ++ replicate 15 98 ++ [48].
Example find_text_test : Forall (λ c, map (find_test c 1 text) [53; 92; 48] = [Some 845; Some 862; Some 861]) [NoSimd; SSE; AVX2].
Proof. repeat constructor; vm_compute; reflexivity. Qed.
(** :67-78 *)
Definition numbers : list Z := mjoin (replicate 4 [1; 5; 3; 2; 8; 5; 3; 8; 0; 2; 5; 31; 6; 3; 1; 6; 3; 8; 3; 35; 12; 32; 8; 5; 0; 2; 6; 6; 3; 6;
  1; 89; 49; 95; 2; 43; 57]).
Example reverse_test : Forall (λ c, reverse c Strict 1 64 (64 + 148) (Mem 64 numbers) = Ok (64 + 148) (Mem 64 (rev numbers))) [NoSimd; SSE; AVX2].
Proof. repeat constructor; vm_compute; reflexivity. Qed.
End algorithm.

(** ** tests/container/array_view.cpp; int has 4 bytes *)
Section array_view.
Import SimdModel ViewModel.
Local Open Scope Z_scope.
Definition ints (l : list Z) : mem := Mem 64 (concat (map (SimdSpec.le_bytes 4) l)).
Definition view_test {A} (m : M mem A) (l : list Z) : option A := match m (ints l) with Ok r _ => Some r | _ => None end.
(** :41-48 and :64-70, a static view of two elements; -6 has the bytes below *)
Example view_index_test :
  view_test (v <- ctor_ptr true 2 64 2 ;; a <- get Strict 4 v 0 ;; b <- get Strict 4 v 1 ;; ret (a, b)) [-6; 3] =
  Some ([0xFA; 0xFF; 0xFF; 0xFF], [3; 0; 0; 0]).
Proof. by vm_compute. Qed.
(** :49-56 a dynamic view *)
Example view_data_test :
  view_test (v <- ctor_ptr true dynamic_size 64 2 ;; p <- data v ;; x <- load p 4 ;; y <- load (p + 4) 4 ;; ret (x, y, size v)) [3; 1] =
  Some ([3; 0; 0; 0], [1; 0; 0; 0], 2).
Proof. by vm_compute. Qed.
(** :57-65 *)
Example view_walk_test :
  view_test (v <- ctor_range true 4 2 64 72 ;; b <- begin v ;; x <- load b 4 ;; b1 <- vadd Strict 4 b 1 ;; y <- load b1 4 ;; b2 <- vadd Strict 4 b1 1 ;;
    e <- end_ Strict 4 v ;; ret (x, y, b2 =? e, size v)) [7; 1] = Some ([7; 0; 0; 0], [1; 0; 0; 0], true, 2).
Proof. by vm_compute. Qed.
(** :74-79 *)
Example view_ends_test :
  view_test (v <- ctor_range true 4 2 64 72 ;; x <- front 4 v ;; y <- back Strict 4 v ;; ret (x, y)) [5; 4] = Some ([5; 0; 0; 0], [4; 0; 0; 0]).
Proof. by vm_compute. Qed.
(** Begin and end of a view, as offsets in elements *)
Definition bounds (m : M mem view) : M mem (Z * Z) := v <- m ;; b <- begin v ;; e <- end_ Strict 4 v ;; ret (pdiff 4 b 64, pdiff 4 e 64).
(** :82-94 *)
Example subview_test :
  view_test (v <- ctor_range true 4 2 64 72 ;; a <- bounds (subview Strict true 4 v 1 1) ;; b <- bounds (subview_static Strict true 4 v 1 1) ;; ret (a, b))
    [3; -1] = Some ((1, 2), (1, 2)).
Proof. by vm_compute. Qed.
(** :95-103 *)
Example first_test :
  view_test (v <- ctor_range true 4 3 64 76 ;; a <- bounds (first true v 2) ;; b <- bounds (first_static true v 2) ;; ret (a, b)) [1; 8; 3] =
  Some ((0, 2), (0, 2)).
Proof. by vm_compute. Qed.
(** :104-113 *)
Example last_test :
  view_test (v <- ctor_range true 4 3 64 76 ;; a <- bounds (last Strict true 4 v 2) ;; b <- bounds (last_static Strict true 4 v 2) ;; ret (a, b)) [1; 8; 3] =
  Some ((1, 3), (1, 3)).
Proof. by vm_compute. Qed.
(** :116-134, on a little-endian machine *)
Example as_bytes_test :
  view_test (v <- ctor_range true 4 1 64 68 ;; w <- as_bytes true 4 v ;; p <- data w ;; x <- load p 4 ;; ret (x, size w)) [0x12431205] =
  Some ([0x5; 0x12; 0x43; 0x12], 4).
Proof. by vm_compute. Qed.
End array_view.

(** ** tests/core/iterators.cpp, both adaptors on iterators of an array *)
Section iterators.
Import IterModel.
Local Open Scope Z_scope.
Definition vec : list Z := [1; 5; 3].
Section calls.
Context {It : Type} (I : iter (list Z) Z It) (it sent : It).
Definition deref (it : It) : M (list Z) Z := p <- i_deref I it ;; read p.
(** :25-57 and :67-99, in this order *)
Definition iterator_calls : M (list Z) (list Z * bool) :=
  a <- i_index I it 0 ;; a <- read a ;; b <- i_index I it 1 ;; b <- read b ;; c <- i_index I it 2 ;; c <- read c ;;
  t <- i_pincr I it ;; d <- deref (fst t) ;; e <- deref (snd t) ;;
  t <- i_pdecr I (snd t) ;; f <- deref (fst t) ;; g <- deref (snd t) ;;
  it1 <- i_incr I (snd t) ;; h <- deref it1 ;; it2 <- i_decr I it1 ;; i <- deref it2 ;;
  p <- i_add I it2 2 ;; j <- deref p ;; p <- i_radd I 2 it2 ;; k <- deref p ;; p <- i_sub I sent 2 ;; l <- deref p ;;
  m <- i_diff I sent it2 ;; n <- i_diff I it2 sent ;;
  it3 <- i_addeq I it2 2 ;; o <- deref it3 ;; it4 <- i_subeq I it3 2 ;; q <- deref it4 ;; r <- i_eq I it4 it2 ;;
  ret ([a; b; c; d; e; f; g; h; i; j; k; l; m; n; o; q], r).
End calls.
Definition iterator_test {It} (I : iter (list Z) Z It) (it sent : It) : option (list Z * bool) :=
  match iterator_calls I it sent vec with Ok r _ => Some r | _ => None end.
(** :17-58 *)
Example const_iterator_test :
  iterator_test (const_iterator array_iterator) (ConstIt (ArrayIt 0)) (ConstIt (ArrayIt 3)) =
  Some ([1; 5; 3; 1; 5; 5; 1; 5; 1; 3; 3; 5; 3; -3; 3; 1], true).
Proof. by vm_compute. Qed.
(** :60-100 *)
Example reverse_iterator_test :
  iterator_test (reverse_iterator array_iterator) (RevIt (ArrayIt 3)) (RevIt (ArrayIt 0)) =
  Some ([3; 5; 1; 3; 5; 5; 3; 5; 3; 1; 1; 5; 3; -3; 1; 3], true).
Proof. by vm_compute. Qed.
End iterators.

(** ** tests/container/tuple.cpp and pair.cpp: values. The objects are numbers in a list;
    a moved-from object is [None]. *)
Section tuple_values.
Import TupleModel.
Definition tuple_test {A} (m : M (list (option Z)) A) (l : list Z) : option (A * list (option Z)) :=
  match m (map Some l) with Ok r s => Some (r, s) | _ => None end.
(** tuple.cpp:83-102 copy and move assignment; pair.cpp:93-112 *)
Example tuple_assign_test :
  tuple_test (assign (tuple_of [Own 1]) (tuple_of [Own 0]) false) [5; 0]%Z = Some (tt, [Some 5; Some 5])%Z ∧
  tuple_test (assign (tuple_of [Own 1]) (tuple_of [Own 0]) true) [5; 0]%Z = Some (tt, [None; Some 5])%Z ∧
  tuple_test (pair_assign (Pair (Own 0) (Own 1)) (λ i, pair_get i (Pair (Own 2) (Own 3))) false) [1; 5; 9; 2]%Z =
    Some (tt, [Some 9; Some 2; Some 9; Some 2])%Z ∧
  tuple_test (pair_assign (Pair (Own 0) (Own 1)) (λ i, get i (tuple_of [Own 2; Own 3])) true) [1; 5; 9; 2]%Z =
    Some (tt, [Some 9; Some 2; None; None])%Z.
Proof. by vm_compute. Qed.
(** tuple.cpp:130-141, pair.cpp:141-157 *)
Example tuple_swap_test :
  tuple_test (swap (tuple_of [Own 0]) (tuple_of [Own 1])) [5; 7]%Z = Some (tt, [Some 7; Some 5])%Z ∧
  tuple_test (pair_swap (Pair (Own 0) (Own 1)) (Pair (Own 2) (Own 3))) [8; 1; 3; 5]%Z = Some (tt, [Some 3; Some 5; Some 8; Some 1])%Z.
Proof. by vm_compute. Qed.
(** tuple.cpp:143-159 the arguments of the call, and whether they may be moved from *)
Example tuple_apply_test :
  tuple_test (apply (λ args, ret args) (tuple_of [Own 0; Own 1]) false) [5; 7]%Z = Some ([(0%nat, false); (1%nat, false)], [Some 5; Some 7])%Z ∧
  tuple_test (apply (λ args, ret args) (tuple_of [Own 0; Own 1]) true) [5; 7]%Z = Some ([(0%nat, true); (1%nat, true)], [Some 5; Some 7])%Z.
Proof. by vm_compute. Qed.
(** tuple.cpp:161-190 tie and make_tuple *)
Example tuple_tie_test :
  tuple_test (get 0 (tie [0; 1])) [5; 7]%Z = Some (Ref 0%nat, [Some 5; Some 7])%Z ∧
  tuple_test (t <- make_tuple [5; 7]%Z ;; get 1 t) [] = Some (Own 1%nat, [Some 5; Some 7])%Z.
Proof. by vm_compute. Qed.
(** tuple.cpp:204-218 object 2 is the referenced one *)
Example tuple_cat_test :
  tuple_test (t <- tuple_cat [tuple_of [Own 0; Own 1; Ref 2]; tuple_of []; tuple_of [Own 3]] ;; convert t) [1; 5; 3; 50]%Z =
  Some ([1; 5; 3; 50], [Some 1; Some 5; Some 3; Some 50; Some 1; Some 5; Some 50])%Z.
Proof. by vm_compute. Qed.
End tuple_values.

(** ** Types: tuple.cpp, pair.cpp, core/utility.cpp, core/concepts.cpp, core/type_traits.cpp.
    A compiler without explicit object parameters. *)
Section types.
Import TypesModel LikeModel LikeProps.
Local Notation int := (Scalar (Integer 32 true)).
Local Notation uint := (Scalar (Integer 32 false)).
Local Notation float := (Scalar (Floating 32)).
Definition plain (c : core) : ty := Obj (Q false false c).
Definition const (c : core) : ty := Obj (Q true false c).
Definition ref (c : core) : ty := LRef (Q false false c).
Definition cref (c : core) : ty := LRef (Q true false c).
(** core/utility.cpp:9-14 *)
Example forward_like_test : forward_like (RRef (Q true false (Class 1))) (Expr (Q false false int) LValue) = RRef (Q true false int).
Proof. done. Qed.
(** core/concepts.cpp:8-22 *)
Example concepts_test :
  c_signed_integral (plain int) = true ∧ c_signed_integral (plain uint) = false ∧
  c_floating_point (plain (Scalar (Floating 80))) = true ∧ c_floating_point (plain (Scalar (Integer 64 true))) = false ∧
  c_arithmetic (plain (Scalar Boolean)) = true ∧ c_arithmetic (plain (Scalar (Integer 8 true))) = true ∧
  c_arithmetic (plain (Scalar (Integer 8 false))) = true ∧ c_different_from (plain int) (plain int) = false ∧
  c_different_from (plain int) (const int) = true.
Proof. done. Qed.
(** core/type_traits.cpp:10-13 *)
Example scoped_enum_test :
  is_scoped_enum (plain int) = false ∧ is_scoped_enum (plain (Enum 1 false (Integer 32 true))) = false ∧
  is_scoped_enum (plain (Enum 2 true (Integer 32 true))) = true.
Proof. done. Qed.
(** tuple.cpp:57-60, pair.cpp:56-59 *)
Example get_types_test :
  map (λ p, TypesModel.tuple_get false 2 (Class 0) false (fst p) (snd p))
    [(LValue, plain int); (LValue, cref float); (XValue, plain int); (XValue, cref float)] =
  [Some (ref int); Some (cref float); Some (RRef (Q false false int)); Some (cref float)] ∧
  map (λ p, TypesModel.pair_get false (Class 0) false (fst p) (snd p))
    [(LValue, plain int); (LValue, cref float); (XValue, plain int); (XValue, cref float)] =
  [Some (ref int); Some (cref float); Some (RRef (Q false false int)); Some (cref float)].
Proof. done. Qed.
(** tuple.cpp:34-44, pair.cpp:5-7 *)
Example tuple_like_test :
  c_tuple_like false (XTuple []) = Accepted tt ∧ c_tuple_like false (XTuple [plain int; plain int; ref int]) = Accepted tt ∧
  c_tuple_like false (XTuple [plain int]) = Accepted tt ∧ c_pair_like false (XTuple [plain int; plain int]) = Accepted tt ∧
  c_pair_like false (XTuple []) = Rejected ∧ c_pair_like false (XPair (plain int) (ref int)) = Accepted tt.
Proof. done. Qed.
(** tuple.cpp:32, 119-127: conversions; nothing is assumed about the types of objects but
    that an object can be made from one of the same type *)
Example convert_test :
  (∀ makes empty, convert_tuple (λ c e, core_eqb c (q_core (e_type e))) makes empty false [plain int] (XTuple [const int]) =
    Accepted [Expr (Q true false int) LValue]) ∧
  (∀ inits makes empty, convert_tuple inits makes empty false [ref (Class 1)] (XTuple [cref (Class 1)]) =
    Accepted [Expr (Q false false (Class 1)) LValue]).
Proof. done. Qed.
(** tuple.cpp:204-211 *)
Example tuple_cat_types_test :
  fst <$> TypesModel.tuple_cat false [TArg false LValue [plain int; const int; cref int] (Class 1); TArg false LValue [] (Class 2);
    TArg false LValue [plain float] (Class 3)] = Some [plain int; plain int; cref int; plain float].
Proof. done. Qed.
(** tuple.cpp:192-202 forward_as_tuple(a1, a2) *)
Example forward_as_tuple_test :
  map (λ e, rref (deduce e)) [Expr (Q false false int) LValue; Expr (Q true false int) LValue] = [ref int; cref int].
Proof. done. Qed.
End types.
