(** Evaluation of [constexpr] functions as constant expressions. Their bodies
    contain no [if consteval]: the same statements run as at run time, and the
    first one that the language does not allow in a constant expression
    ([expr.const]) makes the whole call a non-constant. C++20 is the standard
    the project asks for (tests/CMakeLists.txt:13). Element types are literal
    types whose own operations are constexpr; allocators are std::allocator. *)
From stdpp Require Import list.
From Verif Require Import Base Client SimdModel.
From Verif Require ArrayModel ArraySpec ArrayRun ListModel ListSpec ListRun.

(** Why an evaluation is no constant: pointer arithmetic that leaves the array;
    a call of a function that is not constexpr; a pointer to bytes converted
    from void* to T*; an object used outside its lifetime; memory that is still
    allocated when the evaluation ends. *)
Inductive why := OutsideArray | NotConstexpr | ByteStorage | Lifetime | KeptMemory.
Inductive ceval (A : Type) := Const (a : A) | NotConst (w : why).
Arguments Const {A}. Arguments NotConst {A}.

(** find.hpp:73-80, reverse.hpp:49-54: the number of elements of a SIMD block,
    if the function uses blocks at all. [c] is what is switched on for the
    function at hand, [w] is sizeof(T), [simd] whether the iterators are
    contiguous and, for find, the policy is unsequenced. *)
Definition block (c : simd) (w : nat) (simd : bool) : option nat :=
  if simd then match c with
               | AVX2 => Some (32 / w)
               | SSE => Some (16 / w)
               | NoSimd => None
               end
  else None.

Section algorithms.
Context {A : Type} (eqb : A → A → bool).

(** find.hpp:89-90, and ::ranges::find: [while(compare != s && *compare != value) ++compare]. *)
Fixpoint scan (fuel : nat) (arr : list A) (x : A) (compare s : nat) : ceval nat :=
  if Nat.eqb compare s then Const compare else
  match fuel with
  | 0 => NotConst OutsideArray
  | S fuel' =>
      match arr !! compare with
      | None => NotConst OutsideArray
      | Some v => if eqb v x then Const compare else scan fuel' arr x (S compare) s
      end
  end.
(** find.hpp:71-99 on the elements [i, s) of the array [arr]. [compare + readable_bytes]
    (line 82) is evaluated first; detail::find_simd (lines 12-69), called if the
    block lies inside the range, is not constexpr. *)
Definition find (b : option nat) (arr : list A) (x : A) (i s : nat) : ceval nat :=
  match b with
  | None => scan (s - i) arr x i s
  | Some n =>
      if Nat.ltb (length arr) (i + n) then NotConst OutsideArray
      else if Nat.leb (i + n) s then NotConst NotConstexpr
      else scan (s - i) arr x i s
  end.

(** reverse.hpp:62-63, and ::ranges::reverse: [while(i < s) iter_swap(i++, --s)]. *)
Fixpoint swaps (fuel : nat) (arr : list A) (i s : nat) : ceval (list A) :=
  if Nat.ltb i s then
    match fuel with
    | 0 => NotConst OutsideArray
    | S fuel' =>
        match arr !! i, arr !! (s - 1) with
        | Some a, Some b => swaps fuel' (<[i := b]> (<[s - 1 := a]> arr)) (i + 1) (s - 1)
        | _, _ => NotConst OutsideArray
        end
    end
  else Const arr.
(** reverse.hpp:47-73; the contents of the array afterwards. detail::reverse_simd
    (lines 16-44) is not constexpr. *)
Definition reverse (b : option nat) (arr : list A) (i s : nat) : ceval (list A) :=
  match b with
  | None => swaps (s - i) arr i s
  | Some n =>
      let count := (s - i) / 2 / n in
      if Nat.eqb count 0 then swaps (s - i) arr i s else NotConst NotConstexpr
  end.
End algorithms.

(** A program with local arrays (array.hpp). allocate, construct, destroy and
    deallocate of std::allocator are constexpr, and so are the copies and moves
    of elements; but the evaluation follows the lifetimes of objects for every
    element type, also for numbers, as [ArrayModel] does with [triv = false].
    Memory has to be released before the end of the evaluation. *)
Definition array_eval {V} (os : list (ArraySpec.op V)) : ceval (list (ArraySpec.out V)) :=
  match ArrayRun.run_ops false os (ArrayRun.init []) with
  | Ok rs s =>
      if forallb (λ b, match b with None => true | Some _ => false end) (ArrayModel.heap s)
      then Const rs else NotConst KeptMemory
  | _ => NotConst Lifetime
  end.

(** A program with local lists. create_node (linked_list.hpp:245-257) calls
    storage.data() (aligned_data.hpp:48-55), which converts the address of an
    array of bytes from void* to T*, for every node. *)
Definition list_eval {V} (os : list (ListSpec.op V)) : ceval (list (ListSpec.out V)) :=
  match run_ops ListRun.run_op os (ListRun.init []) with
  | Ok rs s => match ListModel.nodes s with [] => Const rs | _ => NotConst ByteStorage end
  | _ => NotConst Lifetime
  end.
