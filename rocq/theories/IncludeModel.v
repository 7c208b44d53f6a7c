(** What including the headers of the library does: /repo/include/xme and the headers in
    /repo/private that they include.

    A header is a list of what matters for the others: what it includes, which names of the
    library it declares or needs to be declared (classes, concepts, functions, macros that
    stay), which macros it defines and undefines again, and how it uses the name [ranges].

    Simplifications: headers of std and range-v3 are left out; so is hal apart from
    simd_detection.hpp, which includes nothing of the library; a name is looked up where it
    is written, also in templates; only names that a header takes from another one are
    listed; names in sections that need __cpp_explicit_this_parameter are left out. *)
From Coq Require Import String.
From stdpp Require Import list strings.
Local Open Scope string_scope.

Inductive item :=
| Include (h : string)
| Declares (n : string)
| Uses (n : string)
| Defines (m : string)
| Undefines (m : string)
| OpensRanges   (** namespace xme::ranges { ... } *)
| UsesRanges.   (** ranges::x inside namespace xme, where only ::ranges has a member x *)

(** ** The headers *)
Definition contents (h : string) : list item :=
  (** setup.hpp:10-30 *)
  if h =? "setup.hpp" then [Declares "XME_CONSTEXPR20"; Declares "XME_INLINE"] else
  (** hal/simd_detection.hpp *)
  if h =? "hal/simd_detection.hpp" then [] else
  (** core/concepts/arithmetic.hpp *)
  if h =? "core/concepts/arithmetic.hpp" then
    [Declares "CFloatingPoint"; Declares "CIntegral"; Declares "CSignedIntegral"; Declares "CUnsignedIntegral"; Declares "CArithmetic"] else
  (** core/concepts/different_from.hpp *)
  if h =? "core/concepts/different_from.hpp" then [Declares "CDifferentFrom"; Declares "CDifferentFromSelf"] else
  (** core/concepts/concepts.hpp *)
  if h =? "core/concepts/concepts.hpp" then
    [Include "core/concepts/arithmetic.hpp"; Include "core/concepts/different_from.hpp"] else
  (** core/iterators/iterator_traits.hpp *)
  if h =? "core/iterators/iterator_traits.hpp" then [Declares "iter_const_reference_t"] else
  (** core/concepts/constant_iterator.hpp *)
  if h =? "core/concepts/constant_iterator.hpp" then
    [Include "core/iterators/iterator_traits.hpp"; Uses "iter_const_reference_t"; Declares "CConstantIterator"] else
  (** core/iterators/const_iterator.hpp *)
  if h =? "core/iterators/const_iterator.hpp" then
    [Include "core/iterators/iterator_traits.hpp"; Include "setup.hpp"; Include "core/concepts/constant_iterator.hpp";
     Include "core/concepts/different_from.hpp"; Declares "ConstIterator"; Uses "iter_const_reference_t"; Uses "CDifferentFrom";
     Uses "XME_INLINE"; Uses "CConstantIterator"; Declares "make_const_iterator"] else
  (** core/iterators/reverse_iterator.hpp *)
  if h =? "core/iterators/reverse_iterator.hpp" then [Declares "ReverseIterator"] else
  (** core/type_traits, core/bit *)
  if h =? "core/type_traits/is_initializer_list.hpp" then [Declares "is_initializer_list"] else
  if h =? "core/type_traits/is_scoped_enum.hpp" then [Declares "is_scoped_enum"] else
  if h =? "core/bit/has_single_bit.hpp" then [Declares "has_single_bit"] else
  (** core/utility *)
  if h =? "core/utility/forward_like.hpp" then [Declares "forward_like"] else
  if h =? "core/utility/to_unsigned.hpp" then [Include "setup.hpp"; Uses "XME_INLINE"; Declares "to_unsigned"] else
  (** core/algorithm/find.hpp *)
  if h =? "core/algorithm/find.hpp" then
    [Include "setup.hpp"; Include "hal/simd_detection.hpp"; Uses "XME_INLINE"; Declares "find_simd"; Declares "find"] else
  (** core/algorithm/reverse.hpp: the macro of line 13 stays *)
  if h =? "core/algorithm/reverse.hpp" then
    [Include "setup.hpp"; Include "hal/simd_detection.hpp"; Declares "SEQ"; Uses "XME_INLINE"; Declares "reverse_simd"; Declares "reverse"] else
  (** core/functional *)
  if h =? "core/functional/delegate.hpp" then [Include "core/concepts/different_from.hpp"; Declares "Delegate"; Uses "CDifferentFromSelf"] else
  if h =? "core/functional/scoped_delegate.hpp" then [Declares "ScopedDelegate"] else
  if h =? "core/functional/bind.hpp" then
    [Include "container/tuple.hpp"; Include "core/utility/forward_like.hpp"; Include "core/concepts/different_from.hpp";
     Uses "CDifferentFromSelf"; Uses "Tuple"; Declares "bind_front"; Declares "bind_back"] else
  (** container/concepts.hpp *)
  if h =? "container/concepts.hpp" then [Declares "CAllocator"; Declares "CTupleLike"; Declares "CPairLike"] else
  (** container/icontainer.hpp *)
  if h =? "container/icontainer.hpp" then [Declares "IContainer"] else
  (** container/aligned_data.hpp *)
  if h =? "container/aligned_data.hpp" then [Include "setup.hpp"; Declares "AlignedData"] else
  (** container/container_policy.hpp *)
  if h =? "container/container_policy.hpp" then [Declares "Capacity"] else
  (** container/pair.hpp *)
  if h =? "container/pair.hpp" then
    [Include "container/concepts.hpp"; Include "setup.hpp"; Include "core/utility/forward_like.hpp"; Uses "CPairLike"; Declares "Pair";
     Uses "XME_CONSTEXPR20"; Declares "make_pair"] else
  (** private/container/tuple_base.hpp *)
  if h =? "private/container/tuple_base.hpp" then
    [Include "setup.hpp"; Include "core/utility/forward_like.hpp"; Declares "TupleElement"; Uses "XME_CONSTEXPR20"; Declares "tuple_base"] else
  (** container/tuple.hpp *)
  if h =? "container/tuple.hpp" then
    [Include "private/container/tuple_base.hpp"; Include "container/concepts.hpp"; Include "setup.hpp"; Uses "tuple_base"; Declares "Tuple";
     Uses "CTupleLike"; Uses "XME_CONSTEXPR20"; Uses "TupleElement"; Declares "apply"; Declares "tie"; Declares "make_tuple";
     Declares "forward_as_tuple"; Declares "tuple_cat"] else
  (** ranges/destroy.hpp *)
  if h =? "ranges/destroy.hpp" then [OpensRanges; Declares "ranges::destroy_a"; Declares "ranges::destroy_at_a"; Declares "ranges::destroy_n_a"] else
  (** ranges/uninitialized.hpp *)
  if h =? "ranges/uninitialized.hpp" then
    [Include "ranges/destroy.hpp"; Include "container/concepts.hpp"; Include "container/pair.hpp"; OpensRanges; Uses "Pair";
     Uses "ranges::destroy_a"; Declares "ranges::uninitialized_copy_a"; Declares "ranges::uninitialized_fill_n_a"] else
  (** container/array.hpp: 58, 67, 79, 249, 278 *)
  if h =? "container/array.hpp" then
    [Include "container/concepts.hpp"; Include "container/icontainer.hpp"; Include "core/iterators/reverse_iterator.hpp";
     Include "ranges/destroy.hpp"; Include "ranges/uninitialized.hpp"; Uses "CAllocator"; Declares "Array"; Uses "IContainer";
     Uses "ranges::uninitialized_fill_n_a"; Uses "ranges::uninitialized_copy_a"; Uses "ranges::destroy_a"; Uses "ranges::destroy_at_a";
     Uses "ranges::destroy_n_a"] else
  (** container/heap.hpp *)
  if h =? "container/heap.hpp" then [Include "container/array.hpp"; Uses "Array"; Declares "Heap"; Uses "IContainer"] else
  (** container/array_view.hpp: 93, 94, 98, 225, 226 *)
  if h =? "container/array_view.hpp" then
    [Include "container/icontainer.hpp"; Include "core/iterators/reverse_iterator.hpp"; Declares "ArrayView"; Uses "IContainer";
     Uses "ReverseIterator"; UsesRanges; Declares "as_bytes"; Declares "as_writable_bytes"] else
  (** private/container/linked_list_base.hpp *)
  if h =? "private/container/linked_list_base.hpp" then
    [Include "container/aligned_data.hpp"; Declares "LinkedListNodeBase"; Declares "LinkedListNode"; Uses "AlignedData";
     Declares "LinkedListIterator"; Declares "LinkedListConstIterator"] else
  (** container/linked_list.hpp: 75, 193 *)
  if h =? "container/linked_list.hpp" then
    [Include "private/container/linked_list_base.hpp"; Include "container/icontainer.hpp"; Declares "LinkedList"; Uses "IContainer";
     Uses "LinkedListNodeBase"; Uses "LinkedListNode"; Uses "LinkedListIterator"; Uses "LinkedListConstIterator"; UsesRanges] else
  (** private/container/spsc_queue_base.hpp *)
  if h =? "private/container/spsc_queue_base.hpp" then
    [Include "container/aligned_data.hpp"; Declares "StaticSPSCQueue"; Uses "AlignedData"; Declares "DynamicSPSCQueue"] else
  (** container/spsc_queue.hpp *)
  if h =? "container/spsc_queue.hpp" then
    [Include "private/container/spsc_queue_base.hpp"; Include "container/container_policy.hpp"; Include "container/container.hpp";
     Declares "SPSCQueue"; Uses "CAllocator"; Uses "DynamicSPSCQueue"; Uses "StaticSPSCQueue"] else
  (** container/container.hpp *)
  if h =? "container/container.hpp" then
    [Include "container/concepts.hpp"; Include "container/aligned_data.hpp"; Include "container/array.hpp"; Include "container/array_view.hpp";
     Include "container/linked_list.hpp"; Include "container/spsc_queue.hpp"; Include "container/tuple.hpp"; Include "container/pair.hpp"] else
  (** math/constants.hpp *)
  if h =? "math/constants.hpp" then [Include "core/concepts/arithmetic.hpp"; Uses "CFloatingPoint"; Declares "pi_v"; Declares "pi"] else
  (** math/scalars *)
  if h =? "math/scalars/functions.hpp" then
    [Include "setup.hpp"; Include "core/concepts/arithmetic.hpp"; Uses "CSignedIntegral"; Uses "XME_INLINE"; Declares "sign"] else
  if h =? "math/scalars/trigonometry.hpp" then
    [Include "setup.hpp"; Include "core/concepts/concepts.hpp"; Include "math/constants.hpp"; Uses "CFloatingPoint"; Uses "XME_INLINE";
     Uses "pi_v"; Declares "radians"; Declares "degrees"] else
  (** math/vectors: the macros are those of lines 7 to 30, undefined at the end *)
  if h =? "math/vectors/vector2.hpp" then
    [Include "setup.hpp"; Include "core/concepts/arithmetic.hpp"; Defines "VEC_OP"; Defines "VEC_SELF_OP"; Uses "CArithmetic"; Declares "Vector";
     Uses "CFloatingPoint"; Undefines "VEC_OP"; Undefines "VEC_SELF_OP"] else
  if h =? "math/vectors/vector3.hpp" then
    [Include "setup.hpp"; Include "core/concepts/arithmetic.hpp"; Defines "VEC_OP"; Defines "VEC_SELF_OP"; Uses "CArithmetic"; Declares "Vector";
     Uses "CFloatingPoint"; Undefines "VEC_OP"; Undefines "VEC_SELF_OP"] else
  if h =? "math/vectors/vector4.hpp" then
    [Include "setup.hpp"; Include "core/concepts/arithmetic.hpp"; Defines "VEC_OP"; Defines "VEC_SELF_OP"; Uses "CArithmetic"; Declares "Vector";
     Uses "CFloatingPoint"; Undefines "VEC_OP"; Undefines "VEC_SELF_OP"] else
  if h =? "math/vectors/functions.hpp" then
    [Include "setup.hpp"; Include "core/concepts/arithmetic.hpp"; Include "math/scalars/functions.hpp"; Uses "CArithmetic"; Declares "Vector";
     Uses "CFloatingPoint"; Uses "XME_INLINE"; Declares "lerp"; Uses "CSignedIntegral"; Uses "sign"] else
  if h =? "math/vectors/geometry.hpp" then
    [Include "setup.hpp"; Include "core/concepts/arithmetic.hpp"; Uses "CArithmetic"; Declares "Vector"; Uses "XME_INLINE"; Declares "dot";
     Declares "cross"; Uses "CFloatingPoint"; Declares "length"; Declares "distance"; Declares "normalize"] else
  (** math/vector.hpp: the specialisations and functions are included at the end, lines 130-134 *)
  if h =? "math/vector.hpp" then
    [Include "setup.hpp"; Include "core/concepts/arithmetic.hpp"; Defines "VEC_OP"; Defines "VEC_SELF_OP"; Uses "CArithmetic"; Declares "Vector";
     Uses "CFloatingPoint"; Undefines "VEC_OP"; Undefines "VEC_SELF_OP"; Include "math/vectors/vector2.hpp";
     Include "math/vectors/vector3.hpp"; Include "math/vectors/vector4.hpp"; Include "math/vectors/functions.hpp";
     Include "math/vectors/geometry.hpp"] else
  (** math/matrices *)
  if h =? "math/matrices/perspective.hpp" then
    [Include "setup.hpp"; Include "core/concepts/concepts.hpp"; Uses "CFloatingPoint"; Declares "Matrix"; Uses "XME_INLINE"; Declares "perspective"] else
  if h =? "math/matrices/functions.hpp" then
    [Include "math/vector.hpp"; Uses "CFloatingPoint"; Declares "Matrix"; Uses "XME_INLINE"; Declares "determinant"; Declares "transpose"; Uses "Vector"] else
  if h =? "math/matrices/transformation.hpp" then
    [Include "math/vector.hpp"; Uses "CFloatingPoint"; Declares "Matrix"; Uses "XME_INLINE"; Uses "Vector"; Declares "translate"; Declares "scale";
     Declares "rotate"] else
  if h =? "math/matrices/matrix4x4.hpp" then
    [Include "math/vector.hpp"; Include "math/matrices/functions.hpp"; Include "math/matrices/transformation.hpp"; Defines "MAT_OP1";
     Defines "MAT_OP2"; Defines "MAT_SELF_OP1"; Defines "MAT_SELF_OP2"; Uses "CFloatingPoint"; Declares "Matrix"; Uses "Vector"; Uses "dot";
     Uses "determinant"; Uses "transpose"; Undefines "MAT_OP1"; Undefines "MAT_OP2"; Undefines "MAT_SELF_OP1"; Undefines "MAT_SELF_OP2"] else
  (** math/matrix.hpp *)
  if h =? "math/matrix.hpp" then
    [Include "math/vector.hpp"; Include "math/matrices/perspective.hpp"; Include "math/matrices/functions.hpp";
     Include "math/matrices/transformation.hpp"; Defines "MAT_OP1"; Defines "MAT_OP2"; Defines "MAT_SELF_OP1"; Defines "MAT_SELF_OP2";
     Uses "CFloatingPoint"; Declares "Matrix"; Uses "Vector"; Uses "CArithmetic"; Uses "dot"; Undefines "MAT_OP1"; Undefines "MAT_OP2";
     Undefines "MAT_SELF_OP1"; Undefines "MAT_SELF_OP2"; Include "math/matrices/matrix4x4.hpp"] else
  (** math/quaternion.hpp *)
  if h =? "math/quaternion.hpp" then [Include "setup.hpp"; Include "core/concepts/concepts.hpp"; Uses "CFloatingPoint"; Declares "Quaternion"] else
  (** math/glsl_mapping.hpp *)
  if h =? "math/glsl_mapping.hpp" then
    [Include "math/vector.hpp"; Include "math/matrix.hpp"; Uses "Vector"; Uses "Matrix"; Uses "CFloatingPoint"; Uses "CArithmetic"; Uses "XME_INLINE";
     Uses "lerp"; Declares "mix"] else
  (** math/math.hpp *)
  if h =? "math/math.hpp" then
    [Include "math/constants.hpp"; Include "math/scalars/functions.hpp"; Include "math/scalars/trigonometry.hpp"; Include "math/vector.hpp";
     Include "math/matrix.hpp"; Include "math/quaternion.hpp"; Include "math/glsl_mapping.hpp"] else
  [].

(** The files that exist. *)
Definition headers : list string :=
  ["setup.hpp"; "hal/simd_detection.hpp"; "core/concepts/arithmetic.hpp"; "core/concepts/different_from.hpp"; "core/concepts/concepts.hpp";
   "core/iterators/iterator_traits.hpp"; "core/concepts/constant_iterator.hpp"; "core/iterators/const_iterator.hpp";
   "core/iterators/reverse_iterator.hpp"; "core/type_traits/is_initializer_list.hpp"; "core/type_traits/is_scoped_enum.hpp";
   "core/bit/has_single_bit.hpp"; "core/utility/forward_like.hpp"; "core/utility/to_unsigned.hpp"; "core/algorithm/find.hpp";
   "core/algorithm/reverse.hpp"; "core/functional/delegate.hpp"; "core/functional/scoped_delegate.hpp"; "core/functional/bind.hpp";
   "container/concepts.hpp"; "container/icontainer.hpp"; "container/aligned_data.hpp"; "container/container_policy.hpp"; "container/pair.hpp";
   "private/container/tuple_base.hpp"; "container/tuple.hpp"; "ranges/destroy.hpp"; "ranges/uninitialized.hpp"; "container/array.hpp";
   "container/heap.hpp"; "container/array_view.hpp"; "private/container/linked_list_base.hpp"; "container/linked_list.hpp";
   "private/container/spsc_queue_base.hpp"; "container/spsc_queue.hpp"; "container/container.hpp"; "math/constants.hpp";
   "math/scalars/functions.hpp"; "math/scalars/trigonometry.hpp"; "math/vectors/vector2.hpp"; "math/vectors/vector3.hpp";
   "math/vectors/vector4.hpp"; "math/vectors/functions.hpp"; "math/vectors/geometry.hpp"; "math/vector.hpp"; "math/matrices/perspective.hpp";
   "math/matrices/functions.hpp"; "math/matrices/transformation.hpp"; "math/matrices/matrix4x4.hpp"; "math/matrix.hpp"; "math/quaternion.hpp";
   "math/glsl_mapping.hpp"; "math/math.hpp"].

(** ** Including *)
Definition mem (x : string) (xs : list string) : bool := existsb (String.eqb x) xs.

(** What a translation unit has seen so far. *)
Record env := Env {
  included : list string;     (** the files with #pragma once, which all headers have *)
  declared : list string;
  macros : list string;       (** macros that are to be undefined again *)
  xme_ranges : bool           (** whether namespace xme::ranges exists *)
}.
Definition start : env := Env [] [] [] false.

Inductive error :=
| NoSuchFile (h : string)
| NotDeclared (n : string)
| Redefined (m : string)      (** a macro defined again, with another replacement *)
| HiddenNamespace             (** no member of that name in xme::ranges, which hides ::ranges *)
| TooDeep.                    (** nested deeper than [fuel] *)
Inductive result := Fine (e : env) | Stopped (why : error).

Definition then_ (r : result) (k : env → result) : result := match r with Fine e => k e | Stopped w => Stopped w end.
Definition step (file : string → env → result) (it : item) (e : env) : result :=
  match it with
  | Include h => file h e
  | Declares n => Fine (Env (included e) (n :: declared e) (macros e) (xme_ranges e))
  | Uses n => if mem n (declared e) then Fine e else Stopped (NotDeclared n)
  | Defines m => if mem m (macros e) then Stopped (Redefined m) else Fine (Env (included e) (declared e) (m :: macros e) (xme_ranges e))
  | Undefines m => Fine (Env (included e) (declared e) (List.filter (λ x, negb (x =? m)) (macros e)) (xme_ranges e))
  | OpensRanges => Fine (Env (included e) (declared e) (macros e) true)
  | UsesRanges => if xme_ranges e then Stopped HiddenNamespace else Fine e
  end.
Fixpoint items (file : string → env → result) (its : list item) (e : env) : result :=
  match its with [] => Fine e | it :: its => then_ (step file it e) (items file its) end.
(** #include: nothing the second time *)
Fixpoint file (fuel : nat) (h : string) (e : env) : result :=
  if mem h (included e) then Fine e
  else if negb (mem h headers) then Stopped (NoSuchFile h)
  else match fuel with
       | 0 => Stopped TooDeep
       | S fuel => items (file fuel) (contents h) (Env (h :: included e) (declared e) (macros e) (xme_ranges e))
       end.
(** A source file that starts with these #include directives *)
Fixpoint includes (hs : list string) (e : env) : result :=
  match hs with [] => Fine e | h :: hs => then_ (file (length headers) h e) (includes hs) end.
Definition compiles (hs : list string) : bool := match includes hs start with Fine _ => true | Stopped _ => false end.

(** ** The modules: what they include and the names that they export
    - modules/container/container.cppm, modules/math/math.cppm (of the constants one, of the
      aliases none), modules/core *)
Definition module_ (m : string) : list string * list string :=
  if m =? "xme.container" then
    (["container/container.hpp"],
     ["CAllocator"; "CTupleLike"; "CPairLike"; "AlignedData"; "Array"; "ArrayView"; "as_bytes"; "as_writable_bytes"; "LinkedList"; "Pair"; "make_pair";
      "Tuple"; "apply"; "tie"; "make_tuple"; "forward_as_tuple"; "tuple_cat"]) else
  if m =? "xme.math" then (["math/math.hpp"], ["pi"; "Vector"; "Matrix"; "perspective"; "Quaternion"; "radians"; "degrees"]) else
  if m =? "xme.functional" then (["core/functional/bind.hpp"; "core/functional/delegate.hpp"], ["bind_front"; "bind_back"; "Delegate"]) else
  if m =? "xme.iterators" then (["core/iterators/reverse_iterator.hpp"], ["ReverseIterator"]) else
  (["core/utility/forward_like.hpp"], ["forward_like"]).
(** [None]: the interface unit does not compile; otherwise what it exports *)
Definition exports (m : string) : option (list string) :=
  match includes (fst (module_ m)) start with
  | Fine e => if forallb (λ n, mem n (declared e)) (snd (module_ m)) then Some (snd (module_ m)) else None
  | Stopped _ => None
  end.
