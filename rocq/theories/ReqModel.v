(** What the templates that take ranges require of the types they are given, and
    what their bodies need: /repo/include/xme/container/array.hpp,
    /repo/include/xme/container/linked_list.hpp, /repo/include/xme/container/heap.hpp,
    /repo/include/xme/ranges/uninitialized.hpp, /repo/include/xme/core/algorithm; and the
    iterators that make_const_iterator gives,
    /repo/include/xme/core/iterators/const_iterator.hpp.

    Simplifications: a type is described by the facts that the constraints and the bodies
    ask for; the concepts of range-v3 are those of std with the same name; a range is
    described by its iterator, its sentinel and whether ::ranges::size takes it. *)
From stdpp Require Import list.
From Verif Require Import TypesModel.

(** [iterator.concepts] *)
Inductive level := Input | Forward | Bidirectional | RandomAccess | Contiguous.
Definition rank (l : level) : nat :=
  match l with Input => 0 | Forward => 1 | Bidirectional => 2 | RandomAccess => 3 | Contiguous => 4 end.
Definition at_least (l m : level) : bool := Nat.leb (rank l) (rank m).

(** ** Ranges as arguments *)

(** The types of the arguments [first] and [last] (or of the range), together with the
    element type T of the container. *)
Record arg := Arg {
  a_level : level;        (** the strongest iterator concept of the iterator *)
  a_copyable : bool;      (** std::copyable<I> *)
  a_sized : bool;         (** std::sized_sentinel_for<S, I> *)
  a_common : bool;        (** S is I *)
  a_has_size : bool;      (** ::ranges::sized_range<R> *)
  a_meets_pointer : bool; (** std::sentinel_for<T*, I> *)
  a_converts : bool;      (** std::convertible_to<std::iter_reference_t<I>, T> *)
  a_constructs : bool;    (** std::constructible_from<T, std::iter_reference_t<I>> *)
  a_assigns : bool;       (** std::assignable_from<T&, std::iter_reference_t<I>> *)
  a_equality : bool;      (** std::equality_comparable<std::iter_value_t<I>> *)
  a_permutable : bool;    (** std::permutable<I> *)
  a_value_size : nat      (** sizeof(std::iter_value_t<I>) *)
}.

(** The outcome of a call: no overload is viable, an error inside the body of the chosen
    one, or neither. *)
Inductive outcome := NotViable | Error | Compiles.
Definition template (constraints body : bool) : outcome :=
  if constraints then (if body then Compiles else Error) else NotViable.
(** A call inside a body: it has to be viable and to compile. Iterators that are lvalues are
    copied into parameters that are values. *)
Definition calls (callee : arg → outcome) (lvalues : bool) (a : arg) : bool :=
  match callee a with Compiles => implb lvalues (a_copyable a) | _ => false end.
(** std::ranges::distance(first, last) for lvalues ([range.iter.op.distance]): only the
    overload for sized sentinels takes the iterator by reference. *)
Definition distance (a : arg) : bool := a_sized a || a_copyable a.

(** uninitialized.hpp:8-24 uninitialized_copy_a. The handler calls
    destroy_a(in_first, out_curr, alloc), destroy.hpp:8-12, which asks for a sentinel:
    [out_curr] is a T* here. *)
Definition uninitialized_copy (a : arg) : outcome :=
  template (at_least Forward (a_level a)) (a_constructs a && a_meets_pointer a).

(** array.hpp:64-70 Array(first, last) and 72-76 Array(range) *)
Definition array_ctor_it (a : arg) : outcome := template true (distance a && calls uninitialized_copy true a).
Definition array_ctor_r (a : arg) : outcome := template (a_converts a) (calls array_ctor_it false a).
(** array.hpp:180-207 insert(pos, first, last) and 213-217 insert(pos, range) *)
Definition array_insert_it (a : arg) : outcome := template true (distance a && a_constructs a).
Definition array_insert_r (a : arg) : outcome := template (a_converts a) (calls array_insert_it false a).
(** array.hpp:226-236 push_back(first, last) and 239-243 push_back(range) *)
Definition array_push_it (a : arg) : outcome := template true (distance a && a_constructs a).
Definition array_push_r (a : arg) : outcome := template (a_converts a) (calls array_push_it false a).

(** linked_list.hpp:259-266 range_initialize *)
Definition range_initialize (a : arg) : outcome := template true (a_constructs a).
(** linked_list.hpp:59-62 LinkedList(first, last) and 75-79 LinkedList(range) *)
Definition list_ctor_it (a : arg) : outcome := template true (calls range_initialize true a).
Definition list_ctor_r (a : arg) : outcome := template (a_converts a) (calls range_initialize false a).
(** linked_list.hpp:183-188 insert_after(pos, first, last) and 192-196 insert_after(pos, range) *)
Definition list_insert_it (a : arg) : outcome := template true (a_constructs a).
Definition list_insert_r (a : arg) : outcome := template (a_converts a) (calls list_insert_it false a).
(** linked_list.hpp:130-147 assign(first, last) and 153-157 assign(range) *)
Definition list_assign_it (a : arg) : outcome := template true (a_assigns a && calls list_insert_it true a).
Definition list_assign_r (a : arg) : outcome := template (a_converts a) (calls list_assign_it false a).

(** heap.hpp:72-79 push: the parameter is std::convertible_to<T> *)
Definition heap_push (a : arg) : bool := a_converts a.
(** heap.hpp:28-35 Heap(first, last) and 38-48 Heap(range) *)
Definition heap_ctor_it (a : arg) : outcome :=
  template true ((if at_least Contiguous (a_level a) then distance a else true) && heap_push a).
Definition heap_ctor_r (a : arg) : outcome := template (a_converts a) (a_has_size a && heap_push a).

(** Vector instructions enabled: the largest of XME_SIMD_USE_SSE2, XME_SIMD_USE_SSE3 and
    XME_SIMD_USE_AVX2 that is set *)
Inductive simd := Scalar | SSE2 | SSE3 | AVX2.
Definition size_is (ns : list nat) (a : arg) : bool := existsb (Nat.eqb (a_value_size a)) ns.
(** ::ranges::find(i, s, value) and ::ranges::reverse(i, s) for lvalues *)
Definition ranges_find (a : arg) : outcome := template (a_equality a) true.
Definition ranges_reverse (a : arg) : outcome := template (at_least Bidirectional (a_level a) && a_permutable a) true.
(** find.hpp:71-99. [unsequenced]: the execution policy, by default it is. The block loop
    compares an iterator with the sentinel by <=, which takes an iterator. *)
Definition find_it (v : simd) (unsequenced : bool) (a : arg) : outcome :=
  let blocks := match v with Scalar => false | _ => at_least Contiguous (a_level a) && unsequenced end in
  template true (if blocks then size_is [1;2;4;8] a && a_common a && a_equality a
                 else calls ranges_find true a).
(** find.hpp:100-103 *)
Definition find_r (v : simd) (unsequenced : bool) (a : arg) : outcome :=
  template true (calls (find_it v unsequenced) false a).
(** reverse.hpp:16-44 reverse_simd<size>: the last branch is static_assert(size < 0) *)
Definition reverse_simd (v : simd) (a : arg) : bool :=
  match v with AVX2 => size_is [1] a | SSE3 => size_is [1;2] a | _ => false end.
(** reverse.hpp:47-71 and 72-75: [s -= n], [--s], std::to_address(s), [i < s] *)
Definition reverse_it (v : simd) (a : arg) : outcome :=
  let blocks := match v with AVX2 | SSE3 => at_least Contiguous (a_level a) | _ => false end in
  template true (if blocks then size_is [1;2;4;8] a && a_common a && reverse_simd v a && a_permutable a
                 else calls ranges_reverse true a).
Definition reverse_r (v : simd) (a : arg) : outcome := template true (calls (reverse_it v) false a).

(** All of them. *)
Inductive fn :=
| ArrayCtor | ArrayCtorRange | ArrayInsert | ArrayInsertRange | ArrayPush | ArrayPushRange
| ListCtor | ListCtorRange | ListInsert | ListInsertRange | ListAssign | ListAssignRange
| HeapCtor | HeapCtorRange
| Find (v : simd) (unsequenced : bool) | FindRange (v : simd) (unsequenced : bool)
| Reverse (v : simd) | ReverseRange (v : simd).
Definition call_fn (f : fn) : arg → outcome :=
  match f with
  | ArrayCtor => array_ctor_it | ArrayCtorRange => array_ctor_r
  | ArrayInsert => array_insert_it | ArrayInsertRange => array_insert_r
  | ArrayPush => array_push_it | ArrayPushRange => array_push_r
  | ListCtor => list_ctor_it | ListCtorRange => list_ctor_r
  | ListInsert => list_insert_it | ListInsertRange => list_insert_r
  | ListAssign => list_assign_it | ListAssignRange => list_assign_r
  | HeapCtor => heap_ctor_it | HeapCtorRange => heap_ctor_r
  | Find v u => find_it v u | FindRange v u => find_r v u
  | Reverse v => reverse_it v | ReverseRange v => reverse_r v
  end.

(** ** Iterator types *)

(** The operations of a class (or pointer) that is used as an iterator. Those with [None]
    or [false] do not exist or are not viable. *)
Record ops := Ops {
  o_value : core;           (** std::iter_value_t *)
  o_default : bool;         (** default constructor *)
  o_copy : bool;            (** copy constructor and assignment *)
  o_deref : ty;             (** type of *i *)
  o_inc : bool;             (** ++i *)
  o_post_inc : bool;        (** i++ *)
  o_dec : bool;             (** --i, i-- *)
  o_equal : bool;           (** i == j *)
  o_random : bool;          (** i < j and the like, i - j, i + n, n + i, i - n, i += n, i -= n, i[n] *)
  o_address : option ty;    (** type of the object that std::to_address(i) points to *)
  o_concept : level;        (** iterator_concept *)
  o_category : bool         (** std::iterator_traits<I>::iterator_category exists *)
}.
(** std::input_iterator and the concepts above it ([iterator.concepts]) *)
Definition is_input (o : ops) : bool := o_inc o && o_post_inc o.
Definition is_forward (o : ops) : bool := is_input o && at_least Forward (o_concept o) && o_default o && o_copy o && o_equal o.
Definition is_bidirectional (o : ops) : bool := is_forward o && at_least Bidirectional (o_concept o) && o_dec o.
Definition is_random (o : ops) : bool := is_bidirectional o && at_least RandomAccess (o_concept o) && o_random o.
Definition is_contiguous (o : ops) : bool :=
  is_random o && at_least Contiguous (o_concept o) &&
  match o_deref o, o_address o with LRef q, Some t => ty_eqb (Obj q) t | _, _ => false end.
Definition models (l : level) : ops → bool :=
  match l with
  | Input => is_input | Forward => is_forward | Bidirectional => is_bidirectional
  | RandomAccess => is_random | Contiguous => is_contiguous
  end.

(** [meta.trans.other] std::common_reference_t<T, U> of two types with the same core and
    without volatile: COMMON-REF for two references; otherwise the type of the conditional
    expression, which for scalars is that of the values. Left out: objects of class type,
    for which the result depends on the revision of the standard. *)
Definition common_qual (q r : qual) : qual := Q (q_const q || q_const r) (q_volatile q || q_volatile r) (q_core q).
Definition with_const (q : qual) : qual := Q true (q_volatile q) (q_core q).
Definition common_reference (t u : ty) : option ty :=
  match t, u with
  | LRef q, LRef r => Some (LRef (common_qual q r))
  | RRef q, RRef r => Some (RRef (common_qual q r))
  | RRef q, LRef r | LRef r, RRef q => Some (LRef (common_qual (with_const q) r))
  | _, _ => match remove_cvref t with TypesModel.Scalar k => Some (Obj (Q false false (TypesModel.Scalar k))) | _ => None end
  end.
(** iterator_traits.hpp:5-7 *)
Definition iter_const_reference (o : ops) : option ty :=
  common_reference (RRef (Q true false (o_value o))) (o_deref o).
(** constant_iterator.hpp:7-9 *)
Definition is_constant_iterator (o : ops) : bool :=
  is_input o && match iter_const_reference o with Some t => ty_eqb t (o_deref o) | None => false end.

(** const_iterator.hpp:16-27 get_iterator_concept *)
Definition get_iterator_concept (o : ops) : level :=
  if is_contiguous o then Contiguous
  else if is_random o then RandomAccess
  else if is_bidirectional o then Bidirectional
  else if is_forward o then Forward
  else Input.
(** const_iterator.hpp:10-199: the class ConstIterator<I>. [None]: its instantiation is an
    error; line 33 names the category of the iterator even if it is not used.
    - 36, 198: default constructor; 38 the constructor copies the iterator;
    - 48-53 operator->: the result is a pointer to const;
    - 55 operator*, 57-60 ++, 62-68 ++(int), 70-84 --, 149-152 ==;
    - 86-147, 154-195: arithmetic and order. *)
Definition const_iterator (o : ops) : option ops :=
  if is_input o && o_category o then
    match iter_const_reference o with
    | Some r => Some {|
        o_value := o_value o;
        o_default := o_default o;
        o_copy := o_copy o;
        o_deref := r;
        o_inc := true;
        o_post_inc := is_forward o;
        o_dec := is_bidirectional o;
        o_equal := o_equal o && o_default o && o_copy o;
        o_random := is_random o;
        o_address := match o_address o with Some (Obj q) => Some (Obj (with_const q)) | _ => None end;
        o_concept := get_iterator_concept o;
        o_category := true
      |}
    | None => None
    end
  else None.
(** const_iterator.hpp:201-207 make_const_iterator: the iterator is copied *)
Definition make_const_iterator (o : ops) : option ops :=
  if is_input o && o_copy o then (if is_constant_iterator o then Some o else const_iterator o) else None.

(** const_iterator.hpp:40-42: ConstIterator<I>(ConstIterator<U>) where U converts to I or not
    ([converts]). The body initialises an I with the ConstIterator<U>, which has no conversion
    functions: a pointer does not take one, a class may have a constructor that does. *)
Inductive target := RawPointer | ClassIterator (takes_const_iterator : bool).
Definition convert_const_iterator (t : target) (converts : bool) : outcome :=
  template converts (match t with RawPointer => false | ClassIterator b => b end).
