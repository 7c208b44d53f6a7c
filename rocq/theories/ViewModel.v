(** Model of xme::ArrayView (/repo/include/xme/container/array_view.hpp).

    Memory is one allocation as in SimdModel.v; an element of [w] bytes is its
    object representation. Pointers are addresses, 0 is [nullptr].

    Simplifications: constructors from other ranges, std::array and C arrays all
    delegate to the (pointer, size) constructor and are not repeated; a
    [static_assert] that fails is [AssertFail] although the program would not
    compile. *)
From stdpp Require Import list.
From Coq Require Import ZArith Lia.
From Verif Require Import Base SimdModel.
Local Open Scope Z_scope.
Local Open Scope mon_scope.

(** array_view.hpp:12-35 [Extent<S>]: a static size stores nothing, the
    specialisation for [dynamic_size] stores the run-time one. *)
Inductive extent := Static (size : Z) | Dynamic (s : Z).
Definition extent_size (e : extent) : Z := match e with Static n => n | Dynamic n => n end.

(** array_view.hpp:58 [dynamic_size = -1], as a std::size_t *)
Definition dynamic_size : Z := 2 ^ 64 - 1.

(** array_view.hpp:208-210 *)
Record view := View { v_ptr : Z; v_ext : extent }.

Section view.
(** [pr]: reading of pointer arithmetic; [dbg]: assert is active (no NDEBUG). *)
Context (pr : ptr_rule) (dbg : bool).

(** [assert(b)] *)
Definition assert_ (b : bool) : M mem unit := if dbg && negb b then fail AssertFail else ret tt.
(** [static_assert(b)] *)
Definition static_assert_ (b : bool) : M mem unit := if b then ret tt else fail AssertFail.
(** Sums of std::size_t values wrap. *)
Definition uadd (a b : Z) : Z := (a + b) mod 2 ^ 64.
Definition usub (a b : Z) : Z := (a - b) mod 2 ^ 64.
Definition umul (a b : Z) : Z := (a * b) mod 2 ^ 64.

(** [p + k] on a [T*]; adding 0 to a null pointer is allowed. *)
Definition vadd (w : nat) (p k : Z) : M mem Z :=
  if (p =? 0) && (k =? 0) then ret 0 else padd pr w p k.

(** array_view.hpp:74-76 default constructor (only for [Size] dynamic or 0) *)
Definition ctor_default (Size : Z) : M mem view :=
  static_assert_ ((Size =? dynamic_size) || (Size =? 0)) ;;;
  ret (View 0 (if Size =? dynamic_size then Dynamic 0 else Static 0)).

(** array_view.hpp:79-84 (iterator, size), template parameter [Size] *)
Definition ctor_ptr (Size : Z) (it size : Z) : M mem view :=
  let ext := if Size =? dynamic_size then Dynamic size else Static Size in
  (if negb (Size =? dynamic_size) then assert_ (size =? Size) else ret tt) ;;;
  ret (View it ext).

(** array_view.hpp:88-90 (first, last); the distance converts to std::size_t *)
Definition ctor_range (w : nat) (Size : Z) (first last : Z) : M mem view :=
  ctor_ptr Size first (pdiff w last first mod 2 ^ 64).

(** array_view.hpp:145-154, [Size] of the type *)
Definition size (v : view) : Z := extent_size (v_ext v).
Definition size_bytes (w : nat) (v : view) : Z := umul (size v) (Z.of_nat w).
Definition Size_of (v : view) : Z := match v_ext v with Static n => n | Dynamic _ => dynamic_size end.
Definition is_dynamic (v : view) : bool := Size_of v =? dynamic_size.

(** array_view.hpp:121-142 *)
Definition begin (v : view) : M mem Z := ret (v_ptr v).
Definition end_ (w : nat) (v : view) : M mem Z := vadd w (v_ptr v) (size v).

(** icontainer.hpp:13-25 operator[]: [begin()[i]] as an lvalue, i.e. its address *)
Definition index (w : nat) (v : view) (i : Z) : M mem Z :=
  b <- begin v ;; vadd w b i.
(** reading and assigning an element of [w] bytes through that lvalue *)
Definition get (w : nat) (v : view) (i : Z) : M mem (list Z) :=
  p <- index w v i ;; load p w.
Definition set (w : nat) (v : view) (i : Z) (x : list Z) : M mem unit :=
  p <- index w v i ;; store p x.

(** icontainer.hpp:27-45 empty(), 47-59 data(), 78-104 front(), back() *)
Definition empty (v : view) : bool := size v =? 0.
Definition data (v : view) : M mem Z := begin v.
Definition front (w : nat) (v : view) : M mem (list Z) := b <- begin v ;; load b w.
Definition back (w : nat) (v : view) : M mem (list Z) :=
  e <- end_ w v ;; p <- vadd w e (-1) ;; load p w.

(** array_view.hpp:157-165 subview<Offset, Count>() *)
Definition subview_static (w : nat) (v : view) (Offset Count : Z) : M mem view :=
  (if is_dynamic v then assert_ (uadd Count Offset <=? size v)
   else static_assert_ (uadd Count Offset <=? Size_of v)) ;;;
  p <- vadd w (v_ptr v) Offset ;;
  ctor_ptr Count p Count.

(** array_view.hpp:168-173 subview(offset, count) *)
Definition subview (w : nat) (v : view) (offset count : Z) : M mem view :=
  assert_ (uadd count offset <=? size v) ;;;
  p <- vadd w (v_ptr v) offset ;;
  ctor_ptr dynamic_size p count.

(** array_view.hpp:176-183 first<Count>() *)
Definition first_static (v : view) (Count : Z) : M mem view :=
  (if is_dynamic v then assert_ (Count <=? size v) else static_assert_ (Count <=? Size_of v)) ;;;
  ctor_ptr Count (v_ptr v) Count.

(** array_view.hpp:186-189 first(count) *)
Definition first (v : view) (count : Z) : M mem view :=
  assert_ (count <=? size v) ;;;
  ctor_ptr dynamic_size (v_ptr v) count.

(** array_view.hpp:192-199 last<Count>() *)
Definition last_static (w : nat) (v : view) (Count : Z) : M mem view :=
  (if is_dynamic v then assert_ (Count <=? size v) else static_assert_ (Count <=? Size_of v)) ;;;
  p <- vadd w (v_ptr v) (usub (size v) Count) ;;
  ctor_ptr Count p Count.

(** array_view.hpp:202-205 last(count) *)
Definition last (w : nat) (v : view) (count : Z) : M mem view :=
  assert_ (count <=? size v) ;;;
  p <- vadd w (v_ptr v) (usub (size v) count) ;;
  ctor_ptr dynamic_size p count.

(** array_view.hpp:229-236 as_bytes, 239-247 as_writable_bytes: the same
    computation, the result is a view of elements of one byte *)
Definition as_bytes (w : nat) (v : view) : M mem view :=
  d <- data v ;;
  let byteSize := size_bytes w v in
  let size := if Size_of v =? dynamic_size then dynamic_size else umul (Z.of_nat w) (Size_of v) in
  ctor_ptr size d byteSize.
End view.
