(** /repo/include/xme/ranges/destroy.hpp: destroy_a, destroy_at_a and destroy_n_a for
    objects of any type, arrays of arrays included, and for allocators with and without
    a destroy of their own. *)
From stdpp Require Import list.
From Coq Require Import ZArith.

(** A class or scalar type, or an array type *)
Inductive ty := Elem | ArrOf (n : nat) (t : ty).
(** The number of elements that are not arrays. Addresses count these. *)
Fixpoint count (t : ty) : nat := match t with Elem => 1 | ArrOf n u => n * count u end.

(** What the allocator has: no destroy; destroy(E* p); template<U> destroy(U* p) that
    calls std::destroy_at(p), or one that calls p->~U(). *)
Inductive allocator := Plain | ForElements | Generic | Direct.

(** What happens: the destroy of the allocator gets the object of type [t] at [a]; the
    life of the element at [a] ends. *)
Inductive event := Told (t : ty) (a : nat) | Ends (a : nat).

(** [i, i + 1, ..., i + n - 1], one after the other *)
Fixpoint each (n : nat) (i : nat) (body : nat → list event) : list event :=
  match n with 0 => [] | S k => body i ++ each k (S i) body end.

(** std::destroy_at, [specialized.destroy]: the elements of an array in order *)
Fixpoint std_destroy_at (t : ty) (a : nat) : list event :=
  match t with
  | Elem => [Ends a]
  | ArrOf n u => each n 0 (λ i, std_destroy_at u (a + i * count u))
  end.
(** std::allocator_traits<Alloc>::destroy, [allocator.traits.members]: the destroy of the
    allocator if the call is well-formed, else std::destroy_at *)
Definition traits_destroy (al : allocator) (t : ty) (a : nat) : list event :=
  match al, t with
  | Plain, _ | ForElements, ArrOf _ _ => std_destroy_at t a
  | _, _ => Told t a :: std_destroy_at t a
  end.
(** The instance compiles: p->~U() is no expression for an array type U. *)
Definition traits_compiles (al : allocator) (t : ty) : bool :=
  match al, t with Direct, ArrOf _ _ => false | _, _ => true end.

(** destroy.hpp:8-12, and 14-17 for a range; the objects [first, last) of type [t] in an
    array at the address [base]. [None]: the call does not compile. *)
Definition destroy_a (al : allocator) (t : ty) (base first last : nat) : option (list event) :=
  if traits_compiles al t
  then Some (each (last - first) first (λ i, traits_destroy al t (base + i * count t)))
  else None.
(** destroy.hpp:21-28 *)
Definition destroy_at_a (al : allocator) (t : ty) (pos : nat) : option (list event) :=
  match t with
  | ArrOf n u => destroy_a al u pos 0 n
  | Elem => if traits_compiles al t then Some (traits_destroy al t pos) else None
  end.
(** destroy.hpp:31-39: [n] may be negative *)
Definition destroy_n_a (al : allocator) (t : ty) (base first : nat) (n : Z) : option (list event) :=
  match destroy_at_a al t base with
  | None => None
  | Some _ =>
      Some (each (Z.to_nat n) first (λ i, match destroy_at_a al t (base + i * count t) with Some l => l | None => [] end))
  end.
