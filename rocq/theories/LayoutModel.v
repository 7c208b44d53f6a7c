(** Memory layout: xme::AlignedData (/repo/include/xme/container/aligned_data.hpp), the
    nodes of the linked list (/repo/private/container/linked_list_base.hpp) and the
    indices and buffer of the single-producer single-consumer queue
    (/repo/private/container/spsc_queue_base.hpp).

    Sizes, alignments and addresses are numbers of bytes. A class is laid out as common
    ABIs do for classes like these: members in order, each at the next multiple of its
    alignment; the size is rounded up to a multiple of the largest alignment.

    Simplification: the empty-base and tail-padding optimisations are not used by these
    classes and not modelled. *)
From Coq Require Import ZArith List Bool.
Import ListNotations.
Local Open Scope Z_scope.

Record field := Field { f_size : Z; f_align : Z }.
(** The least multiple of [a] that is not below [x] *)
Definition round_up (x a : Z) : Z := (x + a - 1) / a * a.
(** Offsets of the members when the next free byte is [cur], and the first byte after them *)
Fixpoint place (cur : Z) (fs : list field) : list Z * Z :=
  match fs with
  | [] => ([], cur)
  | f :: fs' => let o := round_up cur (f_align f) in let '(os, e) := place (o + f_size f) fs' in (o :: os, e)
  end.
Definition class_align (fs : list field) : Z := fold_right (fun f a => Z.max (f_align f) a) 1 fs.
Definition offsets (fs : list field) : list Z := fst (place 0 fs).
Definition class_size (fs : list field) : Z := Z.max 1 (round_up (snd (place 0 fs)) (class_align fs)).
(** The class as a member of another *)
Definition class_field (fs : list field) : field := Field (class_size fs) (class_align fs).

(** * AlignedData *)
(** aligned_data.hpp:59: alignas(Align) std::array<std::byte, sizeof(T)> *)
Definition aligned_fields (size_t align : Z) : list field := [Field size_t align].
(** 15: static_assert(std::has_single_bit(Align)) *)
Definition aligned_accepts (align : Z) : bool := (0 <? align) && (align =? 2 ^ Z.log2 align).
(** 34-55 address(), data() of an object at address [a] *)
Definition aligned_address (size_t align a : Z) : Z := a + nth 0 (offsets (aligned_fields size_t align)) 0.

(** Arguments of a constructor: an AlignedData of the same type, const or not, as an
    rvalue or not; or anything else. *)
Inductive arg := Self (const rvalue : bool) | Other.
(** The constructors: 25-27 the defaulted one, 29-32 the template, and the implicit copy
    and move constructors. *)
Inductive ctor := CDefault | CTemplate | CCopy | CMove.
(** Overload resolution ([over.match.best]): the template takes every argument as its own
    type; a function that is not a template wins only if its conversions are as good. The
    copy constructor takes const AlignedData&, the move constructor AlignedData&&. *)
Definition select (default_initializable : bool) (args : list arg) : ctor :=
  match args with
  | [] => if default_initializable then CDefault else CTemplate
  | [Self true false] => CCopy
  | [Self false true] => CMove
  | _ => CTemplate
  end.
(** What the storage contains: bytes without an object, or an object with a value. *)
Inductive content (V : Type) := Bytes | Object (v : V).
Arguments Bytes {V}. Arguments Object {V}.
(** The new object's content; [old] is the content of the argument if it is an
    AlignedData, [make] the constructor of T ([None]: T has no such constructor, the
    program is ill-formed). Copy and move copy the bytes, and with them the object of a
    trivially copyable T. *)
Definition aligned_construct {V} (default_initializable : bool) (args : list arg) (old : content V)
    (make : list arg -> option V) : option (content V) :=
  match select default_initializable args with
  | CDefault => Some Bytes
  | CTemplate => option_map Object (make args)
  | CCopy | CMove => Some old
  end.
(** The implicit destructor does nothing: an object in the storage is not destroyed. *)
Definition aligned_destroy {V} (c : content V) : list V := [].

(** * The node of a linked list *)
(** linked_list_base.hpp:5-12: [next], then AlignedData<T> with the alignment of T *)
Definition node_fields (size_t align_t : Z) : list field :=
  [Field 8 8; class_field (aligned_fields size_t align_t)].

(** * The queue *)
(** spsc_queue_base.hpp:85-88: m_write_index, padding, m_read_index *)
Definition queue_fields : list field := [Field 8 8; Field (64 - 8) 1; Field 8 8].
(** 144: std::array<xme::AlignedData<T>, capacity> at [base]: the address of element [i] *)
Definition buffer_element (size_t align_t base i : Z) : Z := base + i * class_size (aligned_fields size_t align_t).
(** 141: data() + i, a T* *)
Definition buffer_pointer (size_t align_t base i : Z) : Z := aligned_address size_t align_t (buffer_element size_t align_t base 0) + i * size_t.
