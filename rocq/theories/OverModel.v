(** Overload resolution among the functions of the containers that take one object or a
    range: /repo/include/xme/container/array.hpp, linked_list.hpp, heap.hpp, array_view.hpp.

    Simplifications: arguments in braces are left out; of the conversions only those between
    the types below exist; constraints do not subsume each other (they do not: each function
    has its own concepts); volatile is left out. *)
From stdpp Require Import list.
From Coq Require Import ZArith.
From Verif Require Import TypesModel.

(** ** Overload resolution *)

(** [over.ics.rank]: a standard conversion sequence of rank 0 (exact match) to 2 (conversion),
    with what it binds to, or a user-defined one *)
Inductive binding := ByValue | LRef (const : bool) | RRef (const : bool).
Inductive conversion := Std (rank : nat) (b : binding) | User.
(** 3.2.3: an rvalue prefers an rvalue reference; 3.2.6: less const is better *)
Definition better_binding (b c : binding) : bool :=
  match b, c with
  | RRef _, LRef true => true
  | RRef false, RRef true | LRef false, LRef true => true
  | _, _ => false
  end.
Definition better_conversion (c d : conversion) : bool :=
  match c, d with
  | Std r b, Std r' b' => Nat.ltb r r' || (Nat.eqb r r' && better_binding b b')
  | Std _ _, User => true
  | User, _ => false
  end.

(** A function that is considered for a call with one argument *)
Record candidate (F : Type) := Cand {
  c_fn : F;
  c_explicit : bool;
  c_template : bool;
  c_conv : option conversion   (** of the argument to the parameter; [None]: not viable *)
}.
Arguments Cand {_}. Arguments c_fn {_}. Arguments c_explicit {_}. Arguments c_template {_}. Arguments c_conv {_}.
(** [over.match.best]: the better conversion; then a function that is no template *)
Definition beats {F} (c d : candidate F) : bool :=
  match c_conv c, c_conv d with
  | Some x, Some y =>
      better_conversion x y ||
      (negb (better_conversion y x) && negb (c_template c) && c_template d)
  | _, _ => false
  end.
Inductive choice (F : Type) := Chosen (f : F) | Ambiguous | NotViable | Elided.
Arguments Chosen {_}. Arguments Ambiguous {_}. Arguments NotViable {_}. Arguments Elided {_}.
(** Explicit constructors are no candidates for copy-initialisation ([over.match.ctor]). The
    best one is better than all others, so that there is one only that it does not beat:
    itself. *)
Definition viable {F} (copy_init : bool) (c : candidate F) : bool :=
  negb (copy_init && c_explicit c) && match c_conv c with Some _ => true | None => false end.
Definition resolve {F} (copy_init : bool) (cs : list (candidate F)) : choice F :=
  let vs := List.filter (viable copy_init) cs in
  match List.filter (λ c, Nat.leb (length (List.filter (λ d, negb (beats c d)) vs)) 1) vs with
  | c :: _ => Chosen (c_fn c)
  | [] => match vs with [] => NotViable | _ => Ambiguous end
  end.

(** Parameters *)
Definition is_rvalue (c : cat) : bool := match c with LValue => false | _ => true end.
(** R&& with R deduced: any argument *)
Definition to_forward (const : bool) (c : cat) : conversion := Std 0 (if is_rvalue c then RRef const else LRef const).
(** const Class&: any object of the class, or of a derived class ([rank] 2) *)
Definition to_const_ref (rank : nat) : conversion := Std rank (LRef true).
(** Class&&: rvalues that are not const *)
Definition to_rvalue (rank : nat) (const : bool) (c : cat) : option conversion :=
  if is_rvalue c && negb const then Some (Std rank (RRef false)) else None.

(** ** Construction from an object of the same class *)
Inductive container := Array | List | Heap.
Inductive ctor := Copy | Move | FromRange.

(** An argument of the type of the container, or of a class derived from it. [elems]:
    whether the elements of the argument, as lvalues that are const or not like the argument,
    convert to T. Constructors that cannot take it (sizes, allocators, initializer lists) are
    left out.
    - array.hpp:40, 42-43, 72-76; the constraint excludes the class itself
    - linked_list.hpp:70-72, 75-79, 82-85: all explicit
    - heap.hpp:25 (implicit copy and move), 38-41 *)
Definition ctors (k : container) (derived const : bool) (c : cat) (elems : bool) : list (candidate ctor) :=
  let rank := if derived then 2 else 0 in
  let range (explicit guarded : bool) :=
    Cand FromRange explicit true (if elems && negb (guarded && negb derived) then Some (to_forward const c) else None) in
  match k with
  | Array => [Cand Copy false false (Some (to_const_ref rank)); Cand Move false false (to_rvalue rank const c); range true true]
  | List => [Cand Copy true false (Some (to_const_ref rank)); Cand Move true false (to_rvalue rank const c); range true false]
  | Heap => [Cand Copy false false (Some (to_const_ref rank)); Cand Move false false (to_rvalue rank const c); range false true]
  end.
(** [copy_init]: C b = x, a parameter C or a function that returns C by value; otherwise
    C b(x). Prvalues of the class itself are not copied at all ([dcl.init]). *)
Definition initialise (copy_init : bool) (k : container) (derived const : bool) (c : cat) (elems : bool) : choice ctor :=
  match derived, c with
  | false, PRValue => Elided
  | _, _ => resolve copy_init (ctors k derived const c elems)
  end.

(** ** Adding an element or a range *)

(** Types of elements and arguments. [Unique] stands for std::unique_ptr, [Text] for
    std::string, [Path] for std::filesystem::path, [Any] for std::any. *)
Inductive tp :=
| Bool | Int | Char
| Ptr (t : tp) | CArr (t : tp)
| Unique | Text | Path | Any
| Seq (k : container) (t : tp).
Fixpoint tp_eqb (t u : tp) : bool :=
  match t, u with
  | Bool, Bool | Int, Int | Char, Char | Unique, Unique | Text, Text | Path, Path | Any, Any => true
  | Ptr t, Ptr u | CArr t, CArr u => tp_eqb t u
  | Seq k t, Seq l u => match k, l with Array, Array | List, List | Heap, Heap => tp_eqb t u | _, _ => false end
  | _, _ => false
  end.
Record expr := Expr { e_tp : tp; e_const : bool; e_cat : cat }.

(** ::ranges::input_range and range_reference_t: the elements of a range as expressions. The
    iterators of a path yield const lvalues of paths, those of a heap const lvalues. *)
Definition element (x : expr) : option expr :=
  match e_tp x with
  | CArr t => Some (Expr t (e_const x) LValue)
  | Text => Some (Expr Char (e_const x) LValue)
  | Path => Some (Expr Path true LValue)
  | Seq Heap t => Some (Expr t true LValue)
  | Seq _ t => Some (Expr t (e_const x) LValue)
  | _ => None
  end.
(** std::is_copy_constructible_v, what std::any asks for; containers say yes for all T *)
Definition copy_constructible (t : tp) : bool := match t with Unique => false | _ => true end.
(** The constraints see std::declval<X>(), which is an xvalue if the argument is a prvalue. *)
Definition declval_cat (c : cat) : cat := match c with LValue => LValue | _ => XValue end.
Definition copy_initialises (k : container) (const : bool) (c : cat) : bool :=
  match initialise true k false const (declval_cat c) false with Chosen _ | Elided => true | _ => false end.
(** std::convertible_to<X, T> for the argument. A heap takes any range (heap.hpp:38-41). The
    conversions between classes of std: std::string and std::filesystem::path convert to each
    other, and character arrays to both; std::any takes all types that can be copied. *)
Fixpoint converts (x : expr) (t : tp) : bool :=
  match t, e_tp x with
  | Bool, (Bool | Int | Char | Ptr _ | CArr _) => true
  | (Int | Char), (Bool | Int | Char) => true
  | Ptr t, (Ptr u | CArr u) => tp_eqb t u
  | Unique, Unique => is_rvalue (e_cat x) && negb (e_const x)
  | (Text | Path), (Text | Path | Ptr Char | CArr Char) => true
  | Any, u => copy_constructible u
  | Seq Heap t, u => (if tp_eqb u (Seq Heap t)
                      then copy_initialises Heap (e_const x) (e_cat x)
                      else match element x with Some y => converts y t | None => false end)
  | Seq k t, u => tp_eqb u (Seq k t) && copy_initialises k (e_const x) (e_cat x)
  | _, _ => false
  end.
(** The elements of the argument convert to T *)
Definition elements_convert (x : expr) (t : tp) : bool := match element x with Some y => converts y t | None => false end.

Inductive added := OneElement | AllElements.
(** push_back(x) and insert(pos, x): array.hpp:159-160 and 213-215, 220-221 and 239-241;
    insert_after(pos, x): linked_list.hpp:176-177 and 192-194. [t] is the element type. *)
Definition add (t : tp) (x : expr) : choice added :=
  resolve false
    [Cand OneElement false true (if converts x t then Some (to_forward (e_const x) (e_cat x)) else None);
     Cand AllElements false true (if elements_convert x t then Some (to_forward (e_const x) (e_cat x)) else None)].
(** push_front(x): linked_list.hpp:160 (const T&), 162 (T&&). T itself binds; everything else
    is converted to a temporary first, in the same way for both ([over.ics.rank] 3.3). *)
Definition push_front (t : tp) (x : expr) : choice ctor :=
  if tp_eqb (e_tp x) t then
    resolve false [Cand Copy false false (Some (to_const_ref 0)); Cand Move false false (to_rvalue 0 (e_const x) (e_cat x))]
  else
    resolve false [Cand Copy false false (if converts x t then Some (to_const_ref 2) else None);
                   Cand Move false false (if converts x t then to_rvalue 2 false PRValue else None)].

(** ** Views *)

(** The type of elements: [Class n] is derived from [Class m] if [base_of m n]. *)
Record elem := Elem { el_core : nat; el_const : bool }.
Inductive outcome := NoMatch | Error | Fine.
Section views.
Context (base_of : nat → nat → bool).
(** implicit conversion U* to T* *)
Definition pointer_converts (u t : elem) : bool :=
  implb (el_const u) (el_const t) && (Nat.eqb (el_core u) (el_core t) || base_of (el_core t) (el_core u)).
(** static_cast from U* to T*: also from a base class to a derived one *)
Definition static_casts (u t : elem) : bool :=
  implb (el_const u) (el_const t) &&
  (Nat.eqb (el_core u) (el_core t) || base_of (el_core t) (el_core u) || base_of (el_core u) (el_core t)).
(** What a view is made from: a C array of n elements, a std::array of n elements that is
    const or not (rvalues go to the overload for const), a contiguous and sized range, or a
    view; [None]: dynamic size *)
Inductive source :=
| FromCArray (u : elem) (n : nat)
| FromStdArray (u : elem) (n : nat) (const : bool)
| FromContiguous (u : elem) (borrowed : bool)
| FromView (u : elem) (size : option nat).
Definition size_fits (size : option nat) (n : nat) : bool := match size with None => true | Some m => Nat.eqb m n end.
(** array_view.hpp:92-98, 101-104, 107-110, 115-118, and the implicit copy constructor. The
    body of the first converts ranges::data(range) to T*, those of the last two cast. *)
Definition view_ctor (t : elem) (size : option nat) (s : source) : outcome :=
  match s with
  | FromCArray u n =>
      if size_fits size n && Nat.eqb (el_core u) (el_core t) && implb (el_const u) (el_const t) then Fine else NoMatch
  | FromStdArray u n const =>
      if size_fits size n then (if static_casts (Elem (el_core u) (el_const u || const)) t then Fine else Error) else NoMatch
  | FromContiguous u borrowed =>
      if borrowed then (if pointer_converts u t then Fine else Error) else NoMatch
  | FromView u m =>
      if Nat.eqb (el_core u) (el_core t) && Bool.eqb (el_const u) (el_const t) &&
         match size, m with None, None => true | Some a, Some b => Nat.eqb a b | _, _ => false end
      then Fine else NoMatch
  end.
End views.

(** ** Matrices from columns and from other matrices *)

(** A column as an argument: its element type (any number stands for one) and its number of
    components *)
Record column := Col { col_elem : nat; col_size : nat }.
(** Copy-initialisation of Vector<t, rows> from a Vector: the constructor from a vector with
    other elements is explicit for 2 to 4 components (vector2.hpp:51-52, vector3.hpp:63-64,
    vector4.hpp:79-80) and not otherwise (vector.hpp:56-60); that of the class itself never
    is. From a vector with another number of components there is no way that compiles. *)
Definition vector_implicit (t rows : nat) (c : column) : bool :=
  Nat.eqb (col_size c) rows && (Nat.eqb (col_elem c) t || negb (Nat.leb 2 rows && Nat.leb rows 4)).
(** Matrix<t, cols, rows>(args...)
    - matrix.hpp:64-67: one Size for all; m_data({args...}) copy-initialises the columns, too
      many are an error; the number is asserted
    - matrix4x4.hpp:63-64: vectors of 4; missing columns are value-initialised, too many are
      an error. 54-61: one argument of any other type is accepted as a scalar, an error here.
    No arguments: the default constructor (matrix.hpp:54, matrix4x4.hpp:52). *)
Definition matrix_of_columns (t cols rows : nat) (args : list column) : outcome :=
  match args with
  | [] => Fine
  | c :: cs =>
      if Nat.eqb cols 4 && Nat.eqb rows 4 then
        if forallb (λ c, Nat.eqb (col_size c) 4) args then
          if Nat.leb (length args) 4 && forallb (vector_implicit t 4) args then Fine else Error
        else match cs with [] => Error | _ => NoMatch end
      else
        if forallb (λ d, Nat.eqb (col_size d) (col_size c)) cs then
          if Nat.eqb (length args) cols && forallb (vector_implicit t rows) args then Fine else Error
        else NoMatch
  end.
(** Matrix<t, cols, rows>(m) for m : Matrix<u, ucols, urows>
    - the implicit copy constructor; matrix.hpp:69-73: assignment of columns, which takes
      other elements (vector.hpp:75-80 and the like)
    - matrix4x4.hpp:66-68: m_data({m[0], ...}) copy-initialises; 70-77 from 3x3: from vectors
      of 3 and a scalar (vector4.hpp:76-77); 54-61 takes every other type as a scalar *)
Definition matrix_of_matrix (t cols rows u ucols urows : nat) : outcome :=
  if Nat.eqb t u && Nat.eqb cols ucols && Nat.eqb rows urows then Fine
  else if Nat.eqb cols 4 && Nat.eqb rows 4 then
    if Nat.eqb ucols 4 && Nat.eqb urows 4 then (if vector_implicit t 4 (Col u 4) then Fine else Error)
    else if Nat.eqb ucols 3 && Nat.eqb urows 3 then Fine
    else Error
  else if Nat.eqb cols ucols && Nat.eqb rows urows then Fine else NoMatch.
