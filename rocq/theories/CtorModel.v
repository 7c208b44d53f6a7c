(** Which constructor of a vector is taken, what it makes of its arguments, and the deduction
    of the types of vectors, quaternions and matrices:
    /repo/include/xme/math/vector.hpp, vectors/vector2.hpp, vector3.hpp, vector4.hpp,
    quaternion.hpp, matrix.hpp.

    Simplifications: an argument is an arithmetic value, a vector or of a type that converts
    to neither; there is at least one argument; braces are left out. *)
From stdpp Require Import list.
From Coq Require Import ZArith.
From Verif Require Import LikeModel.

(** ** Constructors *)
Section vectors.
Context {E V : Type} `{EqDecision E}.
(** [cast t u x] is static_cast<t>(x) for x of type u; [zero] the value-initialised number *)
Variables (cast : E → E → V → V) (zero : V).

Inductive arg := Scalar (u : E) (x : V) | Vec (u : E) (xs : list V) | Foreign.
(** A parameter: auto or typename U; a U with CArithmetic<U>; const Vector<U, n>&; the class
    itself (by const reference and by rvalue reference) *)
Inductive param := Auto | Arith | VecOf (n : nat) | Self.
Inductive params := Params (ps : list param) | Pack.
Record ctor := Ctor { c_template : bool; c_explicit : bool; c_params : params; c_body : list arg → outcome (list V) }.

Section one.
(** Vector<T, n> *)
Variables (T : E) (n : nat).

(** static_cast<T>(a) *)
Definition scalar (a : arg) : outcome V := match a with Scalar u x => Accepted (cast T u x) | _ => Hard end.
Fixpoint each (l : list arg) : outcome (list V) :=
  match l with
  | [] => Accepted []
  | a :: l => match scalar a, each l with Accepted x, Accepted r => Accepted (x :: r) | _, _ => Hard end
  end.

(** The implicit copy and move constructors *)
Definition ctor_copy : ctor := Ctor false false (Params [Self])
  (λ l, match l with [Vec _ xs] => Accepted xs | _ => Hard end).
(** vector2.hpp:47, vector3.hpp:51-52, vector4.hpp:55: from one value, by the constructor
    from [n] values. That one (vector2.hpp:49, vector3.hpp:54-55, vector4.hpp:57-58) is the
    only one with [n] parameters, so that delegating to it is calling [each]. *)
Definition ctor_fill : ctor := Ctor true true (Params [Auto])
  (λ l, match l with [a] => each (replicate n a) | _ => Hard end).
Definition ctor_each : ctor := Ctor true false (Params (replicate n Auto)) each.
(** vector3.hpp:57-61, vector4.hpp:60-77: from scalars and shorter vectors, by the
    constructor from [n] values *)
Definition ctor_mixed (ps : list param) : ctor := Ctor true false (Params ps)
  (λ l, each (concat (zip_with (λ p a, match p, a with VecOf _, Vec u xs => map (Scalar u) xs | _, _ => [a] end) ps l))).
(** vector2.hpp:51-52, vector3.hpp:63-64, vector4.hpp:79-80: from a vector with other
    elements *)
Definition ctor_convert (explicit : bool) : ctor := Ctor true explicit (Params [VecOf n])
  (λ l, match l with [Vec u xs] => each (map (Scalar u) xs) | _ => Hard end).
(** vector.hpp:46-49: m_data.fill(s) *)
Definition ctor_fill_array : ctor := Ctor true false (Params [Arith])
  (λ l, match l with [Scalar u x] => Accepted (replicate n (cast T u x)) | _ => Hard end).
(** vector.hpp:51-54: m_data({static_cast<T>(args)...}) initialises an array, whose other
    elements are value-initialised; too many are an error *)
Definition ctor_pack : ctor := Ctor true false Pack
  (λ l, match each l with
        | Accepted r => if Nat.leb (length r) n then Accepted (r ++ replicate (n - length r) zero) else Hard
        | _ => Hard
        end).

(** The constructors of Vector<T, n> other than the default one *)
Definition constructors : list ctor :=
  match n with
  | 2 => [ctor_copy; ctor_fill; ctor_each; ctor_convert true]
  | 3 => [ctor_copy; ctor_fill; ctor_each; ctor_mixed [Auto; VecOf 2]; ctor_mixed [VecOf 2; Auto]; ctor_convert true]
  | 4 => [ctor_copy; ctor_fill; ctor_each; ctor_mixed [Auto; Auto; VecOf 2]; ctor_mixed [Auto; VecOf 2; Auto];
          ctor_mixed [VecOf 2; Auto; Auto]; ctor_mixed [VecOf 2; VecOf 2]; ctor_mixed [Auto; VecOf 3];
          ctor_mixed [VecOf 3; Auto]; ctor_convert true]
  | _ => [ctor_copy; ctor_fill_array] ++ (if Nat.ltb 1 n then [ctor_pack] else []) ++ [ctor_convert false]
  end.

(** *** Overload resolution *)
(** Deduction from an argument. A parameter of the class's own type also takes what converts
    to it implicitly, but where there is such a conversion the constructor that does it is
    itself a better candidate; this is left out. *)
Definition fits (p : param) (a : arg) : bool :=
  match p, a with
  | Auto, _ => true
  | Arith, Scalar _ _ => true
  | VecOf k, Vec _ xs => Nat.eqb (length xs) k
  | Self, Vec u xs => bool_decide (u = T) && Nat.eqb (length xs) n
  | _, _ => false
  end.
Definition viable (copy_init : bool) (args : list arg) (c : ctor) : bool :=
  negb (copy_init && c_explicit c) &&
  match c_params c with
  | Pack => true
  | Params ps => Nat.eqb (length ps) (length args) && forallb (λ '(p, a), fits p a) (zip ps args)
  end.
(** [temp.func.order]: at least as specialised; a vector parameter is more specialised than
    auto, any parameter more than a pack *)
Definition param_special (p q : param) : bool :=
  match p, q with
  | _, (Auto | Arith) => true
  | VecOf k, VecOf l => Nat.eqb k l
  | _, _ => false
  end.
Definition special (c d : ctor) : bool :=
  match c_params c, c_params d with
  | _, Pack => true
  | Pack, Params _ => false
  | Params ps, Params qs => forallb (λ '(p, q), param_special p q) (zip ps qs)
  end.
(** [over.match.best]: all conversions are exact (for an rvalue of the class itself the move
    constructor's is better, which is no template either); then a constructor that is no
    template, then the more specialised one *)
Definition beats (c d : ctor) : bool :=
  if eqb (c_template c) (c_template d) then special c d && negb (special d c) else negb (c_template c).
Definition construct (copy_init : bool) (args : list arg) : outcome (list V) :=
  let vs := List.filter (viable copy_init args) constructors in
  match List.filter (λ c, Nat.leb (length (List.filter (λ d, negb (beats c d)) vs)) 1) vs with
  | c :: _ => c_body c args
  | [] => Rejected
  end.
End one.
End vectors.
Arguments arg : clear implicits.

(** ** Arithmetic types
    On Linux with 64 bits: long has 64 bits, wchar_t and char16_t promote to int, char32_t
    to unsigned int. Extended types are left out. *)
Inductive arith := TBool | TChar | TSChar | TUChar | TChar8 | TChar16 | TChar32 | TWChar | TShort | TUShort
  | TInt | TUInt | TLong | TULong | TLLong | TULLong | TFloat | TDouble | TLDouble.
#[global] Instance arith_eq_dec : EqDecision arith. Proof. solve_decision. Defined.

(** [conv.prom] *)
Definition promote (t : arith) : arith :=
  match t with
  | TBool | TChar | TSChar | TUChar | TChar8 | TChar16 | TWChar | TShort | TUShort => TInt
  | TChar32 => TUInt
  | _ => t
  end.
(** [expr.arith.conv] for promoted types *)
Definition usual (t u : arith) : arith :=
  match t, u with
  | TLDouble, _ | _, TLDouble => TLDouble
  | TDouble, _ | _, TDouble => TDouble
  | TFloat, _ | _, TFloat => TFloat
  | TULLong, _ | _, TULLong => TULLong
  | TLLong, TULong | TULong, TLLong => TULLong
  | TLLong, _ | _, TLLong => TLLong
  | TULong, _ | _, TULong => TULong
  | TLong, _ | _, TLong => TLong
  | TUInt, _ | _, TUInt => TUInt
  | _, _ => TInt
  end.
(** [meta.trans.other]: the type of false ? t : u, for several types from the left *)
Definition common2 (t u : arith) : arith := if decide (t = u) then t else usual (promote t) (promote u).
Definition common (t : arith) (ts : list arith) : arith := foldl common2 t ts.
Definition is_integral (t : arith) : bool := match t with TFloat | TDouble | TLDouble => false | _ => true end.

(** ** Deduction
    The constructors' own guides take part in it, but the element type cannot be deduced
    from any of them; the copy deduction candidate is more specialised than the guides for
    a single vector, quaternion or matrix. *)
Section deduction.
Context {V : Type}.

(** vector.hpp:123-124. A vector has no common type with a scalar or another vector that
    would be arithmetic; one vector alone is copied. *)
Definition scalar_type (a : arg arith V) : option arith := match a with Scalar u _ => Some u | _ => None end.
Definition deduce_vector (args : list (arg arith V)) : option (arith * nat) :=
  match args with
  | [] => None
  | [Vec u xs] => Some (u, length xs)
  | a :: l => t ← scalar_type a; ts ← mapM scalar_type l; Some (common t ts, length l + 1)
  end.
(** quaternion.hpp:59-60, for arithmetic arguments *)
Definition deduce_quaternion (args : list arith) : option arith :=
  match args with
  | [] => None
  | t :: ts => let temp := common t ts in Some (if is_integral temp then TFloat else temp)
  end.
(** matrix.hpp:154-156: one number of rows for all columns, and an element type that Matrix
    allows (matrix.hpp:45). Columns are pairs of their element type and size. *)
Definition deduce_matrix (args : list (arith * nat)) : option (arith * nat * nat) :=
  match args with
  | [] => None
  | (t, rows) :: l =>
      if forallb (λ c, Nat.eqb (snd c) rows) l then
        let c := common t (map fst l) in
        if is_integral c then None else Some (c, length l + 1, rows)
      else None
  end.
End deduction.
