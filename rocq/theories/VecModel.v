(** Model of xme::math::Vector and its functions
    (/repo/include/xme/math/vector.hpp, vectors/vector2.hpp, vector3.hpp,
     vector4.hpp, vectors/geometry.hpp, vectors/functions.hpp,
     scalars/functions.hpp, scalars/trigonometry.hpp).

    A vector is the list of its components. The specialisations for 2, 3 and 4
    components are written out as in the source; the operators are selected by
    the number of components as template specialisation does. The arithmetic of
    the element type is a parameter [num] of which nothing is assumed.
    [None] is the outcome of an assertion that fails (an index out of bounds), of
    reading a component that has not been initialised, and of what the type
    checker rejects.

    Simplifications: [(&x)[i]] in the specialisations is component number [i]
    (the members are adjacent); an operation [op] of the element type includes
    the conversion of its result to that type. *)
From stdpp Require Import list.

(** The element type: constants and operators. *)
Record num (T : Type) := Num {
  n0 : T; n1 : T; nadd : T → T → T; nsub : T → T → T; nmul : T → T → T; ndiv : T → T → T; nneg : T → T }.
Arguments Num {T}. Arguments n0 {T}. Arguments n1 {T}. Arguments nadd {T}. Arguments nsub {T}.
Arguments nmul {T}. Arguments ndiv {T}. Arguments nneg {T}.

(** for(std::size_t i = 0; i < n; ++i) body *)
Fixpoint loop {S} (i n : nat) (body : nat → S → option S) (s : S) : option S :=
  match n with
  | 0 => Some s
  | Datatypes.S n' => s' ← body i s; loop (Datatypes.S i) n' body s'
  end.
Definition for_ {S} (n : nat) (body : nat → S → option S) (s : S) : option S := loop 0 n body s.
(** r[i] = x *)
Definition set {A} (r : list A) (i : nat) (x : A) : option (list A) :=
  if i <? length r then Some (<[i := x]> r) else None.
(** Components that may be uninitialised; reading all of them. *)
Definition uninit {A} (n : nat) : list (option A) := replicate n None.
Definition read_all {A} (r : list (option A)) : option (list A) := mapM id r.

Section vectors.
Context {T : Type} (N : num T).
Local Notation "0" := (n0 N). Local Notation "1" := (n1 N).
Local Infix "+" := (nadd N). Local Infix "-" := (nsub N).
Local Infix "*" := (nmul N). Local Infix "/" := (ndiv N).

(** ** Construction *)
(** vector.hpp:46-49 Vector(U s), the generic version *)
Definition vecn_fill {U} (cast : U → T) (n : nat) (s : U) : list T := replicate n (cast s).
(** vector.hpp:51-54 Vector(Args...): the array is initialised from the front, the
    rest is zero; more arguments than components do not compile *)
Definition vecn_list {U} (cast : U → T) (n : nat) (args : list U) : option (list T) :=
  if length args <=? n then Some (map cast args ++ replicate (n - length args)%nat 0) else None.
(** vector.hpp:56-60 Vector(const Vector<U, Size>&) *)
Definition vecn_convert {U} (cast : U → T) (n : nat) (v : list U) : option (list T) :=
  r ← for_ n (λ i r, x ← v !! i; set r i (Some (cast x))) (uninit n); read_all r.
(** vector2.hpp:47-52 *)
Definition vec2 {U V} (cu : U → T) (cv : V → T) (x : U) (y : V) : list T := [cu x; cv y].
Definition vec2_fill {U} (cast : U → T) (s : U) : list T := vec2 cast cast s s.
Definition vec2_convert {U} (cast : U → T) (v : list U) : option (list T) :=
  match v with [x; y] => Some (vec2 cast cast x y) | _ => None end.
(** vector3.hpp:51-64; one conversion for all arguments here and below *)
Definition vec3 {U} (cast : U → T) (x y z : U) : list T := [cast x; cast y; cast z].
Definition vec3_fill {U} (cast : U → T) (s : U) : list T := vec3 cast s s s.
Definition vec3_s_v {U} (cast : U → T) (s : U) (v : list U) : option (list T) :=
  match v with [x; y] => Some (vec3 cast s x y) | _ => None end.
Definition vec3_v_s {U} (cast : U → T) (v : list U) (s : U) : option (list T) :=
  match v with [x; y] => Some (vec3 cast x y s) | _ => None end.
Definition vec3_convert {U} (cast : U → T) (v : list U) : option (list T) :=
  match v with [x; y; z] => Some (vec3 cast x y z) | _ => None end.
(** vector4.hpp:55-80 *)
Definition vec4 {U} (cast : U → T) (x y z w : U) : list T := [cast x; cast y; cast z; cast w].
Definition vec4_fill {U} (cast : U → T) (s : U) : list T := vec4 cast s s s s.
Definition vec4_s_s_v {U} (cast : U → T) (s1 s2 : U) (v : list U) : option (list T) :=
  match v with [x; y] => Some (vec4 cast s1 s2 x y) | _ => None end.
Definition vec4_s_v_s {U} (cast : U → T) (s1 : U) (v : list U) (s2 : U) : option (list T) :=
  match v with [x; y] => Some (vec4 cast s1 x y s2) | _ => None end.
Definition vec4_v_s_s {U} (cast : U → T) (v : list U) (s1 s2 : U) : option (list T) :=
  match v with [x; y] => Some (vec4 cast x y s1 s2) | _ => None end.
Definition vec4_v_v {U} (cast : U → T) (v1 v2 : list U) : option (list T) :=
  match v1, v2 with [x1; y1], [x2; y2] => Some (vec4 cast x1 y1 x2 y2) | _, _ => None end.
Definition vec4_s_v3 {U} (cast : U → T) (s : U) (v : list U) : option (list T) :=
  match v with [x; y; z] => Some (vec4 cast s x y z) | _ => None end.
Definition vec4_v3_s {U} (cast : U → T) (v : list U) (s : U) : option (list T) :=
  match v with [x; y; z] => Some (vec4 cast x y z s) | _ => None end.
Definition vec4_convert {U} (cast : U → T) (v : list U) : option (list T) :=
  match v with [x; y; z; w] => Some (vec4 cast x y z w) | _ => None end.

(** ** operator[]: vector.hpp:87-97, vector2.hpp:76-86, vector3.hpp:89-99,
    vector4.hpp:106-116 *)
Definition index (v : list T) (i : nat) : option T := if i <? length v then v !! i else None.

(** ** operator-() *)
(** vector.hpp:62-68 *)
Definition vecn_neg (v : list T) : option (list T) :=
  r ← for_ (length v) (λ i r, x ← v !! i; set r i (Some (nneg N x))) (uninit (length v)); read_all r.
(** vector2.hpp:54-57, vector3.hpp:66-69, vector4.hpp:82-85 *)
Definition vneg (v : list T) : option (list T) :=
  match v with
  | [x; y] => Some [nneg N x; nneg N y]
  | [x; y; z] => Some [nneg N x; nneg N y; nneg N z]
  | [x; y; z; w] => Some [nneg N x; nneg N y; nneg N z; nneg N w]
  | _ => vecn_neg v
  end.

(** ** VEC_OP with a scalar *)
(** vector.hpp:9-15 *)
Definition vecn_op_s {U} (op : T → T → T) (cast : U → T) (v : list T) (s : U) : option (list T) :=
  for_ (length v) (λ i r, x ← index v i; set r i (op x (cast s))) (replicate (length v) 0).
(** vector2.hpp:8-14, vector3.hpp:8-15, vector4.hpp:8-16 *)
Definition vop_s {U} (op : T → T → T) (cast : U → T) (v : list T) (s : U) : option (list T) :=
  match v with
  | [x; y] => Some [op x (cast s); op y (cast s)]
  | [x; y; z] => Some [op x (cast s); op y (cast s); op z (cast s)]
  | [x; y; z; w] => Some [op x (cast s); op y (cast s); op z (cast s); op w (cast s)]
  | _ => vecn_op_s op cast v s
  end.
(** ** VEC_OP with a vector of the same size *)
(** vector.hpp:16-23 *)
Definition vecn_op {U} (op : T → T → T) (cast : U → T) (v : list T) (w : list U) : option (list T) :=
  for_ (length v) (λ i r, x ← index v i; y ← w !! i; set r i (op x (cast y))) (replicate (length v) 0).
(** vector2.hpp:15-22, vector3.hpp:16-24, vector4.hpp:17-26 *)
Definition vop {U} (op : T → T → T) (cast : U → T) (v : list T) (w : list U) : option (list T) :=
  if negb (length v =? length w) then None else
  match v, w with
  | [x; y], [x'; y'] => Some [op x (cast x'); op y (cast y')]
  | [x; y; z], [x'; y'; z'] => Some [op x (cast x'); op y (cast y'); op z (cast z')]
  | [x; y; z; a], [x'; y'; z'; a'] => Some [op x (cast x'); op y (cast y'); op z (cast z'); op a (cast a')]
  | _, _ => vecn_op op cast v w
  end.
(** ** VEC_SELF_OP: the new value of *this *)
(** vector.hpp:26-30, 31-36 *)
Definition vecn_self_s {U} (op : T → T → T) (cast : U → T) (v : list T) (s : U) : option (list T) :=
  for_ (length v) (λ i r, x ← index r i; set r i (op x (cast s))) v.
Definition vecn_self {U} (op : T → T → T) (cast : U → T) (v : list T) (w : list U) : option (list T) :=
  for_ (length v) (λ i r, x ← index r i; y ← w !! i; set r i (op x (cast y))) v.
(** vector2.hpp:24-35, vector3.hpp:26-39, vector4.hpp:28-43 *)
Definition vself_s {U} (op : T → T → T) (cast : U → T) (v : list T) (s : U) : option (list T) :=
  match v with
  | [x; y] =>
      let x := op x (cast s) in let y := op y (cast s) in Some [x; y]
  | [x; y; z] =>
      let x := op x (cast s) in let y := op y (cast s) in let z := op z (cast s) in Some [x; y; z]
  | [x; y; z; w] =>
      let x := op x (cast s) in let y := op y (cast s) in
      let z := op z (cast s) in let w := op w (cast s) in Some [x; y; z; w]
  | _ => vecn_self_s op cast v s
  end.
Definition vself {U} (op : T → T → T) (cast : U → T) (v : list T) (w : list U) : option (list T) :=
  if negb (length v =? length w) then None else
  match v, w with
  | [x; y], [x'; y'] =>
      let x := op x (cast x') in let y := op y (cast y') in Some [x; y]
  | [x; y; z], [x'; y'; z'] =>
      let x := op x (cast x') in let y := op y (cast y') in let z := op z (cast z') in Some [x; y; z]
  | [x; y; z; a], [x'; y'; z'; a'] =>
      let x := op x (cast x') in let y := op y (cast y') in
      let z := op z (cast z') in let a := op a (cast a') in Some [x; y; z; a]
  | _, _ => vecn_self op cast v w
  end.
(** v op= v: the right operand is *this itself and changes while the loop runs *)
Definition vself_alias (op : T → T → T) (v : list T) : option (list T) :=
  for_ (length v) (λ i r, x ← index r i; y ← index r i; set r i (op x y)) v.
(** ** operator=: vector.hpp:75-80, vector2.hpp:64-69, vector3.hpp:76-82,
    vector4.hpp:92-99 *)
Definition vassign {U} (cast : U → T) (v : list T) (w : list U) : option (list T) :=
  match v, w with
  | [_; _], [x; y] => Some [cast x; cast y]
  | [_; _; _], [x; y; z] => Some [cast x; cast y; cast z]
  | [_; _; _; _], [x; y; z; a] => Some [cast x; cast y; cast z; cast a]
  | _, _ =>
      if length v =? length w then for_ (length v) (λ i r, y ← w !! i; set r i (cast y)) v else None
  end.

(** The four operators. *)
Definition vadd := vop (U := T) (nadd N) id. Definition vsub := vop (U := T) (nsub N) id.
Definition vmul := vop (U := T) (nmul N) id. Definition vdiv := vop (U := T) (ndiv N) id.
Definition vscale := vop_s (U := T) (nmul N) id.

(** ** geometry.hpp *)
(** 11-18 dot *)
Definition dot (v1 v2 : list T) : option T :=
  if negb (length v1 =? length v2) then None else
  for_ (length v1) (λ i result, x ← index v1 i; y ← index v2 i; Some (result + x * y)) 0.
(** 22-31 cross *)
Definition cross (v1 v2 : list T) : option (list T) :=
  match v1, v2 with
  | [x1; y1; z1], [x2; y2; z2] => Some [y1 * z2 - z1 * y2; z1 * x2 - x1 * z2; x1 * y2 - y1 * x2]
  | _, _ => None
  end.
Context (sqrt : T → T).
(** 34-38 length *)
Definition length_ (v : list T) : option T := d ← dot v v; Some (sqrt d).
(** vector.hpp:105-111 length() *)
Definition vecn_length (v : list T) : option T :=
  r ← for_ (length v) (λ i result, x ← index v i; y ← index v i; Some (result + x * y)) 0;
  Some (sqrt r).
(** vector2.hpp:94-97, vector3.hpp:107-110, vector4.hpp:124-127 *)
Definition vlength (v : list T) : option T :=
  match v with
  | [x; y] => Some (sqrt (x * x + y * y))
  | [x; y; z] => Some (sqrt (x * x + y * y + z * z))
  | [x; y; z; w] => Some (sqrt (x * x + y * y + z * z + w * w))
  | _ => vecn_length v
  end.
(** vector.hpp:113-118 and the same in the specialisations: normalize() *)
Definition vnormalize (v : list T) : option (list T) := l ← vlength v; vscale v (1 / l).
(** geometry.hpp:43-48 distance *)
Definition distance (v1 v2 : list T) : option T := d ← vsub v2 v1; vlength d.
(** geometry.hpp:52-56 normalize *)
Definition normalize (v : list T) : option (list T) := l ← length_ v; vscale v (1 / l).
(** geometry.hpp:63-68 faceforward *)
Context (ltb : T → T → bool).
Definition faceforward (v i n : list T) : option (list T) :=
  d ← dot n i; if ltb d 0 then Some v else vneg v.
(** geometry.hpp:70-75 reflect; [two] is static_cast<T>(2) *)
Context (two : T).
Definition reflect (v n : list T) : option (list T) :=
  d ← dot v n; a ← vscale n d; b ← vscale a two; vsub v b.

(** ** functions.hpp *)
(** 11-21 lerp; [percent] has the type U, [1 - percent] is computed in the type W *)
Definition lerp {U W} (castU : U → T) (castW : W → T) (one_minus : U → W)
    (v1 v2 : list T) (percent : U) : option (list T) :=
  a ← vop_s (nmul N) castU v2 percent; b ← vop_s (nmul N) castW v1 (one_minus percent); vadd a b.
Definition lerp_bool (v1 v2 : list T) (percent : bool) : list T := if percent then v2 else v1.
(** 23-39 lerp, one parameter per component; if U is wider than T the code computes in U
    and converts the sum, here everything is in T *)
Definition lerp_v {U W} (castU : U → T) (castW : W → T) (one_minus : U → W)
    (v1 v2 : list T) (percent : list U) : option (list T) :=
  r ← for_ (length v1) (λ i r, p ← percent !! i; y ← index v2 i; x ← index v1 i;
        set r i (Some (y * castU p + x * castW (one_minus p)))) (uninit (length v1));
  read_all r.
Definition lerp_v_bool (v1 v2 : list T) (percent : list bool) : option (list T) :=
  r ← for_ (length v1) (λ i r, p ← percent !! i; y ← index v2 i; x ← index v1 i;
        set r i (Some (if p : bool then y else x))) (uninit (length v1));
  read_all r.
(** glsl_mapping.hpp:59-72 mix, of each kind of parameter *)
Definition mix {U W} (castU : U → T) (castW : W → T) (one_minus : U → W)
    (v1 v2 : list T) (percent : U) : option (list T) := lerp castU castW one_minus v1 v2 percent.
Definition mix_bool (v1 v2 : list T) (percent : bool) : list T := lerp_bool v1 v2 percent.
Definition mix_v {U W} (castU : U → T) (castW : W → T) (one_minus : U → W)
    (v1 v2 : list T) (percent : list U) : option (list T) := lerp_v castU castW one_minus v1 v2 percent.
Definition mix_v_bool (v1 v2 : list T) (percent : list bool) : option (list T) := lerp_v_bool v1 v2 percent.
(** scalars/functions.hpp:7-14 sign; [of_int] converts the int result *)
Context (of_int : Z → T).
Definition sign (n : T) : T := of_int (Z.sub (Z.b2z (ltb 0 n)) (Z.b2z (ltb n 0))).
(** functions.hpp:41-51 sign of a vector *)
Definition vsign (v : list T) : option (list T) :=
  r ← for_ (length v) (λ i r, x ← index v i; set r i (Some (sign x))) (uninit (length v)); read_all r.

(** ** Comparison: the defaulted operators compare the components in order;
    vector.hpp:99-103 and the same in the specialisations. [cmp] gives [None] for
    unordered components. *)
Fixpoint veq (eqb : T → T → bool) (v w : list T) : bool :=
  match v, w with
  | x :: v', y :: w' => eqb x y && veq eqb v' w'
  | [], [] => true
  | _, _ => false
  end.
Fixpoint vcmp (cmp : T → T → option comparison) (v w : list T) : option comparison :=
  match v, w with
  | x :: v', y :: w' => match cmp x y with Some Eq => vcmp cmp v' w' | r => r end
  | _, _ => Some Eq
  end.

(** scalars/trigonometry.hpp:9-19 radians, degrees; [pi] is math::pi_v<T>, [c180]
    the constant 180 *)
Context (pi c180 : T).
Definition radians (deg : T) : T := deg * (pi / c180).
Definition degrees (rad : T) : T := rad * (c180 / pi).
(** The functions of std, by name *)
Record trig := Trig { t_sin : T → T; t_cos : T → T; t_tan : T → T; t_asin : T → T; t_acos : T → T; t_atan : T → T }.
Context (std : trig).
(** trigonometry.hpp:25-39 sec, csc, cot *)
Definition sec (s : T) : T := 1 / t_cos std s.
Definition csc (s : T) : T := 1 / t_sin std s.
Definition cot (s : T) : T := 1 / t_tan std s.
(** trigonometry.hpp:40-55 arcsin, arccos, arctan *)
Definition arcsin (s : T) : T := t_asin std s.
Definition arccos (s : T) : T := t_acos std s.
Definition arctan (s : T) : T := t_atan std s.
End vectors.
