(** Functions on float and double whose multiplications and additions the compiler fuses.

    /repo/tests/CMakeLists.txt:12 and /repo/benchmarks/CMakeLists.txt:8 compile with
    -march=native and without -ffp-contract=off. On a processor with fused operations the
    compiler may then compute x * y + z without rounding the product ([expr.pre]: the values
    of floating-point expressions may have greater precision); which of the possible operations
    it fuses is its choice, also after inlining. The functions of VecModel.v and MatModel.v
    are used with the arithmetic of expressions (FloatExprProofs.v): a function gives the
    expression that it computes, and [result] is the set of the numbers that the expression
    may have.

    Simplification: a local variable that is used twice (the cofactors of det3 and det4) may
    have a different value at each use, so that the set is larger than the possible one. *)
From stdpp Require Import list.
From Coq Require Import ZArith Reals.
From Flocq Require Import Core BinarySingleNaN.
From Verif Require Import VecModel MatModel FloatModel FloatExprProofs.

Section fma.
Context (prec emax : Z) {Hprec : Prec_gt_0 prec} {Hmax : Prec_lt_emax prec emax}.
Local Notation F := (binary_float prec emax).
Local Notation expr := (expr prec emax).
Local Notation xnum := (xnum prec emax).

(** Each operation rounds; or a product is not rounded before the addition. *)
Inductive result : expr → F → Prop :=
| number f : result (X f) f
| added a b x y : result a x → result b y → result (Plus a b) (Bplus mode_NE x y)
| subtracted a b x y : result a x → result b y → result (Minus a b) (Bminus mode_NE x y)
| multiplied a b x y : result a x → result b y → result (Times a b) (Bmult mode_NE x y)
(** The operations of /repo/include/xme/math/vector.hpp:39-43's element type T, fused:
    x * y + z, z + x * y, x * y - z, z - x * y *)
| fused_left a b c x y z : result a x → result b y → result c z → result (Plus (Times a b) c) (Bfma mode_NE x y z)
| fused_right a b c x y z : result a x → result b y → result c z → result (Plus c (Times a b)) (Bfma mode_NE x y z)
| fused_minus a b c x y z : result a x → result b y → result c z → result (Minus (Times a b) c) (Bfma mode_NE x y (Bopp z))
| fused_negated a b c x y z : result a x → result b y → result c z → result (Minus c (Times a b)) (Bfma mode_NE (Bopp x) y z).

(** /repo/include/xme/math/vectors/geometry.hpp:11-18 dot, 22-31 cross *)
Definition dot_fused (v w : list F) (s : F) : Prop := ∃ e, dot xnum (map X v) (map X w) = Some e ∧ result e s.
Definition cross_fused (v w c : list F) : Prop := ∃ es, cross xnum (map X v) (map X w) = Some es ∧ Forall2 result es c.
(** /repo/include/xme/math/matrix.hpp:88-107 and matrices/matrix4x4.hpp:89-110, operator* *)
Definition mat_vec_fused (cols rows : nat) (A : list (list F)) (v r : list F) : Prop :=
  ∃ es, mat_vec xnum cols rows (map (map X) A) (map X v) = Some es ∧ Forall2 result es r.
Definition mat_mul_fused (cols rows rows2 : nat) (A B C : list (list F)) : Prop :=
  ∃ E, mat_mul xnum cols rows rows2 (map (map X) A) (map (map X) B) = Some E ∧ Forall2 (Forall2 result) E C.
(** /repo/include/xme/math/matrices/functions.hpp:9-38 *)
Definition det2_fused (m : list (list F)) (d : F) : Prop := ∃ e, det2 xnum (map (map X) m) = Some e ∧ result e d.
Definition det3_fused (m : list (list F)) (d : F) : Prop := ∃ e, det3 xnum (map (map X) m) = Some e ∧ result e d.
Definition det4_fused (m : list (list F)) (d : F) : Prop := ∃ e, det4 xnum (map (map X) m) = Some e ∧ result e d.
(** /repo/include/xme/math/quaternion.hpp:25-34 operator* *)
Definition qmul_fused (p q r : @quat F) : Prop :=
  let x (q : @quat F) := Quat (X (qw q)) (X (qx q)) (X (qy q)) (X (qz q)) in
  let e := qmul xnum (x p) (x q) in
  result (qw e) (qw r) ∧ result (qx e) (qx r) ∧ result (qy e) (qy r) ∧ result (qz e) (qz r).
(** /repo/include/xme/math/vectors/functions.hpp:11-21 lerp with a parameter of the element type *)
Definition lerp_fused (v w : list F) (t : F) (r : list F) : Prop :=
  ∃ es, lerp xnum (λ p, p) (λ p, p) (λ p, Minus (X Bone) p) (map X v) (map X w) (X t) = Some es ∧ Forall2 result es r.
End fma.
