(** Lengths, distances and unit vectors in float and double when multiplications and additions
    may be fused (FmaModel.v). The root and the quotient round; they are not fused with
    anything. *)
From stdpp Require Import list.
From Coq Require Import ZArith Reals.
From Flocq Require Import Core BinarySingleNaN.
From Verif Require Import VecModel FloatModel FloatExprProofs FmaModel.

Section fma.
Context (prec emax : Z) {Hprec : Prec_gt_0 prec} {Hmax : Prec_lt_emax prec emax}.
Local Notation F := (binary_float prec emax).
Local Notation N := (fnum prec emax).
Local Notation xnum := (xnum prec emax).

(** [f] computes the radicand *)
Definition root_of (f : option (expr prec emax)) (l : F) : Prop :=
  ∃ e s, f = Some e ∧ result prec emax e s ∧ l = fsqrt prec emax s.
(** /repo/include/xme/math/vectors/geometry.hpp:34-38 length *)
Definition length_fused (v : list F) (l : F) : Prop := root_of (length_ xnum (λ e, e) (map X v)) l.
(** /repo/include/xme/math/vector.hpp:105-111, vectors/vector2.hpp:94-97, vector3.hpp:107-110,
    vector4.hpp:124-127 length() *)
Definition vlength_fused (v : list F) (l : F) : Prop := root_of (vlength xnum (λ e, e) (map X v)) l.
(** geometry.hpp:43-48 distance *)
Definition distance_fused (v w : list F) (l : F) : Prop := root_of (distance xnum (λ e, e) (map X v) (map X w)) l.
(** geometry.hpp:52-56 normalize, and vector.hpp:113-118 normalize() *)
Definition normalize_fused (v r : list F) : Prop := ∃ l, length_fused v l ∧ vscale N v (ndiv N (n1 N) l) = Some r.
Definition vnormalize_fused (v r : list F) : Prop := ∃ l, vlength_fused v l ∧ vscale N v (ndiv N (n1 N) l) = Some r.
End fma.
