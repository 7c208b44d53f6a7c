(** float and double as element types of vectors.

    The vector model (VecModel.v) takes the arithmetic of the element type as a
    parameter. Here it is the arithmetic of IEEE 754 binary formats, from Flocq: [prec]
    bits of precision and exponents below [emax], rounded to the nearest with ties to
    even. float is binary32 and double is binary64, which CFloatingPoint (any
    std::floating_point) gives on the platforms of the library.

    Simplifications: all NaNs are one; each operation rounds its result to the element
    type (no wider intermediate format, no contraction to fused multiply-add; see FmaModel.v for
    the latter). *)
From Coq Require Import ZArith Reals.
From Flocq Require Import Core BinarySingleNaN.
From Verif Require Import VecModel.

Section format.
  Context (prec emax : Z) {Hprec : Prec_gt_0 prec} {Hmax : Prec_lt_emax prec emax}.
  (** /repo/include/xme/math/vector.hpp:39-43, the element type T *)
  Definition fnum : num (binary_float prec emax) :=
    Num (B754_zero false) Bone (Bplus mode_NE) (Bminus mode_NE) (Bmult mode_NE) (Bdiv mode_NE) Bopp.
  (** std::sqrt: geometry.hpp:37 *)
  Definition fsqrt : binary_float prec emax -> binary_float prec emax := Bsqrt mode_NE.
End format.

#[export] Instance prec_gt_0_24 : Prec_gt_0 24. Proof. reflexivity. Qed.
#[export] Instance prec_lt_128 : Prec_lt_emax 24 128. Proof. reflexivity. Qed.
#[export] Instance prec_gt_0_53 : Prec_gt_0 53. Proof. reflexivity. Qed.
#[export] Instance prec_lt_1024 : Prec_lt_emax 53 1024. Proof. reflexivity. Qed.
(** m * 2^e as a float or double, rounded *)
Definition float32 (m e : Z) : binary_float 24 128 := binary_normalize 24 128 _ _ mode_NE m e false.
Definition float64 (m e : Z) : binary_float 53 1024 := binary_normalize 53 1024 _ _ mode_NE m e false.
