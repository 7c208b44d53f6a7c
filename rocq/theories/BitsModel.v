(** Model of xme::has_single_bit and xme::to_unsigned
    (/repo/include/xme/core/bit/has_single_bit.hpp,
     /repo/include/xme/core/utility/to_unsigned.hpp). *)
From Coq Require Import ZArith Bool.
Local Open Scope Z_scope.

(** The integer promotions: an unsigned type narrower than [int] (32 bits) is
    promoted to [int], where [n - 1] cannot overflow; a wider one wraps. *)
Definition minus_one (w n : Z) : Z :=
  if w <? 32 then n - 1 else (n - 1) mod 2 ^ w.

(** has_single_bit.hpp:6-9, for an unsigned type of [w] bits:
    [!((n - 1) & n) && n != 0]. *)
Definition has_single_bit (w n : Z) : bool :=
  (Z.land (minus_one w n) n =? 0) && negb (n =? 0).

(** to_unsigned.hpp:7-9 and 12-18, for a type of [w] bits: static_cast to the
    unsigned type of the same width. *)
Definition to_unsigned (w n : Z) : Z := n mod 2 ^ w.
