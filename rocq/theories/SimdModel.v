(** Model of xme::find and xme::reverse
    (/repo/include/xme/core/algorithm/find.hpp, reverse.hpp), byte by byte.

    Memory is one allocation: a base address and its bytes. Pointers are
    addresses. A vector register is the list of its bytes, byte 0 first (the
    x86 byte order). The intrinsics are modelled from Intel's description of
    the instruction; the description is part of the trusted base.

    Simplifications: only contiguous iterators (pointers); [constexpr]
    evaluation is not modelled; element types are given by their size in bytes
    and by the operator== the code calls, as a function on the bytes of the two
    objects. *)
From stdpp Require Import list.
From Coq Require Import ZArith Lia.
From Verif Require Import Base.
Local Open Scope Z_scope.
Local Open Scope mon_scope.

Record mem := Mem { m_base : Z; m_bytes : list Z }.

(** What the preprocessor selects (find.hpp:14,40,66; reverse.hpp:18,31,42):
    [XME_SIMD_USE_AVX2], else [XME_SIMD_USE_SSE2]/[SSE3], else neither. *)
Inductive simd := AVX2 | SSE | NoSimd.

(** How strictly pointer arithmetic is read. [Strict] is the C++ rule
    ([expr.add]/4: the result must stay in the array or one past its end);
    [Flat] is what x86-64 does, arithmetic modulo 2^64. *)
Inductive ptr_rule := Flat | Strict.

Definition m_end (s : mem) : Z := m_base s + Z.of_nat (length (m_bytes s)).

(** Reading and writing [n] bytes at address [p]. *)
Definition load (p : Z) (n : nat) : M mem (list Z) := fun s =>
  if (m_base s <=? p) && (p + Z.of_nat n <=? m_end s)
  then Ok (take n (drop (Z.to_nat (p - m_base s)) (m_bytes s))) s
  else UB OutOfBounds.
Definition store (p : Z) (v : list Z) : M mem unit := fun s =>
  if (m_base s <=? p) && (p + Z.of_nat (length v) <=? m_end s)
  then let k := Z.to_nat (p - m_base s) in
       Ok tt (Mem (m_base s) (take k (m_bytes s) ++ v ++ drop (k + length v) (m_bytes s)))
  else UB OutOfBounds.

(** Access through an lvalue of type [__m256i]/[__m128i]: the address must be a
    multiple of the vector size [v]. *)
Definition load_aligned (v : nat) (p : Z) : M mem (list Z) :=
  if p mod Z.of_nat v =? 0 then load p v else fail Misaligned.

(** [p + k] and [p - k] for a pointer to elements of [w] bytes. *)
Definition padd (r : ptr_rule) (w : nat) (p k : Z) : M mem Z := fun s =>
  let q := p + k * Z.of_nat w in
  match r with
  | Flat => Ok (q mod 2 ^ 64) s
  | Strict => if (m_base s <=? q) && (q <=? m_end s) then Ok q s else UB OutOfBounds
  end.
(** [p - q] for pointers to elements of [w] bytes. *)
Definition pdiff (w : nat) (p q : Z) : Z := (p - q) / Z.of_nat w.

(* ------------------------------------------------------------------ *)
(** * Intrinsics *)

(** The lanes of [w] bytes of a register. *)
Fixpoint lanes (n w : nat) (x : list Z) : list (list Z) :=
  match n with
  | O => []
  | S n => take w x :: lanes n w (drop w x)
  end.

(** _mm_set1_epi8/16/32/64x, _mm256_…: the value in every one of the [n] lanes. *)
Definition set1 (n : nat) (x : list Z) : list Z := concat (replicate n x).

(** _mm_cmpeq_epi8/16/32/64, _mm256_…: all ones in the lanes that are equal. *)
Definition cmpeq (n w : nat) (x y : list Z) : list Z :=
  concat (zip_with (λ a b, if decide (a = b) then replicate w 255 else replicate w 0)
                   (lanes n w x) (lanes n w y)).

(** The number whose bits are the given ones, bit 0 first. *)
Fixpoint bits_to_Z (l : list bool) : Z :=
  match l with
  | [] => 0
  | b :: l => Z.b2z b + 2 * bits_to_Z l
  end.

(** _mm_movemask_epi8, _mm256_movemask_epi8: the most significant bit of every byte. *)
Definition movemask_epi8 (x : list Z) : Z := bits_to_Z (map (λ b, Z.testbit b 7) x).
(** _mm_movemask_ps/_pd, _mm256_…: the most significant bit of every lane of
    [w] bytes (4 for ps, 8 for pd), i.e. bit 7 of its last byte. *)
Definition movemask_p (n w : nat) (x : list Z) : Z :=
  bits_to_Z (map (λ l, Z.testbit (default 0 (last l)) 7) (lanes n w x)).

(** std::countr_zero of a [w]-bit unsigned value: [w] for zero. *)
Fixpoint countr_zero (w : nat) (m : Z) : Z :=
  match w with
  | O => 0
  | S w => if Z.odd m then 0 else 1 + countr_zero w (Z.div2 m)
  end.

(** Conversion to [std::uintN_t] on assignment. *)
Definition to_u (w m : Z) : Z := m mod 2 ^ w.

(** _mm_set_epi8, _mm256_set_epi8: the arguments from the most significant
    byte down to byte 0. *)
Definition set_epi8 (l : list Z) : list Z := rev l.

(** _mm_shuffle_epi8 on one 16-byte half: control byte with bit 7 set gives 0,
    otherwise its low four bits select a byte. *)
Definition shuffle128 (x c : list Z) : list Z :=
  map (λ b, if Z.testbit b 7 then 0 else default 0 (x !! Z.to_nat (Z.land b 15))) c.
(** _mm256_shuffle_epi8: within each half separately. *)
Definition shuffle256 (x c : list Z) : list Z :=
  shuffle128 (take 16 x) (take 16 c) ++ shuffle128 (drop 16 x) (drop 16 c).
(** _mm256_permute2x128_si256(a, b, imm): each half of the result is the half
    of [a] or [b] that its control selects; the zeroing bits 3 and 7 included. *)
Definition permute2x128 (a b : list Z) (imm : Z) : list Z :=
  let sel (k : Z) (zero : bool) :=
    if zero then replicate 16 0 else
    if k =? 0 then take 16 a else if k =? 1 then drop 16 a else
    if k =? 2 then take 16 b else drop 16 b in
  sel (Z.land imm 3) (Z.testbit imm 3) ++
  sel (Z.land (Z.shiftr imm 4) 3) (Z.testbit imm 7).

(* ------------------------------------------------------------------ *)
(** * xme::find *)

(** find.hpp:13-68 [detail::find_simd<size>(data, value)]; [vb] are the bytes of
    [*value]. Other sizes do not compile ([static_assert], line 67). *)
Definition find_simd (c : simd) (size : nat) (data : Z) (vb : list Z) : M mem Z :=
  match c, size with
  | AVX2, 1%nat =>                                          (* 15-20 *)
      let needle := set1 32 vb in
      x <- load_aligned 32 data ;;
      let comp := cmpeq 32 1 x needle in
      let mask := to_u 32 (movemask_epi8 comp) in
      ret (countr_zero 32 mask)
  | AVX2, 2%nat =>                                          (* 21-26 *)
      let needle := set1 16 vb in
      x <- load_aligned 32 data ;;
      let comp := cmpeq 16 2 x needle in
      let mask := to_u 32 (movemask_epi8 comp) in
      ret (Z.shiftr (countr_zero 32 mask) 1)
  | AVX2, 4%nat =>                                          (* 27-32 *)
      let needle := set1 8 vb in
      x <- load_aligned 32 data ;;
      let comp := cmpeq 8 4 x needle in
      let mask := to_u 8 (movemask_p 8 4 comp) in
      ret (countr_zero 8 mask)
  | AVX2, 8%nat =>                                          (* 33-38 *)
      let needle := set1 4 vb in
      x <- load_aligned 32 data ;;
      let comp := cmpeq 4 8 x needle in
      let mask := to_u 8 (movemask_p 4 8 comp) in
      ret (if mask =? 0 then 4 else countr_zero 8 mask)
  | SSE, 1%nat =>                                           (* 41-46 *)
      let needle := set1 16 vb in
      x <- load_aligned 16 data ;;
      let comp := cmpeq 16 1 x needle in
      let mask := to_u 16 (movemask_epi8 comp) in
      ret (countr_zero 16 mask)
  | SSE, 2%nat =>                                           (* 47-52 *)
      let needle := set1 8 vb in
      x <- load_aligned 16 data ;;
      let comp := cmpeq 8 2 x needle in
      let mask := to_u 16 (movemask_epi8 comp) in
      ret (Z.shiftr (countr_zero 16 mask) 1)
  | SSE, 4%nat =>                                           (* 53-58 *)
      let needle := set1 4 vb in
      x <- load_aligned 16 data ;;
      let comp := cmpeq 4 4 x needle in
      let mask := to_u 8 (movemask_p 4 4 comp) in
      ret (if mask =? 0 then 4 else countr_zero 8 mask)
  | SSE, 8%nat =>                                           (* 59-64 *)
      let needle := set1 2 vb in
      x <- load_aligned 16 data ;;
      let comp := cmpeq 2 8 x needle in
      let mask := to_u 8 (movemask_p 2 8 comp) in
      ret (if mask =? 0 then 2 else countr_zero 8 mask)
  | _, _ => fail NoObject
  end.

(** find.hpp:80, reverse.hpp:54 [readable_bytes], a number of elements. *)
Definition readable (c : simd) (w : nat) : Z :=
  (match c with AVX2 => 32 | _ => 16 end) / Z.of_nat w.

Section find.
Context (c : simd) (pr : ptr_rule) (w : nat) (eqv : list Z → list Z → bool).

(** find.hpp:82-87: the block loop. [inl p]: returned [p]; [inr p]: left the
    loop with [compare = p]. *)
Fixpoint find_blocks (fuel : nat) (i s : Z) (vb : list Z) (compare : Z) : M mem (Z + Z) :=
  match fuel with
  | O => fail NoFuel
  | S fuel =>
      e <- padd pr w compare (readable c w) ;;
      if negb (e <=? s) then ret (inr compare) else
      index <- find_simd c w compare vb ;;
      if negb (index =? readable c w) then
        q <- padd pr w compare index ;;
        r <- padd pr w i (pdiff w q i) ;;
        ret (inl r)
      else
        e' <- padd pr w compare (readable c w) ;;
        find_blocks fuel i s vb e'
  end.

(** find.hpp:89-92, and the loop of ::ranges::find (95, 97). *)
Fixpoint find_scalar (fuel : nat) (s : Z) (vb : list Z) (compare : Z) : M mem Z :=
  match fuel with
  | O => fail NoFuel
  | S fuel =>
      if compare =? s then ret compare else
      x <- load compare w ;;
      if eqv x vb then ret compare else
      e <- padd pr w compare 1 ;;
      find_scalar fuel s vb e
  end.

(** find.hpp:71-99 [find(i, s, value)]. *)
Definition find (i s : Z) (vb : list Z) : M mem Z :=
  fuel <- gets (λ m, S (length (m_bytes m))) ;;
  match c with
  | NoSimd => find_scalar fuel s vb i
  | _ =>
      r <- find_blocks fuel i s vb i ;;
      match r with
      | inl p => ret p
      | inr p => find_scalar fuel s vb p
      end
  end.
End find.

(* ------------------------------------------------------------------ *)
(** * xme::reverse *)

(** reverse.hpp:13-14 *)
Definition SEQ : list Z := [0; 1; 2; 3; 4; 5; 6; 7; 8; 9; 10; 11; 12; 13; 14; 15].

(** reverse.hpp:17-44 [detail::reverse_simd<size>(lhs, rhs)]. Other sizes do
    not compile ([static_assert], line 43). *)
Definition reverse_simd (c : simd) (size : nat) (lhs rhs : Z) : M mem unit :=
  match c, size with
  | AVX2, 1%nat =>                                          (* 19-29 *)
      let shuf := set_epi8 (SEQ ++ SEQ) in
      lower <- load lhs 32 ;;
      upper <- load (rhs - 32) 32 ;;
      let lower := shuffle256 lower shuf in
      let upper := shuffle256 upper shuf in
      let lower := permute2x128 lower lower 1 in
      let upper := permute2x128 upper upper 1 in
      store lhs upper ;;;
      store (rhs - 32) lower
  | SSE, 1%nat =>                                           (* 32-39 *)
      let shuf := set_epi8 SEQ in
      lower <- load lhs 16 ;;
      upper <- load (rhs - 16) 16 ;;
      let lower := shuffle128 lower shuf in
      let upper := shuffle128 upper shuf in
      store lhs upper ;;;
      store (rhs - 16) lower
  | SSE, 2%nat => ret tt                                    (* 40 *)
  | _, _ => fail NoObject
  end.

Section reverse.
Context (c : simd) (pr : ptr_rule) (w : nat).

(** reverse.hpp:57-61 [while(count--)] *)
Fixpoint reverse_blocks (count : nat) (i s : Z) : M mem (Z * Z) :=
  match count with
  | O => ret (i, s)
  | S count =>
      reverse_simd c w i s ;;;
      i' <- padd pr w i (readable c w) ;;
      s' <- padd pr w s (- readable c w) ;;
      reverse_blocks count i' s'
  end.

(** ::ranges::iter_swap of two elements of [w] bytes *)
Definition iter_swap (p q : Z) : M mem unit :=
  x <- load p w ;;
  y <- load q w ;;
  store p y ;;;
  store q x.

(** reverse.hpp:62-63 [while(i < s) iter_swap(i++, --s)] *)
Fixpoint reverse_scalar (fuel : nat) (i s : Z) : M mem unit :=
  match fuel with
  | O => fail NoFuel
  | S fuel =>
      if negb (i <? s) then ret tt else
      i' <- padd pr w i 1 ;;
      s' <- padd pr w s (-1) ;;
      iter_swap i s' ;;;
      reverse_scalar fuel i' s'
  end.

(** reverse.hpp:47-71 [reverse(i, s)]; without SIMD ::ranges::reverse (67, 69),
    whose loop swaps the same pairs. *)
Definition reverse (i s : Z) : M mem Z :=
  fuel <- gets (λ m, S (length (m_bytes m))) ;;
  match c with
  | NoSimd => reverse_scalar fuel i s ;;; ret s
  | _ =>
      let count := Z.quot (pdiff w s i) 2 / readable c w in
      r <- reverse_blocks (Z.to_nat count) i s ;;
      reverse_scalar fuel (fst r) (snd r) ;;;
      ret s
  end.
End reverse.
