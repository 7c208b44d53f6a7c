(** Model of /repo/include/xme/math/constants.hpp: the literals, exactly as written.

    [Dec m k] is the decimal number m / 10^k, where k is the number of digits after
    the point. *)
From Coq Require Import ZArith List.
Import ListNotations.

Record dec := Dec { mantissa : Z; scale : Z }.
Local Open Scope Z_scope.

(** 6-8 *)
Definition e_v : dec := Dec 27182818284590452353602874713526624977572470936999595749669676277240766303535475 79.
(** 11-13 *)
Definition e_sqr_v : dec := Dec 73890560989306502272304274605750078131803155705518473240871278225225737960790577 79.
(** 16-18 *)
Definition e_pow_pi_v : dec := Dec 23140692632779269005729086367948547380266106242600211993445046409524342350690452 78.
(** 21-23 *)
Definition pi_v : dec := Dec 31415926535897932384626433832795028841971693993751058209749445923078164062862089 79.
(** 26-28 *)
Definition two_pi_v : dec := Dec 62831853071795864769252867665590057683943387987502116419498891846156328125724179 79.
(** 31-33 *)
Definition two_over_pi_v : dec := Dec 6366197723675813430755350534900574481378385829618257949906693762355871905369061 79.
(** 36-38 *)
Definition pi_over_two_v : dec := Dec 15707963267948966192313216916397514420985846996875529104874722961539082031431044 79.
(** 41-43 *)
Definition pi_sqr_v : dec := Dec 98696044010893586188344909998761511353136994072407906264133493762200448224192052 79.
(** 46-48 *)
Definition inv_pi_v : dec := Dec 3183098861837906715377675267450287240689192914809128974953346881177935952684530 79.
(** 51-52 *)
Definition tau_v : dec := two_pi_v.
(** 55-57 *)
Definition log2_e_v : dec := Dec 14426950408889634073599246810018921374266459541529859341354494069311092191811850 79.
(** 60-62 *)
Definition log10_e_v : dec := Dec 4342944819032518276511289189166050822943970058036665661144537831658646492088707 79.
(** 65-67 *)
Definition ln_two_v : dec := Dec 6931471805599453094172321214581765680755001343602552541206800094933936219696947 79.
(** 70-72 *)
Definition ln_ten_v : dec := Dec 23025850929940456840179914546843642076011014886287729760333279009675726096773524 79.
(** 75-77 *)
Definition sqrt_two_v : dec := Dec 14142135623730950488016887242096980785696718753769480731766797379907324784621070 79.
(** 80-82 *)
Definition sqrt_three_v : dec := Dec 17320508075688772935274463415058723669428052538103806280558069794519330169088000 79.
(** 85-87 *)
Definition sqrt_five_v : dec := Dec 22360679774997896964091736687312762354406183596115257242708972454105209256378048 79.
(** 90-92 *)
Definition sqrt_e_v : dec := Dec 16487212707001281468486507878141635716537761007101480115750793116406610211942156 79.
(** 95-97 *)
Definition sqrt_pi_v : dec := Dec 17724538509055160272981674833411451827975494561223871282138077898529112845910321 79.
(** 100-102 *)
Definition sqrt_two_pi_v : dec := Dec 25066282746310005024157652848110452530069867406099383166299235763422936546078419 79.
(** 105-107 *)
Definition sqrt_two_pi_e_v : dec := Dec 41327313541224929384693918842998526494455219169913084515566512537979579285134170 79.
(** 110-112 *)
Definition inv_sqrt_pi_v : dec := Dec 5641895835477562869480794515607725858440506293289988568440857217106424684414934 79.
(** 115-117 *)
Definition cbrt_two_v : dec := Dec 12599210498948731647672106072782283505702514647015079800819751121552996765139594 79.
(** 120-122 *)
Definition inv_fibonacci_v : dec := Dec 33598856662431775531720113029189271796889051337319684864955538153251303189966833 79.
(** 125-127 *)
Definition phi_v : dec := Dec 16180339887498948482045868343656381177203091798057628621354486227052604628189024 79.
(** 130-132 *)
Definition catalan_v : dec := Dec 9159655941772190150546035149323841107741493742816721342664981196217630197762547 79.
(** 135-137 *)
Definition euler_v : dec := Dec 5772156649015328606065120900824024310421593359399235988057672348848677267776646 79.
(** 140-142 *)
Definition gauss_v : dec := Dec 8346268416740731862814297327990468089939930134903470024498273701036819927095264 79.
(** 145-147 *)
Definition plastic_v : dec := Dec 13247179572447460259609088544780973407344040569017333645340150503028278512455475 79.
(** 150-152 *)
Definition zeta_two_v : dec := Dec 16449340668482264364724151666460251892189499012067984377355582293700074704032008 79.
(** 155-157 *)
Definition zeta_three_v : dec := Dec 12020569031595942853997381615114499907649862923404988817922715553418382057863130 79.
(** 160-162 *)
Definition zeta_four_v : dec := Dec 10823232337111381915160036965411679027747509519187269076829762154441206161869688 79.

(** a / b, rounded to the nearest integer, ties to even *)
Definition rounded (a b : Z) : Z :=
  let q := a / b in let r := a mod b in
  if 2 * r <? b then q else if b <? 2 * r then q + 1 else if Z.even q then q else q + 1.
(** [Float m e] is m * 2^e. *)
Record float := Float { significand : Z; exponent : Z }.
(** The positive fraction a / b as a floating-point number with p bits, rounded to the
    nearest. The exponent is not bounded: float, double and long double hold all the
    constants without overflow or underflow. *)
Definition to_float (p a b : Z) : float :=
  let e0 := Z.log2 a - Z.log2 b - p in
  (* 2^(p-1) <= a / (b * 2^e) < 2^p for e = e0 or e = e0 + 1 *)
  let scaled e := if 0 <=? e then (a, b * 2 ^ e) else (a * 2 ^ (- e), b) in
  let '(a0, b0) := scaled e0 in
  if a0 <? b0 * 2 ^ p then Float (rounded a0 b0) e0 else let '(a1, b1) := scaled (e0 + 1) in Float (rounded a1 b1) (e0 + 1).
(** static_cast<T>(1.234L), in the definition of each constant: the literal is a long
    double with [ld] bits and T has [p] bits. The compiler is taken to round the literal
    to the nearest, as GCC, Clang and MSVC do. *)
Definition constant (ld p : Z) (d : dec) : float :=
  let l := to_float ld (mantissa d) (10 ^ scale d) in
  if 0 <=? exponent l then to_float p (significand l * 2 ^ exponent l) 1 else to_float p (significand l) (2 ^ (- exponent l)).
(** The literals above, in the order of the file. *)
Definition literals : list dec := [e_v; e_sqr_v; e_pow_pi_v; pi_v; two_pi_v; two_over_pi_v; pi_over_two_v; pi_sqr_v; inv_pi_v;
  tau_v; log2_e_v; log10_e_v; ln_two_v; ln_ten_v; sqrt_two_v; sqrt_three_v; sqrt_five_v; sqrt_e_v; sqrt_pi_v; sqrt_two_pi_v;
  sqrt_two_pi_e_v; inv_sqrt_pi_v; cbrt_two_v; inv_fibonacci_v; phi_v; catalan_v; euler_v; gauss_v; plastic_v; zeta_two_v;
  zeta_three_v; zeta_four_v].
