(** Arithmetic on the numbers the program calls "double", as a parameter of the model. The same text of the
    program is read once with real numbers (as in the other files of the model) and once with IEEE 754 binary64
    numbers, rounding to nearest, ties to even. A build configured
    for IEEE arithmetic (configure.ac lines 97-102: -O2, no -ffast-math, no -march) evaluates every operation on doubles
    in binary64 without contraction. The default build has -ffast-math, which lets the compiler change the order of
    operations, even differently for different iterations of one loop; that is outside of this model. *)
From Coq Require Import Reals ZArith.
From Flocq Require Import Core IEEE754.BinarySingleNaN.
From Verif.Lib Require Import RAux.
From Verif.Model Require Import Binary64 Temperature64.

Record arith := Arith {
  num : Type;
  add : num -> num -> num;
  sub : num -> num -> num;
  mul : num -> num -> num;
  div : num -> num -> num;
  opp : num -> num;
  absv : num -> num;               (* abs of <cmath> *)
  root : num -> num;               (* sqrt, _mm256_sqrt_pd *)
  of_int : Z -> num;               (* conversion of int, and floating literals that are whole numbers *)
  lit : Z -> Z -> num;             (* the floating literal with value n / d *)
  ltb : num -> num -> bool;
  leb : num -> num -> bool;
  eqb : num -> num -> bool;
  ceil_int : num -> Z;             (* (int)ceil(x) *)
  trunc_int : num -> Z;            (* (int)x *)
  finite : num -> bool;            (* neither isnan nor isinf *)
  inf_quot : num -> num -> bool;   (* isinf(x / y) *)
  pow_mhalf : num -> num;          (* pow(x, -0.5) *)
  log_of : num -> num              (* log(x) *)
}.

Definition of_dec {P Q : Prop} (d : {P} + {Q}) : bool := if d then true else false.

(** Real numbers. Everything is finite; a quotient is infinite when the divisor is zero. *)
Definition real_arith : arith :=
  Arith R Rplus Rminus Rmult Rdiv Ropp Rabs sqrt IZR (fun n d => (IZR n / IZR d)%R)
    (fun x y => of_dec (Rlt_dec x y)) (fun x y => of_dec (Rle_dec x y)) (fun x y => of_dec (Req_EM_T x y))
    ceilZ (fun x => if Rle_dec 0 x then floorZ x else ceilZ x) (fun _ => true) (fun x y => of_dec (Req_EM_T y 0)) (fun x => (1 / sqrt x)%R) ln.

(** Conversion of an integer to binary64, rounding to nearest (exact up to 2^53). *)
Definition b64_of_Z (n : Z) : b64 := binary_normalize prec64 emax64 eq_refl eq_refl mode_NE n 0 false.

(** Numerator and denominator of the literals of the program are below 2^53, so the quotient is the literal
    correctly rounded. *)
Definition b64_lit (n d : Z) : b64 := b64_div (b64_of_Z n) (b64_of_Z d).

Definition b64_ceil_int (x : b64) : Z := Btrunc (Bnearbyint mode_UP x).

Definition b64_is_inf (x : b64) : bool := match x with B754_infinity _ => true | _ => false end.

(** binary64. The functions pow and log of the C library are not specified exactly by any standard, so they
    are parameters. The conversion to int is exact in the model; out of the range of int (or from NaN and
    infinities, where the model has 0) it is undefined behaviour in C++. *)
Definition b64_arith (pow_mhalf log : b64 -> b64) : arith :=
  Arith b64 b64_add b64_sub b64_mul b64_div Bopp Babs b64_sqrt b64_of_Z b64_lit
    Bltb Bleb Beqb b64_ceil_int Btrunc is_finite (fun x y => b64_is_inf (b64_div x y)) pow_mhalf log.
