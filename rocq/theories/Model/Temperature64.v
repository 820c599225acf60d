(** The classic temperature of a cell with one particle in double precision,
    src/temperatureClassic.cpp lines 88-98 (sums starting from 0) and 133-148 (below REL_LIMIT). IEEE 754
    binary64 with rounding to nearest, from the Flocq library; the square root is correctly rounded. *)
From Coq Require Import ZArith.
From Flocq Require Import Core IEEE754.BinarySingleNaN.
From Verif.Model Require Import Binary64.

Definition b64_mul (x y : b64) : b64 := Bmult mode_NE x y.
Definition b64_sub (x y : b64) : b64 := Bminus mode_NE x y.
Definition b64_sqrt (x : b64) : b64 := Bsqrt mode_NE x.
Definition b64_zero : b64 := B754_zero false.
Definition b64_one : b64 := @B754_finite prec64 emax64 false 4503599627370496 (-52) eq_refl.
Definition b64_two : b64 := @B754_finite prec64 emax64 false 4503599627370496 (-51) eq_refl.

(** vel_r * vel_r + vel_phi * vel_phi + vel_z * vel_z, lines 92 and 133-134 *)
Definition sq_sum64 (r phi z : b64) : b64 := b64_add (b64_add (b64_mul r r) (b64_mul phi phi)) (b64_mul z z).

(** t_src[r][z] for one particle with velocity (vr, vphi, vz), lines 133-148 *)
Definition temperature64 (mass abs_charge vr vphi vz : b64) : b64 :=
  let t_sum := b64_add b64_zero (b64_sqrt (sq_sum64 vr vphi vz)) in
  let vec_r := b64_add b64_zero vr in
  let vec_phi := b64_add b64_zero vphi in
  let vec_z := b64_add b64_zero vz in
  let count := b64_add b64_zero b64_one in
  let v_sc_sum_2 := b64_div (b64_sub (b64_mul t_sum t_sum) (sq_sum64 vec_r vec_phi vec_z)) (b64_mul count count) in
  b64_div (b64_div (b64_mul mass v_sc_sum_2) b64_two) abs_charge.
