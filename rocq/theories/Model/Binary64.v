(** The clock of the main loop in double precision, src/loadInitParam.cpp lines 329, 471, 586.
    IEEE 754 binary64 with rounding to nearest, from the Flocq library. *)
From Coq Require Import ZArith Reals.
From Flocq Require Import Core IEEE754.BinarySingleNaN.

Definition prec64 := 53%Z.
Definition emax64 := 1024%Z.
#[global] Instance prec64_gt_0 : Prec_gt_0 prec64 := eq_refl.
#[global] Instance prec64_lt_emax : Prec_lt_emax prec64 emax64 := eq_refl.

Definition b64 := binary_float prec64 emax64.
Definition b64_add (x y : b64) : b64 := Bplus mode_NE x y.
Definition b64_div (x y : b64) : b64 := Bdiv mode_NE x y.

(** line 586: current_time = current_time + delta_t, n times, from 0 *)
Definition clock64 (dt : b64) (n : nat) : b64 := Nat.iter n (fun t => b64_add t dt) (B754_zero false).

(** line 329: (int)(current_time / delta_t); overflow of int is not modelled *)
Definition index64 (t dt : b64) : Z := Btrunc (b64_div t dt).

(** line 471: the loop on the clock alone; the result is the number of iterations *)
Fixpoint loop64 (fuel : nat) (t end_time dt : b64) : option nat :=
  if Bltb t end_time then
    match fuel with
    | O => None
    | S fuel' => option_map S (loop64 fuel' (b64_add t dt) end_time dt)
    end
  else Some O.

(** src/bunch.cpp, bunch_inject: the first index injected at time t, for a bunch whose window
    begins at [tb]; [per_step] is particles_in_step as a double. *)
Definition first_index64 (t tb dt per_step : b64) : Z :=
  Btrunc (Bmult mode_NE (b64_div (Bminus mode_NE t tb) dt) per_step).
