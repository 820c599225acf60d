(** Model of the thermal energy sampler, src/math/maxwellJuttner.cpp lines 313-394 (TESTMODE not
    defined). Random numbers are given: they are what uniform() returns. Real arithmetic, but logarithm of
    zero, powers of negative numbers and square roots of negative numbers have the values IEEE arithmetic
    gives them (infinite, not a number). M_PI is [c_PI]. *)
From Coq Require Import Reals ZArith List Bool.
From Verif.Lib Require Import RAux Outcome.
From Verif.Model Require Import Constants Limits JuttnerTables.
Import ListNotations.
Local Open Scope R_scope.
Local Open Scope outcome_scope.

(** lnInvF[i], lnInvH[i]; the arrays have 1000 elements *)
Definition table_at (t : list Z) (i : Z) : outcome R :=
  if ((0 <=? i) && (i <? 1000))%Z then Ok (IZR (nth (Z.to_nat i) t 0%Z) / 10 ^ 22) else UB.

(** lines 343-346, 379-382: index is I cut to an integer *)
Definition interpolate (t : list Z) (x : R) : outcome R :=
  let index := floorZ x in
  let remainder := x - IZR index in
  do a <- table_at t index;
  do b <- table_at t (index + 1);
  Ok (exp (a + remainder * (b - a))).

(** lines 320-350 for one particle. For U = 0 the inner logarithm is minus infinity. *)
Definition classical (temperature U : R) : outcome R :=
  let invdU_F := 999 / (2 + 19) in
  do invF <-
    (if Req_EM_T U 0 then Ok 0
     else
       let lnlnU := ln (- ln U) in
       if Rlt_dec 2 lnlnU then Ok (3 * sqrt c_PI / 4 * Rpower U (2 / 3))
       else if Rlt_dec lnlnU (-19) then Ok 1
       else interpolate lnInvF ((lnlnU + 19) * invdU_F));
  Ok (temperature * invF).

(** lines 357-358 *)
Definition H_0 (temperature : R) : R :=
  let invT := 1 / temperature in - invT + ln (1 + invT + 1 / 2 * invT * invT).

(** lines 369-385: the first guess for gamma. pow(-6.*U, 1./3.) is not a number for U > 0, and
    neither is pow(-U, 0.06). *)
Definition guess (temperature U : R) : outcome num :=
  let invdU_H := 999 / (12 + 30) in
  let lnU := ln (- ln (1 - U) - H_0 temperature) in
  if Rlt_dec lnU (-26) then Ok (if Req_EM_T U 0 then Num (temperature * 0) else NaN)
  else if Rlt_dec 12 lnU then Ok (if Req_EM_T U 0 then Num (temperature * 0) else NaN)
  else do invH <- interpolate lnInvH ((lnU + 30) * invdU_H); Ok (Num (temperature * invH)).

(** line 394: U >= sqrt(1.-1./(gamma * gamma)); comparisons with not-a-number are false *)
Definition again (gamma : num) (V : R) : bool :=
  match gamma with
  | NaN => false
  | Num x =>
      if Req_EM_T x 0 then false
      else if Rlt_dec (1 - 1 / (x * x)) 0 then false
      else if Rle_dec (sqrt (1 - 1 / (x * x))) V then true else false
  end.

(** lines 361-396: the loop; the list contains the pairs of random numbers. None: they are used up. *)
Fixpoint relativistic (temperature : R) (us : list (R * R)) : outcome (option num) :=
  match us with
  | [] => Ok None
  | (U, V) :: us' =>
      do gamma <- guess temperature U;
      if again gamma V then relativistic temperature us'
      else Ok (Some (match gamma with Num x => Num (x - 1) | NaN => NaN end))
  end.

(** lines 314-400 for one particle. The temperature is in electron volts
    (src/particles.cpp line 233, src/loadInitParam.cpp). *)
Definition maxwell_juttner (temperature : R) (us : list (R * R)) : outcome (option num) :=
  if Rlt_dec temperature (1 / 10) then
    match us with
    | [] => Ok None
    | (U, _) :: _ => do e <- classical temperature U; Ok (Some (Num e))
    end
  else relativistic temperature us.
