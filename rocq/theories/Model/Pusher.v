(** Model of the particle pushers, src/particles.cpp lines 1025-1254, of the Lorentz
    factors, src/lib.cpp lines 42-79, and of the vector helpers, lib/tinyvec3d/tinyvec3d.cpp.

    The fields at the particle are arguments here (Model/Interp.v computes them).
    Simplifications: real arithmetic, so the NaN/inf tests of lines 1048-1056 and 1172-1180
    never fire; pow(x, -0.5) is 1/sqrt x; lib::sq_rt is sqrt (the AVX version computes the
    same value). *)
From Coq Require Import Reals ZArith.
From Verif.Lib Require Import RAux Outcome.
From Verif.Model Require Import Constants.
Local Open Scope R_scope.
Local Open Scope outcome_scope.

(** lib/tinyvec3d/tinyvec3d.cpp: three-component arrays. *)
Record vec3 := V3 { v0 : R; v1 : R; v2 : R }.

(** tv_add, lines 62-66 *)
Definition tv_add (a b : vec3) : vec3 := V3 (v0 a + v0 b) (v1 a + v1 b) (v2 a + v2 b).
(** tv_product, lines 89-93 *)
Definition tv_product (a : vec3) (x : R) : vec3 := V3 (v0 a * x) (v1 a * x) (v2 a * x).
(** tv_dot, lines 53-60 *)
Definition tv_dot (a b : vec3) : R := 0 + v0 a * v0 b + v1 a * v1 b + v2 a * v2 b.
(** tv_squared_sum, lines 118-121 *)
Definition tv_squared_sum (a : vec3) : R := tv_dot a a.

(** src/lib.cpp line 8 *)
Definition LIGHT_SPEED_POW_2 : R := LIGHT_SPEED * LIGHT_SPEED.

(** src/lib.cpp lines 42-69: get_gamma. For beta = 1 the quotient 1/0 is infinite and the
    function returns 1e100 (lines 62-66). *)
Definition get_gamma (sq_velocity : R) : outcome R :=
  let beta := sq_velocity / LIGHT_SPEED_POW_2 in
  if Rlt_dec 1 beta then Exit 1
  else if Req_EM_T beta 1 then Ok (10 ^ 100)
  else Ok (1 / sqrt (1 - beta)).

(** src/lib.cpp lines 71-79: get_gamma_inv *)
Definition get_gamma_inv (sq_velocity : R) : R := 1 / sqrt (1 + sq_velocity / LIGHT_SPEED_POW_2).

(** Which pusher was selected at configure time (configure.ac lines 143-152). The adaptive
    variant carries the value found in the local variable [use_rel], which
    src/particles.cpp line 1034 does not initialise. *)
Inductive pusher := BorisClassic | BorisRelativistic | BorisAdaptive (use_rel : bool) | Vay.

(** configure.ac line 145: REL_LIMIT 5e7, and its square (src/particles.cpp line 13) *)
Definition REL_LIMIT_POW_2 : R := 50000000 * 50000000.

(** src/particles.cpp lines 1070-1072 and 1191-1193: rounding of small velocities. *)
Definition round_small (x : R) : R := if Rlt_dec (Rabs x) MNZL then 0 else x.
Definition round_velocity (v : vec3) : vec3 := V3 (round_small (v0 v)) (round_small (v1 v)) (round_small (v2 v)).

(** src/particles.cpp lines 1121-1132: rotation by the magnetic field. *)
Definition boris_rotation (b v : vec3) : vec3 :=
  let const2 := 2 / (1 + tv_squared_sum b) in
  V3 (v0 v + const2 * ((v1 v - v0 v * v2 b + v2 v * v0 b) * v2 b
                       - (v2 v + v0 v * v1 b - v1 v * v0 b) * v1 b))
     (v1 v + const2 * (- (v0 v + v1 v * v2 b - v2 v * v1 b) * v2 b
                       + (v2 v + v0 v * v1 b - v1 v * v0 b) * v0 b))
     (v2 v + const2 * ((v0 v + v1 v * v2 b - v2 v * v1 b) * v1 b
                       - (v1 v - v0 v * v2 b + v2 v * v0 b) * v0 b)).

(** src/particles.cpp lines 1025-1150: boris_pusher_single; [rel] says whether the
    relativistic blocks are executed. *)
Definition boris_push (rel : bool) (dt charge mass : R) (e_fld h_fld vel : vec3) : outcome vec3 :=
  let const1 := charge * dt / (2 * mass) in
  let e := tv_product e_fld const1 in
  let b := tv_product h_fld (MAGN_CONST * const1) in
  let velocity := round_velocity vel in
  do velocity <- (if rel then
                    do gamma <- get_gamma (tv_squared_sum velocity); Ok (tv_product velocity gamma)
                  else Ok velocity);
  let velocity := tv_add velocity e in
  let b := if rel then tv_product b (get_gamma_inv (tv_squared_sum velocity)) else b in
  let velocity := boris_rotation b velocity in
  let velocity := tv_add velocity e in
  let velocity := if rel then tv_product velocity (get_gamma_inv (tv_squared_sum velocity)) else velocity in
  Ok velocity.

(** src/particles.cpp lines 1152-1254: vay_pusher_single. *)
Definition vay_push (dt charge mass : R) (e_fld h_fld vel : vec3) : outcome vec3 :=
  let const1 := charge * dt / (2 * mass) in
  let e := tv_product e_fld (2 * const1) in
  let b := tv_product h_fld (MAGN_CONST * const1) in
  let velocity := round_velocity vel in
  do gamma <- get_gamma (tv_squared_sum velocity);
  let velocity := tv_product velocity gamma in
  let vtmp := velocity in
  let b := tv_product b (2 * const1) in
  let velocity := tv_add velocity e in
  let b := tv_product b const1 in
  let gamma := get_gamma_inv (tv_squared_sum vtmp) in
  let velocity := V3 (v0 velocity + gamma * (v1 vtmp * v2 b - v2 vtmp * v1 b))
                     (v1 velocity + gamma * (v2 vtmp * v0 b - v0 vtmp * v2 b))
                     (v2 velocity + gamma * (v0 vtmp * v1 b - v1 vtmp * v0 b)) in
  let gamma := get_gamma_inv (tv_squared_sum velocity) in
  let alpha := 1 / gamma / gamma in
  let B2 := tv_squared_sum b in
  let s := alpha - B2 in
  let us2 := tv_dot velocity b * tv_dot velocity b in
  let alpha := 1 / sqrt (1/2 * (s + sqrt (s * s + 4 * (B2 + us2)))) in
  let b := tv_product b alpha in
  let s := 1 / (1 + tv_squared_sum b) in
  let alpha := tv_dot velocity b in
  let vtmp := V3 (s * (v0 velocity + alpha * v0 b + v2 b * v1 velocity - v1 b * v2 velocity))
                 (s * (v1 velocity + alpha * v1 b + v0 b * v2 velocity - v2 b * v0 velocity))
                 (s * (v2 velocity + alpha * v2 b + v1 b * v0 velocity - v0 b * v1 velocity)) in
  let gamma := get_gamma_inv (tv_squared_sum vtmp) in
  Ok (tv_product vtmp gamma).

(** src/particles.cpp lines 1303-1307 with lines 1074-1079: the selected pusher. *)
Definition push (p : pusher) (dt charge mass : R) (e_fld h_fld vel : vec3) : outcome vec3 :=
  match p with
  | BorisClassic => boris_push false dt charge mass e_fld h_fld vel
  | BorisRelativistic => boris_push true dt charge mass e_fld h_fld vel
  | BorisAdaptive use_rel =>
      let use_rel := if Rlt_dec REL_LIMIT_POW_2 (tv_squared_sum (round_velocity vel)) then true else use_rel in
      boris_push use_rel dt charge mass e_fld h_fld vel
  | Vay => vay_push dt charge mass e_fld h_fld vel
  end.
