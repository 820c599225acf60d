(** Model of the motion of one particle, src/particles.cpp lines 990-1024 and 1256-1374. *)
From Coq Require Import Reals ZArith.
From Verif.Lib Require Import RAux Outcome.
From Verif.Model Require Import Constants Geometry Pusher.
Local Open Scope R_scope.

(** The arrays pos, pos_old, vel, sin_theta_r of one particle (class Particles,
    include/particles.h). Only components 0 and 2 of pos_old are used. *)
Record phase := Phase { pos : vec3; vel : vec3; r_old : R; z_old : R; sin_theta : R }.

(** lines 1256-1260: dump_position_to_old_single *)
Definition dump_position_to_old (p : phase) : phase :=
  Phase (pos p) (vel p) (v0 (pos p)) (v2 (pos p)) (sin_theta p).

(** lines 1270-1284: half_step_pos_single *)
Definition half_step_pos (dt : R) (p : phase) : phase :=
  let half_dt := dt / 2 in
  Phase (V3 (v0 (pos p) + v0 (vel p) * half_dt) (v1 (pos p) + v1 (vel p) * half_dt)
            (v2 (pos p) + v2 (vel p) * half_dt))
        (vel p) (r_old p) (z_old p) (sin_theta p).

(** lines 1286-1294: back_position_to_rz_single *)
Definition back_position_to_rz (p : phase) : phase :=
  let r := sqrt (v0 (pos p) * v0 (pos p) + v1 (pos p) * v1 (pos p)) in
  Phase (V3 r 0 (v2 (pos p))) (vel p) (r_old p) (z_old p) (v1 (pos p) / r).

(** lines 1005-1016: back_velocity_to_rz_single *)
Definition back_velocity_to_rz (p : phase) : phase :=
  let s := sin_theta p in
  let c := sqrt (1 - s * s) in
  Phase (pos p)
        (V3 (c * v0 (vel p) - s * v1 (vel p)) (s * v0 (vel p) + c * v1 (vel p)) (v2 (vel p)))
        (r_old p) (z_old p) s.

(** One of the four tests of reflection_single, applied to one coordinate. *)
Definition reflect_above (wall x v : R) : R * R := if Rlt_dec wall x then (2 * wall - x, - v) else (x, v).
Definition reflect_below (wall x v : R) : R * R := if Rlt_dec x wall then (2 * wall - x, - v) else (x, v).

(** lines 1318-1353: reflection_single. The tests on r and on z are independent; in each
    direction the far wall is tested before the near one. (The code writes
    radius_wallX2 for 2 radius_wall and dr for 2 half_dr.) *)
Definition reflection (g : geom) (p : phase) : phase :=
  let radius_wall := r_size g - dr g / 2 in
  let longitude_wall := z_size g - dz g / 2 in
  let (r1, vr1) := reflect_above radius_wall (v0 (pos p)) (v0 (vel p)) in
  let (z1, vz1) := reflect_above longitude_wall (v2 (pos p)) (v2 (vel p)) in
  let (r2, vr2) := reflect_below (dr g / 2) r1 vr1 in
  let (z2, vz2) := reflect_below (dz g / 2) z1 vz1 in
  Phase (V3 r2 (v1 (pos p)) z2) (V3 vr2 (v1 (vel p)) vz2) (r_old p) (z_old p) (sin_theta p).

(** lines 1309-1314: the part of step_v after the pusher. *)
Definition first_half (dt : R) (p : phase) : phase :=
  back_position_to_rz (half_step_pos dt (dump_position_to_old p)).

(** lines 1355-1365: move_half_reflect, body of the loop. *)
Definition second_half (g : geom) (dt : R) (p : phase) : phase :=
  back_position_to_rz (reflection g (half_step_pos dt p)).

(** One complete step of a particle between two pushes:
    step_v after the pusher, then full_current_distribution (lines 1367-1373), whose
    depositions do not change the particle. *)
Definition move (g : geom) (dt : R) (p : phase) : phase :=
  back_velocity_to_rz (second_half g dt (first_half dt p)).

(** Replacing the velocity (the effect of a pusher on the particle). *)
Definition set_vel (v : vec3) (p : phase) : phase := Phase (pos p) v (r_old p) (z_old p) (sin_theta p).
