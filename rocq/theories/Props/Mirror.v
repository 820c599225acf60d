(** Property C57: the walls are mirrors. *)
From Coq Require Import Reals ZArith Lra Lia List.
From Verif.Lib Require Import RAux.
From Verif.Model Require Import Constants Geometry Pusher Motion.
From Verif.Spec Require Import Mirror Sample.
From Verif.Proof Require Import GeometryP MotionP MirrorP.
Local Open Scope R_scope.

(** Along the axis: after any number of steps without forces, the particle is where free flight
    between mirrors half a cell before the end walls puts it, and so is its velocity, whatever it
    does across. The step may be as long as the distance of the mirrors. *)
Theorem C57_axial : forall g dt n p, geom_ok g -> (2 <= n_z g)%Z -> 0 <= dt ->
  Rabs (v2 (vel p)) * dt <= z_size g - dz g -> dz g / 2 <= v2 (pos p) <= z_size g - dz g / 2 ->
  mirrored_flight (dz g / 2) (z_size g - dz g / 2) (v2 (pos p)) (v2 (vel p)) (INR n * dt)
    (v2 (pos (free_run g dt n p))) (v2 (vel (free_run g dt n p))).
Proof. exact axial_mirror. Qed.
Print Assumptions C57_axial.

(** Across, for a particle that does not go around the axis and moves less than a cell per step:
    mirrors half a cell before the outer wall and half a cell off the axis. *)
Theorem C57_radial : forall g dt n p, geom_ok g -> (3 <= n_r g)%Z -> 0 <= dt ->
  v1 (pos p) = 0 -> v1 (vel p) = 0 ->
  Rabs (v0 (vel p)) * dt < dr g -> dr g / 2 <= v0 (pos p) <= r_size g - dr g / 2 ->
  mirrored_flight (dr g / 2) (r_size g - dr g / 2) (v0 (pos p)) (v0 (vel p)) (INR n * dt)
    (v0 (pos (free_run g dt n p))) (v0 (vel (free_run g dt n p))) /\
  v1 (pos (free_run g dt n p)) = 0 /\ v1 (vel (free_run g dt n p)) = 0.
Proof. exact radial_mirror. Qed.
Print Assumptions C57_radial.

Example C57_hypotheses_met : exists g dt p, geom_ok g /\ (3 <= n_r g)%Z /\ (2 <= n_z g)%Z /\ 0 <= dt /\
  v1 (pos p) = 0 /\ v1 (vel p) = 0 /\ Rabs (v0 (vel p)) * dt < dr g /\
  dr g / 2 <= v0 (pos p) <= r_size g - dr g / 2 /\
  Rabs (v2 (vel p)) * dt <= z_size g - dz g /\ dz g / 2 <= v2 (pos p) <= z_size g - dz g / 2 /\
  v2 (vel (free_run g dt 1 p)) = - v2 (vel p) /\ v2 (vel p) <> 0.
Proof.
  exists sample_geom, 1, (Phase (V3 3 0 (31 / 2)) (V3 (1 / 2) 0 (3 / 4)) 0 0 0).
  assert (G := sample_geom_ok). rewrite sample_dr, sample_dz.
  repeat match goal with |- _ /\ _ => split end; try exact G; cbn [pos vel v0 v1 v2 n_r n_z r_size z_size sample_geom]; try lia; try lra.
  - rewrite Rabs_pos_eq; lra.
  - rewrite Rabs_pos_eq; lra.
  - cbn [free_run]. set (p := Phase _ _ _ _ _). assert (M := f_equal snd (move_axial sample_geom 1 p)).
    cbn [snd] in M. rewrite M, sample_dz. unfold p, bounce, reflect_above, reflect_below.
    cbn [pos vel v2 z_size sample_geom]. destruct (Rlt_dec _ _); [|lra]. destruct (Rlt_dec _ _); cbn; lra.
Qed.
