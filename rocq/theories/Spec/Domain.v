(** The simulation domain, independent of the mover. *)
From Coq Require Import Reals ZArith List.
From Verif.Model Require Import Geometry Pusher Motion.
Import ListNotations.
Local Open Scope R_scope.

(** At least half a cell away from every wall and from the axis. *)
Definition inside_domain (g : geom) (r z : R) : Prop :=
  dr g / 2 <= r <= r_size g - dr g / 2 /\ dz g / 2 <= z <= z_size g - dz g / 2.

(** On the grid. *)
Definition on_grid (g : geom) (r z : R) : Prop := 0 <= r <= r_size g /\ 0 <= z <= z_size g.

(** A velocity with which the particle moves at most [s] across and strictly less than half a
    cell along the axis in half a time step. *)
Definition slow (g : geom) (dt s : R) (v : vec3) : Prop :=
  (v0 v * v0 v + v1 v * v1 v) * (dt / 2 * (dt / 2)) <= s * s /\ Rabs (v2 v) * dt < dz g.

(** Any number of steps; the pusher may give the particle any velocity before each step. *)
Definition motion_run (g : geom) (dt : R) (vs : list vec3) (p : phase) : phase :=
  fold_left (fun p v => move g dt (set_vel v p)) vs p.

(** What is true of the particle between steps: it lies in the half-plane, at least half a cell
    from the axis and the end walls, and its radius exceeds the reflecting radius by at most
    the effect of a sideways displacement s. *)
Definition nearly_inside (g : geom) (s : R) (p : phase) : Prop :=
  v1 (pos p) = 0 /\ dr g / 2 <= v0 (pos p) /\
  v0 (pos p) * v0 (pos p) <= (r_size g - dr g / 2) * (r_size g - dr g / 2) + s * s /\
  dz g / 2 <= v2 (pos p) <= z_size g - dz g / 2.
