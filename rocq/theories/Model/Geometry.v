(** Model of include/geometry.h and of the constructor in src/geometry.cpp. *)
From Coq Require Import Reals ZArith Lia Lra.
From Verif.Lib Require Import RAux.
From Verif.Model Require Import Constants.
Local Open Scope R_scope.

(** include/geometry.h lines 5-12 (class Geometry, the scalar members).
    The arrays epsilon and sigma are separate, see Model/Fields.v and Model/Pml.v. *)
Record geom := Geom { n_r : Z; n_z : Z; r_size : R; z_size : R }.

(** src/geometry.cpp lines 45-48, get_dr *)
Definition dr (g : geom) : R := r_size g / IZR (n_r g - 1).

(** src/geometry.cpp lines 50-53, get_dz *)
Definition dz (g : geom) : R := z_size g / IZR (n_z g - 1).

(** include/geometry.h: #define CELL_VOLUME(i, dr, dz) PI * (dz) * (dr) * (dr) * 2.0 * (i) *)
Definition CELL_VOLUME (i d_r d_z : R) : R := c_PI * d_z * d_r * d_r * 2 * i.

(** include/geometry.h: #define CYL_RNG_VOL(z, r1, r2) PI * (z) * ((r2) * (r2) - (r1) * (r1)) *)
Definition CYL_RNG_VOL (z r1 r2 : R) : R := c_PI * z * (r2 * r2 - r1 * r1).

(** include/geometry.h: #define CYL_VOL(z, r) PI * (z) * (r) * (r) / 4. *)
Definition CYL_VOL (z r : R) : R := c_PI * z * r * r / 4.

(** include/geometry.h: #define CELL_NUMBER(position, dx) (int)ceil((position) / (dx)) - 1
    The conversion to int is exact here (integers are unbounded in the model). *)
Definition CELL_NUMBER (position dx : R) : Z := (ceilZ (position / dx) - 1)%Z.

(** The correction applied after every use of CELL_NUMBER, e.g. src/particles.cpp
    lines 134-135: if (r_i < 0) r_i = 0; *)
Definition cell (position dx : R) : Z :=
  let c := CELL_NUMBER position dx in if (c <? 0)%Z then 0%Z else c.

(** A geometry on which dr and dz are meaningful: at least two nodes in each
    direction and positive sizes. *)
Definition geom_ok (g : geom) : Prop :=
  (2 <= n_r g)%Z /\ (2 <= n_z g)%Z /\ 0 < r_size g /\ 0 < z_size g.
