(** Free motion in a straight line, seen in cylindrical coordinates. At time 0 the particle is at distance r from the axis and height z;
    vr, vphi, vz are the components of its velocity there. Independent of the code. *)
From Coq Require Import Reals.
Local Open Scope R_scope.

(** Cartesian axes: x through the particle at time 0, y across. *)
Definition line_x (r vr t : R) : R := r + vr * t.
Definition line_y (vphi t : R) : R := vphi * t.
Definition line_radius (r vr vphi t : R) : R := sqrt (line_x r vr t * line_x r vr t + line_y vphi t * line_y vphi t).
Definition line_height (z vz t : R) : R := z + vz * t.
(** The velocity away from the axis at time t: the part of the (constant) velocity along the radius *)
Definition line_outward (r vr vphi t : R) : R := (vr * line_x r vr t + vphi * line_y vphi t) / line_radius r vr vphi t.
(** The velocity around the axis at time t: the part of the (constant) velocity across the radius *)
Definition line_around (r vr vphi t : R) : R := (vphi * line_x r vr t - vr * line_y vphi t) / line_radius r vr vphi t.
