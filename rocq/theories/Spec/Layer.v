(** Absorbing layers as the user describes them: fractions of the system adjacent to the left wall,
    the right wall and the outer wall. Independent of the model. *)
From Coq Require Import Reals.
Local Open Scope R_scope.

(** The point (r, z) of a system of size [rs] x [zs] is outside the left and right layers. *)
Definition outside_ends (zs l1 l2 z : R) : Prop := l1 * zs < z /\ l2 * zs < zs - z.

(** ... and farther from the outer wall than the fraction l3 of the system widened by one cell [dr]. *)
Definition outside_outer (rs dr l3 r : R) : Prop := l3 * (rs + dr) < rs - r.
