(** Notions for the density and temperature diagnostics. Independent of the model. *)
From Coq Require Import Reals ZArith.
Local Open Scope R_scope.

(** The point (r, z) is in the cell (i, k) of a grid with cells [dr] x [dz]. *)
Definition inside_cell (dr dz : R) (i k : Z) (r z : R) : Prop :=
  IZR i * dr < r <= (IZR i + 1) * dr /\ IZR k * dz < z <= (IZR k + 1) * dz.

(** The cloud of a particle at (r, z) touches the node (i, k). *)
Definition near_node (dr dz : R) (i k : Z) (r z : R) : Prop :=
  Rabs (IZR i * dr - r) <= dr /\ Rabs (IZR k * dz - z) <= dz.
