(** Specification side of charge and current deposition.

    Independent of the deposition code: a macroparticle at (r, z) is a ring-shaped
    cloud of uniform charge density with r-dr/2 <= radius <= r+dr/2 and
    z-dz/2 <= length <= z+dz/2. The grid node (i, k) stands for the ring of radii
    (i-1/2) dr .. (i+1/2) dr (starting at 0 for i = 0) and lengths (k-1/2) dz .. (k+1/2) dz.
    The share of the particle that belongs to a node is the fraction of the cloud's volume
    inside the node's ring. Volumes of rings are differences of squared radii times pi. *)
From Coq Require Import Reals ZArith.
From Verif.Lib Require Import RAux Grid.
From Verif.Model Require Import Constants.
Local Open Scope R_scope.

(** Length of the intersection of the intervals [a,b] and [c,d]. *)
Definition overlap (a b c d : R) : R := Rmax 0 (Rmin b d - Rmax a c).

(** Inner and outer radius of the ring of node row i (empty for negative rows). *)
Definition node_inner (d_r : R) (i : Z) : R := if (i <=? 0)%Z then 0 else (IZR i - 1/2) * d_r.
Definition node_outer (d_r : R) (i : Z) : R := if (i <? 0)%Z then 0 else (IZR i + 1/2) * d_r.

(** Fraction of the cloud's cross-section that falls into the ring of row i (r >= dr/2). *)
Definition share_r (d_r : R) (i : Z) (r : R) : R :=
  overlap ((r - d_r/2) * (r - d_r/2)) ((r + d_r/2) * (r + d_r/2))
          (node_inner d_r i * node_inner d_r i) (node_outer d_r i * node_outer d_r i)
  / ((r + d_r/2) * (r + d_r/2) - (r - d_r/2) * (r - d_r/2)).

(** Fraction of the cloud's length that falls into column k. *)
Definition share_z (d_z : R) (k : Z) (z : R) : R :=
  overlap (z - d_z/2) (z + d_z/2) ((IZR k - 1/2) * d_z) ((IZR k + 1/2) * d_z) / d_z.

(** Fraction of the particle that belongs to node (i, k). *)
Definition share (d_r d_z : R) (i k : Z) (r z : R) : R := share_r d_r i r * share_z d_z k z.

(** Cross-section (normal to the axis) and volume of the ring of node row i. *)
Definition node_area (d_r : R) (i : Z) : R :=
  c_PI * (node_outer d_r i * node_outer d_r i - node_inner d_r i * node_inner d_r i).
Definition node_volume (d_r d_z : R) (i : Z) : R := node_area d_r i * d_z.

(** Lateral surface between the rings of rows i and i+1. *)
Definition node_side (d_r d_z : R) (i : Z) : R := 2 * c_PI * node_outer d_r i * d_z.

(** Total charge represented by a density array. *)
Definition grid_charge (nr nz : Z) (d_r d_z : R) (rho : arr) : R :=
  total nr nz (node_volume d_r d_z) rho.
