(** Specification of charge continuity, independent of the deposition code.

    The control volume of node (i, k) is the ring of Spec/Cloud.v. Through its right face
    (at (k+1/2) dz, area node_area i) flows j_z(i,k), through its left face j_z(i,k-1),
    through its outer face (at (i+1/2) dr, area node_side i) j_r(i,k), through its inner
    face (area node_side (i-1), zero on the axis) j_r(i-1,k). *)
From Coq Require Import Reals ZArith.
From Verif.Lib Require Import RAux Grid.
From Verif.Model Require Import Constants.
From Verif.Spec Require Import Cloud.
Local Open Scope R_scope.

(** Charge that leaves the control volume of node (i, k) in the time dt. *)
Definition outflow (d_r d_z dt : R) (jr jz : arr) (i k : Z) : R :=
  dt * (node_area d_r i * (jz i k - jz i (k - 1)%Z)
        + node_side d_r d_z i * jr i k - node_side d_r d_z (i - 1) * jr (i - 1)%Z k).

(** The currents (jr, jz) balance the move of a charge q from (ro, zo) to (rn, zn): at every
    node, the charge share of the particle changes by minus the outflow. *)
Definition continuity (d_r d_z dt q : R) (jr jz : arr) (rn zn ro zo : R) : Prop :=
  forall i k : Z,
    q * share d_r d_z i k rn zn - q * share d_r d_z i k ro zo = - outflow d_r d_z dt jr jz i k.

(** The same for densities on the grid: the charge of every node (density times volume)
    changes by minus the outflow. *)
Definition charge_balance (d_r d_z dt : R) (rho_new rho_old jr jz : arr) : Prop :=
  forall i k : Z,
    (rho_new i k - rho_old i k) * node_volume d_r d_z i = - outflow d_r d_z dt jr jz i k.

(** ** Straight paths across cell borders *)

(** x is a multiple of d: a grid line of spacing d. *)
Definition on_line (d x : R) : Prop := exists n : Z, x = IZR n * d.

(** The point at parameter t of the straight path meets a grid line. *)
Definition crosses (d_r d_z rn zn ro zo t : R) : Prop :=
  0 < t < 1 /\ (on_line d_r (ro + t * (rn - ro)) \/ on_line d_z (zo + t * (zn - zo))).

(** The parameters that delimit the legs of the path: start, end, crossings. *)
Definition leg_end (d_r d_z rn zn ro zo t : R) : Prop :=
  t = 0 \/ t = 1 \/ crosses d_r d_z rn zn ro zo t.

(** Every leg is at least [m] long in both directions. *)
Definition legs_at_least (m d_r d_z rn zn ro zo : R) : Prop :=
  forall t t', leg_end d_r d_z rn zn ro zo t -> leg_end d_r d_z rn zn ro zo t' -> t < t' ->
    m <= (t' - t) * Rabs (rn - ro) /\ m <= (t' - t) * Rabs (zn - zo).

(** The path does not pass exactly through a grid node. *)
Definition avoids_nodes (d_r d_z rn zn ro zo : R) : Prop :=
  forall t, 0 < t < 1 -> on_line d_r (ro + t * (rn - ro)) -> ~ on_line d_z (zo + t * (zn - zo)).
