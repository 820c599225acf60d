(** Specification side of the field solver, independent of its code.

    Positions on the grid (d_r, d_z are the steps): E_r at ((i+1/2) d_r, k d_z), E_phi at
    (i d_r, k d_z), E_z at (i d_r, (k+1/2) d_z), H_r at (i d_r, (k+1/2) d_z), H_phi at
    ((i+1/2) d_r, (k+1/2) d_z), H_z at ((i+1/2) d_r, k d_z). The cavity has n_r x n_z nodes,
    its metal walls are the planes k = 0 and k = n_z - 1 and the cylinder i = n_r - 1. *)
From Coq Require Import Reals ZArith List.
From Verif.Lib Require Import RAux Grid.
From Verif.Model Require Import Constants Geometry Fields.
From Verif.Spec Require Import Cloud Continuity.
Import ListNotations.
Local Open Scope R_scope.

(** One array of the field memory. *)
Definition comp (m : fmem) (a : farr) : arr := fun i k => m (a, i, k).

(** ** Magnetic flux *)

(** Net flux of H out of the ring i d_r <= r <= (i+1) d_r, k d_z <= z <= (k+1) d_z:
    outer minus inner mantle, right minus left face. *)
Definition magnetic_flux (d_r d_z : R) (hr hz : arr) (i k : Z) : R :=
  let r_in := IZR i * d_r in
  let r_out := (IZR i + 1) * d_r in
  2 * PI * r_out * d_z * hr (i + 1)%Z k - 2 * PI * r_in * d_z * hr i k
  + PI * (r_out * r_out - r_in * r_in) * (hz i (k + 1)%Z - hz i k).

(** ** Gauss's law *)

(** Flux of eps0 eps E out of the control volume of node (i, k) (see Spec/Continuity.v)
    minus the charge in it. *)
Definition gauss_residual (d_r d_z : R) (eps er ez rho : arr) (i k : Z) : R :=
  EPSILON0 * (node_area d_r i * (eps i k * ez i k - eps i (k - 1)%Z * ez i (k - 1)%Z)
              + node_side d_r d_z i * (eps i k * er i k)
              - node_side d_r d_z (i - 1) * (eps (i - 1)%Z k * er (i - 1)%Z k))
  - rho i k * node_volume d_r d_z i.

(** Nodes that are neither on the outer wall nor on an end wall (the axis is included). *)
Definition free_node (g : geom) (i k : Z) : Prop :=
  (0 <= i < n_r g - 1)%Z /\ (1 <= k < n_z g - 1)%Z.

(** The charge of node (i, k) changes by minus the outflow. *)
Definition balance_at (d_r d_z dt : R) (rho_new rho_old jr jz : arr) (i k : Z) : Prop :=
  (rho_new i k - rho_old i k) * node_volume d_r d_z i = - outflow d_r d_z dt jr jz i k.

(** ** Metal walls *)

(** Components tangential to a wall, and the azimuthal field on the axis. *)
Definition wall_location (g : geom) (x : loc) : Prop :=
  match x with
  | (ER, i, k) => (0 <= i < n_r g - 1)%Z /\ (k = 0 \/ k = n_z g - 1)%Z
  | (EPHI, i, k) => ((0 <= i < n_r g) /\ (k = 0 \/ k = n_z g - 1))%Z \/
                    ((0 <= k < n_z g) /\ (i = 0 \/ i = n_r g - 1))%Z
  | (EZ, i, k) => (i = n_r g - 1 /\ 0 <= k < n_z g - 1)%Z
  | _ => False
  end.

Definition conducting (g : geom) (m : fmem) : Prop := forall x, wall_location g x -> m x = 0.

(** ** Energy *)

Definition sum2 (lo1 hi1 lo2 hi2 : Z) (f : Z -> Z -> R) : R :=
  zsum (fun i => zsum (fun k => f i k) lo2 hi2) lo1 hi1.

(** Volume of the ring i d_r <= r <= (i+1) d_r of length d_z: the volume that belongs to
    E_r, H_phi and H_z. To E_phi, E_z and H_r belongs [node_volume]. *)
Definition half_volume (d_r d_z : R) (i : Z) : R :=
  c_PI * ((IZR i + 1) * d_r * ((IZR i + 1) * d_r) - IZR i * d_r * (IZR i * d_r)) * d_z.

(** Electric and magnetic energies as bilinear forms. The sums run over the components that
    are not fixed by a wall. *)
Definition electric_form (g : geom) (eps : arr) (m m' : fmem) : R :=
  EPSILON0 / 2 *
  (sum2 0 (n_r g - 1) 1 (n_z g - 1)
     (fun i k => half_volume (dr g) (dz g) i * (eps i k * m (ER, i, k) * m' (ER, i, k)))
   + sum2 1 (n_r g - 1) 1 (n_z g - 1)
     (fun i k => node_volume (dr g) (dz g) i * (eps i k * m (EPHI, i, k) * m' (EPHI, i, k)))
   + sum2 0 (n_r g - 1) 0 (n_z g - 1)
     (fun i k => node_volume (dr g) (dz g) i * (eps i k * m (EZ, i, k) * m' (EZ, i, k)))).

Definition magnetic_form (g : geom) (m m' : fmem) : R :=
  MAGN_CONST / 2 *
  (sum2 0 (n_r g - 1) 0 (n_z g - 1)
     (fun i k => node_volume (dr g) (dz g) i * (m (HR, i, k) * m' (HR, i, k)))
   + sum2 0 (n_r g - 1) 0 (n_z g - 1)
     (fun i k => half_volume (dr g) (dz g) i * (m (HPHI, i, k) * m' (HPHI, i, k)))
   + sum2 0 (n_r g - 1) 1 (n_z g - 1)
     (fun i k => half_volume (dr g) (dz g) i * (m (HZ, i, k) * m' (HZ, i, k)))).

Definition electric_energy (g : geom) (eps : arr) (m : fmem) : R := electric_form g eps m m.
Definition magnetic_energy (g : geom) (m : fmem) : R := magnetic_form g m m.

(** Energy of the leap-frog scheme: the electric field at time n, the magnetic fields at
    the times n - 1/2 (memory m) and n + 1/2 (memory m'). *)
Definition leapfrog_energy (g : geom) (eps : arr) (m m' : fmem) : R :=
  electric_energy g eps m + magnetic_form g m m'.

(** No currents. *)
Definition no_current : currents3 := Cur3 zero_arr zero_arr zero_arr.

(** ** Distance *)

(** Agreement of two field memories in all locations of array set [P] within n cells of (i, k). *)
Definition agree_near (P : farr -> Prop) (n : Z) (i k : Z) (m m' : fmem) : Prop :=
  forall a i' k', P a -> (Z.abs (i' - i) <= n)%Z -> (Z.abs (k' - k) <= n)%Z ->
    m (a, i', k') = m' (a, i', k').

Definition is_field (a : farr) : Prop :=
  match a with ER | EPHI | EZ | HR | HPHI | HZ => True | _ => False end.

(** The two polarisations. *)
Definition tm_field (a : farr) : Prop := match a with ER | EZ | HPHI => True | _ => False end.
Definition te_field (a : farr) : Prop := match a with HR | HZ | EPHI => True | _ => False end.
