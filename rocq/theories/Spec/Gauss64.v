(** Specification side of the two Gauss laws in double precision (C80). The laws themselves are those of Spec/Maxwell.v, for the real
    numbers that the doubles stand for. *)
From Coq Require Import Reals ZArith List.
From Flocq Require Import Core IEEE754.BinarySingleNaN.
From Verif.Lib Require Import RAux Grid.
From Verif.Model Require Import Constants Geometry Fields Binary64 Arith GenCode GenFields.
From Verif.Spec Require Import Cloud Continuity Maxwell Poynting Field64.
Import ListNotations.
Local Open Scope R_scope.

Section Gauss64.
Variables pw lg : b64 -> b64.
Notation A := (b64_arith pw lg).
Notation finite x := (@is_finite prec64 emax64 x = true).
Notation real x := (@B2R prec64 emax64 x).

(** ** Sizes *)

(** Bounds of electric field, magnetic field and current density. *)
Definition electric (x : loc) : bool := match x with (ER, _, _) | (EPHI, _, _) | (EZ, _, _) => true | _ => false end.
Definition fields_within (BE BH : R) (g : ggeom A) (m : gmem A) : Prop :=
  forall x, free (real_geom pw lg g) x -> finite (m x) /\ Rabs (real (m x)) <= (if electric x then BE else BH).
Definition currents_within (BJ : R) (g : ggeom A) (j : gcurrents A) : Prop :=
  forall i k, (0 <= i < gn_r A g)%Z -> (0 <= k < gn_z A g)%Z ->
    finite (gcur_r A j i k) /\ Rabs (real (gcur_r A j i k)) <= BJ /\ finite (gcur_z A j i k) /\ Rabs (real (gcur_z A j i k)) <= BJ.
(** A bound is admissible when squares of it and of its inverse are far from the ends of the range of double. *)
Definition moderate (b : R) : Prop := bpow radix2 (-440) <= b <= bpow radix2 499.

(** The magnetic field through the walls, which no step changes. *)
Definition wall_face (g : geom) (x : loc) : Prop :=
  match x with
  | (HR, i, k) => (i = n_r g - 1 /\ 0 <= k < n_z g - 1)%Z
  | (HZ, i, k) => (0 <= i < n_r g - 1 /\ (k = 0 \/ k = n_z g - 1))%Z
  | _ => False
  end.
Definition finite_faces (g : ggeom A) (m : gmem A) : Prop := forall x, wall_face (real_geom pw lg g) x -> finite (m x).

(** Time that light needs for a metre. *)
Definition slowness : R := sqrt (EPSILON0 * MAGN_CONST).

(** ** The magnetic law *)

(** Net magnetic flux out of the ring between rows i and i + 1, columns k and k + 1, and the surface of that ring. *)
Definition flux (g : ggeom A) (m : gmem A) (i k : Z) : R :=
  magnetic_flux (real (gdr A g)) (real (gdz A g)) (comp (real_fields pw lg m) HR) (comp (real_fields pw lg m) HZ) i k.
Definition ring_surface (g : ggeom A) (i : Z) : R :=
  let d_r := real (gdr A g) in let d_z := real (gdz A g) in
  2 * PI * ((IZR i + 1) * d_r) * d_z + 2 * PI * (IZR i * d_r) * d_z
  + 2 * (PI * ((IZR i + 1) * d_r * ((IZR i + 1) * d_r) - IZR i * d_r * (IZR i * d_r))).
(** What one step may add to the flux. *)
Definition flux_slack (g : ggeom A) (BE BH : R) (i : Z) : R :=
  27 * bpow radix2 (-53) * ring_surface g i * (BH + 4 * (slowness / MAGN_CONST) * BE).

(** ** The electric law *)

(** Residual of Gauss's law at node (i, k), and the surface of the control volume of the node. *)
Definition residual (g : ggeom A) (md : gmedium A) (m : gmem A) (rho : arr) (i k : Z) : R :=
  gauss_residual (real (gdr A g)) (real (gdz A g)) (epsilon (real_medium pw lg md))
    (comp (real_fields pw lg m) ER) (comp (real_fields pw lg m) EZ) rho i k.
Definition node_surface (g : ggeom A) (i : Z) : R :=
  let d_r := real (gdr A g) in let d_z := real (gdz A g) in
  2 * node_area d_r i + node_side d_r d_z i + node_side d_r d_z (i - 1).
(** No conductivity. *)
Definition nonconducting (g : ggeom A) (md : gmedium A) : Prop :=
  forall i k, (0 <= i < gn_r A g)%Z -> (0 <= k < gn_z A g)%Z -> real (gsigma A md i k) = 0.
(** The charge of node (i, k) changes by minus the outflow, up to eps. *)
Definition balance_upto (eps : R) (g : ggeom A) (dt : b64) (rho_new rho_old : arr) (j : gcurrents A) (i k : Z) : Prop :=
  Rabs ((rho_new i k - rho_old i k) * node_volume (real (gdr A g)) (real (gdz A g)) i
        + outflow (real (gdr A g)) (real (gdz A g)) (real dt) (cur_r (real_currents pw lg j)) (cur_z (real_currents pw lg j)) i k) <= eps.
(** What one step may add to the residual apart from that. *)
Definition gauss_slack (g : ggeom A) (dt : b64) (K BE BH BJ : R) (i : Z) : R :=
  27 * bpow radix2 (-53) * node_surface g i * (2 * EPSILON0 * K * BE + real dt * BJ + 4 * slowness * BH).

(** ** Whole runs *)

(** All states on the way are within the bounds. *)
Fixpoint always_within (BE BH : R) (g : ggeom A) (md : gmedium A) (dt : b64) (js : list (gcurrents A)) (m : gmem A) : Prop :=
  fields_within BE BH g m /\ match js with [] => True | j :: js' => always_within BE BH g md dt js' (gfield_step A g md dt j m) end.
(** A history of the charge: before each step the density rho, with each step the currents, the density after it, and how well they
    balance. *)
Record event : Type := Event { e_current : gcurrents A; e_rho : arr; e_eps : R }.
Fixpoint balanced (g : ggeom A) (dt : b64) (rho : arr) (h : list event) (i k : Z) : Prop :=
  match h with
  | [] => True
  | e :: h' => balance_upto (e_eps e) g dt (e_rho e) rho (e_current e) i k /\ balanced g dt (e_rho e) h' i k
  end.
Fixpoint last_rho (rho : arr) (h : list event) : arr := match h with [] => rho | e :: h' => last_rho (e_rho e) h' end.
Fixpoint total_eps (h : list event) : R := match h with [] => 0 | e :: h' => e_eps e + total_eps h' end.
End Gauss64.
