(** Specification side of the stability of the field solver in double precision (C77). *)
From Coq Require Import Reals ZArith List.
From Flocq Require Import Core IEEE754.BinarySingleNaN.
From Verif.Lib Require Import RAux Grid.
From Verif.Model Require Import Constants Geometry Fields Binary64 Arith GenCode GenFields.
From Verif.Spec Require Import Maxwell Poynting.
Local Open Scope R_scope.

Section Field64.
Variables pw lg : b64 -> b64.
Notation A := (b64_arith pw lg).
Notation finite x := (@is_finite prec64 emax64 x = true).
Notation real x := (@B2R prec64 emax64 x).

(** The real numbers that the doubles stand for. The cell sizes are the ones that the program divides by. *)
Definition real_geom (g : ggeom A) : geom :=
  Geom (gn_r A g) (gn_z A g) (real (gdr A g) * IZR (gn_r A g - 1)) (real (gdz A g) * IZR (gn_z A g - 1)).
Definition real_medium (md : gmedium A) : medium := Medium (fun i k => real (gepsilon A md i k)) (fun i k => real (gsigma A md i k)).
Definition real_fields (m : gmem A) : fmem := fun x => real (m x).
Definition real_currents (j : gcurrents A) : currents3 :=
  Cur3 (fun i k => real (gcur_r A j i k)) (fun i k => real (gcur_phi A j i k)) (fun i k => real (gcur_z A j i k)).

(** Grid, medium and time step: finite and of moderate size; light passes less than a cell in a step, with the margin theta; K bounds
    the polarisation and the conduction of the medium. *)
Record steady (g : ggeom A) (md : gmedium A) (dt : b64) (theta K : R) : Prop := Steady {
  fs_nr : (2 <= gn_r A g <= 2 ^ 20)%Z;
  fs_nz : (2 <= gn_z A g <= 2 ^ 20)%Z;
  fs_fdr : finite (gdr A g);
  fs_fdz : finite (gdz A g);
  fs_dr : bpow radix2 (-30) <= real (gdr A g) <= bpow radix2 10;
  fs_dz : bpow radix2 (-30) <= real (gdz A g) <= bpow radix2 10;
  fs_fdt : finite dt;
  fs_dt : bpow radix2 (-80) <= real dt <= 1;
  fs_medium : forall i k, (0 <= i < gn_r A g)%Z -> (0 <= k < gn_z A g)%Z ->
    finite (gepsilon A md i k) /\ 1 <= real (gepsilon A md i k) <= bpow radix2 20 /\
    finite (gsigma A md i k) /\ 0 <= real (gsigma A md i k) <= bpow radix2 40;
  fs_theta : bpow radix2 (-10) <= theta <= 1;
  fs_courant : real dt * real dt * (4 / 3 / (real (gdr A g) * real (gdr A g)) + 1 / (real (gdz A g) * real (gdz A g)))
               <= (1 - theta) * (EPSILON0 * MAGN_CONST);
  fs_K : forall i k, (0 <= i < gn_r A g)%Z -> (0 <= k < gn_z A g)%Z ->
    real (gepsilon A md i k) + real (gsigma A md i k) * real dt / (2 * EPSILON0) <= K;
  fs_K1 : 1 <= K;
  fs_margin : K <= theta * bpow radix2 41 }.

(** The components that the solver computes from one another, and the components that the metal walls keep at zero. *)
Definition free (g : geom) (x : loc) : Prop :=
  match x with
  | (ER, i, k) => (0 <= i < n_r g - 1 /\ 1 <= k < n_z g - 1)%Z
  | (EPHI, i, k) => (1 <= i < n_r g - 1 /\ 1 <= k < n_z g - 1)%Z
  | (EZ, i, k) => (0 <= i < n_r g - 1 /\ 0 <= k < n_z g - 1)%Z
  | (HR, i, k) | (HPHI, i, k) => (0 <= i < n_r g - 1 /\ 0 <= k < n_z g - 1)%Z
  | (HZ, i, k) => (0 <= i < n_r g - 1 /\ 1 <= k < n_z g - 1)%Z
  | _ => False
  end.
Definition finite_fields (g : ggeom A) (m : gmem A) : Prop := forall x, free (real_geom g) x -> finite (m x).
Definition walled (g : ggeom A) (m : gmem A) : Prop := forall x, wall_location (real_geom g) x -> finite (m x) /\ real (m x) = 0.
Definition finite_currents (g : ggeom A) (j : gcurrents A) : Prop :=
  forall i k, (0 <= i < gn_r A g)%Z -> (0 <= k < gn_z A g)%Z -> finite (gcur_r A j i k) /\ finite (gcur_phi A j i k) /\ finite (gcur_z A j i k).

(** The energy of the fields that the doubles stand for. *)
Definition energy (g : ggeom A) (md : gmedium A) (dt : b64) (m : gmem A) : R :=
  leapfrog_energy (real_geom g) (epsilon (real_medium md)) (real_fields m) (calc_hfield (real_geom g) (real dt) (real_fields m)).

(** What the root of the energy may grow to in the steps with the currents js: what it could grow to without rounding (C76), a floor of
    2^-300 per step, and a factor near one per step. *)
Definition growth (theta K : R) : R := 1 + K / theta * bpow radix2 (-43).
Definition budget (g : ggeom A) (md : gmedium A) (dt : b64) (theta K : R) (js : list (gcurrents A)) (m : gmem A) : R :=
  growth theta K ^ length js *
  (sqrt (energy g md dt m) + real dt / sqrt (2 * theta * EPSILON0) * total_size (real_geom g) (map real_currents js)
   + INR (length js) * bpow radix2 (-300)).
End Field64.
