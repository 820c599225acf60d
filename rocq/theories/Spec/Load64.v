(** Specification side of the loading in double precision (C82, C83). *)
From Coq Require Import Reals ZArith List.
From Flocq Require Import Core IEEE754.BinarySingleNaN.
From Verif.Lib Require Import RAux Grid Outcome Par.
From Verif.Model Require Import Binary64 Temperature64 Arith Geometry Fields Pusher GenCode GenRun GenSim GenLoad.
From Verif.Spec Require Import Field64 Short Double Loop64.
Import ListNotations.
Local Open Scope R_scope.

(** What is asked of pow(b, -k): the error is below 2^-50 (C libraries have 2^-53). *)
Definition good_ipow (ipow : Z -> Z -> b64) : Prop :=
  forall b k, (2 <= b <= 16)%Z -> (1 <= k <= 31)%Z -> is_finite (ipow b k) = true /\ Rabs (B2R (ipow b k) * IZR b ^ Z.to_nat k - 1) <= bpow radix2 (-50).

(** What is asked of pow(x, -0.5) where the value matters: the error is below 2^-50 (C libraries have 2^-52 or better). *)
Definition accurate_pow (pw : b64 -> b64) : Prop :=
  forall x : b64, is_finite x = true -> 1 / 2 <= B2R x -> is_finite (pw x) = true /\ Rabs (B2R (pw x) * sqrt (B2R x) - 1) <= bpow radix2 (-50).

(** A random number: not negative, and below one by 2^-36 or more. *)
Definition fraction (x : b64) : Prop := is_finite x = true /\ 0 <= B2R x <= 1 - bpow radix2 (-36).

(** Densities at the two ends: not both zero, of a size for which the squares are doubles, equal or different by a thousandth or more. *)
Definition density_size (n : R) : Prop := n = 0 \/ bpow radix2 (-100) <= n <= bpow radix2 100.
Definition densities (n1 n2 : b64) : Prop :=
  is_finite n1 = true /\ is_finite n2 = true /\ density_size (B2R n1) /\ density_size (B2R n2) /\ (0 < B2R n1 \/ 0 < B2R n2) /\
  (B2R n1 = B2R n2 \/ Rmax (B2R n1) (B2R n2) / 1024 <= Rabs (B2R n2 - B2R n1)).

Section Load64.
Variables pw lg : b64 -> b64.
Notation A := (b64_arith pw lg).
Notation real x := (@B2R prec64 emax64 x).

(** The number of the physical particles: mean density times the volume of the tube. [pi] is the decimal constant of the code. *)
Definition physical (g : ggeom A) (n1 n2 : b64) : R :=
  let pi := 31415926535897932 / 10000000000000000 in
  (B2R n1 + B2R n2) / 2 * (pi * real (gr_size A g) ^ 2 * real (gz_size A g)).

(** Charge and mass of one physical particle. *)
Definition physical_particle (charge mass : b64) : Prop :=
  is_finite charge = true /\ is_finite mass = true /\ bpow radix2 (-200) <= B2R mass <= bpow radix2 100 /\
  bpow radix2 (-100) <= Rabs (B2R charge) <= bpow radix2 49 * B2R mass.

(** What is drawn for the velocity: an energy below 2^100 eV and three random numbers between -1 and 1. *)
Definition drawn (d : draw A) : Prop :=
  let unit (x : b64) := is_finite x = true /\ -1 <= B2R x <= 1 in
  (@is_finite prec64 emax64 (d_energy A d) = true /\ 0 <= real (d_energy A d) <= bpow radix2 100) /\
  unit (g0 A (d_rnd A d)) /\ unit (g1 A (d_rnd A d)) /\ unit (g2 A (d_rnd A d)).

(** One species as it is loaded *)
Record species := Species { sp_n1 : b64; sp_n2 : b64; sp_charge : b64; sp_mass : b64; sp_draws : list (draw A) }.
Record loadable (g : ggeom A) (x : species) : Prop := Loadable {
  ld_densities : densities (sp_n1 x) (sp_n2 x);
  ld_particle : physical_particle (sp_charge x) (sp_mass x);
  ld_one : 1 <= physical g (sp_n1 x) (sp_n2 x);
  ld_some : (1 <= Z.of_nat (length (sp_draws x)) < 2 ^ 31)%Z;
  ld_draws : Forall drawn (sp_draws x) }.
Definition loaded (ipow : Z -> Z -> b64) (g : ggeom A) (x : species) (ps : list (gparticle A)) : Prop :=
  gload_group A ipow g (sp_n1 x) (sp_n2 x) (sp_charge x) (sp_mass x) (sp_draws x) = Some ps.

(** A bunch: charge and mass of one particle, duration, radius, density, velocity, and one entry for each macroparticle. *)
Record bunch64 := Bunch64 { bn_charge : b64; bn_mass : b64; bn_duration : b64; bn_radius : b64; bn_density : b64; bn_velocity : b64; bn_draws : list (draw A) }.
(** Density times volume of the cylinder *)
Definition bunch_physical (x : bunch64) : R :=
  let pi := 31415926535897932 / 10000000000000000 in pi * B2R (bn_radius x) ^ 2 * (B2R (bn_duration x) * B2R (bn_velocity x)) * B2R (bn_density x).
(** As thick as a cell or more, and two cells away from the last node or more. *)
Record bunchable (g : ggeom A) (x : bunch64) : Prop := Bunchable {
  bb_grid : (4 <= gn_r A g)%Z /\ (4 <= gn_z A g)%Z;
  bb_particle : physical_particle (bn_charge x) (bn_mass x);
  bb_radius : is_finite (bn_radius x) = true /\ real (gdr A g) <= B2R (bn_radius x) <= IZR (gn_r A g - 2) * real (gdr A g);
  bb_duration : is_finite (bn_duration x) = true /\ bpow radix2 (-100) <= B2R (bn_duration x) <= bpow radix2 100;
  bb_velocity : is_finite (bn_velocity x) = true /\ bpow radix2 (-100) <= B2R (bn_velocity x) <= 300000000;
  bb_density : is_finite (bn_density x) = true /\ bpow radix2 (-100) <= B2R (bn_density x) <= bpow radix2 100;
  bb_one : 1 <= bunch_physical x;
  bb_some : (1 <= Z.of_nat (length (bn_draws x)) < 2 ^ 31)%Z }.
Definition bunch_loaded (ipow : Z -> Z -> b64) (g : ggeom A) (x : bunch64) (ps : list (gparticle A)) : Prop :=
  gbunch_load A ipow g (bn_charge x) (bn_mass x) (bn_duration x) (bn_radius x) (bn_density x) (bn_velocity x) (bn_draws x) = Some ps.

(** Species, fields at the start, and a configuration for n steps; Q bounds the charge of a macroparticle. The conditions on grid, step, medium and fields
    are those of C79. *)
Definition population (xs : list species) : R := rsum (map (fun x => INR (length (sp_draws x))) xs).
Definition beam (c : config A) : list (gparticle A) := flat_map (c_bunch A c) (zrange 0 (c_bunches A c)).
Record plasma (c : config A) (n : nat) (f : gmem A) (xs : list species) (theta K Q : R) : Prop := Plasma {
  pl_pusher : c_pusher A c = BorisRelativistic \/ c_pusher A c = BorisAdaptive true;
  pl_fine : fine pw lg (c_geom A c) (c_dt A c);
  pl_clear_r : clear_axis pw lg (gn_r A (c_geom A c)) (gdr A (c_geom A c));
  pl_clear_z : clear_axis pw lg (gn_z A (c_geom A c)) (gdz A (c_geom A c));
  pl_step_r : 300000000 * real (c_dt A c) <= real (gdr A (c_geom A c)) / 40;
  pl_step_z : 300000000 * real (c_dt A c) <= real (gdz A (c_geom A c)) / 40;
  pl_metre : real (gdr A (c_geom A c)) <= 1;
  pl_steady : steady pw lg (c_geom A c) (c_medium A c) (c_dt A c) theta K;
  pl_mild : mild pw lg (bpow radix2 100) (c_geom A c) f;
  pl_walled : walled pw lg (c_geom A c) f;
  pl_Q : bpow radix2 (-200) <= Q <= bpow radix2 200;
  pl_species : Forall (fun x => loadable (c_geom A c) x /\ 2 * (Rabs (B2R (sp_charge x)) * physical (c_geom A c) (sp_n1 x) (sp_n2 x)) <= Q) xs;
  pl_beam : Forall (laden pw lg Q) (beam c);
  pl_many : population xs + INR (length (beam c)) <= bpow radix2 46;
  pl_charge : INR n * ((population xs + INR (length (beam c))) * Q) <= bpow radix2 30;
  pl_steps : INR n * (K / theta) <= bpow radix2 42 }.

(** A beam of loaded bunches in n steps from time t: bunch k is loaded from [bs k] with duration, velocity and number of macroparticles of the
    configuration; Q bounds the charge of a macroparticle. The other conditions are those on the clock of [beam_ok]. *)
Record fired (ipow : Z -> Z -> b64) (c : config A) (n : nat) (t : b64) (bs : Z -> bunch64) (Q : R) : Prop := Fired {
  fd_bunch : forall k, (0 <= k < c_bunches A c)%Z -> bunchable (c_geom A c) (bs k) /\ bunch_loaded ipow (c_geom A c) (bs k) (c_bunch A c k);
  fd_same : forall k, (0 <= k < c_bunches A c)%Z -> bn_velocity (bs k) = c_velocity A c /\ bn_duration (bs k) = c_duration A c /\ Z.of_nat (length (bn_draws (bs k))) = c_macro A c;
  fd_charge : forall k, (0 <= k < c_bunches A c)%Z -> 5 * (Rabs (B2R (bn_charge (bs k))) * bunch_physical (bs k)) <= Q;
  fd_random : c_rand A c = Reverse A (ginject_rand A ipow);
  fd_steps : (ceil_int A (div A (c_duration A c) (c_dt A c)) <> 0)%Z;
  fd_hole : @is_finite prec64 emax64 (c_hole A c) = true /\ 0 <= real (c_hole A c);
  fd_short : bpow radix2 (-300) <= real (c_dt A c);
  fd_clock : forall i, (i < n)%nat -> is_finite (time pw lg c i t) = true /\ 0 <= B2R (time pw lg c i t) <= bpow radix2 30 * real (c_dt A c);
  fd_bunches : (c_bunches A c < 2 ^ 53)%Z;
  fd_erase : forall i nb, (i < n)%nat -> (0 <= nb <= c_bunches A c)%Z -> erase_reached A c (time pw lg c i t) nb = false }.
End Load64.
