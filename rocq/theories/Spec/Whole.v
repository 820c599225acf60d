(** What is asked of a configuration, and what is claimed of a whole run. *)
From Coq Require Import Reals ZArith List.
From Verif.Lib Require Import RAux Grid Outcome.
From Verif.Model Require Import Constants Geometry ChargeDeposit CurrentDeposit Fields Pusher Motion Loading Bunch Dump Sim.
From Verif.Spec Require Import Dynamics Domain Continuity Maxwell.
Import ListNotations.
Local Open Scope R_scope.

(** A pusher that treats every particle relativistically. *)
Definition relativistic_pusher (p : pusher) : Prop := p = BorisRelativistic \/ p = Vay \/ p = BorisAdaptive true.

(** At least 3 x 3 nodes; light passes at most 4/5 of a cell across and less than a cell along the axis per step; the beam
    is slower than light, fits into the tube and consists of bunches of positive length. *)
Definition sound (su : setup) : Prop :=
  let g := su_geom su in
  let b := su_beam su in
  geom_ok g /\ (3 <= n_r g)%Z /\ (3 <= n_z g)%Z /\ 0 < su_dt su /\
  LIGHT_SPEED * su_dt su <= 4 / 5 * dr g /\ LIGHT_SPEED * su_dt su < dz g /\
  relativistic_pusher (su_pusher su) /\ su_frames su <> 0%Z /\
  0 < initial_velocity b < LIGHT_SPEED /\ 0 < bunch_length b /\ 0 <= bunches_distance b /\ (0 <= number_macro b)%Z /\
  dr g <= su_radius su <= r_size g /\
  (forall n, Z.of_nat (length (su_rand_r su n)) = number_macro b) /\
  (forall n x, In x (su_rand_r su n) -> 0 <= x < 1) /\ (forall n t i, 0 <= su_rand_z su n t i < 1).

(** A particle may start here: inside the domain, in the half-plane, slower than light. *)
Definition may_start (g : geom) (p : particle) : Prop :=
  v1 (pos (p_phase p)) = 0 /\ inside_domain g (p_r p) (p_z p) /\ subluminal (vel (p_phase p)).

(** The part of the program that removes bunches is not reached: a single bunch, or the run ends before the first
    bunch can have left the tube. *)
Definition no_removal (b : beam) (end_time : R) : Prop :=
  (number_bunches b <= 1)%Z \/
  end_time <= beam_z_size b / initial_velocity b + bunch_length b / initial_velocity b.

Definition all_particles (s : sim) : list particle := flat_map g_parts (s_groups s).

(** A live particle is on the grid, off the axis and slower than light. *)
Definition in_order (g : geom) (p : particle) : Prop :=
  p_alive p = true ->
  on_grid g (p_r p) (p_z p) /\ dr g / 2 <= p_r p /\ dz g / 2 <= p_z p <= z_size g - dz g / 2 /\
  subluminal (vel (p_phase p)).

(** The state when the main loop begins: species only, no bunch yet, every probe with a schedule. *)
Definition begins (g : geom) (s : sim) : Prop :=
  Forall (fun x => g_bunch x = None) (s_groups s) /\ s_bunch_number s = 0%Z /\
  Forall (may_start g) (all_particles s) /\ Forall (fun x => schedule (fst x) <> 0%Z) (s_probes s).

(** n iterations of the main loop from time t. *)
Fixpoint iterations (su : setup) (n : nat) (t : R) (s : sim) : outcome sim :=
  match n with
  | O => Ok s
  | S n' => bind (one_step su t s) (iterations su n' (t + su_dt su))
  end.

(** What a particle is, apart from where it is. *)
Definition nature (p : particle) : R * R := (p_charge p, p_mass p).

(** Nothing moves and there is no field: cold species, no beam, every array zero. *)
Definition at_rest (s : sim) : Prop :=
  (forall x, s_fields s x = 0) /\ (forall c i k, s_current s c i k = 0) /\
  Forall (fun p => p_alive p = true /\ vel (p_phase p) = vzero) (all_particles s).

(** Where the particles are and how they move, group by group. *)
Definition places (s : sim) : list (list (R * R * vec3)) :=
  map (fun x => map (fun p => (p_r p, p_z p, vel (p_phase p))) (g_parts x)) (s_groups s).

(** The charge density that the program's weighting gives for all particles together. *)
Definition charge_density (g : geom) (s : sim) : arr := charge_weighting g zero_arr (map q_of (all_particles s)).

(** A move of one step for which the deposited current is known to balance the charge (C05, C06): none at all, along the
    axis, along the radius within a cell, or oblique with legs of at least MNZL and not through a grid node. *)
Definition good_move (g : geom) (rn zn ro zo : R) : Prop :=
  dr g / 2 <= rn /\ dr g / 2 <= ro /\ 0 < zn /\ 0 < zo /\
  ((rn = ro /\ zn = zo) \/
   (rn = ro /\ MNZL <= Rabs (zn - zo) < dz g) \/
   (zn = zo /\ MNZL <= Rabs (rn - ro) /\ cell rn (dr g) = cell ro (dr g)) \/
   (Rabs (rn - ro) < dr g /\ Rabs (zn - zo) < dz g /\
    legs_at_least MNZL (dr g) (dz g) rn zn ro zo /\ avoids_nodes (dr g) (dz g) rn zn ro zo)).

(** The last move of a particle; pos_old is its position before the step. *)
Definition moved_well (g : geom) (p : particle) : Prop :=
  good_move g (p_r p) (p_z p) (r_old (p_phase p)) (z_old (p_phase p)).

(** Species only, all particles alive, no beam configured. *)
Definition species_only (su : setup) (s : sim) : Prop :=
  (number_bunches (su_beam su) <= 0)%Z /\ s_bunch_number s = 0%Z /\
  Forall (fun x => g_bunch x = None) (s_groups s) /\ Forall (fun p => p_alive p = true) (all_particles s).

(** Gauss's law at node (i, k), its defect. *)
Definition gauss_defect (su : setup) (s : sim) (i k : Z) : R :=
  let g := su_geom su in
  gauss_residual (dr g) (dz g) (epsilon (su_medium su)) (comp (s_fields s) ER) (comp (s_fields s) EZ) (charge_density g s) i k.

(** Particle number i of group number n. *)
Definition particle_at (s : sim) (n i : nat) : option particle :=
  match nth_error (s_groups s) n with Some x => nth_error (g_parts x) i | None => None end.

(** The particles of the beam. *)
Definition beam_particles (s : sim) : list particle :=
  flat_map (fun x => match g_bunch x with Some _ => g_parts x | None => [] end) (s_groups s).

(** The same configuration with field reads outside the arrays tolerated. *)
Definition tolerant (su : setup) : setup :=
  Setup (su_geom su) (su_medium su) (su_dt su) (su_pusher su) (su_frames su) (su_beam su) (su_charge su) (su_mass su)
    (su_radius su) (su_density su) (su_rand_r su) (su_rand_z su) false.
