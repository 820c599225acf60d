(** Model of a particle bunch, src/bunch.cpp lines 6-130, and of the creation of bunches,
    src/loadInitParam.cpp lines 168-248. *)
From Coq Require Import Reals ZArith List Bool.
From Verif.Lib Require Import RAux Outcome Par.
From Verif.Model Require Import Constants Geometry Loading.
Import ListNotations.
Local Open Scope R_scope.

(** The members of class Bunch that injection uses (include/bunch.h lines 23-29 and
    Particles::number). *)
Record bunch := BunchOf { b_number : Z; b_duration : R; b_bunch_number : R; b_hole : R; b_velocity : R }.

(** src/bunch.cpp line 41: radial position *)
Definition bunch_r (g : geom) (radius rand_r : R) : R := (radius - dr g) * rand_r + dr g / 2.

(** lines 50-53: volume counted in v_total *)
Definition bunch_volume (g : geom) (r : R) : R :=
  if Rlt_dec (dr g) r then 2 * c_PI * r * dr g * dz g else c_PI * r * r * dz g.

(** lines 28-75: the constructor, positions, charges and masses. *)
Definition bunch_load (g : geom) (charge mass duration radius density velocity : R) (rands : list R) : list macro :=
  let number := INR (length rands) in
  let b_lenght := duration * velocity in
  let N_total := c_PI * radius ^ 2 * b_lenght * density in
  let v_total := rsum (map (fun x => bunch_volume g (bunch_r g radius x)) rands) in
  let v_avg := v_total / number in
  let n_per_macro_avg := N_total / number in
  map (fun x =>
         let r := bunch_r g radius x in
         let n_per_macro := n_per_macro_avg * (norm_volume g r / v_avg) in
         Macro r 0 (charge * n_per_macro) (mass * n_per_macro)) rands.

(** Conversion of a double to int: truncation towards zero. *)
Definition truncZ (x : R) : Z := if Rle_dec 0 x then floorZ x else ceilZ x.

(** One assignment of bunch_inject: index, new z position, new axial velocity; the particle
    becomes alive. *)
Record injection := Inject { in_index : Z; in_z : R; in_vz : R }.

(** lines 87-124: bunch_inject at time t. [rnd] is the random source. Division of number by
    steps_amount = 0 is undefined. Simplification: conversions to int do not overflow. The
    "break" of the single-threaded build only skips iterations that do nothing. *)
Definition bunch_inject (g : geom) (b : bunch) (dt t : R) (rnd : Z -> R) : outcome (list injection) :=
  let bunch_time_begin := b_duration b * b_bunch_number b + b_hole b * b_bunch_number b in
  let bunch_time_end := bunch_time_begin + b_duration b in
  let dl := b_velocity b * dt in
  let steps_amount := ceilZ (b_duration b / dt) in
  if (steps_amount =? 0)%Z then UB else
  let particles_in_step := (b_number b / steps_amount)%Z in
  let start_number := truncZ ((t - bunch_time_begin) / dt * IZR particles_in_step) in
  let half_z_cell_size := dz g / 2 in
  Ok (if Rle_dec bunch_time_begin t then
        if Rlt_dec t bunch_time_end then
          flat_map (fun i => if (i + start_number <? b_number b)%Z
                             then [Inject (i + start_number) (dl * rnd i + half_z_cell_size) (b_velocity b)] else [])
                   (zrange 0 particles_in_step)
        else []
      else []).

(** ** src/loadInitParam.cpp lines 168-248: init_beam *)

(** Configuration: params->bunch_lenght, beam_bunches_distance, beam_initial_velocity,
    beam_number_bunches, bunch_number_macro, geom->z_size. *)
Record beam := Beam { bunch_length : R; bunches_distance : R; initial_velocity : R;
                      number_bunches : Z; number_macro : Z; beam_z_size : R }.

Definition duration_of (c : beam) : R := bunch_length c / initial_velocity c.
Definition hole_of (c : beam) : R := bunches_distance c / initial_velocity c.

(** The state: current_bunch_number and c_bunches (the bunch numbers in order). *)
Record beam_state := BeamState { current_bunch_number : Z; c_bunches : list Z }.

(** lines 185-218: with more than one bunch in the list, reaching line 199 for any of them reads
    the uninitialised loop variable i. *)
Definition erase_reached (c : beam) (t : R) (s : beam_state) : bool :=
  let estimated := (t - beam_z_size c / initial_velocity c - duration_of c) / (duration_of c + hole_of c) in
  (1 <? Z.of_nat (length (c_bunches s)))%Z &&
  existsb (fun n => if Rlt_dec (IZR n) estimated then true else false) (c_bunches s).

(** lines 219-243: creation *)
Definition create_bunch (c : beam) (t : R) (s : beam_state) : beam_state :=
  let bunch_inject_time := IZR (current_bunch_number s) * (duration_of c + hole_of c) in
  if Rle_dec bunch_inject_time t then
    if (current_bunch_number s <? number_bunches c)%Z
    then BeamState (current_bunch_number s + 1) (c_bunches s ++ [current_bunch_number s])
    else s
  else s.

(** lines 168-243; the injection of lines 246-247 does not change this state. *)
Definition init_beam (c : beam) (t : R) (s : beam_state) : outcome beam_state :=
  if erase_reached c t s then UB else Ok (create_bunch c t s).

(** Class Bunch seen by bunch_inject for bunch number n. *)
Definition bunch_of (c : beam) (n : Z) : bunch :=
  BunchOf (number_macro c) (duration_of c) (IZR n) (hole_of c) (initial_velocity c).

(** The calls of bunch_inject for one bunch made by the main loop (src/loadInitParam.cpp lines
    455-589: one call per step, current_time += delta_t), one random source per step. *)
Fixpoint inject_run (g : geom) (b : bunch) (dt t : R) (rnds : list (Z -> R)) : outcome (list injection) :=
  match rnds with
  | [] => Ok []
  | rnd :: rest =>
      (do l <- bunch_inject g b dt t rnd;
       do l' <- inject_run g b dt (t + dt) rest;
       Ok (l ++ l'))%outcome
  end.

(** The calls of init_beam made by n steps of the main loop starting at time t. *)
Fixpoint beam_run (c : beam) (dt t : R) (n : nat) (s : beam_state) : outcome beam_state :=
  match n with
  | O => Ok s
  | S n' => (do s' <- init_beam c t s; beam_run c dt (t + dt) n' s')%outcome
  end.
