(** Model of the conversions of the analysis tools, tools/lib/parameters.py lines 201-243, and of the formulas of
    tools/quick_parameters_calculator.py lines 17-47.

    The conversions are given in real arithmetic and, for the time stamps, also in binary64 (rounding to nearest even at
    every operation, without overflow). The built-in round of Python rounds halves to the even neighbour. *)
From Coq Require Import Reals ZArith.
From Flocq Require Import Core.
Local Open Scope R_scope.

Definition py_round (x : R) : Z := ZnearestE x.

(** lines 201-203 *)
Definition get_frame_number_by_timestamp (step_interval timestamp dump_interval : R) : Z :=
  py_round (timestamp / step_interval / dump_interval).

(** lines 206-208 *)
Definition get_timestamp_by_frame_number (step_interval frame_number dump_interval : R) : R :=
  frame_number * step_interval * dump_interval.

(** lines 229-230 and 233-234: number_r_grid, r_size or number_z_grid, z_size *)
Definition get_row_by_radius (number size radius : R) : Z := py_round (radius * number / size).

(** lines 237-239 and 242-243 *)
Definition get_radius_by_row (number size row : R) : R := row * size / number.

(** ** The same in double precision *)

Definition rnd64 (x : R) : R := round radix2 (FLT_exp (-1074) 53) ZnearestE x.

Definition get_frame_number64 (step_interval timestamp dump_interval : R) : Z :=
  py_round (rnd64 (rnd64 (timestamp / step_interval) / dump_interval)).
Definition get_timestamp64 (step_interval frame_number dump_interval : R) : R :=
  rnd64 (rnd64 (frame_number * step_interval) * dump_interval).
Definition get_row64 (number size radius : R) : Z := py_round (rnd64 (rnd64 (radius * number) / size)).
Definition get_radius64 (number size row : R) : R := rnd64 (rnd64 (row * size) / number).

(** ** quick_parameters_calculator.py *)

(** lines 17-24 *)
Definition calc_charge_el : R := - (16 / 10 ^ 20).
Definition calc_mass_el : R := 91 / 10 ^ 32.
Definition calc_epsilon_0 : R := 88 / 10 ^ 13.
Definition langmur_freq (density : R) : R := sqrt (density * calc_charge_el ^ 2 / (calc_mass_el * calc_epsilon_0)).

(** lines 26-34 *)
Definition calc_boltzman : R := 138 / 10 ^ 25.
Definition calc_debye_length (density temperature : R) : R :=
  sqrt (calc_epsilon_0 * calc_boltzman * temperature / (4 * PI * density * calc_charge_el ^ 2)).

(** lines 36-38 *)
Definition eV2kelvin (ev : R) : R := ev * (116045221 / 10 ^ 4).

(** lines 40-43 *)
Definition wake_length (density beam_velocity : R) : R := 2 * PI * beam_velocity / langmur_freq density.

(** lines 57-58 and 70-71: what is printed as expected Debye length, for the mean density of the electrons and their
    temperature in electronvolts *)
Definition printed_debye (density temperature : R) : R := calc_debye_length density (eV2kelvin temperature).

(** lines 63-66 and 77: beam passage time *)
Definition beam_length (bunch_length number_bunches bunches_distance : R) : R :=
  bunch_length * number_bunches + bunches_distance * (number_bunches - 1).
Definition beam_passage_time (z_size bunch_length number_bunches bunches_distance velocity : R) : R :=
  z_size / velocity + beam_length bunch_length number_bunches bunches_distance / velocity.
