(** Model of the start-up checks, src/limitationsChecker.cpp, and of their use in
    src/loadInitParam.cpp lines 121-125.

    The square roots of the constructor may have a negative argument; their value is then not a
    number, and every comparison with it is false. Other numbers are reals. *)
From Coq Require Import Reals ZArith String List Bool.
From Verif.Lib Require Import RAux Outcome.
From Verif.Model Require Import Constants Geometry.
Import ListNotations.
Local Open Scope R_scope.
Local Open Scope outcome_scope.

Inductive num := Num (x : R) | NaN.

Definition lift1 (f : R -> R) (a : num) : num := match a with Num x => Num (f x) | NaN => NaN end.
Definition num_sqrt (x : R) : num := if Rlt_dec x 0 then NaN else Num (sqrt x).
(** a > b, a < b *)
Definition gt (a b : num) : bool :=
  match a, b with Num x, Num y => if Rlt_dec y x then true else false | _, _ => false end.
Definition lt (a b : num) : bool := gt b a.
(** std::min *)
Definition num_min (a b : num) : num := if lt b a then b else a.

(** include/parameters.h: struct particle_specie, the members used here. *)
Record specie := Specie {
  sp_name : string; sp_macro : R; sp_left : R; sp_right : R; sp_temperature : R }.

(** What the checker reads of the parameters: geom, time->delta_t, particle_species. *)
Record config := Config { cf_geom : geom; cf_dt : R; cf_species : list specie }.

(** src/limitationsChecker.cpp lines 17-19 *)
Definition electron_name (s : string) : bool :=
  (String.eqb s "Electrons" || String.eqb s "electrons" || String.eqb s "electron")%bool.

(** lines 13-24: (number_macro, electron_density, electron_temperature) *)
Definition scan (s : R * R * R) (p : specie) : R * R * R :=
  let '(nm, n, t) := s in
  if electron_name (sp_name p)
  then (nm + sp_macro p, (sp_left p + sp_right p) / 2, sp_temperature p)
  else (nm + sp_macro p, n, t).

Record checker := Checker { plasma_freq : num; debye_length : num; number_macro : R }.

(** lines 5-35. [nm0] is the value of the member number_macro before the loop: it is never
    initialised. *)
Definition new_checker (nm0 : R) (l : list specie) : outcome checker :=
  let '(nm, n, t) := fold_left scan l (nm0, 0, 0) in
  if Req_EM_T n 0 then Exit 1
  else if Req_EM_T t 0 then Exit 1
  else Ok (Checker (num_sqrt (n * EL_CHARGE * EL_CHARGE / (EL_MASS * EPSILON0)))
                   (lift1 (Rmult 7400) (num_sqrt (t / n))) nm).

(** lines 37-61 *)
Definition check_velocity_time_step (c : config) (k : checker) : outcome bool :=
  let max_time_c := num_min (Num (dr (cf_geom c) / LIGHT_SPEED)) (Num (dz (cf_geom c) / LIGHT_SPEED)) in
  let max_time_wp := lift1 (fun w => 2 / w / 100) (plasma_freq k) in
  let max_time := num_min max_time_c max_time_wp in
  if gt (Num (cf_dt c)) max_time then Exit 1 else Ok true.

(** lines 63-83: the same comparison twice *)
Definition check_grid_size (c : config) (k : checker) : outcome bool :=
  if (gt (Num (dr (cf_geom c))) (lift1 (fun l => l * 50) (debye_length k))
      || gt (Num (dr (cf_geom c))) (lift1 (fun l => l * 50) (debye_length k)))%bool
  then Exit 1 else Ok true.

(** lines 85-117 *)
Definition check_system_size (c : config) (k : checker) : outcome bool :=
  if (lt (Num (r_size (cf_geom c))) (lift1 (fun l => l * 100) (debye_length k))
      || lt (Num (z_size (cf_geom c))) (lift1 (fun l => l * 100) (debye_length k)))%bool
  then Exit 1
  else if (gt (Num (r_size (cf_geom c))) (lift1 (fun l => l * number_macro k * 100) (debye_length k))
      || gt (Num (z_size (cf_geom c))) (lift1 (fun l => l * number_macro k * 100) (debye_length k)))%bool
  then Exit 1
  else Ok true.

(** lines 119-136: only a warning; the radius is used twice *)
Definition check_macro_number (c : config) (k : checker) : bool :=
  negb (gt (Num (r_size (cf_geom c) * r_size (cf_geom c) * 10)) (Num (number_macro k))).

(** src/loadInitParam.cpp lines 121-125: the program continues exactly when the result is [Ok]. *)
Definition init_checks (nm0 : R) (c : config) : outcome bool :=
  do k <- new_checker nm0 (cf_species c);
  do _ <- check_velocity_time_step c k;
  do _ <- check_grid_size c k;
  do _ <- check_system_size c k;
  Ok (check_macro_number c k).
