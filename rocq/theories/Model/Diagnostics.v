(** Model of the density and temperature diagnostics: src/particlesDensity.cpp,
    src/temperatureClassic.cpp and src/temperature.cpp.

    The increments made for one particle are lists, in program order. Simplifications: real
    arithmetic, except that 0/0 (a node without particles) is not-a-number; "0.5" is written [1/2];
    abs is the absolute value; lib::sq_rt is the square root. Allocation is modelled separately from
    the contents of the arrays: [density_constructor], [density_reset] and [temperature_constructor] are the
    traces of writes checked against the allocated extents, whereas [calc_density] and [calc_t] compute
    with arrays that have room for every index. *)
From Coq Require Import Reals ZArith List Bool.
From Verif.Lib Require Import RAux Grid Outcome Vec.
From Verif.Model Require Import Constants Geometry Pusher Limits.
Import ListNotations.
Local Open Scope R_scope.
Local Open Scope outcome_scope.

(** ** Allocation *)

(** A write to element [i] of an array with [size] elements. *)
Definition checked_write (size i : Z) (o : outcome unit) : outcome unit :=
  do _ <- o; if ((0 <=? i) && (i <? size))%Z then Ok tt else UB.

(** src/particlesDensity.cpp lines 6-25: n_grid_r - 1 row pointers are allocated and n_grid_r are stored. *)
Definition density_constructor (g : geom) : outcome unit :=
  for_up 0 (n_r g) (fun i => checked_write (n_r g - 1) i) (Ok tt).

(** src/particlesDensity.cpp lines 28-42, supposing all row pointers exist: each row has n_grid_z - 1
    elements (line 18) and n_grid_z are written. *)
Definition density_reset (g : geom) : outcome unit :=
  for_up 0 (n_r g) (fun _ => for_up 0 (n_z g) (fun j => checked_write (n_z g - 1) j)) (Ok tt).

(** src/temperatureClassic.cpp lines 14-38 and src/temperature.cpp lines 14-38: the arrays t and
    t_src. *)
Definition temperature_constructor (g : geom) : outcome unit :=
  for_up 0 (n_r g) (fun i o => checked_write (n_r g - 1) i (checked_write (n_r g - 1) i o)) (Ok tt).

(** ** Cloud weights *)

(** Conversion to unsigned int: the cell number of a coordinate 0 is -1. *)
Definition u32 (c : Z) : Z := (c mod 4294967296)%Z.

(** The value of v_0 and the four quotients "value" with the elements they are added to:
    src/particlesDensity.cpp lines 72-73 and 81-242, src/temperature.cpp lines 85-86 and 94-248 (the
    two texts agree in this part). *)
Definition cloud (g : geom) (r z : R) : R * list inc :=
  let dr := dr g in
  let dz := dz g in
  let r_i := u32 (CELL_NUMBER r dr) in
  let z_k := u32 (CELL_NUMBER z dz) in
  let dz1 := (IZR z_k + 1/2) * dz - (z - 1/2 * dz) in
  let dz2 := (z + 1/2 * dz) - (IZR z_k + 1/2) * dz in
  if Rlt_dec dr r then
    let r1 := r - 1/2 * dr in
    let r2 := (IZR r_i + 1/2) * dr in
    let r3 := r + 1/2 * dr in
    let v_1 := CELL_VOLUME (IZR r_i) dr dz in
    let v_2 := CELL_VOLUME (IZR (u32 (r_i + 1))) dr dz in
    (2 * c_PI * dz * dr * r,
     [ Inc r_i z_k (CYL_RNG_VOL dz1 r1 r2 / v_1);
       Inc (u32 (r_i + 1)) z_k (CYL_RNG_VOL dz1 r2 r3 / v_2);
       Inc r_i (u32 (z_k + 1)) (CYL_RNG_VOL dz2 r1 r2 / v_1);
       Inc (u32 (r_i + 1)) (u32 (z_k + 1)) (CYL_RNG_VOL dz2 r2 r3 / v_2) ])
  else if Rle_dec r (dr / 2) then
    let r_i := 0%Z in
    let r2 := (IZR r_i + 1/2) * dr in
    let r3 := r + 1/2 * dr in
    let v_1 := CYL_VOL dz dr in
    let v_2 := CELL_VOLUME (IZR (u32 (r_i + 1))) dr dz in
    (c_PI * dz * (2 * r * r + dr * dr / 2),
     [ Inc r_i z_k (c_PI * dz1 * (dr * dr / 2 - r * dr + r * r) / v_1);
       Inc (u32 (r_i + 1)) z_k (CYL_RNG_VOL dz1 r2 r3 / v_2);
       Inc r_i (u32 (z_k + 1)) (c_PI * dz2 * (dr * dr / 2 - r * dr + r * r) / v_1);
       Inc (u32 (r_i + 1)) (u32 (z_k + 1)) (CYL_RNG_VOL dz2 r2 r3 / v_2) ])
  else
    let r1 := r - 1/2 * dr in
    let r2 := (IZR r_i + 1/2) * dr in
    let r3 := r + 1/2 * dr in
    let v_1 := CYL_VOL dz dr in
    let v_2 := CELL_VOLUME (IZR (u32 (r_i + 1))) dr dz in
    (2 * c_PI * dz * dr * r,
     [ Inc r_i z_k (CYL_RNG_VOL dz1 r1 r2 / v_1);
       Inc (u32 (r_i + 1)) z_k (CYL_RNG_VOL dz1 r2 r3 / v_2);
       Inc r_i (u32 (z_k + 1)) (CYL_RNG_VOL dz2 r1 r2 / v_1);
       Inc (u32 (r_i + 1)) (u32 (z_k + 1)) (CYL_RNG_VOL dz2 r2 r3 / v_2) ]).

(** The calls inc(row, column, ro * value) with ro = quantity / v_0. *)
Definition cloud_incs (g : geom) (quantity r z : R) : list inc :=
  map (fun c => Inc (row c) (col c) (quantity / fst (cloud g r z) * val c)) (snd (cloud g r z)).

(** A macroparticle as the diagnostics see it: is_alive[i], mass_array[i], pos[i][0], pos[i][2],
    vel[i]. The first member is never consulted by them. *)
Record dpart := DPart { d_alive : bool; d_mass : R; d_r : R; d_z : R; d_vel : vec3 }.

(** ** Density *)

(** src/particlesDensity.cpp lines 69-243 for one particle: ro_p = mass_array[i] / EL_MASS / v_0. *)
Definition density_incs (g : geom) (p : dpart) : list inc :=
  cloud_incs g (d_mass p / EL_MASS) (d_r p) (d_z p).

(** src/particlesDensity.cpp lines 44-244; the array is reset first (line 46). *)
Definition calc_density (g : geom) (ps : list dpart) : arr :=
  apply_incs zero_arr (flat_map (density_incs g) ps).

(** ** Temperature *)

(** The arrays t_sum, t_vec_r, t_vec_phi, t_vec_z, count_sum. *)
Record moments := Moments { t_sum : arr; t_vec_r : arr; t_vec_phi : arr; t_vec_z : arr; count_sum : arr }.

(** src/temperatureClassic.cpp line 92, src/temperature.cpp line 92 *)
Definition speed_of (v : vec3) : R := sqrt (v0 v * v0 v + v1 v * v1 v + v2 v * v2 v).

(** src/temperatureClassic.cpp lines 85-98: the element that the particle is counted in *)
Definition classic_inc (g : geom) (x : R) (p : dpart) : list inc :=
  [Inc (u32 (CELL_NUMBER (d_r p) (dr g))) (u32 (CELL_NUMBER (d_z p) (dz g))) x].

(** src/temperatureClassic.cpp lines 57-101 *)
Definition calc_t_classic (g : geom) (ps : list dpart) : moments :=
  let sum f := apply_incs zero_arr (flat_map (fun p => classic_inc g (f p) p) ps) in
  Moments (sum (fun p => speed_of (d_vel p))) (sum (fun p => v0 (d_vel p))) (sum (fun p => v1 (d_vel p)))
          (sum (fun p => v2 (d_vel p))) (sum (fun _ => 1)).

(** src/temperature.cpp lines 57-250 *)
Definition calc_t_weighted (g : geom) (mass : R) (ps : list dpart) : moments :=
  let sum f := apply_incs zero_arr (flat_map (fun p => cloud_incs g (f p) (d_r p) (d_z p)) ps) in
  Moments (sum (fun p => d_mass p * speed_of (d_vel p))) (sum (fun p => d_mass p * v0 (d_vel p)))
          (sum (fun p => d_mass p * v1 (d_vel p))) (sum (fun p => d_mass p * v2 (d_vel p)))
          (sum (fun p => d_mass p / mass)).

(** The sum of the squares of the vector sums, src/temperatureClassic.cpp lines 133-134,
    src/temperature.cpp lines 282-283 *)
Definition vec_sum_2 (m : moments) (i k : Z) : R :=
  t_vec_r m i k * t_vec_r m i k + t_vec_phi m i k * t_vec_phi m i k + t_vec_z m i k * t_vec_z m i k.

(** src/temperatureClassic.cpp lines 133-148, one element of t_src; a count of zero makes line 136 a 0/0,
    which all later lines hand on. *)
Definition normalize_classic (mass charge : R) (m : moments) (i k : Z) : outcome num :=
  if Req_EM_T (count_sum m i k) 0 then Ok NaN
  else
    let v_sc_sum_2 := (t_sum m i k * t_sum m i k - vec_sum_2 m i k) / (count_sum m i k * count_sum m i k) in
    do t <- (if Rlt_dec v_sc_sum_2 REL_LIMIT_POW_2 then Ok (mass * v_sc_sum_2 / 2)
             else do gamma <- get_gamma v_sc_sum_2; Ok (mass * LIGHT_SPEED_POW_2 * (gamma - 1)));
    Ok (Num (t / Rabs charge)).

(** src/temperature.cpp lines 282-295 *)
Definition normalize_weighted (mass charge : R) (m : moments) (i k : Z) : num :=
  if Req_EM_T (count_sum m i k) 0 then NaN
  else
    let p_sum_2 := vec_sum_2 m i k in
    let t := if Rlt_dec p_sum_2 (REL_LIMIT_POW_2 * mass * mass)
             then (t_sum m i k * t_sum m i k - p_sum_2) / (2 * mass * count_sum m i k * count_sum m i k)
             else let mc_2 := mass * LIGHT_SPEED_POW_2 in
                  sqrt ((t_sum m i k * t_sum m i k - p_sum_2) * LIGHT_SPEED_POW_2
                        / (count_sum m i k * count_sum m i k) + mc_2 * mc_2) - mc_2 in
    Num (t / Rabs charge).
