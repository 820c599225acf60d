(** Model of Particles::charge_weighting, src/particles.cpp lines 100-226, and of
    ChargeDensity, src/chargeDensity.cpp.

    The four calls of inc_rho made for one particle are returned as the list of
    increments, in program order. Simplifications: real arithmetic; the NaN/inf test of
    lines 122-127 can never fire on reals and is omitted; "0.5" is written [1/2]. *)
From Coq Require Import Reals ZArith List Bool.
From Verif.Lib Require Import RAux Grid.
From Verif.Model Require Import Constants Geometry.
Import ListNotations.
Local Open Scope R_scope.

(** One macroparticle as far as charge deposition is concerned:
    is_alive[i], charge_array[i], pos[i][0], pos[i][2]. *)
Record qpart := QPart { q_alive : bool; q_charge : R; q_r : R; q_z : R }.

(** Body of the loop for a live particle, src/particles.cpp lines 129-224. *)
Definition charge_weighting_single (g : geom) (charge r z : R) : list inc :=
  let dr := dr g in
  let dz := dz g in
  let r_i := cell r dr in
  let z_k := cell z dz in
  let dz1 := (IZR z_k + 1/2) * dz - (z - 1/2 * dz) in
  let dz2 := (z + 1/2 * dz) - (IZR z_k + 1/2) * dz in
  if Rlt_dec dr r then
    (* lines 138-165 *)
    let r1 := r - 1/2 * dr in
    let r2 := (IZR r_i + 1/2) * dr in
    let r3 := r + 1/2 * dr in
    let ro_v := charge / (2 * c_PI * dz * dr * r) in
    let v_1 := CELL_VOLUME (IZR r_i) dr dz in
    let v_2 := CELL_VOLUME (IZR r_i + 1) dr dz in
    [ Inc r_i z_k (ro_v * CYL_RNG_VOL dz1 r1 r2 / v_1);
      Inc (r_i + 1) z_k (ro_v * CYL_RNG_VOL dz1 r2 r3 / v_2);
      Inc r_i (z_k + 1) (ro_v * CYL_RNG_VOL dz2 r1 r2 / v_1);
      Inc (r_i + 1) (z_k + 1) (ro_v * CYL_RNG_VOL dz2 r2 r3 / v_2) ]
  else if Rle_dec r (dr / 2) then
    (* lines 166-195; r_i is reset to 0 *)
    let r_i := 0%Z in
    let r2 := (IZR r_i + 1/2) * dr in
    let r3 := r + 1/2 * dr in
    let ro_v := charge / (c_PI * dz * (2 * r * r + dr * dr / 2)) in
    let v_1 := CYL_VOL dz dr in
    let v_2 := CELL_VOLUME (IZR r_i + 1) dr dz in
    [ Inc r_i z_k (ro_v * c_PI * dz1 * (dr * dr / 2 - r * dr + r * r) / v_1);
      Inc (r_i + 1) z_k (ro_v * CYL_RNG_VOL dz1 r2 r3 / v_2);
      Inc r_i (z_k + 1) (ro_v * c_PI * dz2 * (dr * dr / 2 - r * dr + r * r) / v_1);
      Inc (r_i + 1) (z_k + 1) (ro_v * CYL_RNG_VOL dz2 r2 r3 / v_2) ]
  else
    (* lines 196-224 *)
    let r1 := r - 1/2 * dr in
    let r2 := (IZR r_i + 1/2) * dr in
    let r3 := r + 1/2 * dr in
    let ro_v := charge / (2 * c_PI * dz * dr * r) in
    let v_1 := CYL_VOL dz dr in
    let v_2 := CELL_VOLUME (IZR r_i + 1) dr dz in
    [ Inc r_i z_k (ro_v * CYL_RNG_VOL dz1 r1 r2 / v_1);
      Inc (r_i + 1) z_k (ro_v * CYL_RNG_VOL dz1 r2 r3 / v_2);
      Inc r_i (z_k + 1) (ro_v * CYL_RNG_VOL dz2 r1 r2 / v_1);
      Inc (r_i + 1) (z_k + 1) (ro_v * CYL_RNG_VOL dz2 r2 r3 / v_2) ].

(** One iteration of the particle loop with its test of is_alive, lines 119-120. *)
Definition charge_weighting_part (g : geom) (p : qpart) : list inc :=
  if q_alive p then charge_weighting_single g (q_charge p) (q_r p) (q_z p) else [].

(** The whole loop, lines 119-225: the density array after depositing all particles in
    index order into [rho] (ChargeDensity::inc_rho, src/chargeDensity.cpp lines 37-40). *)
Definition charge_weighting (g : geom) (rho : arr) (ps : list qpart) : arr :=
  fold_left (fun a p => apply_incs a (charge_weighting_part g p)) ps rho.

(** ChargeDensity::reset_rho, src/chargeDensity.cpp lines 42-48. *)
Definition reset_rho (g : geom) (rho : arr) : arr :=
  fun i k => if ((0 <=? i) && (i <? n_r g) && (0 <=? k) && (k <? n_z g))%Z then 0 else rho i k.
