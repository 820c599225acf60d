(** Model of field interpolation at a particle: EField::get_field, src/eField.cpp lines
    204-316, and HField::get_field, src/hField.cpp lines 159-267.

    Each component is a sum of four terms "array element times weight"; the terms are kept
    as a list (array element, weight) so that memory accesses are visible. Simplification:
    real arithmetic; field * CYL_RNG_VOL / vol is written field * (CYL_RNG_VOL / vol). *)
From Coq Require Import Reals ZArith List.
From Verif.Lib Require Import RAux Grid Outcome.
From Verif.Model Require Import Constants Geometry Fields Pusher.
Import ListNotations.
Local Open Scope R_scope.

(** The four terms; lines 238-248 of eField.cpp and the same pattern elsewhere. *)
Definition corner_terms (a : farr) (i k : Z) (dz1 dz2 r1 r2 r3 vol_1 vol_2 : R) : list (loc * R) :=
  [ ((a, i, k), CYL_RNG_VOL dz1 r1 r2 / vol_1);
    ((a, (i + 1)%Z, k), CYL_RNG_VOL dz1 r2 r3 / vol_2);
    ((a, i, (k + 1)%Z), CYL_RNG_VOL dz2 r1 r2 / vol_1);
    ((a, (i + 1)%Z, (k + 1)%Z), CYL_RNG_VOL dz2 r2 r3 / vol_2) ].

(** Cells shifted by half a cell in r; whole cells in z: E_r (eField.cpp lines 223-248), and
    H_z (hField.cpp lines 178-203). *)
Definition terms_half_r (a : farr) (g : geom) (r z : R) : list (loc * R) :=
  let dr := dr g in let dz := dz g in
  let i_r := cell (r - 1/2 * dr) dr in
  let k_z := cell z dz in
  corner_terms a i_r k_z ((IZR k_z + 1) * dz - z) (z - IZR k_z * dz)
    (r - 1/2 * dr) ((IZR i_r + 1) * dr) (r + 1/2 * dr)
    (CELL_VOLUME (IZR i_r + 1) dr dz) (CELL_VOLUME (IZR i_r + 3) dr dz).

(** Volume of the inner cell used for components at whole radial nodes:
    eField.cpp lines 259-262, 291-294; hField.cpp lines 214-217. *)
Definition vol_inner (dr dz r : R) (i_r : Z) : R :=
  if Rlt_dec dr r then CELL_VOLUME (IZR i_r) dr dz else CYL_VOL dz dr.

(** Whole cells in r; cells shifted by half a cell in z: E_z (eField.cpp lines 250-279), and
    H_r (hField.cpp lines 205-235). *)
Definition terms_half_z (a : farr) (g : geom) (r z : R) : list (loc * R) :=
  let dr := dr g in let dz := dz g in
  let i_r := cell r dr in
  let k_z := cell (z - 1/2 * dz) dz in
  corner_terms a i_r k_z ((IZR k_z + 3/2) * dz - z) (z - (IZR k_z + 1/2) * dz)
    (r - 1/2 * dr) ((IZR i_r + 1/2) * dr) (r + 1/2 * dr)
    (vol_inner dr dz r i_r) (CELL_VOLUME (IZR i_r + 2) dr dz).

(** Whole cells in both directions: E_phi (eField.cpp lines 281-311). *)
Definition terms_whole (a : farr) (g : geom) (r z : R) : list (loc * R) :=
  let dr := dr g in let dz := dz g in
  let i_r := cell r dr in
  let k_z := cell z dz in
  corner_terms a i_r k_z ((IZR k_z + 1) * dz - z) (z - IZR k_z * dz)
    (r - 1/2 * dr) ((IZR i_r + 1/2) * dr) (r + 1/2 * dr)
    (vol_inner dr dz r i_r) (CELL_VOLUME (IZR i_r + 2) dr dz).

(** Cells shifted in both directions: H_phi (hField.cpp lines 237-262). *)
Definition terms_half_both (a : farr) (g : geom) (r z : R) : list (loc * R) :=
  let dr := dr g in let dz := dz g in
  let i_r := cell (r - 1/2 * dr) dr in
  let k_z := cell (z - 1/2 * dz) dz in
  corner_terms a i_r k_z ((IZR k_z + 3/2) * dz - z) (z - (IZR k_z + 1/2) * dz)
    (r - 1/2 * dr) ((IZR i_r + 1) * dr) (r + 1/2 * dr)
    (CELL_VOLUME (IZR i_r + 1) dr dz) (CELL_VOLUME (IZR i_r + 3) dr dz).

(** The sum of the terms: er = 0; er = er + ... *)
Definition weighted_sum (m : fmem) (l : list (loc * R)) : R :=
  fold_left (fun s t => s + m (fst t) * snd t) l 0.

Definition e_terms (g : geom) (r z : R) : list (list (loc * R)) :=
  [terms_half_r ER g r z; terms_whole EPHI g r z; terms_half_z EZ g r z].
Definition h_terms (g : geom) (r z : R) : list (list (loc * R)) :=
  [terms_half_z HRH g r z; terms_half_both HPHIH g r z; terms_half_r HZH g r z].

(** EField::get_field and HField::get_field *)
Definition get_efield (g : geom) (m : fmem) (r z : R) : vec3 :=
  V3 (weighted_sum m (terms_half_r ER g r z)) (weighted_sum m (terms_whole EPHI g r z))
     (weighted_sum m (terms_half_z EZ g r z)).
Definition get_hfield (g : geom) (m : fmem) (r z : R) : vec3 :=
  V3 (weighted_sum m (terms_half_z HRH g r z)) (weighted_sum m (terms_half_both HPHIH g r z))
     (weighted_sum m (terms_half_r HZH g r z)).

(** The array elements read for a particle at (r, z). *)
Definition interp_reads (g : geom) (r z : R) : list loc :=
  map fst (concat (e_terms g r z ++ h_terms g r z)).
