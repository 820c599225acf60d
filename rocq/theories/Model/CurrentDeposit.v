(** Model of the current deposition of src/particles.cpp:
    simple_current_distribution (lines 333-474), current_distribution (476-686),
    azimuthal_current_distribution (688-784), strict_motion_weighting (786-988), and of
    class Current, src/current.cpp lines 104-136.

    The inc_j_r / inc_j_phi / inc_j_z calls made for one particle are returned as a list
    in program order. Simplifications: real arithmetic; [abs] is the floating-point
    absolute value; "0.5" is written [1/2], "0.25" [1/4]. *)
From Coq Require Import Reals ZArith List Bool.
From Verif.Lib Require Import RAux Grid.
From Verif.Model Require Import Constants Geometry.
Import ListNotations.
Local Open Scope R_scope.

(** Which array of class Current is incremented. *)
Inductive jcomp := J_R | J_PHI | J_Z.

Definition jcomp_eqb (a b : jcomp) : bool :=
  match a, b with J_R, J_R | J_PHI, J_PHI | J_Z, J_Z => true | _, _ => false end.

(** One call of inc_j_r, inc_j_phi or inc_j_z, src/current.cpp lines 107-123. *)
Record jinc := JInc { j_comp : jcomp; j_inc : inc }.

Definition inc_j_r (i k : Z) (v : R) : jinc := JInc J_R (Inc i k v).
Definition inc_j_phi (i k : Z) (v : R) : jinc := JInc J_PHI (Inc i k v).
Definition inc_j_z (i k : Z) (v : R) : jinc := JInc J_Z (Inc i k v).

(** The three arrays j_r, j_phi, j_z. *)
Definition currents := jcomp -> arr.

Definition apply_jinc (j : currents) (c : jinc) : currents :=
  fun x => if jcomp_eqb x (j_comp c) then apply_inc (j x) (j_inc c) else j x.

Definition apply_jincs (j : currents) (l : list jinc) : currents := fold_left apply_jinc l j.

(** The increments of one component, in order. *)
Definition comp_incs (c : jcomp) (l : list jinc) : list inc :=
  map j_inc (filter (fun x => jcomp_eqb c (j_comp x)) l).

(** include/particles.h lines 169-178 *)
Definition DENSITY_STRICT (q r d_r d_z dt : R) : R := q / (c_PI * 4 * r * d_z * d_z * d_r * dt).
Definition DENSITY_R (q r d_r d_z dt : R) : R := q / (2 * c_PI * r * d_r * d_z * dt * 2 * d_r).
Definition DENSITY_Z (q r d_r d_z dt : R) : R := q / (2 * c_PI * r * d_r * d_z * dt * d_z).

(** src/particles.cpp lines 333-474: simple_current_distribution. *)
Definition simple_current (g : geom) (dt q r_new z_new r_old z_old : R) (i_n k_n : Z) : list jinc :=
  let dr := dr g in
  let dz := dz g in
  let delta_r := r_new - r_old in
  let delta_z := z_new - z_old in
  if Rlt_dec (Rabs delta_r) MNZL then [] else
  if Rlt_dec (Rabs delta_z) MNZL then [] else
  if (1 <=? i_n)%Z then
    (* lines 357-413 *)
    let k := delta_r / delta_z in
    let b := r_old in
    let i := IZR i_n in
    let wz0 := DENSITY_R q (i * dr) dr dz dt
      * (dr * delta_z - k * delta_z * delta_z / 2 - delta_z * b
         + dr * dr / k * ((i + 1/2) * (i + 1/2) - 1/4) * ln ((k * delta_z + b) / b)) in
    let wz1 := DENSITY_R q ((i + 1) * dr) dr dz dt
      * (k * delta_z * delta_z / 2 + delta_z * b + delta_z * dr
         + dr * dr / k * (1/4 - (i + 1/2) * (i + 1/2)) * ln ((k * delta_z + b) / b)) in
    let k' := - delta_z / delta_r in
    let r0 := (i + 1/2) * dr in
    let r1 := r_old in
    let b1 := (IZR k_n + 1) * dz - z_old in
    let d := DENSITY_Z q r0 dr dz dt in
    let wr0 := d
      * (r0 * k' * delta_r + k' / 2 * delta_r * (r_old + delta_r / 2)
         + 1/2 * delta_r * (b1 - k' * (2 * r0 + r1))
         + delta_r * (b1 - k' * r1) * (4 * r0 * r0 - dr * dr) / (8 * r_old * (r_old + delta_r))
         + (k' * (r0 * r0 / 2 - dr * dr / 8)) * ln ((r_old + delta_r) / r_old)) in
    let b2 := z_old - IZR k_n * dz in
    let wr1 := d
      * (- r0 * k' * delta_r - k' / 2 * delta_r * (r_old + delta_r / 2)
         + 1/2 * delta_r * (b2 + k' * (2 * r0 + r1))
         + delta_r * (b2 + k' * r1) * (4 * r0 * r0 - dr * dr) / (8 * r_old * (r_old + delta_r))
         - (k' * (r0 * r0 / 2 - dr * dr / 8)) * ln ((r_old + delta_r) / r_old)) in
    [ inc_j_z i_n k_n wz0; inc_j_z (i_n + 1) k_n wz1; inc_j_r i_n k_n wr0; inc_j_r i_n (k_n + 1) wr1 ]
  else
    (* lines 414-473 *)
    let k := delta_r / delta_z in
    let b := r_old in
    let wz0 := q / (2 * c_PI * dr / 4 * dr * dz * dt * dr)
      * (dr * delta_z - k * delta_z * delta_z / 2 - delta_z * b) in
    let wz1 := DENSITY_R q dr dr dz dt
      * (k * delta_z * delta_z / 2 + delta_z * dr + delta_z * b) in
    let k' := - delta_z / delta_r in
    let r0 := (IZR i_n + 1/2) * dr in
    let r1 := r_old in
    let b1 := (IZR k_n + 1) * dz - z_old in
    let d := DENSITY_Z q r0 dr dz dt in
    let wr0 := d
      * (r0 * k' * delta_r + k' / 2 * delta_r * (r_old + delta_r / 2)
         + 1/2 * delta_r * (b1 - k' * (2 * r0 + r1))
         + delta_r * (b1 - k' * r1) * (4 * r0 * r0 - dr * dr) / (8 * r_old * (r_old + delta_r))
         + (k' * (r0 * r0 / 2 - dr * dr / 8)) * ln ((r_old + delta_r) / r_old)) in
    let b2 := z_old - IZR k_n * dz in
    let wr1 := d
      * (- r0 * k' * delta_r - k' / 2 * delta_r * (r_old + delta_r / 2)
         + 1/2 * delta_r * (b2 + k' * (2 * r0 + r1))
         + delta_r * (b2 + k' * r1) * (4 * r0 * r0 - dr * dr) / (8 * r_old * (r_old + delta_r))
         - (k' * (r0 * r0 / 2 - dr * dr / 8)) * ln ((r_old + delta_r) / r_old)) in
    [ inc_j_z i_n k_n wz0; inc_j_z (i_n + 1) k_n wz1; inc_j_r i_n k_n wr0; inc_j_r i_n (k_n + 1) wr1 ].

(** src/particles.cpp lines 813-884: the branch of strict_motion_weighting for motion
    along the axis. *)
Definition strict_axial (g : geom) (dt q r_new z_new z_old : R) (i_n k_n k_o : Z) : list jinc :=
  let dr := dr g in
  let dz := dz g in
  let value_part := 2 * c_PI * r_new * dr * dz in
  let r1 := r_new - 1/2 * dr in
  let r2 := (IZR i_n + 1/2) * dr in
  let r3 := r_new + 1/2 * dr in
  let wj_lower :=
    if (i_n =? 0)%Z
    then q / (dt * c_PI * dr * dr / 4) * c_PI * (r2 * r2 - r1 * r1) / value_part
    else q / (dt * 2 * c_PI * IZR i_n * dr * dr) * c_PI * (r2 * r2 - r1 * r1) / value_part in
  let wj_upper :=
    q / (dt * 2 * c_PI * (IZR i_n + 1) * dr * dr) * c_PI * (r3 * r3 - r2 * r2) / value_part in
  let pre := [ inc_j_r i_n k_n 0; inc_j_r i_n (k_n + 1) 0 ] in
  let res_k := (k_n - k_o)%Z in
  if (res_k =? 0)%Z then
    let delta_z := z_new - z_old in
    pre ++ [ inc_j_z i_n k_n (wj_lower * delta_z); inc_j_z (i_n + 1) k_n (wj_upper * delta_z) ]
  else if (res_k =? 1)%Z then
    let delta_z := IZR k_n * dz - z_old in
    let delta_z' := z_new - IZR k_n * dz in
    pre ++ [ inc_j_z i_n (k_n - 1) (wj_lower * delta_z);
             inc_j_z (i_n + 1) (k_n - 1) (wj_upper * delta_z);
             inc_j_z i_n k_n (wj_lower * delta_z');
             inc_j_z (i_n + 1) k_n (wj_upper * delta_z') ]
  else if (res_k =? -1)%Z then
    let delta_z := (IZR k_n + 1) * dz - z_old in
    let delta_z' := z_new - (IZR k_n + 1) * dz in
    pre ++ [ inc_j_z i_n (k_n + 1) (wj_lower * delta_z);
             inc_j_z (i_n + 1) (k_n + 1) (wj_upper * delta_z);
             inc_j_z i_n k_n (wj_lower * delta_z');
             inc_j_z (i_n + 1) k_n (wj_upper * delta_z') ]
  else pre.

(** The expression "delta_r - r0 * r0 / (ro + delta_r) + r0 * r0 / ro + ..." of
    lines 903-908, 924-928 and 959-963. *)
Definition strict_radial_leg (d_r r0 ro delta_r : R) : R :=
  delta_r - r0 * r0 / (ro + delta_r) + r0 * r0 / ro
  + d_r * d_r / (4 * (ro + delta_r)) - d_r * d_r / (4 * ro).

(** The expression of the second leg, lines 939-943 and 974-978, where [m] is i_n or
    i_n + 1: here the code divides by [m] and then multiplies by [dr]. *)
Definition strict_radial_leg2 (d_r r0 m delta_r : R) : R :=
  delta_r - r0 * r0 / (m * d_r + delta_r) + r0 * r0 / m * d_r
  + d_r * d_r / (4 * (m * d_r + delta_r)) - d_r * d_r / (4 * m * d_r).

(** src/particles.cpp lines 886-986: the branch for motion along the radius. *)
Definition strict_radial (g : geom) (dt q r_new z_new r_old : R) (i_n k_n i_o : Z) : list jinc :=
  let dr := dr g in
  let dz := dz g in
  let res_i := (i_n - i_o)%Z in
  let left_delta_z := (IZR k_n + 1) * dz - z_new in
  let right_delta_z := z_new - IZR k_n * dz in
  if (res_i =? 0)%Z then
    let delta_r := r_new - r_old in
    let r0 := (IZR i_n + 1/2) * dr in
    let wj := DENSITY_STRICT q r0 dr dz dt * strict_radial_leg dr r0 r_old delta_r in
    [ inc_j_r i_n k_n (wj * left_delta_z); inc_j_r i_n (k_n + 1) (wj * right_delta_z) ]
  else if (res_i =? 1)%Z then
    let delta_r := IZR i_n * dr - r_old in
    let r0 := (IZR i_n - 1/2) * dr in
    let wj := DENSITY_STRICT q r0 dr dz dt * strict_radial_leg dr r0 r_old delta_r in
    let delta_r' := r_new - IZR i_n * dr in
    let r0' := (IZR i_n + 1/2) * dr in
    let wj' := DENSITY_STRICT q r0' dr dz dt * strict_radial_leg2 dr r0' (IZR i_n) delta_r' in
    [ inc_j_r (i_n - 1) k_n (wj * left_delta_z); inc_j_r (i_n - 1) (k_n + 1) (wj * right_delta_z);
      inc_j_r i_n k_n (wj' * left_delta_z); inc_j_r i_n (k_n + 1) (wj' * right_delta_z) ]
  else if (res_i =? -1)%Z then
    let delta_r := (IZR i_n + 1) * dr - r_old in
    let r0 := (IZR i_n + 3/2) * dr in
    let wj := DENSITY_STRICT q r0 dr dz dt * strict_radial_leg dr r0 r_old delta_r in
    let delta_r' := r_new - (IZR i_n + 1) * dr in
    let r0' := (IZR i_n + 1/2) * dr in
    let wj' := DENSITY_STRICT q r0' dr dz dt * strict_radial_leg2 dr r0' (IZR i_n + 1) delta_r' in
    [ inc_j_r (i_n + 1) k_n (wj * left_delta_z); inc_j_r (i_n + 1) (k_n + 1) (wj * right_delta_z);
      inc_j_r i_n k_n (wj' * left_delta_z); inc_j_r i_n (k_n + 1) (wj' * right_delta_z) ]
  else [].

(** src/particles.cpp lines 786-988: strict_motion_weighting. *)
Definition strict_motion (g : geom) (dt q r_new z_new r_old z_old : R) : list jinc :=
  let i_n := cell r_new (dr g) in
  let k_n := cell z_new (dz g) in
  let i_o := cell r_old (dr g) in
  let k_o := cell z_old (dz g) in
  if Rlt_dec (Rabs (r_new - r_old)) MNZL then
    if Rlt_dec (Rabs (z_new - z_old)) MNZL then []
    else strict_axial g dt q r_new z_new z_old i_n k_n k_o
  else if Rlt_dec (Rabs (z_new - z_old)) MNZL then
    strict_radial g dt q r_new z_new r_old i_n k_n i_o
  else [].

(** src/particles.cpp lines 496-499: the treatment of positions that lie exactly on the
    upper border of their cell; [po] and [pn] are the old and new coordinate, the result is
    the pair (new cell, old cell). *)
Definition tie_cells (d pn po : R) : Z * Z :=
  let c_n := cell pn d in
  let c_o := cell po d in
  let c_o := if Req_EM_T po ((IZR c_o + 1) * d) then c_n else c_o in
  let c_n := if Req_EM_T pn ((IZR c_n + 1) * d) then c_o else c_n in
  (c_n, c_o).

(** src/particles.cpp lines 516-572, case 1 of the switch. *)
Definition current_one_border (g : geom) (dt q r_n z_n r_o z_o : R) (i_n k_n i_o k_o : Z) : list jinc :=
  let dr := dr g in
  let dz := dz g in
  let simple := simple_current g dt q in
  if negb (i_n =? i_o)%Z && (k_n =? k_o)%Z then
    if Rlt_dec ((IZR i_n + 1) * dr) r_o then
      let a := (r_o - r_n) / (z_o - z_n) in
      let r_boundary := (IZR i_n + 1) * dr in
      let delta_r := r_boundary - r_n in
      let z_boundary := z_n + delta_r / a in
      simple r_boundary z_boundary r_o z_o (i_n + 1)%Z k_n ++
      simple r_n z_n r_boundary z_boundary i_n k_n
    else
      let a := (r_n - r_o) / (z_n - z_o) in
      let r_boundary := IZR i_n * dr in
      let delta_r := r_boundary - r_o in
      let z_boundary := z_o + delta_r / a in
      simple r_boundary z_boundary r_o z_o (i_n - 1)%Z k_n ++
      simple r_n z_n r_boundary z_boundary i_n k_n
  else if (i_n =? i_o)%Z && negb (k_n =? k_o)%Z then
    if Rlt_dec z_o (IZR k_n * dz) then
      let z_boundary := IZR k_n * dz in
      let delta_z := z_boundary - z_o in
      let a := (r_n - r_o) / (z_n - z_o) in
      let r_boundary := r_o + a * delta_z in
      simple r_boundary z_boundary r_o z_o i_n (k_n - 1)%Z ++
      simple r_n z_n r_boundary z_boundary i_n k_n
    else
      let z_boundary := (IZR k_n + 1) * dz in
      let delta_z := z_boundary - z_n in
      let a := (r_o - r_n) / (z_o - z_n) in
      let r_boundary := r_n + a * delta_z in
      simple r_boundary z_boundary r_o z_o i_n (k_n + 1)%Z ++
      simple r_n z_n r_boundary z_boundary i_n k_n
  else [].

(** src/particles.cpp lines 573-681, case 2 of the switch. *)
Definition current_two_borders (g : geom) (dt q r_n z_n r_o z_o : R) (i_n k_n i_o k_o : Z) : list jinc :=
  let dr := dr g in
  let dz := dz g in
  let simple := simple_current g dt q in
  if (i_o <? i_n)%Z then
    if (k_o <? k_n)%Z then
      (* lines 580-601 *)
      let a := (r_n - r_o) / (z_n - z_o) in
      let r1 := IZR i_n * dr in
      let delta_z1 := (r1 - r_o) / a in
      let z1 := z_o + delta_z1 in
      let z2 := IZR k_n * dz in
      let delta_r2 := (z2 - z_o) * a in
      let r2 := r_o + delta_r2 in
      if Rlt_dec z1 (IZR k_n * dz) then
        simple r1 z1 r_o z_o (i_n - 1)%Z (k_n - 1)%Z ++
        simple r2 z2 r1 z1 i_n (k_n - 1)%Z ++
        simple r_n z_n r2 z2 i_n k_n
      else if Rlt_dec (IZR k_n * dz) z1 then
        simple r2 z2 r_o z_o (i_n - 1)%Z (k_n - 1)%Z ++
        simple r1 z1 r2 z2 (i_n - 1)%Z k_n ++
        simple r_n z_n r1 z1 i_n k_n
      else []
    else
      (* lines 603-625 *)
      let a := (r_n - r_o) / (z_n - z_o) in
      let r1 := IZR i_n * dr in
      let delta_z1 := (r1 - r_o) / a in
      let z1 := z_o + delta_z1 in
      let z2 := (IZR k_n + 1) * dz in
      let delta_r2 := - (z_o - z2) * a in
      let r2 := r_o + delta_r2 in
      if Rlt_dec ((IZR k_n + 1) * dz) z1 then
        simple r1 z1 r_o z_o (i_n - 1)%Z (k_n + 1)%Z ++
        simple r2 z2 r1 z1 i_n (k_n + 1)%Z ++
        simple r_n z_n r2 z2 i_n k_n
      else if Rlt_dec z1 ((IZR k_n + 1) * dz) then
        simple r2 z2 r_o z_o (i_n - 1)%Z (k_n + 1)%Z ++
        simple r1 z1 r2 z2 (i_n - 1)%Z k_n ++
        simple r_n z_n r1 z1 i_n k_n
      else []
  else if (i_n <? i_o)%Z then
    if (k_o <? k_n)%Z then
      (* lines 631-654 *)
      let a := (r_n - r_o) / (z_n - z_o) in
      let r1 := (IZR i_n + 1) * dr in
      let delta_z1 := - (r_o - r1) / a in
      let z1 := z_o + delta_z1 in
      let z2 := IZR k_n * dz in
      let delta_r2 := - (z2 - z_o) * a in
      let r2 := r_o - delta_r2 in
      if Rlt_dec z1 (IZR k_n * dz) then
        simple r1 z1 r_o z_o (i_n + 1)%Z (k_n - 1)%Z ++
        simple r2 z2 r1 z1 i_n (k_n - 1)%Z ++
        simple r_n z_n r2 z2 i_n k_n
      else if Rlt_dec (IZR k_n * dz) z1 then
        simple r2 z2 r_o z_o (i_n + 1)%Z (k_n - 1)%Z ++
        simple r1 z1 r2 z2 (i_n + 1)%Z k_n ++
        simple r_n z_n r1 z1 i_n k_n
      else []
    else if (k_n <? k_o)%Z then
      (* lines 656-678 *)
      let a := (r_o - r_n) / (z_o - z_n) in
      let r1 := (IZR i_n + 1) * dr in
      let delta_z1 := (r1 - r_n) / a in
      let z1 := z_n + delta_z1 in
      let z2 := (IZR k_n + 1) * dz in
      let delta_r2 := (z2 - z_n) * a in
      let r2 := r_n + delta_r2 in
      if Rlt_dec ((IZR k_n + 1) * dz) z1 then
        simple r1 z1 r_o z_o (i_n + 1)%Z (k_n + 1)%Z ++
        simple r2 z2 r1 z1 i_n (k_n + 1)%Z ++
        simple r_n z_n r2 z2 i_n k_n
      else if Rlt_dec z1 ((IZR k_n + 1) * dz) then
        simple r2 z2 r_o z_o (i_n + 1)%Z (k_n + 1)%Z ++
        simple r1 z1 r2 z2 (i_n + 1)%Z k_n ++
        simple r_n z_n r1 z1 i_n k_n
      else []
    else []
  else [].

(** src/particles.cpp lines 482-685: the loop body of current_distribution for one live
    particle with new position (r_n, z_n) and old position (r_o, z_o). *)
Definition current_single (g : geom) (dt q r_n z_n r_o z_o : R) : list jinc :=
  let '(i_n, i_o) := tie_cells (dr g) r_n r_o in
  let '(k_n, k_o) := tie_cells (dz g) z_n z_o in
  let res_cell := (Z.abs (i_n - i_o) + Z.abs (k_n - k_o))%Z in
  if Rlt_dec (Rabs (r_n - r_o)) MNZL then strict_motion g dt q r_n z_n r_o z_o
  else if Rlt_dec (Rabs (z_n - z_o)) MNZL then strict_motion g dt q r_n z_n r_o z_o
  else if (res_cell =? 0)%Z then simple_current g dt q r_n z_n r_o z_o i_n k_n
  else if (res_cell =? 1)%Z then current_one_border g dt q r_n z_n r_o z_o i_n k_n i_o k_o
  else if (res_cell =? 2)%Z then current_two_borders g dt q r_n z_n r_o z_o i_n k_n i_o k_o
  else [].

(** src/particles.cpp lines 688-784: the loop body of azimuthal_current_distribution. *)
Definition azimuthal_single (g : geom) (q v_phi r z : R) : list jinc :=
  let dr := dr g in
  let dz := dz g in
  let r_i := cell r dr in
  let z_k := cell z dz in
  let dz1 := (IZR z_k + 1/2) * dz - (z - 1/2 * dz) in
  let dz2 := (z + 1/2 * dz) - (IZR z_k + 1/2) * dz in
  let r1 := r - 1/2 * dr in
  let r2 := (IZR r_i + 1/2) * dr in
  let r3 := r + 1/2 * dr in
  let ro_v := q / (2 * c_PI * dz * dr * r) in
  let v_1 := if Rlt_dec dr r then CELL_VOLUME (IZR r_i) dr dz else CYL_VOL dz dr in
  let v_2 := CELL_VOLUME (IZR r_i + 1) dr dz in
  [ inc_j_phi r_i z_k (ro_v * CYL_RNG_VOL dz1 r1 r2 / v_1 * v_phi);
    inc_j_phi (r_i + 1) z_k (ro_v * CYL_RNG_VOL dz1 r2 r3 / v_2 * v_phi);
    inc_j_phi r_i (z_k + 1) (ro_v * CYL_RNG_VOL dz2 r1 r2 / v_1 * v_phi);
    inc_j_phi (r_i + 1) (z_k + 1) (ro_v * CYL_RNG_VOL dz2 r2 r3 / v_2 * v_phi) ].

(** src/current.cpp lines 125-136: reset_j. *)
Definition reset_j (g : geom) (j : currents) : currents :=
  fun x i k => if ((0 <=? i) && (i <? n_r g) && (0 <=? k) && (k <? n_z g))%Z then 0 else j x i k.

(** One macroparticle as current_distribution sees it: is_alive[i], charge_array[i],
    pos[i][0], pos[i][2], pos_old[i][0], pos_old[i][2]. *)
Record cpart := CPart { c_alive : bool; c_charge : R; c_r : R; c_z : R; c_r_old : R; c_z_old : R }.

(** One iteration of the particle loop with its test of is_alive, lines 481-482. *)
Definition current_part (g : geom) (dt : R) (p : cpart) : list jinc :=
  if c_alive p then current_single g dt (c_charge p) (c_r p) (c_z p) (c_r_old p) (c_z_old p) else [].

(** src/particles.cpp lines 476-686: current_distribution. *)
Definition current_distribution (g : geom) (dt : R) (j : currents) (ps : list cpart) : currents :=
  fold_left (fun a p => apply_jincs a (current_part g dt p)) ps j.
