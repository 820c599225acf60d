(** The numerical code of one main loop iteration over an arithmetic that is a parameter (Model/Arith.v): geometry
    macros, field update, interpolation, pushers, motion, deposition. Every definition has a counterpart over the
    real numbers in Model/{Geometry,ChargeDeposit,CurrentDeposit,Fields,Interp,Pusher,Motion,Sim}.v, and
    Proof/GenRealP.v proves that it is that counterpart when the arithmetic is that of the real numbers. Here the
    operations are written in exactly the order in which the C++ text makes them. *)
From Coq Require Import ZArith List Bool.
From Verif.Lib Require Import Outcome Par.
From Verif.Model Require Import Arith Geometry CurrentDeposit Fields Pusher.
Import ListNotations.

Declare Scope num_scope.
Delimit Scope num_scope with num.

Section Gen.
Variable A : arith.
Local Notation num := (num A).
Local Notation "x + y" := (add A x y) : num_scope.
Local Notation "x - y" := (sub A x y) : num_scope.
Local Notation "x * y" := (mul A x y) : num_scope.
Local Notation "x / y" := (div A x y) : num_scope.
Local Notation "- x" := (opp A x) : num_scope.
Local Notation "# n" := (of_int A n%Z) (at level 5, n at level 0).
Local Notation "x <? y" := (ltb A x y) : num_scope.
Local Open Scope num_scope.

(** ** Constants, include/constant.h lines 8-30 *)
(** 3.1415926535897932 = 7853981633974483 / (25 10^14) *)
Definition gPI : num := lit A 7853981633974483 2500000000000000.
Definition gEPSILON0 : num := lit A 885 100000000000000.
Definition gMAGN_CONST : num := lit A 126 100000000.
Definition gLIGHT_SPEED : num := # 300000000.
Definition gMNZL : num := lit A 1 1000000000000000.
Definition ghalf : num := lit A 1 2.
Definition gquarter : num := lit A 1 4.
Definition g3half : num := lit A 3 2.

(** ** Geometry *)

(** include/geometry.h lines 5-12 *)
Record ggeom := GGeom { gn_r : Z; gn_z : Z; gr_size : num; gz_size : num }.

(** src/geometry.cpp lines 45-53 *)
Definition gdr (g : ggeom) : num := gr_size g / # (gn_r g - 1).
Definition gdz (g : ggeom) : num := gz_size g / # (gn_z g - 1).

(** include/geometry.h lines 33-44. CYL_RNG_VOL is expanded in place, because "x * CYL_RNG_VOL(...) / v" is
    x * PI * z * (r2 * r2 - r1 * r1) / v after macro expansion. *)
Definition gCELL_VOLUME (i : Z) (d_r d_z : num) : num := gPI * d_z * d_r * d_r * # 2 * # i.
Definition gCYL_VOL (z r : num) : num := gPI * z * r * r / # 4.
Definition gRNG (x z r1 r2 v : num) : num := x * gPI * z * (r2 * r2 - r1 * r1) / v.
Definition gCELL_NUMBER (position dx : num) : Z := (ceil_int A (position / dx)%num - 1)%Z.
Definition gcell (position dx : num) : Z :=
  let c := gCELL_NUMBER position dx in if (c <? 0)%Z then 0%Z else c.

(** ** Field update *)

Definition gasg := @asg loc num.
Definition gmem := loc -> num.
Record gmedium := GMedium { gepsilon : Z -> Z -> num; gsigma : Z -> Z -> num }.

(** src/eField.cpp lines 105-110 *)
Definition gepsilonx2 (md : gmedium) (i k : Z) : num := # 2 * gepsilon md i k * gEPSILON0.
Definition gsigma_t (md : gmedium) (dt : num) (i k : Z) : num := gsigma md i k * dt.
Definition gkoef_e (md : gmedium) (dt : num) (i k : Z) : num :=
  (gepsilonx2 md i k - gsigma_t md dt i k) / (gepsilonx2 md i k + gsigma_t md dt i k).
Definition gkoef_h (md : gmedium) (dt : num) (i k : Z) : num :=
  # 2 * dt / (gepsilonx2 md i k + gsigma_t md dt i k).

(** src/eField.cpp lines 112-113 and 141-142 *)
Definition gasg_er (g : ggeom) (md : gmedium) (dt : num) (i k : Z) : gasg :=
  Asg (ER, i, k) [(ER, i, k); (JR, i, k); (HPHI, i, k); (HPHI, i, (k - 1)%Z)]
    (fun v => match v with
              | [e; j; h; h'] => e * gkoef_e md dt i k - (j + (h - h') / gdz g) * gkoef_h md dt i k
              | _ => # 0
              end).
(** lines 127-128 *)
Definition gasg_ez_axis (g : ggeom) (md : gmedium) (dt : num) (k : Z) : gasg :=
  Asg (EZ, 0%Z, k) [(EZ, 0%Z, k); (JZ, 0%Z, k); (HPHI, 0%Z, k)]
    (fun v => match v with
              | [e; j; h] => e * gkoef_e md dt 0 k - (j - # 4 / gdr g * h) * gkoef_h md dt 0 k
              | _ => # 0
              end).
(** lines 144-146 *)
Definition gasg_ephi (g : ggeom) (md : gmedium) (dt : num) (i k : Z) : gasg :=
  Asg (EPHI, i, k)
    [(EPHI, i, k); (JPHI, i, k); (HR, i, k); (HR, i, (k - 1)%Z); (HZ, i, k); (HZ, (i - 1)%Z, k)]
    (fun v => match v with
              | [e; j; hr; hr'; hz; hz'] =>
                  e * gkoef_e md dt i k
                  - (j - (hr - hr') / gdz g + (hz - hz') / gdr g) * gkoef_h md dt i k
              | _ => # 0
              end).
(** lines 148-151 and 164-167 *)
Definition gasg_ez (g : ggeom) (md : gmedium) (dt : num) (i k : Z) : gasg :=
  Asg (EZ, i, k) [(EZ, i, k); (JZ, i, k); (HPHI, i, k); (HPHI, (i - 1)%Z, k)]
    (fun v => match v with
              | [e; j; h; h'] =>
                  e * gkoef_e md dt i k
                  - (j - (h - h') / gdr g - (h + h') / (# 2 * gdr g * # i)) * gkoef_h md dt i k
              | _ => # 0
              end).
(** lines 101-114, 117-129, 131-152, 154-168 *)
Definition gefield_loops (g : ggeom) (md : gmedium) (dt : num) : list (list (list gasg)) :=
  [ map (fun k => [gasg_er g md dt 0 k]) (zrange 1 (gn_z g - 1));
    map (fun k => [gasg_ez_axis g md dt k]) (zrange 0 (gn_z g - 1));
    map (fun c => [gasg_er g md dt (fst c) (snd c); gasg_ephi g md dt (fst c) (snd c);
                   gasg_ez g md dt (fst c) (snd c)]) (cells 1 (gn_r g - 1) 1 (gn_z g - 1));
    map (fun i => [gasg_ez g md dt i 0]) (zrange 1 (gn_r g - 1)) ].

(** src/hField.cpp lines 112-113 and 123-124 *)
Definition galpha_r (g : ggeom) (dt e' e : num) : num := dt * (e' - e) / (gdz g * gMAGN_CONST).
(** lines 115-116 and 126-127 *)
Definition gasg_hr_half (g : ggeom) (dt : num) (i k : Z) : gasg :=
  Asg (HRH, i, k) [(HR, i, k); (EPHI, i, (k + 1)%Z); (EPHI, i, k)]
    (fun v => match v with [h; e'; e] => h + galpha_r g dt e' e / # 2 | _ => # 0 end).
Definition gasg_hr (g : ggeom) (dt : num) (i k : Z) : gasg :=
  Asg (HR, i, k) [(HR, i, k); (EPHI, i, (k + 1)%Z); (EPHI, i, k)]
    (fun v => match v with [h; e'; e] => h + galpha_r g dt e' e | _ => # 0 end).
(** lines 134-137 *)
Definition galpha_phi (g : ggeom) (dt ez' ez er' er : num) : num :=
  dt * ((ez' - ez) / gdr g - (er' - er) / gdz g) / gMAGN_CONST.
(** lines 139-140 *)
Definition gasg_hphi_half (g : ggeom) (dt : num) (i k : Z) : gasg :=
  Asg (HPHIH, i, k)
    [(HPHI, i, k); (EZ, (i + 1)%Z, k); (EZ, i, k); (ER, i, (k + 1)%Z); (ER, i, k)]
    (fun v => match v with [h; z'; z; r'; r] => h + galpha_phi g dt z' z r' r / # 2 | _ => # 0 end).
Definition gasg_hphi (g : ggeom) (dt : num) (i k : Z) : gasg :=
  Asg (HPHI, i, k)
    [(HPHI, i, k); (EZ, (i + 1)%Z, k); (EZ, i, k); (ER, i, (k + 1)%Z); (ER, i, k)]
    (fun v => match v with [h; z'; z; r'; r] => h + galpha_phi g dt z' z r' r | _ => # 0 end).
(** lines 147-151 *)
Definition galpha_z (g : ggeom) (dt : num) (i : Z) (e' e : num) : num :=
  dt * ((e' + e) / (# 2 * gdr g * (# i + ghalf)) + (e' - e) / gdr g) / gMAGN_CONST.
(** lines 153-154 *)
Definition gasg_hz_half (g : ggeom) (dt : num) (i k : Z) : gasg :=
  Asg (HZH, i, k) [(HZ, i, k); (EPHI, (i + 1)%Z, k); (EPHI, i, k)]
    (fun v => match v with [h; e'; e] => h - galpha_z g dt i e' e / # 2 | _ => # 0 end).
Definition gasg_hz (g : ggeom) (dt : num) (i k : Z) : gasg :=
  Asg (HZ, i, k) [(HZ, i, k); (EPHI, (i + 1)%Z, k); (EPHI, i, k)]
    (fun v => match v with [h; e'; e] => h - galpha_z g dt i e' e | _ => # 0 end).
(** lines 107-117, 119-128, 130-141, 143-155 *)
Definition ghfield_loops (g : ggeom) (dt : num) : list (list (list gasg)) :=
  [ map (fun k => [gasg_hr_half g dt (gn_r g - 1) k; gasg_hr g dt (gn_r g - 1) k]) (zrange 0 (gn_z g - 1));
    map (fun c => [gasg_hr_half g dt (fst c) (snd c); gasg_hr g dt (fst c) (snd c)])
        (cells 0 (gn_r g - 1) 0 (gn_z g - 1));
    map (fun c => [gasg_hphi_half g dt (fst c) (snd c); gasg_hphi g dt (fst c) (snd c)])
        (cells 0 (gn_r g - 1) 0 (gn_z g - 1));
    map (fun c => [gasg_hz_half g dt (fst c) (snd c); gasg_hz g dt (fst c) (snd c)])
        (cells 0 (gn_r g - 1) 0 (gn_z g - 1)) ].

Definition gcalc_efield (g : ggeom) (md : gmedium) (dt : num) (m : gmem) : gmem :=
  exec loc_eqb (concat (concat (gefield_loops g md dt))) m.
Definition gcalc_hfield (g : ggeom) (dt : num) (m : gmem) : gmem :=
  exec loc_eqb (concat (concat (ghfield_loops g dt))) m.

(** ** Interpolation: src/eField.cpp lines 204-316, src/hField.cpp lines 159-267 *)

(** One term "+ field[i][k] * CYL_RNG_VOL(z, r1, r2) / v": the element read, z, r1, r2, v. *)
Record gterm := GTerm { t_at : loc; t_z : num; t_r1 : num; t_r2 : num; t_v : num }.

Definition gcorner_terms (a : farr) (i k : Z) (dz1 dz2 r1 r2 r3 vol_1 vol_2 : num) : list gterm :=
  [ GTerm (a, i, k) dz1 r1 r2 vol_1; GTerm (a, (i + 1)%Z, k) dz1 r2 r3 vol_2;
    GTerm (a, i, (k + 1)%Z) dz2 r1 r2 vol_1; GTerm (a, (i + 1)%Z, (k + 1)%Z) dz2 r2 r3 vol_2 ].

(** E_r (eField.cpp lines 223-248), H_z (hField.cpp lines 178-203) *)
Definition gterms_half_r (a : farr) (g : ggeom) (r z : num) : list gterm :=
  let dr := gdr g in let dz := gdz g in
  let i_r := gcell (r - ghalf * dr) dr in
  let k_z := gcell z dz in
  gcorner_terms a i_r k_z (# (k_z + 1) * dz - z) (z - # k_z * dz)
    (r - ghalf * dr) (# (i_r + 1) * dr) (r + ghalf * dr)
    (gCELL_VOLUME (i_r + 1) dr dz) (gCELL_VOLUME (i_r + 3) dr dz).
Definition gvol_inner (dr dz r : num) (i_r : Z) : num :=
  if dr <? r then gCELL_VOLUME i_r dr dz else gCYL_VOL dz dr.
(** E_z (eField.cpp lines 250-279), H_r (hField.cpp lines 205-235) *)
Definition gterms_half_z (a : farr) (g : ggeom) (r z : num) : list gterm :=
  let dr := gdr g in let dz := gdz g in
  let i_r := gcell r dr in
  let k_z := gcell (z - ghalf * dz) dz in
  gcorner_terms a i_r k_z ((# k_z + g3half) * dz - z) (z - (# k_z + ghalf) * dz)
    (r - ghalf * dr) ((# i_r + ghalf) * dr) (r + ghalf * dr)
    (gvol_inner dr dz r i_r) (gCELL_VOLUME (i_r + 2) dr dz).
(** E_phi (eField.cpp lines 281-311) *)
Definition gterms_whole (a : farr) (g : ggeom) (r z : num) : list gterm :=
  let dr := gdr g in let dz := gdz g in
  let i_r := gcell r dr in
  let k_z := gcell z dz in
  gcorner_terms a i_r k_z (# (k_z + 1) * dz - z) (z - # k_z * dz)
    (r - ghalf * dr) ((# i_r + ghalf) * dr) (r + ghalf * dr)
    (gvol_inner dr dz r i_r) (gCELL_VOLUME (i_r + 2) dr dz).
(** H_phi (hField.cpp lines 237-262) *)
Definition gterms_half_both (a : farr) (g : ggeom) (r z : num) : list gterm :=
  let dr := gdr g in let dz := gdz g in
  let i_r := gcell (r - ghalf * dr) dr in
  let k_z := gcell (z - ghalf * dz) dz in
  gcorner_terms a i_r k_z ((# k_z + g3half) * dz - z) (z - (# k_z + ghalf) * dz)
    (r - ghalf * dr) (# (i_r + 1) * dr) (r + ghalf * dr)
    (gCELL_VOLUME (i_r + 1) dr dz) (gCELL_VOLUME (i_r + 3) dr dz).

(** One accumulation: er = er + field * CYL_RNG_VOL(...) / vol *)
Definition gterm_add (s : num) (t : gterm) (x : num) : num := s + gRNG x (t_z t) (t_r1 t) (t_r2 t) (t_v t).
Definition gweighted_sum (m : gmem) (l : list gterm) : num :=
  fold_left (fun s t => gterm_add s t (m (t_at t))) l (# 0).

(** ** Pushers: src/particles.cpp lines 1025-1254 *)

Record gvec := GV { g0 : num; g1 : num; g2 : num }.

Definition gtv_add (a b : gvec) : gvec := GV (g0 a + g0 b) (g1 a + g1 b) (g2 a + g2 b).
Definition gtv_product (a : gvec) (x : num) : gvec := GV (g0 a * x) (g1 a * x) (g2 a * x).
Definition gtv_dot (a b : gvec) : num := # 0 + g0 a * g0 b + g1 a * g1 b + g2 a * g2 b.
Definition gtv_squared_sum (a : gvec) : num := gtv_dot a a.

(** get_field, order of the components as in mkvector3d(er, efi, ez) *)
Definition gget_efield (g : ggeom) (m : gmem) (r z : num) : gvec :=
  GV (gweighted_sum m (gterms_half_r ER g r z)) (gweighted_sum m (gterms_whole EPHI g r z))
     (gweighted_sum m (gterms_half_z EZ g r z)).
Definition gget_hfield (g : ggeom) (m : gmem) (r z : num) : gvec :=
  GV (gweighted_sum m (gterms_half_z HRH g r z)) (gweighted_sum m (gterms_half_both HPHIH g r z))
     (gweighted_sum m (gterms_half_r HZH g r z)).

(** src/lib.cpp line 8; the compiler evaluates pow(x, 2) as x * x *)
Definition gLIGHT_SPEED_POW_2 : num := gLIGHT_SPEED * gLIGHT_SPEED.

(** src/lib.cpp lines 45-69 *)
Definition gget_gamma (sq_velocity : num) : outcome num :=
  let beta := sq_velocity / gLIGHT_SPEED_POW_2 in
  if # 1 <? beta then Exit 1
  else let q := root A (# 1 - beta) in
       if inf_quot A (# 1) q then Ok (# (10 ^ 100)) else Ok (# 1 / q).

(** lines 71-79 *)
Definition gget_gamma_inv (sq_velocity : num) : num := pow_mhalf A (# 1 + sq_velocity / gLIGHT_SPEED_POW_2).

Definition ground_small (x : num) : num := if absv A x <? gMNZL then # 0 else x.
Definition ground_velocity (v : gvec) : gvec := GV (ground_small (g0 v)) (ground_small (g1 v)) (ground_small (g2 v)).

(** src/particles.cpp lines 1115-1132 *)
Definition gboris_rotation (b v : gvec) : gvec :=
  let const2 := # 2 / (# 1 + gtv_squared_sum b) in
  GV (g0 v + const2 * ((g1 v - g0 v * g2 b + g2 v * g0 b) * g2 b
                       - (g2 v + g0 v * g1 b - g1 v * g0 b) * g1 b))
     (g1 v + const2 * (- (g0 v + g1 v * g2 b - g2 v * g1 b) * g2 b
                       + (g2 v + g0 v * g1 b - g1 v * g0 b) * g0 b))
     (g2 v + const2 * ((g0 v + g1 v * g2 b - g2 v * g1 b) * g1 b
                       - (g1 v - g0 v * g2 b + g2 v * g0 b) * g0 b)).

(** lines 1062-1146 *)
Definition gboris_push (rel : bool) (dt charge mass : num) (e_fld h_fld vel : gvec) : outcome gvec :=
  (let const1 := charge * dt / (# 2 * mass) in
   let e := gtv_product e_fld const1 in
   let b := gtv_product h_fld (gMAGN_CONST * const1) in
   let velocity := ground_velocity vel in
   do velocity <- (if rel then
                     do gamma <- gget_gamma (gtv_squared_sum velocity); Ok (gtv_product velocity gamma)
                   else Ok velocity);
   let velocity := gtv_add velocity e in
   let b := if rel then gtv_product b (gget_gamma_inv (gtv_squared_sum velocity)) else b in
   let velocity := gboris_rotation b velocity in
   let velocity := gtv_add velocity e in
   let velocity := if rel then gtv_product velocity (gget_gamma_inv (gtv_squared_sum velocity)) else velocity in
   Ok velocity)%outcome.

(** lines 1187-1250 *)
Definition gvay_push (dt charge mass : num) (e_fld h_fld vel : gvec) : outcome gvec :=
  (let const1 := charge * dt / (# 2 * mass) in
   let e := gtv_product e_fld (# 2 * const1) in
   let b := gtv_product h_fld (gMAGN_CONST * const1) in
   let velocity := ground_velocity vel in
   do gamma <- gget_gamma (gtv_squared_sum velocity);
   let velocity := gtv_product velocity gamma in
   let vtmp := velocity in
   let b := gtv_product b (# 2 * const1) in
   let velocity := gtv_add velocity e in
   let b := gtv_product b const1 in
   let gamma := gget_gamma_inv (gtv_squared_sum vtmp) in
   let velocity := GV (g0 velocity + gamma * (g1 vtmp * g2 b - g2 vtmp * g1 b))
                      (g1 velocity + gamma * (g2 vtmp * g0 b - g0 vtmp * g2 b))
                      (g2 velocity + gamma * (g0 vtmp * g1 b - g1 vtmp * g0 b)) in
   let gamma := gget_gamma_inv (gtv_squared_sum velocity) in
   let alpha := # 1 / gamma / gamma in
   let B2 := gtv_squared_sum b in
   let s := alpha - B2 in
   let us2 := gtv_dot velocity b * gtv_dot velocity b in
   let alpha := # 1 / root A (ghalf * (s + root A (s * s + # 4 * (B2 + us2)))) in
   let b := gtv_product b alpha in
   let s := # 1 / (# 1 + gtv_squared_sum b) in
   let alpha := gtv_dot velocity b in
   let vtmp := GV (s * (g0 velocity + alpha * g0 b + g2 b * g1 velocity - g1 b * g2 velocity))
                  (s * (g1 velocity + alpha * g1 b + g0 b * g2 velocity - g2 b * g0 velocity))
                  (s * (g2 velocity + alpha * g2 b + g1 b * g0 velocity - g0 b * g1 velocity)) in
   let gamma := gget_gamma_inv (gtv_squared_sum vtmp) in
   Ok (gtv_product vtmp gamma))%outcome.

(** line 13: REL_LIMIT_POW_2 = pow(REL_LIMIT, 2); line 1077: the sum of squares without an initial zero *)
Definition gREL_LIMIT_POW_2 : num := # 50000000 * # 50000000.
Definition gpush (p : pusher) (dt charge mass : num) (e_fld h_fld vel : gvec) : outcome gvec :=
  match p with
  | BorisClassic => gboris_push false dt charge mass e_fld h_fld vel
  | BorisRelativistic => gboris_push true dt charge mass e_fld h_fld vel
  | BorisAdaptive use_rel =>
      let v := ground_velocity vel in
      let use_rel := if gREL_LIMIT_POW_2 <? g0 v * g0 v + g1 v * g1 v + g2 v * g2 v then true else use_rel in
      gboris_push use_rel dt charge mass e_fld h_fld vel
  | Vay => gvay_push dt charge mass e_fld h_fld vel
  end.

(** ** Motion: src/particles.cpp lines 990-1024, 1256-1374; src/bunch.cpp lines 127-155 *)

Record gphase := GPhase { gpos : gvec; gvel : gvec; gr_old : num; gz_old : num; gsin : num }.
Record gparticle := GParticle { galive : bool; gcharge : num; gmass : num; gph : gphase }.

Definition gdump_position_to_old (p : gphase) : gphase := GPhase (gpos p) (gvel p) (g0 (gpos p)) (g2 (gpos p)) (gsin p).

(** lines 1270-1284: half_step_pos_single *)
Definition ghalf_step_pos (dt : num) (p : gphase) : outcome gphase :=
  let half_dt := dt / # 2 in
  if finite A (g0 (gpos p)) && finite A (g2 (gpos p)) then
    Ok (GPhase (GV (g0 (gpos p) + g0 (gvel p) * half_dt) (g1 (gpos p) + g1 (gvel p) * half_dt)
                   (g2 (gpos p) + g2 (gvel p) * half_dt)) (gvel p) (gr_old p) (gz_old p) (gsin p))
  else Exit 1.

(** lines 1286-1294 *)
Definition gback_position_to_rz (p : gphase) : gphase :=
  let r := root A (g0 (gpos p) * g0 (gpos p) + g1 (gpos p) * g1 (gpos p)) in
  GPhase (GV r (# 0) (g2 (gpos p))) (gvel p) (gr_old p) (gz_old p) (g1 (gpos p) / r).

(** lines 1005-1016 *)
Definition gback_velocity_to_rz (p : gphase) : gphase :=
  let s := gsin p in
  let c := root A (# 1 - s * s) in
  GPhase (gpos p) (GV (c * g0 (gvel p) - s * g1 (gvel p)) (s * g0 (gvel p) + c * g1 (gvel p)) (g2 (gvel p)))
         (gr_old p) (gz_old p) s.

(** lines 1318-1353 *)
Definition greflection (g : ggeom) (p : gphase) : gphase :=
  let radius_wall := gr_size g - gdr g / # 2 in
  let longitude_wall := gz_size g - gdz g / # 2 in
  let half_dr := gdr g / # 2 in
  let half_dz := gdz g / # 2 in
  let radius_wallX2 := radius_wall * # 2 in
  let longitude_wallX2 := longitude_wall * # 2 in
  let r := g0 (gpos p) in let vr := g0 (gvel p) in
  let z := g2 (gpos p) in let vz := g2 (gvel p) in
  let '(r, vr) := if radius_wall <? r then (radius_wallX2 - r, - vr) else (r, vr) in
  let '(z, vz) := if longitude_wall <? z then (longitude_wallX2 - z, - vz) else (z, vz) in
  let '(r, vr) := if r <? half_dr then (gdr g - r, - vr) else (r, vr) in
  let '(z, vz) := if z <? half_dz then (gdz g - z, - vz) else (z, vz) in
  GPhase (GV r (g1 (gpos p)) z) (GV vr (g1 (gvel p)) vz) (gr_old p) (gz_old p) (gsin p).

(** src/bunch.cpp lines 127-155; the result says also whether the particle is alive. *)
Definition gbunch_reflection (g : ggeom) (p : gphase) : bool * gphase :=
  let radius_wall := gr_size g - gdr g / # 2 in
  let longitude_wall := gz_size g - gdz g / # 2 in
  let half_dr := gdr g / # 2 in
  let half_dz := gdz g / # 2 in
  let r := g0 (gpos p) in let vr := g0 (gvel p) in
  let z := g2 (gpos p) in let vz := g2 (gvel p) in
  let dead := (radius_wall <? r) || (longitude_wall <? z) in
  let '(r, vr) := if r <? half_dr then (gdr g - r, - vr) else (r, vr) in
  let '(z, vz) := if z <? half_dz then (gdz g - z, - vz) else (z, vz) in
  (negb dead, GPhase (GV r (g1 (gpos p)) z) (GV vr (g1 (gvel p)) vz) (gr_old p) (gz_old p) (gsin p)).

Definition gwith_phase (p : gparticle) (f : gphase) : gparticle := GParticle (galive p) (gcharge p) (gmass p) f.

(** lines 1296-1316: the body of step_v for one particle, with the test of lines 1048-1056 and 1172-1180 *)
Definition gstep_v_one (pu : pusher) (g : ggeom) (dt : num) (m : gmem) (p : gparticle) : outcome gparticle :=
  if galive p then
    let f := gph p in
    let r := g0 (gpos f) in let z := g2 (gpos f) in
    if finite A r && finite A z then
      (do v <- gpush pu dt (gcharge p) (gmass p) (gget_efield g m r z) (gget_hfield g m r z) (gvel f);
       let f := GPhase (gpos f) v (gr_old f) (gz_old f) (gsin f) in
       do f <- ghalf_step_pos dt (gdump_position_to_old f);
       Ok (gwith_phase p (gback_position_to_rz f)))%outcome
    else Exit 1
  else Ok p.

(** lines 1355-1365: the body of move_half_reflect *)
Definition ghalf_reflect (g : ggeom) (dt : num) (is_bunch : bool) (p : gparticle) : outcome gparticle :=
  if galive p then
    (do f <- ghalf_step_pos dt (gph p);
     if is_bunch then
       let '(a, f) := gbunch_reflection g f in Ok (GParticle a (gcharge p) (gmass p) (gback_position_to_rz f))
     else Ok (gwith_phase p (gback_position_to_rz (greflection g f))))%outcome
  else Ok p.

(** lines 1018-1024 *)
Definition gvelocity_back (p : gparticle) : gparticle :=
  if galive p then gwith_phase p (gback_velocity_to_rz (gph p)) else p.

(** ** Charge deposition: src/particles.cpp lines 100-226 *)

Record ginc := GInc { grow : Z; gcol : Z; gval : num }.

Definition gcharge_weighting_single (g : ggeom) (charge r z : num) : list ginc :=
  let dr := gdr g in
  let dz := gdz g in
  let r_i := gcell r dr in
  let z_k := gcell z dz in
  let dz1 := (# z_k + ghalf) * dz - (z - ghalf * dz) in
  let dz2 := (z + ghalf * dz) - (# z_k + ghalf) * dz in
  if dr <? r then
    let r1 := r - ghalf * dr in
    let r2 := (# r_i + ghalf) * dr in
    let r3 := r + ghalf * dr in
    let ro_v := charge / (# 2 * gPI * dz * dr * r) in
    let v_1 := gCELL_VOLUME r_i dr dz in
    let v_2 := gCELL_VOLUME (r_i + 1) dr dz in
    [ GInc r_i z_k (gRNG ro_v dz1 r1 r2 v_1); GInc (r_i + 1) z_k (gRNG ro_v dz1 r2 r3 v_2);
      GInc r_i (z_k + 1) (gRNG ro_v dz2 r1 r2 v_1); GInc (r_i + 1) (z_k + 1) (gRNG ro_v dz2 r2 r3 v_2) ]
  else if leb A r (dr / # 2) then
    let r_i := 0%Z in
    let r2 := (# r_i + ghalf) * dr in
    let r3 := r + ghalf * dr in
    let ro_v := charge / (gPI * dz * (# 2 * r * r + dr * dr / # 2)) in
    let v_1 := gCYL_VOL dz dr in
    let v_2 := gCELL_VOLUME (r_i + 1) dr dz in
    [ GInc r_i z_k (ro_v * gPI * dz1 * (dr * dr / # 2 - r * dr + r * r) / v_1);
      GInc (r_i + 1) z_k (gRNG ro_v dz1 r2 r3 v_2);
      GInc r_i (z_k + 1) (ro_v * gPI * dz2 * (dr * dr / # 2 - r * dr + r * r) / v_1);
      GInc (r_i + 1) (z_k + 1) (gRNG ro_v dz2 r2 r3 v_2) ]
  else
    let r1 := r - ghalf * dr in
    let r2 := (# r_i + ghalf) * dr in
    let r3 := r + ghalf * dr in
    let ro_v := charge / (# 2 * gPI * dz * dr * r) in
    let v_1 := gCYL_VOL dz dr in
    let v_2 := gCELL_VOLUME (r_i + 1) dr dz in
    [ GInc r_i z_k (gRNG ro_v dz1 r1 r2 v_1); GInc (r_i + 1) z_k (gRNG ro_v dz1 r2 r3 v_2);
      GInc r_i (z_k + 1) (gRNG ro_v dz2 r1 r2 v_1); GInc (r_i + 1) (z_k + 1) (gRNG ro_v dz2 r2 r3 v_2) ].

(** ** Current deposition: src/particles.cpp lines 333-988 *)

(** One call of inc_j_r, inc_j_phi or inc_j_z *)
Record gjinc := GJInc { gj_comp : jcomp; gj_inc : ginc }.
Definition gj_r (i k : Z) (v : num) : gjinc := GJInc J_R (GInc i k v).
Definition gj_phi (i k : Z) (v : num) : gjinc := GJInc J_PHI (GInc i k v).
Definition gj_z (i k : Z) (v : num) : gjinc := GJInc J_Z (GInc i k v).

(** include/particles.h lines 169-178 *)
Definition gDENSITY_STRICT (q r d_r d_z dt : num) : num := q / (gPI * # 4 * r * d_z * d_z * d_r * dt).
Definition gDENSITY_R (q r d_r d_z dt : num) : num := q / (# 2 * gPI * r * d_r * d_z * dt * # 2 * d_r).
Definition gDENSITY_Z (q r d_r d_z dt : num) : num := q / (# 2 * gPI * r * d_r * d_z * dt * d_z).

(** lines 333-474 *)
Definition gsimple_current (g : ggeom) (dt q r_new z_new r_old z_old : num) (i_n k_n : Z) : list gjinc :=
  let dr := gdr g in
  let dz := gdz g in
  let delta_r := r_new - r_old in
  let delta_z := z_new - z_old in
  if absv A delta_r <? gMNZL then [] else
  if absv A delta_z <? gMNZL then [] else
  if (1 <=? i_n)%Z then
    let k := delta_r / delta_z in
    let b := r_old in
    let wz0 := gDENSITY_R q (# i_n * dr) dr dz dt
      * (dr * delta_z - k * delta_z * delta_z / # 2 - delta_z * b
         + dr * dr / k * ((# i_n + ghalf) * (# i_n + ghalf) - gquarter) * log_of A ((k * delta_z + b) / b)) in
    let wz1 := gDENSITY_R q (# (i_n + 1) * dr) dr dz dt
      * (k * delta_z * delta_z / # 2 + delta_z * b + delta_z * dr
         + dr * dr / k * (gquarter - (# i_n + ghalf) * (# i_n + ghalf)) * log_of A ((k * delta_z + b) / b)) in
    let k' := - delta_z / delta_r in
    let r0 := (# i_n + ghalf) * dr in
    let r1 := r_old in
    let b1 := (# k_n + # 1) * dz - z_old in
    let d := gDENSITY_Z q r0 dr dz dt in
    let wr0 := d
      * (r0 * k' * delta_r + k' / # 2 * delta_r * (r_old + delta_r / # 2)
         + ghalf * delta_r * (b1 - k' * (# 2 * r0 + r1))
         + delta_r * (b1 - k' * r1) * (# 4 * r0 * r0 - dr * dr) / (# 8 * r_old * (r_old + delta_r))
         + (k' * (r0 * r0 / # 2 - dr * dr / # 8)) * log_of A ((r_old + delta_r) / r_old)) in
    let b2 := z_old - # k_n * dz in
    let wr1 := d
      * (- r0 * k' * delta_r - k' / # 2 * delta_r * (r_old + delta_r / # 2)
         + ghalf * delta_r * (b2 + k' * (# 2 * r0 + r1))
         + delta_r * (b2 + k' * r1) * (# 4 * r0 * r0 - dr * dr) / (# 8 * r_old * (r_old + delta_r))
         - (k' * (r0 * r0 / # 2 - dr * dr / # 8)) * log_of A ((r_old + delta_r) / r_old)) in
    [ gj_z i_n k_n wz0; gj_z (i_n + 1) k_n wz1; gj_r i_n k_n wr0; gj_r i_n (k_n + 1) wr1 ]
  else
    let k := delta_r / delta_z in
    let b := r_old in
    let wz0 := q / (# 2 * gPI * dr / # 4 * dr * dz * dt * dr)
      * (dr * delta_z - k * delta_z * delta_z / # 2 - delta_z * b) in
    let wz1 := gDENSITY_R q dr dr dz dt
      * (k * delta_z * delta_z / # 2 + delta_z * dr + delta_z * b) in
    let k' := - delta_z / delta_r in
    let r0 := (# i_n + ghalf) * dr in
    let r1 := r_old in
    let b1 := (# k_n + # 1) * dz - z_old in
    let d := gDENSITY_Z q r0 dr dz dt in
    let wr0 := d
      * (r0 * k' * delta_r + k' / # 2 * delta_r * (r_old + delta_r / # 2)
         + ghalf * delta_r * (b1 - k' * (# 2 * r0 + r1))
         + delta_r * (b1 - k' * r1) * (# 4 * r0 * r0 - dr * dr) / (# 8 * r_old * (r_old + delta_r))
         + (k' * (r0 * r0 / # 2 - dr * dr / # 8)) * log_of A ((r_old + delta_r) / r_old)) in
    let b2 := z_old - # k_n * dz in
    let wr1 := d
      * (- r0 * k' * delta_r - k' / # 2 * delta_r * (r_old + delta_r / # 2)
         + ghalf * delta_r * (b2 + k' * (# 2 * r0 + r1))
         + delta_r * (b2 + k' * r1) * (# 4 * r0 * r0 - dr * dr) / (# 8 * r_old * (r_old + delta_r))
         - (k' * (r0 * r0 / # 2 - dr * dr / # 8)) * log_of A ((r_old + delta_r) / r_old)) in
    [ gj_z i_n k_n wz0; gj_z (i_n + 1) k_n wz1; gj_r i_n k_n wr0; gj_r i_n (k_n + 1) wr1 ].

(** lines 813-884 *)
Definition gstrict_axial (g : ggeom) (dt q r_new z_new z_old : num) (i_n k_n k_o : Z) : list gjinc :=
  let dr := gdr g in
  let dz := gdz g in
  let value_part := # 2 * gPI * r_new * dr * dz in
  let r1 := r_new - ghalf * dr in
  let r2 := (# i_n + ghalf) * dr in
  let r3 := r_new + ghalf * dr in
  let wj_lower :=
    if (i_n =? 0)%Z
    then q / (dt * gPI * dr * dr / # 4) * gPI * (r2 * r2 - r1 * r1) / value_part
    else q / (dt * # 2 * gPI * # i_n * dr * dr) * gPI * (r2 * r2 - r1 * r1) / value_part in
  let wj_upper :=
    q / (dt * # 2 * gPI * # (i_n + 1) * dr * dr) * gPI * (r3 * r3 - r2 * r2) / value_part in
  let pre := [ gj_r i_n k_n (# 0); gj_r i_n (k_n + 1) (# 0) ] in
  let res_k := (k_n - k_o)%Z in
  if (res_k =? 0)%Z then
    let delta_z := z_new - z_old in
    pre ++ [ gj_z i_n k_n (wj_lower * delta_z); gj_z (i_n + 1) k_n (wj_upper * delta_z) ]
  else if (res_k =? 1)%Z then
    let delta_z := # k_n * dz - z_old in
    let delta_z' := z_new - # k_n * dz in
    pre ++ [ gj_z i_n (k_n - 1) (wj_lower * delta_z); gj_z (i_n + 1) (k_n - 1) (wj_upper * delta_z);
             gj_z i_n k_n (wj_lower * delta_z'); gj_z (i_n + 1) k_n (wj_upper * delta_z') ]
  else if (res_k =? -1)%Z then
    let delta_z := # (k_n + 1) * dz - z_old in
    let delta_z' := z_new - # (k_n + 1) * dz in
    pre ++ [ gj_z i_n (k_n + 1) (wj_lower * delta_z); gj_z (i_n + 1) (k_n + 1) (wj_upper * delta_z);
             gj_z i_n k_n (wj_lower * delta_z'); gj_z (i_n + 1) k_n (wj_upper * delta_z') ]
  else pre.

(** lines 903-908, 924-928, 959-963 *)
Definition gstrict_radial_leg (d_r r0 ro delta_r : num) : num :=
  delta_r - r0 * r0 / (ro + delta_r) + r0 * r0 / ro
  + d_r * d_r / (# 4 * (ro + delta_r)) - d_r * d_r / (# 4 * ro).
(** lines 939-943, 974-978 *)
Definition gstrict_radial_leg2 (d_r r0 : num) (m : Z) (delta_r : num) : num :=
  delta_r - r0 * r0 / (# m * d_r + delta_r) + r0 * r0 / # m * d_r
  + d_r * d_r / (# 4 * (# m * d_r + delta_r)) - d_r * d_r / (# 4 * # m * d_r).

(** lines 886-986 *)
Definition gstrict_radial (g : ggeom) (dt q r_new z_new r_old : num) (i_n k_n i_o : Z) : list gjinc :=
  let dr := gdr g in
  let dz := gdz g in
  let res_i := (i_n - i_o)%Z in
  let left_delta_z := # (k_n + 1) * dz - z_new in
  let right_delta_z := z_new - # k_n * dz in
  if (res_i =? 0)%Z then
    let delta_r := r_new - r_old in
    let r0 := (# i_n + ghalf) * dr in
    let wj := gDENSITY_STRICT q r0 dr dz dt * gstrict_radial_leg dr r0 r_old delta_r in
    [ gj_r i_n k_n (wj * left_delta_z); gj_r i_n (k_n + 1) (wj * right_delta_z) ]
  else if (res_i =? 1)%Z then
    let delta_r := # i_n * dr - r_old in
    let r0 := (# i_n - ghalf) * dr in
    let wj := gDENSITY_STRICT q r0 dr dz dt * gstrict_radial_leg dr r0 r_old delta_r in
    let delta_r' := r_new - # i_n * dr in
    let r0' := (# i_n + ghalf) * dr in
    let wj' := gDENSITY_STRICT q r0' dr dz dt * gstrict_radial_leg2 dr r0' i_n delta_r' in
    [ gj_r (i_n - 1) k_n (wj * left_delta_z); gj_r (i_n - 1) (k_n + 1) (wj * right_delta_z);
      gj_r i_n k_n (wj' * left_delta_z); gj_r i_n (k_n + 1) (wj' * right_delta_z) ]
  else if (res_i =? -1)%Z then
    let delta_r := # (i_n + 1) * dr - r_old in
    let r0 := (# i_n + g3half) * dr in
    let wj := gDENSITY_STRICT q r0 dr dz dt * gstrict_radial_leg dr r0 r_old delta_r in
    let delta_r' := r_new - # (i_n + 1) * dr in
    let r0' := (# i_n + ghalf) * dr in
    let wj' := gDENSITY_STRICT q r0' dr dz dt * gstrict_radial_leg2 dr r0' (i_n + 1) delta_r' in
    [ gj_r (i_n + 1) k_n (wj * left_delta_z); gj_r (i_n + 1) (k_n + 1) (wj * right_delta_z);
      gj_r i_n k_n (wj' * left_delta_z); gj_r i_n (k_n + 1) (wj' * right_delta_z) ]
  else [].

(** lines 786-988 *)
Definition gstrict_motion (g : ggeom) (dt q r_new z_new r_old z_old : num) : list gjinc :=
  let i_n := gcell r_new (gdr g) in
  let k_n := gcell z_new (gdz g) in
  let i_o := gcell r_old (gdr g) in
  let k_o := gcell z_old (gdz g) in
  if absv A (r_new - r_old) <? gMNZL then
    if absv A (z_new - z_old) <? gMNZL then []
    else gstrict_axial g dt q r_new z_new z_old i_n k_n k_o
  else if absv A (z_new - z_old) <? gMNZL then
    gstrict_radial g dt q r_new z_new r_old i_n k_n i_o
  else [].

(** lines 496-499 *)
Definition gtie_cells (d pn po : num) : Z * Z :=
  let c_n := gcell pn d in
  let c_o := gcell po d in
  let c_o := if eqb A po (# (c_o + 1) * d) then c_n else c_o in
  let c_n := if eqb A pn (# (c_n + 1) * d) then c_o else c_n in
  (c_n, c_o).

(** lines 516-572 *)
Definition gcurrent_one_border (g : ggeom) (dt q r_n z_n r_o z_o : num) (i_n k_n i_o k_o : Z) : list gjinc :=
  let dr := gdr g in
  let dz := gdz g in
  let simple := gsimple_current g dt q in
  if negb (i_n =? i_o)%Z && (k_n =? k_o)%Z then
    if # (i_n + 1) * dr <? r_o then
      let a := (r_o - r_n) / (z_o - z_n) in
      let r_boundary := # (i_n + 1) * dr in
      let delta_r := r_boundary - r_n in
      let z_boundary := z_n + delta_r / a in
      simple r_boundary z_boundary r_o z_o (i_n + 1)%Z k_n ++
      simple r_n z_n r_boundary z_boundary i_n k_n
    else
      let a := (r_n - r_o) / (z_n - z_o) in
      let r_boundary := # i_n * dr in
      let delta_r := r_boundary - r_o in
      let z_boundary := z_o + delta_r / a in
      simple r_boundary z_boundary r_o z_o (i_n - 1)%Z k_n ++
      simple r_n z_n r_boundary z_boundary i_n k_n
  else if (i_n =? i_o)%Z && negb (k_n =? k_o)%Z then
    if z_o <? # k_n * dz then
      let z_boundary := # k_n * dz in
      let delta_z := z_boundary - z_o in
      let a := (r_n - r_o) / (z_n - z_o) in
      let r_boundary := r_o + a * delta_z in
      simple r_boundary z_boundary r_o z_o i_n (k_n - 1)%Z ++
      simple r_n z_n r_boundary z_boundary i_n k_n
    else
      let z_boundary := # (k_n + 1) * dz in
      let delta_z := z_boundary - z_n in
      let a := (r_o - r_n) / (z_o - z_n) in
      let r_boundary := r_n + a * delta_z in
      simple r_boundary z_boundary r_o z_o i_n (k_n + 1)%Z ++
      simple r_n z_n r_boundary z_boundary i_n k_n
  else [].

(** lines 573-681 *)
Definition gcurrent_two_borders (g : ggeom) (dt q r_n z_n r_o z_o : num) (i_n k_n i_o k_o : Z) : list gjinc :=
  let dr := gdr g in
  let dz := gdz g in
  let simple := gsimple_current g dt q in
  if (i_o <? i_n)%Z then
    if (k_o <? k_n)%Z then
      let a := (r_n - r_o) / (z_n - z_o) in
      let r1 := # i_n * dr in
      let delta_z1 := (r1 - r_o) / a in
      let z1 := z_o + delta_z1 in
      let z2 := # k_n * dz in
      let delta_r2 := (z2 - z_o) * a in
      let r2 := r_o + delta_r2 in
      if z1 <? # k_n * dz then
        simple r1 z1 r_o z_o (i_n - 1)%Z (k_n - 1)%Z ++
        simple r2 z2 r1 z1 i_n (k_n - 1)%Z ++
        simple r_n z_n r2 z2 i_n k_n
      else if # k_n * dz <? z1 then
        simple r2 z2 r_o z_o (i_n - 1)%Z (k_n - 1)%Z ++
        simple r1 z1 r2 z2 (i_n - 1)%Z k_n ++
        simple r_n z_n r1 z1 i_n k_n
      else []
    else
      let a := (r_n - r_o) / (z_n - z_o) in
      let r1 := # i_n * dr in
      let delta_z1 := (r1 - r_o) / a in
      let z1 := z_o + delta_z1 in
      let z2 := # (k_n + 1) * dz in
      let delta_r2 := - (z_o - z2) * a in
      let r2 := r_o + delta_r2 in
      if # (k_n + 1) * dz <? z1 then
        simple r1 z1 r_o z_o (i_n - 1)%Z (k_n + 1)%Z ++
        simple r2 z2 r1 z1 i_n (k_n + 1)%Z ++
        simple r_n z_n r2 z2 i_n k_n
      else if z1 <? # (k_n + 1) * dz then
        simple r2 z2 r_o z_o (i_n - 1)%Z (k_n + 1)%Z ++
        simple r1 z1 r2 z2 (i_n - 1)%Z k_n ++
        simple r_n z_n r1 z1 i_n k_n
      else []
  else if (i_n <? i_o)%Z then
    if (k_o <? k_n)%Z then
      let a := (r_n - r_o) / (z_n - z_o) in
      let r1 := # (i_n + 1) * dr in
      let delta_z1 := - (r_o - r1) / a in
      let z1 := z_o + delta_z1 in
      let z2 := # k_n * dz in
      let delta_r2 := - (z2 - z_o) * a in
      let r2 := r_o - delta_r2 in
      if z1 <? # k_n * dz then
        simple r1 z1 r_o z_o (i_n + 1)%Z (k_n - 1)%Z ++
        simple r2 z2 r1 z1 i_n (k_n - 1)%Z ++
        simple r_n z_n r2 z2 i_n k_n
      else if # k_n * dz <? z1 then
        simple r2 z2 r_o z_o (i_n + 1)%Z (k_n - 1)%Z ++
        simple r1 z1 r2 z2 (i_n + 1)%Z k_n ++
        simple r_n z_n r1 z1 i_n k_n
      else []
    else if (k_n <? k_o)%Z then
      let a := (r_o - r_n) / (z_o - z_n) in
      let r1 := # (i_n + 1) * dr in
      let delta_z1 := (r1 - r_n) / a in
      let z1 := z_n + delta_z1 in
      let z2 := # (k_n + 1) * dz in
      let delta_r2 := (z2 - z_n) * a in
      let r2 := r_n + delta_r2 in
      if # (k_n + 1) * dz <? z1 then
        simple r1 z1 r_o z_o (i_n + 1)%Z (k_n + 1)%Z ++
        simple r2 z2 r1 z1 i_n (k_n + 1)%Z ++
        simple r_n z_n r2 z2 i_n k_n
      else if z1 <? # (k_n + 1) * dz then
        simple r2 z2 r_o z_o (i_n + 1)%Z (k_n + 1)%Z ++
        simple r1 z1 r2 z2 (i_n + 1)%Z k_n ++
        simple r_n z_n r1 z1 i_n k_n
      else []
    else []
  else [].

(** lines 482-685 *)
Definition gcurrent_single (g : ggeom) (dt q r_n z_n r_o z_o : num) : list gjinc :=
  let '(i_n, i_o) := gtie_cells (gdr g) r_n r_o in
  let '(k_n, k_o) := gtie_cells (gdz g) z_n z_o in
  let res_cell := (Z.abs (i_n - i_o) + Z.abs (k_n - k_o))%Z in
  if absv A (r_n - r_o) <? gMNZL then gstrict_motion g dt q r_n z_n r_o z_o
  else if absv A (z_n - z_o) <? gMNZL then gstrict_motion g dt q r_n z_n r_o z_o
  else if (res_cell =? 0)%Z then gsimple_current g dt q r_n z_n r_o z_o i_n k_n
  else if (res_cell =? 1)%Z then gcurrent_one_border g dt q r_n z_n r_o z_o i_n k_n i_o k_o
  else if (res_cell =? 2)%Z then gcurrent_two_borders g dt q r_n z_n r_o z_o i_n k_n i_o k_o
  else [].

(** lines 688-784 *)
Definition gazimuthal_single (g : ggeom) (q v_phi r z : num) : list gjinc :=
  let dr := gdr g in
  let dz := gdz g in
  let r_i := gcell r dr in
  let z_k := gcell z dz in
  let dz1 := (# z_k + ghalf) * dz - (z - ghalf * dz) in
  let dz2 := (z + ghalf * dz) - (# z_k + ghalf) * dz in
  let r1 := r - ghalf * dr in
  let r2 := (# r_i + ghalf) * dr in
  let r3 := r + ghalf * dr in
  let ro_v := q / (# 2 * gPI * dz * dr * r) in
  let v_1 := if dr <? r then gCELL_VOLUME r_i dr dz else gCYL_VOL dz dr in
  let v_2 := gCELL_VOLUME (r_i + 1) dr dz in
  [ gj_phi r_i z_k (gRNG ro_v dz1 r1 r2 v_1 * v_phi); gj_phi (r_i + 1) z_k (gRNG ro_v dz1 r2 r3 v_2 * v_phi);
    gj_phi r_i (z_k + 1) (gRNG ro_v dz2 r1 r2 v_1 * v_phi); gj_phi (r_i + 1) (z_k + 1) (gRNG ro_v dz2 r2 r3 v_2 * v_phi) ].

End Gen.
