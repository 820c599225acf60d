(** Model of the loading of plasma particles, src/particles.cpp lines 228-331.
    The random source is an argument (a list of values); with TESTMODE it is the sequence of
    Model/Rand.v. *)
From Coq Require Import Reals ZArith List.
From Verif.Lib Require Import RAux.
From Verif.Model Require Import Constants Geometry Pusher.
Import ListNotations.
Local Open Scope R_scope.

(** What the loading assigns for one macroparticle: pos[n][0], pos[n][2], charge_array[n],
    mass_array[n]. *)
Record macro := Macro { m_r : R; m_z : R; m_charge : R; m_mass : R }.

(** line 296 *)
Definition load_r (g : geom) (rand_r : R) : R := (r_size g - dr g) * rand_r + dr g / 2.

(** lines 298-303 *)
Definition load_z (g : geom) (n1 n2 left rand_z : R) : R :=
  let dn := n2 - n1 in
  if Req_EM_T dn 0 then rand_z * (z_size g - dz g) + left + dz g / 2
  else (z_size g - left - dz g) / dn * (sqrt (n1 ^ 2 + rand_z * (2 * n1 * dn + dn ^ 2)) - n1)
       + left + dz g / 2.

(** lines 320-323: the numerator of norm *)
Definition norm_volume (g : geom) (r : R) : R :=
  if Rlt_dec (dr g / 2) r then 2 * c_PI * r * dr g * dz g
  else c_PI * (r * r + r * dr g + dr g * dr g / 4) * dz g.

(** lines 288-331: load_cylindrical_spatial_distribution; [rands] has [number] elements
    (rand_r, rand_z). *)
Definition load_cylindrical (g : geom) (n1 n2 left charge mass : R) (rands : list (R * R)) : list macro :=
  let number := INR (length rands) in
  let v_sum := rsum (map (fun x => 2 * c_PI * load_r g (fst x) * dr g * dz g) rands) in
  let v_avg := v_sum / number in
  let N_total := (n1 + n2) / 2 * c_PI * r_size g * r_size g * z_size g in
  let n_per_macro_avg := N_total / number in
  map (fun x =>
         let r := load_r g (fst x) in
         let n_per_macro := n_per_macro_avg * (norm_volume g r / v_avg) in
         Macro r (load_z g n1 n2 left (snd x)) (charge * n_per_macro) (mass * n_per_macro)) rands.

(** lines 237-272: velocity_distribution, the loop body for one particle; energy is
    energies[p] (src/math/maxwellJuttner.cpp, not modelled here), rnd the three random
    numbers. *)
Definition thermal_velocity (mass energy : R) (rnd : vec3) : vec3 :=
  let therm_vel_el := sqrt (2 * EL_CHARGE * energy / mass) * (74 / 100) in
  let v := V3 (v0 rnd * therm_vel_el) (v1 rnd * therm_vel_el) (v2 rnd * therm_vel_el) in
  V3 (v0 v * get_gamma_inv (v0 v * v0 v)) (v1 v * get_gamma_inv (v1 v * v1 v))
     (v2 v * get_gamma_inv (v2 v * v2 v)).
