(** The loading of plasma particles (src/particles.cpp lines 228-331, src/math/rand.cpp lines 34-53) and of a bunch (src/bunch.cpp lines 6-80) over an arithmetic that is a parameter
    (Model/Arith.v). Counterparts over the real numbers: Model/Loading.v, Model/Rand.v, Model/Bunch.v; Proof/GenLoadP.v proves that this is
    the same when the arithmetic is that of the real numbers. Operations in the order of the C++ text. *)
From Coq Require Import ZArith List Bool.
From Verif.Lib Require Import Outcome Par.
From Verif.Model Require Import Arith GenCode.
Import ListNotations.

Section GenLoad.
Variable A : arith.
(** pow((double)b, -k) of the C library, for whole numbers b and k. *)
Variable ipow : Z -> Z -> num A.
Local Notation num := (num A).
Local Notation "x + y" := (add A x y) : num_scope.
Local Notation "x - y" := (sub A x y) : num_scope.
Local Notation "x * y" := (mul A x y) : num_scope.
Local Notation "x / y" := (div A x y) : num_scope.
Local Notation "# n" := (of_int A n%Z) (at level 5, n at level 0).
Local Open Scope num_scope.

(** src/math/rand.cpp lines 43-51. int_vel is an int: the division of int_vel - ost by power is made in double and converted back; it is exact,
    because the remainder has been subtracted and both numbers are below 2^31. [None]: not at its end after [fuel] rounds. *)
Fixpoint grr_loop (fuel : nat) (int_vel power order : Z) (r : num) : option num :=
  if (1 <=? int_vel)%Z then
    match fuel with
    | O => None
    | S fuel' =>
        let ost := Z.rem int_vel power in
        grr_loop fuel' (Z.quot (int_vel - ost) power) power (order + 1) (r + # ost * ipow power order)
    end
  else Some r.
(** lines 37-53. The first argument is a whole number at every call. An int has 31 digits at most. *)
Definition grandom_reverse (vel power : Z) : option num := grr_loop 32 vel power 1 (# 0).

(** src/particles.cpp lines 288-293: rand_r and rand_z of particle n *)
Definition gload_rand (number n : Z) : option (num * num) :=
  match grandom_reverse n 13, grandom_reverse (number - 1 - n) 11 with
  | Some x, Some y => Some (x, y)
  | _, _ => None
  end.
Fixpoint gload_rands (number : Z) (ns : list Z) : option (list (num * num)) :=
  match ns with
  | [] => Some []
  | n :: ns' =>
      match gload_rand number n, gload_rands number ns' with
      | Some x, Some l => Some (x :: l)
      | _, _ => None
      end
  end.

(** line 297 *)
Definition gload_r (g : ggeom A) (rand_r : num) : num := (gr_size A g - gdr A g) * rand_r + gdr A g / # 2.
(** lines 299-304. pow(x, 2) is x * x: compilers replace it, and C libraries round it correctly. *)
Definition gload_z (g : ggeom A) (n1 n2 left rand_z : num) : num :=
  let dn := n2 - n1 in
  if eqb A dn (# 0) then rand_z * (gz_size A g - gdz A g) + left + gdz A g / # 2
  else (gz_size A g - left - gdz A g) / dn * (root A (n1 * n1 + rand_z * (# 2 * n1 * dn + dn * dn)) - n1) + left + gdz A g / # 2.
(** line 306 *)
Definition gring (g : ggeom A) (r : num) : num := # 2 * gPI A * r * gdr A g * gdz A g.
(** line 306 in the loop of line 288 *)
Definition gv_sum (g : ggeom A) (rs : list num) : num := fold_left (fun s r => s + gring g r) rs (# 0).
(** lines 310-313 *)
Definition gv_avg (g : ggeom A) (rs : list num) : num := gv_sum g rs / # (Z.of_nat (length rs)).
Definition gn_total (g : ggeom A) (n1 n2 : num) : num := (n1 + n2) / # 2 * gPI A * gr_size A g * gr_size A g * gz_size A g.
(** lines 320-323 *)
Definition gnorm (g : ggeom A) (v_avg r : num) : num :=
  if ltb A (gdr A g / # 2) r then # 2 * gPI A * r * gdr A g * gdz A g / v_avg
  else gPI A * (r * r + r * gdr A g + gdr A g * gdr A g / # 4) * gdz A g / v_avg.
(** line 326 *)
Definition gn_per_macro (g : ggeom A) (n1 n2 : num) (rs : list num) (r : num) : num :=
  gn_total g n1 n2 / # (Z.of_nat (length rs)) * gnorm g (gv_avg g rs) r.

(** include/constant.h line 16: 1.6E-19 (5^20 is below 2^53, so the quotient is the literal correctly rounded) *)
Definition gEL_CHARGE : num := lit A 16 (10 ^ 20).
(** lines 237-272 for one particle; the energy comes from maxwellJuttner, [rnd] are the three random numbers *)
Definition gthermal (mass energy : num) (rnd : gvec A) : gvec A :=
  let t := root A (# 2 * gEL_CHARGE * energy / mass) * lit A 74 100 in
  let x := g0 A rnd * t in
  let y := g1 A rnd * t in
  let z := g2 A rnd * t in
  GV A (x * gget_gamma_inv A (x * x)) (y * gget_gamma_inv A (y * y)) (z * gget_gamma_inv A (z * z)).

(** What is drawn for the velocity of a particle, and what is in the memory of pos_old and sin_theta_r, which nobody initialises. *)
Record draw := Draw { d_energy : num; d_rnd : gvec A; d_r_old : num; d_z_old : num; d_sin : num }.

(** src/particles.cpp lines 22-55 (is_alive), 278-331, 228-272: the particles of one species. charge and mass are those of the object. *)
Definition gload_one (g : ggeom A) (n1 n2 charge mass : num) (rs : list num) (x : num * num) (d : draw) : gparticle A :=
  let r := gload_r g (fst x) in
  let n := gn_per_macro g n1 n2 rs r in
  GParticle A true (charge * n) (mass * n)
    (GPhase A (GV A r (# 0) (gload_z g n1 n2 (# 0) (snd x))) (gthermal mass (d_energy d) (d_rnd d)) (d_r_old d) (d_z_old d) (d_sin d)).
Definition gload_group (g : ggeom A) (n1 n2 charge mass : num) (draws : list draw) : option (list (gparticle A)) :=
  let number := Z.of_nat (length draws) in
  match gload_rands number (zrange 0 number) with
  | Some rands =>
      let rs := map (fun x => gload_r g (fst x)) rands in
      Some (map (fun y => gload_one g n1 n2 charge mass rs (fst y) (snd y)) (combine rands draws))
  | None => None
  end.

(** ** A bunch (src/bunch.cpp lines 6-80, TESTMODE)
    line 41 *)
Definition gbunch_r (g : ggeom A) (radius rand_r : num) : num := (radius - gdr A g) * rand_r + gdr A g / # 2.
(** lines 50-53 *)
Definition gbunch_volume (g : ggeom A) (r : num) : num :=
  if ltb A (gdr A g) r then # 2 * gPI A * r * gdr A g * gdz A g else gPI A * r * r * gdz A g.
(** lines 28, 30. pow(radius, 2) is radius * radius. *)
Definition gbunch_total (duration radius density velocity : num) : num := gPI A * (radius * radius) * (duration * velocity) * density.
(** lines 34-54, 57 *)
Definition gbunch_avg (g : ggeom A) (rs : list num) : num := fold_left (fun s r => s + gbunch_volume g r) rs (# 0) / # (Z.of_nat (length rs)).
(** lines 58-70 *)
Definition gbunch_count (g : ggeom A) (total : num) (rs : list num) (r : num) : num := total / # (Z.of_nat (length rs)) * gnorm g (gbunch_avg g rs) r.
(** lines 41-48, 73-74. [d_r_old], [d_z_old], [d_sin] are what is in memory. *)
Definition gbunch_one (g : ggeom A) (charge mass total : num) (rs : list num) (r : num) (d : draw) : gparticle A :=
  let n := gbunch_count g total rs r in
  GParticle A false (charge * n) (mass * n) (GPhase A (GV A r (# 0) (# 0)) (GV A (# 0) (# 0) (# 0)) (d_r_old d) (d_z_old d) (d_sin d)).
Fixpoint gbunch_rands (ns : list Z) : option (list num) :=
  match ns with
  | [] => Some []
  | n :: ns' => match grandom_reverse n 9, gbunch_rands ns' with Some x, Some l => Some (x :: l) | _, _ => None end
  end.
Definition gbunch_load (g : ggeom A) (charge mass duration radius density velocity : num) (draws : list draw) : option (list (gparticle A)) :=
  match gbunch_rands (zrange 0 (Z.of_nat (length draws))) with
  | Some rands =>
      let rs := map (gbunch_r g radius) rands in
      Some (map (fun y => gbunch_one g charge mass (gbunch_total duration radius density velocity) rs (fst y) (snd y)) (combine rs draws))
  | None => None
  end.
(** line 106 at injection: random_reverse(start_number + i, 11); the argument is the number of a particle, so an int that is not negative. *)
Definition ginject_rand (x : Z) : num :=
  if ((0 <=? x) && (x <? 2 ^ 31))%Z%bool then match grandom_reverse x 11 with Some y => y | None => # 0 end else # 0.
End GenLoad.
