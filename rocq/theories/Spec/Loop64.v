(** Specification side of whole runs in double precision without an assumption about the fields (C79). *)
From Coq Require Import Reals ZArith List.
From Flocq Require Import Core IEEE754.BinarySingleNaN.
From Verif.Lib Require Import RAux Grid Outcome Par.
From Verif.Model Require Import Binary64 Temperature64 Arith Geometry Fields Pusher GenCode GenRun GenSim.
From Verif.Spec Require Import Field64 Short Double.
Import ListNotations.
Local Open Scope R_scope.

Section Loop64.
Variables pw lg : b64 -> b64.
Notation A := (b64_arith pw lg).
Notation real x := (@B2R prec64 emax64 x).

(** Fields and currents that are numbers of size b at most, everywhere in the tube. *)
Definition field_array (a : farr) : Prop := In a [ER; EPHI; EZ; HR; HPHI; HZ; HRH; HPHIH; HZH; JR; JPHI; JZ].
Definition mild (b : R) (g : ggeom A) (m : gmem A) : Prop := forall a i k, field_array a -> inside A g i k = true ->
  @is_finite prec64 emax64 (m (a, i, k)) = true /\ Rabs (real (m (a, i, k))) <= b.

(** A particle with a charge between 2^-200 C and Q. *)
Definition laden (Q : R) (p : gparticle A) : Prop :=
  @is_finite prec64 emax64 (gcharge A p) = true /\ bpow radix2 (-200) <= Rabs (real (gcharge A p)) <= Q.
(** A live particle half a cell away from the wall, up to 1/4096 of a cell. *)
Definition off_wall (g : ggeom A) (p : gparticle A) : Prop := galive A p = true ->
  let d := real (gdr A g) in real (g0 A (gpos A (gph A p))) <= IZR (gn_r A g - 1) * d - d / 2 + d / 4096.

(** All the particles that there will ever be: those at the start and those of the bunches. *)
Definition crowd (c : config A) (s : gsim A) : list (gparticle A) := parts pw lg s ++ flat_map (c_bunch A c) (zrange 0 (c_bunches A c)).

(** A configuration and a state from which n steps are made: cell numbers that agree with the borders (C78), a step in which light passes
    at most 1/40 of a cell, a medium of C77, and not too many particles of not too much charge for not too many steps. *)
Record contained (c : config A) (n : nat) (s : gsim A) (theta K Q : R) : Prop := Contained {
  ct_pusher : c_pusher A c = BorisRelativistic \/ c_pusher A c = BorisAdaptive true;
  ct_fine : fine pw lg (c_geom A c) (c_dt A c);
  ct_clear_r : clear_axis pw lg (gn_r A (c_geom A c)) (gdr A (c_geom A c));
  ct_clear_z : clear_axis pw lg (gn_z A (c_geom A c)) (gdz A (c_geom A c));
  ct_step_r : 300000000 * real (c_dt A c) <= real (gdr A (c_geom A c)) / 40;
  ct_step_z : 300000000 * real (c_dt A c) <= real (gdz A (c_geom A c)) / 40;
  ct_metre : real (gdr A (c_geom A c)) <= 1;
  ct_steady : steady pw lg (c_geom A c) (c_medium A c) (c_dt A c) theta K;
  ct_mild : mild (bpow radix2 100) (c_geom A c) (gs_fields A s);
  ct_walled : walled pw lg (c_geom A c) (gs_fields A s);
  ct_Q : bpow radix2 (-200) <= Q <= bpow radix2 200;
  ct_laden : forall p, In p (crowd c s) -> laden Q p;
  ct_off_wall : forall p, In p (parts pw lg s) -> off_wall (c_geom A c) p;
  ct_many : INR (length (crowd c s)) <= bpow radix2 46;
  ct_charge : INR n * (INR (length (crowd c s)) * Q) <= bpow radix2 30;
  ct_steps : INR n * (K / theta) <= bpow radix2 42 }.
End Loop64.
