(** What it means that the memory of the parallel program (Model/GenRun.v, real numbers) shows a state of the
    simulation (Model/Sim.v). *)
From Coq Require Import Reals ZArith List.
From Verif.Model Require Import CurrentDeposit Fields Pusher Motion Sim Arith GenRun.
From Verif.Model Require Bunch.
From Verif.Lib Require Import RAux.
Local Open Scope R_scope.

Notation rmemory := (place -> value real_arith).
Notation number := (VN real_arith).

Record in_memory (m : rmemory) (s : sim) : Prop := InMemory {
  im_field : forall a i k, a <> JR -> a <> JPHI -> a <> JZ -> m (FLD (a, i, k)) = number (s_fields s (a, i, k));
  im_jr : forall i k, m (FLD (JR, i, k)) = number (s_current s J_R i k);
  im_jphi : forall i k, m (FLD (JPHI, i, k)) = number (s_current s J_PHI i k);
  im_jz : forall i k, m (FLD (JZ, i, k)) = number (s_current s J_Z i k);
  im_rho : forall i k, exists x, m (RHO RHO_BUNCH i k) = number x;
  im_particle : forall n x i p, nth_error (s_groups s) n = Some x -> nth_error (g_parts x) i = Some p ->
    let at_ := fun f => m (PT n (Z.of_nat i) f) in
    let ph := p_phase p in
    at_ ALIVE = VB real_arith (p_alive p) /\ at_ CHARGE = number (p_charge p) /\ at_ MASS = number (p_mass p) /\
    at_ POS0 = number (v0 (pos ph)) /\ at_ POS1 = number (v1 (pos ph)) /\ at_ POS2 = number (v2 (pos ph)) /\
    at_ VEL0 = number (v0 (vel ph)) /\ at_ VEL1 = number (v1 (vel ph)) /\ at_ VEL2 = number (v2 (vel ph)) /\
    at_ OLD0 = number (r_old ph) /\ at_ OLD2 = number (z_old ph) /\ at_ SIN = number (sin_theta ph) }.

(** The number of the first particle that bunch [n] injects at time [t] (src/bunch.cpp lines 89-95). *)
Definition first_injected (su : setup) (n : Z) (t : R) : Z :=
  let b := Bunch.bunch_of (su_beam su) n in
  let begin := Bunch.b_duration b * Bunch.b_bunch_number b + Bunch.b_hole b * Bunch.b_bunch_number b in
  let in_step := (Bunch.b_number b / ceilZ (Bunch.b_duration b / su_dt su))%Z in
  Bunch.truncZ ((t - begin) / su_dt su * IZR in_step).

(** Built with TESTMODE (src/bunch.cpp lines 106-107): the position of an injected particle comes from a function [f] of
    its number. *)
Definition testmode (su : setup) (f : Z -> R) : Prop :=
  forall n t i, su_rand_z su n t i = f (i + first_injected su n t)%Z.
