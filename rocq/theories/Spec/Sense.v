(** The mirror image of a simulation in a plane through the axis: what goes around the axis one way goes around the other way.
    Positions, velocities, currents and electric field change the sign of their component around the axis; the magnetic field, which is an axial
    vector, keeps that component and changes the sign of the other two. *)
From Coq Require Import Reals ZArith List.
From Verif.Lib Require Import RAux Outcome Grid.
From Verif.Model Require Import Geometry ChargeDeposit CurrentDeposit Fields Pusher Motion Dump Sim.
Import ListNotations.
Local Open Scope R_scope.

Definition image_v (v : vec3) : vec3 := V3 (v0 v) (- v1 v) (v2 v).
Definition image_axial (v : vec3) : vec3 := V3 (- v0 v) (v1 v) (- v2 v).
Definition image_phase (p : phase) : phase := Phase (image_v (pos p)) (image_v (vel p)) (r_old p) (z_old p) (- sin_theta p).
Definition image_particle (p : particle) : particle := Particle (p_alive p) (p_charge p) (p_mass p) (image_phase (p_phase p)).
Definition image_group (x : group) : group := Group (g_bunch x) (map image_particle (g_parts x)).

(** The sign of each array in the image; the number of each array a probe can show as in src/loadInitParam.cpp lines 338-361 *)
Definition sign_field (a : farr) : R := match a with EPHI | HR | HZ | HRH | HZH | JPHI => -1 | _ => 1 end.
Definition sign_current (c : jcomp) : R := match c with J_PHI => -1 | _ => 1 end.
Definition sign_shown (c : component) : R :=
  match c with CArray n => if ((n =? 1) || (n =? 3) || (n =? 5) || (n =? 7))%Z%bool then -1 else 1 | _ => 1 end.

Definition image_fields (m m' : fmem) : Prop := forall a i k, m' (a, i, k) = sign_field a * m (a, i, k).
Definition image_currents (j j' : currents) : Prop := forall c i k, j' c i k = sign_current c * j c i k.
(** A probe has shown the image: its files hold the same numbers, with the sign of what it shows *)
Definition image_probe (x x' : probe * files) : Prop :=
  fst x' = fst x /\ forall n, snd x' n = map (Rmult (sign_shown (pr_component (fst x)))) (snd x n).

Definition image (s s' : sim) : Prop :=
  image_fields (s_fields s) (s_fields s') /\ image_currents (s_current s) (s_current s') /\ s_rho_bunch s' = s_rho_bunch s /\
  s_groups s' = map image_group (s_groups s) /\ s_bunch_number s' = s_bunch_number s /\ Forall2 image_probe (s_probes s) (s_probes s').

(** Two ways to end are images: both normal with images, or the same exit code, or both undefined *)
Definition image_outcome (o o' : outcome sim) : Prop :=
  match o, o' with Ok s, Ok s' => image s s' | Exit c, Exit c' => c = c' | UB, UB => True | _, _ => False end.

(** Nothing goes around the axis: all particles move in planes through the axis, and the fields and currents that go with motion around it are zero. *)
Definition no_rotation (s : sim) : Prop :=
  (forall i k, s_fields s (EPHI, i, k) = 0 /\ s_fields s (HR, i, k) = 0 /\ s_fields s (HZ, i, k) = 0 /\ s_fields s (HRH, i, k) = 0 /\
     s_fields s (HZH, i, k) = 0 /\ s_fields s (JPHI, i, k) = 0 /\ s_current s J_PHI i k = 0) /\
  Forall (fun x => Forall (fun p => v1 (pos (p_phase p)) = 0 /\ v1 (vel (p_phase p)) = 0 /\ sin_theta (p_phase p) = 0) (g_parts x)) (s_groups s).
