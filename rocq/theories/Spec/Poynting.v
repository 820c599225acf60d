(** Specification side of the energy balance with currents and conductivity (C76): Poynting's theorem. *)
From Coq Require Import Reals ZArith List.
From Verif.Lib Require Import RAux Grid.
From Verif.Model Require Import Constants Geometry Fields Pml.
From Verif.Spec Require Import Cloud Continuity Maxwell.
Import ListNotations.
Local Open Scope R_scope.

(** Sum over all components of the electric field that no wall fixes, each times the volume that belongs to it. *)
Definition e_sum (g : geom) (f : farr -> Z -> Z -> R) : R :=
  sum2 0 (n_r g - 1) 1 (n_z g - 1) (fun i k => half_volume (dr g) (dz g) i * f ER i k)
  + sum2 1 (n_r g - 1) 1 (n_z g - 1) (fun i k => node_volume (dr g) (dz g) i * f EPHI i k)
  + sum2 0 (n_r g - 1) 0 (n_z g - 1) (fun i k => node_volume (dr g) (dz g) i * f EZ i k).

(** The electric field in the middle of a step, as the mean of the fields m before and m' after it. *)
Definition mean (m m' : fmem) (a : farr) (i k : Z) : R := (m (a, i, k) + m' (a, i, k)) / 2.

(** The current density that belongs to a component of the electric field. *)
Definition density (j : currents3) (a : farr) : arr :=
  match a with ER => cur_r j | EPHI => cur_phi j | EZ => cur_z j | _ => zero_arr end.

(** Heat produced in one step of length dt: sigma E^2. *)
Definition heat (g : geom) (md : medium) (dt : R) (m m' : fmem) : R :=
  dt * e_sum g (fun a i k => sigma md i k * (mean m m' a i k * mean m m' a i k)).
(** Work of the field on the currents in one step: J E. *)
Definition work (g : geom) (dt : R) (j : currents3) (m m' : fmem) : R :=
  dt * e_sum g (fun a i k => density j a i k * mean m m' a i k).
(** Heat and work of a whole run. *)
Fixpoint spent (g : geom) (md : medium) (dt : R) (js : list currents3) (m : fmem) : R :=
  match js with
  | [] => 0
  | j :: js => let m' := field_step g md dt j m in heat g md dt m m' + work g dt j m m' + spent g md dt js m'
  end.

(** The size of a current: the root of the integral of J^2. *)
Definition current_size (g : geom) (j : currents3) : R := sqrt (e_sum g (fun a i k => density j a i k * density j a i k)).
Definition total_size (g : geom) (js : list currents3) : R := fold_right (fun j s => current_size g j + s) 0 js.

(** A medium in which the update divides by no zero, and one that takes no energy from nowhere. *)
Definition regular (g : geom) (md : medium) (dt : R) : Prop := forall i k, (0 <= i < n_r g)%Z -> (0 <= k < n_z g)%Z ->
  2 * epsilon md i k * EPSILON0 + sigma md i k * dt <> 0.
Definition passive (g : geom) (md : medium) : Prop := forall i k, (0 <= i < n_r g)%Z -> (0 <= k < n_z g)%Z -> 1 <= epsilon md i k /\ 0 <= sigma md i k.

(** Vacuum with a conductivity given as extended numbers (Model/Pml.v); infinities and not-a-number are read as zero. *)
Definition layered (s : Z -> Z -> Pml.ext) : medium :=
  Medium (fun _ _ => 1) (fun i k => match s i k with Pml.Fin x => x | _ => 0 end).
