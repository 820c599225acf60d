(** Speed and momentum of a particle whose velocity is given by doubles. Independent of the code. *)
From Coq Require Import Reals ZArith.
From Flocq Require Import Core IEEE754.BinarySingleNaN.
From Coq Require Import List.
From Verif.Lib Require Import Outcome.
From Verif.Model Require Import Binary64 Arith Fields Pusher GenCode GenRun GenSim.
From Verif.Spec Require Import Double.
Local Open Scope R_scope.

(** The length of a vector *)
Definition length3 (x y z : R) : R := sqrt (x * x + y * y + z * z).
(** The relativistic momentum of a unit mass at a given speed; the program's speed of light is 3 * 10^8 m/s. *)
Definition momentum_at (s : R) : R := s / sqrt (1 - s * s / (300000000 * 300000000)).

(** The Lorentz factor of a given momentum *)
Definition lorentz (w : R) : R := sqrt (1 + w * w / (300000000 * 300000000)).

Section Momentum.
Variables pw lg : b64 -> b64.
Notation A := (b64_arith pw lg).
Definition finite3 (v : gvec A) : Prop :=
  @is_finite prec64 emax64 (g0 A v) = true /\ @is_finite prec64 emax64 (g1 A v) = true /\ @is_finite prec64 emax64 (g2 A v) = true.
Definition size3 (v : gvec A) : R := length3 (@B2R prec64 emax64 (g0 A v)) (@B2R prec64 emax64 (g1 A v)) (@B2R prec64 emax64 (g2 A v)).
Definition momentum (v : gvec A) : R := momentum_at (size3 v).

(** pow(x, -1/2) with a relative error of at most a units 2^-53, from 1 on *)
Definition close_pow (a : R) : Prop := forall x : b64, is_finite x = true -> 1 <= B2R x ->
  is_finite (pw x) = true /\ Rabs (B2R (pw x) * sqrt (B2R x) - 1) <= a * bpow radix2 (-53).

(** The momentum that an electric field gives to a unit of mass in one step *)
Definition impulse (q m dt : b64) (e : gvec A) : R := Rabs (B2R q) * B2R dt / B2R m * size3 e.

(** The error of one step, in momentum per mass, for particles of momentum at most b: relative, from roundings and from
    pow; absolute, because components below 10^-15 m/s are taken as zero. *)
Definition step_error (a b : R) : R :=
  let g := lorentz (b + 1) in (8 * a + 1100) * bpow radix2 (-53) * (g * g) * b + 2 / 100000000000000 * (g * g * g).

(** b is a momentum that the program can cope with: the Lorentz factor g is at most 3 10^5, roughly, for good pow functions. *)
Definition copes (a b : R) : Prop := let g := lorentz (b + 1) in (8 * a + 1024) * bpow radix2 (-53) * (g * g) <= / 64.

(** Pushes of one particle, one after the other, by the given electric and magnetic fields *)
Fixpoint pushes (dt q m : b64) (fs : list (gvec A * gvec A)) (v : gvec A) : outcome (gvec A) :=
  match fs with
  | nil => Ok v
  | (e, h) :: rest => bind (gboris_push A true dt q m e h v) (pushes dt q m rest)
  end%list.
Fixpoint total_impulse (q m dt : b64) (fs : list (gvec A * gvec A)) : R :=
  match fs with nil => 0 | f :: rest => impulse q m dt (fst f) + total_impulse q m dt rest end%list.

(** Slower than light, with a momentum of at most b *)
Definition slow (b : R) (v : gvec A) : Prop := size3 v < 300000000 /\ momentum v <= b.
Definition slow_particle (b : R) (p : gparticle A) : Prop := galive A p = true -> slow b (gvel A (gph A p)).

(** Whole runs: live particles start with momentum b at most, and so do the particles of bunches when they are injected,
    which happens at most once to each. *)
Record begins_slow (c : config A) (n : nat) (t : b64) (s : gsim A) (b : R) : Prop := BeginsSlow {
  bs_start : Forall (slow_particle b) (parts pw lg s);
  bs_bunch : forall k p, (0 <= k < c_bunches A c)%Z -> In p (c_bunch A c k) ->
    slow b (GV A (g0 A (gvel A (gph A p))) (g1 A (gvel A (gph A p))) (c_velocity A c));
  bs_once : forall i j k x, (i < j < n)%nat -> (0 <= k < c_bunches A c)%Z ->
    injected pw lg c (time pw lg c i t) k x -> ~ injected pw lg c (time pw lg c j t) k x }.

(** In each of n steps each live particle gets an impulse of at most w from the electric field where it is. *)
Definition pushed_by (c : config A) (n : nat) (t end_time : b64) (s : gsim A) (w : R) : Prop :=
  forall i s' s'' p, (i < n)%nat -> gsim_run A c i t end_time s = Ok s' -> gbeam A c (time pw lg c i t) s' = Ok s'' ->
  In p (parts pw lg s'') -> galive A p = true ->
  impulse (gcharge A p) (gmass A p) (c_dt A c) (gget_efield A (c_geom A c) (gs_fields A s'') (g0 A (gpos A (gph A p))) (g2 A (gpos A (gph A p)))) <= w.
End Momentum.
