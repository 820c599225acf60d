(** The relativistic Boris scheme as in the literature: half of the electric impulse, a rotation given by an implicit equation, the other half.
    Exact numbers; independent of the code. *)
From Coq Require Import Reals List.
From Flocq Require Import Core IEEE754.BinarySingleNaN.
From Verif.Lib Require Import Outcome.
From Verif.Model Require Import Binary64 Arith GenCode.
From Verif.Spec Require Import Momentum.
Local Open Scope R_scope.

Record triple := Triple { c0 : R; c1 : R; c2 : R }.
Definition dot (a b : triple) : R := c0 a * c0 b + c1 a * c1 b + c2 a * c2 b.
Definition cross (a b : triple) : triple :=
  Triple (c1 a * c2 b - c2 a * c1 b) (c2 a * c0 b - c0 a * c2 b) (c0 a * c1 b - c1 a * c0 b).
Definition plus (a b : triple) : triple := Triple (c0 a + c0 b) (c1 a + c1 b) (c2 a + c2 b).
Definition minus (a b : triple) : triple := Triple (c0 a - c0 b) (c1 a - c1 b) (c2 a - c2 b).
Definition scale (k : R) (a : triple) : triple := Triple (k * c0 a) (k * c1 a) (k * c2 a).

(** The program takes components of the velocity below 10^-15 m/s as zero. *)
Definition quiet1 (x : R) : R := if Rlt_dec (Rabs x) (1 / 1000000000000000) then 0 else x.
Definition quiet (v : triple) : triple := Triple (quiet1 (c0 v)) (quiet1 (c1 v)) (quiet1 (c2 v)).

(** The program's speed of light and magnetic constant *)
Definition light : R := 300000000.
Definition mu0 : R := 126 / 100000000.
Definition gamma_v (v : triple) : R := 1 / sqrt (1 - dot v v / (light * light)).
Definition gamma_p (p : triple) : R := sqrt (1 + dot p p / (light * light)).

(** One step from velocity v to velocity w under the fields e and h, for charge q and mass m. Momenta are per unit of mass. *)
Definition boris_step (q m dt : R) (e h v w : triple) : Prop :=
  let k := q * dt / (2 * m) in
  exists before after : triple,
    before = plus (scale (gamma_v (quiet v)) (quiet v)) (scale k e) /\
    minus after before = cross (plus after before) (scale (mu0 * k / gamma_p before) h) /\
    let p := plus after (scale k e) in p = scale (gamma_p p) w.
(** The same for slow particles, without the Lorentz factors *)
Definition classic_step (q m dt : R) (e h v w : triple) : Prop :=
  let k := q * dt / (2 * m) in
  exists before after : triple,
    before = plus (quiet v) (scale k e) /\
    minus after before = cross (plus after before) (scale (mu0 * k) h) /\
    w = plus after (scale k e).

(** The numbers of a vector of doubles *)
Definition real3 (pw lg : b64 -> b64) (v : gvec (b64_arith pw lg)) : triple :=
  Triple (@B2R prec64 emax64 (g0 _ v)) (@B2R prec64 emax64 (g1 _ v)) (@B2R prec64 emax64 (g2 _ v)).
(** Each component is within d. *)
Definition within (d : R) (v w : triple) : Prop := Rabs (c0 v - c0 w) <= d /\ Rabs (c1 v - c1 w) <= d /\ Rabs (c2 v - c2 w) <= d.
(** In one step a particle of charge q and mass m turns around each axis by an angle whose half has a tangent of at most 9/10 (84 degrees). *)
Definition turns_little (q m dt : R) (h : triple) : Prop := let k := mu0 * (q * dt / (2 * m)) in
  Rabs (k * c0 h) <= 9 / 10 /\ Rabs (k * c1 h) <= 9 / 10 /\ Rabs (k * c2 h) <= 9 / 10.

(** Steps one after the other, under the given electric and magnetic fields *)
Fixpoint classic_steps (q m dt : R) (fs : list (triple * triple)) (v w : triple) : Prop :=
  match fs with
  | nil => w = v
  | (e, h) :: rest => exists x, classic_step q m dt e h v x /\ classic_steps q m dt rest x w
  end%list.
Definition distance (v w : triple) : R := length3 (c0 v - c0 w) (c1 v - c1 w) (c2 v - c2 w).
(** The error of one step for speeds of at most b: roundings, and components below 10^-15 m/s that are taken as zero *)
Definition classic_error (b : R) : R := 20000 * bpow radix2 (-53) * (b + bpow radix2 (-58)) + 4 / 1000000000000000.
(** The pushes of the program *)
Fixpoint classic_pushes (pw lg : b64 -> b64) (dt q m : b64) (fs : list (gvec (b64_arith pw lg) * gvec (b64_arith pw lg))) (v : gvec (b64_arith pw lg)) :
  outcome (gvec (b64_arith pw lg)) :=
  match fs with
  | nil => Ok v
  | (e, h) :: rest => bind (gboris_push (b64_arith pw lg) false dt q m e h v) (classic_pushes pw lg dt q m rest)
  end%list.

(** Relativistic: the momentum per mass of a velocity below that of light *)
Definition mom (v : triple) : triple := scale (gamma_v v) v.
Fixpoint boris_steps (q m dt : R) (fs : list (triple * triple)) (v w : triple) : Prop :=
  match fs with
  | nil => w = v
  | (e, h) :: rest => exists x, boris_step q m dt e h v x /\ boris_steps q m dt rest x w
  end%list.
(** The error of one step, in momentum per mass, for momenta of at most b *)
Definition boris_error (a b : R) : R :=
  let g := lorentz (b + 1) in g * g * g * (8192 * (a + 100 * (g * g * g)) * bpow radix2 (-53) * (b + bpow radix2 (-58)) + 8 / 1000000000000000).
(** How much a step amplifies earlier errors: particles of different momentum turn by different angles. theta is the tangent of half the
    angle by which slow particles turn. *)
Definition shear (theta b : R) : R := 1 + 2 * theta * b / light.
