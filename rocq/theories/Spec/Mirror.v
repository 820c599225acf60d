(** Free flight between two mirrors, independent of the mover. *)
From Coq Require Import Reals ZArith.
From Verif.Model Require Import Geometry Motion.
Local Open Scope R_scope.

(** A point that starts at [x] and flies freely with velocity [v] for a time [t] between mirrors at
    [lo] and [hi] is seen at [x'] with velocity [v']: unfolding the mirrors, it is either at the
    place of free flight or at the mirror image of that place at [lo], up to a whole number of
    round trips, and its velocity has the sign of that image. *)
Definition mirrored_flight (lo hi x v t x' v' : R) : Prop :=
  lo <= x' <= hi /\
  exists k : Z, (x' = x + v * t + 2 * IZR k * (hi - lo) /\ v' = v) \/
                (x' = 2 * lo - (x + v * t) + 2 * IZR k * (hi - lo) /\ v' = - v).

(** Any number of steps in which the pusher leaves the velocity as it is. *)
Fixpoint free_run (g : geom) (dt : R) (n : nat) (p : phase) : phase :=
  match n with O => p | S k => move g dt (free_run g dt k p) end.
