(** Specification of particle dynamics, independent of the pushers: vectors, speed, momentum,
    Lorentz force, and the geometry of the cylinder. *)
From Coq Require Import Reals.
From Verif.Model Require Import Constants Pusher.
Local Open Scope R_scope.

Definition vadd (a b : vec3) : vec3 := V3 (v0 a + v0 b) (v1 a + v1 b) (v2 a + v2 b).
Definition vsub (a b : vec3) : vec3 := V3 (v0 a - v0 b) (v1 a - v1 b) (v2 a - v2 b).
Definition vscale (x : R) (a : vec3) : vec3 := V3 (x * v0 a) (x * v1 a) (x * v2 a).
Definition cross (a b : vec3) : vec3 :=
  V3 (v1 a * v2 b - v2 a * v1 b) (v2 a * v0 b - v0 a * v2 b) (v0 a * v1 b - v1 a * v0 b).
Definition norm2 (a : vec3) : R := v0 a * v0 a + v1 a * v1 a + v2 a * v2 a.
Definition vzero : vec3 := V3 0 0 0.

(** Slower than light. *)
Definition subluminal (v : vec3) : Prop := norm2 v < LIGHT_SPEED * LIGHT_SPEED.

(** Momentum per mass of a subluminal particle. *)
Definition momentum (v : vec3) : vec3 :=
  vscale (/ sqrt (1 - norm2 v / (LIGHT_SPEED * LIGHT_SPEED))) v.

(** Lorentz factor belonging to a momentum per mass. *)
Definition lorentz_factor (u : vec3) : R := sqrt (1 + norm2 u / (LIGHT_SPEED * LIGHT_SPEED)).

(** No component is so small that the code rounds it to zero. *)
Definition not_tiny (v : vec3) : Prop :=
  (v0 v = 0 \/ MNZL <= Rabs (v0 v)) /\ (v1 v = 0 \/ MNZL <= Rabs (v1 v)) /\ (v2 v = 0 \/ MNZL <= Rabs (v2 v)).

(** Angular momentum about the axis of a particle at (x, y) with velocity (vx, vy, _). *)
Definition angular_momentum (x y : R) (v : vec3) : R := x * v1 v - y * v0 v.
