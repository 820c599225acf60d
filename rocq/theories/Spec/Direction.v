(** Specification side of the direction of currents (C74). *)
From Coq Require Import Reals ZArith.
From Verif.Lib Require Import Grid.
Local Open Scope R_scope.

(** The current density (jr, jz) flows along a charge [q] that moves by (x, z): nowhere against it. *)
Definition flows_along (q x z : R) (jr jz : Z -> Z -> R) : Prop :=
  forall i k, 0 <= q * x * jr i k /\ 0 <= q * z * jz i k /\ (x = 0 -> jr i k = 0) /\ (z = 0 -> jz i k = 0).
