(** The difference form of Poisson's equation in (r, z), written without reference to a solver.
    Node (i, k) is at r = i dr, z = k dz. *)
From Coq Require Import Reals ZArith.
Local Open Scope R_scope.

(** (1/r) d/dr (r d/dr), by central differences; on the axis by its limit 2 d2/dr2 with the
    symmetric continuation f(-dr) = f(dr). *)
Definition lap_r (dr : R) (f : Z -> R) (i : Z) : R :=
  if (i =? 0)%Z then 4 * (f 1%Z - f 0%Z) / (dr * dr)
  else (f (i + 1)%Z - 2 * f i + f (i - 1)%Z) / (dr * dr) +
       1 / (IZR i * dr) * ((f (i + 1)%Z - f (i - 1)%Z) / (2 * dr)).

(** d2/dz2, by central differences. *)
Definition lap_z (dz : R) (f : Z -> R) (k : Z) : R :=
  (f (k + 1)%Z - 2 * f k + f (k - 1)%Z) / (dz * dz).

(** Values outside 0 <= k < n are zero: grounded walls one step outside the grid. *)
Definition grounded (n : Z) (f : Z -> R) (k : Z) : R :=
  if ((0 <=? k) && (k <? n))%Z%bool then f k else 0.

(** The equation of one harmonic with eigenvalue [lam] of - dz^2 d2/dz2. *)
Definition harmonic_eq (dr dz lam eps : R) (t f : Z -> R) (i : Z) : Prop :=
  lap_r dr f i - lam / (dz * dz) * f i = - t i / eps.

(** The equation in space at node (i, k), grounded walls in z. *)
Definition poisson_eq (dr dz eps : R) (n_z : Z) (rho f : Z -> Z -> R) (i k : Z) : Prop :=
  lap_r dr (fun i => f i k) i + lap_z dz (grounded n_z (f i)) k = - rho i k / eps.
