(** Tridiagonal systems of linear equations, written without reference to any solver. *)
From Coq Require Import Reals ZArith.
Local Open Scope R_scope.

(** Row [i] of the [n] by [n] matrix with sub-diagonal [a], diagonal [b] and super-diagonal [c],
    applied to [x]: the entries outside the matrix do not count. *)
Definition tri_row (a b c x : Z -> R) (n i : Z) : R :=
  (if (0 <? i)%Z then a i * x (i - 1)%Z else 0) + b i * x i +
  (if (i <? n - 1)%Z then c i * x (i + 1)%Z else 0).

Definition tri_solves (a b c d x : Z -> R) (n : Z) : Prop :=
  forall i, (0 <= i < n)%Z -> tri_row a b c x n i = d i.

(** Determinant of the leading [m] by [m] block, by expansion along the last row. [minor m] is
    the pair of the determinants of the leading blocks of sizes [m] and [m-1]. *)
Fixpoint minors (a b c : Z -> R) (m : nat) : R * R :=
  match m with
  | O => (1, 0)
  | S m' =>
      let '(p, q) := minors a b c m' in
      let i := Z.of_nat m' in
      (b i * p - a i * c (i - 1)%Z * q, p)
  end.

Definition minor (a b c : Z -> R) (m : nat) : R := fst (minors a b c m).

(** Strict diagonal dominance by rows; entries outside the matrix do not count. *)
Definition dominant (a b c : Z -> R) (n : Z) : Prop :=
  forall i, (0 <= i < n)%Z ->
    (if (0 <? i)%Z then Rabs (a i) else 0) + (if (i <? n - 1)%Z then Rabs (c i) else 0) < Rabs (b i).
