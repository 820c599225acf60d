(** What smoothing a map may do: the value at a node stays within the range of the values of the
    source around that node. Independent of the model. *)
From Coq Require Import Reals ZArith.
Local Open Scope R_scope.

(** Node of a map with [x] rows and [y] columns. *)
Definition node (x y i j : Z) : Prop := (0 <= i < x /\ 0 <= j < y)%Z.

(** All source values at the nodes next to (i, j) or at (i, j) are between lo and hi. *)
Definition around (x y : Z) (a : Z -> Z -> R) (i j : Z) (lo hi : R) : Prop :=
  forall i' j', node x y i' j' -> (Z.abs (i' - i) <= 1)%Z -> (Z.abs (j' - j) <= 1)%Z -> lo <= a i' j' <= hi.

(** The value [v] at the node (i, j) does not overshoot. *)
Definition within_neighbours (x y : Z) (a : Z -> Z -> R) (i j : Z) (v : R) : Prop :=
  forall lo hi, around x y a i j lo hi -> lo <= v <= hi.

Definition constant_map (x y : Z) (a : Z -> Z -> R) (c : R) : Prop := forall i j, node x y i j -> a i j = c.
