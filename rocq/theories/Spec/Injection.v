(** What a user expects of bunches, independent of the code. *)
From Coq Require Import Reals ZArith List.
Local Open Scope R_scope.

(** The time window of bunch number n: bunches of the given duration, separated by holes. *)
Definition window_begin (duration hole n : R) : R := n * (duration + hole).
Definition in_window (duration hole n t : R) : Prop :=
  window_begin duration hole n <= t < window_begin duration hole n + duration.

(** The integers lo, lo+1, ..., hi-1 in order. *)
Fixpoint count_up (lo : Z) (n : nat) : list Z :=
  match n with O => nil | S m => lo :: count_up (lo + 1) m end.
