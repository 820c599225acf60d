(** Model of the deterministic number sequence, src/math/rand.cpp lines 34-53; the text of
    src/math/maxwellJuttner.cpp, function random_reverse at its end, is the same. *)
From Coq Require Import Reals ZArith.
Local Open Scope R_scope.

(** lines 43-51: the while loop. [fuel] bounds the number of iterations; [None] means the
    loop has not ended within that number. int_vel % power is Z.rem, and the division of
    int_vel - ost by power, made in double and converted back to int, is exact because the
    remainder has been subtracted. Simplification: int is unbounded. *)
Fixpoint rr_loop (fuel : nat) (int_vel power order : Z) (r : R) : option R :=
  if (1 <=? int_vel)%Z then
    match fuel with
    | O => None
    | S fuel' =>
        let ost := Z.rem int_vel power in
        rr_loop fuel' (Z.quot (int_vel - ost) power) power (order + 1)
                (r + IZR ost * powerRZ (IZR power) (- order))
    end
  else Some r.

(** lines 37-53. The first argument is an integer at every call. *)
Definition random_reverse (vel power : Z) : option R := rr_loop (Z.to_nat vel) vel power 1 0.
