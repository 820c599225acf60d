(** Specification of digit reversal, independent of the loop in the code. *)
From Coq Require Import Reals ZArith List.
Import ListNotations.
Local Open Scope R_scope.

(** The j-th digit of n in base b. *)
Definition digit (b n : Z) (j : nat) : Z := ((n / b ^ Z.of_nat j) mod b)%Z.

(** 0.d0 d1 d2 ... in base b, over the first m digits. *)
Fixpoint mirrored (b n : Z) (m : nat) : R :=
  match m with
  | O => 0
  | S m' => mirrored b n m' + IZR (digit b n m') / IZR b ^ m
  end.
