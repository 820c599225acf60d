(** The tridiagonal solver of the electric field class, src/eField.cpp 180-202.
    Machine arithmetic is exact arithmetic on reals; arrays are functions. *)
From Coq Require Import Reals ZArith.
From Verif.Lib Require Import Outcome Vec.
Local Open Scope R_scope.
Local Open Scope outcome_scope.

Definition vec := Z -> R.

(** src/eField.cpp 187-188: the first row is divided by its pivot. *)
Definition tri_first (b c d : vec) : outcome (vec * vec) :=
  do c0 <- fdiv (c 0%Z) (b 0%Z);
  do d0 <- fdiv (d 0%Z) (b 0%Z);
  Ok (updv c 0%Z c0, updv d 0%Z d0).

(** src/eField.cpp 190-195: loop body of the forward sweep; [c] is updated before [d]. *)
Definition tri_forward (a b : vec) (i : Z) (s : outcome (vec * vec)) : outcome (vec * vec) :=
  do (c, d) <- s;
  let id := b i - c (i - 1)%Z * a i in
  do ci <- fdiv (c i) id;
  let c' := updv c i ci in
  do di <- fdiv (d i - d (i - 1)%Z * a i) id;
  let d' := updv d i di in
  Ok (c', d').

(** src/eField.cpp 200-201: loop body of the back substitution. *)
Definition tri_back (c d : vec) (i : Z) (x : vec) : vec :=
  updv x i (d i - c i * x (i + 1)%Z).

(** src/eField.cpp 180-202: the final contents of the arrays [c], [d] and [x]. *)
Definition tridiagonal_solve (a b c d x : vec) (n : Z) : outcome (vec * vec * vec) :=
  do (c1, d1) <- for_up 1 n (tri_forward a b) (tri_first b c d);
  let x1 := updv x (n - 1)%Z (d1 (n - 1)%Z) in
  let x2 := for_down (n - 2) 0 (tri_back c1 d1) x1 in
  Ok (c1, d1, x2).
