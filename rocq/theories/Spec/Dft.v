(** Discrete Fourier and sine transforms as plain sums. *)
From Coq Require Import Reals ZArith.
From Verif.Lib Require Import RAux Cplx.
Local Open Scope R_scope.

(** X_k = sum over j of x_j exp(-2 pi i j k / N) *)
Definition dft (N : Z) (x : Z -> cplx) (k : Z) : cplx :=
  csum (fun j => cmul (x j) (cis (- (2 * PI * IZR (j * k) / IZR N)))) 0 N.

(** S_k = sum over j of x_j sin(pi (j+1) (k+1) / (n+1)), k = 0 .. n-1 *)
Definition dst (n : Z) (x : Z -> R) (k : Z) : R :=
  zsum (fun j => x j * sin (PI * IZR ((j + 1) * (k + 1)) / IZR (n + 1))) 0 n.

Definition is_power_of_two (n : Z) : Prop := exists m, (0 <= m /\ n = 2 ^ m)%Z.
