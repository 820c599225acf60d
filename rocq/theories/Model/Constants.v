(** Physical and mathematical constants, include/constant.h lines 8-30.
    The decimal literals of the C++ text are taken as exact rationals. *)
From Coq Require Import Reals Lra.
Local Open Scope R_scope.

(** include/constant.h: PI *)
Definition c_PI : R := 31415926535897932 / 10000000000000000.
(** include/constant.h: EPSILON0 = 8.85E-12 *)
Definition EPSILON0 : R := 885 / 100000000000000.
(** include/constant.h: EL_MASS = 9.1E-31 *)
Definition EL_MASS : R := 91 / (10 ^ 32).
(** include/constant.h: EL_CHARGE = 1.6E-19 *)
Definition EL_CHARGE : R := 16 / (10 ^ 20).
(** include/constant.h: LIGHT_SPEED = 3.0E8 *)
Definition LIGHT_SPEED : R := 300000000.
(** include/constant.h: MAGN_CONST = 1.26E-6 *)
Definition MAGN_CONST : R := 126 / 100000000.
(** include/constant.h: MNZL = 1e-15 *)
Definition MNZL : R := / (10 ^ 15).

Lemma c_PI_pos : 0 < c_PI.
Proof. unfold c_PI. lra. Qed.

Lemma EPSILON0_pos : 0 < EPSILON0.
Proof. unfold EPSILON0. lra. Qed.

Lemma EL_MASS_pos : 0 < EL_MASS.
Proof. unfold EL_MASS. apply Rmult_lt_0_compat; [lra|]. apply Rinv_0_lt_compat. apply pow_lt. lra. Qed.

Lemma EL_CHARGE_pos : 0 < EL_CHARGE.
Proof. unfold EL_CHARGE. apply Rmult_lt_0_compat; [lra|]. apply Rinv_0_lt_compat. apply pow_lt. lra. Qed.

Lemma LIGHT_SPEED_pos : 0 < LIGHT_SPEED.
Proof. unfold LIGHT_SPEED. lra. Qed.

Lemma MAGN_CONST_pos : 0 < MAGN_CONST.
Proof. unfold MAGN_CONST. lra. Qed.

Lemma MNZL_pos : 0 < MNZL.
Proof. unfold MNZL. apply Rinv_0_lt_compat. apply pow_lt. lra. Qed.
