(** Specification side of currents that are not numbers (C78). *)
From Coq Require Import Reals ZArith List.
From Flocq Require Import Core IEEE754.BinarySingleNaN.
From Verif.Model Require Import Binary64 Fields Arith GenCode.
Local Open Scope R_scope.

(** The C library's log() of a negative number is NaN (C11, 7.12.6.7 and F.10.3.7). *)
Definition domain_error (lg : b64 -> b64) : Prop := forall x, is_finite x = true -> B2R x < 0 -> is_nan (lg x) = true.

Section Poison.
Variables pw lg : b64 -> b64.
Notation A := (b64_arith pw lg).

(** Some free element of the radial electric field is not a number. *)
Definition poisoned (g : ggeom A) (f : gmem A) : Prop :=
  exists i k, (0 <= i < gn_r A g - 1)%Z /\ (1 <= k < gn_z A g - 1)%Z /\ @is_nan prec64 emax64 (f (ER, i, k)) = true.

(** Some call of inc_j_r on a free element is made with a value that is not a number. *)
Definition gives_nan (g : ggeom A) (l : list (gjinc A)) : Prop :=
  exists i k v, In (gj_r A i k v) l /\ (0 <= i < gn_r A g - 1)%Z /\ (1 <= k < gn_z A g - 1)%Z /\ @is_nan prec64 emax64 v = true.
End Poison.
