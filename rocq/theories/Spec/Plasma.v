(** Plasma parameters in the units of the configuration (densities per cubic metre, temperatures
    in electronvolts), and which species of a configuration are the electrons. *)
From Coq Require Import Reals String List.
From Verif.Model Require Import Constants Limits.
Import ListNotations.
Local Open Scope R_scope.

Definition plasma_frequency (n : R) : R := sqrt (n * EL_CHARGE * EL_CHARGE / (EL_MASS * EPSILON0)).

(** 7400 metres times the root of electronvolts times cubic metres *)
Definition debye (n t : R) : R := 7400 * sqrt (t / n).

Definition is_electron (p : specie) : Prop :=
  sp_name p = "Electrons"%string \/ sp_name p = "electrons"%string \/ sp_name p = "electron"%string.

(** [p] is the last species of the list that is named as electrons. *)
Definition last_electron (l : list specie) (p : specie) : Prop :=
  exists l1 l2, l = l1 ++ p :: l2 /\ is_electron p /\ Forall (fun q => ~ is_electron q) l2.

Definition mean_density (p : specie) : R := (sp_left p + sp_right p) / 2.
