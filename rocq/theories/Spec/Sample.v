(** A concrete grid used by the examples that show hypotheses to be satisfiable:
    9 x 17 nodes, 8 x 16 length units, so dr = dz = 1. *)
From Coq Require Import Reals ZArith Lia Lra.
From Verif.Model Require Import Geometry.
Local Open Scope R_scope.

Definition sample_geom : geom := Geom 9 17 8 16.

Lemma sample_geom_ok : geom_ok sample_geom.
Proof. unfold geom_ok, sample_geom; cbn. repeat split; try lia; lra. Qed.

Lemma sample_dr : dr sample_geom = 1.
Proof. unfold dr, sample_geom; cbn. field. Qed.

Lemma sample_dz : dz sample_geom = 1.
Proof. unfold dz, sample_geom; cbn. field. Qed.
