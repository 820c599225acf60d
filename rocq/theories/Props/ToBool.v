(** Property C39: truth values in the configuration. *)
From Coq Require Import String Ascii List Lia.
From Verif.Lib Require Import Outcome.
From Verif.Model Require Import ToBool.
From Verif.Spec Require Import BoolText.
From Verif.Proof Require Import ToBoolP.
Local Open Scope string_scope.

(** The value of every text that is not blank: true exactly if the text begins with the word true,
    in small or capital letters, after white space. Partial: the claim is that exactly the documented
    spellings (true and false) are accepted; see the refutations. *)
Theorem C39_partial : forall s, ~ blank s ->
  exists v, to_bool s = Ok v /\ (v = true <-> begins_with "true" s).
Proof. exact to_bool_cases. Qed.
Print Assumptions C39_partial.

(** The documented spellings have the right value, in any case and with white space around. *)
Theorem C39_documented : forall b t e, blank b ->
  (spelled "true" t -> to_bool (b ++ t ++ e) = Ok true) /\ (spelled "false" t -> to_bool (b ++ t ++ e) = Ok false).
Proof. exact to_bool_documented. Qed.
Print Assumptions C39_documented.

(** An empty text: the result is a variable that has never been written. *)
Theorem C39_blank_refuted : forall s, blank s -> to_bool s = UB.
Proof. exact to_bool_blank. Qed.
Print Assumptions C39_blank_refuted.

(** Other texts are not refused: they count as false, or as true if they begin with true. *)
Theorem C39_refuted : to_bool "yes" = Ok false /\ to_bool "1" = Ok false /\ to_bool "on" = Ok false /\
  to_bool "ture" = Ok false /\ to_bool "truely not" = Ok true.
Proof. repeat split. Qed.
Print Assumptions C39_refuted.

Example C39_hypotheses_met : blank " " /\ spelled "true" "TrUe" /\ spelled "false" "FALSE" /\ ~ blank "x".
Proof.
  assert (L : forall d c, (nat_of_ascii c + 32 = nat_of_ascii d)%nat -> letter d c) by (intros; now right).
  assert (L0 : forall d, letter d d) by (left; reflexivity).
  repeat split; repeat (constructor; try (apply L0 || (apply L; reflexivity))).
  intro B. inversion B; subst. cbn in H1. Lia.lia.
Qed.
