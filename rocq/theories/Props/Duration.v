(** Property C38: the text of the elapsed time. *)
From Coq Require Import ZArith String List Lia.
From Verif.Lib Require Import Outcome.
From Verif.Model Require Import Paths Duration.
From Verif.Spec Require Import Elapsed.
From Verif.Proof Require Import DurationP.
Local Open Scope string_scope.
Local Open Scope Z_scope.

(** The text states the elapsed time, for every time below 2^31 seconds except exactly a minute, an
    hour and a day. Partial: these times are missing, see C38_boundary_refuted, and the text never
    fits in its buffer, see C38_buffer_refuted. *)
Theorem C38_partial : forall t, 0 <= t < 2 ^ 31 -> t <> 60 -> t <> 3600 -> t <> 86400 ->
  exists s, duration_text t = Ok s /\ states_time s t.
Proof. exact duration_states. Qed.
Print Assumptions C38_partial.

Theorem C38_boundary_refuted : duration_text 60 = Ok "60s" /\ duration_text 3600 = Ok "3600s" /\
  duration_text 86400 = Ok "86400s" /\ ~ states_time "60s" 60.
Proof.
  split; [reflexivity|]. split; [reflexivity|]. split; [reflexivity|].
  intro H. inversion H; subst; try lia;
    match goal with E : _ ++ _ = "60s" |- _ =>
      match type of E with ?b ++ _ = _ => destruct b as [|? [|? [|? [|? ?]]]]; cbn in E; discriminate E end end.
Qed.
Print Assumptions C38_boundary_refuted.

(** Whatever the time, the text is written beyond its buffer of one byte. *)
Theorem C38_buffer_refuted : forall t, get_simulation_duration t = UB.
Proof. exact duration_ub. Qed.
Print Assumptions C38_buffer_refuted.

Example C38_hypotheses_met : exists s, duration_text 100000 = Ok s /\ states_time s 100000.
Proof. apply C38_partial; lia. Qed.
