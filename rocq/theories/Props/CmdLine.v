(** Property C36: the command line. *)
From Coq Require Import String List.
From Verif.Lib Require Import Outcome.
From Verif.Model Require Import CmdLine.
From Verif.Spec Require Import CmdSpec.
From Verif.Proof Require Import CmdLineP.
Import ListNotations.
Local Open Scope string_scope.
Local Open Scope list_scope.

(** For every argument vector main does exactly what the vector asks for; no element beyond the
    vector is read (that would be undefined). Partial: the claim also names the option --help, see
    C36_help_refuted. *)
Theorem C36_partial : forall argv a, main argv (length argv) = Ok a <-> asks argv a.
Proof.
  intros argv a. destruct (main_asks argv) as (b & E & A). split; intro H.
  - rewrite H in E. injection E. intros <-. exact A.
  - rewrite E. f_equal. now apply (asks_unique argv).
Qed.
Print Assumptions C36_partial.

Theorem C36_defined : forall argv, exists a, main argv (length argv) = Ok a.
Proof. intros argv. destruct (main_asks argv) as (a & E & _). now exists a. Qed.
Print Assumptions C36_defined.

(** --help is not known: the simulation is started. *)
Theorem C36_help_refuted : main ["pdp3"; "--help"] 2 = Ok (Start "parameters.xml").
Proof. reflexivity. Qed.
Print Assumptions C36_help_refuted.

(** Whatever follows, an argument -h or --version wins, also as the value of -f and as the name of
    the program; a second -f is its own value. *)
Theorem C36_order : forall l1 l2, main (l1 ++ "-h" :: l2) (length (l1 ++ "-h" :: l2)) = Ok Usage.
Proof. intros. apply C36_partial. constructor. apply in_or_app. right. now left. Qed.
Print Assumptions C36_order.

Example C36_cases :
  main ["pdp3"; "-f"; "a.xml"; "-f"; "b.xml"] 5 = Ok (Start "a.xml") /\ main ["pdp3"; "-f"] 2 = Ok NoPath /\
  main ["pdp3"; "-f"; "--version"] 3 = Ok Version /\ main ["pdp3"] 1 = Ok (Start "parameters.xml") /\
  main [] 0 = Ok (Start "parameters.xml") /\ main ["pdp3"; "-f"; "-f"] 3 = Ok (Start "-f").
Proof. repeat split. Qed.
