(** What the command line asks for, independent of how it is searched. *)
From Coq Require Import String List.
From Verif.Model Require Import CmdLine.
Import ListNotations.
Local Open Scope string_scope.
Local Open Scope list_scope.

Inductive asks (argv : list string) : main_action -> Prop :=
| AsksUsage : In "-h" argv -> asks argv Usage
| AsksVersion : ~ In "-h" argv -> In "--version" argv -> asks argv Version
| AsksFile : forall l1 f l2, ~ In "-h" argv -> ~ In "--version" argv ->
    argv = l1 ++ "-f" :: f :: l2 -> ~ In "-f" l1 -> asks argv (Start f)
| AsksNothing : forall l1, ~ In "-h" argv -> ~ In "--version" argv ->
    argv = l1 ++ ["-f"] -> ~ In "-f" l1 -> asks argv NoPath
| AsksDefault : ~ In "-h" argv -> ~ In "--version" argv -> ~ In "-f" argv -> asks argv (Start "parameters.xml").
