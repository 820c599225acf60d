(** Property C37: directories for the results. *)
From Coq Require Import String Ascii List.
From Verif.Model Require Import MkDir.
From Verif.Spec Require Import Tree.
From Verif.Proof Require Import MkDirP.
Import ListNotations.
Local Open Scope string_scope.
Local Open Scope list_scope.

(** For every file tree, working directory and path made of ordinary names separated by single
    slashes: the call succeeds exactly if the directory can be made; then everything missing on the
    way exists and nothing else has changed; if it does not succeed nothing has changed. Partial:
    the claim is for all paths, see C37_refuted. *)
Theorem C37_relative_partial : forall cwd f n l w, tree f -> f cwd = Some (Dir w) -> Forall name (n :: l) ->
  let r := make_directory cwd f (rel_path n l) in
  (snd r = true <-> creatable f cwd (n :: l)) /\
  (snd r = true -> completed cwd (n :: l) f (fst r)) /\
  (snd r = false -> fst r = f).
Proof. intros cwd f n l w T D H. apply (make_names false cwd f (n :: l) w T D); [discriminate|exact H]. Qed.
Print Assumptions C37_relative_partial.

Theorem C37_absolute_partial : forall cwd f names, tree f -> names <> [] -> Forall name names ->
  let r := make_directory cwd f (abs_path names) in
  (snd r = true <-> creatable f [] names) /\
  (snd r = true -> completed [] names f (fst r)) /\
  (snd r = false -> fst r = f).
Proof. intros cwd f names T N H. destruct (proj1 T) as (w & D). now apply (make_names true cwd f names w T D). Qed.
Print Assumptions C37_absolute_partial.

(** A slash at the end: the directories are made, but the call reports a failure. Double slashes:
    the call gives up half way. *)
Definition bare : fs := fun p => match p with [] => Some (Dir true) | _ => None end.

Theorem C37_refuted :
  creatable bare [] ["a"; "b"] /\
  (let r := make_directory [] bare "a/b/" in snd r = false /\ fst r ["a"; "b"] = Some (Dir true)) /\
  creatable bare [] ["a"; "b"; "c"] /\
  (let r := make_directory [] bare "a//b//c" in snd r = false /\ fst r ["a"] = Some (Dir true) /\
     fst r ["a"; "b"] = Some (Dir true) /\ fst r ["a"; "b"; "c"] = None).
Proof.
  split; [apply CrNew; reflexivity|]. split; [vm_compute; now split|].
  split; [apply CrNew; reflexivity|]. vm_compute. repeat split.
Qed.
Print Assumptions C37_refuted.

Example C37_hypotheses_met : tree bare /\ Forall name ["results"; "data"] /\ rel_path "results" ["data"] = "results/data" /\
  snd (make_directory [] bare "results/data") = true.
Proof.
  split; [|split; [|now split]].
  - split; [now exists true|]. intros p n H. exfalso. apply H. unfold bare. destruct (p ++ [n]) eqn:E; [now destruct p|reflexivity].
  - repeat constructor; try discriminate; intro H; cbn in H;
      repeat (destruct H as [H|H]; [discriminate|]); contradiction.
Qed.
