(** Directories on a file tree, independent of the calls that make them. *)
From Coq Require Import String Ascii List.
From Verif.Model Require Import MkDir.
Import ListNotations.
Local Open Scope string_scope.
Local Open Scope list_scope.

(** an ordinary name *)
Definition name (n : string) : Prop :=
  n <> "" /\ n <> "." /\ n <> ".." /\ ~ In "/"%char (list_ascii_of_string n).

(** the path from the root, and the path from the working directory, with single slashes *)
Definition abs_path (l : list string) : string := String.concat "" (map (fun n => "/" ++ n)%string l).
Definition rel_path (n : string) (l : list string) : string := (n ++ abs_path l)%string.

(** The directory [names] below [base] can be made: along the path there are directories up to some
    place; from there on nothing exists and that last directory is writable. *)
Inductive creatable (f : fs) : list string -> list string -> Prop :=
| CrHere : forall base w, f base = Some (Dir w) -> creatable f base []
| CrStep : forall base n rest w, f (base ++ [n]) = Some (Dir w) -> creatable f (base ++ [n]) rest -> creatable f base (n :: rest)
| CrNew : forall base n rest, f base = Some (Dir true) -> f (base ++ [n]) = None -> creatable f base (n :: rest).

(** [p] is on the way to [base ++ names], below [base] *)
Definition on_way (base names p : list string) : Prop :=
  exists a b, a <> [] /\ names = a ++ b /\ p = base ++ a.

(** [f'] is [f] with all that was missing on the way *)
Definition completed (base names : list string) (f f' : fs) : Prop :=
  (forall p, on_way base names p -> f p = None -> f' p = Some (Dir true)) /\
  (forall p, (on_way base names p -> f p <> None) -> f' p = f p).

(** Every node is in a directory. *)
Definition tree (f : fs) : Prop :=
  (exists w, f [] = Some (Dir w)) /\
  forall p n, f (p ++ [n]) <> None -> exists w, f p = Some (Dir w).
