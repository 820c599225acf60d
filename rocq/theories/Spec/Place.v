(** Where a path leads in a file tree without links. *)
From Coq Require Import String Ascii List.
Import ListNotations.
Local Open Scope string_scope.
Local Open Scope list_scope.

(** one part of a path *)
Definition move (cur : list string) (part : string) : list string :=
  match part with
  | "" | "." => cur
  | ".." => removelast cur
  | _ => cur ++ [part]
  end.

(** reading the path from left to right; [part] is what was read since the last slash *)
Fixpoint follow (cur : list string) (part s : string) : list string :=
  match s with
  | "" => move cur part
  | String "/" s' => follow (move cur part) "" s'
  | String c s' => follow cur (part ++ String c "")%string s'
  end.

(** from the working directory [cwd]; the root directory is [] *)
Definition place (cwd : list string) (path : string) : list string :=
  match path with
  | String "/" _ => follow [] "" path
  | _ => follow cwd "" path
  end.

Definition starts_at_root (path : string) : Prop := exists s, path = String "/" s.

(** [g] is, seen from [cwd], the path of a file in the directory [dir] *)
Definition file_in (cwd : list string) (g : string) (dir : list string) : Prop :=
  exists f, f <> "" /\ ~ In "/"%char (list_ascii_of_string f) /\
    (g = f /\ dir = cwd \/ exists d, g = (d ++ "/" ++ f)%string /\ place cwd (d ++ "/") = dir).
