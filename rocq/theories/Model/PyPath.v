(** Model of the functions of Python's os.path (posixpath.py of Python 3) that tools/lib/parameters.py and
    tools/lib/plain_reader.py use. *)
From Coq Require Import String Ascii List Bool.
From Verif.Model Require Import MkDir.
Import ListNotations.
Local Open Scope string_scope.
Local Open Scope list_scope.

Fixpoint ends_with_slash (s : string) : bool :=
  match s with
  | "" => false
  | String c "" => Ascii.eqb c "/"
  | String _ s' => ends_with_slash s'
  end.

(** os.path.join(a, b) *)
Definition join (a b : string) : string :=
  if absolute b then b
  else if (String.eqb a "" || ends_with_slash a)%bool then (a ++ b)%string
  else (a ++ "/" ++ b)%string.

(** '/'.join(l) *)
Fixpoint with_slashes (l : list string) : string :=
  match l with
  | [] => ""
  | [x] => x
  | x :: l' => (x ++ "/" ++ with_slashes l')%string
  end.

(** one pass of the loop of normpath; new_comps is kept in reverse *)
Definition norm_step (initial_slashes : bool) (new_comps : list string) (comp : string) : list string :=
  if (String.eqb comp "" || String.eqb comp ".")%bool then new_comps
  else if (negb (String.eqb comp "..") || (negb initial_slashes && match new_comps with [] => true | _ => false end)
           || match new_comps with last :: _ => String.eqb last ".." | [] => false end)%bool
  then comp :: new_comps
  else match new_comps with [] => [] | _ :: l => l end.

(** the slashes at the beginning: none, one, or exactly two *)
Definition initial_slashes (s : string) : string :=
  if absolute s then
    match s with
    | String _ (String c (String d _)) => if Ascii.eqb c "/" then (if Ascii.eqb d "/" then "/" else "//") else "/"
    | String _ (String c "") => if Ascii.eqb c "/" then "//" else "/"
    | _ => "/"
    end
  else "".

(** os.path.normpath(path) *)
Definition normpath (path : string) : string :=
  if String.eqb path "" then "."
  else
    let start := initial_slashes path in
    let comps := rev (fold_left (norm_step (absolute path)) (split path) []) in
    let p := (start ++ with_slashes comps)%string in
    if String.eqb p "" then "." else p.

(** rstrip('/') *)
Fixpoint rstrip_slash (s : string) : string :=
  match s with
  | "" => ""
  | String c s' => match rstrip_slash s' with
                   | "" => if Ascii.eqb c "/" then "" else String c ""
                   | t => String c t
                   end
  end.

Fixpoint only_slashes (s : string) : bool :=
  match s with "" => true | String c s' => (Ascii.eqb c "/" && only_slashes s')%bool end.

(** the text up to and with the last slash *)
Fixpoint head_of (s : string) : string :=
  match s with
  | "" => ""
  | String c s' => match head_of s' with
                   | "" => if Ascii.eqb c "/" then "/" else ""
                   | t => String c t
                   end
  end.

(** os.path.dirname(p) *)
Definition dirname (p : string) : string :=
  let head := head_of p in
  if (negb (String.eqb head "") && negb (only_slashes head))%bool then rstrip_slash head else head.
