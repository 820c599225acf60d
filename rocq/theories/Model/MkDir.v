(** Model of lib::make_directory and lib::directory_exists, src/lib.cpp lines 122-182 (the branches
    that are not for Windows), on a model of the file system calls mkdir and stat.

    The file system is a tree without links; a directory is writable or not; a new directory is
    writable (mode 0755 for its owner). Limits on the length of names, full disks and other
    processes are not modelled. *)
From Coq Require Import String Ascii List Bool.
Import ListNotations.
Local Open Scope string_scope.
Local Open Scope list_scope.

Inductive node := Dir (writable : bool) | File.
(** from the names of all directories on the way from the root, the root being [] *)
Definition fs := list string -> option node.

Definition path_eqb (p q : list string) : bool := if list_eq_dec string_dec p q then true else false.
Definition put (f : fs) (p : list string) (n : node) : fs := fun q => if path_eqb p q then Some n else f q.

Inductive errno := ENOENT | ENOTDIR | EEXIST | EACCES.

(** the parts of a path between its slashes *)
Fixpoint split (s : string) : list string :=
  match s with
  | "" => [""]
  | String c s' =>
      if Ascii.eqb c "/" then "" :: split s'
      else match split s' with h :: t => String c h :: t | [] => [] end
  end.

Definition absolute (s : string) : bool := match s with String c _ => Ascii.eqb c "/" | "" => false end.

(** following directories; [cur] is the place reached *)
Fixpoint walk (f : fs) (cur : list string) (parts : list string) : list string + errno :=
  match parts with
  | [] => inl cur
  | n :: rest =>
      if (String.eqb n "" || String.eqb n ".")%bool then walk f cur rest
      else if String.eqb n ".." then walk f (removelast cur) rest
      else match f (cur ++ [n]) with
           | Some (Dir _) => walk f (cur ++ [n]) rest
           | Some File => inr ENOTDIR
           | None => inr ENOENT
           end
  end.

(** slashes at the end of the path of a directory to be made are ignored *)
Fixpoint drop_empty (l : list string) : list string :=
  match l with [] => [] | n :: t => if String.eqb n "" then drop_empty t else l end.

(** mkdir(2); [cwd] is the working directory *)
Definition mkdir (cwd : list string) (f : fs) (path : string) : fs + errno :=
  if String.eqb path "" then inr ENOENT
  else match drop_empty (rev (split path)) with
       | [] => inr EEXIST
       | last :: before =>
           match walk f (if absolute path then [] else cwd) (rev before) with
           | inr e => inr e
           | inl parent =>
               if (String.eqb last "." || String.eqb last "..")%bool then inr EEXIST
               else match f (parent ++ [last]) with
                    | Some _ => inr EEXIST
                    | None => match f parent with
                              | Some (Dir true) => inl (put f (parent ++ [last]) (Dir true))
                              | _ => inr EACCES
                              end
                    end
           end
       end.

(** src/lib.cpp lines 123-136: stat, then the type *)
Definition directory_exists (cwd : list string) (f : fs) (path : string) : bool :=
  if String.eqb path "" then false
  else match walk f (if absolute path then [] else cwd) (split path) with inl _ => true | inr _ => false end.

(** std::string::find_last_of('/') *)
Fixpoint find_last_slash (s : string) : option nat :=
  match s with
  | "" => None
  | String c s' => match find_last_slash s' with
                   | Some n => Some (S n)
                   | None => if Ascii.eqb c "/" then Some O else None
                   end
  end.

(** src/lib.cpp lines 138-182. The recursion is on a shorter path; [fuel] bounds its length. *)
Fixpoint make_directory_fuel (fuel : nat) (cwd : list string) (f : fs) (path : string) : fs * bool :=
  match mkdir cwd f path with
  | inl f' => (f', true)
  | inr ENOENT =>
      match find_last_slash path, fuel with
      | Some pos, S fuel' =>
          let (f1, ok) := make_directory_fuel fuel' cwd f (substring 0 pos path) in
          if ok then match mkdir cwd f1 path with inl f2 => (f2, true) | inr _ => (f1, false) end
          else (f1, false)
      | _, _ => (f, false)
      end
  | inr EEXIST => (f, directory_exists cwd f path)
  | inr _ => (f, false)
  end.
Definition make_directory (cwd : list string) (f : fs) (path : string) : fs * bool :=
  make_directory_fuel (String.length path) cwd f path.
