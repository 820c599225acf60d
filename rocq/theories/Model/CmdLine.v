(** Model of the command line handling: src/main.cpp lines 6-32, src/lib.cpp lines 184-195. *)
From Coq Require Import String List Bool Arith.
From Verif.Lib Require Import Outcome.
Import ListNotations.
Local Open Scope string_scope.

(** argv[i]; reading the end pointer or beyond as a string is undefined. *)
Definition arg (argv : list string) (i : nat) : outcome string :=
  match nth_error argv i with Some s => Ok s | None => UB end.

(** std::find(begin, end, option): compares the elements from the position [i] on; [left] is
    end - i. The result is a position, the end if nothing is equal. *)
Fixpoint find_from (left : nat) (argv : list string) (i : nat) (option : string) : outcome nat :=
  match left with
  | O => Ok i
  | S left' => (do a <- arg argv i;
                if String.eqb a option then Ok i else find_from left' argv (S i) option)%outcome
  end.
Definition find (argv : list string) (argc : nat) (option : string) : outcome nat := find_from argc argv 0 option.

(** src/lib.cpp lines 192-195 *)
Definition cmd_option_exists (argv : list string) (argc : nat) (option : string) : outcome bool :=
  (do itr <- find argv argc option; Ok (negb (Nat.eqb itr argc)))%outcome.

(** src/lib.cpp lines 184-190; None is the null pointer *)
Definition get_cmd_option (argv : list string) (argc : nat) (opt : string) : outcome (option string) :=
  (do itr <- find argv argc opt;
   if negb (Nat.eqb itr argc)
   then if negb (Nat.eqb (S itr) argc) then do a <- arg argv (S itr); Ok (Some a) else Ok None
   else Ok None)%outcome.

(** What main does: print the usage and return 1, print the version and return 0, complain and
    return 1, or start the simulation with a configuration file. *)
Inductive main_action := Usage | Version | NoPath | Start (file : string).

(** src/main.cpp lines 10-32 and 67 *)
Definition main (argv : list string) (argc : nat) : outcome main_action :=
  (do h <- cmd_option_exists argv argc "-h";
   if h : bool then Ok Usage
   else do v <- cmd_option_exists argv argc "--version";
   if v : bool then Ok Version
   else do f <- cmd_option_exists argv argc "-f";
   if f : bool then
     do filename <- get_cmd_option argv argc "-f";
     match filename with None => Ok NoPath | Some p => Ok (Start p) end
   else Ok (Start "parameters.xml"))%outcome.
