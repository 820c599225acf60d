(** Model of the path names of probes and of the buffers they are built in:
    src/loadInitParam.cpp lines 66-67 and 334-335, src/probePlain.cpp lines 9-78,
    include/probe.h lines 19-35. Writing more than a buffer holds is undefined. *)
From Coq Require Import ZArith String Ascii List.
From Verif.Lib Require Import Outcome.
Local Open Scope string_scope.

(** printf %d *)
Definition digit (n : Z) : string := String (ascii_of_nat (48 + Z.to_nat n)) "".
Fixpoint show_nonneg (fuel : nat) (n : Z) : string :=
  match fuel with
  | O => ""
  | S f => if (n <? 10)%Z then digit n else show_nonneg f (n / 10) ++ digit (n mod 10)
  end.
(** twenty digits are enough for every int *)
Definition show (n : Z) : string := if (n <? 0)%Z then "-" ++ show_nonneg 20 (- n) else show_nonneg 20 n.

(** strcpy, strcat, sprintf into a buffer of [size] bytes: the text and its terminating zero *)
Definition store (size : nat) (s : string) : outcome string := if Nat.ltb (String.length s) size then Ok s else UB.

(** The configuration of one probe as far as names are concerned. *)
Record probe_conf := ProbeConf {
  pc_component : string; pc_specie : string; pc_type : Z;
  pc_start_r : Z; pc_start_z : Z; pc_end_r : Z; pc_end_z : Z }.

(** src/loadInitParam.cpp lines 66-67 *)
Definition data_root (result_path root : string) : outcome string := store 100 (result_path ++ "/" ++ root).

(** src/probePlain.cpp lines 33-38 *)
Definition result_component (c : probe_conf) : outcome string :=
  store 100 (if String.eqb (pc_specie c) "none" then pc_component c else pc_component c ++ "/" ++ pc_specie c).

(** src/probePlain.cpp lines 40-59, the directory of a probe *)
Definition probe_path (c : probe_conf) (path rc : string) : string :=
  let numbers := show (pc_start_r c) ++ ":" ++ show (pc_start_z c) ++ "_" ++ show (pc_end_r c) ++ ":" ++ show (pc_end_z c) in
  match pc_type c with
  | 0%Z => path ++ "/" ++ rc ++ "/frame_" ++ numbers
  | 1%Z => path ++ "/" ++ rc ++ "/col_" ++ show (pc_start_z c)
  | 2%Z => path ++ "/" ++ rc ++ "/row_" ++ show (pc_start_r c)
  | 3%Z => path ++ "/" ++ rc ++ "/dot_" ++ show (pc_start_r c) ++ "_" ++ show (pc_start_z c)
  | _ => path ++ "/" ++ rc ++ "/mpframe_" ++ numbers
  end.

(** The constructor, lines 9-62: path[256], component[10], specie[100], result_component[100],
    path_result[100]. *)
Definition make_probe (result_path root : string) (c : probe_conf) : outcome string :=
  (do path <- data_root result_path root;
   do _ <- store 256 path;
   do _ <- store 10 (pc_component c);
   do _ <- store 100 (pc_specie c);
   do rc <- result_component c;
   store 100 (probe_path c path rc))%outcome.

(** src/probePlain.cpp lines 69-78, and src/loadInitParam.cpp lines 334-335 for the name *)
Definition get_data_path (path_result : string) (file_number : Z) : outcome string :=
  (do name <- store 100 (show file_number);
   store 100 (path_result ++ "/" ++ name ++ ".dat"))%outcome.
