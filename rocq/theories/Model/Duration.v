(** Model of lib::get_simulation_duration, src/lib.cpp lines 82-120.

    std::time counts whole seconds; the difference is a whole number and is exact as a double. The
    quotients of doubles are rounded to nearest (Flocq); the differences of whole numbers are
    exact. *)
From Coq Require Import ZArith Reals String.
From Flocq Require Import Core.
From Verif.Lib Require Import Outcome.
From Verif.Model Require Import Paths.
Local Open Scope string_scope.
Local Open Scope Z_scope.

(** division of doubles *)
Definition ddiv (a b : Z) : R := round radix2 (FLT_exp (-1074) 53) ZnearestE (IZR a / IZR b).

(** conversion of a double to int *)
Definition to_int (x : R) : outcome Z :=
  if Z.ltb (- 2 ^ 31 - 1) (Ztrunc x) then if Z.ltb (Ztrunc x) (2 ^ 31) then Ok (Ztrunc x) else UB else UB.

(** lines 96-117: the text given to sprintf; [t] is time_sec. %.0f of a whole number prints it. *)
Definition duration_text (t : Z) : outcome string :=
  (if (60 <? t) && (t <? 3600) then
     do i <- to_int (IZR t);
     let min := Z.quot i 60 in
     let sec := t - min * 60 in
     Ok (show min ++ "m " ++ show sec ++ "s")
   else if (3600 <? t) && (t <? 86400) then
     do i <- to_int (IZR t);
     let hr := Z.quot i 3600 in
     do min <- to_int (ddiv (t - hr * 3600) 60);
     let sec := t - hr * 3600 - min * 60 in
     Ok (show hr ++ "h " ++ show min ++ "m " ++ show sec ++ "s")
   else if 86400 <? t then
     do i <- to_int (IZR t);
     let d := Z.quot i 86400 in
     do hr <- to_int (ddiv (t - d * 86400) 3600);
     do min <- to_int (ddiv (t - d * 86400 - hr * 3600) 60);
     let sec := t - d * 86400 - hr * 3600 - min * 60 in
     Ok (show d ++ "d " ++ show hr ++ "h " ++ show min ++ "m " ++ show sec ++ "s")
   else Ok (show t ++ "s"))%bool%outcome.

(** lines 82-120: the buffer is new char, one byte *)
Definition get_simulation_duration (t : Z) : outcome string :=
  (do s <- duration_text t; store 1 s)%outcome.
