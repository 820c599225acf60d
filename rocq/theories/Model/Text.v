(** Text form of a dumped value. src/probePlain.cpp lines 95, 113, 131, 149 print a double with
    the default format of an ostream: six significant decimal digits, correctly rounded.
    tools/lib/plain_reader.py lines 247-249 read it back with numpy's fromfile, which rounds the
    decimal number to the nearest double. Printing of infinities and overflow of the reader are
    not modelled. *)
From Coq Require Import ZArith Reals.
From Flocq Require Import Core.
Local Open Scope R_scope.

Definition ten : radix := Build_radix 10 eq_refl.
Definition print6 (v : R) : R := round ten (FLX_exp 6) ZnearestE v.
Definition parse64 (v : R) : R := round radix2 (FLT_exp (-1074) 53) ZnearestE v.
Definition text_value (v : R) : R := parse64 (print6 v).
