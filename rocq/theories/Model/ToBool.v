(** Model of lib::to_bool, src/lib.cpp lines 36-43, with the parts of the C++ library it uses:
    ::tolower in the C locale, the constructor of the input sentry, which skips white space, and the
    reading of a bool with std::boolalpha (libstdc++, bits/locale_facets.tcc lines 617-684, with
    the C locale names true and false). Bytes from 128 on are negative as char; tolower leaves them
    as they are in glibc. *)
From Coq Require Import String Ascii List Bool Arith.
From Verif.Lib Require Import Outcome.
Local Open Scope string_scope.

Definition tolower (c : ascii) : ascii :=
  let n := nat_of_ascii c in
  if (Nat.leb 65 n && Nat.leb n 90)%bool then ascii_of_nat (n + 32) else c.

(** std::transform, line 38 *)
Fixpoint lower (s : string) : string :=
  match s with "" => "" | String c s' => String (tolower c) (lower s') end.

(** isspace in the C locale *)
Definition isspace (c : ascii) : bool :=
  let n := nat_of_ascii c in (Nat.eqb n 32 || (Nat.leb 9 n && Nat.leb n 13))%bool.

Fixpoint skipws (s : string) : string :=
  match s with "" => "" | String c s' => if isspace c then skipws s' else s end.

(** name[n] == c *)
Definition name_is (name : string) (n : nat) (c : ascii) : bool :=
  match String.get n name with Some d => Ascii.eqb c d | None => false end.

(** locale_facets.tcc lines 631-661; the result is (testf, testt, n) *)
Fixpoint read_name (s : string) (testf testt donef donet : bool) (n : nat) : bool * bool * nat :=
  if (donef && donet)%bool then (testf, testt, n)
  else match s with
  | "" => (testf, testt, n)
  | String c s' =>
      let testf := if donef then testf else name_is "false" n c in
      if (negb testf && donet)%bool then (testf, testt, n)
      else
      let testt := if donet then testt else name_is "true" n c in
      if (negb testt && donef)%bool then (testf, testt, n)
      else if (negb testt && negb testf)%bool then (testf, testt, n)
      else
      let n := S n in
      read_name s' testf testt (negb testf || Nat.leb 5 n) (negb testt || Nat.leb 4 n) n
  end.

(** locale_facets.tcc lines 625-684: the value stored; on failure it is false *)
Definition get_bool (s : string) : bool :=
  let '(testf, testt, n) := read_name s true true false false 0 in
  if (testf && Nat.eqb n 5)%bool then false
  else if (testt && Nat.eqb n 4)%bool then true
  else false.

(** src/lib.cpp lines 36-43. If nothing but white space is left the sentry fails and b, which is
    not initialised, is returned. The failure flags of the stream are never looked at. *)
Definition to_bool (str : string) : outcome bool :=
  match skipws (lower str) with
  | "" => UB
  | s => Ok (get_bool s)
  end.
