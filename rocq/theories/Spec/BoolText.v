(** Spelling of the truth values, independent of the reader. *)
From Coq Require Import String Ascii List.
Local Open Scope string_scope.

(** a small letter and its capital *)
Definition letter (small c : ascii) : Prop := c = small \/ (nat_of_ascii c + 32 = nat_of_ascii small)%nat.

(** [t] is the word [w] (in small letters) in any mixture of small letters and capitals *)
Inductive spelled : string -> string -> Prop :=
| SpelledNil : spelled "" ""
| SpelledCons : forall d c w t, letter d c -> spelled w t -> spelled (String d w) (String c t).

(** blank, tabulator, line feed, vertical tabulator, form feed, carriage return *)
Inductive blank : string -> Prop :=
| BlankNil : blank ""
| BlankCons : forall c s, In (nat_of_ascii c) (32 :: 9 :: 10 :: 11 :: 12 :: 13 :: nil)%nat -> blank s -> blank (String c s).

(** white space, then [w], then anything *)
Definition begins_with (w s : string) : Prop := exists b t r, s = b ++ t ++ r /\ blank b /\ spelled w t.
