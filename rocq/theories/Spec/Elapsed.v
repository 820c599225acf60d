(** Reading a text that states a time, independent of how it is printed. *)
From Coq Require Import ZArith String Ascii List.
Local Open Scope string_scope.
Local Open Scope Z_scope.

(** the value of a row of decimal digits read after a number [a] *)
Fixpoint digits (a : Z) (s : string) : option Z :=
  match s with
  | "" => Some a
  | String c s' =>
      let d := Z.of_nat (nat_of_ascii c) - 48 in
      if ((0 <=? d) && (d <=? 9))%bool then digits (10 * a + d) s' else None
  end.

(** [s] is a decimal number with value [n] *)
Definition numeral (s : string) (n : Z) : Prop := s <> "" /\ digits 0 s = Some n.

(** [s] states a time of [t] seconds: seconds and minutes below 60, hours below 24 *)
Inductive states_time : string -> Z -> Prop :=
| StatesS : forall a s, numeral a s -> 0 <= s < 60 -> states_time (a ++ "s") s
| StatesM : forall b a m s, numeral b m -> numeral a s -> 0 <= m < 60 -> 0 <= s < 60 ->
    states_time (b ++ "m " ++ a ++ "s") (60 * m + s)
| StatesH : forall c b a h m s, numeral c h -> numeral b m -> numeral a s -> 0 <= h < 24 -> 0 <= m < 60 -> 0 <= s < 60 ->
    states_time (c ++ "h " ++ b ++ "m " ++ a ++ "s") (3600 * h + 60 * m + s)
| StatesD : forall e c b a d h m s, numeral e d -> numeral c h -> numeral b m -> numeral a s ->
    0 <= d -> 0 <= h < 24 -> 0 <= m < 60 -> 0 <= s < 60 ->
    states_time (e ++ "d " ++ c ++ "h " ++ b ++ "m " ++ a ++ "s") (86400 * d + 3600 * h + 60 * m + s).
