(** The part of the library tinyxml2 (lib/tinyxml2) that the configuration reader uses, as functions on the
    parsed document, and the number readers atoi and atof of the C library. Parsing XML text itself is not modelled. *)
From Coq Require Import String Ascii List Bool ZArith Reals.
From Verif.Lib Require Import Outcome.
From Verif.Model Require Import ToBool Text Pml.
Import ListNotations.
Local Open Scope string_scope.
Local Open Scope Z_scope.
Local Open Scope list_scope.
Local Open Scope outcome_scope.

(** ** The document *)

(** A node: an element with its name, attributes and child nodes, a text, or something else (comment,
    declaration). *)
Inductive node :=
| Elem (name : string) (attrs : list (string * string)) (kids : list node)
| Txt (text : string)
| Other.

Definition kids (n : node) : list node := match n with Elem _ _ l => l | _ => [] end.
Definition attrs (n : node) : list (string * string) := match n with Elem _ l _ => l | _ => [] end.
Definition named (name : string) (n : node) : bool := match n with Elem m _ _ => String.eqb m name | _ => false end.

(** XMLNode::FirstChildElement(name); the null pointer is None *)
Definition first_child (n : node) (name : string) : option node := find (named name) (kids n).

(** FirstChildElement(name) followed by NextSiblingElement(name) until the null pointer *)
Definition all_children (n : node) (name : string) : list node := filter (named name) (kids n).

(** XMLElement::Attribute(name) *)
Definition attribute (n : node) (name : string) : option string :=
  option_map snd (find (fun a => String.eqb (fst a) name) (attrs n)).

(** XMLElement::GetText(): the first child if it is a text *)
Definition get_text (n : node) : option string := match kids n with Txt s :: _ => Some s | _ => None end.

(** ** Numbers *)

Definition digit_value (base : Z) (c : ascii) : option Z :=
  let n := Z.of_nat (nat_of_ascii c) in
  let v := if (48 <=? n) && (n <=? 57) then n - 48
           else if (97 <=? n) && (n <=? 102) then n - 87
           else if (65 <=? n) && (n <=? 70) then n - 55 else 99 in
  if v <? base then Some v else None.

(** the digits at the beginning: (value so far, number of digits read, rest) *)
Fixpoint read_digits (base : Z) (s : string) (acc cnt : Z) : Z * Z * string :=
  match s with
  | String c s' =>
      match digit_value base c with
      | Some d => read_digits base s' (acc * base + d) (cnt + 1)
      | None => (acc, cnt, s)
      end
  | EmptyString => (acc, cnt, s)
  end.

Definition read_sign (s : string) : bool * string :=
  match s with
  | String "-"%char s' => (true, s')
  | String "+"%char s' => (false, s')
  | _ => (false, s)
  end.

Definition INT_MAX : Z := 2147483647.
Definition INT_MIN : Z := -2147483648.

(** atoi (C11 7.22.1.2). A text that does not begin with a number gives 0; a value outside the range of
    int is undefined behaviour. *)
Definition atoi (s : string) : outcome Z :=
  let '(neg, s) := read_sign (skipws s) in
  let '(v, _, _) := read_digits 10 s 0 0 in
  let v := if neg then - v else v in
  if (INT_MIN <=? v) && (v <=? INT_MAX) then Ok v else UB.

(** the exponent part after the letter [mark]: without digits it is not part of the number *)
Definition read_exponent (mark : ascii) (s : string) : Z :=
  match s with
  | String c s' =>
      if Ascii.eqb (tolower c) mark then
        let '(neg, s') := read_sign s' in
        let '(v, _, _) := read_digits 10 s' 0 0 in if neg then - v else v
      else 0
  | EmptyString => 0
  end.

(** an unsigned number with point and exponent: mantissa times base^-(digits after the point) times ebase^exponent *)
Definition read_number (base ebase : Z) (mark : ascii) (s : string) : R :=
  let '(ip, n1, s1) := read_digits base s 0 0 in
  let '(m, n2, s2) := match s1 with
                      | String "."%char s' => read_digits base s' ip 0
                      | _ => (ip, 0, s1)
                      end in
  if n1 + n2 =? 0 then 0%R
  else (IZR m * powerRZ (IZR base) (- n2) * powerRZ (IZR ebase) (read_exponent mark s2))%R.

(** [s] begins with [w] in small or capital letters *)
Fixpoint prefix_of (w s : string) : bool :=
  match w, s with
  | EmptyString, _ => true
  | String d w', String c s' => Ascii.eqb (tolower c) d && prefix_of w' s'
  | _, _ => false
  end.

(** "0x" is followed by a hexadecimal digit, perhaps after a point *)
Definition hex_start (s : string) : bool :=
  match s with
  | String "0"%char (String x (String c s')) =>
      Ascii.eqb (tolower x) "x"%char &&
      match digit_value 16 c with
      | Some _ => true
      | None => Ascii.eqb c "."%char && match s' with String d _ => match digit_value 16 d with Some _ => true | None => false end
                                                  | EmptyString => false end
      end
  | _ => false
  end.

(** atof = strtod (C11 7.22.1.3): correctly rounded to double precision; overflow to infinity and
    the sign of zero are not modelled. *)
Definition atof (s : string) : ext :=
  let '(neg, s) := read_sign (skipws s) in
  if prefix_of "inf" s then (if neg then NInf else PInf)
  else if prefix_of "nan" s then NotNum
  else
    let x := if hex_start s then read_number 16 2 "p"%char (substring 2 (String.length s - 2) s)
             else read_number 10 10 "e"%char s in
    Fin (parse64 (if neg then - x else x)%R).
