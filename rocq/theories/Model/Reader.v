(** Model of the analysis reader, tools/lib/plain_reader.py, without its cache (use_cache is
    False by default, line 19; the cache is in Model/Cache.v). An exception is [None]. Frame
    numbers and file numbers below zero raise IndexError (lines 125-127, 138-140) and are not
    representable here. *)
From Coq Require Import Reals ZArith List Bool.
Import ListNotations.
Local Open Scope nat_scope.

(** A probe directory: the number of files named [0-9]*.dat (lines 104-109) and their values. *)
Record dir := Dir { d_count : nat; d_file : nat -> option (list R) }.

(** numpy.reshape of a vector to m rows of w values; an exception unless the sizes agree. *)
Definition rows (m w : nat) (v : list R) : list (list R) := map (fun j => firstn w (skipn (j * w) v)) (seq 0 m).
Definition reshape (m w : nat) (v : list R) : option (list (list R)) :=
  if Nat.eqb (length v) (m * w) then Some (rows m w v) else None.

(** lines 123-133: a file number may equal the number of files *)
Definition validate_ds (d : dir) (n : nat) : bool := n <=? d_count d.

(** lines 231-256 with size = h*w, lines 259-285 and 288-314 with size = one side of the full
    frame: fpds frames of [size] values each. numpy.fromfile reads at most count values. *)
Definition get_all_in_ds (d : dir) (fpds size n : nat) : option (list (list R)) :=
  if validate_ds d n then
    match d_file d n with
    | None => None
    | Some v => reshape fpds size (firstn (size * fpds) v)
    end
  else None.

(** lines 57-62 *)
Definition get_ds_frame_by_frame (fpds frame : nat) : nat * nat := (frame / fpds, frame mod fpds).

Definition obind {A B} (x : option A) (f : A -> option B) : option B := match x with Some a => f a | None => None end.

(** lines 136-146 and 342-364; the frame is a list of h rows of w values *)
Definition get_frame (d : dir) (fpds h w number : nat) : option (list (list R)) :=
  if d_count d * fpds <=? number then None
  else
    let '(ds, k) := get_ds_frame_by_frame fpds number in
    obind (get_all_in_ds d fpds (h * w) ds) (fun l => obind (nth_error l k) (fun f => reshape h w f)).

(** lines 401-423: one column, with the shape given as [column, _, _, _] (a shape of one
    element makes line 404 fail); size is the first side of the full frame *)
Definition get_col (d : dir) (fpds size number : nat) : option (list R) :=
  let '(ds, k) := get_ds_frame_by_frame fpds number in
  obind (get_all_in_ds d fpds size ds) (fun l => nth_error l k).

(** lines 426-448: one row. The format string of lines 432-433 has five places and gets four
    arguments, which raises IndexError before anything is read. *)
Definition get_row (d : dir) (fpds size number : nat) : option (list R) := None.

(** lines 317-339 and 451-460: one dot; shape = [s0, s1] is its position *)
Definition get_dot (d : dir) (fpds s0 s1 number : nat) : option R :=
  let '(ds, k) := get_ds_frame_by_frame fpds number in
  if validate_ds d ds then
    obind (d_file d ds) (fun v => nth_error (firstn (s0 * s1 * fpds) v) k)
  else None.

(** numpy.empty: entries not yet assigned are [None]. *)
Definition empty {A} (n : nat) : list (option A) := repeat None n.

(** x[a:b] = vals for 0 <= a, 0 <= b: the bounds are cut to the length of x; a single value
    is broadcast; otherwise the lengths must agree. *)
Definition assign {A} (x : list (option A)) (a b : nat) (vals : list A) : option (list (option A)) :=
  let a' := Nat.min a (length x) in
  let b' := Nat.max a' (Nat.min b (length x)) in
  if Nat.eqb (length vals) (b' - a') then Some (firstn a' x ++ map Some vals ++ skipn b' x)
  else match vals with
       | [v] => Some (firstn a' x ++ repeat (Some v) (b' - a') ++ skipn b' x)
       | _ => None
       end.

(** x[a:b] as a value *)
Definition slice {A} (x : list A) (a b : nat) : list A := firstn (Nat.min b (length x) - a) (skipn a x).

(** lines 483-488, 525-530, 567-572, 607-612: the files between the first and the last one *)
Definition middle {A} (read : nat -> option (list A)) (fpds shifted from_ds : nat) (x : list (option A)) (i : nat)
  : option (list (option A)) :=
  let k := (i - from_ds - 1) * fpds in
  let k1 := (i - from_ds) * fpds in
  obind (read i) (fun l => assign x (shifted + k) (shifted + k1) (slice l 0 fpds)).

Fixpoint middles {A} (read : nat -> option (list A)) (fpds shifted from_ds : nat) (l : list nat) (x : list (option A))
  : option (list (option A)) :=
  match l with
  | [] => Some x
  | i :: rest => obind (middle read fpds shifted from_ds x i) (middles read fpds shifted from_ds rest)
  end.

(** lines 464-493; validation in lines 189-197: to < from and to out of range raise;
    [read ds] stands for get_all_frames_in_ds. to_frame = 0 or None raises (line 471, the name
    space is not defined). *)
Definition get_frame_range {A} (read : nat -> option (list A)) (fpds files from to : nat) : option (list (option A)) :=
  if (to <? from) || (files * fpds <=? to) || (to =? 0) then None
  else
    let fr := to - from in
    let '(from_ds, from_in) := get_ds_frame_by_frame fpds from in
    let '(to_ds, to_in) := get_ds_frame_by_frame fpds to in
    let x := empty fr in
    if fpds <=? fr then
      obind (read from_ds) (fun l =>
      obind (assign x 0 (fpds - from_in) (slice l from_in (length l))) (fun x =>
      obind (if 0 <? to_in then
               obind (read to_ds) (fun l => assign x (fr - to_in - 1) (fr - 1) (slice l 0 to_in))
             else Some x) (fun x =>
      middles read fpds (fpds - from_in) from_ds (seq (from_ds + 1) (to_ds - (from_ds + 1))) x)))
    else obind (read from_ds) (fun l => assign x 0 to_in (slice l from_in to_in)).

(** lines 496-535, 538-577, 580-616 (columns, rows, dots) with the cache off *)
Definition get_line_range {A} (read : nat -> option (list A)) (fpds from to : nat) : option (list (option A)) :=
  if (to <? from) || (to =? 0) then None
  else
    let fr := to - from in
    let '(from_ds, from_in) := get_ds_frame_by_frame fpds from in
    let '(to_ds, to_in) := get_ds_frame_by_frame fpds to in
    obind (read from_ds) (fun l =>
    obind (assign (empty fr) 0 (fpds - from_in) (slice l from_in fpds)) (fun x =>
    obind (read to_ds) (fun l =>
    obind (assign x (fr - to_in) fr (slice l 0 to_in)) (fun x =>
    middles read fpds (fpds - from_in) from_ds (seq (from_ds + 1) (to_ds - (from_ds + 1))) x)))).
