(** Model of the result cache, tools/lib/tinycache.py, as tools/lib/plain_reader.py uses it
    (lines 352-361 and the like). *)
From Coq Require Import Reals ZArith String List.
From Verif.Model Require Import Paths.
Import ListNotations.

(** The dictionary and the cache files, by name. *)
Record cache := Cache { c_memory : string -> option (list R); c_disk : string -> option (list R) }.

Definition put (m : string -> option (list R)) (k : string) (v : list R) : string -> option (list R) :=
  fun k' => if String.eqb k' k then Some v else m k'.

(** lines 19-34; with [file_bound] line 23 compares the modification time of the cache file
    with itself *)
Definition contains (c : cache) (mtime : string -> Z) (file_bound : bool) (k : string) : bool :=
  if file_bound then
    match c_disk c k with Some _ => (mtime k <? mtime k)%Z | None => false end
  else
    match c_memory c k, c_disk c k with None, None => false | _, _ => true end.

(** lines 36-44, with file_bound=None as plain_reader.py calls it; an empty array stands for
    "not cached" *)
Definition get_cache (c : cache) (k : string) : list R * cache :=
  match c_memory c k with
  | Some v => (v, c)
  | None => match c_disk c k with
            | Some v => (v, Cache (put (c_memory c) k v) (c_disk c))
            | None => ([], c)
            end
  end.

(** lines 46-50 *)
Definition update_cache (c : cache) (k : string) (v : list R) : cache :=
  Cache (put (c_memory c) k v) (put (c_disk c) k v).

(** plain_reader.py lines 352-364 with use_cache: [fresh] is what reading the data files gives
    now, [None] an exception *)
Definition cached_read (c : cache) (k : string) (fresh : option (list R)) : option (list R) * cache :=
  let '(v, c1) := get_cache c k in
  match v with
  | [] => match fresh with
          | None => (None, c1)
          | Some d => (Some d, update_cache c1 k d)
          end
  | _ => (Some v, update_cache c1 k v)
  end.

(** What may happen: a read of some result, a new simulation run that changes what the data
    files say, a restart of the analysis program (tinycache.py lines 10-17). *)
Inductive event := Read (k : string) | NewData (w : string -> option (list R)) | Restart.

(** The results of the reads of a history, each with what the data files said at that time. *)
Fixpoint history (c : cache) (w : string -> option (list R)) (es : list event)
  : list (option (list R) * option (list R)) :=
  match es with
  | [] => []
  | Read k :: rest => let '(r, c') := cached_read c k (w k) in (r, w k) :: history c' w rest
  | NewData w' :: rest => history c w' rest
  | Restart :: rest => history (Cache (fun _ => None) (c_disk c)) w rest
  end.

(** plain_reader.py lines 380-381: the name under which a macroparticle frame is cached; the
    requested quantity (argument mp_component) is not part of it. *)
Definition mpframe_key (component : string) (s0 s1 s2 s3 mp_component number : Z) : string :=
  ("mpframe_component:" ++ component ++ "_shape:" ++ show s0 ++ "-" ++ show s1 ++ "-" ++ show s2 ++ "-" ++ show s3
   ++ "_number:" ++ show number)%string.
