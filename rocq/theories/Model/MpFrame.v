(** Model of macroparticle frames: the branch of dump_data for probes of type 4, src/loadInitParam.cpp lines 325-333
    and 393-404, ProbePlain::mpwrite, src/probePlain.cpp lines 173-224, and the reader get_mpframe of
    tools/lib/plain_reader.py lines 367-398.

    The name of the probe is taken to be none of the twelve names of lines 340-392 of loadInitParam.cpp, which are
    tested first. Names of paths are in Model/Paths.v, the text form of a value in Model/Text.v. *)
From Coq Require Import String Reals ZArith List Bool.
From Verif.Lib Require Import RAux Outcome Grid.
From Verif.Model Require Import Geometry Pusher Diagnostics Dump Text.
Import ListNotations.
Local Open Scope R_scope.

(** The five files of a frame, probePlain.cpp lines 182-187: <n>_vel_r, <n>_vel_phi, <n>_vel_z, <n>_pos_r, <n>_pos_z. *)
Inductive mpcol := VelR | VelPhi | VelZ | PosR | PosZ.
Definition mpcol_eqb (a b : mpcol) : bool :=
  match a, b with
  | VelR, VelR | VelPhi, VelPhi | VelZ, VelZ | PosR, PosR | PosZ, PosZ => true
  | _, _ => false
  end.
Definition all_cols : list mpcol := [VelR; VelPhi; VelZ; PosR; PosZ].

(** lines 217-221 *)
Definition mp_value (c : mpcol) (x : dpart) : R :=
  match c with
  | VelR => v0 (d_vel x) | VelPhi => v1 (d_vel x) | VelZ => v2 (d_vel x) | PosR => d_r x | PosZ => d_z x
  end.

(** lines 209-215; the bounds start_r ... end_z are ints that are converted to unsigned int for the comparison with the
    unsigned cell numbers. is_alive is not consulted. *)
Definition mp_shown (g : geom) (p : probe) (x : dpart) : bool :=
  let r_i := u32 (CELL_NUMBER (d_r x) (dr g)) in
  let z_k := u32 (CELL_NUMBER (d_z x) (dz g)) in
  ((u32 (start_r p) <=? r_i) && (r_i <=? u32 (end_r p)) && (u32 (start_z p) <=? z_k) && (z_k <=? u32 (end_z p)))%Z.

(** The data files in the directory of the probe, by number and column. *)
Definition mpfiles := list ((Z * mpcol) * list R).

Definition same_file (a b : Z * mpcol) : bool := (fst a =? fst b)%Z && mpcol_eqb (snd a) (snd b).

(** lines 195-205: a file is opened for appending and created if it is not there *)
Fixpoint append_file (k : Z * mpcol) (vs : list R) (l : mpfiles) : mpfiles :=
  match l with
  | [] => [(k, vs)]
  | (k', old) :: rest => if same_file k' k then (k', old ++ vs) :: rest else (k', old) :: append_file k vs rest
  end.

(** src/probePlain.cpp lines 173-224: the five files of frame [n] *)
Definition mpwrite (g : geom) (p : probe) (n : Z) (xs : list dpart) (l : mpfiles) : mpfiles :=
  fold_left (fun l c => append_file (n, c) (map (mp_value c) (filter (mp_shown g p) xs)) l) all_cols l.

(** src/loadInitParam.cpp lines 393-404, for one probe. [name] is w->component; the species are given by name. *)
Definition dump_mp (g : geom) (frames_per_file : Z) (t dt : R) (species : list (string * list dpart)) (name : string)
           (pf : probe * mpfiles) : outcome (probe * mpfiles) :=
  let (p, f) := pf in
  (do now <- dump_now t dt (schedule p);
   if now then
     do _ <- file_number p frames_per_file;
     Ok (next_step p,
         fold_left (fun f s => if String.eqb (fst s) name then mpwrite g p (step_number p) (snd s) f else f) species f)
   else Ok (p, f))%outcome.

(** The calls of dump_data of a run as one probe sees them: the time and the particles at each of them. *)
Fixpoint mp_run (g : geom) (frames_per_file : Z) (dt : R) (l : list (R * list (string * list dpart))) (name : string)
         (pf : probe * mpfiles) : outcome (probe * mpfiles) :=
  match l with
  | [] => Ok pf
  | (t, species) :: rest =>
      (do pf' <- dump_mp g frames_per_file t dt species name pf; mp_run g frames_per_file dt rest name pf')%outcome
  end.

(** ** The reader *)

Definition find_file (k : Z * mpcol) (l : mpfiles) : option (list R) :=
  match find (fun x => same_file (fst x) k) l with Some x => Some (snd x) | None => None end.

(** tools/lib/plain_reader.py lines 85-94: the file name for component 0 ... 5 of get_mpframe; no program writes the
    file <n>_pos_phi.dat *)
Definition mp_file_of (mp_component : nat) : option mpcol :=
  match mp_component with
  | 0 => Some PosR | 2 => Some PosZ | 3 => Some VelR | 4 => Some VelPhi | 5 => Some VelZ | _ => None
  end%nat.

(** numpy.fromfile(count = n, sep = ' '): at most n values, all values if n is negative *)
Definition fromfile (count : Z) (vs : list R) : list R :=
  let l := map text_value vs in if (count <? 0)%Z then l else firstn (Z.to_nat count) l.

(** lines 367-398 with the validation of lines 123-133 and 149-158, without the cache. The number of files is what
    lines 104-109 count: all files [0-9]*.dat of the directory. An exception is [None]. *)
Definition get_mpframe (l : mpfiles) (fpds : nat) (shape0 shape1 shape2 shape3 : Z) (mp_component number : nat)
  : option (list R) :=
  let files := length l in
  if Nat.leb (files * fpds) number then None
  else if Nat.ltb files (number / fpds) then None
  else match mp_file_of mp_component with
       | None => None
       | Some c =>
           match find_file (Z.of_nat number, c) l with
           | None => None
           | Some vs => Some (fromfile ((shape2 - shape0) * (shape3 - shape1) * Z.of_nat fpds) vs)
           end
       end.
