(** Model of the data dump, src/loadInitParam.cpp lines 319-407, and of the plain-text probe
    writer, src/probePlain.cpp lines 78-166. *)
From Coq Require Import Reals ZArith List.
From Verif.Lib Require Import RAux Outcome Grid Par.
From Verif.Model Require Import Geometry ChargeDeposit Bunch.
Import ListNotations.
Local Open Scope R_scope.

(** What a probe shows. The temperature, density and macroparticle probes of lines 369-399 are
    not part of this model. [CArray n] stands for one of E_r ... J_z. *)
Inductive component := CArray (n : Z) | CRhoBeam | CUnknown.

(** include/probe.h lines 31-49; type 0 frame, 1 column, 2 row, 3 dot. *)
Record probe := Probe {
  pr_component : component; pr_type : Z;
  start_r : Z; start_z : Z; end_r : Z; end_z : Z;
  schedule : Z; step_number : Z }.

Definition next_step (p : probe) : probe :=
  Probe (pr_component p) (pr_type p) (start_r p) (start_z p) (end_r p) (end_z p) (schedule p) (step_number p + 1).

(** src/probePlain.cpp lines 78-166: the values appended to the file; lines 93-95 frame,
    112-113 column, 130-131 row, 149 dot. The text form of a value is modelled in
    Model/Text.v. The ranges are taken to lie inside the arrays. *)
Definition written (p : probe) (a : arr) : list R :=
  if (pr_type p =? 0)%Z then
    flat_map (fun i => map (fun k => a i k) (zrange (start_z p) (end_z p))) (zrange (start_r p) (end_r p))
  else if (pr_type p =? 1)%Z then map (fun k => a k (start_z p)) (zrange (start_r p) (end_r p))
  else if (pr_type p =? 2)%Z then map (fun k => a (start_r p) k) (zrange (start_z p) (end_z p))
  else if (pr_type p =? 3)%Z then [a (start_r p) (start_z p)]
  else [].

(** The data files of one probe by number; a file is the sequence of its values. Files are
    opened for appending, line 86. *)
Definition files := Z -> list R.
Definition append (f : files) (n : Z) (vs : list R) : files :=
  fun m => if (m =? n)%Z then f m ++ vs else f m.

(** line 329: is this a dump step? The remainder by zero is undefined. *)
Definition dump_now (t dt : R) (sched : Z) : outcome bool :=
  if (sched =? 0)%Z then UB else Ok (Z.rem (truncZ (t / dt)) sched =? 0)%Z.

(** lines 331-332: the file number; the quotient of two ints is rounded towards zero before
    floor sees it. *)
Definition file_number (p : probe) (frames_per_file : Z) : outcome Z :=
  if (frames_per_file =? 0)%Z then UB else Ok (Z.quot (step_number p) frames_per_file).

(** lines 325-405: dump_data over the list of probes. [arrays] are the field and current
    arrays, [bunches] the particles of c_bunches, [rho] the content of c_rho_bunch, which
    lines 363-366 change. *)
Fixpoint dump_data (g : geom) (frames_per_file : Z) (t dt : R) (arrays : Z -> arr) (bunches : list (list qpart))
         (rho : arr) (ps : list (probe * files)) : outcome (arr * list (probe * files)) :=
  match ps with
  | [] => Ok (rho, [])
  | (p, f) :: rest =>
      (do now <- dump_now t dt (schedule p);
       if now then
         do n <- file_number p frames_per_file;
         let rho' := match pr_component p with
                     | CRhoBeam => fold_left (charge_weighting g) bunches rho
                     | _ => rho end in
         let f' := match pr_component p with
                   | CArray c => append f n (written p (arrays c))
                   | CRhoBeam => append f n (written p rho')
                   | CUnknown => f end in
         do r <- dump_data g frames_per_file t dt arrays bunches rho' rest;
         Ok (fst r, (next_step p, f') :: snd r)
       else
         do r <- dump_data g frames_per_file t dt arrays bunches rho rest;
         Ok (fst r, (p, f) :: snd r))%outcome
  end.

(** What the probes can see at one dump: the time, the arrays, the beam and c_rho_bunch. *)
Record snapshot := Snapshot {
  sn_time : R; sn_arrays : Z -> arr; sn_bunches : list (list qpart); sn_rho : arr }.

(** The calls of dump_data of one run, line 584. The probes keep their step numbers and their
    files, everything else is given by the simulation. *)
Fixpoint dump_run (g : geom) (frames_per_file : Z) (dt : R) (l : list snapshot) (ps : list (probe * files))
  : outcome (list (probe * files)) :=
  match l with
  | [] => Ok ps
  | s :: rest =>
      (do r <- dump_data g frames_per_file (sn_time s) dt (sn_arrays s) (sn_bunches s) (sn_rho s) ps;
       dump_run g frames_per_file dt rest (snd r))%outcome
  end.
