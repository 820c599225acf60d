(** Model of the configuration reader, src/parameters.cpp and include/parameters.h, of the default
    build (LEGACY is not defined). abort() is [Exit 134], the status a shell reports. Using a null pointer as a
    text or as an element is undefined behaviour. *)
From Coq Require Import String List Bool ZArith Reals.
From Verif.Lib Require Import Outcome RAux.
From Verif.Model Require Import ToBool Pml Xml.
Import ListNotations.
Local Open Scope string_scope.
Local Open Scope Z_scope.
Local Open Scope list_scope.
Local Open Scope outcome_scope.

Definition abort {A : Type} : outcome A := Exit 134.

(** conversion of an int to unsigned int *)
Definition to_unsigned (z : Z) : Z := z mod 4294967296.

(** conversion of a double to unsigned int: toward zero; undefined if the result does not fit *)
Definition double_to_unsigned (e : ext) : outcome Z :=
  match e with
  | Fin x =>
      let t := if Rlt_dec x 0 then - floorZ (- x) else floorZ x in
      if (0 <=? t) && (t <? 4294967296) then Ok t else UB
  | _ => UB
  end.

(** lines 44-59 with fail = true *)
Definition try_first_child (e : node) (name : string) : outcome node :=
  match first_child e name with Some c => Ok c | None => abort end.

(** lines 61-75 with fail = true *)
Definition try_atribute (e : node) (name : string) : outcome string :=
  match attribute e name with Some s => Ok s | None => abort end.

(** ->GetText() handed to atoi, atof, std::string *)
Definition text_of (e : node) : outcome string := match get_text e with Some s => Ok s | None => UB end.

Definition int_child (e : node) (name : string) : outcome Z :=
  do c <- try_first_child e name; do s <- text_of c; atoi s.
Definition real_child (e : node) (name : string) : outcome ext :=
  do c <- try_first_child e name; do s <- text_of c; Ok (atof s).
Definition bool_child (e : node) (name : string) : outcome bool :=
  do c <- try_first_child e name; do s <- text_of c; to_bool s.
Definition int_attr (e : node) (name : string) : outcome Z := do s <- try_atribute e name; atoi s.

Fixpoint map_all {A B : Type} (f : A -> outcome B) (l : list A) : outcome (list B) :=
  match l with
  | [] => Ok []
  | x :: l' => do y <- f x; do ys <- map_all f l'; Ok (y :: ys)
  end.

(** ** Probes *)

(** struct probe, include/parameters.h lines 19-28. All numbers are unsigned int. *)
Record probe := Probe {
  pr_component : string; pr_specie : option string; pr_type : Z;
  pr_r_start : Z; pr_r_end : Z; pr_z_start : Z; pr_z_end : Z; pr_schedule : Z }.

(** lines 119-176: one pass of the loop *)
Definition init_probe (n_grid_r n_grid_z : Z) (e : node) : outcome probe :=
  do component <- try_atribute e "component";
  let specie := attribute e "specie" in
  do p_type <- try_atribute e "type";
  do ranges <-
    (if String.eqb p_type "frame" then
       do a <- int_attr e "r_start"; do b <- int_attr e "r_end";
       do c <- int_attr e "z_start"; do d <- int_attr e "z_end"; Ok (0, a, b, c, d)
     else if String.eqb p_type "col" then
       do c <- int_attr e "z"; Ok (1, 0, n_grid_r, c, -1)
     else if String.eqb p_type "row" then
       do a <- int_attr e "r"; Ok (2, a, -1, 0, n_grid_z)
     else if String.eqb p_type "dot" then
       do a <- int_attr e "r"; do c <- int_attr e "z"; Ok (3, a, -1, c, -1)
     else if String.eqb p_type "mpframe" then
       do a <- int_attr e "r_start"; do b <- int_attr e "r_end";
       do c <- int_attr e "z_start"; do d <- int_attr e "z_end"; Ok (4, a, b, c, d)
     else Exit 1);
  let '(type, r_start, r_end, z_start, z_end) := ranges in
  do schedule <- int_attr e "schedule";
  Ok (Probe component specie type (to_unsigned r_start) (to_unsigned r_end)
        (to_unsigned z_start) (to_unsigned z_end) (to_unsigned schedule)).

(** lines 105-177 *)
Definition init_probes (n_grid_r n_grid_z : Z) (xml_data : node) : outcome (list probe) :=
  do f <- try_first_child xml_data "file_save_parameters";
  do ps <- try_first_child f "probes";
  do _ <- try_first_child ps "probe";
  map_all (init_probe n_grid_r n_grid_z) (all_children ps "probe").

(** ** Species *)

(** struct particle_specie, include/parameters.h lines 30-38 *)
Record specie := Specie {
  sp_name : string; sp_mass : Z; sp_charge : Z; sp_number_macro : ext;
  sp_left_density : ext; sp_right_density : ext; sp_temperature : ext }.

(** lines 84-102 *)
Definition init_specie (debug : bool) (e : node) : outcome specie :=
  do name <- try_atribute e "name";
  do charge <- int_child e "charge";
  do mass <- int_child e "mass";
  do number_macro <- real_child e (if debug then "debug_number_macro" else "number_macro");
  do left_density <- real_child e "left_density";
  do right_density <- real_child e "right_density";
  do temperature <- real_child e "temperature";
  Ok (Specie name (to_unsigned mass) charge number_macro left_density right_density temperature).

(** lines 77-103 *)
Definition init_particles (debug : bool) (xml_data : node) : outcome (list specie) :=
  do ps <- try_first_child xml_data "particles";
  do _ <- try_first_child ps "particle_specie";
  map_all (init_specie debug) (all_children ps "particle_specie").

(** ** The rest *)

Record beam := Beam {
  bm_name : option string; bm_charge : Z; bm_mass : Z; bm_number_bunches : Z; bm_bunches_distance : ext;
  bm_velocity : ext; bm_number_macro : Z; bm_length : ext; bm_radius : ext; bm_density : ext }.

(** lines 179-200 *)
Definition init_beam_parameters (debug : bool) (xml_data : node) : outcome beam :=
  do b <- try_first_child xml_data "particle_beam";
  let name := attribute b "name" in
  do charge <- int_child b "charge";
  do mass <- int_child b "mass";
  do number_bunches <- int_child b "number_bunches";
  do distance <- real_child b "bunches_distance";
  do velocity <- real_child b "initial_velocity";
  do macro <- real_child b (if debug then "debug_bunch_number_macro" else "bunch_number_macro");
  do macro <- double_to_unsigned macro;
  do length <- real_child b "bunch_length";
  do radius <- real_child b "bunch_radius";
  do density <- real_child b "bunch_density";
  Ok (Beam name charge (to_unsigned mass) (to_unsigned number_bunches) distance velocity macro length radius density).

Record grid := GridConf { gr_r_size : ext; gr_z_size : ext; gr_n_r : Z; gr_n_z : Z }.

(** lines 213-231 *)
Definition init_geometry (debug : bool) (xml_data : node) : outcome grid :=
  do g <- try_first_child xml_data "geometry";
  do r <- real_child g "r_size";
  do z <- real_child g "z_size";
  do nr <- int_child g (if debug then "debug_n_grid_r" else "n_grid_r");
  do nz <- int_child g (if debug then "debug_n_grid_z" else "n_grid_z");
  Ok (GridConf r z nr nz).

Record pml_conf := PmlConf { pm_l1 : ext; pm_l2 : ext; pm_l3 : ext; pm_sigma1 : ext; pm_sigma2 : ext }.

(** lines 233-253 *)
Definition init_pml (xml_data : node) : outcome pml_conf :=
  do p <- try_first_child xml_data "pml";
  do l1 <- real_child p "comparative_l_1";
  do l2 <- real_child p "comparative_l_2";
  do l3 <- real_child p "comparative_l_3";
  do s1 <- real_child p "sigma_1";
  do s2 <- real_child p "sigma_2";
  Ok (PmlConf l1 l2 l3 s1 s2).

Record clock := Clock { ck_current : ext; ck_start : ext; ck_relaxation : ext; ck_end : ext; ck_delta : ext }.

(** lines 255-268 with the constructor Time::Time, src/pdp3Time.cpp lines 11-18 *)
Definition init_time (xml_data : node) : outcome clock :=
  do t <- try_first_child xml_data "time";
  do start <- real_child t "start_time";
  do relaxation <- real_child t "relaxation_time";
  do current <- real_child t "current_time";
  do fin <- real_child t "end_time";
  do step <- real_child t "step_interval";
  Ok (Clock current start relaxation fin step).

(** The result texts are stored as pointers: the null pointer is None. *)
Record dump := Dump { du_result_path : option string; du_data_root : option string; du_frames_per_file : Z;
                      du_compress : bool; du_compress_level : Z }.

(** lines 270-297 *)
Definition init_data_dump_parameters (debug : bool) (xml_data : node) : outcome dump :=
  do f <- try_first_child xml_data "file_save_parameters";
  do rp <- try_first_child f "result_path";
  do dd <- try_first_child f (if debug then "debug_data_root" else "data_root");
  do frames <- int_child f "frames_per_file";
  do compress <- bool_child f "compress";
  do level <- int_child f "compress_level";
  Ok (Dump (get_text rp) (get_text dd) (to_unsigned frames) compress level).

Record params := Params {
  p_debug : bool; p_use_hdf5 : bool; p_grid : grid; p_pml : pml_conf; p_time : clock;
  p_species : list specie; p_beam : beam; p_dump : dump; p_probes : list probe }.

(** Parameters::Parameters, lines 6-42. [document] is None if the file cannot be loaded as XML (line 13),
    otherwise the list of its top nodes. Without an element initial_parameters xml_data is null
    (line 19) and is used in line 22. *)
Definition parameters (document : option (list node)) : outcome params :=
  match document with
  | None => Exit 78
  | Some top =>
      match find (named "initial_parameters") top with
      | None => UB
      | Some xml_data =>
          do debug <- bool_child xml_data "debug";
          do use_hdf5 <- bool_child xml_data "use_hdf5";
          do g <- init_geometry debug xml_data;
          do pml <- init_pml xml_data;
          do time <- init_time xml_data;
          do species <- init_particles debug xml_data;
          do bm <- init_beam_parameters debug xml_data;
          do d <- init_data_dump_parameters debug xml_data;
          do probes <- init_probes (gr_n_r g) (gr_n_z g) xml_data;
          Ok (Params debug use_hdf5 g pml time species bm d probes)
      end
  end.
