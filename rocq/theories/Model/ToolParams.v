(** Model of the configuration reader of the analysis tools, tools/lib/parameters.py lines 9-198, and of the
    file names of tools/lib/plain_reader.py lines 18-95.

    The document is that of Model/Xml.v. minidom keeps white space between elements as text nodes; the code never
    looks at them. A Python exception that nobody catches ends the program with status 1. The text of a comment is not part
    of the document here: reading a comment as data (which minidom allows) is [UB], i.e. not described. *)
From Coq Require Import String Ascii List Bool ZArith Reals.
From Verif.Lib Require Import Outcome.
From Verif.Model Require Import MkDir PyPath Paths ToBool Text Pml Xml Params.
Import ListNotations.
Local Open Scope string_scope.
Local Open Scope Z_scope.
Local Open Scope list_scope.
Local Open Scope outcome_scope.

Definition raise {A : Type} : outcome A := Exit 1.

(** getElementsByTagName(name): all elements below [n], in the order of the document *)
Fixpoint tagged (name : string) (n : node) : list node :=
  match n with
  | Elem _ _ k => flat_map (fun c => (if named name c then [c] else []) ++ tagged name c) k
  | _ => []
  end.

(** getElementsByTagName(name)[0] *)
Definition first_tag (n : node) (name : string) : outcome node :=
  match tagged name n with c :: _ => Ok c | [] => raise end.

(** .firstChild.data *)
Definition data_of (n : node) : outcome string :=
  match kids n with
  | Txt s :: _ => Ok s
  | Other :: _ => UB
  | _ => raise
  end.

(** getAttribute(name): empty if there is none *)
Definition get_attribute (n : node) (name : string) : string :=
  match attribute n name with Some s => s | None => "" end.

(** ** Numbers of Python *)

Fixpoint rstrip (s : string) : string :=
  match s with
  | "" => ""
  | String c s' => match rstrip s' with
                   | "" => if isspace c then "" else String c ""
                   | t => String c t
                   end
  end.
(** str.strip(); of the other characters that Python strips none can occur in XML texts in ASCII *)
Definition strip (s : string) : string := rstrip (skipws s).

(** digits with single underscores between them: (value, number of digits, rest) *)
Fixpoint read_group (s : string) (acc cnt : Z) : Z * Z * string :=
  match s with
  | String c s' =>
      match digit_value 10 c with
      | Some d => read_group s' (acc * 10 + d) (cnt + 1)
      | None =>
          match s' with
          | String c2 s'' =>
              match digit_value 10 c2 with
              | Some d => if (Ascii.eqb c "_" && (0 <? cnt))%bool then read_group s'' (acc * 10 + d) (cnt + 1) else (acc, cnt, s)
              | None => (acc, cnt, s)
              end
          | "" => (acc, cnt, s)
          end
      end
  | "" => (acc, cnt, s)
  end.

(** int(s); there is no limit of the value (the limit of 4300 digits of newer versions is not modelled) *)
Definition py_int (s : string) : outcome Z :=
  let '(neg, s) := read_sign (strip s) in
  let '(v, n, r) := read_group s 0 0 in
  if ((n =? 0) || negb (String.eqb r ""))%bool then raise else Ok (if neg then - v else v).

(** the exponent of float(s) and what follows it *)
Definition py_exponent (s : string) : option (Z * string) :=
  match s with
  | String c s' =>
      if Ascii.eqb (tolower c) "e" then
        let '(neg, s1) := read_sign s' in
        let '(v, n, r) := read_group s1 0 0 in
        if n =? 0 then None else Some (if neg then - v else v, r)
      else Some (0, s)
  | "" => Some (0, s)
  end.

(** float(s): correctly rounded; overflow and the sign of zero are not modelled, as in [atof] *)
Definition py_float (s : string) : outcome ext :=
  let '(neg, s) := read_sign (strip s) in
  let l := lower s in
  if (String.eqb l "inf" || String.eqb l "infinity")%bool then Ok (if neg then NInf else PInf)
  else if String.eqb l "nan" then Ok NotNum
  else
    let '(ip, n1, s1) := read_group s 0 0 in
    let '(m, n2, s2) := match s1 with
                        | String "."%char s' => read_group s' ip 0
                        | _ => (ip, 0, s1)
                        end in
    if n1 + n2 =? 0 then raise
    else match py_exponent s2 with
         | Some (k, "") => let x := (IZR m * powerRZ 10 (- n2) * powerRZ 10 k)%R in
                           Ok (Fin (parse64 (if neg then - x else x)%R))
         | _ => raise
         end.

(** bool(json.loads(s.lower())) for the literals and the whole numbers of JSON; other JSON texts (fractions, strings, lists,
    objects) are not described *)
Definition json_number_start (s : string) : bool :=
  match s with
  | String c _ => match digit_value 10 c with Some _ => true | None => Ascii.eqb c "-" end
  | "" => false
  end.
Definition json_bool (s : string) : outcome bool :=
  let t := strip (lower s) in
  if String.eqb t "true" then Ok true
  else if String.eqb t "false" then Ok false
  else if String.eqb t "null" then Ok false
  else if json_number_start t then
    let '(neg, u) := read_sign t in
    let '(v, n, r) := read_digits 10 u 0 0 in
    if (negb (n =? 0) && String.eqb r "" && negb ((1 <? n) && String.eqb (substring 0 1 u) "0"))%bool then Ok (negb (v =? 0)) else UB
  else match t with
       | String c _ => if (Ascii.eqb c """" || Ascii.eqb c "[" || Ascii.eqb c "{")%bool then UB else raise
       | "" => raise
       end.

(** ** The object *)

Definition int_tag (n : node) (name : string) : outcome Z := do c <- first_tag n name; do s <- data_of c; py_int s.
Definition float_tag (n : node) (name : string) : outcome ext := do c <- first_tag n name; do s <- data_of c; py_float s.
Definition text_tag (n : node) (name : string) : outcome string := do c <- first_tag n name; data_of c.
Definition bool_tag (n : node) (name : string) : outcome bool := do c <- first_tag n name; do s <- data_of c; json_bool s.

(** lines 9-20 *)
Record tprobe := TProbe {
  tp_type : string; tp_component : string; tp_schedule : Z;
  tp_r_start : Z; tp_z_start : Z; tp_r_end : Z; tp_z_end : Z; tp_specie : string }.

(** lines 75-121: one pass of the loop *)
Definition tool_probe (e : node) : outcome tprobe :=
  let p_type := get_attribute e "type" in
  let p_compon := get_attribute e "component" in
  let p_specie := get_attribute e "specie" in
  do p_schedule <- py_int (get_attribute e "schedule");
  if (String.eqb p_type "frame" || String.eqb p_type "mpframe")%bool then
    do r_start <- py_int (get_attribute e "r_start"); do r_end <- py_int (get_attribute e "r_end");
    do z_start <- py_int (get_attribute e "z_start"); do z_end <- py_int (get_attribute e "z_end");
    Ok (TProbe p_type p_compon p_schedule r_start z_start r_end z_end p_specie)
  else if String.eqb p_type "col" then
    do z_start <- py_int (get_attribute e "z");
    Ok (TProbe p_type p_compon p_schedule (-1) z_start (-1) (-1) p_specie)
  else if String.eqb p_type "row" then
    do r_start <- py_int (get_attribute e "r");
    Ok (TProbe p_type p_compon p_schedule r_start (-1) (-1) (-1) p_specie)
  else if String.eqb p_type "dot" then
    do r_start <- py_int (get_attribute e "r"); do z_start <- py_int (get_attribute e "z");
    Ok (TProbe p_type p_compon p_schedule r_start z_start (-1) (-1) p_specie)
  else raise.

(** lines 23-33 *)
Record tspecie := TSpecie {
  ts_name : string; ts_charge : Z; ts_mass : Z; ts_number_macro : ext;
  ts_left_density : ext; ts_right_density : ext; ts_temperature : ext }.

(** lines 155-162 *)
Definition tool_specie (e : node) : outcome tspecie :=
  do charge <- int_tag e "charge";
  do mass <- int_tag e "mass";
  do temperature <- float_tag e "temperature";
  do number_macro <- float_tag e "number_macro";
  do left_density <- float_tag e "left_density";
  do right_density <- float_tag e "right_density";
  Ok (TSpecie (get_attribute e "name") charge mass number_macro left_density right_density temperature).

(** lines 177-198 *)
Record tplot := TPlot {
  pl_color : string; pl_width : ext; pl_height : ext; pl_dpi : Z; pl_font_name : string; pl_font_family : string; pl_font_size : Z;
  pl_codec : string; pl_fps : Z; pl_bitrate : Z }.

Definition tool_plot (doc : node) : outcome tplot :=
  do plot <- first_tag doc "plot";
  do figure <- first_tag plot "figure";
  do color <- text_tag figure "color";
  do width <- float_tag figure "width";
  do height <- float_tag figure "height";
  do dpi <- int_tag figure "dpi";
  do font <- first_tag figure "font";
  do name <- text_tag font "name";
  do family <- text_tag font "family";
  do size <- int_tag font "size";
  do video <- first_tag plot "video";
  do codec <- text_tag video "codec";
  do fps <- int_tag video "fps";
  do bitrate <- int_tag video "bitrate";
  Ok (TPlot color width height dpi name family size codec fps bitrate).

Record tparams := TParams {
  t_config_path : string; t_use_hdf5 : bool; t_n_r : Z; t_n_z : Z; t_r_size : ext; t_z_size : ext; t_probes : list tprobe;
  t_data_root : string; t_data_path : string; t_frames_per_file : Z; t_bunch_density : ext; t_bunch_radius : ext;
  t_bunch_length : ext; t_number_bunches : ext; t_bunches_distance : ext; t_velocity : ext; t_particles : list tspecie;
  t_start_time : ext; t_end_time : ext; t_step_interval : ext; t_plot : tplot }.

(** Parameters.__init__, lines 37-198, for the file with the name [file] whose top nodes are [top] *)
Definition tool_parameters (file : string) (top : list node) : outcome tparams :=
  let config_path := normpath (dirname file) in
  let dom_root := Elem "#document" [] top in
  do is_debug <- bool_tag dom_root "debug";
  do use_hdf5 <- bool_tag dom_root "use_hdf5";
  do geometry <- first_tag dom_root "geometry";
  do n_r <- int_tag geometry (if is_debug then "debug_n_grid_r" else "n_grid_r");
  do n_z <- int_tag geometry (if is_debug then "debug_n_grid_z" else "n_grid_z");
  do r_size <- float_tag geometry "r_size";
  do z_size <- float_tag geometry "z_size";
  do fsp <- first_tag dom_root "file_save_parameters";
  do ps <- first_tag fsp "probes";
  do probes <- map_all tool_probe (tagged "probe" ps);
  do data_root <- text_tag fsp (if is_debug then "debug_data_root" else "data_root");
  do local_data_path <- text_tag fsp "result_path";
  let data_path := if absolute local_data_path then local_data_path else normpath (join config_path local_data_path) in
  do frames_per_file <- int_tag fsp "frames_per_file";
  do beam <- first_tag dom_root "particle_beam";
  do bunch_density <- float_tag beam "bunch_density";
  do bunch_radius <- float_tag beam "bunch_radius";
  do bunch_length <- float_tag beam "bunch_length";
  do number_bunches <- float_tag beam "number_bunches";
  do bunches_distance <- float_tag beam "bunches_distance";
  do velocity <- float_tag beam "initial_velocity";
  do pts <- first_tag dom_root "particles";
  do particles <- map_all tool_specie (tagged "particle_specie" pts);
  do time <- first_tag dom_root "time";
  do start_time <- float_tag time "start_time";
  do end_time <- float_tag time "end_time";
  do step_interval <- float_tag time "step_interval";
  do plot <- tool_plot dom_root;
  Ok (TParams config_path use_hdf5 n_r n_z r_size z_size probes data_root data_path frames_per_file bunch_density bunch_radius
        bunch_length number_bunches bunches_distance velocity particles start_time end_time step_interval plot).

(** ** File names *)

(** PlainReader.__init__, plain_reader.py line 23, with path=cfg.data_path and data_root=cfg.data_root as in all the scripts *)
Definition reader_data_path (t : tparams) : string := normpath (join (t_data_path t) (t_data_root t)).

(** the component and the shape with which the scripts ask for the data of a probe, e.g. view_1_density_map.ipynb,
    view_1_Hphi_t.ipynb, view_1_velocity_distribution.ipynb; get_frame_range_dot passes [col, row] (plain_reader.py line 572) *)
Definition asked_component (p : tprobe) : string :=
  if String.eqb (tp_specie p) "" then tp_component p else (tp_component p ++ "/" ++ tp_specie p)%string.
Definition asked_shape (p : tprobe) : list Z :=
  if String.eqb (tp_type p) "col" then [tp_z_start p]
  else if String.eqb (tp_type p) "row" then [tp_r_start p]
  else if String.eqb (tp_type p) "dot" then [tp_z_start p; tp_r_start p]
  else [tp_r_start p; tp_z_start p; tp_r_end p; tp_z_end p].

(** __get_path__, plain_reader.py lines 64-76; an index that is missing in the list raises an exception *)
Definition reader_path (data_path component type : string) (shape : list Z) : outcome string :=
  if (String.eqb type "frame" || String.eqb type "mpframe")%bool then
    match shape with
    | s0 :: s1 :: s2 :: s3 :: _ =>
        Ok (join data_path (component ++ "/" ++ type ++ "_" ++ show s0 ++ ":" ++ show s1 ++ "_" ++ show s2 ++ ":" ++ show s3))
    | _ => raise
    end
  else if (String.eqb type "col" || String.eqb type "row")%bool then
    match shape with s0 :: _ => Ok (join data_path (component ++ "/" ++ type ++ "_" ++ show s0)) | _ => raise end
  else if String.eqb type "dot" then
    match shape with s0 :: s1 :: _ => Ok (join data_path (component ++ "/" ++ type ++ "_" ++ show s1 ++ "_" ++ show s0)) | _ => raise end
  else raise.

(** __get_file_path__, plain_reader.py lines 79-82 *)
Definition reader_file (data_path component type : string) (shape : list Z) (filenumber : Z) : outcome string :=
  do path <- reader_path data_path component type shape;
  Ok (join path (show filenumber ++ ".dat")).

(** ** The simulation's side *)

(** src/loadInitParam.cpp lines 63-82: what is handed to the constructor of a probe. The members of struct probe are unsigned, the
    parameters int: values from 2^31 on become negative. *)
Definition as_int (z : Z) : Z := if z <? 2147483648 then z else z - 4294967296.
Definition conf_of_probe (p : Params.probe) : probe_conf :=
  ProbeConf (pr_component p) (match pr_specie p with Some s => s | None => "none" end) (as_int (pr_type p))
    (as_int (pr_r_start p)) (as_int (pr_z_start p)) (as_int (pr_r_end p)) (as_int (pr_z_end p)).

(** the data file number [n] of a probe *)
Definition sim_file (p : params) (q : Params.probe) (n : Z) : outcome string :=
  match du_result_path (p_dump p), du_data_root (p_dump p) with
  | Some rp, Some root => do dir <- make_probe rp root (conf_of_probe q); get_data_path dir n
  | _, _ => UB
  end.
