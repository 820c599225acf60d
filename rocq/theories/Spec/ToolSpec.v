(** What the analysis tools need of a configuration document beyond what the simulation needs, and what it
    means that both know the same configuration. *)
From Coq Require Import String List ZArith Reals.
From Verif.Model Require Import Pml Xml Params ToolParams.
From Verif.Spec Require Import Config.
Import ListNotations.
Local Open Scope string_scope.
Local Open Scope Z_scope.
Local Open Scope list_scope.

(** [d] is somewhere inside of [n] *)
Inductive below : node -> node -> Prop :=
| BelowKid : forall n d, In d (kids n) -> below n d
| BelowDeep : forall n c d, In c (kids n) -> below c d -> below n d.

(** elements of this name are children of [n], not deeper inside of it *)
Definition outermost (n : node) (name : string) : Prop := forall c d, In c (kids n) -> below c d -> ~ is_named name d.

Definition all_outermost (n : node) (names : list string) : Prop := Forall (outermost n) names.

(** the section plot *)
Definition says_plot (doc : node) (p : tplot) : Prop :=
  exists plot figure font video, only doc "plot" plot /\ only plot "figure" figure /\ only plot "video" video /\
    only figure "font" font /\ all_outermost plot ["figure"; "video"] /\
    all_outermost figure ["color"; "width"; "height"; "dpi"; "font"] /\ all_outermost font ["name"; "family"; "size"] /\
    all_outermost video ["codec"; "fps"; "bitrate"] /\
    says figure "color" (pl_color p) /\ says_real figure "width" (pl_width p) /\ says_real figure "height" (pl_height p) /\
    says_int figure "dpi" (pl_dpi p) /\ says font "name" (pl_font_name p) /\ says font "family" (pl_font_family p) /\
    says_int font "size" (pl_font_size p) /\ says video "codec" (pl_codec p) /\ says_int video "fps" (pl_fps p) /\
    says_int video "bitrate" (pl_bitrate p).

(** The tools search whole sections for a name, so names must not be used again deeper inside; they always read the element
    number_macro of a species. *)
Definition tools_names (doc : node) : Prop :=
  all_outermost doc ["debug"; "use_hdf5"; "geometry"; "file_save_parameters"; "particle_beam"; "particles"; "time"; "plot"] /\
  (forall e, only doc "geometry" e ->
     all_outermost e ["n_grid_r"; "n_grid_z"; "debug_n_grid_r"; "debug_n_grid_z"; "r_size"; "z_size"]) /\
  (forall e, only doc "file_save_parameters" e ->
     all_outermost e ["probes"; "data_root"; "debug_data_root"; "result_path"; "frames_per_file"] /\
     forall ps, only e "probes" ps -> outermost ps "probe") /\
  (forall e, only doc "particle_beam" e ->
     all_outermost e ["bunch_density"; "bunch_radius"; "bunch_length"; "number_bunches"; "bunches_distance"; "initial_velocity"]) /\
  (forall e, only doc "particles" e -> outermost e "particle_specie") /\
  (forall es, specie_elements doc es -> Forall (fun e =>
     all_outermost e ["charge"; "mass"; "temperature"; "number_macro"; "left_density"; "right_density"] /\
     exists x, says_real e "number_macro" x) es) /\
  (forall e, only doc "time" e -> all_outermost e ["start_time"; "end_time"; "step_interval"]).

(** They also need the section plot. *)
Definition tools_ready (doc : node) : Prop := tools_names doc /\ exists p, says_plot doc p.

(** ** Agreement *)

Definition same_specie (debug : bool) (s : specie) (t : tspecie) : Prop :=
  ts_name t = sp_name s /\ ts_charge t = sp_charge s /\ ts_mass t = sp_mass s /\
  ts_left_density t = sp_left_density s /\ ts_right_density t = sp_right_density s /\ ts_temperature t = sp_temperature s /\
  (debug = false -> ts_number_macro t = sp_number_macro s).

Definition same_probe (p : Params.probe) (t : tprobe) : Prop :=
  tp_component t = pr_component p /\ tp_schedule t = pr_schedule p /\
  (pr_specie p = Some (tp_specie t) \/ pr_specie p = None /\ tp_specie t = "") /\
  ( (tp_type t = "frame" /\ pr_type p = 0 \/ tp_type t = "mpframe" /\ pr_type p = 4) /\
      tp_r_start t = pr_r_start p /\ tp_r_end t = pr_r_end p /\ tp_z_start t = pr_z_start p /\ tp_z_end t = pr_z_end p \/
    tp_type t = "col" /\ pr_type p = 1 /\ tp_z_start t = pr_z_start p \/
    tp_type t = "row" /\ pr_type p = 2 /\ tp_r_start t = pr_r_start p \/
    tp_type t = "dot" /\ pr_type p = 3 /\ tp_r_start t = pr_r_start p /\ tp_z_start t = pr_z_start p ).

Definition same_configuration (p : params) (t : tparams) : Prop :=
  t_use_hdf5 t = p_use_hdf5 p /\
  t_n_r t = gr_n_r (p_grid p) /\ t_n_z t = gr_n_z (p_grid p) /\
  t_r_size t = gr_r_size (p_grid p) /\ t_z_size t = gr_z_size (p_grid p) /\
  Some (t_data_root t) = du_data_root (p_dump p) /\ t_frames_per_file t = du_frames_per_file (p_dump p) /\
  t_bunch_density t = bm_density (p_beam p) /\ t_bunch_radius t = bm_radius (p_beam p) /\
  t_bunch_length t = bm_length (p_beam p) /\ t_number_bunches t = Fin (IZR (bm_number_bunches (p_beam p))) /\
  t_bunches_distance t = bm_bunches_distance (p_beam p) /\ t_velocity t = bm_velocity (p_beam p) /\
  t_start_time t = ck_start (p_time p) /\ t_end_time t = ck_end (p_time p) /\ t_step_interval t = ck_delta (p_time p) /\
  Forall2 (same_specie (p_debug p)) (p_species p) (t_particles t) /\ Forall2 same_probe (p_probes p) (t_probes t).
