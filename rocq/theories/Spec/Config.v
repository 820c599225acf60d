(** What a configuration document says, independent of the functions that read it. *)
From Coq Require Import String Ascii List ZArith Reals.
From Verif.Model Require Import Pml Xml Params Text.
From Verif.Spec Require Import BoolText.
Import ListNotations.
Local Open Scope string_scope.
Local Open Scope Z_scope.
Local Open Scope list_scope.

(** ** Numbers in decimal notation *)

(** a non-empty row of digits and its value; built from the last digit *)
Inductive digits : string -> Z -> Prop :=
| DigitsOne : forall c d, 0 <= d <= 9 -> Z.of_nat (nat_of_ascii c) = 48 + d -> digits (String c "") d
| DigitsMore : forall s n c d, digits s n -> 0 <= d <= 9 -> Z.of_nat (nat_of_ascii c) = 48 + d ->
    digits (s ++ String c "") (10 * n + d).

Inductive int_text : string -> Z -> Prop :=
| IntPlain : forall s n, digits s n -> int_text s n
| IntPlus : forall s n, digits s n -> int_text (String "+" s) n
| IntMinus : forall s n, digits s n -> int_text (String "-" s) (- n).

(** digits after the point *)
Inductive frac_text : string -> R -> Prop :=
| FracNone : frac_text "" 0
| FracSome : forall s n, digits s n -> frac_text (String "." s) (IZR n / 10 ^ String.length s).

Inductive exp_text : string -> Z -> Prop :=
| ExpNone : exp_text "" 0
| ExpSome : forall c s k, c = "e"%char \/ c = "E"%char -> int_text s k -> exp_text (String c s) k.

(** 12, 0.5, 1e6, 1.05E+16, -2.5e-3 ... *)
Inductive real_text : string -> R -> Prop :=
| RealPlain : forall s t u n f k, digits s n -> frac_text t f -> exp_text u k ->
    real_text (s ++ t ++ u) ((IZR n + f) * powerRZ 10 k)
| RealPlus : forall s x, real_text s x -> (exists c s', s = String c s' /\ 48 <= Z.of_nat (nat_of_ascii c) <= 57) ->
    real_text (String "+" s) x
| RealMinus : forall s x, real_text s x -> (exists c s', s = String c s' /\ 48 <= Z.of_nat (nat_of_ascii c) <= 57) ->
    real_text (String "-" s) (- x).

(** the truth values *)
Inductive bool_text : string -> bool -> Prop :=
| BoolTrue : forall s, spelled "true" s -> bool_text s true
| BoolFalse : forall s, spelled "false" s -> bool_text s false.

(** a text of the form [T] with white space before and behind it, as in <start_time> 0 </start_time> *)
Inductive padded {A : Type} (T : string -> A -> Prop) : string -> A -> Prop :=
| Padded : forall b s c x, blank b -> T s x -> blank c -> padded T (b ++ s ++ c) x.

(** ** Elements *)

Definition is_named (name : string) (n : node) : Prop := exists a k, n = Elem name a k.

(** [c] is the one and only child element of [n] with this name *)
Definition only (n : node) (name : string) (c : node) : Prop :=
  exists l1 l2, kids n = l1 ++ c :: l2 /\ is_named name c /\
    Forall (fun x => ~ is_named name x) l1 /\ Forall (fun x => ~ is_named name x) l2.

(** the elements of a list with this name, in their order *)
Inductive picks (name : string) : list node -> list node -> Prop :=
| PicksNil : picks name [] []
| PicksYes : forall x l m, is_named name x -> picks name l m -> picks name (x :: l) (x :: m)
| PicksNo : forall x l m, ~ is_named name x -> picks name l m -> picks name (x :: l) m.

(** the element contains the text [s] and no more than that, apart from comments after it *)
Definition text_is (n : node) (s : string) : Prop := exists name a k, n = Elem name a (Txt s :: k).

(** the child [name] of [n] has the text [s] *)
Definition says (n : node) (name s : string) : Prop := exists c, only n name c /\ text_is c s.
Definition says_int (n : node) (name : string) (z : Z) : Prop :=
  exists s, says n name s /\ padded int_text s z /\ -2147483648 <= z <= 2147483647.
(** the nearest double of the number that is written *)
Definition says_real (n : node) (name : string) (e : ext) : Prop :=
  exists s x, says n name s /\ padded real_text s x /\ e = Fin (parse64 x).
Definition says_bool (n : node) (name : string) (b : bool) : Prop := exists s, says n name s /\ padded bool_text s b.

(** the attribute; names of attributes are not repeated in an element *)
Definition attr (n : node) (name s : string) : Prop := In (name, s) (attrs n) /\ NoDup (map fst (attrs n)).
Definition attr_int (n : node) (name : string) (z : Z) : Prop :=
  exists s, attr n name s /\ padded int_text s z /\ 0 <= z <= 2147483647.

(** ** Probes *)

Definition frame_ranges (e : node) (p : probe) : Prop :=
  attr_int e "r_start" (pr_r_start p) /\ attr_int e "r_end" (pr_r_end p) /\
  attr_int e "z_start" (pr_z_start p) /\ attr_int e "z_end" (pr_z_end p).

(** the element [e] describes the probe [p] on a grid with nr and nz nodes *)
Definition says_probe (nr nz : Z) (e : node) (p : probe) : Prop :=
  attr e "component" (pr_component p) /\
  (forall s, pr_specie p = Some s <-> In ("specie", s) (attrs e)) /\
  attr_int e "schedule" (pr_schedule p) /\
  ( attr e "type" "frame" /\ pr_type p = 0 /\ frame_ranges e p \/
    attr e "type" "col" /\ pr_type p = 1 /\ pr_r_start p = 0 /\ pr_r_end p = nr /\ attr_int e "z" (pr_z_start p) \/
    attr e "type" "row" /\ pr_type p = 2 /\ attr_int e "r" (pr_r_start p) /\ pr_z_start p = 0 /\ pr_z_end p = nz \/
    attr e "type" "dot" /\ pr_type p = 3 /\ attr_int e "r" (pr_r_start p) /\ attr_int e "z" (pr_z_start p) \/
    attr e "type" "mpframe" /\ pr_type p = 4 /\ frame_ranges e p ).

(** ** The other sections *)

Definition says_specie (debug : bool) (e : node) (s : specie) : Prop :=
  attr e "name" (sp_name s) /\ says_int e "charge" (sp_charge s) /\ says_int e "mass" (sp_mass s) /\ 0 <= sp_mass s /\
  says_real e (if debug then "debug_number_macro" else "number_macro") (sp_number_macro s) /\
  says_real e "left_density" (sp_left_density s) /\ says_real e "right_density" (sp_right_density s) /\
  says_real e "temperature" (sp_temperature s).

Definition says_grid (debug : bool) (doc : node) (g : grid) : Prop := exists e, only doc "geometry" e /\
  says_real e "r_size" (gr_r_size g) /\ says_real e "z_size" (gr_z_size g) /\
  says_int e (if debug then "debug_n_grid_r" else "n_grid_r") (gr_n_r g) /\
  says_int e (if debug then "debug_n_grid_z" else "n_grid_z") (gr_n_z g) /\ 0 <= gr_n_r g /\ 0 <= gr_n_z g.

Definition says_pml (doc : node) (p : pml_conf) : Prop := exists e, only doc "pml" e /\
  says_real e "comparative_l_1" (pm_l1 p) /\ says_real e "comparative_l_2" (pm_l2 p) /\
  says_real e "comparative_l_3" (pm_l3 p) /\ says_real e "sigma_1" (pm_sigma1 p) /\ says_real e "sigma_2" (pm_sigma2 p).

Definition says_time (doc : node) (c : clock) : Prop := exists e, only doc "time" e /\
  says_real e "current_time" (ck_current c) /\ says_real e "start_time" (ck_start c) /\
  says_real e "relaxation_time" (ck_relaxation c) /\ says_real e "end_time" (ck_end c) /\
  says_real e "step_interval" (ck_delta c).

(** the number of macroparticles is a whole number, perhaps written as 1e6 *)
Definition says_beam (debug : bool) (doc : node) (b : beam) : Prop := exists e, only doc "particle_beam" e /\
  (exists s, bm_name b = Some s /\ attr e "name" s) /\ says_int e "charge" (bm_charge b) /\
  says_int e "mass" (bm_mass b) /\ 0 <= bm_mass b /\
  says_int e "number_bunches" (bm_number_bunches b) /\ 0 <= bm_number_bunches b /\
  says_real e "bunches_distance" (bm_bunches_distance b) /\ says_real e "initial_velocity" (bm_velocity b) /\
  says_real e (if debug then "debug_bunch_number_macro" else "bunch_number_macro") (Fin (IZR (bm_number_macro b))) /\
  0 <= bm_number_macro b < 4294967296 /\
  says_real e "bunch_length" (bm_length b) /\ says_real e "bunch_radius" (bm_radius b) /\ says_real e "bunch_density" (bm_density b).

Definition says_dump (debug : bool) (doc : node) (d : dump) : Prop := exists e, only doc "file_save_parameters" e /\
  (exists s, du_result_path d = Some s /\ says e "result_path" s) /\
  (exists s, du_data_root d = Some s /\ says e (if debug then "debug_data_root" else "data_root") s) /\
  says_int e "frames_per_file" (du_frames_per_file d) /\ 0 <= du_frames_per_file d /\
  says_bool e "compress" (du_compress d) /\ says_int e "compress_level" (du_compress_level d).

Definition probe_elements (doc : node) (es : list node) : Prop :=
  exists f ps, only doc "file_save_parameters" f /\ only f "probes" ps /\ picks "probe" (kids ps) es.
Definition specie_elements (doc : node) (es : list node) : Prop :=
  exists ps, only doc "particles" ps /\ picks "particle_specie" (kids ps) es.

(** The element initial_parameters says what is in [p]. *)
Definition says_params (doc : node) (p : params) : Prop :=
  says_bool doc "debug" (p_debug p) /\ says_bool doc "use_hdf5" (p_use_hdf5 p) /\
  says_grid (p_debug p) doc (p_grid p) /\ says_pml doc (p_pml p) /\ says_time doc (p_time p) /\
  (exists es, specie_elements doc es /\ es <> [] /\ Forall2 (says_specie (p_debug p)) es (p_species p)) /\
  says_beam (p_debug p) doc (p_beam p) /\ says_dump (p_debug p) doc (p_dump p) /\
  (exists es, probe_elements doc es /\ es <> [] /\ Forall2 (says_probe (gr_n_r (p_grid p)) (gr_n_z (p_grid p))) es (p_probes p)).
