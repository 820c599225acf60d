(** Properties C45 (probes) and C58 (the whole configuration). *)
From Coq Require Import String Ascii List Bool ZArith Reals Lia Lra.
From Flocq Require Import Core.
From Verif.Lib Require Import Outcome RAux.
From Verif.Model Require Import ToBool Text Pml Xml Params.
From Verif.Spec Require Import BoolText Config.
From Verif.Proof Require Import ToBoolP ParamsP ToolParamsP.
Import ListNotations.
Local Open Scope string_scope.
Local Open Scope Z_scope.
Local Open Scope list_scope.

(** ** C45 *)

(** Every list of probe elements that describe probes, with other nodes between them in any number and the
    attributes in any order, gives one probe per element, in the same order, each with the type and the ranges
    that its element describes. Partial: elements that describe no probe are not always refused
    (C45_text_refuted), and a document without probes is (C45_none_refuted). *)
Theorem C45_partial : forall nr nz doc es ps, 0 <= nr <= 2147483647 -> 0 <= nz <= 2147483647 ->
  probe_elements doc es -> es <> [] -> Forall2 (says_probe nr nz) es ps ->
  exists out, init_probes nr nz doc = Ok out /\ Forall2 (says_probe nr nz) es out.
Proof. exact init_probes_says. Qed.
Print Assumptions C45_partial.

(** The first element with an unknown type ends the program with status 1. *)
Theorem C45_unknown_type : forall nr nz doc es1 ps e es2 c t, 0 <= nr <= 2147483647 -> 0 <= nz <= 2147483647 ->
  probe_elements doc (es1 ++ e :: es2) -> Forall2 (says_probe nr nz) es1 ps ->
  attr e "component" c -> attr e "type" t -> ~ In t ["frame"; "col"; "row"; "dot"; "mpframe"] ->
  init_probes nr nz doc = Exit 1.
Proof. exact init_probes_unknown. Qed.
Print Assumptions C45_unknown_type.

(** Texts that are no numbers are accepted: they are read as 0 or cut off, and a negative number becomes
    a large one. *)
Theorem C45_text_refuted : exists e p, init_probe 9 17 e = Ok p /\
  attr e "r_start" "first" /\ pr_r_start p = 0 /\
  attr e "r_end" "1O" /\ pr_r_end p = 1 /\ attr e "z_start" "-5" /\ pr_z_start p = 4294967291.
Proof.
  exists (Elem "probe" [("type", "frame"); ("r_start", "first"); ("r_end", "1O"); ("z_start", "-5"); ("z_end", "7");
                        ("schedule", "5"); ("component", "E_r")] []).
  eexists. split; [vm_compute; reflexivity|].
  assert (N : NoDup ["type"; "r_start"; "r_end"; "z_start"; "z_end"; "schedule"; "component"]).
  { repeat constructor; cbn; intuition discriminate. }
  unfold attr. cbn. repeat match goal with |- _ /\ _ => split end; auto 10.
Qed.
Print Assumptions C45_text_refuted.

(** A configuration without probes is not possible: the program aborts. *)
Theorem C45_none_refuted : forall nr nz doc, probe_elements doc [] -> init_probes nr nz doc = Exit 134.
Proof.
  intros nr nz doc (f & ps & Hf & Hp & Hk). unfold init_probes.
  rewrite (only_child _ _ _ Hf), bind_ok, (only_child _ _ _ Hp), bind_ok, (picks_none _ _ Hk). reflexivity.
Qed.
Print Assumptions C45_none_refuted.

(** ** C58 *)

(** A document that describes the parameters [p] in its element initial_parameters, with every number in
    decimal notation, perhaps between blanks (real numbers: the nearest double), is read without an error and the result is described by the
    document; it is [p] itself up to the members of probes that have no meaning. Partial: real-valued
    charges and masses, other notations and missing texts are not read as written (below). *)
Theorem C58_partial : forall top doc p,
  (exists l1 l2, top = l1 ++ doc :: l2 /\ is_named "initial_parameters" doc /\
     Forall (fun x => ~ is_named "initial_parameters" x) l1) ->
  says_params doc p -> exists p', parameters (Some top) = Ok p' /\ says_params doc p' /\
    p_debug p' = p_debug p /\ p_use_hdf5 p' = p_use_hdf5 p /\ p_grid p' = p_grid p /\ p_pml p' = p_pml p /\
    p_time p' = p_time p /\ p_species p' = p_species p /\ p_beam p' = p_beam p /\ p_dump p' = p_dump p.
Proof. exact parameters_says. Qed.
Print Assumptions C58_partial.

Definition elem (name text : string) : node := Elem name [] [Txt text].

(** Charge and mass of a species are cut to integers, without a message. *)
Definition positrons (mass : string) : node :=
  Elem "particle_specie" [("name", "positrons")]
    [elem "charge" "1"; elem "mass" mass; elem "number_macro" "1e6"; elem "left_density" "1e16";
     elem "right_density" "1.05e16"; elem "temperature" "1.0"].

Lemma digits_half : digits "5" 5.
Proof. apply (DigitsOne "5" 5); [lia|reflexivity]. Qed.

Theorem C58_mass_refuted : exists sp, says (positrons "0.5") "mass" "0.5" /\ real_text "0.5" (1 / 2) /\
  init_specie false (positrons "0.5") = Ok sp /\ sp_mass sp = 0.
Proof.
  eexists. split; [|split; [|split; [|]]].
  - exists (elem "mass" "0.5"). split; [|now exists "mass", [], []].
    exists [elem "charge" "1"]. eexists. split; [reflexivity|]. split; [now exists [], [Txt "0.5"]|].
    split; repeat constructor; intros (a & k & E); discriminate.
  - replace (1 / 2)%R with ((IZR 0 + IZR 5 / 10 ^ String.length "5") * powerRZ 10 0)%R by (cbn; lra).
    apply (RealPlain "0" ".5" ""); [apply (DigitsOne "0" 0); [lia|reflexivity]|apply FracSome, digits_half|constructor].
  - unfold init_specie, real_child, int_child, try_first_child, first_child, text_of, positrons, elem. cbn -[atof]. reflexivity.
  - reflexivity.
Qed.
Print Assumptions C58_mass_refuted.

(** Scientific notation, which the same file uses for other numbers, is cut to its first digits in integers. *)
Theorem C58_notation_refuted :
  atoi "1e3" = Ok 1 /\ real_text "1e3" 1000 /\ atoi "-1.9" = Ok (-1) /\ atoi "two" = Ok 0 /\ atoi "" = Ok 0.
Proof.
  repeat match goal with |- _ /\ _ => split end; try reflexivity.
  replace 1000%R with ((IZR 1 + 0) * powerRZ 10 3)%R by (change (powerRZ 10 3) with (10 ^ 3)%R; lra).
  apply (RealPlain "1" "" "e3"); [apply (DigitsOne "1" 1); [lia|reflexivity]|constructor|].
  apply (ExpSome "e" "3"); [now left|]. apply IntPlain. apply (DigitsOne "3" 3); [lia|reflexivity].
Qed.
Print Assumptions C58_notation_refuted.

(** A document whose top element has another name: a null pointer is used. *)
Theorem C58_root_refuted : forall top, Forall (fun x => ~ is_named "initial_parameters" x) top ->
  parameters (Some top) = UB.
Proof.
  intros top H. unfold parameters. replace (find (named "initial_parameters") top) with (@None node); [reflexivity|].
  symmetry. induction H as [|x l Hx _ IH]; [reflexivity|]. cbn [find]. now rewrite (named_false _ _ Hx).
Qed.
Print Assumptions C58_root_refuted.

(** An element without text: a null pointer is read as a number. *)
Theorem C58_empty_refuted : forall n name c, only n name c -> kids c = [] ->
  int_child n name = UB /\ real_child n name = UB /\ bool_child n name = UB.
Proof.
  intros n name c Hc Hk. unfold int_child, real_child, bool_child.
  rewrite (only_child _ _ _ Hc), !bind_ok. unfold text_of, get_text. rewrite Hk. repeat split.
Qed.
Print Assumptions C58_empty_refuted.

(** A file that is no XML document ends the program with status 78, a missing element with an abort. *)
Theorem C58_unreadable : parameters None = Exit 78 /\
  (forall n name, Forall (fun x => ~ is_named name x) (kids n) ->
     int_child n name = Exit 134 /\ real_child n name = Exit 134 /\ bool_child n name = Exit 134).
Proof.
  split; [reflexivity|]. intros n name H.
  assert (E : try_first_child n name = abort).
  { unfold try_first_child, first_child. replace (find (named name) (kids n)) with (@None node); [reflexivity|].
    symmetry. induction H as [|x l Hx _ IH]; [reflexivity|]. cbn [find]. now rewrite (named_false _ _ Hx). }
  unfold int_child, real_child, bool_child. rewrite E. repeat split.
Qed.
Print Assumptions C58_unreadable.

(** ** A document that meets the hypotheses: the distributed parameters.xml.in, shortened. *)

Definition sample_species : list node :=
  [ Elem "particle_specie" [("name", "electrons")]
      [elem "charge" "-1"; elem "mass" "1"; elem "number_macro" "1e6"; elem "debug_number_macro" "1e4";
       elem "left_density" "1e16"; elem "right_density" "1.05e16"; elem "temperature" "1.0"];
    Elem "particle_specie" [("name", "ions")]
      [elem "charge" "1"; elem "mass" "1836"; elem "number_macro" "1e6"; elem "debug_number_macro" "1e4";
       elem "left_density" "1e16"; elem "right_density" "1.05e16"; elem "temperature" "0.1"] ].

Definition sample_probes : list node :=
  [ Elem "probe" [("type", "col"); ("z", "100"); ("schedule", "50"); ("component", "E_r")] [];
    Elem "probe" [("type", "row"); ("r", "10"); ("schedule", "50"); ("component", "E_r")] [];
    Elem "probe" [("type", "dot"); ("r", "10"); ("z", "50"); ("schedule", "5"); ("component", "rho_beam")] [];
    Elem "probe" [("type", "frame"); ("r_start", "0"); ("z_start", "0"); ("r_end", "10"); ("z_end", "20"); ("schedule", "5");
                  ("component", "T"); ("specie", "electrons")] [];
    Elem "probe" [("type", "mpframe"); ("r_start", "0"); ("z_start", "0"); ("r_end", "10"); ("z_end", "20"); ("schedule", "5");
                  ("component", "electrons")] [] ].

Definition sample_document : node :=
  Elem "initial_parameters" []
    [ Other; elem "debug" "true"; elem "use_hdf5" "false";
      Elem "geometry" [] [elem "r_size" "0.25"; elem "z_size" "2.0"; elem "n_grid_r" "255"; elem "n_grid_z" "2047";
                          elem "debug_n_grid_r" "31"; elem "debug_n_grid_z" "255"];
      Elem "pml" [] [elem "comparative_l_1" "0"; elem "comparative_l_2" "0"; elem "comparative_l_3" "0";
                     elem "sigma_1" "1e-5"; elem "sigma_2" "7e-2"];
      Elem "time" [] [elem "start_time" " 0 "; elem "relaxation_time" "0"; elem "current_time" "0";
                      elem "end_time" "5e-8"; elem "step_interval" "1e-13"];
      Elem "particles" [] (Other :: sample_species);
      Elem "particle_beam" [("name", "electron_beam")]
        [elem "charge" "-1"; elem "mass" "1"; elem "initial_velocity" "2e8"; elem "number_bunches" "2";
         elem "bunches_distance" "0.2"; elem "bunch_number_macro" "1e6"; elem "debug_bunch_number_macro" "1e4";
         elem "bunch_length" "0.02"; elem "bunch_radius" "0.02"; elem "bunch_density" "1e15"];
      Elem "file_save_parameters" []
        [elem "result_path" "."; elem "data_root" "pdp3_result"; elem "debug_data_root" "pdp3_result_debug";
         elem "frames_per_file" "10"; elem "compress" "false"; elem "compress_level" "1";
         Elem "probes" [] (Other :: sample_probes)];
      Elem "plot" []
        [Elem "subplot" [] [elem "cmap" "terrain"; elem "number_x_ticks" "20"];
         Elem "figure" [] [elem "color" "None"; elem "width" "10.5"; elem "height" "7"; elem "dpi" "100";
                           Elem "font" [] [elem "family" "sans-serif"; elem "size" "10"; elem "name" "DejaVu Sans"]];
         Elem "video" [] [elem "codec" "mjpeg"; elem "fps" "20"; elem "bitrate" "32000"]] ].

Definition digit_char (c : ascii) : Prop := 48 <= Z.of_nat (nat_of_ascii c) <= 57.
Fixpoint digits_from (s : string) (acc : Z) : Z :=
  match s with "" => acc | String c s' => digits_from s' (10 * acc + (Z.of_nat (nat_of_ascii c) - 48)) end.

Lemma digits_more : forall r s n, digits s n -> Forall digit_char (list_ascii_of_string r) -> digits (s ++ r)%string (digits_from r n).
Proof.
  induction r as [|c r IH]; intros s n H F; cbn [digits_from].
  - now rewrite string_app_nil.
  - cbn in F. inversion F as [|? ? F1 F2]; subst. unfold digit_char in F1.
    replace (s ++ String c r)%string with ((s ++ String c "") ++ r)%string by (rewrite string_app_assoc; reflexivity).
    apply IH; [|exact F2]. apply DigitsMore; [exact H|lia|lia].
Qed.

Lemma digits_row : forall c r, Forall digit_char (list_ascii_of_string (String c r)) -> digits (String c r) (digits_from (String c r) 0).
Proof.
  intros c r F. cbn in F. inversion F as [|? ? F1 F2]; subst. unfold digit_char in F1.
  change (String c r) with (String c "" ++ r)%string at 1. cbn [digits_from]. apply digits_more; [|exact F2].
  apply DigitsOne; lia.
Qed.

Lemma only_filter : forall n name c, filter (named name) (kids n) = [c] -> only n name c.
Proof.
  intros n name c. unfold only. induction (kids n) as [|x l IH]; cbn; [discriminate|]. intro E.
  destruct (named name x) eqn:N.
  - injection E as -> E. exists [], l. split; [reflexivity|]. split; [now apply named_spec|]. split; [constructor|].
    rewrite Forall_forall. intros y Hy Q. apply named_spec in Q.
    assert (I : In y (filter (named name) l)) by (apply filter_In; now split). rewrite E in I. easy.
  - destruct (IH E) as (l1 & l2 & -> & A & B & C). exists (x :: l1), l2. split; [reflexivity|]. split; [exact A|].
    split; [|exact C]. constructor; [|exact B]. intro Q. apply named_spec in Q. congruence.
Qed.

Lemma picks_filter_conv : forall name l, picks name l (filter (named name) l).
Proof.
  intros name l. induction l as [|x l IH]; cbn; [constructor|]. destruct (named name x) eqn:N.
  - apply PicksYes; [now apply named_spec|exact IH].
  - apply PicksNo; [|exact IH]. intro Q. apply named_spec in Q. congruence.
Qed.

Ltac chars := repeat constructor; unfold digit_char; cbn; lia.
Ltac row := apply digits_row; chars.
Ltac child := match goal with |- says _ _ _ => eexists; split; [apply only_filter; reflexivity|do 3 eexists; reflexivity] end.
Ltac plain := eexists; split; [child|split; [apply unpadded, IntPlain; row|cbn; lia]].
Ltac minus := eexists; split; [child|split; [apply unpadded, (IntMinus "1" 1); row|cbn; lia]].
Ltac mantissa t := lazymatch t with "" => apply FracNone | _ => apply FracSome; row end.
Ltac exponent u := lazymatch u with
  | "" => apply ExpNone
  | String _ (String "-" ?v) => apply ExpSome; [now left|apply (IntMinus v); row]
  | _ => apply ExpSome; [now left|apply IntPlain; row] end.
Ltac real s t u := do 2 eexists; split; [child|split; [apply unpadded, (RealPlain s t u); [row|mantissa t|exponent u]|reflexivity]].
Ltac attribute_ := split; [cbn; auto 12|repeat constructor; cbn; intuition discriminate].
Ltac number := eexists; split; [attribute_|split; [apply unpadded, IntPlain; row|cbn; lia]].
Ltac specie_ := let s := fresh in intro s; cbn; split; [let E := fresh in intro E; first [discriminate|injection E as <-; auto 12]
                                                       |intuition (first [discriminate|congruence])].

Lemma ten_thousand : ((IZR 1 + 0) * powerRZ 10 4)%R = IZR 10000.
Proof. change (powerRZ 10 4) with (10 ^ 4)%R. lra. Qed.

Example C45_hypotheses_met : probe_elements sample_document sample_probes /\ sample_probes <> [] /\
  (exists ps, Forall2 (says_probe 31 255) sample_probes ps) /\
  attr (Elem "probe" [("component", "E_r"); ("type", "line")] []) "type" "line" /\
  ~ In "line" ["frame"; "col"; "row"; "dot"; "mpframe"].
Proof.
  split.
  { do 2 eexists. split; [apply only_filter; reflexivity|]. split; [apply only_filter; reflexivity|].
    apply (picks_filter_conv "probe" (Other :: sample_probes)). }
  split; [discriminate|]. split; [|split; [attribute_|cbn; intuition discriminate]].
  exists [Probe "E_r" None 1 0 31 100 0 50; Probe "E_r" None 2 10 0 0 255 50; Probe "rho_beam" None 3 10 0 50 0 5;
          Probe "T" (Some "electrons") 0 0 10 0 20 5; Probe "electrons" None 4 0 10 0 20 5].
  constructor; [split; [attribute_|split; [specie_|split; [number|]]]; right; left;
                split; [attribute_|]; repeat (split; [reflexivity|]); number|].
  constructor; [split; [attribute_|split; [specie_|split; [number|]]]; right; right; left;
                split; [attribute_|]; split; [reflexivity|]; split; [number|]; split; reflexivity|].
  constructor; [split; [attribute_|split; [specie_|split; [number|]]]; right; right; right; left;
                split; [attribute_|]; split; [reflexivity|]; split; number|].
  constructor; [split; [attribute_|split; [specie_|split; [number|]]]; left;
                split; [attribute_|]; split; [reflexivity|]; split; [number|]; split; [number|]; split; number|].
  constructor; [split; [attribute_|split; [specie_|split; [number|]]]; right; right; right; right;
                split; [attribute_|]; split; [reflexivity|]; split; [number|]; split; [number|]; split; number|].
  constructor.
Qed.

Example C58_hypotheses_met : exists p, says_params sample_document p /\ p_debug p = true /\
  gr_n_r (p_grid p) = 31 /\ length (p_species p) = 2%nat /\ length (p_probes p) = 5%nat /\ bm_number_macro (p_beam p) = 10000.
Proof.
  destruct C45_hypotheses_met as (P1 & P2 & (ps & P3) & _).
  assert (L : length ps = 5%nat).
  { clear - P3. unfold sample_probes in P3. repeat match goal with H : Forall2 _ _ _ |- _ => inversion H; clear H; subst end. reflexivity. }
  refine (ex_intro _ (Params true false (GridConf _ _ 31 255) (PmlConf _ _ _ _ _) (Clock _ _ _ _ _)
    [Specie "electrons" 1 (-1) _ _ _ _; Specie "ions" 1836 1 _ _ _ _]
    (Beam (Some "electron_beam") (-1) 1 2 _ _ 10000 _ _ _) (Dump (Some ".") (Some "pdp3_result_debug") 10 false 1) ps) _).
  split; [|repeat split; exact L].
  assert (Sp : forall d, letter d d) by (left; reflexivity).
  unfold says_params. cbn [p_debug p_use_hdf5 p_grid p_pml p_time p_species p_beam p_dump p_probes].
  split; [eexists; split; [child|apply unpadded, BoolTrue; repeat constructor; auto]|].
  split; [eexists; split; [child|apply unpadded, BoolFalse; repeat constructor; auto]|].
  split.
  { eexists. split; [apply only_filter; reflexivity|]. cbn [gr_r_size gr_z_size gr_n_r gr_n_z].
    split; [real "0" ".25" ""|]. split; [real "2" ".0" ""|]. split; [plain|]. split; [plain|]. lia. }
  split.
  { eexists. split; [apply only_filter; reflexivity|]. cbn [pm_l1 pm_l2 pm_l3 pm_sigma1 pm_sigma2].
    split; [real "0" "" ""|]. split; [real "0" "" ""|]. split; [real "0" "" ""|]. split; [real "1" "" "e-5"|real "7" "" "e-2"]. }
  split.
  { eexists. split; [apply only_filter; reflexivity|]. cbn [ck_current ck_start ck_relaxation ck_end ck_delta].
    split; [real "0" "" ""|]. split; [do 2 eexists; split; [child|split; [|reflexivity]]|].
    { apply (Padded real_text " " "0" " "); [repeat constructor; cbn; auto|apply (RealPlain "0" "" ""); [row|apply FracNone|apply ExpNone]
                                            |repeat constructor; cbn; auto]. }
    split; [real "0" "" ""|]. split; [real "5" "" "e-8"|real "1" "" "e-13"]. }
  split.
  { exists sample_species. split; [|split; [discriminate|]].
    - eexists. split; [apply only_filter; reflexivity|]. apply (picks_filter_conv "particle_specie" (Other :: sample_species)).
    - constructor; [|constructor; [|constructor]].
      + unfold says_specie. cbn [sp_name sp_charge sp_mass sp_number_macro sp_left_density sp_right_density sp_temperature].
        split; [attribute_|]. split; [minus|]. split; [plain|]. split; [lia|].
        split; [real "1" "" "e4"|]. split; [real "1" "" "e16"|]. split; [real "1" ".05" "e16"|real "1" ".0" ""].
      + unfold says_specie. cbn [sp_name sp_charge sp_mass sp_number_macro sp_left_density sp_right_density sp_temperature].
        split; [attribute_|]. split; [plain|]. split; [plain|]. split; [lia|].
        split; [real "1" "" "e4"|]. split; [real "1" "" "e16"|]. split; [real "1" ".05" "e16"|real "0" ".1" ""]. }
  split.
  { eexists. split; [apply only_filter; reflexivity|].
    cbn [bm_name bm_charge bm_mass bm_number_bunches bm_bunches_distance bm_velocity bm_number_macro bm_length bm_radius bm_density].
    split; [eexists; split; [reflexivity|attribute_]|]. split; [minus|]. split; [plain|]. split; [lia|]. split; [plain|].
    split; [lia|]. split; [real "0" ".2" ""|]. split; [real "2" "" "e8"|]. split.
    { exists "1e4", ((IZR 1 + 0) * powerRZ 10 4)%R. split; [child|]. split; [apply unpadded, (RealPlain "1" "" "e4"); [row|apply FracNone|exponent "e4"]|].
      rewrite ten_thousand, parse64_int by lia. reflexivity. }
    split; [lia|]. split; [real "0" ".02" ""|]. split; [real "0" ".02" ""|real "1" "" "e15"]. }
  split.
  { eexists. split; [apply only_filter; reflexivity|].
    cbn [du_result_path du_data_root du_frames_per_file du_compress du_compress_level].
    split; [eexists; split; [reflexivity|child]|]. split; [eexists; split; [reflexivity|child]|].
    split; [plain|]. split; [lia|]. split; [eexists; split; [child|apply unpadded, BoolFalse; repeat constructor; auto]|plain]. }
  exists sample_probes. split; [exact P1|]. split; [exact P2|exact P3].
Qed.
