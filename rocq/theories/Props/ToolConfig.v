(** Properties C68 (the tools read the same configuration) and C69 (the tools look where the simulation wrote). *)
From Coq Require Import String Ascii List Bool ZArith Reals Lia Lra.
From Verif.Lib Require Import Outcome RAux.
From Verif.Model Require Import MkDir PyPath Paths ToBool Text Pml Xml Params ToolParams.
From Verif.Spec Require Import BoolText Config ToolSpec Place.
From Verif.Proof Require Import ToBoolP ParamsP ToolParamsP PlaceP.
From Verif.Props Require Import Config.
Import ListNotations.
Local Open Scope string_scope.
Local Open Scope Z_scope.
Local Open Scope list_scope.
Local Open Scope outcome_scope.

(** ** C68 *)

(** For every document that describes parameters [p] in decimal notation and that keeps to the conditions of [tools_ready],
    both programs read the file without an error and know the same grid, time, beam, species, probes and directories.
    Partial: the number of macroparticles of a species agrees only without debug (below); the tools have no pml and no
    relaxation time; conditions on names and the section plot are needed (below). *)
Theorem C68_partial : forall file l1 doc l2 p,
  Forall (fun n => forall name, ~ is_named name n) l1 -> Forall (fun n => forall name, ~ is_named name n) l2 ->
  is_named "initial_parameters" doc -> says_params doc p -> tools_ready doc ->
  exists p' t, parameters (Some (l1 ++ doc :: l2)) = Ok p' /\ says_params doc p' /\
    tool_parameters file (l1 ++ doc :: l2) = Ok t /\ same_configuration p' t /\ says_plot doc (t_plot t).
Proof.
  intros file l1 doc l2 p L1 L2 Hn Hs Ht.
  destruct (both_read file l1 doc l2 p L1 L2 Hn Hs Ht) as (p' & t & A & B & C & _ & _ & D & _ & _ & E). exists p', t. tauto.
Qed.
Print Assumptions C68_partial.

(** Without a section plot the simulation runs, but no tool can look at its results. *)
Theorem C68_plot_refuted : forall file l1 doc l2 p,
  Forall (fun n => forall name, ~ is_named name n) l1 -> Forall (fun n => forall name, ~ is_named name n) l2 ->
  is_named "initial_parameters" doc -> says_params doc p -> tools_names doc -> (forall d, below doc d -> ~ is_named "plot" d) ->
  (exists p', parameters (Some (l1 ++ doc :: l2)) = Ok p') /\ tool_parameters file (l1 ++ doc :: l2) = Exit 1.
Proof.
  intros file l1 doc l2 p L1 L2 Hn Hs Ht N. split; [|eapply tool_parameters_no_plot; eassumption].
  destruct (parameters_says (l1 ++ doc :: l2) doc p) as (p' & Q & _); [|exact Hs|now exists p'].
  exists l1, l2. split; [reflexivity|]. split; [exact Hn|]. eapply Forall_impl; [|exact L1]. intros a Ha. apply Ha.
Qed.
Print Assumptions C68_plot_refuted.

Lemma below_named : forall name n d, below n d -> is_named name d -> In d (tagged name n).
Proof.
  intros name n d H Hd. induction H as [n d H|n c d H _ IH].
  - destruct n as [m a k|s|]; [|easy|easy]. cbn [tagged]. apply in_flat_map. exists d. split; [exact H|].
    apply in_or_app. left. apply named_spec in Hd. rewrite Hd. now left.
  - destruct n as [m a k|s|]; [|easy|easy]. cbn [tagged]. apply in_flat_map. exists c. split; [exact H|].
    apply in_or_app. right. now apply IH.
Qed.

Lemma outermost_check : forall n name, forallb (fun c => match tagged name c with [] => true | _ => false end) (kids n) = true ->
  outermost n name.
Proof.
  intros n name H c d Hc Hd Q. rewrite forallb_forall in H. specialize (H c Hc). apply (below_named _ _ _ Hd) in Q.
  destruct (tagged name c); [easy|discriminate].
Qed.

Ltac outer_all := unfold all_outermost; repeat (apply Forall_cons || apply Forall_nil); apply outermost_check; vm_compute; reflexivity.
Ltac only_one H := apply only_child in H; vm_compute in H; injection H as <-.

(** With debug the tools still show the number of macroparticles of the other mode. *)
Theorem C68_macro_refuted : exists e s t, init_specie true e = Ok s /\ tool_specie e = Ok t /\ same_specie true s t /\
  sp_number_macro s = Fin 10000 /\ ts_number_macro t = Fin 1000000.
Proof.
  destruct sample_species as [|e es] eqn:E; [discriminate|]. exists e.
  destruct C58_hypotheses_met as (p & Hp & Hd & _).
  destruct Hp as (_ & _ & _ & _ & _ & (ss & S1 & _ & S3) & _).
  destruct S1 as (ps & S0 & S1). only_one S0. apply picks_filter in S1. vm_compute in S1. subst ss.
  inversion S3 as [|? s ? l' Hs _]; subst. rewrite Hd in Hs.
  injection E as <- _. exists s.
  destruct (tool_specie_says true _ s (Fin 1000000) Hs) as (t & T1 & T2 & T3).
  - outer_all.
  - exists "1e6", ((IZR 1 + 0) * powerRZ 10 6)%R. split; [child|].
    split; [apply unpadded, (RealPlain "1" "" "e6"); [row|apply FracNone|exponent "e6"]|].
    replace ((IZR 1 + 0) * powerRZ 10 6)%R with (IZR 1000000) by (change (powerRZ 10 6) with (10 ^ 6)%R; lra).
    now rewrite parse64_int by lia.
  - exists t. split; [now apply init_specie_says|]. split; [exact T1|]. split; [exact T2|]. split; [|exact T3].
    destruct Hs as (_ & _ & _ & _ & N & _). apply real_child_says in N.
    assert (X : real_child (Elem "particle_specie" [("name", "electrons")]
      [elem "charge" "-1"; elem "mass" "1"; elem "number_macro" "1e6"; elem "debug_number_macro" "1e4";
       elem "left_density" "1e16"; elem "right_density" "1.05e16"; elem "temperature" "1.0"]) "debug_number_macro" = Ok (Fin 10000)).
    { apply real_child_says. exists "1e4", ((IZR 1 + 0) * powerRZ 10 4)%R. split; [child|].
      split; [apply unpadded, (RealPlain "1" "" "e4"); [row|apply FracNone|exponent "e4"]|].
      now rewrite ten_thousand, parse64_int by lia. }
    unfold elem in *. cbn [negb] in *. congruence.
Qed.
Print Assumptions C68_macro_refuted.

(** The simulation reads the child element, the tools the first one of this name anywhere inside. *)
Theorem C68_nested_refuted : exists e, int_child e "n_grid_r" = Ok 255 /\ int_tag e "n_grid_r" = Ok 31.
Proof. exists (Elem "geometry" [] [Elem "old" [] [elem "n_grid_r" "31"]; elem "n_grid_r" "255"]). split; reflexivity. Qed.
Print Assumptions C68_nested_refuted.

(** Notations that one of the programs accepts and the other refuses or understands as another value. *)
Theorem C68_notation_refuted :
  atoi "1e3" = Ok 1 /\ py_int "1e3" = Exit 1 /\ atoi "1_000" = Ok 1 /\ py_int "1_000" = Ok 1000 /\
  to_bool "yes" = Ok false /\ json_bool "yes" = Exit 1 /\ to_bool "1" = Ok false /\ json_bool "1" = Ok true.
Proof. repeat split; vm_compute; reflexivity. Qed.
Print Assumptions C68_notation_refuted.

(** The sample document (the distributed file, shortened) behind an XML declaration. *)
Lemma sample_names : tools_names sample_document.
Proof.
  split; [outer_all|]. split; [intros e H; only_one H; outer_all|].
  split; [intros e H; only_one H; split; [outer_all|intros ps K; only_one K; apply outermost_check; vm_compute; reflexivity]|].
  split; [intros e H; only_one H; outer_all|].
  split; [intros e H; only_one H; apply outermost_check; vm_compute; reflexivity|].
  split; [|intros e H; only_one H; outer_all].
  intros es (ps & H & K). only_one H. apply picks_filter in K. vm_compute in K. subst es.
  repeat (apply Forall_cons || apply Forall_nil); split; try outer_all; exists (Fin (parse64 ((IZR 1 + 0) * powerRZ 10 6)));
    (real "1" "" "e6").
Qed.

Lemma sample_ready : tools_ready sample_document.
Proof.
  split; [exact sample_names|].
  refine (ex_intro _ (TPlot "None" _ _ 100 "DejaVu Sans" "sans-serif" 10 "mjpeg" 20 32000) _).
  do 4 eexists. split; [apply only_filter; reflexivity|]. split; [apply only_filter; reflexivity|].
  split; [apply only_filter; reflexivity|]. split; [apply only_filter; reflexivity|].
  split; [outer_all|]. split; [outer_all|]. split; [outer_all|]. split; [outer_all|].
  cbn [pl_color pl_width pl_height pl_dpi pl_font_name pl_font_family pl_font_size pl_codec pl_fps pl_bitrate].
  split; [child|]. split; [real "10" ".5" ""|]. split; [real "7" "" ""|]. split; [plain|]. split; [child|]. split; [child|].
  split; [plain|]. split; [child|]. split; plain.
Qed.

Definition without_plot : node :=
  match sample_document with Elem n a k => Elem n a (filter (fun c => negb (named "plot" c)) k) | n => n end.

Lemma no_element_other : Forall (fun n => forall name, ~ is_named name n) [Other].
Proof. repeat constructor. intros name (a & k & E). discriminate. Qed.

Example C68_hypotheses_met : (exists p, says_params sample_document p) /\ tools_ready sample_document /\
  is_named "initial_parameters" sample_document /\ Forall (fun n => forall name, ~ is_named name n) [Other].
Proof.
  split; [destruct C58_hypotheses_met as (p & H & _); now exists p|]. split; [exact sample_ready|].
  split; [do 2 eexists; reflexivity|exact no_element_other].
Qed.

(** a document that does not say less than [doc], apart from the section plot *)
Lemma says_without : forall doc doc' p, (forall name c, name <> "plot" -> only doc name c -> only doc' name c) ->
  says_params doc p -> says_params doc' p.
Proof.
  intros doc doc' p K (H1 & H2 & H3 & H4 & H5 & H6 & H7 & H8 & H9).
  assert (B : forall name b, name <> "plot" -> says_bool doc name b -> says_bool doc' name b).
  { intros name b N (s & (c & Hc & Ht) & Hr). exists s. split; [exists c; split; [now apply K|exact Ht]|exact Hr]. }
  repeat (split; [solve [apply B; [discriminate|assumption]
                        |match goal with H : _ |- _ => destruct H as (e & He & H); exists e; split; [apply K; [discriminate|exact He]|exact H] end
                        |destruct H6 as (es & (ps & Q1 & Q2) & Q3); exists es; split; [exists ps; split; [apply K; [discriminate|exact Q1]|exact Q2]|exact Q3]]|]).
  destruct H9 as (es & (f & ps & Q1 & Q2) & Q3). exists es. split; [|exact Q3]. exists f, ps. split; [apply K; [discriminate|exact Q1]|exact Q2].
Qed.

Lemma only_without : forall name c, name <> "plot" -> only sample_document name c -> only without_plot name c.
Proof.
  intros name c N H. apply filter_only in H. apply only_filter. rewrite <- H. clear H.
  unfold without_plot, sample_document. cbn [kids]. match goal with |- filter _ (filter _ ?l) = _ => generalize l end.
  induction l as [|x l IH]; [reflexivity|]. cbn [filter].
  destruct (named "plot" x) eqn:P; cbn [negb].
  - replace (named name x) with false; [exact IH|]. symmetry. apply named_false. intros (a & k & ->).
    cbn in P. apply String.eqb_eq in P. congruence.
  - cbn [filter]. now rewrite IH.
Qed.

Example C68_plot_hypotheses_met : (exists p, says_params without_plot p) /\ tools_names without_plot /\
  is_named "initial_parameters" without_plot /\ (forall d, below without_plot d -> ~ is_named "plot" d).
Proof.
  split; [|split; [|split]].
  - destruct C58_hypotheses_met as (p & H & _). exists p. eapply says_without; [exact only_without|exact H].
  - split; [outer_all|]. split; [intros e H; only_one H; outer_all|].
    split; [intros e H; only_one H; split; [outer_all|intros ps K; only_one K; apply outermost_check; vm_compute; reflexivity]|].
    split; [intros e H; only_one H; outer_all|].
    split; [intros e H; only_one H; apply outermost_check; vm_compute; reflexivity|].
    split; [|intros e H; only_one H; outer_all].
    intros es (ps & H & K). only_one H. apply picks_filter in K. vm_compute in K. subst es.
    repeat (apply Forall_cons || apply Forall_nil); split; try outer_all; exists (Fin (parse64 ((IZR 1 + 0) * powerRZ 10 6)));
      (real "1" "" "e6").
  - do 2 eexists. reflexivity.
  - intros d Hd Q. apply (below_named _ _ _ Hd) in Q. vm_compute in Q. exact Q.
Qed.

(** the plain words of the theorem for this document *)
Example C68_sample : exists p' t, parameters (Some [Other; sample_document]) = Ok p' /\
  tool_parameters "parameters.xml" [Other; sample_document] = Ok t /\ same_configuration p' t /\
  t_n_r t = 31 /\ t_n_z t = 255 /\ pl_fps (t_plot t) = 20.
Proof.
  destruct C58_hypotheses_met as (p & H & _).
  destruct (C68_partial "parameters.xml" [Other] sample_document [] p no_element_other (Forall_nil _)) as (p' & t & A & A' & B & C & D);
    [do 2 eexists; reflexivity|exact H|exact sample_ready|].
  exists p', t. split; [exact A|]. split; [exact B|]. split; [exact C|].
  destruct C as (_ & C1 & C2 & _). rewrite C1, C2.
  destruct A' as (Hd & _ & (g & G0 & _ & _ & G3 & G4 & _) & _).
  assert (X : p_debug p' = true).
  { apply bool_child_says in Hd. vm_compute in Hd. now injection Hd. }
  rewrite X in G3, G4. only_one G0. apply int_child_says in G3, G4.
  assert (Y3 : Ok (gr_n_r (p_grid p')) = Ok 31) by (rewrite <- G3; reflexivity).
  assert (Y4 : Ok (gr_n_z (p_grid p')) = Ok 255) by (rewrite <- G4; reflexivity).
  split; [now injection Y3|]. split; [now injection Y4|].
  destruct D as (pl & fi & fo & vi & D0 & _ & D2 & _ & _ & _ & _ & _ & _ & _ & _ & _ & _ & _ & _ & _ & F & _).
  only_one D0. only_one D2. apply int_child_says in F.
  assert (Y : Ok (pl_fps (t_plot t)) = Ok 20) by (rewrite <- F; reflexivity). now injection Y.
Qed.

(** ** C69 *)

(** Every data file of every probe: the tools look for it at the place where the simulation wrote it. [S] is the working directory of the
    simulation, [T] that of the tool, [file] the name of the configuration file as the tool was given it. Partial: a
    relative result_path is taken by the simulation from its working directory and by the tools from the directory of
    the configuration file, so these two must be the same; the other conditions are needed as well (below). *)
Theorem C69_partial : forall S T file l1 doc l2 p,
  Forall (fun n => forall name, ~ is_named name n) l1 -> Forall (fun n => forall name, ~ is_named name n) l2 ->
  is_named "initial_parameters" doc -> says_params doc p -> tools_ready doc ->
  (forall s, du_result_path (p_dump p) = Some s -> s <> "" /\ (starts_at_root s \/ file_in T file S)) ->
  (forall s, du_data_root (p_dump p) = Some s -> ~ starts_at_root s) ->
  exists p' t, parameters (Some (l1 ++ doc :: l2)) = Ok p' /\ tool_parameters file (l1 ++ doc :: l2) = Ok t /\
    Forall2 (fun q tq => pr_component q <> "" -> ~ starts_at_root (pr_component q) -> pr_specie q <> Some "none" ->
      forall n path, sim_file p' q n = Ok path ->
      exists path', reader_file (reader_data_path t) (asked_component tq) (tp_type tq) (asked_shape tq) n = Ok path' /\
        place T path' = place S path) (p_probes p') (t_probes t).
Proof. exact tools_find. Qed.
Print Assumptions C69_partial.

(** what both programs know of the sample document *)
Lemma bind_inv : forall (A B : Type) (x : outcome A) (f : A -> outcome B) r, bind x f = Ok r -> exists a, x = Ok a /\ f a = Ok r.
Proof. intros A B [a| |] f r H; [now exists a|discriminate|discriminate]. Qed.

Tactic Notation "unbind" ident(H) ident(a) ident(E) := apply bind_inv in H; destruct H as (a & E & H).

Lemma parameters_probes : forall l1 doc p', is_named "initial_parameters" doc -> Forall (fun n => forall name, ~ is_named name n) l1 ->
  parameters (Some (l1 ++ [doc])) = Ok p' ->
  init_probes (gr_n_r (p_grid p')) (gr_n_z (p_grid p')) doc = Ok (p_probes p').
Proof.
  intros l1 doc p' Hn L H. unfold parameters in H. rewrite find_only in H;
    [|exact Hn|eapply Forall_impl; [|exact L]; intros a Ha; apply Ha].
  unbind H x1 E1. unbind H x2 E2. unbind H x3 E3. unbind H x4 E4. unbind H x5 E5. unbind H x6 E6. unbind H x7 E7. unbind H x8 E8.
  unbind H x9 E9. injection H as <-. exact E9.
Qed.

Lemma sample_sim : forall p', parameters (Some [Other; sample_document]) = Ok p' ->
  exists q qs, p_probes p' = q :: qs /\ sim_file p' q 0 = Ok "./pdp3_result_debug/E_r/col_100/0.dat" /\
    pr_component q = "E_r" /\ pr_specie q = None /\ pr_type q = 1 /\ pr_z_start q = 100 /\
    du_result_path (p_dump p') = Some "." /\ du_data_root (p_dump p') = Some "pdp3_result_debug".
Proof.
  intros p' H. assert (P := parameters_probes [Other] sample_document p' ltac:(do 2 eexists; reflexivity) no_element_other H).
  destruct C68_sample as (p2 & t & A & _ & (_ & C1 & C2 & _) & _). rewrite H in A. injection A as <-.
  destruct C58_hypotheses_met as (p & Hp & Hd & _).
  destruct (parameters_says [Other; sample_document] sample_document p) as (p3 & Q1 & Q2 & Q3 & _ & Q5 & _ & _ & _ & _ & Q4);
    [exists [Other], []; split; [reflexivity|]; split; [do 2 eexists; reflexivity|]; repeat constructor; intros (a & k & E); discriminate|exact Hp|].
  rewrite H in Q1. injection Q1 as <-.
  destruct Q2 as (_ & _ & _ & _ & _ & _ & _ & (d & D0 & (rp & D1 & D1') & (dr & D2 & D2') & _) & _).
  assert (X : p_debug p' = true) by congruence.
  rewrite X in D2'. only_one D0.
  assert (R1 : rp = ".").
  { destruct D1' as (c & K & V). only_one K. destruct V as (? & ? & ? & V). now injection V. }
  assert (R2 : dr = "pdp3_result_debug").
  { destruct D2' as (c & K & V). only_one K. destruct V as (? & ? & ? & V). now injection V. }
  subst rp dr. unfold sim_file. rewrite D1, D2.
  revert P. generalize (gr_n_r (p_grid p')) (gr_n_z (p_grid p')). intros nr nz P.
  unfold init_probes in P. unbind P a E1. vm_compute in E1. injection E1 as <-. unbind P b E2. vm_compute in E2. injection E2 as <-.
  unbind P c E3. match type of P with map_all ?f ?l = _ => let l' := eval vm_compute in l in change l with l' in P end.
  cbn [map_all] in P. unbind P q Eq. unbind P qs Es. injection P as P. exists q, qs. split; [now symmetry|].
  match type of Eq with init_probe _ _ ?e = _ =>
    assert (Z : pr_component q = "E_r" /\ pr_specie q = None /\ pr_type q = 1 /\ pr_z_start q = 100)
      by (unfold init_probe in Eq; lazy -[to_unsigned] in Eq; injection Eq as <-; repeat split) end.
  destruct Z as (Z1 & Z2 & Z3 & Z4). split; [|repeat split; assumption]. unfold conf_of_probe. rewrite Z1, Z2, Z3, Z4.
  generalize (as_int (pr_r_start q)) (as_int (pr_r_end q)) (as_int (pr_z_end q)). intros. lazy. reflexivity.
Qed.

Lemma sample_places : forall file S T, exists p' t q qs tq ts path', parameters (Some [Other; sample_document]) = Ok p' /\
  tool_parameters file [Other; sample_document] = Ok t /\ p_probes p' = q :: qs /\ t_probes t = tq :: ts /\
  sim_file p' q 0 = Ok "./pdp3_result_debug/E_r/col_100/0.dat" /\
  reader_file (reader_data_path t) (asked_component tq) (tp_type tq) (asked_shape tq) 0 = Ok path' /\
  place S "./pdp3_result_debug/E_r/col_100/0.dat" = S ++ ["pdp3_result_debug"; "E_r"; "col_100"; "0.dat"] /\
  place T path' = place T (data_path_of file ".") ++ ["pdp3_result_debug"; "E_r"; "col_100"; "0.dat"].
Proof.
  intros file S T. destruct C58_hypotheses_met as (p & Hp & _).
  destruct (both_read file [Other] sample_document [] p no_element_other (Forall_nil _)) as (p' & t & A & B & _ & _ & _ & C & _ & (rp & D1 & D2) & _);
    [do 2 eexists; reflexivity|exact Hp|exact sample_ready|].
  destruct (sample_sim p' A) as (q & qs & E1 & E2 & E3 & E4 & E5 & E6 & E7 & E8).
  rewrite E7 in D1. injection D1 as <-.
  destruct C as (_ & _ & _ & _ & _ & Cr & _ & _ & _ & _ & _ & _ & _ & _ & _ & _ & _ & Cp).
  rewrite E8 in Cr. injection Cr as Cr. rewrite E1 in Cp. inversion Cp as [|? tq ? ts Q _ X0 X1]; subst.
  destruct Q as (Q1 & _ & Q2 & Q3). rewrite E3 in Q1. rewrite E4 in Q2. rewrite E5, E6 in Q3.
  assert (K : tp_type tq = "col" /\ tp_z_start tq = 100) by (destruct Q3 as [([[_ X]|[_ X]] & _)|[(X & _ & Y)|[(_ & X & _)|(_ & X & _)]]];
    try discriminate X; now split).
  destruct K as [K1 K2]. destruct Q2 as [Q2|[_ Q2]]; [discriminate|].
  exists p', t, q, qs, tq, ts. eexists. split; [exact A|]. split; [exact B|]. split; [exact E1|]. split; [now symmetry|]. split; [exact E2|].
  unfold asked_component, asked_shape. rewrite Q1, Q2, K1, K2. split; [reflexivity|].
  split; [rewrite place_go; cbn; rewrite <- !app_assoc; reflexivity|].
  unfold reader_data_path. rewrite D2, Cr. generalize (data_path_of file "."). intro dp.
  rewrite !place_join by reflexivity. rewrite place_normpath, place_join by reflexivity.
  repeat match goal with |- context [split ?x] => let y := eval vm_compute in (split x) in change (split x) with y end.
  cbn. rewrite <- !app_assoc. reflexivity.
Qed.

(** From another directory: the configuration file is in /home/conf, the simulation was started in /home with a path to it, as
    the tool is now. The result_path is the distributed one ("."). The tools look in /home/conf. *)
Theorem C69_directory_refuted : exists p' t q qs tq ts path path', parameters (Some [Other; sample_document]) = Ok p' /\
  tool_parameters "conf/parameters.xml" [Other; sample_document] = Ok t /\ p_probes p' = q :: qs /\ t_probes t = tq :: ts /\
  sim_file p' q 0 = Ok path /\
  reader_file (reader_data_path t) (asked_component tq) (tp_type tq) (asked_shape tq) 0 = Ok path' /\
  place ["home"] path = ["home"; "pdp3_result_debug"; "E_r"; "col_100"; "0.dat"] /\
  place ["home"] path' = ["home"; "conf"; "pdp3_result_debug"; "E_r"; "col_100"; "0.dat"].
Proof.
  destruct (sample_places "conf/parameters.xml" ["home"] ["home"]) as (p' & t & q & qs & tq & ts & path' & A & B & C & D & E & F & G & H).
  do 7 eexists. exists path'. repeat (split; [eassumption|]). exact H.
Qed.
Print Assumptions C69_directory_refuted.

(** data_root as an absolute path: the simulation appends it to result_path, the tools use it alone. *)
Theorem C69_absolute_refuted : exists path path',
  (do dir <- make_probe "." "/data" (ProbeConf "E_r" "none" 1 0 100 (-1) (-1)); get_data_path dir 0) = Ok path /\
  reader_file (normpath (join (data_path_of "parameters.xml" ".") "/data")) "E_r" "col" [100] 0 = Ok path' /\
  place ["home"] path = ["home"; "data"; "E_r"; "col_100"; "0.dat"] /\ place ["home"] path' = ["data"; "E_r"; "col_100"; "0.dat"].
Proof. do 2 eexists. repeat (split; [reflexivity|]). reflexivity. Qed.
Print Assumptions C69_absolute_refuted.

(** The species "none" stands for no species in the simulation, but not in the tools. *)
Theorem C69_none_refuted : exists e q tq path path', init_probe 31 255 e = Ok q /\ tool_probe e = Ok tq /\ same_probe q tq /\
  (do dir <- make_probe "." "data" (conf_of_probe q); get_data_path dir 0) = Ok path /\
  reader_file (normpath (join (data_path_of "parameters.xml" ".") "data")) (asked_component tq) (tp_type tq) (asked_shape tq) 0 = Ok path' /\
  place ["home"] path = ["home"; "data"; "E_r"; "col_100"; "0.dat"] /\
  place ["home"] path' = ["home"; "data"; "E_r"; "none"; "col_100"; "0.dat"].
Proof.
  exists (Elem "probe" [("type", "col"); ("z", "100"); ("schedule", "50"); ("component", "E_r"); ("specie", "none")] []).
  do 4 eexists. split; [vm_compute; reflexivity|]. split; [vm_compute; reflexivity|].
  split; [unfold same_probe; cbn; tauto|]. repeat (split; [vm_compute; reflexivity|]). vm_compute. reflexivity.
Qed.
Print Assumptions C69_none_refuted.

Example C69_hypotheses_met : exists p, says_params sample_document p /\ tools_ready sample_document /\
  (forall s, du_result_path (p_dump p) = Some s -> s <> "" /\ (starts_at_root s \/ file_in ["home"; "tools"] "../run/parameters.xml" ["home"; "run"])) /\
  (forall s, du_data_root (p_dump p) = Some s -> ~ starts_at_root s) /\
  exists p' q qs path, parameters (Some [Other; sample_document]) = Ok p' /\ p_probes p' = q :: qs /\ pr_component q = "E_r" /\
    pr_specie q <> Some "none" /\ sim_file p' q 0 = Ok path.
Proof.
  destruct C58_hypotheses_met as (p & Hp & _). exists p. split; [exact Hp|]. split; [exact sample_ready|].
  destruct (both_read "x" [Other] sample_document [] p no_element_other (Forall_nil _)) as (p' & t & A & B & _ & _ & D & _);
    [do 2 eexists; reflexivity|exact Hp|exact sample_ready|].
  destruct (sample_sim p' A) as (q & qs & E1 & E2 & E3 & E4 & E5 & E6 & E7 & E8). rewrite <- D, E7, E8.
  split; [intros s X; injection X as <-; split; [discriminate|right]|].
  { exists "parameters.xml". split; [discriminate|]. split; [vm_compute; intuition discriminate|]. right. exists "../run".
    split; reflexivity. }
  split; [intros s X; injection X as <-; intros (s' & X); discriminate|].
  exists p', q, qs. eexists. split; [exact A|]. split; [exact E1|]. split; [exact E3|]. split; [rewrite E4; discriminate|exact E2].
Qed.
