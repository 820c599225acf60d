(** Property C64: macroparticle frames. *)
From Coq Require Import String Reals ZArith Lra Lia List Bool Psatz.
From Verif.Lib Require Import RAux Outcome Grid.
From Verif.Model Require Import Geometry Pusher Diagnostics Dump Text MpFrame.
From Verif.Spec Require Import Sample Region.
From Verif.Proof Require Import GeometryP DiagnosticsP MpFrameP.
Import ListNotations.
Local Open Scope R_scope.

(** The components of get_mpframe that have a file, and what they are values of (plain_reader.py lines 369-374). *)
Definition components : list (nat * (dpart -> R)) :=
  [(0%nat, d_r); (2%nat, d_z); (3%nat, fun x => v0 (d_vel x)); (4%nat, fun x => v1 (d_vel x)); (5%nat, fun x => v2 (d_vel x))].

(** Positions for which the cell number fits an int. *)
Definition in_int_range (g : geom) (species : list (string * list dpart)) : Prop :=
  Forall (fun s => Forall (fun x => Rabs (d_r x) < 2147483648 * dr g /\ Rabs (d_z x) < 2147483648 * dz g) (snd s)) species.

(** C64, full statement: frame n of the macroparticle probe, read back, gives for every component the values of
    exactly the live particles of the species in the cells start ... end at the n-th dump, in the same order for all
    components. Proved: the components agree on the particles and their order, and they are the particles of all species
    of that name in these cells at the n-th dump; but dead particles are among them, and only the first
    (end_r - start_r) * (end_z - start_z) * fpds are returned. Frames that were not dumped raise an exception. *)
Theorem C64_frames_partial : forall g fpf dt l name p pf', geom_ok g -> fpf <> 0%Z ->
  (0 <= start_r p <= end_r p)%Z -> (end_r p < 2147483648)%Z -> (0 <= start_z p <= end_z p)%Z -> (end_z p < 2147483648)%Z ->
  step_number p = 0%Z ->
  let fired := filter (fun x => match dump_now (fst x) dt (schedule p) with Ok b => b | _ => false end) l in
  Forall (fun x => In name (map fst (snd x)) /\ in_int_range g (snd x)) fired ->
  mp_run g fpf dt l name (p, []) = Ok pf' ->
  forall fpds n comp value, (0 < fpds)%nat -> In (comp, value) components ->
  let limit := (Z.to_nat (end_r p - start_r p) * Z.to_nat (end_z p - start_z p) * fpds)%nat in
  let read := get_mpframe (snd pf') fpds (start_r p) (start_z p) (end_r p) (end_z p) comp n in
  (forall t species, nth_error fired n = Some (t, species) ->
     let shown := shown_of g (start_r p) (start_z p) (end_r p) (end_z p) name species in
     read = Some (firstn limit (map (fun x => text_value (value x)) shown)) /\
     ((length shown <= limit)%nat -> Forall (fun x => d_alive x = true) shown ->
      read = Some (map (fun x => text_value (value x)) (live_of g (start_r p) (start_z p) (end_r p) (end_z p) name species)))) /\
  ((length fired <= n)%nat -> read = None).
Proof.
  intros g fpf dt l name p pf' Hg Hf Hr Hr' Hz Hz' S0 fired F E fpds n comp value Hd Hc limit read.
  assert (FF : Forall (fun x => mp_due dt p x = true -> In name (map fst (snd x))) l).
  { apply Forall_forall. intros x Hx D. rewrite Forall_forall in F. apply F. apply filter_In. split; [exact Hx|exact D]. }
  destruct (mp_run_layout g fpf dt name l p [] pf' Hf E S0 FF) as [L _]. cbn [app] in L.
  change (filter (mp_due dt p) l) with fired in L.
  set (frames := map (fun x => frame_of g p name (snd x)) fired) in *.
  assert (LF : length frames = length fired) by (unfold frames; apply map_length).
  assert (C : exists c, mp_file_of comp = Some c /\ mp_value c = value).
  { unfold components in Hc. cbn in Hc. repeat (destruct Hc as [Hc|Hc]; [injection Hc as <- <-|]).
    - now exists PosR.
    - now exists PosZ.
    - now exists VelR.
    - now exists VelPhi.
    - now exists VelZ.
    - destruct Hc. }
  destruct C as (c & C1 & C2).
  assert (FI : find_file (Z.of_nat n, c) (snd pf') = match nth_error frames n with Some x => Some (map value x) | None => None end).
  { rewrite L. rewrite <- C2. exact (find_layout frames 0 n c). }
  split.
  - intros t species N shown.
    assert (NF : nth_error frames n = Some shown).
    { unfold frames. rewrite nth_error_map, N. cbn [option_map snd]. f_equal. apply frame_of_spec; try lia; [exact Hg|].
      rewrite Forall_forall in F. apply (F (t, species)). eapply nth_error_In. exact N. }
    assert (RD : read = Some (firstn limit (map (fun x => text_value (value x)) shown))).
    { assert (LN : length (snd pf') = (5 * length fired)%nat) by (rewrite L, layout_length; lia).
      unfold read, get_mpframe. cbv zeta. rewrite LN.
      assert (NL : (n < length fired)%nat) by (apply nth_error_Some; congruence).
      replace (5 * length fired * fpds <=? n)%nat with false by (symmetry; apply Nat.leb_gt; nia).
      replace (5 * length fired <? n / fpds)%nat with false.
      2:{ symmetry. apply Nat.ltb_ge. assert (n / fpds <= n)%nat by (apply Nat.div_le_upper_bound; nia). lia. }
      rewrite C1, FI, NF. f_equal. unfold fromfile.
      replace ((end_r p - start_r p) * (end_z p - start_z p) * Z.of_nat fpds <? 0)%Z with false by (symmetry; apply Z.ltb_ge; repeat apply Z.mul_nonneg_nonneg; lia).
      rewrite map_map. f_equal. unfold limit.
      rewrite !Z2Nat.inj_mul by (repeat apply Z.mul_nonneg_nonneg; lia). now rewrite Nat2Z.id. }
    split; [exact RD|]. intros Hl Ha. rewrite RD. f_equal. rewrite firstn_all2 by (now rewrite map_length). f_equal.
    unfold live_of. fold shown. clear - Ha. induction shown as [|x r IH]; [reflexivity|]. inversion Ha; subst. cbn [filter].
    rewrite H1. f_equal. now apply IH.
  - intro N. unfold read, get_mpframe. destruct (Nat.leb _ n); [reflexivity|]. destruct (Nat.ltb _ _); [reflexivity|].
    rewrite C1, FI. replace (nth_error frames n) with (@None (list dpart)); [reflexivity|].
    symmetry. apply nth_error_None. lia.
Qed.
Print Assumptions C64_frames_partial.

(** A configuration that lists the electrons in two parts. *)
Definition electron (alive : bool) (r z v : R) : dpart := DPart alive 1 r z (V3 v 0 0).
Definition two_parts : list (string * list dpart) :=
  [("electrons"%string, [electron true (5/2) (5/2) 1; electron true (1/2) (5/2) 2]); ("ions"%string, [electron true (5/2) (5/2) 3]);
   ("electrons"%string, [electron true 3 (7/2) 4])].
Definition mp_probe : probe := Probe CUnknown 4 1 2 3 4 1 0.

Lemma always_due : forall k, dump_now (IZR k) 1 1 = Ok true.
Proof. intro k. unfold dump_now. cbn [Z.eqb]. f_equal. now rewrite Z.rem_1_r. Qed.

Lemma mp_run_one : forall species p, schedule p = 1%Z ->
  mp_run sample_geom 1 1 [(0, species)] "electrons" (p, []) =
  Ok (next_step p, fold_left (fun f s => if String.eqb (fst s) "electrons" then mpwrite sample_geom p (step_number p) (snd s) f else f) species []).
Proof. intros species p S. cbn [mp_run]. unfold dump_mp. rewrite S, (always_due 0). reflexivity. Qed.

Lemma sample_cells : forall a b c d x, in_cells sample_geom a b c d x <->
  IZR a < d_r x <= IZR c + 1 /\ IZR b < d_z x <= IZR d + 1.
Proof.
  intros. unfold in_cells. cbn [n_r n_z r_size z_size sample_geom]. cbv zeta.
  replace (8 / (9 - 1)) with 1 by field. replace (16 / (17 - 1)) with 1 by field. rewrite !Rmult_1_r. reflexivity.
Qed.
Ltac decide_cells :=
  repeat match goal with |- context [in_cells_dec ?g ?a ?b ?c ?d ?x] =>
    destruct (in_cells_dec g a b c d x) as [?I|?I]; rewrite sample_cells in *; cbn [d_r d_z electron] in *;
    try (exfalso; lra) end.

Lemma in_range_all : forall l, Forall (fun s : string * list dpart => Forall (fun x => 0 <= d_r x <= 8 /\ 0 <= d_z x <= 16) (snd s)) l ->
  in_int_range sample_geom l.
Proof.
  intros l H. eapply Forall_impl; [|exact H]. intros s Hs. eapply Forall_impl; [|exact Hs]. intros x [[A1 A2] [B1 B2]].
  rewrite sample_dr, sample_dz. rewrite !Rabs_pos_eq by assumption. lra.
Qed.

Lemma two_parts_shown : shown_of sample_geom 1 2 3 4 "electrons" two_parts =
  [electron true (5/2) (5/2) 1; electron true 3 (7/2) 4].
Proof.
  unfold shown_of, two_parts. cbn [flat_map fst snd].
  destruct (string_dec "electrons" "electrons") as [_|N]; [|congruence]. destruct (string_dec "ions" "electrons") as [N|_]; [discriminate|].
  cbn [filter app]. decide_cells. reflexivity.
Qed.

Example C64_hypotheses_met : exists pf',
  mp_run sample_geom 1 1 [(0, two_parts); (1, two_parts)] "electrons" (mp_probe, []) = Ok pf' /\
  Forall (fun x => In "electrons"%string (map fst (snd x)) /\ in_int_range sample_geom (snd x)) [(0, two_parts); (1, two_parts)] /\
  shown_of sample_geom 1 2 3 4 "electrons" two_parts = [electron true (5/2) (5/2) 1; electron true 3 (7/2) 4].
Proof.
  eexists. split; [|split; [|exact two_parts_shown]].
  - cbn [mp_run]. unfold dump_mp. cbn [mp_probe schedule next_step]. rewrite (always_due 0). cbn [bind file_number Z.eqb next_step schedule mp_probe]. rewrite (always_due 1). reflexivity.
  - assert (A : in_int_range sample_geom two_parts).
    { apply in_range_all. unfold two_parts. repeat (constructor; cbn [snd]); cbn [d_r d_z electron]; lra. }
    constructor; [|constructor; [|constructor]]; cbn [snd]; (split; [now left|exact A]).
Qed.

Lemma one_dump : forall species p, schedule p = 1%Z -> step_number p = 0%Z ->
  (0 <= start_r p <= end_r p)%Z -> (end_r p < 2147483648)%Z -> (0 <= start_z p <= end_z p)%Z -> (end_z p < 2147483648)%Z ->
  In "electrons"%string (map fst species) -> in_int_range sample_geom species ->
  exists pf', mp_run sample_geom 1 1 [(0, species)] "electrons" (p, []) = Ok pf' /\
  forall fpds, (0 < fpds)%nat ->
  get_mpframe (snd pf') fpds (start_r p) (start_z p) (end_r p) (end_z p) 0 0 =
  Some (firstn (Z.to_nat (end_r p - start_r p) * Z.to_nat (end_z p - start_z p) * fpds)
          (map (fun x => text_value (d_r x)) (shown_of sample_geom (start_r p) (start_z p) (end_r p) (end_z p) "electrons" species))).
Proof.
  intros species p S1 S0 H1 H2 H3 H4 I IR. eexists. assert (RUN := mp_run_one species p S1). split; [exact RUN|].
  intros fpds Hd.
  assert (FI : filter (fun x : R * list (string * list dpart) => match dump_now (fst x) 1 (schedule p) with Ok b => b | _ => false end) [(0, species)] = [(0, species)]).
  { cbn [filter fst]. now rewrite S1, (always_due 0). }
  assert (F : Forall (fun x : R * list (string * list dpart) => In "electrons"%string (map fst (snd x)) /\ in_int_range sample_geom (snd x))
    (filter (fun x => match dump_now (fst x) 1 (schedule p) with Ok b => b | _ => false end) [(0, species)])).
  { rewrite FI. constructor; [|constructor]. now split. }
  destruct (C64_frames_partial sample_geom 1 1 [(0, species)] "electrons" p _ sample_geom_ok ltac:(lia) H1 H2 H3 H4 S0 F RUN fpds 0%nat 0%nat d_r Hd (or_introl eq_refl)) as [A _].
  apply (A 0 species). now rewrite FI.
Qed.

(** An absorbed particle (is_alive false) is still shown: mpwrite does not look at is_alive. *)
Theorem C64_dead_refuted : exists species p pf',
  mp_run sample_geom 1 1 [(0, species)] "electrons" (p, []) = Ok pf' /\
  live_of sample_geom (start_r p) (start_z p) (end_r p) (end_z p) "electrons" species = [] /\
  forall fpds, (0 < fpds)%nat -> get_mpframe (snd pf') fpds (start_r p) (start_z p) (end_r p) (end_z p) 0 0 = Some [text_value (5/2)].
Proof.
  set (species := [("electrons"%string, [electron false (5/2) (5/2) 1])]).
  assert (SH : shown_of sample_geom 1 2 3 4 "electrons" species = [electron false (5/2) (5/2) 1]).
  { unfold shown_of, species. cbn [flat_map fst snd]. destruct (string_dec "electrons" "electrons") as [_|N]; [|congruence].
    cbn [filter app]. decide_cells. reflexivity. }
  assert (IR : in_int_range sample_geom species).
  { apply in_range_all. unfold species. repeat (constructor; cbn [snd]); cbn [d_r d_z electron]; lra. }
  destruct (one_dump species mp_probe eq_refl eq_refl ltac:(cbn; lia) ltac:(cbn; lia) ltac:(cbn; lia) ltac:(cbn; lia)
              (or_introl eq_refl) IR) as (pf' & RUN & RD).
  exists species, mp_probe, pf'. split; [exact RUN|]. cbn [mp_probe start_r start_z end_r end_z] in *.
  split; [unfold live_of; rewrite SH; reflexivity|].
  intros fpds Hd. rewrite (RD fpds Hd), SH. f_equal.
  rewrite firstn_all2; [reflexivity|]. cbn [map length]. change (Z.to_nat (3 - 1)) with 2%nat. change (Z.to_nat (4 - 2)) with 2%nat. lia.
Qed.
Print Assumptions C64_dead_refuted.

(** More live particles than (end_r - start_r) * (end_z - start_z) * fpds: the rest is dropped. For a probe of one column
    of cells (end_z = start_z) everything is. *)
Theorem C64_truncated_refuted : exists species p pf',
  mp_run sample_geom 1 1 [(0, species)] "electrons" (p, []) = Ok pf' /\
  length (live_of sample_geom (start_r p) (start_z p) (end_r p) (end_z p) "electrons" species) = 2%nat /\
  forall fpds, (0 < fpds)%nat -> get_mpframe (snd pf') fpds (start_r p) (start_z p) (end_r p) (end_z p) 0 0 = Some [].
Proof.
  set (species := [("electrons"%string, [electron true (5/2) (5/2) 1; electron true (7/2) (5/2) 1])]).
  set (p := Probe CUnknown 4 1 2 3 2 1 0).
  assert (SH : shown_of sample_geom 1 2 3 2 "electrons" species = [electron true (5/2) (5/2) 1; electron true (7/2) (5/2) 1]).
  { unfold shown_of, species. cbn [flat_map fst snd]. destruct (string_dec "electrons" "electrons") as [_|N]; [|congruence].
    cbn [filter app]. decide_cells. reflexivity. }
  assert (IR : in_int_range sample_geom species).
  { apply in_range_all. unfold species. repeat (constructor; cbn [snd]); cbn [d_r d_z electron]; lra. }
  destruct (one_dump species p eq_refl eq_refl ltac:(cbn; lia) ltac:(cbn; lia) ltac:(cbn; lia) ltac:(cbn; lia)
              (or_introl eq_refl) IR) as (pf' & RUN & RD).
  exists species, p, pf'. split; [exact RUN|]. cbn [p start_r start_z end_r end_z] in *.
  split; [unfold live_of; rewrite SH; reflexivity|].
  intros fpds Hd. rewrite (RD fpds Hd). replace (Z.to_nat (2 - 2)) with 0%nat by reflexivity. now rewrite Nat.mul_0_r.
Qed.
Print Assumptions C64_truncated_refuted.

(** The component that the reader documents as "position phi" can never be read, whatever was written. *)
Theorem C64_phi_refuted : forall l fpds a b c d n, get_mpframe l fpds a b c d 1 n = None.
Proof. intros. unfold get_mpframe. cbn [mp_file_of]. destruct (Nat.leb _ _); [reflexivity|]. now destruct (Nat.ltb _ _). Qed.
Print Assumptions C64_phi_refuted.

(** A particle exactly on the axis is in no macroparticle frame, although the deposition counts it to cell 0. *)
Theorem C64_axis_refuted : forall g p x, geom_ok g -> d_r x = 0 -> (0 <= end_r p < 2147483648)%Z ->
  mp_shown g p x = false /\ cell (d_r x) (dr g) = 0%Z.
Proof.
  intros g p x Hg H0 He. pose proof (dr_pos g Hg) as D. split.
  - unfold mp_shown. rewrite H0. cbv zeta. rewrite (u32_minus_one (dr g) D). rewrite (u32_id (end_r p)) by lia.
    replace (4294967295 <=? end_r p)%Z with false by (symmetry; apply Z.leb_gt; lia). now rewrite andb_false_r.
  - rewrite H0. unfold cell, CELL_NUMBER. replace (0 / dr g) with (IZR 0) by (unfold Rdiv; lra). now rewrite ceilZ_IZR.
Qed.
Print Assumptions C64_axis_refuted.
