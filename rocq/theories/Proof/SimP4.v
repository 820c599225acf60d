(** Proofs about whole runs: a concrete configuration, and a particle that leaves the region in which fields may be read. *)
From Coq Require Import Reals ZArith Lra Lia Psatz List Bool FunctionalExtensionality.
From Verif.Lib Require Import RAux Grid Outcome Par.
From Verif.Model Require Import Constants Geometry ChargeDeposit CurrentDeposit Fields Interp Pusher Motion Loading
  Bunch Dump MainLoop Sim.
From Verif.Spec Require Import Dynamics Domain Steps Whole Maxwell Cloud Sample.
From Verif.Proof Require Import GeometryP ChargeP ChargeP2 CurrentP CurrentP4 FieldsP MaxwellP PusherP VayP MotionP InterpP BunchP MainLoopP
  SimP SimP2 SimP3.
Import ListNotations.
Local Open Scope R_scope.

(** A configuration on the sample grid: light passes 4/5 of a cell per step; [bunches] bunches of four macroparticles
    with half the speed of light. *)
Definition sample_dt : R := 4 / 5 / LIGHT_SPEED.
Definition sample_medium : medium := Medium (fun _ _ => 1) (fun _ _ => 0).
Definition sample_setup (bunches : Z) (b : bool) : setup :=
  Setup sample_geom sample_medium sample_dt BorisRelativistic 10 (Beam 4 1 (LIGHT_SPEED / 2) bunches 4 16)
    (-1) 1 2 1 (fun _ => [1/2; 1/3; 1/4; 1/5]) (fun _ _ _ => 1/2) b.

Lemma sample_sound : forall n b, sound (sample_setup n b).
Proof.
  intros n b. unfold sound, sample_setup. cbn [su_geom su_medium su_dt su_pusher su_frames su_beam su_charge su_mass su_radius su_density su_rand_r su_rand_z
    bunch_length bunches_distance initial_velocity number_bunches number_macro beam_z_size].
  rewrite sample_dr, sample_dz. unfold sample_dt, LIGHT_SPEED. cbn [n_r n_z r_size z_size sample_geom].
  repeat match goal with |- _ /\ _ => split end; try lra; try lia; try apply sample_geom_ok; try reflexivity.
  - now left.
  - intros k x [<-|[<-|[<-|[<-|[]]]]]; lra.
  - intros; lra.
Qed.

(** One neutral particle near the outer wall, moving around the axis with 15/16 of the speed of light. *)
Definition runner : particle := Particle true 0 1 (Phase (V3 (749/100) 0 8) (V3 0 (15/16 * LIGHT_SPEED) 0) 0 0 0).
Definition runner_state : sim := Sim (fun _ => 0) (fun _ _ _ => 0) zero_arr [Group None [runner]] 0 [].

Lemma runner_sub : subluminal (V3 0 (15/16 * LIGHT_SPEED) 0).
Proof. unfold subluminal, norm2, LIGHT_SPEED. cbn. lra. Qed.

Lemma runner_begins : begins sample_geom runner_state.
Proof.
  unfold begins, runner_state, all_particles. cbn [s_groups s_bunch_number s_probes flat_map g_parts app]. repeat split; auto.
  constructor; [|constructor]. unfold may_start, inside_domain, p_r, p_z. cbn [runner p_phase pos vel v0 v1 v2]. rewrite sample_dr, sample_dz.
  cbn [r_size z_size sample_geom]. repeat match goal with |- _ /\ _ => split end; try lra. apply runner_sub.
Qed.

Lemma MNZL_lt_1 : MNZL <= 1.
Proof. unfold MNZL. rewrite <- Rinv_1. apply Rinv_le_contravar; [lra|]. apply pow_R1_Rle. lra. Qed.

Lemma runner_push : forall dt q m, boris_push true dt q m vzero vzero (V3 0 (15/16 * LIGHT_SPEED) 0) = Ok (V3 0 (15/16 * LIGHT_SPEED) 0).
Proof.
  intros. rewrite boris_free by (intros _; apply runner_sub). rewrite round_velocity_id; [reflexivity|].
  unfold not_tiny. cbn. split; [now left|]. split; [right|now left]. assert (M := MNZL_lt_1). unfold LIGHT_SPEED. rewrite Rabs_right by lra. lra.
Qed.

(** After the first step it is beyond the last half cell. *)
Lemma runner_first : forall su s1, su = sample_setup 0 true -> one_step su 0 runner_state = Ok s1 ->
  exists p, s_groups s1 = [Group None [p]] /\ p_alive p = true /\ 15/2 < p_r p < 8 /\ s_bunch_number s1 = 0%Z.
Proof.
  intros su s1 -> H. destruct (one_step_inv _ _ _ _ H) as (s0 & gs2 & j3 & rho & E1 & E2 & E3 & _ & _ & EN & _).
  apply exec_beam_none in E1; [|cbn; lia|reflexivity|repeat constructor]. subst s0.
  cbn [s_fields s_current s_rho_bunch s_groups s_bunch_number s_probes runner_state] in *.
  assert (Z0 : zero_mem (calc_hfield (su_geom (sample_setup 0 true)) (su_dt (sample_setup 0 true)) (fun _ => 0))) by now apply calc_hfield_zero.
  set (m := calc_hfield _ _ _) in *. cbn [traverse] in E2. unfold step_v_group in E2. cbn [g_parts g_bunch traverse] in E2.
  unfold step_v_one in E2. cbn [p_alive runner] in E2.
  destruct (strict (sample_setup 0 true) && _); [discriminate|].
  rewrite (get_efield_zero _ _ _ _ Z0), (get_hfield_zero _ _ _ _ Z0) in E2.
  cbn [su_pusher sample_setup push p_charge p_mass p_phase vel bind su_dt] in E2.
  rewrite runner_push in E2. cbn [bind] in E2. injection E2 as <-.
  cbn [full_current] in E3. apply bind_inv in E3. destruct E3 as (y & E & E3). cbn [bind fst snd] in E3.
  unfold full_current_group in E. cbv zeta in E. destruct (_ && _); [|discriminate]. injection E as <-. cbn [snd] in E3. injection E3 as _ E3.
  unfold moved in E3. cbn [g_bunch g_parts map] in E3. eexists. split; [symmetry; exact E3|].
  set (p2 := Particle true 0 1 _).
  assert (F : p_phase p2 = Phase (V3 (sqrt (749/100 * (749/100) + 3/8 * (3/8))) 0 8) (V3 0 (15/16 * LIGHT_SPEED) 0) (749/100) 8
     (3/8 / sqrt (749/100 * (749/100) + 3/8 * (3/8)))).
  { unfold p2, first_half, back_position_to_rz, half_step_pos, dump_position_to_old, set_vel. cbn [p_phase pos vel v0 v1 v2 r_old z_old sin_theta].
    replace (749 / 100 + 0 * (sample_dt / 2)) with (749/100) by ring.
    replace (0 + 15 / 16 * LIGHT_SPEED * (sample_dt / 2)) with (3/8) by (unfold sample_dt, LIGHT_SPEED; field).
    replace (8 + 0 * (sample_dt / 2)) with 8 by ring. reflexivity. }
  set (rm := sqrt (749/100 * (749/100) + 3/8 * (3/8))) in *.
  assert (R2 : rm * rm = 749/100 * (749/100) + 3/8 * (3/8)) by (apply sqrt_def; lra).
  assert (R0 : 0 <= rm) by apply sqrt_pos.
  assert (R1 : rm <= 15/2) by nra.
  assert (R3 : 7 < rm) by nra.
  assert (G : second_half sample_geom sample_dt (p_phase p2) =
    Phase (V3 (sqrt (rm * rm + 3/8 * (3/8))) 0 8) (V3 0 (15/16 * LIGHT_SPEED) 0) (749/100) 8 (3/8 / sqrt (rm * rm + 3/8 * (3/8)))).
  { rewrite F. unfold second_half, half_step_pos, reflection, reflect_above, reflect_below. cbn [pos vel v0 v1 v2 r_old z_old sin_theta].
    replace (0 + 15 / 16 * LIGHT_SPEED * (sample_dt / 2)) with (3/8) by (unfold sample_dt, LIGHT_SPEED; field).
    replace (rm + 0 * (sample_dt / 2)) with rm by ring. replace (8 + 0 * (sample_dt / 2)) with 8 by ring.
    rewrite sample_dr, sample_dz. cbn [r_size z_size sample_geom].
    destruct (Rlt_dec (8 - 1 / 2) rm) as [X|_]; [lra|]. destruct (Rlt_dec (16 - 1 / 2) 8) as [X|_]; [lra|].
    destruct (Rlt_dec rm (1 / 2)) as [X|_]; [lra|]. destruct (Rlt_dec 8 (1 / 2)) as [X|_]; [lra|]. reflexivity. }
  assert (HR : half_reflect sample_geom sample_dt false p2 = with_phase p2 (second_half sample_geom sample_dt (p_phase p2))) by reflexivity.
  rewrite HR, G. set (r1 := sqrt (rm * rm + 3/8 * (3/8))).
  assert (Q2 : r1 * r1 = rm * rm + 3/8 * (3/8)) by (apply sqrt_def; lra).
  assert (Q0 : 0 <= r1) by apply sqrt_pos.
  unfold velocity_back, with_phase, p2, p_r. cbn [p_alive p_charge p_mass p_phase back_velocity_to_rz pos v0]. split; [reflexivity|]. split; [split; nra|exact EN].
Qed.

Lemma outside_reads : forall r z, 15/2 < r < 8 -> reads_in_array sample_geom (interp_reads sample_geom r z) = false.
Proof.
  intros r z H. apply not_true_is_false. intro X. unfold reads_in_array in X. rewrite forallb_forall in X.
  specialize (X (HZH, 8%Z, cell z (dz sample_geom))).
  assert (I : In (HZH, 8%Z, cell z (dz sample_geom)) (interp_reads sample_geom r z)).
  { unfold interp_reads. apply in_map_iff. eexists. split; [|apply in_concat; eexists; split; [apply in_or_app; right; right; right; left; reflexivity|right; left; reflexivity]].
    cbn [fst]. rewrite sample_dr. rewrite (cell_unique (r - 1 / 2 * 1) 1 7); [reflexivity|lra|lia|lra]. }
  specialize (X I). cbv beta iota in X. apply in_array_true in X. unfold inside in X. cbn [rows_of sample_geom n_r] in X. lia.
Qed.

Lemma runner_run : forall fuel, (2 <= fuel)%nat -> run (sample_setup 0 true) fuel 0 (2 * sample_dt) runner_state = Some UB.
Proof.
  assert (HS := sample_sound 0 true). assert (D : 0 < sample_dt) by (unfold sample_dt, LIGHT_SPEED; lra).
  destruct (step_ok (sample_setup 0 true) HS 0 0 1 runner_state) as (s1 & E & _); [left; cbn; lia|lra|lra| |].
  { apply begins_inv; [exact HS|apply runner_begins|]. intros _. cbn [su_geom sample_setup su_radius]. rewrite sample_dr. cbn [r_size sample_geom]. split; [|lra].
    constructor; [|constructor]. unfold p_r. cbn. lra. }
  destruct (runner_first _ s1 eq_refl E) as (p & EG & A & Rp & EN).
  intros [|[|fuel]] Hf; [lia|lia|]. unfold run. cbn [run_loop]. unfold one_step in E. rewrite E. cbn [su_dt sample_setup].
  destruct (Rlt_dec 0 (2 * sample_dt)) as [_|X]; [|lra]. destruct (Rlt_dec (0 + sample_dt) (2 * sample_dt)) as [_|X]; [|lra].
  assert (U : exec_all (exec (sample_setup 0 true)) (map (fun a => (a, 0 + sample_dt)) iteration) s1 = UB); [|now rewrite U].
  unfold iteration. cbn [map exec_all]. cbn [exec].
  assert (B : exec_beam (sample_setup 0 true) (0 + sample_dt) s1 = Ok (Sim (s_fields s1) (s_current s1) (s_rho_bunch s1) (s_groups s1) 0 (s_probes s1))).
  { unfold exec_beam, init_beam, erase_reached, create_bunch. cbn [current_bunch_number c_bunches]. rewrite EG, EN. cbn [bunch_numbers flat_map g_bunch app length].
    cbn [bind current_bunch_number]. cbn [Z.of_nat Z.ltb Z.compare andb]. cbn [su_beam sample_setup number_bunches].
    destruct (Rle_dec _ _); cbn [bind Z.ltb Z.compare current_bunch_number Z.eqb traverse inject_group g_bunch]; reflexivity. }
  rewrite B. cbn [bind s_fields s_current s_rho_bunch s_groups s_bunch_number s_probes]. rewrite EG. cbn [traverse]. unfold step_v_group. cbn [g_parts traverse].
  unfold step_v_one. rewrite A. cbn [strict sample_setup andb su_geom]. rewrite outside_reads by exact Rp. reflexivity.
Qed.
