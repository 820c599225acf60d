(** A concrete run in which a particle of the beam is absorbed: a tube of 3 x 3 nodes, one bunch of one neutral
    macroparticle with 9/10 of the speed of light. *)
From Coq Require Import Reals ZArith Lra Lia Psatz List Bool.
From Verif.Lib Require Import RAux Grid Outcome Par.
From Verif.Model Require Import Constants Geometry ChargeDeposit CurrentDeposit Fields Interp Pusher Motion Loading
  Bunch Dump MainLoop Sim.
From Verif.Spec Require Import Dynamics Domain Steps Whole Maxwell Cloud Continuity Sample.
From Verif.Proof Require Import GeometryP ChargeP ChargeP2 CurrentP CurrentP4 FieldsP MaxwellP PusherP MotionP MainLoopP
  SimP SimP2 SimP3 SimP4 SimP5.
Import ListNotations.
Local Open Scope R_scope.

Definition tube : geom := Geom 3 3 2 2.
Definition shot : setup :=
  Setup tube sample_medium sample_dt BorisRelativistic 10 (Beam (18/25) 0 (9/10 * LIGHT_SPEED) 1 1 2)
    0 1 2 1 (fun _ => [1/2]) (fun _ _ _ => 0) false.
Definition empty_sim : sim := Sim (fun _ => 0) (fun _ _ _ => 0) zero_arr [] 0 [].

Lemma tube_dr : dr tube = 1. Proof. unfold dr, tube. cbn. field. Qed.
Lemma tube_dz : dz tube = 1. Proof. unfold dz, tube. cbn. field. Qed.

Lemma shot_sound : sound shot.
Proof.
  unfold sound, shot. cbn [su_geom su_medium su_dt su_pusher su_frames su_beam su_charge su_mass su_radius su_density su_rand_r su_rand_z
    bunch_length bunches_distance initial_velocity number_bunches number_macro beam_z_size].
  rewrite tube_dr, tube_dz. unfold sample_dt, LIGHT_SPEED. cbn [n_r n_z r_size z_size tube].
  repeat match goal with |- _ /\ _ => split end; try lra; try lia; try reflexivity.
  - unfold geom_ok, tube. cbn. repeat split; try lia; lra.
  - now left.
  - intros k x [<-|[]]; lra.
  - intros; lra.
Qed.

Lemma empty_begins : begins tube empty_sim.
Proof. unfold begins, empty_sim, all_particles. cbn. repeat split; constructor. Qed.

Lemma neutral_push : forall dt m e h v, subluminal v -> not_tiny v -> boris_push true dt 0 m e h v = Ok v.
Proof.
  intros dt m e h v S T. rewrite <- (round_velocity_id v T) at 2. rewrite <- (boris_free true dt 0 m v) by auto.
  assert (C : 0 * dt / (2 * m) = 0) by (unfold Rdiv; ring). unfold boris_push. cbv zeta. rewrite C. unfold tv_product, vzero. cbn [v0 v1 v2].
  rewrite !Rmult_0_r. reflexivity.
Qed.

Definition shot_velocity : vec3 := V3 0 0 (9/10 * LIGHT_SPEED).
Lemma shot_sub : subluminal shot_velocity.
Proof. unfold subluminal, norm2, shot_velocity, LIGHT_SPEED. cbn. lra. Qed.
Lemma shot_big : not_tiny shot_velocity.
Proof.
  unfold not_tiny, shot_velocity. cbn. split; [now left|]. split; [now left|right]. assert (M := MNZL_lt_1). unfold LIGHT_SPEED. rewrite Rabs_right by lra. lra.
Qed.

(** What one iteration does with a single neutral particle of the beam, the beam being complete. *)
Lemma shot_step : forall t s s1 gs z p, one_step shot t s = Ok s1 -> (forall s0, exec_beam shot t s = Ok s0 -> s_groups s0 = gs) ->
  gs = [Group (Some 0%Z) [p]] -> p_alive p = true -> p_charge p = 0 -> pos (p_phase p) = V3 1 0 z -> vel (p_phase p) = shot_velocity -> 1/2 <= z ->
  exists p', s_groups s1 = [Group (Some 0%Z) [p']] /\ p_charge p' = 0 /\
    (z + 18/25 <= 3/2 -> p_alive p' = true /\ pos (p_phase p') = V3 1 0 (z + 18/25) /\ vel (p_phase p') = shot_velocity) /\
    (3/2 < z + 18/25 -> p_alive p' = false).
Proof.
  intros t s s1 gs z p H HB -> A Q P V Z0. destruct (one_step_inv _ _ _ _ H) as (s0 & gs2 & j3 & rho & E1 & E2 & E3 & _).
  rewrite (HB s0 E1) in E2. cbn [traverse] in E2. unfold step_v_group in E2. cbn [g_parts g_bunch traverse] in E2.
  unfold step_v_one in E2. rewrite A in E2. cbn [strict shot andb] in E2.
  cbn [su_pusher shot push su_dt] in E2. rewrite Q, V, (neutral_push _ _ _ _ _ shot_sub shot_big) in E2. cbn [bind] in E2. injection E2 as <-.
  cbn [full_current] in E3. apply bind_inv in E3. destruct E3 as (y & E & E3). cbn [bind fst snd] in E3.
  unfold full_current_group in E. cbv zeta in E. destruct (_ && _); [|discriminate]. injection E as <-. cbn [snd] in E3. injection E3 as _ E3.
  unfold moved in E3. cbn [g_bunch g_parts map] in E3. eexists. split; [symmetry; exact E3|]. clear E3 H.
  set (p2 := Particle true 0 (p_mass p) _).
  assert (S1 : sqrt (1 * 1 + 0 * 0) = 1) by (replace (1 * 1 + 0 * 0) with (1 * 1) by ring; apply sqrt_square; lra).
  assert (F : p_phase p2 = Phase (V3 1 0 (z + 9/25)) shot_velocity 1 z (0 / 1)).
  { unfold p2, first_half, back_position_to_rz, half_step_pos, dump_position_to_old, set_vel. cbn [p_phase pos vel v0 v1 v2 r_old z_old sin_theta].
    rewrite P. cbn [v0 v1 v2 shot_velocity].
    replace (1 + 0 * (sample_dt / 2)) with 1 by ring. replace (0 + 0 * (sample_dt / 2)) with 0 by ring.
    replace (z + 9 / 10 * LIGHT_SPEED * (sample_dt / 2)) with (z + 9/25) by (unfold sample_dt, LIGHT_SPEED; field). rewrite S1. reflexivity. }
  cbn [su_geom su_dt shot]. unfold velocity_back, half_reflect. cbn [p_alive p2]. fold p2.
  unfold bunch_reflection, with_phase at 1. cbn [p_phase].
  assert (G : half_step_pos sample_dt (p_phase p2) = Phase (V3 1 0 (z + 18/25)) shot_velocity 1 z (0 / 1)).
  { rewrite F. unfold half_step_pos. cbn [pos vel v0 v1 v2 r_old z_old sin_theta shot_velocity].
    replace (1 + 0 * (sample_dt / 2)) with 1 by ring. replace (0 + 0 * (sample_dt / 2)) with 0 by ring.
    replace (z + 9/25 + 9 / 10 * LIGHT_SPEED * (sample_dt / 2)) with (z + 18/25) by (unfold sample_dt, LIGHT_SPEED; field). reflexivity. }
  unfold with_phase. cbn [p_phase p_alive p_charge p_mass]. rewrite G. cbn [pos vel v0 v1 v2 r_old z_old sin_theta shot_velocity p2 p_alive p_charge p_mass].
  rewrite tube_dr, tube_dz. cbn [r_size z_size tube]. unfold reflect_below.
  destruct (Rlt_dec (2 - 1 / 2) 1) as [X|_]; [lra|]. destruct (Rlt_dec 1 (1 / 2)) as [X|_]; [lra|]. destruct (Rlt_dec (z + 18/25) (1 / 2)) as [X|_]; [lra|].
  destruct (Rlt_dec (2 - 1 / 2) (z + 18/25)) as [X|X]; cbn [p_alive p_charge p_phase p_mass]; (split; [reflexivity|]).
  - split; [lra|reflexivity].
  - split; [|lra]. intros _. unfold back_position_to_rz, back_velocity_to_rz. cbn [pos vel v0 v1 v2 r_old z_old sin_theta]. rewrite S1. split; [reflexivity|]. split; [reflexivity|].
    unfold shot_velocity. f_equal; unfold Rdiv; ring.
Qed.

Lemma shot_dt : 0 < sample_dt.
Proof. unfold sample_dt, LIGHT_SPEED; lra. Qed.

Lemma shot_duration : duration_of (su_beam shot) = sample_dt.
Proof. unfold duration_of, sample_dt, LIGHT_SPEED. cbn [bunch_length initial_velocity su_beam shot]. unfold LIGHT_SPEED. field. Qed.

Lemma shot_first_beam : forall s0, exec_beam shot 0 empty_sim = Ok s0 -> exists p, s_groups s0 = [Group (Some 0%Z) [p]] /\
  p_alive p = true /\ p_charge p = 0 /\ pos (p_phase p) = V3 1 0 (1/2) /\ vel (p_phase p) = shot_velocity.
Proof.
  intros s0 H. assert (D := shot_dt).
  unfold exec_beam, init_beam, erase_reached, create_bunch in H. cbn [current_bunch_number c_bunches s_groups s_bunch_number empty_sim bunch_numbers flat_map length Z.of_nat Z.ltb Z.compare andb bind] in H.
  assert (L : 0 * (duration_of (su_beam shot) + hole_of (su_beam shot)) <= 0) by lra.
  destruct (Rle_dec _ 0) as [_|X]; [|contradiction]. cbn [su_beam shot number_bunches Z.ltb Z.compare current_bunch_number Z.add Z.eqb app] in H.
  apply bind_inv in H. destruct H as (gs & E & H). injection H as <-. cbn [s_groups].
  cbn [traverse] in E. apply bind_inv in E. destruct E as (y & E & E2). cbn [bind] in E2. injection E2 as <-.
  unfold inject_group in E. cbn [new_bunch g_bunch g_parts] in E. unfold bunch_inject, bunch_of in E.
  cbn [b_duration b_bunch_number b_hole b_velocity b_number] in E. change (Beam (18 / 25) 0 (9 / 10 * LIGHT_SPEED) 1 1 2) with (su_beam shot) in E.
  rewrite shot_duration in E. cbn [su_dt shot su_geom su_rand_z] in E.
  assert (H0 : hole_of (su_beam shot) = 0) by (unfold hole_of; cbn; unfold Rdiv; ring). rewrite H0 in E. cbn [su_beam shot] in E.
  replace (ceilZ (sample_dt / sample_dt)) with 1%Z in E by (symmetry; apply ceilZ_unique; replace (sample_dt / sample_dt) with 1 by (field; lra); lra).
  cbn [Z.eqb number_macro] in E. change (1 / 1)%Z with 1%Z in E. change (IZR 0) with 0 in E.
  replace (sample_dt * 0 + 0 * 0) with 0 in E by ring.
  destruct (Rle_dec 0 0) as [_|X]; [|lra]. destruct (Rlt_dec 0 (0 + sample_dt)) as [_|X]; [|lra].
  change (zrange 0 1) with [0%Z] in E. cbn [flat_map] in E.
  replace ((0 - 0) / sample_dt * 1) with 0 in E by (field; lra).
  replace (truncZ 0) with 0%Z in E. 2:{ unfold truncZ. destruct (Rle_dec 0 0); [|lra]. symmetry. apply floorZ_unique. cbn; lra. }
  cbn [Z.add Z.ltb Z.compare app bind] in E. injection E as <-.
  unfold bunch_load, inject_all. cbn [su_rand_r shot map fold_left in_index Z.to_nat update_nth]. eexists. split; [reflexivity|].
  unfold inject_one, bunch_r. cbn [p_alive p_charge p_phase pos vel v0 v1 v2 m_r m_z m_charge m_mass su_geom su_radius su_charge su_mass su_density shot in_z in_vz initial_velocity].
  rewrite tube_dr, tube_dz. split; [reflexivity|]. split; [ring|]. split; [f_equal; lra|reflexivity].
Qed.

Lemma shot_second_beam : forall s s0 p, s_bunch_number s = 1%Z -> s_groups s = [Group (Some 0%Z) [p]] ->
  exec_beam shot (0 + INR 1 * sample_dt) s = Ok s0 -> s_groups s0 = [Group (Some 0%Z) [p]].
Proof.
  intros s s0 p N G H. assert (D := shot_dt). unfold exec_beam, init_beam, erase_reached, create_bunch in H.
  cbn [current_bunch_number c_bunches] in H. rewrite G, N in H. cbn [bunch_numbers flat_map g_bunch app length Z.of_nat Z.ltb Z.compare andb bind] in H.
  change (1 <? number_bunches (su_beam shot))%Z with false in H. change (1 <? Z.pos (Pos.of_succ_nat 0))%Z with false in H. cbn [andb] in H.
  assert (E : traverse (inject_group shot (0 + INR 1 * sample_dt)) [Group (Some 0%Z) [p]] = Ok [Group (Some 0%Z) [p]]).
  { cbn [traverse]. unfold inject_group. cbn [g_bunch g_parts]. unfold bunch_inject, bunch_of. cbn [b_duration b_bunch_number b_hole b_velocity b_number].
    rewrite shot_duration. cbn [su_dt shot]. replace (ceilZ (sample_dt / sample_dt)) with 1%Z by (symmetry; apply ceilZ_unique; replace (sample_dt / sample_dt) with 1 by (field; lra); lra).
    cbn [Z.eqb]. assert (H0 : hole_of (su_beam shot) = 0) by (unfold hole_of; cbn; unfold Rdiv; ring). rewrite H0. change (IZR 0) with 0. cbn [INR].
    destruct (Rlt_dec (0 + 1 * sample_dt) (sample_dt * 0 + 0 * 0 + sample_dt)) as [X|_]; [lra|].
    destruct (Rle_dec (sample_dt * 0 + 0 * 0) (0 + 1 * sample_dt)); cbn [bind inject_all fold_left]; reflexivity. }
  destruct (Rle_dec _ _); cbn [bind current_bunch_number Z.eqb Pos.eqb] in H; rewrite E in H; cbn [bind] in H; injection H as <-; reflexivity.
Qed.

(** The particle is alive after the first iteration and absorbed in the second. *)
Lemma shot_history : exists sa sb pa pb, iterations shot 1 0 empty_sim = Ok sa /\ iterations shot 1 (0 + INR 1 * sample_dt) sa = Ok sb /\
  particle_at sa 0 0 = Some pa /\ p_alive pa = true /\ particle_at sb 0 0 = Some pb /\ p_alive pb = false.
Proof.
  assert (D := shot_dt). assert (HS := shot_sound). assert (NR : no_removal (su_beam shot) 3) by (left; cbn; lia).
  assert (J0 : Inv shot 3 0 empty_sim) by (apply begins_inv; [exact HS|apply empty_begins|discriminate]).
  assert (D1 : sample_dt < 1) by (unfold sample_dt, LIGHT_SPEED; lra).
  destruct (step_ok shot HS 3 0 3 empty_sim NR ltac:(lra) ltac:(lra) J0) as (sa & Ea & Ja). cbn [su_dt shot] in Ja.
  destruct (step_ok shot HS 3 (0 + INR 1 * sample_dt) 3 sa NR) as (sb & Eb & _); [cbn [INR]; lra|cbn [INR]; lra|replace (0 + INR 1 * sample_dt) with (0 + sample_dt) by (cbn [INR]; ring); exact Ja|].
  destruct (one_step_inv _ _ _ _ Ea) as (s0 & _ & _ & _ & E0 & _ & _ & _ & _ & EN & _).
  destruct (shot_first_beam s0 E0) as (p & G & A & Q & P & V).
  destruct (shot_step 0 empty_sim sa (s_groups s0) (1/2) p Ea) as (pa & Ga & Qa & Aa & _); auto; [intros s1 E1; congruence|lra|].
  destruct Aa as (Aa & Pa & Va); [lra|].
  assert (N1 : s_bunch_number sa = 1%Z).
  { rewrite EN. clear - E0. unfold exec_beam, init_beam, erase_reached, create_bunch in E0.
    cbn [current_bunch_number c_bunches s_groups s_bunch_number empty_sim bunch_numbers flat_map length Z.of_nat Z.ltb Z.compare andb bind] in E0.
    destruct (Rle_dec _ 0) as [_|X]; [|exfalso; apply X; lra]. cbn [su_beam shot number_bunches Z.ltb Z.compare current_bunch_number Z.add Z.eqb] in E0.
    apply bind_inv in E0. destruct E0 as (gs & _ & H). injection H as <-. reflexivity. }
  destruct (shot_step _ sa sb _ (1/2 + 18/25) pa Eb (fun s1 E1 => shot_second_beam sa s1 pa N1 Ga E1)) as (pb & Gb & _ & _ & Ab); auto; [lra|].
  exists sa, sb, pa, pb. cbn [iterations]. rewrite Ea, Eb. cbn [bind]. split; [reflexivity|]. split; [reflexivity|].
  unfold particle_at. rewrite Ga, Gb. cbn [nth_error g_parts]. split; [reflexivity|]. split; [exact Aa|]. split; [reflexivity|]. apply Ab. lra.
Qed.
