(** Proofs about whole runs: a run makes a step, cold matter violates Gauss's law for ever, a moving charge keeps it. *)
From Coq Require Import Reals ZArith Lra Lia Psatz List Bool.
From Verif.Lib Require Import RAux Grid Outcome Par.
From Verif.Model Require Import Constants Geometry ChargeDeposit CurrentDeposit Fields Interp Pusher Motion Loading
  Bunch Dump MainLoop Sim.
From Verif.Spec Require Import Dynamics Domain Steps Whole Maxwell Cloud Continuity Sample.
From Verif.Proof Require Import GeometryP ChargeP ChargeP2 CurrentP CurrentP4 FieldsP MaxwellP PusherP MotionP MainLoopP
  SimP SimP2 SimP3 SimP4 SimP5.
Import ListNotations.
Local Open Scope R_scope.

(** A run that begins before the end time makes a step. *)
Lemma run_iterations_pos : forall su fuel t e s s', run su fuel t e s = Some (Ok s') -> t < e ->
  exists n, iterations su (S n) t s = Ok s'.
Proof.
  intros su [|fuel] t e s s' H L; unfold run in H; cbn [run_loop] in H; (destruct (Rlt_dec t e); [|lra]); [discriminate|].
  destruct (exec_all _ _ s) as [s1| |] eqn:E; try discriminate. destruct (run_iterations su fuel _ _ _ _ H) as (n & K). exists n.
  cbn [iterations]. unfold one_step. rewrite E. exact K.
Qed.

(** ** Cold matter *)

Lemma rest_defect : forall su s i k, (forall x, s_fields s x = 0) ->
  gauss_defect su s i k = - (charge_density (su_geom su) s i k * node_volume (dr (su_geom su)) (dz (su_geom su)) i).
Proof. intros su s i k Z. unfold gauss_defect, gauss_residual, comp. cbv zeta. rewrite !Z. ring. Qed.

Lemma rest_defect_run : forall su n t s, sound su -> (number_bunches (su_beam su) <= 0)%Z -> begins (su_geom su) s -> at_rest s ->
  exists s', iterations su n t s = Ok s' /\ at_rest s' /\ places s' = places s /\
    forall i k, gauss_defect su s' i k = - (charge_density (su_geom su) s i k * node_volume (dr (su_geom su)) (dz (su_geom su)) i).
Proof.
  intros su n t s HS N B A. destruct (rest_run su n t s HS N B A) as (s' & E & A' & G). exists s'. split; [exact E|]. split; [exact A'|].
  destruct (settle_places s s' (proj2 (proj2 A)) G) as (P & Q). split; [exact P|].
  intros i k. rewrite rest_defect by apply A'. unfold charge_density. now rewrite Q.
Qed.

Definition charge_at_rest : sim :=
  Sim (fun _ => 0) (fun _ _ _ => 0) zero_arr [Group None [Particle true (-1) 1 (Phase (V3 3 0 8) vzero 0 0 0)]] 0 [].

Lemma charge_at_rest_begins : begins sample_geom charge_at_rest.
Proof.
  unfold begins, charge_at_rest, all_particles. cbn [s_groups s_bunch_number s_probes flat_map g_parts app]. repeat split; auto.
  constructor; [|constructor]. unfold may_start, inside_domain, p_r, p_z, subluminal, norm2, vzero. cbn [p_phase pos vel v0 v1 v2].
  rewrite sample_dr, sample_dz. cbn [r_size z_size sample_geom]. unfold LIGHT_SPEED. repeat match goal with |- _ /\ _ => split end; lra.
Qed.

Lemma charge_at_rest_rests : at_rest charge_at_rest.
Proof. unfold at_rest, charge_at_rest, all_particles. cbn. repeat split; auto. Qed.

Lemma share_3_8 : share 1 1 3 8 3 8 = 1.
Proof.
  unfold share. rewrite share_r_at, share_z_at by (try lra; try lia; unfold in_cell; lra). lra.
Qed.

Lemma one_charge_density : forall q i k, charge_weighting sample_geom zero_arr [QPart true q 3 8] i k * node_volume 1 1 i = q * share 1 1 i k 3 8.
Proof.
  intros q i k. rewrite <- sample_dr at 1. rewrite <- sample_dz at 1.
  rewrite charge_weighting_incs, apply_incs_at. cbn [flat_map]. rewrite app_nil_r. unfold charge_weighting_part. cbn [q_alive q_charge q_r q_z].
  assert (E := charge_weighting_share sample_geom q 3 8 sample_geom_ok). rewrite sample_dr, sample_dz in *.
  specialize (E ltac:(lra) ltac:(lra) i k). rewrite <- E. unfold zero_arr. ring.
Qed.

Lemma charge_at_rest_density : charge_density sample_geom charge_at_rest 3%Z 8%Z * node_volume (dr sample_geom) (dz sample_geom) 3 = -1.
Proof.
  rewrite sample_dr, sample_dz. unfold charge_density, charge_at_rest, all_particles. cbn [s_groups flat_map g_parts app map].
  unfold q_of, p_r, p_z. cbn [p_alive p_charge p_phase pos v0 v2]. rewrite one_charge_density, share_3_8. ring.
Qed.

(** ** A charge that moves along the axis with a quarter of the speed of light *)

Definition glider : particle := Particle true (-1) 1 (Phase (V3 3 0 8) (V3 0 0 (LIGHT_SPEED / 4)) 0 0 0).
Definition glider_state : sim := Sim (fun _ => 0) (fun _ _ _ => 0) zero_arr [Group None [glider]] 0 [].

Lemma glider_sub : subluminal (V3 0 0 (LIGHT_SPEED / 4)).
Proof. unfold subluminal, norm2, LIGHT_SPEED. cbn. lra. Qed.

Lemma glider_begins : begins sample_geom glider_state.
Proof.
  unfold begins, glider_state, all_particles. cbn [s_groups s_bunch_number s_probes flat_map g_parts app]. repeat split; auto.
  constructor; [|constructor]. unfold may_start, inside_domain, p_r, p_z. cbn [glider p_phase pos vel v0 v1 v2].
  rewrite sample_dr, sample_dz. cbn [r_size z_size sample_geom]. repeat match goal with |- _ /\ _ => split end; try lra. apply glider_sub.
Qed.

Lemma glider_push : forall dt q m, boris_push true dt q m vzero vzero (V3 0 0 (LIGHT_SPEED / 4)) = Ok (V3 0 0 (LIGHT_SPEED / 4)).
Proof.
  intros. rewrite boris_free by (intros _; apply glider_sub). rewrite round_velocity_id; [reflexivity|].
  unfold not_tiny. cbn. split; [now left|]. split; [now left|right]. assert (M := MNZL_lt_1). unfold LIGHT_SPEED. rewrite Rabs_right by lra. lra.
Qed.

Lemma glider_first : forall s1, one_step (sample_setup 0 true) 0 glider_state = Ok s1 ->
  exists p, s_groups s1 = [Group None [p]] /\ p_r p = 3 /\ p_z p = 41/5 /\ r_old (p_phase p) = 3 /\ z_old (p_phase p) = 8.
Proof.
  intros s1 H. destruct (one_step_inv _ _ _ _ H) as (s0 & gs2 & j3 & rho & E1 & E2 & E3 & _ & _ & EN & _).
  apply exec_beam_none in E1; [|cbn; lia|reflexivity|repeat constructor]. subst s0.
  cbn [s_fields s_current s_rho_bunch s_groups s_bunch_number s_probes glider_state] in *.
  assert (Z0 : zero_mem (calc_hfield (su_geom (sample_setup 0 true)) (su_dt (sample_setup 0 true)) (fun _ => 0))) by now apply calc_hfield_zero.
  set (m := calc_hfield _ _ _) in *. cbn [traverse] in E2. unfold step_v_group in E2. cbn [g_parts g_bunch traverse] in E2.
  unfold step_v_one in E2. cbn [p_alive glider] in E2.
  destruct (strict (sample_setup 0 true) && _); [discriminate|].
  rewrite (get_efield_zero _ _ _ _ Z0), (get_hfield_zero _ _ _ _ Z0) in E2.
  cbn [su_pusher sample_setup push p_charge p_mass p_phase vel bind su_dt] in E2.
  rewrite glider_push in E2. cbn [bind] in E2. injection E2 as <-.
  cbn [full_current] in E3. apply bind_inv in E3. destruct E3 as (y & E & E3). cbn [bind fst snd] in E3.
  unfold full_current_group in E. cbv zeta in E. destruct (_ && _); [|discriminate]. injection E as <-. cbn [snd] in E3. injection E3 as _ E3.
  unfold moved in E3. cbn [g_bunch g_parts map] in E3. eexists. split; [symmetry; exact E3|].
  set (p2 := Particle true (-1) 1 _).
  assert (S9 : sqrt (3 * 3 + 0 * 0) = 3) by (replace (3 * 3 + 0 * 0) with (3 * 3) by ring; apply sqrt_square; lra).
  assert (F : p_phase p2 = Phase (V3 3 0 (81/10)) (V3 0 0 (LIGHT_SPEED / 4)) 3 8 (0 / 3)).
  { unfold p2, first_half, back_position_to_rz, half_step_pos, dump_position_to_old, set_vel. cbn [p_phase pos vel v0 v1 v2 r_old z_old sin_theta].
    replace (3 + 0 * (sample_dt / 2)) with 3 by ring. replace (0 + 0 * (sample_dt / 2)) with 0 by ring.
    replace (8 + LIGHT_SPEED / 4 * (sample_dt / 2)) with (81/10) by (unfold sample_dt, LIGHT_SPEED; field). rewrite S9. reflexivity. }
  assert (G : second_half sample_geom sample_dt (p_phase p2) = Phase (V3 3 0 (41/5)) (V3 0 0 (LIGHT_SPEED / 4)) 3 8 (0 / 3)).
  { rewrite F. unfold second_half, half_step_pos, reflection, reflect_above, reflect_below. cbn [pos vel v0 v1 v2 r_old z_old sin_theta].
    replace (3 + 0 * (sample_dt / 2)) with 3 by ring. replace (0 + 0 * (sample_dt / 2)) with 0 by ring.
    replace (81/10 + LIGHT_SPEED / 4 * (sample_dt / 2)) with (41/5) by (unfold sample_dt, LIGHT_SPEED; field).
    rewrite sample_dr, sample_dz. cbn [r_size z_size sample_geom].
    destruct (Rlt_dec (8 - 1 / 2) 3) as [X|_]; [lra|]. destruct (Rlt_dec (16 - 1 / 2) (41/5)) as [X|_]; [lra|].
    destruct (Rlt_dec 3 (1 / 2)) as [X|_]; [lra|]. destruct (Rlt_dec (41/5) (1 / 2)) as [X|_]; [lra|].
    unfold back_position_to_rz. cbn [pos vel v0 v1 v2 r_old z_old sin_theta]. rewrite S9. reflexivity. }
  assert (HR : half_reflect sample_geom sample_dt false p2 = with_phase p2 (second_half sample_geom sample_dt (p_phase p2))) by reflexivity.
  rewrite HR, G. unfold velocity_back, with_phase, p2, p_r, p_z. cbn [p_alive p_charge p_mass p_phase back_velocity_to_rz pos v0 v2 r_old z_old]. repeat split.
Qed.

Lemma glider_good : forall m sm, (1 <= m <= 1)%nat -> iterations (sample_setup 0 true) m 0 glider_state = Ok sm ->
  Forall (moved_well sample_geom) (all_particles sm).
Proof.
  intros m sm Hm H. assert (m = 1%nat) by lia. subst m. cbn [iterations] in H. apply bind_inv in H. destruct H as (s1 & E & H). injection H as <-.
  destruct (glider_first s1 E) as (p & G & R1 & R2 & R3 & R4). unfold all_particles. rewrite G. cbn [flat_map g_parts app]. constructor; [|constructor].
  unfold moved_well, good_move. rewrite R1, R2, R3, R4, sample_dr, sample_dz. repeat match goal with |- _ /\ _ => split end; try lra.
  right. left. split; [reflexivity|]. rewrite Rabs_right by lra. assert (M : MNZL <= / 100).
  { unfold MNZL. apply Rinv_le_contravar; [lra|]. replace 100 with (10 ^ 2) by ring. apply Rle_pow; [lra|lia]. }
  lra.
Qed.

Lemma glider_runs : exists s1, iterations (sample_setup 0 true) 1 0 glider_state = Ok s1.
Proof.
  destruct (step_ok (sample_setup 0 true) (sample_sound 0 true) 0 0 1 glider_state) as (s1 & E & _); [left; cbn; lia|lra|lra| |].
  { apply begins_inv; [apply sample_sound|apply glider_begins|]. intros _. cbn [su_geom sample_setup su_radius]. rewrite sample_dr. cbn [r_size sample_geom]. split; [|lra].
    constructor; [|constructor]. unfold p_r. cbn. lra. }
  exists s1. cbn [iterations]. rewrite E. reflexivity.
Qed.
