(** Properties of complete runs: C59 - C63. *)
From Coq Require Import Reals ZArith Lra Lia Psatz List Bool.
From Verif.Lib Require Import RAux Grid Outcome Par.
From Verif.Model Require Import Constants Geometry ChargeDeposit CurrentDeposit Fields Interp Pusher Motion Loading
  Bunch Dump MainLoop Sim.
From Verif.Spec Require Import Dynamics Domain Steps Whole Maxwell Cloud Continuity Sample.
From Verif.Proof Require Import GeometryP ChargeP ChargeP2 FieldsP MaxwellP FieldsP2 PusherP MotionP MainLoopP
  SimP SimP2 SimP3 SimP4 SimP5 SimP6 SimP7 SimP8.
Import ListNotations.
Local Open Scope R_scope.

(** * C59: a whole run never fails *)

(** C59. From any state with which the main loop may begin, a run of a sound configuration that ends before bunches are
    removed makes the least number of steps that reaches the end time, ends normally, and all its live particles are on
    the grid, off the axis and slower than light. Partial: field reads outside the arrays are tolerated
    ([strict su = false]); see C59_strict_partial and C59_refuted for them. *)
Theorem C59_safe_partial : forall su t0 e n s, sound su -> strict su = false -> begins (su_geom su) s ->
  no_removal (su_beam su) e -> least_steps t0 e (su_dt su) n ->
  exists s', (forall fuel, (n <= fuel)%nat -> run su fuel t0 e s = Some (Ok s')) /\
    Forall (in_order (su_geom su)) (all_particles s').
Proof.
  intros su t0 e n s HS X HB HN HL. destruct (run_safe su t0 e n s HS HB HN HL) as (s' & R & J); [congruence|].
  exists s'. split; [exact R|]. now apply inv_in_order in J.
Qed.
Print Assumptions C59_safe_partial.

(** C59 with out-of-array field reads counted as failures: the same as long as no particle and no part of the beam can reach
    the last half cell at the outer wall, that is as long as light could not get there. *)
Theorem C59_strict_partial : forall su t0 e n s, sound su -> begins (su_geom su) s ->
  no_removal (su_beam su) e -> least_steps t0 e (su_dt su) n ->
  let w := r_size (su_geom su) - dr (su_geom su) / 2 in
  let d := LIGHT_SPEED * (INR n * su_dt su) in
  Forall (fun p => p_r p + d <= w) (all_particles s) -> su_radius su + d <= r_size (su_geom su) ->
  exists s', (forall fuel, (n <= fuel)%nat -> run su fuel t0 e s = Some (Ok s')) /\
    Forall (in_order (su_geom su)) (all_particles s').
Proof.
  intros su t0 e n s HS HB HN HL w d HP HR. destruct (run_safe su t0 e n s HS HB HN HL) as (s' & R & J); [intros _; now split|].
  exists s'. split; [exact R|]. now apply inv_in_order in J.
Qed.
Print Assumptions C59_strict_partial.

(** The unrestricted statement is false: in a sound configuration a single neutral particle that may start brings the program
    to read the magnetic field outside its array in the second step. *)
Theorem C59_refuted : exists su s, sound su /\ begins (su_geom su) s /\ no_removal (su_beam su) (2 * su_dt su) /\
  least_steps 0 (2 * su_dt su) (su_dt su) 2 /\
  forall fuel, (2 <= fuel)%nat -> run su fuel 0 (2 * su_dt su) s = Some UB.
Proof.
  exists (sample_setup 0 true), runner_state. split; [apply sample_sound|]. split; [apply runner_begins|]. split; [left; cbn; lia|].
  split; [|apply runner_run]. cbn [su_dt sample_setup]. assert (D : 0 < sample_dt) by (unfold sample_dt, LIGHT_SPEED; lra).
  split; [cbn [INR]; lra|]. intros k Hk. apply INR_le. cbn [INR]. apply Rmult_le_reg_r with sample_dt; [exact D|]. lra.
Qed.
Print Assumptions C59_refuted.

(** A configuration with three bunches, and a charged particle in the middle of the grid. *)
Definition C59_particle : particle := Particle true (-1) 1 (Phase (V3 3 0 8) (V3 (LIGHT_SPEED / 3) (LIGHT_SPEED / 4) 0) 0 0 0).
Definition C59_state : sim := Sim (fun _ => 0) (fun _ _ _ => 0) zero_arr [Group None [C59_particle]] 0
  [(Probe (CArray 0) 0 0 0 4 4 2 0, fun _ => [])].

Example C59_hypotheses_met : let su := sample_setup 3 true in
  sound su /\ begins (su_geom su) C59_state /\ no_removal (su_beam su) (3 * su_dt su) /\
  least_steps 0 (3 * su_dt su) (su_dt su) 3 /\
  Forall (fun p => p_r p + LIGHT_SPEED * (INR 3 * su_dt su) <= r_size (su_geom su) - dr (su_geom su) / 2) (all_particles C59_state) /\
  su_radius su + LIGHT_SPEED * (INR 3 * su_dt su) <= r_size (su_geom su).
Proof.
  cbv zeta. assert (D : 0 < sample_dt) by (unfold sample_dt, LIGHT_SPEED; lra).
  assert (C : LIGHT_SPEED * (INR 3 * sample_dt) = 12/5) by (cbn [INR]; unfold sample_dt, LIGHT_SPEED; field).
  cbn [su_dt su_geom su_beam su_radius sample_setup] in *. rewrite C, sample_dr.
  split; [apply sample_sound|]. split.
  { unfold begins, C59_state, all_particles. cbn [s_groups s_bunch_number s_probes flat_map g_parts app]. repeat split; auto.
    - constructor; [|constructor]. unfold may_start, inside_domain, p_r, p_z, subluminal, norm2. cbn [C59_particle p_phase pos vel v0 v1 v2].
      rewrite sample_dr, sample_dz. cbn [r_size z_size sample_geom]. unfold LIGHT_SPEED. repeat match goal with |- _ /\ _ => split end; lra.
    - constructor; [cbn; lia|constructor]. }
  split.
  { right. cbn [beam_z_size initial_velocity bunch_length]. unfold sample_dt, LIGHT_SPEED. lra. }
  split.
  { split; [cbn [INR]; lra|]. intros k Hk. apply INR_le. cbn [INR]. apply Rmult_le_reg_r with sample_dt; [exact D|]. lra. }
  split; [|cbn [r_size sample_geom]; lra]. constructor; [|constructor]. unfold p_r. cbn. lra.
Qed.

(** * C60: the magnetic field and the metal walls in a whole run *)

(** C60. In every run that ends normally, whatever particles and beam do, the magnetic field at the end has no sources and
    the tangential electric field on the walls is zero. *)
Theorem C60_no_magnetic_sources : forall su fuel t e m0 j0 rho0 species probes s' i k, geom_ok (su_geom su) ->
  run su fuel t e (start su m0 j0 rho0 species probes) = Some (Ok s') ->
  (0 <= i < n_r (su_geom su) - 1)%Z -> (0 <= k < n_z (su_geom su) - 1)%Z ->
  magnetic_flux (dr (su_geom su)) (dz (su_geom su)) (comp (s_fields s') HR) (comp (s_fields s') HZ) i k = 0.
Proof.
  intros su fuel t e m0 j0 rho0 species probes s' i k Hg H Hi Hk. destruct (run_iterations _ _ _ _ _ _ H) as (n & K).
  destruct (iterations_fields _ _ _ _ _ K) as (js & _ & F). rewrite F. cbn [s_fields start].
  rewrite flux_run by (auto using init_conducting). unfold magnetic_flux, comp. destruct (Hg) as (N1 & N2 & _).
  rewrite !init_fields_zero by (auto; cbn; lia). ring.
Qed.
Print Assumptions C60_no_magnetic_sources.

Theorem C60_walls : forall su fuel t e m0 j0 rho0 species probes s' x, geom_ok (su_geom su) ->
  run su fuel t e (start su m0 j0 rho0 species probes) = Some (Ok s') -> wall_location (su_geom su) x -> s_fields s' x = 0.
Proof.
  intros su fuel t e m0 j0 rho0 species probes s' x Hg H Hx. destruct (run_iterations _ _ _ _ _ _ H) as (n & K).
  destruct (iterations_fields _ _ _ _ _ K) as (js & _ & F). rewrite F. cbn [s_fields start].
  rewrite field_run_wall by assumption. now apply init_conducting.
Qed.
Print Assumptions C60_walls.

(** Such runs exist, with a beam and a moving charge. *)
Definition C60_species : list (list (macro * vec3)) := [[(Macro 3 8 (-1) 1, V3 (LIGHT_SPEED / 3) (LIGHT_SPEED / 4) 0)]].

Lemma C60_begins : begins sample_geom (start (sample_setup 3 false) (fun _ => 0) (fun _ _ _ => 0) zero_arr C60_species []).
Proof.
  unfold begins, start, all_particles. cbn [s_groups s_bunch_number s_probes map C60_species plasma flat_map g_parts app]. repeat split; auto.
  constructor; [|constructor]. unfold may_start, inside_domain, p_r, p_z, subluminal, norm2. cbn [p_phase pos vel v0 v1 v2 fst snd m_r m_z].
  rewrite sample_dr, sample_dz. cbn [r_size z_size sample_geom]. unfold LIGHT_SPEED. repeat match goal with |- _ /\ _ => split end; lra.
Qed.

Example C60_hypotheses_met : geom_ok sample_geom /\
  exists s', run (sample_setup 3 false) 3 0 (3 * sample_dt) (start (sample_setup 3 false) (fun _ => 0) (fun _ _ _ => 0) zero_arr C60_species []) = Some (Ok s').
Proof.
  split; [apply sample_geom_ok|]. assert (D : 0 < sample_dt) by (unfold sample_dt, LIGHT_SPEED; lra).
  destruct (run_safe (sample_setup 3 false) 0 (3 * sample_dt) 3 (start (sample_setup 3 false) (fun _ => 0) (fun _ _ _ => 0) zero_arr C60_species []))
    as (s' & R & _); [apply sample_sound|apply C60_begins| | |discriminate|].
  - right. cbn [beam_z_size initial_velocity bunch_length su_beam sample_setup]. unfold sample_dt, LIGHT_SPEED. lra.
  - cbn [su_dt sample_setup]. split; [cbn [INR]; lra|]. intros k Hk. apply INR_le. cbn [INR]. apply Rmult_le_reg_r with sample_dt; [exact D|]. lra.
  - exists s'. now apply R.
Qed.

(** * C61: particles are neither lost nor changed *)

(** C61. After any number of iterations the groups are those of the beginning followed by one bunch for every bunch
    number since then, in order; no group has gained or lost a particle, charges and masses are what they were, and
    particles of species are as alive as they were. *)
Theorem C61_particles_kept : forall su n t s s', iterations su n t s = Ok s' ->
  (s_bunch_number s <= s_bunch_number s')%Z /\
  Forall2 (fun x y => g_bunch y = g_bunch x /\ map nature (g_parts y) = map nature (g_parts x) /\
                      (g_bunch x = None -> map p_alive (g_parts y) = map p_alive (g_parts x)))
    (s_groups s ++ map (new_bunch su) (zrange (s_bunch_number s) (s_bunch_number s'))) (s_groups s').
Proof.
  intros su n t s s' H. destruct (iterations_groups su n t s s' H) as (L & F). split; [exact L|]. eapply Forall2_weaken; [|exact F].
  intros x y (A & B & C). split; [exact A|]. split.
  - clear - B. induction B as [|p q l l' K B IH]; [reflexivity|]. cbn [map]. now rewrite IH, K.
  - intro E. specialize (C E). clear - C. induction C as [|p q l l' (_ & K) C IH]; [reflexivity|]. cbn [map]. now rewrite IH, K.
Qed.
Print Assumptions C61_particles_kept.

(** C61 for complete runs from the program's start: the particles of every species are all there at the end. *)
Theorem C61_species_kept : forall su fuel t e m0 j0 rho0 species probes s', 
  run su fuel t e (start su m0 j0 rho0 species probes) = Some (Ok s') ->
  Forall2 (fun l y => g_bunch y = None /\ map nature (g_parts y) = map (fun x => (m_charge (fst x), m_mass (fst x))) l /\
                      Forall (fun p => p_alive p = true) (g_parts y))
    species (firstn (length species) (s_groups s')).
Proof.
  intros su fuel t e m0 j0 rho0 species probes s' H. destruct (run_iterations _ _ _ _ _ _ H) as (n & K).
  destruct (C61_particles_kept _ _ _ _ _ K) as (_ & F). cbn [s_groups start s_bunch_number] in F.
  apply Forall2_app_inv_l in F. destruct F as (l1 & l2 & F & _ & ->).
  assert (L : length l1 = length species). { clear - F. remember (map plasma species) as q eqn:Q. revert species Q. induction F; intros [|a sp] Q; try discriminate; [reflexivity|]. injection Q as _ Q. cbn. f_equal. now apply IHF. }
  rewrite <- L, firstn_app, Nat.sub_diag, firstn_O, app_nil_r, firstn_all. clear - F.
  remember (map plasma species) as q eqn:Q. revert species Q. induction F as [|x y l l' (A & B & C) F IH]; intros [|a sp] Q; try discriminate; [constructor|].
  injection Q as -> Q. constructor; [|now apply IH]. cbn [plasma g_bunch g_parts] in *. split; [exact A|]. split.
  - rewrite B, map_map. reflexivity.
  - specialize (C eq_refl). rewrite map_map in C. cbn [p_alive] in C. clear - C. revert a C.
    induction (g_parts y) as [|p ps IH]; intros [|b a] C; try discriminate; constructor; injection C as C1 C2; [exact C1|]. now apply IH with a.
Qed.
Print Assumptions C61_species_kept.

(** C61. A particle of the beam that has been absorbed is never changed again; in particular it does not come back. *)
Theorem C61_absorbed_for_good : forall su t0 e s0 a b c sa sb sc gi i pa pb, sound su -> begins (su_geom su) s0 ->
  no_removal (su_beam su) e -> t0 + INR a * su_dt su <= e ->
  iterations su a t0 s0 = Ok sa -> iterations su b (t0 + INR a * su_dt su) sa = Ok sb ->
  iterations su c (t0 + INR a * su_dt su + INR b * su_dt su) sb = Ok sc ->
  particle_at sa gi i = Some pa -> p_alive pa = true -> particle_at sb gi i = Some pb -> p_alive pb = false ->
  particle_at sc gi i = Some pb.
Proof. exact absorbed_stays. Qed.
Print Assumptions C61_absorbed_for_good.

(** A bunch of one macroparticle that is alive after the first iteration and absorbed in the second; a run with species and
    beam is in C60_hypotheses_met. *)
Example C61_hypotheses_met : sound shot /\ begins (su_geom shot) empty_sim /\ no_removal (su_beam shot) 3 /\ 0 + INR 1 * su_dt shot <= 3 /\
  exists sa sb pa pb, iterations shot 1 0 empty_sim = Ok sa /\ iterations shot 1 (0 + INR 1 * su_dt shot) sa = Ok sb /\
    particle_at sa 0 0 = Some pa /\ p_alive pa = true /\ particle_at sb 0 0 = Some pb /\ p_alive pb = false.
Proof.
  split; [apply shot_sound|]. split; [apply empty_begins|]. split; [left; cbn; lia|]. split; [|apply shot_history].
  cbn [su_dt shot INR]. unfold sample_dt, LIGHT_SPEED. lra.
Qed.

(** * C62: the density of the beam *)

(** C62. After every iteration the array c_rho_bunch holds the density of the live particles of the beam at their present
    positions, and its total is their charge. Partial: without a probe of the component rho_beam, which weights the beam
    a second time (C30_refuted). *)
Theorem C62_beam_density_partial : forall su n t s s' i k, iterations su (S n) t s = Ok s' ->
  Forall (fun x => pr_component (fst x) <> CRhoBeam) (s_probes s) -> inside (n_r (su_geom su)) (n_z (su_geom su)) i k ->
  s_rho_bunch s' i k = charge_weighting (su_geom su) zero_arr (map q_of (beam_particles s')) i k.
Proof. exact beam_density_run. Qed.
Print Assumptions C62_beam_density_partial.

Theorem C62_beam_charge_partial : forall su t0 e n s, sound su -> strict su = false -> begins (su_geom su) s ->
  no_removal (su_beam su) e -> least_steps t0 e (su_dt su) (S n) ->
  Forall (fun x => pr_component (fst x) <> CRhoBeam) (s_probes s) ->
  exists s', run su (S n) t0 e s = Some (Ok s') /\
    grid_charge (n_r (su_geom su)) (n_z (su_geom su)) (dr (su_geom su)) (dz (su_geom su)) (s_rho_bunch s') =
    rsum (map (fun p => if p_alive p then p_charge p else 0) (beam_particles s')).
Proof.
  intros su t0 e n s HS X HB HN HL HP. destruct (run_safe su t0 e (S n) s HS HB HN HL) as (s' & R & J); [congruence|].
  exists s'. specialize (R (S n) (le_n _)). split; [exact R|].
  assert (Ht : t0 < e). { destruct (Rlt_or_le t0 e) as [Y|Y]; [exact Y|]. destruct HL as (_ & L). specialize (L O ltac:(cbn; lra)). lia. }
  destruct (run_iterations_pos _ _ _ _ _ _ R Ht) as (m & K).
  apply (beam_charge_run su m t0 s s' K); auto; [apply HS|]. now apply inv_in_order in J.
Qed.
Print Assumptions C62_beam_charge_partial.

Example C62_hypotheses_met : let su := sample_setup 3 false in
  sound su /\ strict su = false /\ begins (su_geom su) C59_state /\ no_removal (su_beam su) (3 * su_dt su) /\
  least_steps 0 (3 * su_dt su) (su_dt su) 3 /\ Forall (fun x => pr_component (fst x) <> CRhoBeam) (s_probes C59_state).
Proof.
  cbv zeta. assert (H := C59_hypotheses_met). cbv zeta in H. destruct H as (_ & B & N & L & _).
  split; [apply sample_sound|]. split; [reflexivity|]. split; [exact B|]. split; [exact N|]. split; [exact L|].
  constructor; [discriminate|constructor].
Qed.

(** * C63: Gauss's law in a whole run *)

(** C63, the full statement: at every node off the walls the flux of the electric field out of the node's volume is the charge in
    it, at every time of the run. It is false (C63_refuted). What holds: without a beam, in a medium without
    conductivity, and as long as every particle moves in a way for which the deposited current balances the charge
    (C05, C06), the defect of Gauss's law at every such node stays what it was at the beginning. *)
Theorem C63_gauss_kept_partial : forall su n t s s' i k, geom_ok (su_geom su) -> 0 < su_dt su -> insulating (su_geom su) (su_medium su) ->
  free_node (su_geom su) i k -> species_only su s -> iterations su n t s = Ok s' ->
  (forall m sm, (1 <= m <= n)%nat -> iterations su m t s = Ok sm -> Forall (moved_well (su_geom su)) (all_particles sm)) ->
  gauss_defect su s' i k = gauss_defect su s i k.
Proof. exact gauss_iterations. Qed.
Print Assumptions C63_gauss_kept_partial.

(** What it was at the beginning: the program starts from zero fields whatever the charges are. Cold matter without a beam
    therefore stays where it is for ever, without a field, and the defect is the whole charge of the node. *)
Theorem C63_cold_matter : forall su n t s, sound su -> (number_bunches (su_beam su) <= 0)%Z -> begins (su_geom su) s -> at_rest s ->
  exists s', iterations su n t s = Ok s' /\ at_rest s' /\ places s' = places s /\
    forall i k, gauss_defect su s' i k = - (charge_density (su_geom su) s i k * node_volume (dr (su_geom su)) (dz (su_geom su)) i).
Proof. exact rest_defect_run. Qed.
Print Assumptions C63_cold_matter.

(** A single charge at rest: after any number of iterations Gauss's law fails at the node next to it, by its charge. *)
Theorem C63_refuted : exists su s i k, sound su /\ begins (su_geom su) s /\ free_node (su_geom su) i k /\
  forall n t, exists s', iterations su n t s = Ok s' /\ gauss_defect su s' i k <> 0.
Proof.
  exists (sample_setup 0 true), charge_at_rest, 3%Z, 8%Z. split; [apply sample_sound|]. split; [apply charge_at_rest_begins|].
  split; [unfold free_node; cbn; lia|]. intros n t.
  destruct (C63_cold_matter (sample_setup 0 true) n t charge_at_rest (sample_sound 0 true)) as (s' & E & _ & _ & G);
    [cbn; lia|apply charge_at_rest_begins|apply charge_at_rest_rests|].
  exists s'. split; [exact E|]. rewrite G. cbn [su_geom sample_setup]. rewrite charge_at_rest_density. lra.
Qed.
Print Assumptions C63_refuted.

Example C63_hypotheses_met : let su := sample_setup 0 true in
  geom_ok (su_geom su) /\ 0 < su_dt su /\ insulating (su_geom su) (su_medium su) /\ free_node (su_geom su) 3 8 /\
  species_only su glider_state /\ (exists s', iterations su 1 0 glider_state = Ok s') /\
  (forall m sm, (1 <= m <= 1)%nat -> iterations su m 0 glider_state = Ok sm -> Forall (moved_well (su_geom su)) (all_particles sm)) /\
  at_rest charge_at_rest.
Proof.
  cbv zeta. split; [apply sample_geom_ok|]. split; [cbn; unfold sample_dt, LIGHT_SPEED; lra|]. split; [intros i k _ _; cbn; lra|].
  split; [unfold free_node; cbn; lia|]. split; [unfold species_only; cbn; repeat split; auto; lia|]. split; [apply glider_runs|].
  split; [apply glider_good|apply charge_at_rest_rests].
Qed.
