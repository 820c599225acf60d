(** Properties C35 and C54: the start-up checks. *)
From Coq Require Import Reals ZArith Lra Lia Psatz String List.
From Verif.Lib Require Import RAux Outcome Grid.
From Verif.Model Require Import Constants Geometry Fields Limits.
From Verif.Spec Require Import Maxwell Plasma.
From Verif.Proof Require Import FieldsP MaxwellP LimitsP.
Import ListNotations.
Local Open Scope R_scope.

(** C35 asks for: time step below the light transit times of both steps and below the plasma
    period limit, both grid steps below the Debye length. What the checks decide, exactly, for a
    configuration whose electrons have positive density and temperature: nothing about dz. *)
Theorem C35_exactly_partial : forall nm0 c p, last_electron (cf_species c) p ->
  0 < mean_density p -> 0 < sp_temperature p ->
  let g := cf_geom c in
  let l := debye (mean_density p) (sp_temperature p) in
  let nm := nm0 + rsum (map sp_macro (cf_species c)) in
  (exists b, init_checks nm0 c = Ok b) <->
  (cf_dt c <= dr g / LIGHT_SPEED /\ cf_dt c <= dz g / LIGHT_SPEED /\
   cf_dt c <= 2 / plasma_frequency (mean_density p) / 100 /\
   dr g <= l * 50 /\ l * 100 <= r_size g <= l * nm * 100 /\ l * 100 <= z_size g <= l * nm * 100).
Proof. exact init_checks_iff. Qed.
Print Assumptions C35_exactly_partial.

(** The time step part of the claim. *)
Theorem C35_time_step : forall nm0 c p b, last_electron (cf_species c) p ->
  0 < mean_density p -> 0 < sp_temperature p -> init_checks nm0 c = Ok b ->
  LIGHT_SPEED * cf_dt c <= dr (cf_geom c) /\ LIGHT_SPEED * cf_dt c <= dz (cf_geom c) /\
  plasma_frequency (mean_density p) * cf_dt c <= 2 / 100.
Proof.
  intros nm0 c p b H Hn Ht E.
  assert (A := proj1 (init_checks_iff nm0 c p H Hn Ht) (ex_intro _ b E)). cbv zeta in A.
  destruct A as (A1 & A2 & A3 & _). assert (L := LIGHT_SPEED_pos).
  assert (W := plasma_frequency_pos _ Hn). set (w := plasma_frequency (mean_density p)) in *.
  repeat match goal with |- _ /\ _ => split end.
  - apply (Rmult_le_compat_l LIGHT_SPEED) in A1; [|lra].
    replace (LIGHT_SPEED * (dr (cf_geom c) / LIGHT_SPEED)) with (dr (cf_geom c)) in A1 by (field; lra). exact A1.
  - apply (Rmult_le_compat_l LIGHT_SPEED) in A2; [|lra].
    replace (LIGHT_SPEED * (dz (cf_geom c) / LIGHT_SPEED)) with (dz (cf_geom c)) in A2 by (field; lra). exact A2.
  - apply (Rmult_le_compat_l w) in A3; [|lra].
    replace (w * (2 / w / 100)) with (2 / 100) in A3 by (field; lra). exact A3.
Qed.
Print Assumptions C35_time_step.

(** A configuration without electrons is refused. *)
Theorem C35_no_electrons : forall nm0 c,
  Forall (fun q => ~ is_electron q) (cf_species c) -> init_checks nm0 c = Exit 1.
Proof. exact no_electrons. Qed.
Print Assumptions C35_no_electrons.

(** Electrons of 10^16 per cubic metre and a hundredth of an electronvolt: Debye length 7.4
    micrometres. *)
Definition cold : specie := Specie "electrons" (10 ^ 6) (10 ^ 16) (10 ^ 16) (1 / 100).

Lemma cold_density : mean_density cold = 10 ^ 16.
Proof. unfold mean_density. cbn. lra. Qed.

Lemma cold_last : last_electron [cold] cold.
Proof. exists [], []. split; [reflexivity|]. split; [right; now left|constructor]. Qed.

Lemma cold_debye : debye (mean_density cold) (sp_temperature cold) = 74 / 10000000.
Proof.
  rewrite cold_density. unfold debye. cbn [sp_temperature cold].
  replace (1 / 100 / 10 ^ 16) with ((1 / 1000000000) * (1 / 1000000000)) by lra.
  rewrite sqrt_square by lra. lra.
Qed.

Lemma cold_frequency : plasma_frequency (mean_density cold) <= 6000000000.
Proof.
  rewrite cold_density. unfold plasma_frequency.
  replace 6000000000 with (sqrt (6000000000 * 6000000000)) by (rewrite sqrt_square; lra).
  apply sqrt_le_1_alt. unfold EL_CHARGE, EL_MASS, EPSILON0.
  apply (Rmult_le_reg_r (91 / 10 ^ 32 * (885 / 100000000000000))); [lra|].
  unfold Rdiv at 1. rewrite Rmult_assoc, Rinv_l by lra. lra.
Qed.

Lemma cold_time_limit : 37 / 100000 / LIGHT_SPEED <= 2 / plasma_frequency (mean_density cold) / 100.
Proof.
  assert (P : 0 < plasma_frequency (mean_density cold)).
  { apply plasma_frequency_pos. rewrite cold_density. lra. }
  assert (B := cold_frequency). set (w := plasma_frequency (mean_density cold)) in *.
  apply (Rmult_le_reg_r w); [exact P|]. replace (2 / w / 100 * w) with (2 / 100) by (field; lra).
  unfold LIGHT_SPEED. nra.
Qed.

(** [n_z] axial intervals of length [h] times 37/100000 m. *)
Definition cold_config (steps_z : Z) (h : R) : config :=
  Config (Geom 3 (steps_z + 1) (74 / 100000) (IZR steps_z * (h * (37 / 100000)))) (37 / 100000 / LIGHT_SPEED) [cold].

Lemma cold_dr : forall s h, dr (cf_geom (cold_config s h)) = 37 / 100000.
Proof. intros. unfold dr. cbn. lra. Qed.

Lemma cold_dz : forall s h, (1 <= s)%Z -> dz (cf_geom (cold_config s h)) = h * (37 / 100000).
Proof.
  intros s h Hs. unfold dz. cbn [cf_geom cold_config n_z z_size]. replace (s + 1 - 1)%Z with s by lia.
  field. apply not_0_IZR. lia.
Qed.

Lemma cold_accepted : forall s h, (2 <= s)%Z -> 1 <= h -> IZR s * h <= 1000000 ->
  exists b, init_checks 0 (cold_config s h) = Ok b.
Proof.
  intros s h Hs Hh H1. apply (init_checks_iff 0 (cold_config s h) cold cold_last).
  - rewrite cold_density. lra.
  - cbn. lra.
  - rewrite cold_debye, cold_dr, cold_dz by lia. cbn [cf_dt cold_config cf_species map rsum sp_macro cold cf_geom r_size z_size].
    assert (L := LIGHT_SPEED_pos). assert (2 <= IZR s) by (apply IZR_le; exact Hs).
    assert (2 <= IZR s * h) by nra.
    repeat match goal with |- _ /\ _ => split end; try lra.
    + apply (Rmult_le_reg_r LIGHT_SPEED); [lra|].
      replace (h * (37 / 100000) / LIGHT_SPEED * LIGHT_SPEED) with (h * (37 / 100000)) by (field; lra).
      replace (37 / 100000 / LIGHT_SPEED * LIGHT_SPEED) with (37 / 100000) by (field; lra). lra.
    + exact cold_time_limit.
Qed.

(** C35 is false: an accepted configuration can have a radial step of 50 Debye lengths and an axial
    step as many times the Debye length as one likes (here up to ten million). *)
Theorem C35_grid_refuted : forall k, 50 <= k <= 10000000 ->
  exists c b p, init_checks 0 c = Ok b /\ last_electron (cf_species c) p /\
    dr (cf_geom c) = 50 * debye (mean_density p) (sp_temperature p) /\
    dz (cf_geom c) = k * debye (mean_density p) (sp_temperature p).
Proof.
  intros k Hk. destruct (cold_accepted 2 (k / 50)) as (b & E); [lia|lra|lra|].
  exists (cold_config 2 (k / 50)), b, cold. split; [exact E|]. split; [exact cold_last|].
  rewrite cold_debye, cold_dr, cold_dz by lia. split; lra.
Qed.
Print Assumptions C35_grid_refuted.

(** The decision depends on a member that is never initialised: the same configuration is accepted
    or refused. *)
Theorem C35_uninitialised_refuted :
  exists c b, init_checks 0 c = Ok b /\ init_checks (- 10 ^ 6) c = Exit 1.
Proof.
  destruct (cold_accepted 2 1) as (b & E); [lia|lra|lra|]. exists (cold_config 2 1), b. split; [exact E|].
  unfold init_checks in *. cbn [cf_species cold_config] in *.
  rewrite (new_checker_ok 0 _ cold cold_last) in E by (rewrite ?cold_density; cbn; lra).
  rewrite (new_checker_ok (- 10 ^ 6) _ cold cold_last) by (rewrite ?cold_density; cbn; lra).
  rewrite bind_ok in *.
  change (check_velocity_time_step (cold_config 2 1)
    {| plasma_freq := Num (plasma_frequency (mean_density cold));
       debye_length := Num (debye (mean_density cold) (sp_temperature cold));
       number_macro := - 10 ^ 6 + rsum (map sp_macro [cold]) |}) with
    (check_velocity_time_step (cold_config 2 1)
    {| plasma_freq := Num (plasma_frequency (mean_density cold));
       debye_length := Num (debye (mean_density cold) (sp_temperature cold));
       number_macro := 0 + rsum (map sp_macro [cold]) |}).
  revert E. destruct (check_velocity_time_step _ _) as [b1| |]; intro E; [|discriminate E|discriminate E]. rewrite bind_ok in *.
  change (check_grid_size (cold_config 2 1)
    {| plasma_freq := Num (plasma_frequency (mean_density cold));
       debye_length := Num (debye (mean_density cold) (sp_temperature cold));
       number_macro := - 10 ^ 6 + rsum (map sp_macro [cold]) |}) with
    (check_grid_size (cold_config 2 1)
    {| plasma_freq := Num (plasma_frequency (mean_density cold));
       debye_length := Num (debye (mean_density cold) (sp_temperature cold));
       number_macro := 0 + rsum (map sp_macro [cold]) |}).
  revert E. destruct (check_grid_size _ _) as [b2| |]; intro E; [|discriminate E|discriminate E]. rewrite bind_ok in *.
  unfold check_system_size. rewrite cold_debye. unfold lt. cbn [debye_length number_macro lift1 cf_geom cold_config r_size z_size].
  rewrite (proj2 (gt_num_false (74 / 10000000 * 100) (74 / 100000))) by lra.
  rewrite (proj2 (gt_num_false (74 / 10000000 * 100) (2 * (1 * (37 / 100000))))) by lra. cbn [orb].
  rewrite (proj2 (gt_num (74 / 100000) (74 / 10000000 * (- 10 ^ 6 + rsum (map sp_macro [cold])) * 100)))
    by (cbn [map rsum sp_macro cold]; lra).
  reflexivity.
Qed.
Print Assumptions C35_uninitialised_refuted.

(** A negative electron density passes every comparison with its not-a-number limits. *)
Theorem C35_negative_density_refuted :
  exists c b, init_checks 0 c = Ok b /\ (exists p, last_electron (cf_species c) p /\ mean_density p < 0) /\
    dr (cf_geom c) = 1000.
Proof.
  set (neg := Specie "electrons" 1 (-1) (-1) 1).
  exists (Config (Geom 3 3 2000 2000) (1 / 1000000) [neg]), false.
  split; [|split].
  - unfold init_checks, new_checker. cbn [cf_species fold_left]. unfold scan.
    change (electron_name (sp_name neg)) with true. cbv iota. cbn [sp_left sp_right sp_temperature neg].
    destruct (Req_EM_T ((-1 + -1) / 2) 0); [lra|]. destruct (Req_EM_T 1 0); [lra|]. rewrite bind_ok.
    assert (N1 : num_sqrt ((-1 + -1) / 2 * EL_CHARGE * EL_CHARGE / (EL_MASS * EPSILON0)) = NaN).
    { unfold num_sqrt. destruct (Rlt_dec _ 0) as [|N]; [reflexivity|]. exfalso. apply N.
      unfold EL_CHARGE, EL_MASS, EPSILON0. lra. }
    assert (N2 : num_sqrt (1 / ((-1 + -1) / 2)) = NaN).
    { unfold num_sqrt. destruct (Rlt_dec _ 0) as [|N]; [reflexivity|]. exfalso. apply N. lra. }
    rewrite N1, N2. unfold check_velocity_time_step, check_grid_size, check_system_size, check_macro_number.
    cbn [plasma_freq debye_length number_macro lift1 cf_geom cf_dt].
    rewrite num_min_num. unfold num_min at 1. unfold lt.
    change (gt ?x NaN) with false. cbv iota.
    rewrite (proj2 (gt_num_false _ _)).
    + cbn [bind orb gt]. cbn [r_size]. destruct (Rlt_dec _ _) as [|N]; [reflexivity|]. exfalso. apply N. cbn. lra.
    + unfold dr, dz, LIGHT_SPEED. cbn [n_r n_z r_size z_size]. apply Rmin_glb; cbn; lra.
  - exists neg. split; [|unfold mean_density; cbn; lra].
    exists [], []. split; [reflexivity|]. split; [right; now left|constructor].
  - unfold dr. cbn. lra.
Qed.
Print Assumptions C35_negative_density_refuted.

Example C35_hypotheses_met : exists c p b, last_electron (cf_species c) p /\ 0 < mean_density p /\
  0 < sp_temperature p /\ geom_ok (cf_geom c) /\ init_checks 0 c = Ok b.
Proof.
  destruct (cold_accepted 200 1) as (b & E); [lia|lra|lra|]. exists (cold_config 200 1), cold, b.
  split; [exact cold_last|]. split; [rewrite cold_density; lra|]. split; [cbn; lra|]. split; [|exact E].
  unfold geom_ok. cbn. repeat split; try lia; lra.
Qed.

(** C54: a time step accepted by the start-up checks is stable. False: on the accepted
    configuration with three nodes in each direction and the time step at its limit, an
    azimuthal electric field of one unit at the inner node at least doubles in every step, in empty
    space and without particles, while all walls are conducting. *)
Definition one_ephi : fmem := fun x => match x with (EPHI, 1%Z, 1%Z) => 1 | _ => 0 end.

Lemma one_ephi_conducting : conducting (cf_geom (cold_config 2 1)) one_ephi.
Proof.
  intros [[a i] k] H. destruct a; cbn in H; try contradiction; try reflexivity.
  unfold one_ephi. destruct i as [|[p|p|]|p]; try reflexivity. destruct k as [|[q|q|]|q]; try reflexivity. lia.
Qed.

Theorem C54_refuted :
  exists c b m, init_checks 0 c = Ok b /\ geom_ok (cf_geom c) /\ conducting (cf_geom c) m /\
    (forall x, Rabs (m x) <= 1) /\
    forall n, 2 ^ n <= Rabs (field_run (cf_geom c) empty_space (cf_dt c) (repeat no_current n) m (EPHI, 1%Z, 1%Z)).
Proof.
  destruct (cold_accepted 2 1) as (b & E); [lia|lra|lra|]. exists (cold_config 2 1), b, one_ephi.
  split; [exact E|]. split; [unfold geom_ok; cbn; repeat split; try lia; lra|].
  split; [exact one_ephi_conducting|]. split.
  - intro x. unfold one_ephi. destruct x as [[a i] k].
    assert (A : Rabs 0 <= 1) by (rewrite Rabs_R0; lra). assert (B : Rabs 1 <= 1) by (rewrite Rabs_R1; lra).
    destruct a; try exact A. destruct i as [|[p|p|]|p]; try exact A. destruct k as [|[q|q|]|q]; try exact A. exact B.
  - intro n.
    assert (D : 0 < cf_dt (cold_config 2 1)) by (cbn [cf_dt cold_config]; unfold LIGHT_SPEED; lra).
    assert (L : 46 / 10 <= gr_lam (37 / 100000) (cf_dt (cold_config 2 1))).
    { cbn [cf_dt cold_config]. unfold gr_lam, LIGHT_SPEED, EPSILON0, MAGN_CONST.
      match goal with |- _ <= ?n / ?k => apply (Rmult_le_reg_r k); [lra|]; replace (n / k * k) with n by (field; lra) end.
      lra. }
    assert (Ok : geom_ok (cf_geom (cold_config 2 1))) by (unfold geom_ok; cbn; repeat split; try lia; lra).
    assert (Z2 : dz (cf_geom (cold_config 2 1)) = 37 / 100000) by (rewrite cold_dz by lia; lra).
    assert (C := one_ephi_conducting). assert (R2 := cold_dr 2 1).
    assert (Nr : n_r (cf_geom (cold_config 2 1)) = 3%Z) by reflexivity.
    assert (Nz : n_z (cf_geom (cold_config 2 1)) = 3%Z) by reflexivity.
    set (g := cf_geom (cold_config 2 1)) in *. clearbody g.
    destruct (gr_run g (37 / 100000) (cf_dt (cold_config 2 1)) Ok Nr Nz R2 Z2 ltac:(lra) L n one_ephi C)
      as (s & Hs & A & _).
    + reflexivity.
    + unfold gr_x, one_ephi. lra.
    + unfold gr_e in A. eapply Rle_trans; [exact A|].
      set (x := field_run _ _ _ _ _ _). destruct Hs as [-> | ->]; [rewrite Rmult_1_l; apply Rle_abs|].
      rewrite <- Rabs_Ropp. replace (-1 * x) with (- x) by ring. apply Rle_abs.
Qed.
Print Assumptions C54_refuted.
