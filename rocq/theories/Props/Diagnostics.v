(** Properties C41 (temperature) and C42 (density). *)
From Coq Require Import Reals ZArith Lia Lra Psatz List Bool.
From Flocq Require Import Core IEEE754.BinarySingleNaN.
From Verif.Lib Require Import RAux Grid Outcome.
From Verif.Model Require Import Constants Geometry Pusher Limits Diagnostics Binary64 Temperature64.
From Verif.Spec Require Import Cloud Thermal Sample.
From Verif.Proof Require Import GeometryP DiagnosticsP.
Import ListNotations.
Local Open Scope R_scope.

(** ** C41 *)

(** Counting algorithm. For every set of slower-than-light particles inside the domain and every
    cell with a particle: the temperature is a number, not negative, and zero if the particles of the cell
    share one velocity. Partial: exact arithmetic (see C41_rounding_refuted), cells with particles (see
    C41_empty_refuted), no particle on the axis or on the left wall. *)
Theorem C41_counting_partial : forall g mass charge ps i k, geom_ok g -> int_sized g -> 0 < mass -> charge <> 0 ->
  Forall (fun p => 0 < d_r p <= r_size g /\ 0 < d_z p <= z_size g) ps ->
  Forall (fun p => speed_of (d_vel p) < LIGHT_SPEED) ps -> (0 <= i)%Z -> (0 <= k)%Z ->
  Exists (fun p => inside_cell (dr g) (dz g) i k (d_r p) (d_z p)) ps ->
  exists t, normalize_classic mass charge (calc_t_classic g ps) i k = Ok (Num t) /\ 0 <= t /\
    (forall u, Forall (fun p => inside_cell (dr g) (dz g) i k (d_r p) (d_z p) -> d_vel p = u) ps -> t = 0).
Proof. exact temperature_classic. Qed.
Print Assumptions C41_counting_partial.

(** Weighting algorithm (compile time option): the same at every node that receives particles; the particles that count
    are those whose cloud touches the node. *)
Theorem C41_weighted_partial : forall g mass charge ps i k, geom_ok g -> int_sized g -> 0 < mass -> charge <> 0 ->
  Forall (fun p => 0 <= d_mass p /\ 0 <= d_r p <= r_size g /\ 0 < d_z p <= z_size g) ps ->
  count_sum (calc_t_weighted g mass ps) i k <> 0 ->
  exists t, normalize_weighted mass charge (calc_t_weighted g mass ps) i k = Num t /\ 0 <= t /\
    (forall u, Forall (fun p => near_node (dr g) (dz g) i k (d_r p) (d_z p) -> d_vel p = u) ps -> t = 0).
Proof. exact temperature_weighted. Qed.
Print Assumptions C41_weighted_partial.

(** A cell without particles has no temperature: the program computes 0/0. *)
Theorem C41_empty_refuted : forall g mass charge ps i k, geom_ok g -> int_sized g ->
  Forall (fun p => 0 < d_r p <= r_size g /\ 0 < d_z p <= z_size g) ps -> (0 <= i)%Z -> (0 <= k)%Z ->
  Forall (fun p => ~ inside_cell (dr g) (dz g) i k (d_r p) (d_z p)) ps ->
  normalize_classic mass charge (calc_t_classic g ps) i k = Ok NaN.
Proof. exact temperature_empty. Qed.
Print Assumptions C41_empty_refuted.

(** In double precision a single electron with velocity (1e6, 0, 10000002) m/s gives its cell a negative
    temperature. *)
Theorem C41_rounding_refuted :
  let mass := @B754_finite prec64 emax64 false 5195181601449694 (-152) eq_refl in      (* 9.1e-31 *)
  let charge := @B754_finite prec64 emax64 false 6646139978924579 (-115) eq_refl in    (* 1.6e-19 *)
  let vr := @B754_finite prec64 emax64 false 8589934592000000 (-33) eq_refl in
  let vz := @B754_finite prec64 emax64 false 5368710193741824 (-29) eq_refl in
  B2R vr = 1000000 /\ B2R vz = 10000002 /\
  Bltb (temperature64 mass charge vr b64_zero vz) b64_zero = true.
Proof.
  intros mass charge vr vz. split; [|split].
  - unfold vr, B2R, F2R. cbn. lra.
  - unfold vz, B2R, F2R. cbn. lra.
  - vm_compute. reflexivity.
Qed.
Print Assumptions C41_rounding_refuted.

(** The formula is blind to a spread of speeds along one direction: two particles of a cell with
    velocities a and b along the axis, both positive, give temperature zero. *)
Theorem C41_spread_refuted : forall g mass charge a b, geom_ok g -> int_sized g -> 0 < mass -> charge <> 0 ->
  0 < a < LIGHT_SPEED -> 0 < b < LIGHT_SPEED ->
  let ps := [DPart true 1 (dr g / 2) (dz g / 2) (V3 0 0 a); DPart true 1 (dr g / 2) (dz g / 2) (V3 0 0 b)] in
  normalize_classic mass charge (calc_t_classic g ps) 0 0 = Ok (Num 0).
Proof.
  intros g mass charge a b Hg Hi Hm Hq Ha Hb ps.
  assert (Dr := dr_pos g Hg). assert (Dz := dz_pos g Hg).
  assert (Rs := r_size_dr g Hg). assert (Zs := z_size_dz g Hg).
  assert (1 <= IZR (n_r g - 1)) by (apply IZR_le; destruct Hg; lia).
  assert (1 <= IZR (n_z g - 1)) by (apply IZR_le; destruct Hg as (_ & Q & _); lia).
  assert (C : inside_cell (dr g) (dz g) 0 0 (dr g / 2) (dz g / 2)) by (unfold inside_cell; cbn; lra).
  assert (W : forall x, classic_weight g 0 0 (DPart true 1 (dr g / 2) (dz g / 2) (V3 0 0 x)) = 1).
  { intro x. destruct (classic_weight_cell g 0 0 (DPart true 1 (dr g / 2) (dz g / 2) (V3 0 0 x)) Hg Hi) as [A _];
      cbn [d_r d_z]; try lia; try nra. now apply A. }
  assert (S : forall x, 0 < x -> speed_of (V3 0 0 x) = x).
  { intros x Hx. unfold speed_of. cbn [v0 v1 v2]. replace (0 * 0 + 0 * 0 + x * x) with (x * x) by ring. apply sqrt_square. lra. }
  destruct (classic_moments g ps 0 0) as (M1 & M2 & M3 & M4 & M5).
  unfold ps in M1, M2, M3, M4, M5. unfold classic_list, wsum in M1, M2, M3, M4, M5.
  cbn [map fst snd d_vel] in M1, M2, M3, M4, M5. rewrite !W in M1, M2, M3, M4, M5.
  cbn [rsum] in M1, M2, M3, M4, M5.
  rewrite !S in M1 by lra. cbn [v0 v1 v2] in M2, M3, M4.
  unfold normalize_classic, vec_sum_2. fold ps in M1, M2, M3, M4, M5. rewrite M1, M2, M3, M4, M5.
  destruct (Req_EM_T _ 0) as [E|_]; [lra|].
  match goal with |- context [Rlt_dec ?x REL_LIMIT_POW_2] => replace x with 0 by (field; lra) end.
  destruct (Rlt_dec 0 REL_LIMIT_POW_2) as [_|N]; [|exfalso; apply N; unfold REL_LIMIT_POW_2; lra].
  rewrite bind_ok. do 2 f_equal. unfold Rdiv. ring.
Qed.
Print Assumptions C41_spread_refuted.

(** A sample: three particles, two of them in the cell (1, 3). *)
Definition sample_particles : list dpart :=
  [DPart true 1 (3/2) (7/2) (V3 1 0 2); DPart true 2 (7/4) (13/4) (V3 0 3 0); DPart true 1 (9/2) (7/2) (V3 0 0 5)].

Example C41_hypotheses_met :
  geom_ok sample_geom /\ int_sized sample_geom /\
  Forall (fun p => 0 < d_r p <= r_size sample_geom /\ 0 < d_z p <= z_size sample_geom) sample_particles /\
  Forall (fun p => 0 <= d_mass p /\ 0 <= d_r p <= r_size sample_geom /\ 0 < d_z p <= z_size sample_geom) sample_particles /\
  Forall (fun p => speed_of (d_vel p) < LIGHT_SPEED) sample_particles /\
  Exists (fun p => inside_cell (dr sample_geom) (dz sample_geom) 1%Z 3%Z (d_r p) (d_z p)) sample_particles /\
  count_sum (calc_t_weighted sample_geom 1 sample_particles) 1%Z 3%Z <> 0.
Proof.
  assert (G := sample_geom_ok).
  assert (I : int_sized sample_geom) by (unfold int_sized; cbn; lia).
  split; [exact G|]. split; [exact I|].
  assert (D : Forall (fun p => 0 <= d_mass p /\ 0 < d_r p <= r_size sample_geom /\ 0 < d_z p <= z_size sample_geom) sample_particles).
  { repeat constructor; cbn; lra. }
  split; [eapply Forall_impl; [|exact D]; cbv beta; tauto|].
  split; [eapply Forall_impl; [|exact D]; cbv beta; intros p (A & B & C); lra|].
  split.
  { repeat constructor; cbn [d_vel]; unfold speed_of, LIGHT_SPEED; cbn [v0 v1 v2];
      (apply Rle_lt_trans with (sqrt (10 * 10)); [apply sqrt_le_1_alt; lra|rewrite sqrt_square; lra]). }
  split.
  { apply Exists_cons_hd. unfold inside_cell. rewrite sample_dr, sample_dz. cbn. lra. }
  destruct (cloud_moments sample_geom 1 sample_particles 1%Z 3%Z) as (_ & _ & _ & _ & ->).
  rewrite Rinv_1, Rmult_1_r. unfold cloud_list, wsum, sample_particles. cbn [map fst snd rsum].
  assert (W : forall p, In p sample_particles -> 0 <= cloud_weight sample_geom 1%Z 3%Z p).
  { intros p Hp. rewrite Forall_forall in D. destruct (D p Hp) as (A & B & C).
    apply cloud_weight_nonneg; auto; lra. }
  assert (W2 := W _ (or_intror (or_introl eq_refl))). assert (W3 := W _ (or_intror (or_intror (or_introl eq_refl)))).
  assert (W1 : 0 < cloud_weight sample_geom 1%Z 3%Z (DPart true 1 (3/2) (7/2) (V3 1 0 2))).
  { unfold cloud_weight. cbn [d_mass d_r d_z]. rewrite cloud_incs_charge; [|exact G|exact I|cbn; lra|cbn; lra].
    unfold ChargeDeposit.charge_weighting_single. rewrite sample_dr, sample_dz.
    assert (E1 : cell (3 / 2) 1 = 1%Z).
    { apply (cell_of_inside 1 1%Z (3/2)); [lra|lia|cbn; lra]. }
    assert (E2 : cell (7 / 2) 1 = 3%Z).
    { apply (cell_of_inside 1 3%Z (7/2)); [lra|lia|cbn; lra]. }
    rewrite E1, E2. destruct (Rlt_dec 1 (3 / 2)) as [_|N]; [|lra].
    unfold inc_at. cbn [map row col val rsum]. cbn [Z.eqb Pos.eqb andb Z.add Pos.add Pos.succ].
    unfold CYL_RNG_VOL, CELL_VOLUME. assert (P := c_PI_pos).
    match goal with |- 0 < ?x => replace x with (5 / 48 * / c_PI) by (field; lra) end.
    assert (Q := Rinv_0_lt_compat _ P). lra. }
  lra.
Qed.

(** ** C42 *)

(** The density map with the node volumes gives the sum of the masses of all macroparticles in units of
    the electron mass. So for electrons it is the number of particles. Partial: it is not the
    number of particles of another species (C42_ions_refuted), particles that are not alive are included
    (C42_dead_refuted), and the arrays are too small (below). *)
Theorem C42_count_partial : forall g ps, geom_ok g -> int_sized g ->
  Forall (fun p => 0 <= d_r p <= r_size g /\ 0 < d_z p <= z_size g) ps ->
  grid_charge (n_r g) (n_z g) (dr g) (dz g) (calc_density g ps) = rsum (map (fun p => d_mass p / EL_MASS) ps).
Proof. exact density_total. Qed.
Print Assumptions C42_count_partial.

(** For electrons: macroparticles that stand for w_1, w_2, ... electrons. *)
Theorem C42_electrons_partial : forall g ps ws, geom_ok g -> int_sized g ->
  Forall (fun p => 0 <= d_r p <= r_size g /\ 0 < d_z p <= z_size g) ps ->
  map d_mass ps = map (fun w => w * EL_MASS) ws ->
  grid_charge (n_r g) (n_z g) (dr g) (dz g) (calc_density g ps) = rsum ws.
Proof.
  intros g ps ws Hg Hi H E. rewrite density_total by assumption.
  replace (map (fun p => d_mass p / EL_MASS) ps) with (map (fun m => m / EL_MASS) (map d_mass ps)) by (rewrite map_map; reflexivity).
  rewrite E, map_map. f_equal. rewrite <- (map_id ws) at 2. apply map_ext. intro w. field.
  assert (P := EL_MASS_pos). lra.
Qed.
Print Assumptions C42_electrons_partial.

(** For any other species, of mass [mass], the result is wrong by the factor mass / EL_MASS, on every grid. *)
Theorem C42_ions_refuted : forall g mass, geom_ok g -> int_sized g -> mass <> EL_MASS ->
  exists p w, d_mass p = w * mass /\ d_alive p = true /\
    grid_charge (n_r g) (n_z g) (dr g) (dz g) (calc_density g [p]) <> w.
Proof.
  intros g mass Hg Hi Hm. exists (DPart true (1 * mass) (r_size g) (z_size g) (V3 0 0 0)), 1.
  split; [reflexivity|]. split; [reflexivity|]. destruct (Hg) as (_ & _ & Q1 & Q2).
  rewrite density_total; auto.
  - cbn. intro E. apply Hm. assert (P := EL_MASS_pos).
    assert (F : mass / EL_MASS * EL_MASS = 1 * EL_MASS) by (f_equal; lra).
    unfold Rdiv in F. rewrite Rmult_assoc, Rinv_l in F; lra.
  - repeat constructor; cbn; lra.
Qed.
Print Assumptions C42_ions_refuted.

(** A particle that is not alive is counted. *)
Theorem C42_dead_refuted : forall g, geom_ok g -> int_sized g ->
  exists p, d_alive p = false /\ grid_charge (n_r g) (n_z g) (dr g) (dz g) (calc_density g [p]) = 1.
Proof.
  intros g Hg Hi. exists (DPart false EL_MASS (r_size g) (z_size g) (V3 0 0 0)). split; [reflexivity|].
  destruct (Hg) as (_ & _ & Q1 & Q2). rewrite density_total; auto.
  - cbn. assert (P := EL_MASS_pos). field. lra.
  - repeat constructor; cbn; lra.
Qed.
Print Assumptions C42_dead_refuted.

(** The constructors write one row pointer more than they allocate, and the reset one column more, on
    every grid. *)
Theorem C42_allocation_refuted : forall g, geom_ok g ->
  density_constructor g = UB /\ density_reset g = UB /\ temperature_constructor g = UB.
Proof.
  intros g Hg. auto using density_constructor_overflow, density_reset_overflow, temperature_constructor_overflow.
Qed.
Print Assumptions C42_allocation_refuted.

(** The particles of a bunch wait at z = 0 until they are injected: a density map of the beam
    writes to the column 4294967295. *)
Theorem C42_waiting_bunch_refuted : forall g p, geom_ok g -> int_sized g -> d_z p = 0 ->
  exists c, In c (density_incs g p) /\ ~ inc_inside (n_r g) (n_z g) c.
Proof.
  intros g p Hg [_ I] Hz. destruct (density_z0_column g p Hg Hz) as (c & Hc & E). exists c. split; [exact Hc|].
  intros [_ B]. rewrite E in B. lia.
Qed.
Print Assumptions C42_waiting_bunch_refuted.

Example C42_hypotheses_met :
  geom_ok sample_geom /\ int_sized sample_geom /\
  Forall (fun p => 0 <= d_r p <= r_size sample_geom /\ 0 < d_z p <= z_size sample_geom) sample_particles /\
  rsum (map (fun p => d_mass p / EL_MASS) sample_particles) = 4 / EL_MASS /\
  map d_mass sample_particles = map (fun w => w * EL_MASS) [1 / EL_MASS; 2 / EL_MASS; 1 / EL_MASS].
Proof.
  assert (P := EL_MASS_pos).
  split; [exact sample_geom_ok|]. split; [unfold int_sized; cbn; lia|]. split; [repeat constructor; cbn; lra|].
  split; [cbn; field; lra|]. cbn [map sample_particles d_mass]. apply f_equal2; [field; lra|]. apply f_equal2; [field; lra|]. apply f_equal2; [field; lra|reflexivity].
Qed.
