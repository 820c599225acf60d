(** Properties C65, C66, C67: the conversions and estimates of the analysis tools. *)
From Coq Require Import Reals ZArith Lra Lia List Psatz.
From Flocq Require Import Core.
From Verif.Lib Require Import RAux Outcome Grid.
From Verif.Model Require Import Constants Geometry Bunch Dump Tools.
From Verif.Spec Require Import Sample Steps Plasma.
From Verif.Proof Require Import GeometryP MainLoopP DumpP ToolsP.
Import ListNotations.
Local Open Scope R_scope.

(** C65. Frame number to time stamp and back is the identity, exactly and in double precision. *)
Theorem C65_round_trip : forall dt n s, 0 < dt -> (0 < s)%Z ->
  get_frame_number_by_timestamp dt (get_timestamp_by_frame_number dt (IZR n) (IZR s)) (IZR s) = n.
Proof. intros dt n s Hd Hs. apply frame_of_time_exact; [exact Hd|]. apply IZR_lt. exact Hs. Qed.
Print Assumptions C65_round_trip.

Theorem C65_round_trip_binary64 : forall dt n s, bpow radix2 (-1000) <= dt -> (0 <= n <= 2 ^ 49)%Z -> (1 <= s <= 2 ^ 53)%Z ->
  get_frame_number64 dt (get_timestamp64 dt (IZR n) (IZR s)) (IZR s) = n.
Proof. exact frame_of_time64. Qed.
Print Assumptions C65_round_trip_binary64.

(** The dumps of a probe of schedule s in a run from time zero, in exact arithmetic: the n-th one is made at the time
    that the tools give for frame n, and that time has frame number n. *)
Lemma nth_dump_step : forall s N n k, (0 < s)%nat -> nth_error (dump_steps s N) n = Some k -> k = (n * s)%nat.
Proof.
  intros s N n k Hs. unfold dump_steps.
  assert (G : forall m a, (exists b, (b * s = a)%nat /\ forall j x, nth_error (filter (fun k => Nat.eqb (Nat.modulo k s) 0) (seq a m)) j = Some x -> x = ((b + j) * s)%nat)
     \/ (exists b, (b * s < a)%nat /\ (a < (b + 1) * s)%nat /\ forall j x, nth_error (filter (fun k => Nat.eqb (Nat.modulo k s) 0) (seq a m)) j = Some x -> x = ((b + 1 + j) * s)%nat)).
  { induction m as [|m IH]; intro a.
    - destruct (Nat.eq_dec (a mod s) 0) as [E|E].
      + left. exists (a / s)%nat. split; [|intros j x H; destruct j; discriminate].
        pose proof (Nat.div_mod a s ltac:(lia)). lia.
      + right. exists (a / s)%nat. pose proof (Nat.div_mod a s ltac:(lia)). pose proof (Nat.mod_upper_bound a s ltac:(lia)).
        split; [lia|]. split; [lia|]. intros j x H1; destruct j; discriminate.
    - cbn [seq filter]. destruct (Nat.eqb_spec (a mod s) 0) as [E|E].
      + left. exists (a / s)%nat. pose proof (Nat.div_mod a s ltac:(lia)) as DM. split; [lia|].
        intros j x H. destruct j as [|j].
        * injection H as <-. lia.
        * cbn [nth_error] in H. destruct (IH (S a)) as [(b & Hb & F)|(b & Hb1 & Hb2 & F)].
          -- apply F in H. assert (b = a / s + 1)%nat by nia. subst b. lia.
          -- apply F in H. assert (b = a / s)%nat by nia. subst b. lia.
      + right. exists (a / s)%nat. pose proof (Nat.div_mod a s ltac:(lia)) as DM. pose proof (Nat.mod_upper_bound a s ltac:(lia)).
        split; [lia|]. split; [lia|]. intros j x H1. destruct (IH (S a)) as [(b & Hb & F)|(b & Hb1 & Hb2 & F)].
        * apply F in H1. assert (b = a / s + 1)%nat by nia. subst b. lia.
        * apply F in H1. assert (b = a / s)%nat by nia. subst b. lia. }
  destruct (G N 0%nat) as [(b & Hb & F)|(b & Hb & _)]; [|lia].
  intro H. apply F in H. assert (b = 0)%nat by nia. subst b. exact H.
Qed.

Theorem C65_time_of_frame : forall dt (snap : nat -> snapshot) N p n s, 0 < dt -> (0 < schedule p)%Z ->
  (forall k, sn_time (snap k) = INR k * dt) ->
  nth_error (filter (fun x => match dump_now (sn_time x) dt (schedule p) with Ok b => b | _ => false end) (map snap (seq 0 N))) n = Some s ->
  sn_time s = get_timestamp_by_frame_number dt (INR n) (IZR (schedule p)) /\
  get_frame_number_by_timestamp dt (sn_time s) (IZR (schedule p)) = Z.of_nat n.
Proof.
  intros dt snap N p n s Hdt Hs Ht H.
  assert (E : filter (fun x => match dump_now (sn_time x) dt (schedule p) with Ok b => b | _ => false end) (map snap (seq 0 N)) =
              map snap (dump_steps (Z.to_nat (schedule p)) N)).
  { unfold dump_steps. generalize (seq 0 N). intro l. induction l as [|k l IH]; [reflexivity|].
    cbn [map filter]. rewrite Ht. change (match dump_now (INR k * dt) dt (schedule p) with Ok b => b | _ => false end) with (due (INR k * dt) dt p).
    rewrite due_exact by assumption. destruct (Nat.eqb (Nat.modulo k (Z.to_nat (schedule p))) 0); cbn [map]; now rewrite IH. }
  rewrite E, nth_error_map in H. destruct (nth_error (dump_steps (Z.to_nat (schedule p)) N) n) as [k|] eqn:K; [|discriminate].
  injection H as <-. apply nth_dump_step in K; [|lia]. subst k. rewrite Ht, mult_INR.
  replace (INR (Z.to_nat (schedule p))) with (IZR (schedule p)) by (rewrite INR_IZR_INZ, Z2Nat.id by lia; reflexivity).
  assert (T : INR n * IZR (schedule p) * dt = get_timestamp_by_frame_number dt (INR n) (IZR (schedule p))).
  { unfold get_timestamp_by_frame_number. ring. }
  split; [exact T|]. rewrite T, INR_IZR_INZ. apply C65_round_trip; [exact Hdt|exact Hs].
Qed.
Print Assumptions C65_time_of_frame.

(** The frames below the frame number of the end time all exist, and at most one more does. *)
Theorem C65_end_frame : forall dt end_time N s, 0 < dt -> (0 < s)%nat -> least_steps 0 end_time dt N -> (0 < N)%nat ->
  let e := get_frame_number_by_timestamp dt end_time (INR s) in
  (e <= Z.of_nat (length (dump_steps s N)) <= e + 1)%Z.
Proof.
  intros dt en N s Hdt Hs [L1 L2] HN e.
  assert (C : forall m, length (dump_steps s m) = ((m + s - 1) / s)%nat).
  { induction m as [|m IH].
    - cbn [dump_steps seq filter length]. unfold dump_steps. cbn [seq filter length]. symmetry. apply Nat.div_small. lia.
    - unfold dump_steps in *. rewrite seq_S, filter_app, app_length, IH. change (0 + m)%nat with m. cbn [filter].
      pose proof (Nat.div_mod m s ltac:(lia)) as DM. pose proof (Nat.mod_upper_bound m s ltac:(lia)) as MB.
      destruct (Nat.eqb_spec (m mod s) 0) as [E|E]; cbn [length].
      + replace (m + s - 1)%nat with (m / s * s + (s - 1))%nat by lia. replace (S m + s - 1)%nat with ((m / s + 1) * s)%nat by lia.
        rewrite Nat.div_add_l, Nat.div_mul by lia. rewrite (Nat.div_small (s - 1)) by lia. lia.
      + replace (m + s - 1)%nat with ((m / s + 1) * s + (m mod s - 1))%nat by lia.
        replace (S m + s - 1)%nat with ((m / s + 1) * s + (m mod s))%nat by lia.
        rewrite !Nat.div_add_l by lia. rewrite (Nat.div_small (m mod s - 1) s), (Nat.div_small (m mod s) s) by lia. lia. }
  assert (S1 : 1 <= INR s) by (replace 1 with (INR 1) by reflexivity; apply le_INR; lia).
  assert (B : ((N + s - 1) / s * s <= N + s - 1 /\ N <= (N + s - 1) / s * s)%nat).
  { pose proof (Nat.div_mod (N + s - 1) s ltac:(lia)). pose proof (Nat.mod_upper_bound (N + s - 1) s ltac:(lia)). nia. }
  rewrite C. set (q := ((N + s - 1) / s)%nat) in *. destruct B as [B1 B2].
  apply le_INR in B2. rewrite mult_INR in B2.
  assert (B3 : INR q * INR s <= INR N - 1 + INR s).
  { rewrite <- mult_INR. replace (INR N - 1 + INR s) with (INR (N + s - 1)); [apply le_INR; exact B1|].
    rewrite minus_INR by lia. rewrite plus_INR. cbn. lra. }
  assert (LO : INR (N - 1) * dt < en).
  { destruct (Rlt_dec (INR (N - 1) * dt) en) as [G|G]; [exact G|]. exfalso.
    assert (N <= N - 1)%nat by (apply L2; lra). lia. }
  rewrite minus_INR in LO by lia. cbn [INR] in LO.
  unfold e, get_frame_number_by_timestamp. split.
  - apply py_round_le. rewrite <- INR_IZR_INZ.
    apply Rmult_le_reg_r with (dt * INR s); [nra|].
    replace (en / dt / INR s * (dt * INR s)) with en by (field; lra).
    apply Rle_trans with (INR N * dt); [lra|]. nra.
  - assert ((Z.of_nat q - 1 <= py_round (en / dt / INR s))%Z); [|lia].
    apply py_round_ge. rewrite minus_IZR, <- INR_IZR_INZ.
    apply Rmult_le_reg_r with (dt * INR s); [nra|].
    replace (en / dt / INR s * (dt * INR s)) with en by (field; lra).
    apply Rle_trans with ((INR N - 1) * dt); [|lra]. nra.
Qed.
Print Assumptions C65_end_frame.

Example C65_hypotheses_met : least_steps 0 (11/5) (1/2) 5 /\ dump_steps 2 5 = [0; 2; 4]%nat /\
  get_frame_number_by_timestamp (1/2) (11/5) (INR 2) = 2%Z /\ bpow radix2 (-1000) <= 1.
Proof.
  split; [|split; [reflexivity|split]].
  - split; [cbn; lra|]. intros k Hk. destruct (le_lt_dec 5 k) as [G|G]; [exact G|]. exfalso.
    assert (INR k <= 4). { replace 4 with (INR 4) by (cbn; lra). apply le_INR. lia. } lra.
  - unfold get_frame_number_by_timestamp. apply py_round_near. cbn [INR].
    replace (11 / 5 / (1 / 2) / (1 + 1) - 2) with (/ 5) by field. rewrite Rabs_pos_eq; lra.
  - change 1 with (bpow radix2 0). apply bpow_le. lia.
Qed.

(** The tools leave out the start of the clock (the parameter current_time): in a run whose clock starts at t0 > 0 the
    first frame is shown as if it had been made at time zero. *)
Theorem C65_late_start_refuted : forall dt t0 s, 0 < dt -> 0 < t0 -> (0 < s)%Z ->
  dump_now t0 dt s = Ok true ->
  get_timestamp_by_frame_number dt 0 (IZR s) <> t0.
Proof. intros dt t0 s Hd Ht Hs _. unfold get_timestamp_by_frame_number. lra. Qed.
Print Assumptions C65_late_start_refuted.

Example C65_late_start_met : dump_now 6 2 3 = Ok true.
Proof. unfold dump_now. replace (6 / 2) with (INR 3) by (cbn; field). rewrite truncZ_INR. reflexivity. Qed.

(** C66. Which row the tools take for the radius of grid node i (i * dr, the radius at which row i of every dumped array
    lives): i in the inner half of the tube, i + 1 in the outer half. *)
Theorem C66_row_of_node_partial : forall g i, geom_ok g -> (0 <= i <= n_r g - 1)%Z ->
  get_row_by_radius (IZR (n_r g)) (r_size g) (IZR i * dr g) =
    (if 2 * i <? n_r g - 1 then i else if n_r g - 1 <? 2 * i then i + 1 else if Z.even i then i else i + 1)%Z.
Proof. intros g i (Hr & _ & Hs & _) Hi. unfold dr. now apply row_of_node. Qed.
Print Assumptions C66_row_of_node_partial.

Theorem C66_column_of_node_partial : forall g k, geom_ok g -> (0 <= k <= n_z g - 1)%Z ->
  get_row_by_radius (IZR (n_z g)) (z_size g) (IZR k * dz g) =
    (if 2 * k <? n_z g - 1 then k else if n_z g - 1 <? 2 * k then k + 1 else if Z.even k then k else k + 1)%Z.
Proof. intros g k (_ & Hr & _ & Hs) Hk. unfold dz. now apply row_of_node. Qed.
Print Assumptions C66_column_of_node_partial.

(** On every grid the wall is given a row that no array has. *)
Theorem C66_wall_refuted : forall g, geom_ok g ->
  get_row_by_radius (IZR (n_r g)) (r_size g) (r_size g) = n_r g /\
  get_row_by_radius (IZR (n_z g)) (z_size g) (z_size g) = n_z g.
Proof.
  intros g (Hr & Hz & Sr & Sz). unfold get_row_by_radius. split.
  - replace (r_size g * IZR (n_r g) / r_size g) with (IZR (n_r g)) by (field; lra). apply py_round_IZR.
  - replace (z_size g * IZR (n_z g) / z_size g) with (IZR (n_z g)) by (field; lra). apply py_round_IZR.
Qed.
Print Assumptions C66_wall_refuted.

(** Row to radius and back is the identity, exactly and in double precision; the radius is too small by a factor
    (n - 1) / n, which is less than one cell. *)
Theorem C66_round_trip : forall g row, geom_ok g ->
  get_row_by_radius (IZR (n_r g)) (r_size g) (get_radius_by_row (IZR (n_r g)) (r_size g) (IZR row)) = row /\
  get_row_by_radius (IZR (n_z g)) (z_size g) (get_radius_by_row (IZR (n_z g)) (z_size g) (IZR row)) = row.
Proof.
  intros g row (Hr & Hz & Sr & Sz). split; apply row_round_trip; try assumption; apply IZR_lt; lia.
Qed.
Print Assumptions C66_round_trip.

Theorem C66_round_trip_binary64 : forall n size row, bpow radix2 (-900) <= size -> (1 <= n <= 2 ^ 53)%Z -> (0 <= row <= 2 ^ 49)%Z ->
  get_row64 (IZR n) size (get_radius64 (IZR n) size (IZR row)) = row.
Proof. exact row_round_trip64. Qed.
Print Assumptions C66_round_trip_binary64.

Theorem C66_radius_error : forall g i, geom_ok g -> (0 < i <= n_r g - 1)%Z ->
  let true_radius := IZR i * dr g in
  let shown := get_radius_by_row (IZR (n_r g)) (r_size g) (IZR i) in
  true_radius - dr g < shown < true_radius.
Proof.
  intros g i Hg Hi t s. pose proof (dr_pos g Hg) as Dp. destruct Hg as (Hr & _ & Sr & _).
  unfold s, get_radius_by_row, t.
  assert (R : r_size g = dr g * (IZR (n_r g) - 1)).
  { unfold dr. rewrite minus_IZR. field. assert (2 <= IZR (n_r g)) by (apply IZR_le; lia). lra. }
  rewrite R. assert (N2 : 2 <= IZR (n_r g)) by (apply IZR_le; lia).
  assert (I1 : 1 <= IZR i) by (apply IZR_le; lia).
  assert (I2 : IZR i <= IZR (n_r g) - 1) by (rewrite <- minus_IZR; apply IZR_le; lia).
  replace (IZR i * (dr g * (IZR (n_r g) - 1)) / IZR (n_r g)) with (IZR i * dr g - dr g * (IZR i / IZR (n_r g))) by (field; lra).
  assert (Q : 0 < IZR i / IZR (n_r g) < 1).
  { split.
    - apply Rmult_lt_0_compat; [lra|]. apply Rinv_0_lt_compat. lra.
    - apply Rmult_lt_reg_r with (IZR (n_r g)); [lra|]. unfold Rdiv. rewrite Rmult_assoc, Rinv_l by lra. lra. }
  nra.
Qed.
Print Assumptions C66_radius_error.

(** On the sample grid (9 nodes, size 8, dr = 1): radius 3 is row 3, radius 6 is row 7. *)
Example C66_hypotheses_met : geom_ok sample_geom /\
  get_row_by_radius 9 8 3 = 3%Z /\ get_row_by_radius 9 8 6 = 7%Z.
Proof.
  split; [exact sample_geom_ok|]. split.
  - unfold get_row_by_radius. apply py_round_near. replace (3 * 9 / 8 - 3) with (3 / 8) by field. rewrite Rabs_pos_eq; lra.
  - unfold get_row_by_radius. apply py_round_near. replace (6 * 9 / 8 - 7) with (- (1 / 4)) by field. rewrite Rabs_left; lra.
Qed.

(** C67. The calculator and the simulation: the plasma frequency that the calculator shows is that of the start-up check
    to 0.3 percent. *)
Theorem C67_plasma_frequency : forall n, 0 < n ->
  plasma_frequency n <= langmur_freq n <= (1 + 3 / 1000) * plasma_frequency n.
Proof.
  intros n Hn. unfold plasma_frequency, langmur_freq, calc_charge_el, calc_mass_el, calc_epsilon_0, EL_CHARGE, EL_MASS, EPSILON0.
  rewrite <- (sqrt_Rsqr (1 + 3 / 1000)) by lra. rewrite <- sqrt_mult.
  - split; apply sqrt_le_1_alt; unfold Rsqr.
    + replace (n * (16 / 10 ^ 20) * (16 / 10 ^ 20) / (91 / 10 ^ 32 * (885 / 100000000000000))) with (n * (256000000 / 80535)) by (field; lra).
      replace (n * (- (16 / 10 ^ 20)) ^ 2 / (91 / 10 ^ 32 * (88 / 10 ^ 13))) with (n * (25600000 / 8008)) by (field; lra). nra.
    + replace (n * (16 / 10 ^ 20) * (16 / 10 ^ 20) / (91 / 10 ^ 32 * (885 / 100000000000000))) with (n * (256000000 / 80535)) by (field; lra).
      replace (n * (- (16 / 10 ^ 20)) ^ 2 / (91 / 10 ^ 32 * (88 / 10 ^ 13))) with (n * (25600000 / 8008)) by (field; lra). nra.
  - unfold Rsqr. lra.
  - replace (n * (16 / 10 ^ 20) * (16 / 10 ^ 20) / (91 / 10 ^ 32 * (885 / 100000000000000))) with (n * (256000000 / 80535)) by (field; lra). nra.
Qed.
Print Assumptions C67_plasma_frequency.

(** The Debye length that it prints is too small by the factor 1 / sqrt(4 pi): below three tenths of the one that the
    start-up check uses, for every density and temperature. *)
Theorem C67_debye_refuted : forall n t, 0 < n -> 0 < t -> printed_debye n t < 3 / 10 * debye n t.
Proof.
  intros n t Hn Ht. unfold printed_debye, calc_debye_length, debye, eV2kelvin, calc_epsilon_0, calc_boltzman, calc_charge_el.
  assert (P3 : 3 < PI) by (pose proof PI2_3_2; lra).
  rewrite <- (sqrt_Rsqr (3 / 10)) by lra. rewrite <- (sqrt_Rsqr 7400) by lra.
  assert (Q : 0 < t / n) by (apply Rdiv_lt_0_compat; assumption).
  rewrite <- (sqrt_mult (Rsqr 7400) (t / n)) by (unfold Rsqr; lra).
  rewrite <- sqrt_mult by (unfold Rsqr; lra).
  apply sqrt_lt_1_alt. unfold Rsqr. split.
  - apply Rlt_le. apply Rdiv_lt_0_compat; [repeat apply Rmult_lt_0_compat; lra|]. nra.
  - replace (88 / 10 ^ 13 * (138 / 10 ^ 25) * (t * (116045221 / 10 ^ 4)) / (4 * PI * n * (- (16 / 10 ^ 20)) ^ 2))
      with (t / n * (1409253163824 / 25600 / (4 * PI))) by (field; lra).
    replace (3 / 10 * (3 / 10) * (7400 * 7400 * (t / n))) with (t / n * 4928400) by (field; lra).
    apply Rmult_lt_compat_l; [exact Q|].
    apply Rmult_lt_reg_r with (4 * PI); [lra|]. unfold Rdiv at 1. rewrite Rmult_assoc, Rinv_l by lra. lra.
Qed.
Print Assumptions C67_debye_refuted.

(** Put right by that factor it is the start-up check's Debye length to 0.3 percent. *)
Theorem C67_debye_partial : forall n t, 0 < n -> 0 < t ->
  debye n t <= sqrt (4 * PI) * printed_debye n t <= (1 + 3 / 1000) * debye n t.
Proof.
  intros n t Hn Ht. unfold printed_debye, calc_debye_length, debye, eV2kelvin, calc_epsilon_0, calc_boltzman, calc_charge_el.
  assert (Pp := PI_RGT_0).
  rewrite <- (sqrt_Rsqr (1 + 3 / 1000)) by lra. rewrite <- (sqrt_Rsqr 7400) by lra.
  assert (Q : 0 < t / n) by (apply Rdiv_lt_0_compat; assumption).
  assert (W : 0 <= 88 / 10 ^ 13 * (138 / 10 ^ 25) * (t * (116045221 / 10 ^ 4)) / (4 * PI * n * (- (16 / 10 ^ 20)) ^ 2)).
  { apply Rlt_le. apply Rdiv_lt_0_compat; [repeat apply Rmult_lt_0_compat; lra|]. apply Rmult_lt_0_compat; [nra|]. nra. }
  rewrite <- (sqrt_mult (Rsqr 7400) (t / n)) by (unfold Rsqr; lra).
  rewrite <- (sqrt_mult (4 * PI)) by (try exact W; lra). rewrite <- (sqrt_mult (Rsqr (1 + 3 / 1000))) by (unfold Rsqr; lra).
  replace (4 * PI * (88 / 10 ^ 13 * (138 / 10 ^ 25) * (t * (116045221 / 10 ^ 4)) / (4 * PI * n * (- (16 / 10 ^ 20)) ^ 2)))
      with (t / n * (1409253163824 / 25600)) by (field; lra).
  split; apply sqrt_le_1_alt; unfold Rsqr; nra.
Qed.
Print Assumptions C67_debye_partial.

(** The beam passage time: the end of the injection of the last bunch (its number is number_bunches - 1; see
    src/bunch.cpp lines 90-93) plus the time that the beam takes for the length of the tube. *)
Theorem C67_passage_time : forall c, initial_velocity c <> 0 ->
  let b := bunch_of c (number_bunches c - 1) in
  beam_passage_time (beam_z_size c) (bunch_length c) (IZR (number_bunches c)) (bunches_distance c) (initial_velocity c) =
  (b_duration b * b_bunch_number b + b_hole b * b_bunch_number b + b_duration b) + beam_z_size c / initial_velocity c.
Proof.
  intros c Hv b. unfold b, bunch_of, beam_passage_time, Tools.beam_length, duration_of, hole_of.
  cbn [b_duration b_bunch_number b_hole]. rewrite minus_IZR. field. exact Hv.
Qed.
Print Assumptions C67_passage_time.

Example C67_hypotheses_met : 0 < 10 ^ 17 /\ 0 < 1 /\ initial_velocity (Beam (3/2) (1/2) 2 3 100 10) <> 0 /\
  beam_passage_time 10 (3/2) 3 (1/2) 2 = 31 / 4.
Proof.
  repeat match goal with |- _ /\ _ => split end; try lra; cbn; try lra.
  unfold beam_passage_time, Tools.beam_length. field.
Qed.
