(** Properties C08-C11, C46-C48 and C53: the field solver (src/eField.cpp, src/hField.cpp). *)
From Coq Require Import Reals ZArith Lia Lra List Bool.
From Verif.Lib Require Import RAux Grid Par.
From Verif.Model Require Import Constants Geometry ChargeDeposit CurrentDeposit Fields.
From Verif.Spec Require Import Cloud Continuity Maxwell Sample.
From Verif.Proof Require Import GeometryP ChargeP ChargeP2 CurrentP CurrentP2 CurrentP3 CurrentP4 CurrentEx
  FieldsP FieldsP2 MaxwellP EnergyP StabilityP.
From Verif.Props Require Import Current.
Import ListNotations.
Local Open Scope R_scope.

(** A non-trivial state used to show hypotheses satisfiable: one azimuthal and one axial
    electric component set, everything else zero. *)
Definition sample_fields : fmem :=
  fun x => match x with
           | (EPHI, 3%Z, 4%Z) => 7 | (EZ, 2%Z, 5%Z) => -3 | (HR, 4%Z, 4%Z) => 2 | (HZ, 1%Z, 1%Z) => 5
           | _ => 0
           end.

Lemma sample_fields_conducting : conducting sample_geom sample_fields.
Proof.
  intros [[a i] k] H. destruct a; cbn in H; try contradiction; cbn.
  - reflexivity.
  - assert (N : i <> 3%Z \/ k <> 4%Z) by lia.
    destruct N as [N|N]; [destruct i as [|p|p]|destruct i as [|p|p]; try reflexivity];
    try reflexivity; repeat (destruct p as [p|p|]; try reflexivity); try congruence;
    destruct k as [|q|q]; try reflexivity; repeat (destruct q as [q|q|]; try reflexivity); congruence.
  - destruct H as [-> Hk]. reflexivity.
Qed.

Definition vacuum : medium := Medium (fun _ _ => 1) (fun _ _ => 0).

Lemma vacuum_insulating : forall g, insulating g vacuum.
Proof. intros g i k _ _. cbn. split; lra. Qed.

(** C08. The magnetic flux out of every cell is left unchanged by the magnetic update, for
    every electric field that vanishes at the right end wall. *)
Theorem C08_divH_unchanged : forall g dt m i k, geom_ok g ->
  (0 <= i < n_r g - 1)%Z -> (0 <= k < n_z g - 1)%Z ->
  (forall i', (0 <= i' < n_r g)%Z -> m (EPHI, i', (n_z g - 1)%Z) = 0) ->
  magnetic_flux (dr g) (dz g) (comp (calc_hfield g dt m) HR) (comp (calc_hfield g dt m) HZ) i k =
  magnetic_flux (dr g) (dz g) (comp m HR) (comp m HZ) i k.
Proof. exact flux_update. Qed.
Print Assumptions C08_divH_unchanged.

(** C08, any number of steps with any currents in any medium. *)
Theorem C08_divH_run : forall g md dt js m i k, geom_ok g -> conducting g m ->
  (0 <= i < n_r g - 1)%Z -> (0 <= k < n_z g - 1)%Z ->
  magnetic_flux (dr g) (dz g) (comp (field_run g md dt js m) HR) (comp (field_run g md dt js m) HZ) i k =
  magnetic_flux (dr g) (dz g) (comp m HR) (comp m HZ) i k.
Proof. exact flux_run. Qed.
Print Assumptions C08_divH_run.

(** C08, from program start (whatever the uninitialised memory m0 holds). *)
Theorem C08_divH_zero_from_start : forall g md dt js m0 i k, geom_ok g ->
  (0 <= i < n_r g - 1)%Z -> (0 <= k < n_z g - 1)%Z ->
  let m := field_run g md dt js (init_fields g m0) in
  magnetic_flux (dr g) (dz g) (comp m HR) (comp m HZ) i k = 0.
Proof.
  intros g md dt js m0 i k Hg Hi Hk m. unfold m. rewrite flux_run by (auto using init_conducting).
  unfold magnetic_flux, comp. destruct (Hg) as (N1 & N2 & _).
  rewrite !init_fields_zero by (auto; cbn; lia). ring.
Qed.
Print Assumptions C08_divH_zero_from_start.

Example C08_hypotheses_met : geom_ok sample_geom /\ conducting sample_geom sample_fields /\
  (forall i', (0 <= i' < n_r sample_geom)%Z -> sample_fields (EPHI, i', (n_z sample_geom - 1)%Z) = 0) /\
  calc_hfield sample_geom 1 sample_fields (HR, 3%Z, 4%Z) <> sample_fields (HR, 3%Z, 4%Z).
Proof.
  split; [apply sample_geom_ok|]. split; [apply sample_fields_conducting|]. split.
  - intros i' Hi. apply sample_fields_conducting. cbn in *. lia.
  - rewrite calc_hfield_hr by (cbn; lia). rect; [|cbn in *; lia].
    unfold alpha_r. rewrite sample_dz. cbn. assert (M := MAGN_CONST_pos). intro E.
    assert (E' : 1 * (0 - 7) / (1 * MAGN_CONST) = 0) by lra.
    assert (X : 1 * (0 - 7) / (1 * MAGN_CONST) * MAGN_CONST = -7) by (field; lra). rewrite E' in X. lra.
Qed.

(** C09. If the current balances the change of the charge density, Gauss's residual is
    unchanged at every node off the walls, the axis included, in every insulating medium. *)
Theorem C09_gauss_unchanged : forall g md dt m rho_old rho_new i k,
  geom_ok g -> insulating g md -> free_node g i k ->
  balance_at (dr g) (dz g) dt rho_new rho_old (comp m JR) (comp m JZ) i k ->
  gauss_residual (dr g) (dz g) (epsilon md) (comp (calc_efield g md dt m) ER)
    (comp (calc_efield g md dt m) EZ) rho_new i k =
  gauss_residual (dr g) (dz g) (epsilon md) (comp m ER) (comp m EZ) rho_old i k.
Proof. exact gauss_update. Qed.
Print Assumptions C09_gauss_unchanged.

(** C09, any number of steps. *)
Theorem C09_gauss_run : forall g md dt steps m rho i k,
  geom_ok g -> insulating g md -> free_node g i k -> balanced g dt i k rho steps ->
  let m' := field_run g md dt (map fst steps) m in
  gauss_residual (dr g) (dz g) (epsilon md) (comp m' ER) (comp m' EZ) (last (map snd steps) rho) i k =
  gauss_residual (dr g) (dz g) (epsilon md) (comp m ER) (comp m EZ) rho i k.
Proof. exact gauss_run. Qed.
Print Assumptions C09_gauss_run.

(** C09 together with C05: one step of the program's fields, with the currents that the
    program deposits for a list of moving particles, keeps Gauss's residual with respect to
    the charge density that the program deposits for those particles (on top of any fixed
    density [rho]). Partial for the same reason as C05. *)
Theorem C09_gauss_with_particles_partial : forall g md dt ps rho j0 jphi m i k,
  geom_ok g -> 0 < dt -> insulating g md -> free_node g i k ->
  Forall (fun p => c_alive p = true ->
    dr g / 2 <= c_r p /\ dr g / 2 <= c_r_old p /\ 0 < c_z p /\ 0 < c_z_old p /\
    Rabs (c_r p - c_r_old p) < dr g /\ Rabs (c_z p - c_z_old p) < dz g /\
    legs_at_least MNZL (dr g) (dz g) (c_r p) (c_z p) (c_r_old p) (c_z_old p) /\
    avoids_nodes (dr g) (dz g) (c_r p) (c_z p) (c_r_old p) (c_z_old p)) ps ->
  let j := current_distribution g dt (reset_j g j0) ps in
  let m' := field_step g md dt (Cur3 (j J_R) jphi (j J_Z)) m in
  gauss_residual (dr g) (dz g) (epsilon md) (comp m' ER) (comp m' EZ)
    (charge_weighting g rho (map (fun p => QPart (c_alive p) (c_charge p) (c_r p) (c_z p)) ps)) i k =
  gauss_residual (dr g) (dz g) (epsilon md) (comp m ER) (comp m EZ)
    (charge_weighting g rho (map (fun p => QPart (c_alive p) (c_charge p) (c_r_old p) (c_z_old p)) ps)) i k.
Proof.
  intros g md dt ps rho j0 jphi m i k Hg Ht Hmd Hf Hp j m'. apply gauss_step; auto.
  assert (B := C05_particle_list_continuity_partial g dt ps rho (reset_j g j0) Hg Ht Hp i k).
  unfold balance_at. rewrite B. cbn [cur_r cur_z]. f_equal. unfold outflow.
  assert (Z0 : forall x a b, (0 <= a < n_r g)%Z -> (0 <= b < n_z g)%Z -> reset_j g j0 x a b = 0).
  { intros x a b Ha Hb. unfold reset_j.
    destruct (Z.leb_spec 0 a), (Z.ltb_spec a (n_r g)), (Z.leb_spec 0 b), (Z.ltb_spec b (n_z g)); cbn; lia || reflexivity. }
  destruct Hf as [Hi Hk]. rewrite !(Z0 J_Z), (Z0 J_R i k) by lia. fold j.
  destruct (Z.eq_dec i 0) as [->|Ni].
  - change (0 - 1)%Z with (-1)%Z. replace (node_side (dr g) (dz g) (-1)) with 0 by (unfold node_side; cbn; ring). ring.
  - rewrite (Z0 J_R (i - 1)%Z k) by lia. ring.
Qed.
Print Assumptions C09_gauss_with_particles_partial.

(** A density that changes by minus the outflow of a current j_z = 3 at node (2, 5). *)
Example C09_hypotheses_met : let g := sample_geom in
  let jz := fun i k => if ((i =? 2) && (k =? 5))%Z then 3 else 0 in
  let rho' := fun i k => - outflow (dr g) (dz g) 1 zero_arr jz i k / node_volume (dr g) (dz g) i in
  geom_ok g /\ insulating g vacuum /\ free_node g 2 5 /\
  balance_at (dr g) (dz g) 1 rho' zero_arr zero_arr jz 2 5 /\ rho' 2%Z 5%Z <> 0.
Proof.
  cbv zeta. assert (P := c_PI_pos).
  split; [apply sample_geom_ok|]. split; [apply vacuum_insulating|].
  split; [unfold free_node; cbn; lia|].
  assert (V : node_volume (dr sample_geom) (dz sample_geom) 2 = 4 * c_PI).
  { rewrite sample_dr, sample_dz, node_volume_pos_i by lia. unfold CELL_VOLUME. ring. }
  split.
  - unfold balance_at. cbv beta. rewrite V. generalize (outflow (dr sample_geom) (dz sample_geom) 1 zero_arr
      (fun i k : Z => if ((i =? 2) && (k =? 5))%Z then 3 else 0) 2 5). intro x. unfold zero_arr. field. lra.
  - cbv beta. rewrite V. unfold outflow, zero_arr. cbn [Z.eqb Pos.eqb andb Z.sub Z.add Z.opp Z.pos_sub Pos.pred_double].
    rewrite sample_dr, node_area_pos_i by lia. intro E.
    assert (E' : - (1 * (2 * c_PI * 2 * 1 * 1 * (3 - 0) + node_side 1 (dz sample_geom) 2 * 0 - node_side 1 (dz sample_geom) 1 * 0)) / (4 * c_PI) = -3)
      by (field; lra).
    rewrite E' in E. lra.
Qed.

(** C10. Wall-tangential components and the azimuthal field on the axis never change. *)
Theorem C10_walls_unchanged : forall g md dt js m x, geom_ok g -> wall_location g x ->
  field_run g md dt js m x = m x /\ calc_efield g md dt m x = m x /\ calc_hfield g dt m x = m x.
Proof.
  intros g md dt js m x Hg Hx. split; [now apply field_run_wall|].
  split; [now apply calc_efield_wall|now apply calc_hfield_wall].
Qed.
Print Assumptions C10_walls_unchanged.

(** C10. From program start they are zero for ever. *)
Theorem C10_walls_zero_from_start : forall g md dt js m0 x, geom_ok g -> wall_location g x ->
  field_run g md dt js (init_fields g m0) x = 0.
Proof.
  intros g md dt js m0 x Hg Hx. rewrite field_run_wall by assumption. now apply init_conducting.
Qed.
Print Assumptions C10_walls_zero_from_start.

Example C10_hypotheses_met : geom_ok sample_geom /\
  wall_location sample_geom (ER, 3%Z, 16%Z) /\ wall_location sample_geom (EPHI, 8%Z, 4%Z) /\
  wall_location sample_geom (EPHI, 0%Z, 4%Z) /\ wall_location sample_geom (EZ, 8%Z, 4%Z).
Proof. split; [apply sample_geom_ok|]. cbn. lia. Qed.

(** C11. Every distribution of the cell updates over threads and every interleaving of the
    threads' loads and stores gives the result of the serial loops. *)
Theorem C11_efield_schedule_independent : forall g md dt m m',
  omp_region loc_eqb (efield_loops g md dt) m m' -> m' = calc_efield g md dt m.
Proof. exact efield_schedule. Qed.
Print Assumptions C11_efield_schedule_independent.

Theorem C11_hfield_schedule_independent : forall g dt m m',
  omp_region loc_eqb (hfield_loops g dt) m m' -> m' = calc_hfield g dt m.
Proof. exact hfield_schedule. Qed.
Print Assumptions C11_hfield_schedule_independent.

Theorem C11_init_schedule_independent : forall g m m',
  omp_region loc_eqb (init_field_loops g) m m' -> m' = init_fields g m.
Proof. exact init_schedule. Qed.
Print Assumptions C11_init_schedule_independent.

(** C11. No data race: within one parallel loop no cell update writes a location that
    another one reads or writes. *)
Theorem C11_no_data_race : forall g md dt,
  Forall (ForallOrdPairs independent) (efield_loops g md dt) /\
  Forall (ForallOrdPairs independent) (hfield_loops g dt) /\
  Forall (ForallOrdPairs independent) (init_field_loops g).
Proof.
  intros. split; [apply efield_loops_independent|].
  split; [apply hfield_loops_independent|apply init_loops_independent].
Qed.
Print Assumptions C11_no_data_race.

(** Schedules exist (e.g. the serial one). *)
Example C11_hypotheses_met : forall g md dt m, exists m', omp_region loc_eqb (efield_loops g md dt) m m'.
Proof.
  intros g md dt m. generalize (efield_loops g md dt) as loops. intro loops. revert m.
  induction loops as [|l loops IH]; intro m; [exists m; constructor|].
  destruct (IH (exec loc_eqb (concat l) m)) as [m' H]. exists m'.
  econstructor; [apply omp_for_exists|exact H].
Qed.

(** C46. Source-free fields in a cavity with any insulating filling: the energy of the
    leap-frog scheme is the same after any number of steps. *)
Theorem C46_energy_conserved : forall g md dt n m, geom_ok g -> insulating g md -> conducting g m ->
  let m' := field_run g md dt (repeat no_current n) m in
  leapfrog_energy g (epsilon md) m' (calc_hfield g dt m') =
  leapfrog_energy g (epsilon md) m (calc_hfield g dt m).
Proof. intros. now apply energy_run. Qed.
Print Assumptions C46_energy_conserved.

(** C46. With a time step below the stability limit the electric energy and the magnetic
    energy of the half-time fields stay bounded by the initial scheme energy for ever.
    (eps0 mu0 is 1/c^2 in the code's constants.) *)
Theorem C46_energy_bounded : forall g md dt theta n m,
  geom_ok g -> insulating g md -> conducting g m ->
  (forall i k, (0 <= i < n_r g)%Z -> (0 <= k < n_z g)%Z -> 1 <= epsilon md i k) ->
  0 <= theta <= 1 ->
  dt * dt * (4 / 3 / (dr g * dr g) + 1 / (dz g * dz g)) <= (1 - theta) * (EPSILON0 * MAGN_CONST) ->
  let m' := field_run g md dt (repeat no_current n) m in
  theta * electric_energy g (epsilon md) m' + half_time_energy g (calc_hfield g dt m') <=
  leapfrog_energy g (epsilon md) m (calc_hfield g dt m).
Proof.
  intros g md dt theta n m Hg Hmd Hm He Ht Hc m'.
  change (leapfrog_energy g (epsilon md) m (calc_hfield g dt m)) with (scheme_energy g (epsilon md) dt m).
  rewrite <- (energy_run g md dt n m) by assumption.
  apply energy_lower; auto. now apply conducting_run.
Qed.
Print Assumptions C46_energy_bounded.

(** A stable step on a grid with dr = dz = 1: dt = 2e-9. *)
Example C46_hypotheses_met : let g := sample_geom in
  geom_ok g /\ insulating g vacuum /\ conducting g sample_fields /\
  (forall i k : Z, 1 <= epsilon vacuum i k) /\ 0 <= 1/20 <= 1 /\
  (2 / 1000000000) * (2 / 1000000000) * (4 / 3 / (dr g * dr g) + 1 / (dz g * dz g))
    <= (1 - 1/20) * (EPSILON0 * MAGN_CONST).
Proof.
  cbv zeta. split; [apply sample_geom_ok|]. split; [apply vacuum_insulating|].
  split; [apply sample_fields_conducting|]. split; [intros; cbn; lra|]. split; [lra|].
  rewrite sample_dr, sample_dz. unfold EPSILON0, MAGN_CONST. lra.
Qed.

(** C47. The fields at node (i, k) after n steps depend only on the fields and currents
    within n cells. *)
Theorem C47_causality : forall g md dt js js' m m' i k, geom_ok g ->
  let n := Z.of_nat (length js) in
  agree_near is_field n i k m m' ->
  Forall2 (fun j j' => forall i' k', (Z.abs (i' - i) <= n)%Z -> (Z.abs (k' - k) <= n)%Z ->
     cur_r j i' k' = cur_r j' i' k' /\ cur_phi j i' k' = cur_phi j' i' k' /\ cur_z j i' k' = cur_z j' i' k') js js' ->
  forall a, is_field a -> field_run g md dt js m (a, i, k) = field_run g md dt js' m' (a, i, k).
Proof. intros g md dt js js' m m' i k Hg n Hm Hj a Ha. eapply run_near_gen; eauto. lia. Qed.
Print Assumptions C47_causality.

(** Two different states that agree within 3 cells of (6, 10). *)
Example C47_hypotheses_met : agree_near is_field 3 6 10 sample_fields (fun _ => 0) /\
  sample_fields (EPHI, 3%Z, 4%Z) <> 0.
Proof.
  split; [|cbn; lra]. intros a i k Ha Hi Hk. destruct (Z.le_gt_cases k 6) as [L|L]; [lia|].
  destruct k as [|p|p]; try lia. unfold sample_fields.
  destruct a; cbn in Ha; try contradiction;
    repeat (destruct i as [|q|q]; try reflexivity; repeat (destruct q as [q|q|]; try reflexivity));
    repeat (destruct p as [p|p|]; try reflexivity; try lia).
Qed.

(** C48. (E_r, E_z, H_phi) evolve independently of (H_r, H_z, E_phi) and of j_phi ... *)
Theorem C48_tm_independent : forall g md dt js js' m m', geom_ok g ->
  (forall a i k, tm_field a -> m (a, i, k) = m' (a, i, k)) ->
  Forall2 (fun j j' => forall i k, cur_r j i k = cur_r j' i k /\ cur_z j i k = cur_z j' i k) js js' ->
  forall a i k, tm_field a -> field_run g md dt js m (a, i, k) = field_run g md dt js' m' (a, i, k).
Proof. intros g md dt js js' m m' Hg Hm Hj. exact (tm_run g md dt js js' m m' Hg Hm Hj). Qed.
Print Assumptions C48_tm_independent.

(** ... and (H_r, H_z, E_phi) independently of the others and of j_r, j_z. *)
Theorem C48_te_independent : forall g md dt js js' m m', geom_ok g ->
  (forall a i k, te_field a -> m (a, i, k) = m' (a, i, k)) ->
  Forall2 (fun j j' => forall i k, cur_phi j i k = cur_phi j' i k) js js' ->
  forall a i k, te_field a -> field_run g md dt js m (a, i, k) = field_run g md dt js' m' (a, i, k).
Proof. intros g md dt js js' m m' Hg Hm Hj. exact (te_run g md dt js js' m m' Hg Hm Hj). Qed.
Print Assumptions C48_te_independent.

(** C48. A group that starts zero and has no current of its own stays zero. *)
Theorem C48_zero_stays_zero : forall g md dt js m, geom_ok g ->
  ((forall a i k, te_field a -> m (a, i, k) = 0) ->
   Forall (fun j => forall i k, cur_phi j i k = 0) js ->
   forall a i k, te_field a -> field_run g md dt js m (a, i, k) = 0) /\
  ((forall a i k, tm_field a -> m (a, i, k) = 0) ->
   Forall (fun j => forall i k, cur_r j i k = 0 /\ cur_z j i k = 0) js ->
   forall a i k, tm_field a -> field_run g md dt js m (a, i, k) = 0).
Proof.
  intros g md dt js m Hg. split; intros Hm Hj.
  - exact (te_zero_run g md dt js m Hg Hm Hj).
  - exact (tm_zero_run g md dt js m Hg Hm Hj).
Qed.
Print Assumptions C48_zero_stays_zero.

(** A TE state with a non-zero component and currents that vary in r and z only. *)
Example C48_hypotheses_met :
  let m : fmem := fun x => match x with (EZ, 2%Z, 5%Z) => -3 | _ => 0 end in
  (forall a i k, te_field a -> m (a, i, k) = 0) /\ m (EZ, 2%Z, 5%Z) <> 0 /\
  Forall (fun j => forall i k, cur_phi j i k = 0) [Cur3 (fun _ _ => 1) zero_arr (fun _ _ => 2)].
Proof.
  cbv zeta. split; [intros a i k Ha; destruct a; cbn in Ha; try contradiction; reflexivity|].
  split; [lra|]. constructor; [reflexivity|constructor].
Qed.

(** C53. Every array element read or written by the field updates and by the
    initialisation exists ... *)
Theorem C53_field_updates_in_bounds : forall g md dt a, geom_ok g ->
  In a (concat (concat (efield_loops g md dt))) \/ In a (concat (concat (hfield_loops g dt))) ->
  loc_inside g (tgt a) /\ Forall (loc_inside g) (reads a).
Proof. intros g md dt a Hg [H|H]; [eapply efield_in_bounds|eapply hfield_in_bounds]; eauto. Qed.
Print Assumptions C53_field_updates_in_bounds.

Theorem C53_initialisation_in_bounds : forall g a, geom_ok g ->
  In a (concat (concat (init_field_loops g))) -> loc_inside g (tgt a).
Proof. exact init_in_bounds. Qed.
Print Assumptions C53_initialisation_in_bounds.

(** ... and every element read by the updates has been assigned by init_fields, or is an
    element of a current array. *)
Theorem C53_reads_initialised : forall g md dt a x, geom_ok g ->
  In a (concat (concat (efield_loops g md dt))) \/ In a (concat (concat (hfield_loops g dt))) ->
  In x (reads a) ->
  In x (writes_of (concat (concat (init_field_loops g)))) \/ current_location g x.
Proof.
  intros g md dt a x Hg Ha Hx. destruct Ha as [Ha|Ha].
  - assert (H := efield_reads_init g md dt a Hg Ha). rewrite Forall_forall in H.
    destruct (H x Hx); [left; now apply init_written|now right].
  - assert (H := hfield_reads_init g dt a Hg Ha). rewrite Forall_forall in H. left. apply init_written; auto.
Qed.
Print Assumptions C53_reads_initialised.

Example C53_hypotheses_met : geom_ok sample_geom /\
  In (asg_ephi sample_geom vacuum 1 3 4) (concat (concat (efield_loops sample_geom vacuum 1))).
Proof.
  split; [apply sample_geom_ok|]. apply in_concat.
  exists [asg_er sample_geom vacuum 1 3 4; asg_ephi sample_geom vacuum 1 3 4; asg_ez sample_geom vacuum 1 3 4].
  split; [|right; left; reflexivity]. apply in_concat. eexists. split; [right; right; left; reflexivity|].
  apply in_map_iff. exists (3, 4)%Z. split; [reflexivity|]. apply cells_in. cbn. lia.
Qed.
