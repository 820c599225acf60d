(** Properties C04, C05, C06, C07: current deposition (src/particles.cpp lines 333-988). *)
From Coq Require Import Reals ZArith Lia Lra List.
From Verif.Lib Require Import RAux Grid.
From Verif.Model Require Import Constants Geometry ChargeDeposit CurrentDeposit.
From Verif.Spec Require Import Cloud Continuity Sample.
From Verif.Proof Require Import GeometryP ChargeP CurrentP CurrentP2 CurrentP3 CurrentP4 CurrentEx.
Import ListNotations.
Local Open Scope R_scope.

(** C04. Oblique move inside one (closed) cell: the deposited currents balance the change of
    the deposited charge at every node. (Moves shorter than MNZL = 1e-15 in one direction
    are treated by the code as axial or radial, see C06.) *)
Theorem C04_in_cell_continuity : forall g dt q rn zn ro zo rho j c k,
  geom_ok g -> 0 < dt -> dr g / 2 <= rn -> dr g / 2 <= ro -> 0 < zn -> 0 < zo ->
  (* both end points in the cell (c, k) *)
  IZR c * dr g <= rn <= (IZR c + 1) * dr g -> IZR c * dr g <= ro <= (IZR c + 1) * dr g ->
  IZR k * dz g <= zn <= (IZR k + 1) * dz g -> IZR k * dz g <= zo <= (IZR k + 1) * dz g ->
  MNZL <= Rabs (rn - ro) < dr g -> MNZL <= Rabs (zn - zo) < dz g ->
  let l := current_single g dt q rn zn ro zo in
  charge_balance (dr g) (dz g) dt
    (charge_weighting g rho [QPart true q rn zn]) (charge_weighting g rho [QPart true q ro zo])
    (fun i k => apply_jincs j l J_R i k - j J_R i k)
    (fun i k => apply_jincs j l J_Z i k - j J_Z i k).
Proof.
  intros g dt q rn zn ro zo rho j c k Hg Ht Hn Ho Zn Zo In Io Kn Ko [Mr Dr] [Mz Dz] l.
  assert (Hdr := dr_pos g Hg). assert (Hdz := dz_pos g Hg).
  destruct (in_cell_legs MNZL (dr g) (dz g) rn zn ro zo c k) as [L A]; auto using MNZL_pos.
  apply cont_balance; auto; try lra. now apply current_single_continuity.
Qed.
Print Assumptions C04_in_cell_continuity.

Example C04_hypotheses_met : let g := sample_geom in
  geom_ok g /\ dr g / 2 <= 5/2 /\ dr g / 2 <= 11/5 /\
  2 * dr g <= 5/2 <= (2 + 1) * dr g /\ 2 * dr g <= 11/5 <= (2 + 1) * dr g /\
  3 * dz g <= 10/3 <= (3 + 1) * dz g /\ 3 * dz g <= 15/4 <= (3 + 1) * dz g /\
  MNZL <= Rabs (5/2 - 11/5) < dr g /\ MNZL <= Rabs (15/4 - 10/3) < dz g.
Proof.
  cbv zeta. rewrite sample_dr, sample_dz. assert (M := MNZL_small).
  rewrite !Rabs_right by lra. repeat split; try lra; apply sample_geom_ok.
Qed.

(** C05. Full statement intended: for every oblique move of less than one step in each
    direction, the deposited currents balance the change of the deposited charge. That is
    false (see C05_corner_crossing_refuted); proved is the statement for straight paths that
    do not pass exactly through a grid node and whose legs between border crossings are at
    least MNZL = 1e-15 long in both directions. Missing: paths through a node, and paths
    with a shorter leg, for which the code deposits nothing for that leg; the statement is
    false for them too (C05_short_leg_refuted). *)
Theorem C05_border_crossing_continuity_partial : forall g dt q rn zn ro zo rho j,
  geom_ok g -> 0 < dt -> dr g / 2 <= rn -> dr g / 2 <= ro -> 0 < zn -> 0 < zo ->
  Rabs (rn - ro) < dr g -> Rabs (zn - zo) < dz g ->
  legs_at_least MNZL (dr g) (dz g) rn zn ro zo ->
  avoids_nodes (dr g) (dz g) rn zn ro zo ->
  let l := current_single g dt q rn zn ro zo in
  charge_balance (dr g) (dz g) dt
    (charge_weighting g rho [QPart true q rn zn]) (charge_weighting g rho [QPart true q ro zo])
    (fun i k => apply_jincs j l J_R i k - j J_R i k)
    (fun i k => apply_jincs j l J_Z i k - j J_Z i k).
Proof.
  intros. apply cont_balance; auto; try lra. now apply current_single_continuity.
Qed.
Print Assumptions C05_border_crossing_continuity_partial.

(** The same for a whole list of particles, live or dead. *)
Theorem C05_particle_list_continuity_partial : forall g dt ps rho j,
  geom_ok g -> 0 < dt ->
  Forall (fun p => c_alive p = true ->
    dr g / 2 <= c_r p /\ dr g / 2 <= c_r_old p /\ 0 < c_z p /\ 0 < c_z_old p /\
    Rabs (c_r p - c_r_old p) < dr g /\ Rabs (c_z p - c_z_old p) < dz g /\
    legs_at_least MNZL (dr g) (dz g) (c_r p) (c_z p) (c_r_old p) (c_z_old p) /\
    avoids_nodes (dr g) (dz g) (c_r p) (c_z p) (c_r_old p) (c_z_old p)) ps ->
  charge_balance (dr g) (dz g) dt
    (charge_weighting g rho (map (fun p => QPart (c_alive p) (c_charge p) (c_r p) (c_z p)) ps))
    (charge_weighting g rho (map (fun p => QPart (c_alive p) (c_charge p) (c_r_old p) (c_z_old p)) ps))
    (fun i k => current_distribution g dt j ps J_R i k - j J_R i k)
    (fun i k => current_distribution g dt j ps J_Z i k - j J_Z i k).
Proof.
  intros g dt ps rho j Hg Ht H. apply (list_balance g dt ps rho j).
  rewrite Forall_forall in H. intros p Hp A. destruct (H p Hp A) as (H1 & H2 & H3 & H4 & H5 & H6 & H7 & H8).
  assert (C := current_single_continuity g dt (c_charge p) (c_r p) (c_z p) (c_r_old p) (c_z_old p)
                 Hg Ht H1 H2 H7 H8 H3 H4 H5 H6).
  unfold current_part, q_new, q_old. rewrite A.
  apply (proj1 (cont_balance g dt (c_charge p) _ (c_r p) (c_z p) (c_r_old p) (c_z_old p) zero_arr
           (fun _ => zero_arr) Hg H1 H2 (Rlt_le _ _ H3) (Rlt_le _ _ H4))) in C.
  intros i k. rewrite C. f_equal. apply outflow_ext; intros; apply added_dep.
Qed.
Print Assumptions C05_particle_list_continuity_partial.

(** A path over a radial and an axial border. *)
Example C05_hypotheses_met : let g := sample_geom in
  geom_ok g /\ dr g / 2 <= 9/4 /\ dr g / 2 <= 7/4 /\
  Rabs (9/4 - 7/4) < dr g /\ Rabs (11/5 - 8/5) < dz g /\
  legs_at_least MNZL (dr g) (dz g) (9/4) (11/5) (7/4) (8/5) /\
  avoids_nodes (dr g) (dz g) (9/4) (11/5) (7/4) (8/5).
Proof.
  cbv zeta. rewrite sample_dr, sample_dz. rewrite !Rabs_right by lra.
  split; [apply sample_geom_ok|]. destruct sample_path as [P1 P2].
  repeat match goal with |- _ /\ _ => split end; try lra; assumption.
Qed.

(** The unrestricted statement fails: from (7/4, 7/4) to (9/4, 9/4) on a grid of step 1 the
    path passes through a node, nothing is deposited, but the charges of the nodes change. *)
Theorem C05_corner_crossing_refuted : exists g rn zn ro zo,
  geom_ok g /\ dr g / 2 <= rn /\ dr g / 2 <= ro /\ 0 < zn <= z_size g /\ 0 < zo <= z_size g /\
  rn <= r_size g /\ ro <= r_size g /\
  MNZL <= Rabs (rn - ro) < dr g /\ MNZL <= Rabs (zn - zo) < dz g /\
  forall dt q rho j, q <> 0 ->
  let l := current_single g dt q rn zn ro zo in
  ~ charge_balance (dr g) (dz g) dt
    (charge_weighting g rho [QPart true q rn zn]) (charge_weighting g rho [QPart true q ro zo])
    (fun i k => apply_jincs j l J_R i k - j J_R i k)
    (fun i k => apply_jincs j l J_Z i k - j J_Z i k).
Proof.
  exists sample_geom, (9/4), (9/4), (7/4), (7/4).
  assert (M := MNZL_small).
  split; [apply sample_geom_ok|]. rewrite sample_dr, sample_dz. rewrite !Rabs_right by lra.
  cbn [r_size z_size sample_geom].
  repeat match goal with |- _ /\ _ => split end; try lra. intros dt q rho j Hq H.
  apply (corner_unbalanced dt q Hq). rewrite <- sample_dr in H at 1. rewrite <- sample_dz in H.
  apply cont_balance in H; auto; rewrite ?sample_dr; try lra. apply sample_geom_ok.
Qed.
Print Assumptions C05_corner_crossing_refuted.

(** It fails also away from the nodes: from (9/4, 7/4) to (9/4 + 1.5e-15, 9/4) the path crosses one border; both legs move by
    less than 1e-15 in r, the code skips them, and the move by half a cell along z makes no current at all. *)
Theorem C05_short_leg_refuted : exists g rn zn ro zo,
  geom_ok g /\ dr g / 2 <= rn /\ dr g / 2 <= ro /\ 0 < zn <= z_size g /\ 0 < zo <= z_size g /\
  rn <= r_size g /\ ro <= r_size g /\
  MNZL <= Rabs (rn - ro) < dr g /\ MNZL <= Rabs (zn - zo) < dz g /\ avoids_nodes (dr g) (dz g) rn zn ro zo /\
  forall dt q rho j, q <> 0 ->
  let l := current_single g dt q rn zn ro zo in
  l = [] /\
  ~ charge_balance (dr g) (dz g) dt
    (charge_weighting g rho [QPart true q rn zn]) (charge_weighting g rho [QPart true q ro zo])
    (fun i k => apply_jincs j l J_R i k - j J_R i k)
    (fun i k => apply_jincs j l J_Z i k - j J_Z i k).
Proof.
  exists sample_geom, (9/4 + 3/2 * MNZL), (9/4), (9/4), (7/4).
  assert (M := MNZL_small). assert (P := MNZL_pos).
  split; [apply sample_geom_ok|]. rewrite sample_dr, sample_dz. rewrite !Rabs_right by lra.
  cbn [r_size z_size sample_geom].
  repeat match goal with |- _ /\ _ => split end; try lra; [exact shallow_avoids|]. intros dt q rho j Hq. split; [apply shallow_deposits_nothing|]. intro H.
  apply (shallow_unbalanced dt q Hq). rewrite <- sample_dr in H at 1. rewrite <- sample_dz in H.
  apply cont_balance in H; auto; rewrite ?sample_dr; try lra. apply sample_geom_ok.
Qed.
Print Assumptions C05_short_leg_refuted.

(** C06. Purely axial move of less than one step. *)
Theorem C06_axial_continuity : forall g dt q r zn zo rho j,
  geom_ok g -> 0 < dt -> dr g / 2 <= r -> 0 < zn -> 0 < zo -> MNZL <= Rabs (zn - zo) < dz g ->
  let l := current_single g dt q r zn r zo in
  charge_balance (dr g) (dz g) dt
    (charge_weighting g rho [QPart true q r zn]) (charge_weighting g rho [QPart true q r zo])
    (fun i k => apply_jincs j l J_R i k - j J_R i k)
    (fun i k => apply_jincs j l J_Z i k - j J_Z i k).
Proof. intros. apply cont_balance; auto; try lra. now apply axial_move_continuity. Qed.
Print Assumptions C06_axial_continuity.

(** C06. Purely radial move that stays in its cell. *)
Theorem C06_radial_in_cell_continuity_partial : forall g dt q rn ro z rho j,
  geom_ok g -> 0 < dt -> dr g / 2 <= rn -> dr g / 2 <= ro -> 0 < z ->
  MNZL <= Rabs (rn - ro) -> cell rn (dr g) = cell ro (dr g) ->
  let l := current_single g dt q rn z ro z in
  charge_balance (dr g) (dz g) dt
    (charge_weighting g rho [QPart true q rn z]) (charge_weighting g rho [QPart true q ro z])
    (fun i k => apply_jincs j l J_R i k - j J_R i k)
    (fun i k => apply_jincs j l J_Z i k - j J_Z i k).
Proof. intros. apply cont_balance; auto; try lra. now apply radial_move_in_cell_continuity. Qed.
Print Assumptions C06_radial_in_cell_continuity_partial.

(** C06. A purely radial move over a cell border balances only on grids with dr = 1 (in the
    unit of length): "r0 * r0 / i_n * dr" in lines 941 and 976 should be a division by
    (i_n * dr). *)
Theorem C06_radial_crossing_refuted : forall g dt q rn ro z rho j,
  geom_ok g -> 0 < dt -> q <> 0 -> dr g / 2 <= rn -> dr g / 2 <= ro -> 0 < z ->
  MNZL <= Rabs (rn - ro) < dr g -> cell rn (dr g) <> cell ro (dr g) ->
  let l := current_single g dt q rn z ro z in
  charge_balance (dr g) (dz g) dt
    (charge_weighting g rho [QPart true q rn z]) (charge_weighting g rho [QPart true q ro z])
    (fun i k => apply_jincs j l J_R i k - j J_R i k)
    (fun i k => apply_jincs j l J_Z i k - j J_Z i k)
  <-> dr g = 1.
Proof.
  intros g dt q rn ro z rho j Hg Ht Hq Hn Ho Hz Hm Hc l. unfold l.
  rewrite <- (radial_crossing_iff g dt q rn ro z) by assumption.
  symmetry. apply (cont_balance g dt q _ rn z ro z rho j); auto; lra.
Qed.
Print Assumptions C06_radial_crossing_refuted.

(** A grid with dr = 1/2 and a radial move over the border r = 1. *)
Example C06_hypotheses_met : let g := Geom 9 17 4 16 in
  geom_ok g /\ dr g = 1/2 /\ dr g / 2 <= 9/8 /\ dr g / 2 <= 7/8 /\
  MNZL <= Rabs (9/8 - 7/8) < dr g /\ cell (9/8) (dr g) <> cell (7/8) (dr g) /\
  MNZL <= Rabs (9/4 - 7/4) < dz g.
Proof.
  cbv zeta. assert (E : dr (Geom 9 17 4 16) = 1/2) by (unfold dr; cbn; field).
  assert (E' : dz (Geom 9 17 4 16) = 1) by (unfold dz; cbn; field).
  rewrite E, E'. assert (M := MNZL_small). rewrite !Rabs_right by lra.
  rewrite (cell_unique (9/8) (1/2) 2) by (try lia; cbn; lra).
  rewrite (cell_unique (7/8) (1/2) 1) by (try lia; cbn; lra).
  repeat split; cbn; try lia; try lra.
Qed.

(** C07. The total azimuthal current of a particle is charge times azimuthal velocity. *)
Theorem C07_azimuthal_total : forall g q v r z j,
  geom_ok g -> 0 < r <= r_size g -> 0 <= z <= z_size g ->
  total (n_r g) (n_z g) (node_volume (dr g) (dz g)) (apply_jincs j (azimuthal_single g q v r z) J_PHI) =
  total (n_r g) (n_z g) (node_volume (dr g) (dz g)) (j J_PHI) + q * v.
Proof. exact azimuthal_total. Qed.
Print Assumptions C07_azimuthal_total.

(** C07, per node: outside half a step from the axis the azimuthal current density equals
    the deposited charge density times the azimuthal velocity. *)
Theorem C07_azimuthal_per_node : forall g q v r z j rho i k,
  geom_ok g -> dr g / 2 <= r ->
  apply_jincs j (azimuthal_single g q v r z) J_PHI i k - j J_PHI i k =
  (charge_weighting g rho [QPart true q r z] i k - rho i k) * v.
Proof. exact azimuthal_is_density. Qed.
Print Assumptions C07_azimuthal_per_node.

(** C07: the other two components are untouched. *)
Theorem C07_azimuthal_only : forall g q v r z j i k,
  apply_jincs j (azimuthal_single g q v r z) J_R i k = j J_R i k /\
  apply_jincs j (azimuthal_single g q v r z) J_Z i k = j J_Z i k.
Proof. intros. split; reflexivity. Qed.
Print Assumptions C07_azimuthal_only.

Example C07_hypotheses_met : let g := sample_geom in
  geom_ok g /\ 0 < 7/3 <= r_size g /\ 0 <= 5/2 <= z_size g /\ dr g / 2 <= 7/3.
Proof. cbv zeta. rewrite sample_dr. split; [apply sample_geom_ok|]. cbn. lra. Qed.
