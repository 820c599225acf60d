(** Current deposition: statements on the arrays, lists of particles, array bounds,
    azimuthal current (C04-C07, C16). *)
From Coq Require Import Reals ZArith Lia Lra List Bool Psatz.
From Verif.Lib Require Import RAux Grid.
From Verif.Model Require Import Constants Geometry ChargeDeposit CurrentDeposit.
From Verif.Spec Require Import Cloud Continuity.
From Verif.Proof Require Import GeometryP ChargeP ChargeP2 CurrentP CurrentP2 CurrentP3.
Import ListNotations.
Local Open Scope R_scope.

(** ** From shares to densities *)

Definition added (j : currents) (l : list jinc) (c : jcomp) : arr :=
  fun i k => apply_jincs j l c i k - j c i k.

Lemma added_dep : forall j l c i k, added j l c i k = dep c l i k.
Proof. intros. unfold added. rewrite apply_jincs_at. ring. Qed.

Lemma outflow_ext : forall d_r d_z dt jr jz jr' jz' i k,
  (forall a b, jr a b = jr' a b) -> (forall a b, jz a b = jz' a b) ->
  outflow d_r d_z dt jr jz i k = outflow d_r d_z dt jr' jz' i k.
Proof. intros d_r d_z dt jr jz jr' jz' i k HR HZ. unfold outflow. now rewrite !HR, !HZ. Qed.

Lemma single_density : forall g q r z rho i k, geom_ok g -> dr g / 2 <= r -> 0 <= z ->
  (charge_weighting g rho [QPart true q r z] i k - rho i k) * node_volume (dr g) (dz g) i =
  q * share (dr g) (dz g) i k r z.
Proof.
  intros g q r z rho i k Hg Hr Hz.
  rewrite <- (charge_weighting_share g q r z Hg Hr Hz i k), charge_weighting_incs, apply_incs_at.
  cbn [flat_map]. rewrite app_nil_r. unfold charge_weighting_part. cbn [q_alive q_charge q_r q_z]. ring.
Qed.

Lemma cont_balance : forall g dt q l rn zn ro zo rho j,
  geom_ok g -> dr g / 2 <= rn -> dr g / 2 <= ro -> 0 <= zn -> 0 <= zo ->
  (cont g dt q l rn zn ro zo <->
   charge_balance (dr g) (dz g) dt
    (charge_weighting g rho [QPart true q rn zn]) (charge_weighting g rho [QPart true q ro zo])
    (added j l J_R) (added j l J_Z)).
Proof.
  intros g dt q l rn zn ro zo rho j Hg Hn Ho Zn Zo.
  assert (E : forall i k,
   (charge_weighting g rho [QPart true q rn zn] i k - charge_weighting g rho [QPart true q ro zo] i k)
     * node_volume (dr g) (dz g) i =
   q * share (dr g) (dz g) i k rn zn - q * share (dr g) (dz g) i k ro zo).
  { intros i k.
    rewrite <- (single_density g q rn zn rho i k), <- (single_density g q ro zo rho i k) by assumption.
    ring. }
  split; intros H i k; specialize (H i k).
  - rewrite E, H. f_equal. apply outflow_ext; intros; symmetry; apply added_dep.
  - rewrite <- E, H. f_equal. apply outflow_ext; intros; apply added_dep.
Qed.

(** ** Moves inside one closed cell have no crossings *)

Lemma open_cell_no_line : forall d c x, 0 < d -> IZR c * d < x < (IZR c + 1) * d -> ~ on_line d x.
Proof.
  intros d c x Hd [H1 H2] [n E]. subst x.
  assert (A : IZR c < IZR n) by nra. assert (B : IZR n < IZR (c + 1)) by (rewrite plus_IZR; nra).
  apply lt_IZR in A. apply lt_IZR in B. lia.
Qed.

Lemma interior_open : forall d c x x' t, 0 < t < 1 -> x <> x' -> in_cell d c x -> in_cell d c x' ->
  IZR c * d < x + t * (x' - x) < (IZR c + 1) * d.
Proof.
  intros d c x x' t T N [A1 A2] [B1 B2].
  destruct (Rlt_le_dec x x') as [H|H].
  - split; nra.
  - assert (x' < x) by lra. split; nra.
Qed.

Lemma in_cell_legs : forall m d_r d_z rn zn ro zo c k,
  0 < d_r -> 0 < d_z -> 0 < m -> m <= Rabs (rn - ro) -> m <= Rabs (zn - zo) ->
  in_cell d_r c rn -> in_cell d_r c ro -> in_cell d_z k zn -> in_cell d_z k zo ->
  legs_at_least m d_r d_z rn zn ro zo /\ avoids_nodes d_r d_z rn zn ro zo.
Proof.
  intros m d_r d_z rn zn ro zo c k Hr Hz Hm Mr Mz In Io Kn Ko.
  assert (Nr : ro <> rn) by (intros ->; rewrite Rminus_eq_0, Rabs_R0 in Mr; lra).
  assert (Nz : zo <> zn) by (intros ->; rewrite Rminus_eq_0, Rabs_R0 in Mz; lra).
  assert (LR : forall t, 0 < t < 1 -> ~ on_line d_r (ro + t * (rn - ro))).
  { intros t T. apply open_cell_no_line with c; auto. apply interior_open; auto. }
  assert (LZ : forall t, 0 < t < 1 -> ~ on_line d_z (zo + t * (zn - zo))).
  { intros t T. apply open_cell_no_line with k; auto. apply interior_open; auto. }
  assert (EV : forall t, leg_end d_r d_z rn zn ro zo t -> t = 0 \/ t = 1).
  { intros t [H|[H|[T [H|H]]]]; auto; exfalso; [now apply (LR t T)|now apply (LZ t T)]. }
  split.
  - intros t t' E E' T. apply EV in E. apply EV in E'.
    assert (t = 0) by lra. assert (t' = 1) by lra. subst. rewrite Rminus_0_r, !Rmult_1_l. auto.
  - intros t T H. exfalso. now apply (LR t T).
Qed.

(** ** Lists of particles *)

Lemma current_distribution_incs : forall g dt ps j,
  current_distribution g dt j ps = apply_jincs j (flat_map (current_part g dt) ps).
Proof.
  intros g dt ps. unfold current_distribution. induction ps as [|p ps IH]; intro j; [reflexivity|].
  cbn [fold_left flat_map]. rewrite IH. unfold apply_jincs. rewrite fold_left_app. reflexivity.
Qed.

Definition q_new (p : cpart) : qpart := QPart (c_alive p) (c_charge p) (c_r p) (c_z p).
Definition q_old (p : cpart) : qpart := QPart (c_alive p) (c_charge p) (c_r_old p) (c_z_old p).

Lemma list_balance : forall g dt ps rho j,
  (forall p, In p ps -> c_alive p = true ->
     charge_balance (dr g) (dz g) dt
      (charge_weighting g zero_arr [q_new p]) (charge_weighting g zero_arr [q_old p])
      (dep J_R (current_part g dt p)) (dep J_Z (current_part g dt p))) ->
  charge_balance (dr g) (dz g) dt
    (charge_weighting g rho (map q_new ps)) (charge_weighting g rho (map q_old ps))
    (fun i k => current_distribution g dt j ps J_R i k - j J_R i k)
    (fun i k => current_distribution g dt j ps J_Z i k - j J_Z i k).
Proof.
  intros g dt ps rho j H i k.
  assert (E : outflow (dr g) (dz g) dt
    (fun i k => current_distribution g dt j ps J_R i k - j J_R i k)
    (fun i k => current_distribution g dt j ps J_Z i k - j J_Z i k) i k =
    outflow (dr g) (dz g) dt (dep J_R (flat_map (current_part g dt) ps))
                             (dep J_Z (flat_map (current_part g dt) ps)) i k).
  { apply outflow_ext; intros a b; rewrite current_distribution_incs, apply_jincs_at; ring. }
  rewrite E. clear E.
  rewrite (charge_weighting_sum g (map q_new ps)), (charge_weighting_sum g (map q_old ps)).
  induction ps as [|p ps IH].
  - cbn. unfold outflow. rewrite !dep_nil. ring.
  - cbn [map rsum flat_map].
    assert (IH' := IH (fun p' Hp => H p' (or_intror Hp))). clear IH.
    assert (S : outflow (dr g) (dz g) dt
        (dep J_R (current_part g dt p ++ flat_map (current_part g dt) ps))
        (dep J_Z (current_part g dt p ++ flat_map (current_part g dt) ps)) i k =
      outflow (dr g) (dz g) dt (dep J_R (current_part g dt p)) (dep J_Z (current_part g dt p)) i k +
      outflow (dr g) (dz g) dt (dep J_R (flat_map (current_part g dt) ps))
                               (dep J_Z (flat_map (current_part g dt) ps)) i k).
    { unfold outflow. rewrite !dep_app. ring. }
    rewrite S.
    assert (B : (charge_weighting g zero_arr [q_new p] i k - charge_weighting g zero_arr [q_old p] i k)
                * node_volume (dr g) (dz g) i =
                - outflow (dr g) (dz g) dt (dep J_R (current_part g dt p)) (dep J_Z (current_part g dt p)) i k).
    { destruct (c_alive p) eqn:A.
      - apply (H p (or_introl eq_refl) A).
      - unfold current_part, q_new, q_old, charge_weighting, charge_weighting_part. rewrite A. cbn.
        unfold outflow. rewrite !dep_nil. ring. }
    lra.
Qed.

(** ** Array bounds *)

Definition jinside (g : geom) (c : jinc) : Prop := inc_inside (n_r g) (n_z g) (j_inc c).

Lemma simple_inside : forall g dt q rn zn ro zo c k,
  (0 <= c <= n_r g - 2)%Z -> (0 <= k <= n_z g - 2)%Z ->
  Forall (jinside g) (simple_current g dt q rn zn ro zo c k).
Proof.
  intros g dt q rn zn ro zo c k Hc Hk. unfold simple_current.
  destruct (Rlt_dec (Rabs (rn - ro)) MNZL); [constructor|].
  destruct (Rlt_dec (Rabs (zn - zo)) MNZL); [constructor|].
  destruct (1 <=? c)%Z;
    repeat (apply Forall_cons; [split; cbn; lia|]); apply Forall_nil.
Qed.

Lemma tie_cells_values : forall d pn po cn co, tie_cells d pn po = (cn, co) ->
  (cn = cell pn d \/ cn = cell po d) /\ (co = cell pn d \/ co = cell po d).
Proof.
  intros d pn po cn co. unfold tie_cells.
  destruct (Req_EM_T po ((IZR (cell po d) + 1) * d)), (Req_EM_T pn ((IZR (cell pn d) + 1) * d));
    intro E; injection E as <- <-; auto.
Qed.

Theorem current_single_inside : forall g dt q rn zn ro zo,
  geom_ok g -> 0 < rn <= r_size g -> 0 < ro <= r_size g -> 0 < zn <= z_size g -> 0 < zo <= z_size g ->
  Rabs (rn - ro) < dr g -> Rabs (zn - zo) < dz g ->
  Forall (jinside g) (current_single g dt q rn zn ro zo).
Proof.
  intros g dt q rn zn ro zo Hg [Hn0 Hn] [Ho0 Ho] [Zn0 Zn] [Zo0 Zo] Dr Dz.
  assert (Hdr := dr_pos g Hg). assert (Hdz := dz_pos g Hg).
  assert (Bn := cell_r_bound g rn Hg Hn). assert (Bo := cell_r_bound g ro Hg Ho).
  assert (Kn := cell_z_bound g zn Hg Zn). assert (Ko := cell_z_bound g zo Hg Zo).
  unfold current_single.
  destruct (tie_cells (dr g) rn ro) as [i_n i_o] eqn:Ei.
  destruct (tie_cells (dz g) zn zo) as [k_n k_o] eqn:Ek.
  assert (Vi := tie_cells_values _ _ _ _ _ Ei). assert (Vk := tie_cells_values _ _ _ _ _ Ek).
  assert (Ci : (-1 <= i_n - i_o <= 1)%Z).
  { assert (X := cell_diff_bound (dr g) rn ro Hdr Hn0 Ho0 Dr). lia. }
  assert (Ck : (-1 <= k_n - k_o <= 1)%Z).
  { assert (X := cell_diff_bound (dz g) zn zo Hdz Zn0 Zo0 Dz). lia. }
  assert (ST : Forall (jinside g) (strict_motion g dt q rn zn ro zo)).
  { unfold strict_motion.
    assert (X := cell_diff_bound (dr g) rn ro Hdr Hn0 Ho0 Dr).
    assert (Y := cell_diff_bound (dz g) zn zo Hdz Zn0 Zo0 Dz).
    destruct (Rlt_dec (Rabs (rn - ro)) MNZL); [destruct (Rlt_dec (Rabs (zn - zo)) MNZL); [constructor|]|
      destruct (Rlt_dec (Rabs (zn - zo)) MNZL); [|constructor]].
    - unfold strict_axial. cbv zeta.
      destruct (Z.eqb_spec (cell zn (dz g) - cell zo (dz g)) 0) as [E|E];
       [|destruct (Z.eqb_spec (cell zn (dz g) - cell zo (dz g)) 1) as [E1|E1];
       [|destruct (Z.eqb_spec (cell zn (dz g) - cell zo (dz g)) (-1)) as [E2|E2]]]; cbn [app];
       repeat (apply Forall_cons; [split; cbn; lia|]); apply Forall_nil.
    - unfold strict_radial. cbv zeta.
      destruct (Z.eqb_spec (cell rn (dr g) - cell ro (dr g)) 0) as [E|E];
       [|destruct (Z.eqb_spec (cell rn (dr g) - cell ro (dr g)) 1) as [E1|E1];
       [|destruct (Z.eqb_spec (cell rn (dr g) - cell ro (dr g)) (-1)) as [E2|E2]]];
       repeat (apply Forall_cons; [split; cbn; lia|]); apply Forall_nil. }
  destruct (Rlt_dec (Rabs (rn - ro)) MNZL); [exact ST|].
  destruct (Rlt_dec (Rabs (zn - zo)) MNZL); [exact ST|].
  clear ST.
  destruct (Z.eqb_spec (Z.abs (i_n - i_o) + Z.abs (k_n - k_o)) 0) as [R0|R0].
  { apply simple_inside; lia. }
  destruct (Z.eqb_spec (Z.abs (i_n - i_o) + Z.abs (k_n - k_o)) 1) as [R1|R1].
  { unfold current_one_border. cbv zeta.
    destruct (Z.eqb_spec i_n i_o) as [E|E], (Z.eqb_spec k_n k_o) as [E'|E']; cbn [negb andb];
      try constructor.
    - destruct (Rlt_dec zo (IZR k_n * dz g)) as [X|X].
      + apply Forall_app; split; apply simple_inside; try lia.
        assert (Y : (k_n - 1 = k_o)%Z \/ (k_o = k_n + 1)%Z) by lia. destruct Y as [Y|Y]; [lia|].
        exfalso. destruct (tie_cells_case (dz g) zn zo Hdz Zn0 Zo0 Dz k_n k_o Ek) as [?|?|W W0 [W1 _] _ _ _]; try lia.
        rewrite W, plus_IZR in W1. nra.
      + apply Forall_app; split; apply simple_inside; try lia.
        assert (Y : (k_n - 1 = k_o)%Z \/ (k_o = k_n + 1)%Z) by lia. destruct Y as [Y|Y]; [|lia].
        exfalso. destruct (tie_cells_case (dz g) zn zo Hdz Zn0 Zo0 Dz k_n k_o Ek) as [?|W W0 _ _ W1 _|?]; try lia.
        lra.
    - destruct (Rlt_dec ((IZR i_n + 1) * dr g) ro) as [X|X].
      + apply Forall_app; split; apply simple_inside; try lia.
        assert (Y : (i_n - 1 = i_o)%Z \/ (i_o = i_n + 1)%Z) by lia. destruct Y as [Y|Y]; [|lia].
        exfalso. destruct (tie_cells_case (dr g) rn ro Hdr Hn0 Ho0 Dr i_n i_o Ei) as [?|W W0 _ _ W1 _|?]; try lia.
        nra.
      + apply Forall_app; split; apply simple_inside; try lia.
        assert (Y : (i_n - 1 = i_o)%Z \/ (i_o = i_n + 1)%Z) by lia. destruct Y as [Y|Y]; [lia|].
        exfalso. destruct (tie_cells_case (dr g) rn ro Hdr Hn0 Ho0 Dr i_n i_o Ei) as [?|?|W W0 _ _ _ W1]; try lia.
        rewrite W, plus_IZR in W1. lra. }
  destruct (Z.eqb_spec (Z.abs (i_n - i_o) + Z.abs (k_n - k_o)) 2) as [R2|R2]; [|constructor].
  unfold current_two_borders. cbv zeta.
  destruct (Z.ltb_spec i_o i_n); [|destruct (Z.ltb_spec i_n i_o); [|constructor]];
  (destruct (Z.ltb_spec k_o k_n); [|try (destruct (Z.ltb_spec k_n k_o); [|constructor])]);
  repeat match goal with |- context [if Rlt_dec ?a ?b then _ else _] => destruct (Rlt_dec a b) end;
  try constructor;
  repeat (apply Forall_app; split); apply simple_inside; lia.
Qed.

(** ** Azimuthal current *)

Lemma azimuthal_inside : forall g q v r z, geom_ok g -> r <= r_size g -> z <= z_size g ->
  Forall (jinside g) (azimuthal_single g q v r z).
Proof.
  intros g q v r z Hg Hr Hz.
  assert (A := cell_r_bound g r Hg Hr). assert (B := cell_z_bound g z Hg Hz).
  unfold azimuthal_single.
  repeat (apply Forall_cons; [split; cbn; lia|]); apply Forall_nil.
Qed.

Lemma inside_comp_incs : forall g c l, Forall (jinside g) l ->
  Forall (inc_inside (n_r g) (n_z g)) (comp_incs c l).
Proof.
  intros g c l H. unfold comp_incs. induction H as [|x l Hx _ IH]; [constructor|].
  cbn [filter]. destruct (jcomp_eqb c (j_comp x)); [|exact IH]. cbn [map]. now constructor.
Qed.

Lemma apply_jincs_comp : forall l j c i k, apply_jincs j l c i k = apply_incs (j c) (comp_incs c l) i k.
Proof. intros. rewrite apply_jincs_at, apply_incs_at. reflexivity. Qed.

Theorem azimuthal_total : forall g q v r z j,
  geom_ok g -> 0 < r <= r_size g -> 0 <= z <= z_size g ->
  total (n_r g) (n_z g) (node_volume (dr g) (dz g)) (apply_jincs j (azimuthal_single g q v r z) J_PHI) =
  total (n_r g) (n_z g) (node_volume (dr g) (dz g)) (j J_PHI) + q * v.
Proof.
  intros g q v r z j Hg [Hr0 Hr] [Hz0 Hz].
  rewrite (total_ext _ _ _ _ _ (fun i k _ => apply_jincs_comp _ _ _ i k)).
  rewrite total_apply_incs by (apply inside_comp_incs, azimuthal_inside; auto). f_equal.
  assert (Hdr := dr_pos g Hg). assert (Hdz := dz_pos g Hg). assert (HP := c_PI_pos).
  unfold azimuthal_single. cbv zeta. unfold comp_incs. cbn [filter map j_comp j_inc jcomp_eqb rsum row val inc_j_phi].
  destruct (Rlt_dec (dr g) r) as [H|H].
  - assert (C1 := cell_pos r (dr g) Hdr H). assert (C1R := IZR_ge1 _ C1).
    rewrite !node_volume_pos_i by lia.
    unfold CELL_VOLUME, CYL_RNG_VOL. rewrite plus_IZR. field. repeat split; lra.
  - rewrite (cell_zero r (dr g)) by lra.
    rewrite node_volume_0, node_volume_pos_i by lia.
    unfold CYL_VOL, CELL_VOLUME, CYL_RNG_VOL. rewrite plus_IZR. field. repeat split; lra.
Qed.

(** For r >= dr/2 the azimuthal current of a node is v_phi times the charge density that
    charge deposition assigns to the node. *)
Theorem azimuthal_is_density : forall g q v r z j rho i k,
  geom_ok g -> dr g / 2 <= r ->
  apply_jincs j (azimuthal_single g q v r z) J_PHI i k - j J_PHI i k =
  (charge_weighting g rho [QPart true q r z] i k - rho i k) * v.
Proof.
  intros g q v r z j rho i k Hg Hr.
  assert (Hdr := dr_pos g Hg). assert (Hdz := dz_pos g Hg). assert (HP := c_PI_pos).
  rewrite apply_jincs_at, charge_weighting_incs, apply_incs_at. cbn [flat_map]. rewrite app_nil_r.
  unfold charge_weighting_part. cbn [q_alive q_charge q_r q_z].
  transitivity (inc_at (charge_weighting_single g q r z) i k * v); [|ring].
  transitivity (dep J_PHI (azimuthal_single g q v r z) i k); [ring|].
  unfold dep, azimuthal_single, charge_weighting_single. cbv zeta.
  destruct (Rlt_dec (dr g) r) as [H|H]; [|destruct (Rle_dec r (dr g / 2)) as [H'|H']].
  - unfold comp_incs, inc_at. cbn [filter map j_comp j_inc jcomp_eqb rsum row col val inc_j_phi].
    repeat match goal with |- context [if ?b then _ else _] => destruct b end; ring.
  - assert (E : r = dr g / 2) by lra.
    rewrite (cell_zero r (dr g)) by lra.
    unfold comp_incs, inc_at. cbn [filter map j_comp j_inc jcomp_eqb rsum row col val inc_j_phi].
    unfold CYL_VOL, CELL_VOLUME, CYL_RNG_VOL. rewrite E.
    repeat match goal with |- context [if ?b then _ else _] => destruct b end;
      field; repeat split; try lra; apply Rgt_not_eq; nra.
  - unfold comp_incs, inc_at. cbn [filter map j_comp j_inc jcomp_eqb rsum row col val inc_j_phi].
    repeat match goal with |- context [if ?b then _ else _] => destruct b end; ring.
Qed.
