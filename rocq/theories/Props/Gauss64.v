(** C80: the two Gauss laws in double precision (src/eField.cpp, src/hField.cpp). *)
From Coq Require Import Reals ZArith Lia Lra List Bool.
From Flocq Require Import Core IEEE754.BinarySingleNaN.
From Verif.Lib Require Import RAux Grid Par.
From Verif.Model Require Import Constants Geometry Fields Binary64 Temperature64 Arith GenCode GenFields.
From Verif.Proof Require Import GeometryP ChargeP ChargeP2 FieldsP MaxwellP EnergyP StabilityP PoyntingP Poynting2P PerturbP Err64P Cell64P Solver64P Gauss64P.
From Verif.Props Require Import Double Field64.
From Verif.Spec Require Import Cloud Continuity Maxwell Poynting Field64 Gauss64.
Import ListNotations.
Local Open Scope R_scope.

(** C80. The magnetic law. As long as the fields stay within BE and BH, the net magnetic flux out of every ring of the grid drifts per
    step by at most 27 units of 2^-53 of the surface of the ring times BH + 4 sqrt(eps0 / mu0) BE, whatever the currents. Without
    rounding it would not change at all (C08). *)
Theorem C80_flux : forall (pw lg : b64 -> b64) (g : ggeom (b64_arith pw lg)) md dt theta K BE BH js m i k,
  steady pw lg g md dt theta K -> moderate BE -> moderate BH -> walled pw lg g m -> finite_faces pw lg g m -> always_within pw lg BE BH g md dt js m ->
  (0 <= i < gn_r (b64_arith pw lg) g - 1)%Z -> (0 <= k < gn_z (b64_arith pw lg) g - 1)%Z ->
  Rabs (flux pw lg g (gfield_run (b64_arith pw lg) g md dt js m) i k - flux pw lg g m i k) <= INR (length js) * flux_slack pw lg g BE BH i.
Proof. intros pw lg g md dt theta K BE BH js m i k HS ME MH HW HX HA. exact (flux_run pw lg g md dt theta K HS BE BH BE ME MH ME js m i k HA HW HX). Qed.
Print Assumptions C80_flux.

(** C80. The electric law. If the currents of every step balance the change of the charge of a node up to some eps (C73 gives such an
    eps), the residual of Gauss's law at that node drifts by at most the sum of these and, per step, 27 units of 2^-53 of the surface of
    the control volume times 2 eps0 K BE + dt BJ + 4 sqrt(eps0 mu0) BH. Without rounding, and with eps = 0, it would not change (C09). *)
Theorem C80_gauss : forall (pw lg : b64 -> b64) (g : ggeom (b64_arith pw lg)) md dt theta K BE BH BJ rho h m i k,
  steady pw lg g md dt theta K -> nonconducting pw lg g md -> moderate BE -> moderate BH -> moderate BJ ->
  always_within pw lg BE BH g md dt (map (e_current pw lg) h) m -> Forall (fun e => currents_within pw lg BJ g (e_current pw lg e)) h ->
  (0 <= i < gn_r (b64_arith pw lg) g - 1)%Z -> (1 <= k < gn_z (b64_arith pw lg) g - 1)%Z -> balanced pw lg g dt rho h i k ->
  Rabs (residual pw lg g md (gfield_run (b64_arith pw lg) g md dt (map (e_current pw lg) h) m) (last_rho pw lg rho h) i k - residual pw lg g md m rho i k)
  <= total_eps pw lg h + INR (length h) * gauss_slack pw lg g dt K BE BH BJ i.
Proof. intros pw lg g md dt theta K BE BH BJ rho h m i k HS HM ME MH MJ HA HJ. exact (gauss_run pw lg g md dt theta K HS BE BH BJ ME MH MJ h m rho i k HM HA HJ). Qed.
Print Assumptions C80_gauss.

(** C80. No bound of the fields need be assumed: the budget of C77 gives one. *)
Theorem C80_within : forall (pw lg : b64 -> b64) (g : ggeom (b64_arith pw lg)) md dt theta K js m B,
  steady pw lg g md dt theta K -> finite_fields pw lg g m -> walled pw lg g m -> Forall (finite_currents pw lg g) js ->
  budget pw lg g md dt theta K js m <= bp 300 -> bp 70 * budget pw lg g md dt theta K js m <= B ->
  always_within pw lg B B g md dt js m.
Proof. intros pw lg g md dt theta K js m B HS HF HW. exact (budget_within pw lg g md dt theta K HS js m B (conj HF HW)). Qed.
Print Assumptions C80_within.

(** The flux does drift: a grid of 3 x 3 nodes of a metre, vacuum, no currents, an azimuthal field of 1 V/m at the one node inside, one
    step. *)
Definition round64 : gmem D := fun x => match x with (EPHI, 1%Z, 1%Z) => z64 1 | _ => z64 0 end.
Lemma vacuum_steady : steady pw0 lg0 grid64 vacuum64 step64 (1 / 2) 2.
Proof.
  value (gdr D grid64). value (gdz D grid64). value step64. value (z64 1). value (z64 0).
  constructor; change (b64_arith pw0 lg0) with D; try assumption; cbn [gn_r gn_z grid64 gepsilon gsigma vacuum64]; try lia; try (rewrite ?V, ?V0, ?V1, ?V2, ?V3; unfold EPSILON0, MAGN_CONST; cbn; lra).
  - intros i k _ _. cbn [gepsilon gsigma vacuum64]. rewrite V2, V3. cbn. repeat split; try assumption; lra.
  - intros i k _ _. cbn [gepsilon gsigma vacuum64]. rewrite V2, V3, V1. unfold EPSILON0. cbn. lra.
Qed.
Theorem C80_exact_refuted : steady pw0 lg0 grid64 vacuum64 step64 (1 / 2) 2 /\ finite_fields pw0 lg0 grid64 round64 /\ walled pw0 lg0 grid64 round64 /\ finite_faces pw0 lg0 grid64 round64 /\
  flux pw0 lg0 grid64 round64 1 0 = 0 /\ flux pw0 lg0 grid64 (gfield_run D grid64 vacuum64 step64 [none pw0 lg0] round64) 1 0 <> 0.
Proof.
  split; [exact vacuum_steady|]. value (z64 0). value (z64 1). value (gdr D grid64). value (gdz D grid64).
  assert (FF : forall x, @is_finite prec64 emax64 (round64 x) = true) by (intros [[a i] k]; destruct a; try assumption; destruct i as [|i|i]; try assumption; destruct i; try assumption; destruct k as [|k|k]; try assumption; destruct k; assumption).
  split; [intros x _; apply FF|]. split.
  { intros [[a i] k] Hx. split; [apply FF|]. destruct a; cbn in Hx; try contradiction; try exact V. destruct i as [|i|i]; try exact V; destruct i; try exact V; destruct k as [|k|k]; try exact V; destruct k; try exact V. exfalso; lia. }
  split; [intros x _; apply FF|]. set (m' := gfield_run D grid64 vacuum64 step64 [none pw0 lg0] round64).
  unfold flux, magnetic_flux, comp, real_fields. change (1 + 1)%Z with 2%Z. change (0 + 1)%Z with 1%Z. change (b64_arith pw0 lg0) with D.
  split.
  - change (round64 (HR, 2%Z, 0%Z)) with (z64 0). change (round64 (HR, 1%Z, 0%Z)) with (z64 0). change (round64 (HZ, 1%Z, 1%Z)) with (z64 0). change (round64 (HZ, 1%Z, 0%Z)) with (z64 0). rewrite V. unfold F2R. cbn [Fnum Fexp]. ring_simplify. lra.
  - value (m' (HR, 2%Z, 0%Z)). value (m' (HR, 1%Z, 0%Z)). value (m' (HZ, 1%Z, 1%Z)). value (m' (HZ, 1%Z, 0%Z)). rewrite V1, V2, V3, V4, V5, V6. assert (P := PI_RGT_0).
    intro X. lra.
Qed.
Print Assumptions C80_exact_refuted.

(** The hypotheses can be met: the same grid, a field on the axis, two steps with a current everywhere that the charge follows. *)
Definition follow (rho : arr) : arr := fun i k =>
  rho i k - outflow 1 1 (/ 1073741824) (fun _ _ => 1) (fun _ _ => 1) i k / node_volume 1 1 i.
Definition history : list (event pw0 lg0) :=
  [Event pw0 lg0 flow64 (follow (fun _ _ => 0)) 0; Event pw0 lg0 flow64 (follow (follow (fun _ _ => 0))) 0].
Example C80_hypotheses_met : steady pw0 lg0 grid64 vacuum64 step64 (1 / 2) 2 /\ nonconducting pw0 lg0 grid64 vacuum64 /\ moderate (bp 150) /\ moderate 1 /\
  finite_fields pw0 lg0 grid64 axis64 /\ walled pw0 lg0 grid64 axis64 /\ finite_faces pw0 lg0 grid64 axis64 /\ Forall (finite_currents pw0 lg0 grid64) [flow64; flow64] /\
  budget pw0 lg0 grid64 vacuum64 step64 (1 / 2) 2 [flow64; flow64] axis64 <= bp 80 /\ always_within pw0 lg0 (bp 150) (bp 150) grid64 vacuum64 step64 (map (e_current pw0 lg0) history) axis64 /\
  Forall (fun e => currents_within pw0 lg0 1 grid64 (e_current pw0 lg0 e)) history /\ balanced pw0 lg0 grid64 step64 (fun _ _ => 0) history 1 1 /\
  gauss_residual 1 1 (fun _ _ => 1) (comp (real_fields pw0 lg0 axis64) ER) (comp (real_fields pw0 lg0 axis64) EZ) (fun _ _ => 0) 0 1 <> 0.
Proof.
  assert (ST := vacuum_steady). value (gdr D grid64). value (gdz D grid64). value step64. value (z64 1). value (z64 0).
  assert (FF : forall x, @is_finite prec64 emax64 (axis64 x) = true) by (intros [[a i] k]; destruct a, i, k as [|k|k]; try assumption; destruct k; assumption).
  assert (WA : walled pw0 lg0 grid64 axis64) by (intros [[a i] k] Hx; split; [apply FF|]; destruct a; cbn in Hx; try contradiction; try (destruct i, k; exact V3); destruct Hx as (-> & Hx); destruct k; exact V3).
  assert (FC : Forall (finite_currents pw0 lg0 grid64) [flow64; flow64]) by (repeat constructor; intros i k _ _; repeat split; assumption).
  assert (EN : sqrt (energy pw0 lg0 grid64 vacuum64 step64 axis64) <= bp 2).
  { assert (DR : Geometry.dr (real_geom pw0 lg0 grid64) = 1) by (rewrite (G_dr _ _ _ _ _ _ _ ST); eapply eq_trans; [exact V|lra]). assert (DZ : Geometry.dz (real_geom pw0 lg0 grid64) = 1) by (rewrite (G_dz _ _ _ _ _ _ _ ST); eapply eq_trans; [exact V0|lra]).
    replace (bp 2) with (sqrt (4 * 4)) by (rewrite sqrt_square; [reflexivity|lra]). apply sqrt_le_1_alt.
    unfold energy, leapfrog_energy, electric_energy, electric_form, magnetic_form. rewrite DR, DZ. change (n_r (real_geom pw0 lg0 grid64)) with 3%Z. change (n_z (real_geom pw0 lg0 grid64)) with 3%Z. change (3 - 1)%Z with 2%Z.
    unfold sum2, zsum. change (Z.to_nat (2 - 0)) with 2%nat. change (Z.to_nat (2 - 1)) with 1%nat. cbn [zsum_n]. change (0 + 1)%Z with 1%Z. unfold real_fields, axis64, real_medium. cbn [epsilon gepsilon vacuum64].
    repeat match goal with |- context [@B2R prec64 emax64 (z64 0)] => change (@B2R prec64 emax64 (z64 0)) with (B2R (z64 0 : b64)) end. repeat match goal with |- context [@B2R prec64 emax64 (z64 1)] => change (@B2R prec64 emax64 (z64 1)) with (B2R (z64 1 : b64)) end.
    rewrite V2, V3, node_volume_0. unfold CYL_VOL, EPSILON0, c_PI. lra. }
  assert (BU : budget pw0 lg0 grid64 vacuum64 step64 (1 / 2) 2 [flow64; flow64] axis64 <= bp 80).
  {
    unfold budget. cbn [length map total_size fold_right INR pow].
    assert (CS : current_size (real_geom pw0 lg0 grid64) (real_currents pw0 lg0 flow64) <= bp 48).
    { apply Rle_trans with (2 := e_one_bound _ _ _ _ _ _ _ ST). apply (en_le _ (G_ok _ _ _ _ _ _ _ ST) (density (real_currents pw0 lg0 flow64)) (fun _ _ _ => 1)). intros a i k Ha.
      destruct a; cbn in Ha; try contradiction; unfold density, real_currents, flow64; cbn [cur_r cur_phi cur_z gcur_r gcur_phi gcur_z].
      - change (Rabs (B2R (z64 1 : b64)) <= 1). rewrite V2, Rabs_pos_eq; cbn; lra.
      - change (Rabs (B2R (z64 0 : b64)) <= 1). rewrite V3, Rabs_R0. lra.
      - change (Rabs (B2R (z64 1 : b64)) <= 1). rewrite V2, Rabs_pos_eq; cbn; lra. }
    assert (C0 : 0 <= current_size (real_geom pw0 lg0 grid64) (real_currents pw0 lg0 flow64)) by apply sqrt_pos. set (c := current_size (real_geom pw0 lg0 grid64) (real_currents pw0 lg0 flow64)) in *.
    assert (GR : 1 <= growth (1 / 2) 2 <= 2) by (unfold growth; cbn; lra). set (G := growth (1 / 2) 2) in *. assert (S0 := sqrt_pos (energy pw0 lg0 grid64 vacuum64 step64 axis64)).
    assert (RL : 0 < / sqrt (2 * (1 / 2) * EPSILON0) <= bp 23) by (exact (inv_bp _ (-23) (rate_lower _ _ _ _ _ _ _ ST))). unfold Rdiv at 1. set (r := / sqrt (2 * (1 / 2) * EPSILON0)) in *.
    apply Rle_trans with (2 * (2 * 1) * (bp 2 + bp 23 * (bp 48 + (bp 48 + 0)) + (1 + 1) * 1)).
    - assert (P0 : 0 <= B2R step64 * r <= bp 23) by (rewrite V1; cbn in *; lra). assert (Q0 := bpow_ge_0 radix2 (-300)). assert (Q1 : bp (-300) <= 1) by (apply (bpow_le radix2 _ 0); lia).
      assert (P1 : 0 <= B2R step64 * r * (c + (c + 0))) by (apply Rmult_le_pos; lra).
      apply Rmult_le_compat; [apply Rmult_le_pos; lra|lra| |]; [apply Rmult_le_compat; lra|]. apply Rplus_le_compat; [apply Rplus_le_compat; [exact EN|apply Rmult_le_compat; lra]|]. apply Rmult_le_compat_l; lra.
    - cbn; lra. }
  assert (E1 : B2R (z64 1 : b64) = 1) by (rewrite V2; lra). assert (EDR : B2R (gdr D grid64 : b64) = 1) by (rewrite V; lra). assert (EDZ : B2R (gdz D grid64 : b64) = 1) by (rewrite V0; lra). assert (EDT : B2R step64 = / 1073741824) by (rewrite V1; lra).
  split; [exact ST|]. split; [intros i k _ _; exact V3|]. split; [split; apply bpow_le; lia|]. split; [split; [apply (bpow_le radix2 (-440) 0); lia|apply (bpow_le radix2 0); lia]|].
  split; [intros x _; apply FF|]. split; [exact WA|]. split; [intros x _; apply FF|]. split; [exact FC|]. split; [exact BU|].
  split; [apply (C80_within pw0 lg0 grid64 vacuum64 step64 (1 / 2) 2 [flow64; flow64] axis64 (bp 150) ST (fun x _ => FF x) WA FC); [apply Rle_trans with (1 := BU); apply bpow_le; lia|]; change 150%Z with (70 + 80)%Z; rewrite bpow_plus; apply Rmult_le_compat_l; [apply bpow_ge_0|exact BU]|].
  assert (CB : currents_within pw0 lg0 1 grid64 flow64) by (intros i k _ _; cbn [gcur_r gcur_z flow64]; rewrite E1, Rabs_R1; repeat split; try assumption; lra).
  split; [constructor; [exact CB|constructor; [exact CB|constructor]]|].
  assert (FB : forall rho, balance_upto pw0 lg0 0 grid64 step64 (follow rho) rho flow64 1 1).
  { intro rho. unfold balance_upto. change (b64_arith pw0 lg0) with D. rewrite EDR, EDZ, EDT. unfold real_currents, flow64. cbn [cur_r cur_z gcur_r gcur_z].
    assert (P := node_volume_pos 1 1 1 ltac:(lra) ltac:(lra) ltac:(lia)). unfold follow, outflow. rewrite E1.
    match goal with |- Rabs ?x <= 0 => replace x with 0 by (field; lra) end. rewrite Rabs_R0. lra. }
  split; [split; [apply FB|split; [apply FB|exact I]]|].
  unfold gauss_residual, comp, real_fields. change (1 - 1)%Z with 0%Z. change (0 - 1)%Z with (-1)%Z. change (axis64 (EZ, 0%Z, 1%Z)) with (z64 1). change (axis64 (EZ, 0%Z, 0%Z)) with (z64 0). change (axis64 (ER, 0%Z, 1%Z)) with (z64 0). change (axis64 (ER, (-1)%Z, 1%Z)) with (z64 0).
  rewrite E1, V3. unfold node_area, node_outer, node_inner. cbn. unfold EPSILON0, c_PI. lra.
Qed.
