(** Property C77: the field solver is stable in double precision (src/eField.cpp, src/hField.cpp, src/loadInitParam.cpp lines 487-528). *)
From Coq Require Import Reals ZArith Lia Lra List Bool.
From Flocq Require Import Core IEEE754.BinarySingleNaN.
From Verif.Lib Require Import RAux Grid Par.
From Verif.Model Require Import Constants Geometry Fields Binary64 Temperature64 Arith GenCode GenFields.
From Verif.Proof Require Import GeometryP ChargeP FieldsP MaxwellP EnergyP StabilityP PoyntingP Poynting2P PerturbP Err64P Cell64P Solver64P.
From Verif.Props Require Import Double.
From Verif.Spec Require Import Cloud Continuity Maxwell Poynting Field64.
Import ListNotations.
Local Open Scope R_scope.
Notation bp := (bpow radix2).

(** C77. Whatever the fields, the currents and the number of steps: as long as the budget stays below 2^300, no field component
    overflows, the walls stay at zero, and the root of the energy stays within the budget, which is what it could grow to
    without rounding (C76) times a factor 1 + 2^-43 K / theta per step. pw and lg stand for the library functions, which the
    field solver does not call. *)
Theorem C77_stable : forall (pw lg : b64 -> b64) (g : ggeom (b64_arith pw lg)) md dt theta K js m,
  steady pw lg g md dt theta K -> finite_fields pw lg g m -> walled pw lg g m -> Forall (finite_currents pw lg g) js ->
  budget pw lg g md dt theta K js m <= bp 300 ->
  let m' := gfield_run (b64_arith pw lg) g md dt js m in
  finite_fields pw lg g m' /\ walled pw lg g m' /\ sqrt (energy pw lg g md dt m') <= budget pw lg g md dt theta K js m.
Proof.
  intros pw lg g md dt theta K js m HS HF HW HJ HB. destruct (run64 pw lg g md dt theta K HS js m (conj HF HW) HJ HB) as ((F & W) & E). split; [exact F|]. split; [exact W|exact E].
Qed.
Print Assumptions C77_stable.

(** C77. So every component is bounded, on every grid the theorem covers. *)
Theorem C77_bounded : forall (pw lg : b64 -> b64) (g : ggeom (b64_arith pw lg)) md dt theta K js m x,
  steady pw lg g md dt theta K -> finite_fields pw lg g m -> walled pw lg g m -> Forall (finite_currents pw lg g) js ->
  budget pw lg g md dt theta K js m <= bp 300 -> free (real_geom pw lg g) x ->
  Rabs (B2R (gfield_run (b64_arith pw lg) g md dt js m x : b64)) <= bp 70 * budget pw lg g md dt theta K js m.
Proof.
  intros pw lg g md dt theta K js m x HS HF HW HJ HB Hx. destruct (run64 pw lg g md dt theta K HS js m (conj HF HW) HJ HB) as (SO & E).
  exact (run64_bound pw lg g md dt theta K HS _ _ SO E x Hx).
Qed.
Print Assumptions C77_bounded.

(** C77. Without currents the energy cannot grow noticeably: over a million steps with K / theta = 4
    its root grows by at most 2^-20 of itself. *)
Theorem C77_quiet : forall (pw lg : b64 -> b64) (g : ggeom (b64_arith pw lg)) md dt theta K n m,
  steady pw lg g md dt theta K -> finite_fields pw lg g m -> walled pw lg g m ->
  INR n * (K / theta) <= bp 42 -> sqrt (energy pw lg g md dt m) <= bp 290 ->
  let m' := gfield_run (b64_arith pw lg) g md dt (repeat (GCur (b64_arith pw lg) (fun _ _ => b64_of_Z 0) (fun _ _ => b64_of_Z 0) (fun _ _ => b64_of_Z 0)) n) m in
  finite_fields pw lg g m' /\ walled pw lg g m' /\
  sqrt (energy pw lg g md dt m') <= (1 + INR n * (K / theta) * bp (-42)) * (sqrt (energy pw lg g md dt m) + INR n * bp (-300)).
Proof. intros pw lg g md dt theta K n m HS HF HW HN HB m'. destruct (quiet64 pw lg g md dt theta K HS n m (conj HF HW) HN HB) as ((F & W) & E). split; [exact F|]. split; [exact W|exact E]. Qed.
Print Assumptions C77_quiet.

(** It can grow, though, which it cannot without rounding (C76): a grid of one cell, vacuum, no currents, one step of 2^-80 s. *)
Definition cell64 : ggeom D := GGeom D 2 2 (z64 1) (z64 1).
Definition vacuum64 : gmedium D := GMedium D (fun _ _ => z64 1) (fun _ _ => z64 0).
Definition short64 : b64 := b64_lit 1 (2 ^ 80).
Definition rising : gmem D := fun x => match x with (EZ, 0%Z, 0%Z) => z64 1 | (HPHI, 0%Z, 0%Z) => q64 5 16384 | _ => z64 0 end.
Notation pw0 := root_inv.
Notation lg0 := (fun x : b64 => x).

Lemma cell64_steady : steady pw0 lg0 cell64 vacuum64 short64 (1 / 2) 2.
Proof.
  value (gdr D cell64). value (gdz D cell64). value short64. value (z64 1). value (z64 0).
  change (b64_arith pw0 lg0) with D in *.
  constructor; change (b64_arith pw0 lg0) with D; try assumption; cbn [gn_r gn_z cell64 gepsilon gsigma vacuum64]; try lia; try (rewrite ?V, ?V0, ?V1, ?V2, ?V3; unfold EPSILON0, MAGN_CONST; cbn; lra).
  - intros i k _ _. cbn [gepsilon gsigma vacuum64]. rewrite V2, V3. cbn. repeat split; try assumption; lra.
  - intros i k _ _. cbn [gepsilon gsigma vacuum64]. rewrite V2, V3, V1. unfold EPSILON0. cbn. lra.
Qed.
Lemma cell64_energy : forall m : gmem D, walled pw0 lg0 cell64 m -> B2R (m (HR, 0%Z, 0%Z) : b64) = 0 ->
  energy pw0 lg0 cell64 vacuum64 short64 m =
  c_PI * (EPSILON0 / 8 * (B2R (m (EZ, 0%Z, 0%Z) : b64) * B2R (m (EZ, 0%Z, 0%Z) : b64))
          + MAGN_CONST / 2 * (B2R (m (HPHI, 0%Z, 0%Z) : b64) * (B2R (m (HPHI, 0%Z, 0%Z) : b64) - B2R short64 / MAGN_CONST * B2R (m (EZ, 0%Z, 0%Z) : b64)))).
Proof.
  intros m W H. assert (GO := G_ok _ _ _ _ _ _ _ cell64_steady). value (gdr D cell64). value (gdz D cell64). value (z64 1). assert (MP := MAGN_CONST_pos).
  assert (DR : Geometry.dr (real_geom pw0 lg0 cell64) = 1) by (rewrite (G_dr _ _ _ _ _ _ _ cell64_steady); eapply eq_trans; [exact V|lra]). assert (DZ : Geometry.dz (real_geom pw0 lg0 cell64) = 1) by (rewrite (G_dz _ _ _ _ _ _ _ cell64_steady); eapply eq_trans; [exact V0|lra]).
  unfold energy, leapfrog_energy, electric_energy, electric_form, magnetic_form. rewrite DR, DZ. change (n_r (real_geom pw0 lg0 cell64)) with 2%Z. change (n_z (real_geom pw0 lg0 cell64)) with 2%Z. change (2 - 1)%Z with 1%Z.
  unfold sum2, zsum. change (Z.to_nat (1 - 0)) with 1%nat. change (Z.to_nat (1 - 1)) with 0%nat. cbn [zsum_n].
  rewrite !(h_step (real_geom pw0 lg0 cell64) (B2R short64) GO) by (cbn; lia). unfold ce, curl_phi. rewrite DR, DZ. change (0 + 1)%Z with 1%Z.
  assert (WZ : forall x, wall_location (real_geom pw0 lg0 cell64) x -> real_fields pw0 lg0 m x = 0) by (intros x Hx; apply (proj2 (W x Hx))).
  rewrite (WZ (EZ, 1%Z, 0%Z)), (WZ (ER, 0%Z, 0%Z)), (WZ (ER, 0%Z, 1%Z)), (WZ (EPHI, 0%Z, 0%Z)), (WZ (EPHI, 0%Z, 1%Z)) by (cbn; lia).
  change (real_fields pw0 lg0 m (HR, 0%Z, 0%Z)) with (B2R (m (HR, 0%Z, 0%Z) : b64)). rewrite H. unfold real_fields, real_medium. cbn [epsilon gepsilon vacuum64]. change (@B2R prec64 emax64 (z64 1)) with (B2R (z64 1 : b64)). replace (B2R (z64 1 : b64)) with 1 by (rewrite V1; lra).
  rewrite node_volume_0. unfold half_volume, CYL_VOL. field. lra.
Qed.
Theorem C77_conservation_refuted : steady pw0 lg0 cell64 vacuum64 short64 (1 / 2) 2 /\ finite_fields pw0 lg0 cell64 rising /\ walled pw0 lg0 cell64 rising /\
  energy pw0 lg0 cell64 vacuum64 short64 rising <
  energy pw0 lg0 cell64 vacuum64 short64 (gfield_run D cell64 vacuum64 short64 [none pw0 lg0] rising).
Proof.
  assert (ST := cell64_steady). value (z64 1). value (z64 0). value (q64 5 16384).
  assert (FF : forall x, @is_finite prec64 emax64 (rising x) = true) by (intros [[a i] k]; destruct a, i, k; assumption).
  assert (WA : walled pw0 lg0 cell64 rising) by (intros [[a i] k] Hx; split; [apply FF|]; destruct a; cbn in Hx; try contradiction; try (destruct i, k; exact V0); destruct Hx as (-> & Hx); destruct k; exact V0).
  assert (FI : finite_fields pw0 lg0 cell64 rising) by (intros x _; apply FF).
  split; [exact ST|]. split; [exact FI|]. split; [exact WA|].
  set (m' := gfield_run D cell64 vacuum64 short64 [none pw0 lg0] rising).
  assert (WA' : walled pw0 lg0 cell64 m') by (intros x Hx; unfold m', gfield_run; cbn [fold_left]; rewrite (step_wall pw0 lg0 cell64 vacuum64 short64 (1 / 2) 2 ST) by exact Hx; now apply WA).
  rewrite (cell64_energy rising WA V0). value (m' (HR, 0%Z, 0%Z)). rewrite (cell64_energy m' WA' V2). value (m' (EZ, 0%Z, 0%Z)). value (m' (HPHI, 0%Z, 0%Z)). value short64. rewrite V3, V4, V5.
  change (B2R (rising (EZ, 0%Z, 0%Z) : b64)) with (B2R (z64 1 : b64)). change (B2R (rising (HPHI, 0%Z, 0%Z) : b64)) with (B2R (q64 5 16384 : b64)). rewrite V, V1.
  apply Rmult_lt_compat_l; [unfold c_PI; lra|]. unfold EPSILON0, MAGN_CONST. lra.
Qed.
Print Assumptions C77_conservation_refuted.

(** A grid of 3 x 3 nodes of a metre, a conducting medium, a field on the axis, a current everywhere, a step of 2^-30 s. *)
Definition grid64 : ggeom D := GGeom D 3 3 (z64 2) (z64 2).
Definition metal64 : gmedium D := GMedium D (fun _ _ => z64 1) (fun _ _ => z64 1).
Definition step64 : b64 := b64_lit 1 (2 ^ 30).
Definition axis64 : gmem D := fun x => match x with (EZ, 0%Z, 1%Z) => z64 1 | _ => z64 0 end.
Definition flow64 : gcurrents D := GCur D (fun _ _ => z64 1) (fun _ _ => z64 0) (fun _ _ => z64 1).
Example C77_hypotheses_met : steady pw0 lg0 grid64 metal64 step64 (1 / 2) 64 /\ finite_fields pw0 lg0 grid64 axis64 /\ walled pw0 lg0 grid64 axis64 /\
  Forall (finite_currents pw0 lg0 grid64) [flow64; flow64] /\ budget pw0 lg0 grid64 metal64 step64 (1 / 2) 64 [flow64; flow64] axis64 <= bp 300 /\
  free (real_geom pw0 lg0 grid64) (EZ, 0%Z, 1%Z) /\ INR 2 * (64 / (1 / 2)) <= bp 42 /\ sqrt (energy pw0 lg0 grid64 metal64 step64 axis64) <= bp 290.
Proof.
  value (gdr D grid64). value (gdz D grid64). value step64. value (z64 1). value (z64 0).
  assert (ST : steady pw0 lg0 grid64 metal64 step64 (1 / 2) 64).
  { constructor; change (b64_arith pw0 lg0) with D; try assumption; cbn [gn_r gn_z grid64 gepsilon gsigma metal64]; try lia; try (rewrite ?V, ?V0, ?V1, ?V2, ?V3; unfold EPSILON0, MAGN_CONST; cbn; lra).
    - intros i k _ _. cbn [gepsilon gsigma metal64]. rewrite V2. cbn. repeat split; try assumption; lra.
    - intros i k _ _. cbn [gepsilon gsigma metal64]. rewrite V2, V1. unfold EPSILON0. cbn. lra. }
  assert (FF : forall x, @is_finite prec64 emax64 (axis64 x) = true) by (intros [[a i] k]; destruct a, i, k as [|k|k]; try assumption; destruct k; assumption).
  assert (WA : walled pw0 lg0 grid64 axis64) by (intros [[a i] k] Hx; split; [apply FF|]; destruct a; cbn in Hx; try contradiction; try (destruct i, k; exact V3); destruct Hx as (-> & Hx); destruct k; exact V3).
  assert (EN : sqrt (energy pw0 lg0 grid64 metal64 step64 axis64) <= bp 2).
  { assert (DR : Geometry.dr (real_geom pw0 lg0 grid64) = 1) by (rewrite (G_dr _ _ _ _ _ _ _ ST); eapply eq_trans; [exact V|lra]). assert (DZ : Geometry.dz (real_geom pw0 lg0 grid64) = 1) by (rewrite (G_dz _ _ _ _ _ _ _ ST); eapply eq_trans; [exact V0|lra]).
    replace (bp 2) with (sqrt (4 * 4)) by (rewrite sqrt_square; [reflexivity|lra]). apply sqrt_le_1_alt.
    unfold energy, leapfrog_energy, electric_energy, electric_form, magnetic_form. rewrite DR, DZ. change (n_r (real_geom pw0 lg0 grid64)) with 3%Z. change (n_z (real_geom pw0 lg0 grid64)) with 3%Z. change (3 - 1)%Z with 2%Z.
    unfold sum2, zsum. change (Z.to_nat (2 - 0)) with 2%nat. change (Z.to_nat (2 - 1)) with 1%nat. cbn [zsum_n]. change (0 + 1)%Z with 1%Z. unfold real_fields, axis64, real_medium. cbn [epsilon gepsilon metal64].
    repeat match goal with |- context [@B2R prec64 emax64 (z64 0)] => change (@B2R prec64 emax64 (z64 0)) with (B2R (z64 0 : b64)) end. repeat match goal with |- context [@B2R prec64 emax64 (z64 1)] => change (@B2R prec64 emax64 (z64 1)) with (B2R (z64 1 : b64)) end.
    rewrite V2, V3, node_volume_0. unfold CYL_VOL, EPSILON0, c_PI. lra. }
  split; [exact ST|]. split; [intros x _; apply FF|]. split; [exact WA|]. split; [repeat constructor; intros i k _ _; repeat split; assumption|].
  split; [|split; [cbn; lia|split; [cbn; lra|apply Rle_trans with (1 := EN); apply bpow_le; lia]]].
  unfold budget. cbn [length map total_size fold_right INR pow].
  assert (CS : current_size (real_geom pw0 lg0 grid64) (real_currents pw0 lg0 flow64) <= bp 48).
  { apply Rle_trans with (2 := e_one_bound _ _ _ _ _ _ _ ST). apply (en_le _ (G_ok _ _ _ _ _ _ _ ST) (density (real_currents pw0 lg0 flow64)) (fun _ _ _ => 1)). intros a i k Ha.
    destruct a; cbn in Ha; try contradiction; unfold density, real_currents, flow64; cbn [cur_r cur_phi cur_z gcur_r gcur_phi gcur_z].
    - change (Rabs (B2R (z64 1 : b64)) <= 1). rewrite V2, Rabs_pos_eq; cbn; lra.
    - change (Rabs (B2R (z64 0 : b64)) <= 1). rewrite V3, Rabs_R0. lra.
    - change (Rabs (B2R (z64 1 : b64)) <= 1). rewrite V2, Rabs_pos_eq; cbn; lra. }
  assert (C0 : 0 <= current_size (real_geom pw0 lg0 grid64) (real_currents pw0 lg0 flow64)) by apply sqrt_pos. set (c := current_size (real_geom pw0 lg0 grid64) (real_currents pw0 lg0 flow64)) in *.
  assert (GR : 1 <= growth (1 / 2) 64 <= 2) by (unfold growth; cbn; lra). set (G := growth (1 / 2) 64) in *. assert (S0 := sqrt_pos (energy pw0 lg0 grid64 metal64 step64 axis64)).
  assert (RL : 0 < / sqrt (2 * (1 / 2) * EPSILON0) <= bp 23) by (exact (inv_bp _ (-23) (rate_lower _ _ _ _ _ _ _ ST))). unfold Rdiv at 1. set (r := / sqrt (2 * (1 / 2) * EPSILON0)) in *.
  apply Rle_trans with (2 * (2 * 1) * (bp 2 + bp 23 * (bp 48 + (bp 48 + 0)) + (1 + 1) * 1)).
  - assert (P0 : 0 <= B2R step64 * r <= bp 23) by (rewrite V1; cbn in *; lra). assert (Q0 := bpow_ge_0 radix2 (-300)). assert (Q1 : bp (-300) <= 1) by (apply (bpow_le radix2 _ 0); lia).
    assert (P1 : 0 <= B2R step64 * r * (c + (c + 0))) by (apply Rmult_le_pos; lra).
    apply Rmult_le_compat; [apply Rmult_le_pos; lra|lra| |]; [apply Rmult_le_compat; lra|]. apply Rplus_le_compat; [apply Rplus_le_compat; [exact EN|apply Rmult_le_compat; lra]|]. apply Rmult_le_compat_l; lra.
  - apply Rle_trans with (bp 80); [cbn; lra|apply bpow_le; lia].
Qed.
