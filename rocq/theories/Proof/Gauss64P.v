(** The two Gauss laws hold in binary64 up to rounding, step by step and over a run. *)
From Coq Require Import Reals ZArith Lia Lra List Bool Psatz.
From Flocq Require Import Core IEEE754.BinarySingleNaN.
From Verif.Lib Require Import RAux Grid Par.
From Verif.Model Require Import Constants Geometry Fields Binary64 Temperature64 Arith GenCode GenFields.
From Verif.Spec Require Import Cloud Continuity Maxwell Poynting Field64 Gauss64.
From Verif.Proof Require Import GeometryP ChargeP ChargeP2 CurrentP FieldsP MaxwellP EnergyP StabilityP PoyntingP Poynting2P PerturbP GenFieldsP.
From Verif.Proof Require Import Binary64P FloatP Axis64P Push64P Err64P Ana64P Leg64P Charge64P Cell64P Solver64P Half64P.
Import ListNotations.
Local Open Scope R_scope.

Lemma phi_small : forall b, bp (-440) <= b -> 0 < b /\ b + phi <= (27 / 26) * b.
Proof.
  intros b H. assert (P := bpow_gt_0 radix2 (-440)). split; [lra|]. unfold phi. replace (-500)%Z with (-440 + -60)%Z by lia. rewrite bpow_plus.
  assert (Q : bp (-60) <= / 26) by (cbn; lra). assert (bp (-440) * bp (-60) <= bp (-440) * / 26) by (apply Rmult_le_compat_l; lra). lra.
Qed.
Lemma Rabs4 : forall a b c d A B C D x y z t, 0 <= a -> 0 <= b -> 0 <= c -> 0 <= d -> Rabs x <= A -> Rabs y <= B -> Rabs z <= C -> Rabs t <= D ->
  Rabs (a * x - b * y + c * z - d * t) <= a * A + b * B + c * C + d * D.
Proof.
  intros a b c d A B C D x y z t Ha Hb Hc Hd HA HB HC HD. apply Rabs_le_inv in HA, HB, HC, HD.
  assert (a * - A <= a * x <= a * A) by (split; apply Rmult_le_compat_l; lra). assert (b * - B <= b * y <= b * B) by (split; apply Rmult_le_compat_l; lra).
  assert (c * - C <= c * z <= c * C) by (split; apply Rmult_le_compat_l; lra). assert (d * - D <= d * t <= d * D) by (split; apply Rmult_le_compat_l; lra).
  apply Rabs_le. lra.
Qed.

Section Gauss.
Variables pw lg : b64 -> b64.
Notation A := (b64_arith pw lg).
Variables (g : ggeom A) (md : gmedium A) (dt : b64) (theta K : R).
Hypothesis HS : steady pw lg g md dt theta K.
Let G := real_geom pw lg g.
Let RM := real_medium pw lg md.
Let DR : R := real (gdr A g).
Let DZ : R := real (gdz A g).
Let DT : R := real dt.
Notation rf := (real_fields pw lg).
Let GO : geom_ok G := G_ok _ _ _ _ _ _ _ HS.
Let GR : Geometry.dr G = DR := G_dr _ _ _ _ _ _ _ HS.
Let GZ : Geometry.dz G = DZ := G_dz _ _ _ _ _ _ _ HS.
Let NR := fs_nr _ _ _ _ _ _ _ HS.
Let NZ := fs_nz _ _ _ _ _ _ _ HS.
Let PR : 0 < DR := DR_pos _ _ _ _ _ _ _ HS.
Let PZ : 0 < DZ := DZ_pos _ _ _ _ _ _ _ HS.
Let PT : 0 < DT := DT_pos _ _ _ _ _ _ _ HS.

(** ** Light does not pass a cell in a step *)
Lemma step_slow : DT / DR <= slowness /\ DT / DZ <= slowness.
Proof.
  assert (C := fs_courant _ _ _ _ _ _ _ HS). change (DT * DT * (4 / 3 / (DR * DR) + 1 / (DZ * DZ)) <= (1 - theta) * (EPSILON0 * MAGN_CONST)) in C.
  assert (TH := theta_pos _ _ _ _ _ _ _ HS). assert (EP := EPSILON0_pos). assert (MP := MAGN_CONST_pos). assert (EM : 0 < EPSILON0 * MAGN_CONST) by (now apply Rmult_lt_0_compat).
  assert (IR := Rinv_0_lt_compat _ PR). assert (IZ := Rinv_0_lt_compat _ PZ).
  set (a := DT / DR). set (b := DT / DZ). assert (A0 : 0 < a) by (apply Rmult_lt_0_compat; lra). assert (B0 : 0 < b) by (apply Rmult_lt_0_compat; lra).
  assert (E : DT * DT * (4 / 3 / (DR * DR) + 1 / (DZ * DZ)) = 4 / 3 * (a * a) + b * b) by (unfold a, b; field; lra). rewrite E in C.
  assert (AA := Rmult_lt_0_compat _ _ A0 A0). assert (BB := Rmult_lt_0_compat _ _ B0 B0). assert (T1 : (1 - theta) * (EPSILON0 * MAGN_CONST) <= 1 * (EPSILON0 * MAGN_CONST)) by (apply Rmult_le_compat_r; lra).
  unfold slowness. split; [rewrite <- (sqrt_square a) by lra|rewrite <- (sqrt_square b) by lra]; apply sqrt_le_1_alt; lra.
Qed.
Lemma slow_pos : 0 < slowness.
Proof. destruct step_slow as (H & _). assert (X : 0 < DT / DR) by (apply Rmult_lt_0_compat; [exact PT|now apply Rinv_0_lt_compat]). lra. Qed.

Variables BE BH BJ : R.
Hypothesis ME : moderate BE.
Hypothesis MH : moderate BH.
Hypothesis MJ : moderate BJ.
Let E0 : 0 < BE /\ BE + phi <= 27 / 26 * BE := phi_small BE (proj1 ME).
Let H0 : 0 < BH /\ BH + phi <= 27 / 26 * BH := phi_small BH (proj1 MH).
Let J0 : 0 < BJ /\ BJ + phi <= 27 / 26 * BJ := phi_small BJ (proj1 MJ).

Lemma within_val : forall m, fields_within pw lg BE BH g m -> forall x, free G x -> val (m x).
Proof. intros m W x Hx. destruct (W x Hx) as (F & B). split; [exact F|]. apply Rle_trans with (1 := B). destruct (electric x); [apply ME|apply MH]. Qed.
Lemma walled_val : forall m, walled pw lg g m -> forall x, wall_location G x -> val (m x).
Proof. intros m W x Hx. destruct (W x Hx) as (F & B). split; [exact F|]. change (Rabs (@B2R prec64 emax64 (m x)) <= bp 499). rewrite B, Rabs_R0. apply bpow_ge_0. Qed.
Definition be : R := 27 / 26 * BE.
Definition bh : R := 27 / 26 * BH.
Lemma am_e : forall m x, fields_within pw lg BE BH g m -> walled pw lg g m -> electric x = true -> (free G x \/ wall_location G x) -> 0 <= am pw lg m x <= be.
Proof.
  intros m x W V E H. unfold am, be, real_fields. assert (P := bpow_gt_0 radix2 (-500)). fold phi in P. assert (Q := Rabs_pos (@B2R prec64 emax64 (m x))). split; [lra|].
  destruct H as [H|H]; [destruct (W x H) as (_ & B); rewrite E in B; lra|destruct (V x H) as (_ & B)]. rewrite B, Rabs_R0. lra.
Qed.
Lemma am_h : forall m x, fields_within pw lg BE BH g m -> electric x = false -> free G x -> 0 <= am pw lg m x <= bh.
Proof.
  intros m x W E H. unfold am, bh, real_fields. assert (P := bpow_gt_0 radix2 (-500)). fold phi in P. assert (Q := Rabs_pos (@B2R prec64 emax64 (m x))). split; [lra|].
  destruct (W x H) as (_ & B); rewrite E in B; lra.
Qed.

(** ** The magnetic law *)
Section Flux.
Variable m : gmem A.
Hypothesis HF : fields_within pw lg BE BH g m.
Hypothesis HW : walled pw lg g m.
Hypothesis HX : finite_faces pw lg g m.
Let rise : R := 27 * u * (BH + 4 * (slowness / MAGN_CONST) * BE).
Lemma rise_nonneg : 0 <= rise.
Proof.
  unfold rise. assert (U : 0 < u) by (apply bpow_gt_0). assert (S := slow_pos). assert (MP := MAGN_CONST_pos). assert (0 < slowness / MAGN_CONST) by (apply Rmult_lt_0_compat; [exact S|now apply Rinv_0_lt_compat]).
  apply Rmult_le_pos; [lra|]. assert (0 < slowness / MAGN_CONST * BE) by (apply Rmult_lt_0_compat; lra). lra.
Qed.
Lemma h_close : forall a i k, a <> HPHI -> h_at G a i k ->
  Rabs (rf (gcalc_hfield A g dt m) (a, i, k) - calc_hfield G DT (rf m) (a, i, k)) <= rise.
Proof.
  intros a i k NP Ha. destruct (cell_h pw lg g md dt theta K HS m (within_val m HF) (walled_val m HW) a i k Ha) as (_ & C).
  rewrite (h_step G DT GO (rf m) a i k Ha). apply Rle_trans with (1 := C). fold DT. fold G. assert (MP := MAGN_CONST_pos). assert (IM := Rinv_0_lt_compat _ MP). assert (U : 0 < u) by (apply bpow_gt_0). destruct step_slow as (SR & SZ).
  assert (B0 : 0 < be) by (unfold be; lra).
  assert (X : DT / MAGN_CONST * mce G (am pw lg m) a i k <= 4 * (slowness / MAGN_CONST) * be).
  { replace (DT / MAGN_CONST * mce G (am pw lg m) a i k) with (/ MAGN_CONST * (DT * mce G (am pw lg m) a i k)) by (unfold Rdiv; ring). replace (4 * (slowness / MAGN_CONST) * be) with (/ MAGN_CONST * (4 * slowness * be)) by (unfold Rdiv; ring).
    apply Rmult_le_compat_l; [lra|]. destruct a; cbn in Ha; try contradiction.
    - unfold mce. rewrite GZ. assert (P1 := am_e m (EPHI, i, (k + 1)%Z) HF HW eq_refl). assert (P2 := am_e m (EPHI, i, k) HF HW eq_refl).
      assert (D : forall k', (0 <= k' < gn_z A g)%Z -> free G (EPHI, i, k') \/ wall_location G (EPHI, i, k')) by (intros k' Hk; cbn; lia).
      specialize (P1 (D (k + 1)%Z ltac:(cbn in Ha; lia))). specialize (P2 (D k ltac:(cbn in Ha; lia))). set (p := am pw lg m (EPHI, i, (k + 1)%Z)) in *. set (q := am pw lg m (EPHI, i, k)) in *.
      replace (DT * ((p + q) / DZ)) with (DT / DZ * (p + q)) by (unfold Rdiv; ring). apply Rle_trans with (slowness * (2 * be)); [apply Rmult_le_compat; try lra; apply Rlt_le, Rmult_lt_0_compat; [exact PT|now apply Rinv_0_lt_compat]|].
      assert (0 < slowness * be) by (apply Rmult_lt_0_compat; [exact slow_pos|exact B0]). lra.
    - unfold mce. rewrite GR. assert (P1 := am_e m (EPHI, (i + 1)%Z, k) HF HW eq_refl). assert (P2 := am_e m (EPHI, i, k) HF HW eq_refl).
      assert (D : forall i', (0 <= i' < gn_r A g)%Z -> free G (EPHI, i', k) \/ wall_location G (EPHI, i', k)) by (intros i' Hi; cbn; cbn in Ha; lia).
      specialize (P1 (D (i + 1)%Z ltac:(cbn in Ha; lia))). specialize (P2 (D i ltac:(cbn in Ha; lia))). set (p := am pw lg m (EPHI, (i + 1)%Z, k)) in *. set (q := am pw lg m (EPHI, i, k)) in *.
      assert (I0 : 0 <= IZR i) by (apply IZR_le; lia). assert (V : 0 < / (2 * (IZR i + 1 / 2)) <= 1) by (split; [apply Rinv_0_lt_compat; lra|rewrite <- Rinv_1; apply Rinv_le_contravar; lra]).
      replace (DT * ((p + q) / (2 * DR * (IZR i + 1 / 2)) + (p + q) / DR)) with (DT / DR * ((p + q) * (/ (2 * (IZR i + 1 / 2)) + 1))) by (field; lra).
      apply Rle_trans with (slowness * (2 * be * 2)); [|lra]. assert (0 <= DT / DR) by (apply Rlt_le, Rmult_lt_0_compat; [exact PT|now apply Rinv_0_lt_compat]).
      apply Rmult_le_compat; [assumption|apply Rmult_le_pos; lra|lra|]. apply Rmult_le_compat; lra. }
  assert (Y : am pw lg m (a, i, k) <= bh) by (apply am_h; [exact HF|destruct a; cbn in Ha; try contradiction; reflexivity|exact (proj2 (free_at pw lg g md dt theta K HS a i k) (or_intror Ha))]).
  unfold rise. replace (27 * u * (BH + 4 * (slowness / MAGN_CONST) * BE)) with (26 * u * (bh + 4 * (slowness / MAGN_CONST) * be)) by (unfold bh, be; field; lra).
  apply Rmult_le_compat_l; lra.
Qed.
Lemma face_still : forall x, wall_face G x -> fin (gcalc_hfield A g dt m x) /\ rf (gcalc_hfield A g dt m) x = rf m x /\ calc_hfield G DT (rf m) x = rf m x.
Proof.
  intros ((a & i) & k) Hx. assert (FX := HX _ Hx). assert (CW := sound_conducting pw lg g m (conj (fun x H => proj1 (HF x H)) HW)).
  assert (MP := MAGN_CONST_pos). destruct a; cbn in Hx; try contradiction.
  - destruct Hx as (-> & Hk). assert (W1 := HW (EPHI, (gn_r A g - 1)%Z, (k + 1)%Z) ltac:(cbn; lia)). assert (W2 := HW (EPHI, (gn_r A g - 1)%Z, k) ltac:(cbn; lia)).
    assert (X : fin (gcalc_hfield A g dt m (HR, (gn_r A g - 1)%Z, k)) /\ real (gcalc_hfield A g dt m (HR, (gn_r A g - 1)%Z, k)) = real (m (HR, (gn_r A g - 1)%Z, k))).
    { rewrite gcalc_hfield_hr by lia. rect; [|lia]. apply add_zr; [exact FX|]. apply (alpha_r_zero pw lg g md dt theta K HS); assumption. }
    split; [apply X|]. split; [apply X|]. rewrite calc_hfield_hr by (cbn; lia). rect; [|reflexivity]. unfold alpha_r.
    rewrite (CW (EPHI, _, (k + 1)%Z)), (CW (EPHI, _, k)) by (cbn; lia). field. rewrite GZ. lra.
  - destruct Hx as (Hi & Hk).
    assert (W1 := HW (EPHI, (i + 1)%Z, k) ltac:(cbn; lia)). assert (W2 := HW (EPHI, i, k) ltac:(cbn; lia)).
    assert (X : fin (gcalc_hfield A g dt m (HZ, i, k)) /\ real (gcalc_hfield A g dt m (HZ, i, k)) = real (m (HZ, i, k))).
    { rewrite gcalc_hfield_hz by lia. rect; [|split; [exact FX|reflexivity]]. apply sub_zr; [exact FX|]. apply (alpha_z_zero pw lg g md dt theta K HS); [lia|assumption|assumption]. }
    split; [apply X|]. split; [apply X|]. rewrite calc_hfield_hz. rect; [|reflexivity]. unfold alpha_z.
    rewrite (CW (EPHI, (i + 1)%Z, k)), (CW (EPHI, i, k)) by (cbn; lia). assert (I0 : 0 <= IZR i) by (apply IZR_le; lia). rewrite GR. field. repeat split; lra.
Qed.
Lemma face_close : forall x, wall_face G x -> Rabs (rf (gcalc_hfield A g dt m) x - calc_hfield G DT (rf m) x) <= rise.
Proof. intros x Hx. destruct (face_still x Hx) as (_ & -> & ->). replace (rf m x - rf m x) with 0 by ring. rewrite Rabs_R0. exact rise_nonneg. Qed.
Lemma step_h : forall j a i k, (a = HR \/ a = HPHI \/ a = HZ) -> gfield_step A g md dt j m (a, i, k) = gcalc_hfield A g dt m (a, i, k).
Proof. intros j a i k Ha. unfold gfield_step. rewrite (e_keeps_h pw lg g md dt theta K HS) by exact Ha. destruct Ha as [->|[->| ->]]; reflexivity. Qed.
Lemma flux_step : forall j i k, (0 <= i < gn_r A g - 1)%Z -> (0 <= k < gn_z A g - 1)%Z ->
  Rabs (flux pw lg g (gfield_step A g md dt j m) i k - flux pw lg g m i k) <= flux_slack pw lg g BE BH i.
Proof.
  intros j i k Hi Hk. assert (CW := sound_conducting pw lg g m (conj (fun x H => proj1 (HF x H)) HW)).
  assert (FU := flux_update G DT (rf m) i k GO ltac:(cbn; lia) ltac:(cbn; lia) (fun i' Hi' => CW (EPHI, i', (n_z G - 1)%Z) ltac:(cbn in *; lia))). rewrite GR, GZ in FU.
  unfold flux at 2. change (magnetic_flux (real (gdr A g)) (real (gdz A g))) with (magnetic_flux DR DZ). rewrite <- FU. unfold flux, magnetic_flux, comp, real_fields. rewrite !step_h by tauto. fold DR DZ.
  change (@B2R prec64 emax64 (gcalc_hfield A g dt m ?x)) with (rf (gcalc_hfield A g dt m) x).
  assert (C1 : Rabs (rf (gcalc_hfield A g dt m) (HR, (i + 1)%Z, k) - calc_hfield G DT (rf m) (HR, (i + 1)%Z, k)) <= rise).
  { destruct (Z.eq_dec (i + 1) (gn_r A g - 1)) as [E|N]; [apply face_close; cbn; lia|apply h_close; [discriminate|cbn; lia]]. }
  assert (C2 : Rabs (rf (gcalc_hfield A g dt m) (HR, i, k) - calc_hfield G DT (rf m) (HR, i, k)) <= rise) by (apply h_close; [discriminate|cbn; lia]).
  assert (C3 : forall k', (0 <= k' < gn_z A g)%Z -> Rabs (rf (gcalc_hfield A g dt m) (HZ, i, k') - calc_hfield G DT (rf m) (HZ, i, k')) <= rise).
  { intros k' Hk'. destruct (Z.eq_dec k' 0) as [E|N]; [apply face_close; cbn; lia|]. destruct (Z.eq_dec k' (gn_z A g - 1)) as [E|N']; [apply face_close; cbn; lia|apply h_close; [discriminate|cbn; lia]]. }
  assert (C4 := C3 (k + 1)%Z ltac:(lia)). specialize (C3 k ltac:(lia)). assert (I0 : 0 <= IZR i) by (apply IZR_le; lia). assert (PP := PI_RGT_0).
  change (fun x => real_fields pw lg m x) with (rf m).
  set (x1 := rf _ (HR, (i + 1)%Z, k)) in *. set (y1 := calc_hfield _ _ _ (HR, (i + 1)%Z, k)) in *. set (x2 := rf _ (HR, i, k)) in *. set (y2 := calc_hfield _ _ _ (HR, i, k)) in *.
  set (x3 := rf _ (HZ, i, k)) in *. set (y3 := calc_hfield _ _ _ (HZ, i, k)) in *. set (x4 := rf _ (HZ, i, (k + 1)%Z)) in *. set (y4 := calc_hfield _ _ _ (HZ, i, (k + 1)%Z)) in *.
  set (a := 2 * PI * ((IZR i + 1) * DR) * DZ). set (b := 2 * PI * (IZR i * DR) * DZ). set (c := PI * ((IZR i + 1) * DR * ((IZR i + 1) * DR) - IZR i * DR * (IZR i * DR))).
  assert (A0 : 0 <= a) by (unfold a; apply Rmult_le_pos; [apply Rmult_le_pos; [lra|apply Rmult_le_pos; lra]|lra]). assert (B0 : 0 <= b) by (unfold b; apply Rmult_le_pos; [apply Rmult_le_pos; [lra|apply Rmult_le_pos; lra]|lra]).
  assert (C0 : 0 <= c). { unfold c. apply Rmult_le_pos; [lra|]. replace ((IZR i + 1) * DR * ((IZR i + 1) * DR) - IZR i * DR * (IZR i * DR)) with ((2 * IZR i + 1) * (DR * DR)) by ring. apply Rmult_le_pos; [lra|apply Rmult_le_pos; lra]. }
  assert (R4 := Rabs4 a b c c rise rise rise rise (x1 - y1) (x2 - y2) (x4 - y4) (x3 - y3) A0 B0 C0 C0 C1 C2 C4 C3).
  eapply Rle_trans; [right; apply f_equal|apply Rle_trans with (1 := R4); right]; [ring|].
  unfold flux_slack, ring_surface. fold DR DZ. fold a b c. change (bpow radix2 (-53)) with u. unfold rise. ring.
Qed.
Lemma faces_step : forall j, finite_faces pw lg g (gfield_step A g md dt j m).
Proof.
  intros j ((a & i) & k) Hx. rewrite step_h by (destruct a; cbn in Hx; try contradiction; tauto). exact (proj1 (face_still _ Hx)).
Qed.
End Flux.

(** ** The electric law *)
Section Electric.
Variable m : gmem A.
Variable j : gcurrents A.
Hypothesis HM : nonconducting pw lg g md.
Hypothesis HF : fields_within pw lg BE BH g m.
Hypothesis HF' : fields_within pw lg BE BH g (gfield_step A g md dt j m).
Hypothesis HJ : currents_within pw lg BJ g j.
Let m1 : gmem A := gset_current A j (gcalc_hfield A g dt m).
Lemma m1_e : forall a i k, (a = ER \/ a = EPHI \/ a = EZ) -> m1 (a, i, k) = m (a, i, k).
Proof. intros a i k Ha. unfold m1. destruct Ha as [->|[->| ->]]; cbn [gset_current]; apply (h_keeps pw lg g dt); tauto. Qed.
Lemma m1_h : forall a i k, (a = HR \/ a = HPHI \/ a = HZ) -> m1 (a, i, k) = gfield_step A g md dt j m (a, i, k).
Proof. intros a i k Ha. unfold gfield_step. rewrite (e_keeps_h pw lg g md dt theta K HS) by exact Ha. reflexivity. Qed.
Lemma m1_within : fields_within pw lg BE BH g m1.
Proof.
  intros ((a & i) & k) Hx. destruct a; try (cbn in Hx; contradiction); try (rewrite m1_e by tauto; apply (HF _ Hx)); rewrite m1_h by tauto; apply (HF' _ Hx).
Qed.
Let push : R := 27 * u * (2 * EPSILON0 * K * BE + DT * BJ + 4 * slowness * BH).
Lemma eps_at : forall i k, (0 <= i < gn_r A g)%Z -> (0 <= k < gn_z A g)%Z -> 1 <= epsilon RM i k <= K /\ sigma RM i k = 0.
Proof.
  intros i k Hi Hk. destruct (fs_medium _ _ _ _ _ _ _ HS i k Hi Hk) as (_ & P & _). assert (Q := fs_K _ _ _ _ _ _ _ HS i k Hi Hk). assert (S := HM i k Hi Hk). split; [|exact S].
  rewrite S in Q. cbn. unfold Rdiv in Q. lra.
Qed.
Lemma e_close : forall a i k, a <> EPHI -> e_at G a i k ->
  Rabs (EPSILON0 * (epsilon RM i k * (rf (gfield_step A g md dt j m) (a, i, k) - calc_efield G RM DT (rf m1) (a, i, k)))) <= push.
Proof.
  intros a i k NP Ha. assert (IN : (0 <= i < gn_r A g)%Z /\ (0 <= k < gn_z A g)%Z) by (destruct a; cbn in Ha; lia). destruct IN as (I1 & I2).
  assert (EP := EPSILON0_pos). assert (U : 0 < u) by (apply bpow_gt_0). destruct step_slow as (SR & SZ). assert (SL := slow_pos). destruct (eps_at i k I1 I2) as ((EL & EU) & S0).
  destruct (koef_insulating RM DT i k ltac:(lra) S0) as (K1 & K2).
  destruct (HJ i k I1 I2) as (JF1 & JB1 & JF2 & JB2).
  assert (VJ : val (m1 (jof a, i, k)) /\ am pw lg m1 (jof a, i, k) <= 27 / 26 * BJ).
  { destruct a; cbn in Ha; try contradiction; try (now elim NP); unfold val, am, real_fields, m1; cbn [jof gset_current].
    - split; [split; [exact JF1|apply Rle_trans with (1 := JB1); apply MJ]|]. change (Rabs (@B2R prec64 emax64 (gcur_r A j i k)) + phi <= 27 / 26 * BJ). lra.
    - split; [split; [exact JF2|apply Rle_trans with (1 := JB2); apply MJ]|]. change (Rabs (@B2R prec64 emax64 (gcur_z A j i k)) + phi <= 27 / 26 * BJ). lra. }
  destruct VJ as (VJ & AJ).
  destruct (cell_e pw lg g md dt theta K HS m1 (within_val m1 m1_within) a i k Ha VJ) as (_ & C).
  fold DT in C. fold G in C. fold RM in C.
  assert (X : calc_efield G RM DT (rf m1) (a, i, k) = rf m1 (a, i, k) * koef_e RM DT i k - (rf m1 (jof a, i, k) - ch G (rf m1) a i k) * koef_h RM DT i k).
  { destruct a; cbn in Ha; try contradiction; try (now elim NP); unfold ch; cbn [jof].
    - rewrite calc_efield_er by (cbn; lia). rect; [|cbn in *; lia]. ring.
    - unfold curl_z. destruct (Z.eqb_spec i 0) as [->|N]; [rewrite calc_efield_ez_axis by (cbn; lia)|rewrite calc_efield_ez by (cbn; lia)]; (rect; [|cbn in *; lia]); ring. }
  rewrite <- X in C. change (real (gcalc_efield A g md dt m1 (a, i, k))) with (rf (gfield_step A g md dt j m) (a, i, k)) in C.
  set (d := rf (gfield_step A g md dt j m) (a, i, k) - calc_efield G RM DT (rf m1) (a, i, k)) in *. clearbody d.
  rewrite !Rabs_mult, (Rabs_pos_eq EPSILON0), (Rabs_pos_eq (epsilon RM i k)) by lra.
  apply Rle_trans with (EPSILON0 * (epsilon RM i k * (26 * u * (2 * am pw lg m1 (a, i, k) + (am pw lg m1 (jof a, i, k) + mch G (am pw lg m1) a i k) * koef_h RM DT i k)))).
  { apply Rmult_le_compat_l; [lra|]. apply Rmult_le_compat_l; [lra|exact C]. }
  replace (EPSILON0 * (epsilon RM i k * (26 * u * (2 * am pw lg m1 (a, i, k) + (am pw lg m1 (jof a, i, k) + mch G (am pw lg m1) a i k) * koef_h RM DT i k))))
    with (26 * u * (2 * EPSILON0 * (epsilon RM i k * am pw lg m1 (a, i, k)) + EPSILON0 * (epsilon RM i k * koef_h RM DT i k) * (am pw lg m1 (jof a, i, k) + mch G (am pw lg m1) a i k))) by ring.
  rewrite K2. replace (EPSILON0 * (DT / EPSILON0)) with DT by (field; lra). rewrite Rmult_plus_distr_l with (r1 := DT).
  assert (AE : 0 <= am pw lg m1 (a, i, k) <= be).
  { assert (FR : free G (a, i, k)) by (exact (proj2 (free_at pw lg g md dt theta K HS a i k) (or_introl Ha))). unfold am, be, real_fields. assert (P := bpow_gt_0 radix2 (-500)). fold phi in P. assert (Q := Rabs_pos (@B2R prec64 emax64 (m1 (a, i, k)))). split; [lra|].
    destruct (m1_within _ FR) as (_ & B). replace (electric (a, i, k)) with true in B by (destruct a; cbn in Ha; try contradiction; reflexivity). lra. }
  assert (T1 : epsilon RM i k * am pw lg m1 (a, i, k) <= K * be) by (apply Rmult_le_compat; lra).
  assert (T2 : DT * am pw lg m1 (jof a, i, k) <= DT * (27 / 26 * BJ)) by (apply Rmult_le_compat_l; lra).
  assert (AH : forall i' k', free G (HPHI, i', k') -> 0 <= am pw lg m1 (HPHI, i', k') <= bh) by (intros i' k' Hx; apply am_h; [exact m1_within|reflexivity|exact Hx]).
  assert (B0 : 0 < bh) by (unfold bh; lra). assert (SB : 0 < slowness * bh) by (now apply Rmult_lt_0_compat).
  assert (QR : 0 <= DT / DR) by (apply Rlt_le, Rmult_lt_0_compat; [exact PT|now apply Rinv_0_lt_compat]). assert (QZ : 0 <= DT / DZ) by (apply Rlt_le, Rmult_lt_0_compat; [exact PT|now apply Rinv_0_lt_compat]).
  assert (T3 : DT * mch G (am pw lg m1) a i k <= 4 * slowness * bh).
  { destruct a; cbn in Ha; try contradiction; try (now elim NP); unfold mch.
    - rewrite GZ. assert (P1 := AH i k ltac:(cbn; lia)). assert (P2 := AH i (k - 1)%Z ltac:(cbn; lia)). set (p := am pw lg m1 (HPHI, i, k)) in *. set (q := am pw lg m1 (HPHI, i, (k - 1)%Z)) in *.
      replace (DT * ((p + q) / DZ)) with (DT / DZ * (p + q)) by (unfold Rdiv; ring). apply Rle_trans with (slowness * (2 * bh)); [apply Rmult_le_compat; lra|lra].
    - rewrite GR. destruct (Z.eqb_spec i 0) as [->|N].
      + assert (P1 := AH 0%Z k ltac:(cbn; lia)). set (p := am pw lg m1 (HPHI, 0%Z, k)) in *. replace (DT * (4 / DR * p)) with (DT / DR * (4 * p)) by (unfold Rdiv; ring). apply Rle_trans with (slowness * (4 * bh)); [apply Rmult_le_compat; lra|lra].
      + assert (P1 := AH i k ltac:(cbn; lia)). assert (P2 := AH (i - 1)%Z k ltac:(cbn; lia)). set (p := am pw lg m1 (HPHI, i, k)) in *. set (q := am pw lg m1 (HPHI, (i - 1)%Z, k)) in *.
        assert (I3 : 1 <= IZR i) by (apply IZR_le; lia). assert (V : 0 < / (2 * IZR i) <= 1) by (split; [apply Rinv_0_lt_compat; lra|rewrite <- Rinv_1; apply Rinv_le_contravar; lra]).
        replace (DT * ((p + q) / DR + (p + q) / (2 * DR * IZR i))) with (DT / DR * ((p + q) * (1 + / (2 * IZR i)))) by (field; lra).
        apply Rle_trans with (slowness * (2 * bh * 2)); [|lra]. apply Rmult_le_compat; [assumption|apply Rmult_le_pos; lra|lra|]. apply Rmult_le_compat; lra. }
  unfold push. replace (27 * u * (2 * EPSILON0 * K * BE + DT * BJ + 4 * slowness * BH)) with (26 * u * (2 * EPSILON0 * (K * be) + (DT * (27 / 26 * BJ) + 4 * slowness * bh))) by (unfold be, bh; field; lra).
  apply Rmult_le_compat_l; [lra|]. apply Rplus_le_compat; [apply Rmult_le_compat_l; lra|lra].
Qed.
Lemma push_nonneg : 0 <= push.
Proof.
  unfold push. assert (U : 0 < u) by (apply bpow_gt_0). assert (S := slow_pos). assert (EP := EPSILON0_pos). assert (K1 := fs_K1 _ _ _ _ _ _ _ HS).
  assert (0 <= 2 * EPSILON0 * K * BE) by (repeat apply Rmult_le_pos; lra). assert (0 <= DT * BJ) by (apply Rmult_le_pos; lra). assert (0 <= 4 * slowness * BH) by (repeat apply Rmult_le_pos; lra).
  apply Rmult_le_pos; lra.
Qed.
Lemma gauss_step : forall eps rho rho' i k, (0 <= i < gn_r A g - 1)%Z -> (1 <= k < gn_z A g - 1)%Z ->
  balance_upto pw lg eps g dt rho' rho j i k ->
  Rabs (residual pw lg g md (gfield_step A g md dt j m) rho' i k - residual pw lg g md m rho i k) <= eps + gauss_slack pw lg g dt K BE BH BJ i.
Proof.
  intros eps rho rho' i k Hi Hk HB. assert (EP := EPSILON0_pos). unfold balance_upto in HB. fold DR DZ DT in HB.
  set (V := node_volume DR DZ i) in *. set (o := outflow DR DZ DT (cur_r (real_currents pw lg j)) (cur_z (real_currents pw lg j)) i k) in *.
  assert (CP : 0 < c_PI) by (unfold c_PI; lra). assert (V0 : 0 < V) by (apply node_volume_pos; [exact PR|exact PZ|lia]).
  set (rho1 := fun i' k' : Z => rho i k - o / V).
  assert (BA : balance_at DR DZ DT rho1 rho (comp (rf m1) JR) (comp (rf m1) JZ) i k).
  { unfold balance_at, rho1. change (outflow DR DZ DT (comp (rf m1) JR) (comp (rf m1) JZ) i k) with o. fold V. field. lra. }
  assert (INS : insulating G RM) by (intros i' k' Hi' Hk'; destruct (eps_at i' k' Hi' Hk') as ((P & _) & Q); split; [lra|exact Q]).
  assert (GU := gauss_update G RM DT (rf m1) rho rho1 i k GO INS (conj Hi Hk)). rewrite GR, GZ in GU. specialize (GU BA).
  assert (SR : gauss_residual DR DZ (epsilon RM) (comp (rf m1) ER) (comp (rf m1) EZ) rho i k = residual pw lg g md m rho i k).
  { unfold residual, gauss_residual, comp, real_fields. rewrite !m1_e by tauto. reflexivity. }
  rewrite SR in GU. rewrite <- GU. unfold residual, gauss_residual, comp. fold RM DR DZ V.
  set (M' := rf (gfield_step A g md dt j m)). set (N := calc_efield G RM DT (rf m1)). unfold rho1.
  assert (C1 := e_close EZ i k ltac:(discriminate) ltac:(cbn; lia)). assert (C2 := e_close EZ i (k - 1)%Z ltac:(discriminate) ltac:(cbn; lia)). assert (C3 := e_close ER i k ltac:(discriminate) ltac:(cbn; lia)).
  fold M' N in C1, C2, C3. set (a := node_area DR i). set (b := node_side DR DZ i). set (c := node_side DR DZ (i - 1)).
  assert (A0 : 0 <= a). { assert (Z : a * DZ = V) by reflexivity. apply Rmult_le_reg_r with DZ; [exact PZ|]. rewrite Z. lra. }
  assert (B0 : 0 <= b) by (unfold b; rewrite node_side_nonneg by lia; assert (0 <= IZR i) by (apply IZR_le; lia); repeat apply Rmult_le_pos; lra).
  assert (CC : 0 <= c /\ Rabs (c * (EPSILON0 * (epsilon RM (i - 1)%Z k * (M' (ER, (i - 1)%Z, k) - N (ER, (i - 1)%Z, k))))) <= c * push).
  { unfold c. destruct (Z.eq_dec i 0) as [->|NI].
    - change (0 - 1)%Z with (-1)%Z. replace (node_side DR DZ (-1)) with 0 by (unfold node_side; cbn; ring). rewrite !Rmult_0_l, Rabs_R0. lra.
    - assert (C0 : 0 <= node_side DR DZ (i - 1)) by (rewrite node_side_nonneg by lia; assert (0 <= IZR (i - 1)) by (apply IZR_le; lia); repeat apply Rmult_le_pos; lra).
      split; [exact C0|]. rewrite Rabs_mult, Rabs_pos_eq by exact C0. apply Rmult_le_compat_l; [exact C0|]. apply (e_close ER); [discriminate|cbn; lia]. }
  destruct CC as (C0 & C4). clearbody M' N.
  assert (X1 : Rabs (a * (EPSILON0 * (epsilon RM i k * (M' (EZ, i, k) - N (EZ, i, k))))) <= a * push) by (rewrite Rabs_mult, (Rabs_pos_eq a) by exact A0; now apply Rmult_le_compat_l).
  assert (X2 : Rabs (a * (EPSILON0 * (epsilon RM i (k - 1)%Z * (M' (EZ, i, (k - 1)%Z) - N (EZ, i, (k - 1)%Z))))) <= a * push) by (rewrite Rabs_mult, (Rabs_pos_eq a) by exact A0; now apply Rmult_le_compat_l).
  assert (X3 : Rabs (b * (EPSILON0 * (epsilon RM i k * (M' (ER, i, k) - N (ER, i, k))))) <= b * push) by (rewrite Rabs_mult, (Rabs_pos_eq b) by exact B0; now apply Rmult_le_compat_l).
  assert (X5 : (rho i k - o / V) * V = rho i k * V - o) by (field; lra). rewrite X5.
  assert (HB' : Rabs (- ((rho' i k - rho i k) * V + o)) <= eps) by (rewrite Rabs_Ropp; exact HB).
  assert (FIN : gauss_slack pw lg g dt K BE BH BJ i = a * push + a * push + b * push + c * push) by (unfold gauss_slack, node_surface; fold DR DZ a b c; change (bpow radix2 (-53)) with u; unfold push; fold DT; ring).
  rewrite FIN. apply Rabs_le_inv in X1, X2, X3, C4, HB'. apply Rabs_le. lra.
Qed.
End Electric.

(** ** Runs *)
Lemma flux_run : forall js m i k, always_within pw lg BE BH g md dt js m -> walled pw lg g m -> finite_faces pw lg g m -> (0 <= i < gn_r A g - 1)%Z -> (0 <= k < gn_z A g - 1)%Z ->
  Rabs (flux pw lg g (gfield_run A g md dt js m) i k - flux pw lg g m i k) <= INR (length js) * flux_slack pw lg g BE BH i.
Proof.
  induction js as [|j js IH]; intros m i k HA HW HX Hi Hk.
  - cbn. replace (flux pw lg g m i k - flux pw lg g m i k) with 0 by ring. rewrite Rabs_R0. lra.
  - destruct HA as (HF & HA). assert (S := flux_step m HF HW HX j i k Hi Hk).
    assert (W' : walled pw lg g (gfield_step A g md dt j m)) by (intros x Hx; rewrite (step_wall pw lg g md dt theta K HS) by exact Hx; now apply HW).
    assert (I := IH (gfield_step A g md dt j m) i k HA W' (faces_step m HF HW HX j) Hi Hk). unfold gfield_run in *. cbn [fold_left]. cbn [length]. rewrite S_INR.
    apply Rabs_le_inv in S, I. apply Rabs_le. lra.
Qed.
Lemma gauss_run : forall h m rho i k, nonconducting pw lg g md -> always_within pw lg BE BH g md dt (map (e_current pw lg) h) m -> Forall (fun e => currents_within pw lg BJ g (e_current pw lg e)) h ->
  (0 <= i < gn_r A g - 1)%Z -> (1 <= k < gn_z A g - 1)%Z -> balanced pw lg g dt rho h i k ->
  Rabs (residual pw lg g md (gfield_run A g md dt (map (e_current pw lg) h) m) (last_rho pw lg rho h) i k - residual pw lg g md m rho i k)
  <= total_eps pw lg h + INR (length h) * gauss_slack pw lg g dt K BE BH BJ i.
Proof.
  induction h as [|e h IH]; intros m rho i k HM HA HJ Hi Hk HB.
  - cbn. replace (residual pw lg g md m rho i k - residual pw lg g md m rho i k) with 0 by ring. rewrite Rabs_R0. lra.
  - destruct HA as (HF & HA). destruct HB as (B1 & B2). inversion HJ as [|? ? HJ1 HJ2]; subst.
    assert (HF' : fields_within pw lg BE BH g (gfield_step A g md dt (e_current pw lg e) m)) by (cbn [map] in HA; destruct (map (e_current pw lg) h); apply HA).
    assert (S := gauss_step m (e_current pw lg e) HM HF HF' HJ1 (e_eps pw lg e) rho (e_rho pw lg e) i k Hi Hk B1).
    assert (I := IH (gfield_step A g md dt (e_current pw lg e) m) (e_rho pw lg e) i k HM HA HJ2 Hi Hk B2). unfold gfield_run in *. cbn [fold_left map last_rho total_eps length]. rewrite S_INR.
    apply Rabs_le_inv in S, I. apply Rabs_le. lra.
Qed.
End Gauss.

(** ** With the bounds of C77 *)
Section Bounds.
Variables pw lg : b64 -> b64.
Notation A := (b64_arith pw lg).
Variables (g : ggeom A) (md : gmedium A) (dt : b64) (theta K : R).
Hypothesis HS : steady pw lg g md dt theta K.
Let G := real_geom pw lg g.
Let DT : R := real dt.
Notation sound := (sound pw lg g).
Lemma budget_step : forall j js m, sound m -> finite_currents pw lg g j -> budget pw lg g md dt theta K (j :: js) m <= bp 300 ->
  sound (gfield_step A g md dt j m) /\ sqrt (energy pw lg g md dt m) <= budget pw lg g md dt theta K (j :: js) m /\
  budget pw lg g md dt theta K js (gfield_step A g md dt j m) <= budget pw lg g md dt theta K (j :: js) m.
Proof.
  assert (GR := growth_1 _ _ _ _ _ _ _ HS). assert (Hth := theta_pos _ _ _ _ _ _ _ HS). assert (PT := DT_pos _ _ _ _ _ _ _ HS). fold DT in PT. set (q := DT / sqrt (2 * theta * EPSILON0)). assert (Q0 : 0 <= q) by (apply Rdiv_nonneg; [lra|]; apply sqrt_lt_R0; assert (EP := EPSILON0_pos); apply Rmult_lt_0_compat; lra).
  assert (F0 := bpow_ge_0 radix2 (-300)).
  intros j js m HM Fj HB. assert (HB0 := HB). unfold budget in HB. cbn [length map] in HB. fold G DT q in HB.
  change (total_size G (real_currents pw lg j :: map (real_currents pw lg) js)) with (current_size G (real_currents pw lg j) + total_size G (map (real_currents pw lg) js)) in HB.
  set (T := total_size G (map (real_currents pw lg) js)) in *. set (c := current_size G (real_currents pw lg j)) in *. set (s := sqrt (energy pw lg g md dt m)) in *. set (n := length js) in *.
  assert (EQ : budget pw lg g md dt theta K (j :: js) m = growth theta K ^ S n * (s + q * (c + T) + INR (S n) * bp (-300))) by reflexivity.
  assert (T0 : 0 <= T). { unfold T. clear. induction js as [|x js IH]; cbn; [lra|]. assert (0 <= current_size G (real_currents pw lg x)) by apply sqrt_pos. fold (total_size G (map (real_currents pw lg) js)). lra. }
  assert (C0 : 0 <= c) by apply sqrt_pos. assert (S0 : 0 <= s) by apply sqrt_pos. assert (N0 := pos_INR n). rewrite S_INR in HB, EQ. assert (GP : 1 <= growth theta K ^ n) by (apply pow_R1_Rle; exact GR).
  assert (QC : 0 <= q * c) by (now apply Rmult_le_pos). assert (QT : 0 <= q * T) by (now apply Rmult_le_pos). assert (NF : 0 <= INR n * bp (-300)) by (apply Rmult_le_pos; assumption).
  cbn [pow] in HB.
  assert (LE : s + q * (c + T) + (INR n + 1) * bp (-300) <= growth theta K * growth theta K ^ n * (s + q * (c + T) + (INR n + 1) * bp (-300))).
  { rewrite <- (Rmult_1_l (s + _ + _)) at 1. apply Rmult_le_compat_r; [|]. - rewrite Rmult_plus_distr_l, Rmult_plus_distr_r. lra. - rewrite <- (Rmult_1_l 1). apply Rmult_le_compat; lra. }
  assert (LE' : s + q * (c + T) + (INR n + 1) * bp (-300) <= bp 300) by (apply Rle_trans with (1 := LE); exact HB).
  rewrite Rmult_plus_distr_l, Rmult_plus_distr_r in LE'.
  destruct (step64 pw lg g md dt theta K HS j m HM Fj) as (SM & SE); [fold s; lra|fold DT q G c; lra|]. fold DT in SE. fold G in SE. fold s q c in SE. set (m' := gfield_step A g md dt j m) in *.
  split; [exact SM|]. rewrite EQ. cbn [pow]. split.
  - apply Rle_trans with (2 := LE). rewrite Rmult_plus_distr_l, Rmult_plus_distr_r. lra.
  - unfold budget. change (total_size (real_geom pw lg g) (map (real_currents pw lg) js)) with T. fold DT q n. replace (growth theta K * growth theta K ^ n * (s + q * (c + T) + (INR n + 1) * bp (-300))) with (growth theta K ^ n * (growth theta K * (s + q * c + bp (-300)) + growth theta K * (q * T + INR n * bp (-300)))) by ring.
    apply Rmult_le_compat_l; [lra|]. assert (X : q * T + INR n * bp (-300) <= growth theta K * (q * T + INR n * bp (-300))) by (rewrite <- (Rmult_1_l (q * T + INR n * bp (-300))) at 1; apply Rmult_le_compat_r; lra). lra.
Qed.
Lemma budget_within : forall js m B, sound m -> Forall (finite_currents pw lg g) js -> budget pw lg g md dt theta K js m <= bp 300 -> bp 70 * budget pw lg g md dt theta K js m <= B ->
  always_within pw lg B B g md dt js m.
Proof.
  assert (P70 := bpow_ge_0 radix2 70).
  assert (W : forall m B, sound m -> bp 70 * sqrt (energy pw lg g md dt m) <= B -> fields_within pw lg B B g m).
  { intros m B SO H x Hx. split; [exact (proj1 SO x Hx)|]. replace (if electric x then B else B) with B by (destruct (electric x); reflexivity). apply Rle_trans with (2 := H). exact (run64_bound pw lg g md dt theta K HS _ _ SO (Rle_refl _) x Hx). }
  induction js as [|j js IH]; intros m B SO HJ HB HL.
  - split; [|exact I]. apply W; [exact SO|]. apply Rle_trans with (2 := HL). apply Rmult_le_compat_l; [exact P70|]. exact (proj2 (run64 pw lg g md dt theta K HS [] m SO HJ HB)).
  - inversion HJ as [|? ? J1 J2]; subst. destruct (budget_step j js m SO J1 HB) as (S1 & S2 & S3). split.
    + apply W; [exact SO|]. apply Rle_trans with (2 := HL). now apply Rmult_le_compat_l.
    + apply IH; [exact S1|exact J2|lra|]. apply Rle_trans with (2 := HL). now apply Rmult_le_compat_l.
Qed.
End Bounds.
