(** The field solver in binary64 is stable: rounding acts like a small extra current and a small extra magnetic field. *)
From Coq Require Import Reals ZArith Lia Lra List Bool Psatz.
From Flocq Require Import Core IEEE754.BinarySingleNaN.
From Verif.Lib Require Import RAux Grid Par.
From Verif.Model Require Import Constants Geometry Fields Binary64 Temperature64 Arith GenCode GenFields.
From Verif.Spec Require Import Cloud Continuity Maxwell Poynting Field64.
From Verif.Proof Require Import GeometryP ChargeP FieldsP MaxwellP EnergyP StabilityP PoyntingP Poynting2P PerturbP GenFieldsP.
From Verif.Proof Require Import Binary64P FloatP Axis64P Push64P Err64P Ana64P Leg64P Charge64P Cell64P.
Import ListNotations.
Local Open Scope R_scope.

(** ** Sums *)
Lemma zsum_point : forall f lo hi j, (forall i, (lo <= i < hi)%Z -> 0 <= f i) -> (lo <= j < hi)%Z -> f j <= zsum f lo hi.
Proof.
  intros f lo hi j H Hj. rewrite (zsum_split f lo j hi) by lia. rewrite (zsum_first f j hi) by lia.
  assert (0 <= zsum f lo j) by (apply zsum_nonneg; intros; apply H; lia). assert (0 <= zsum f (j + 1) hi) by (apply zsum_nonneg; intros; apply H; lia). lra.
Qed.
Lemma sum2_point : forall a b c d f i k, (forall i k, (a <= i < b)%Z -> (c <= k < d)%Z -> 0 <= f i k) -> (a <= i < b)%Z -> (c <= k < d)%Z -> f i k <= sum2 a b c d f.
Proof.
  intros a b c d f i k H Hi Hk. unfold sum2. apply Rle_trans with (zsum (fun k => f i k) c d).
  - apply (zsum_point (fun k => f i k)); [|exact Hk]. intros; now apply H.
  - apply (zsum_point (fun i => zsum (fun k => f i k) c d)); [|exact Hi]. intros j Hj. apply zsum_nonneg. intros; now apply H.
Qed.
Lemma zsum_bound : forall f lo hi c, (lo <= hi)%Z -> (forall i, (lo <= i < hi)%Z -> f i <= c) -> zsum f lo hi <= IZR (hi - lo) * c.
Proof.
  intros f lo hi c L H. apply Rle_trans with (zsum (fun _ => c * 1) lo hi); [apply zsum_le; intros; rewrite Rmult_1_r; now apply H|]. rewrite zsum_scal.
  assert (E : forall n, zsum_n (fun _ => 1) lo n = INR n). { clear. intro n. revert lo. induction n as [|n IH]; intro lo; [reflexivity|]. cbn [zsum_n]. rewrite IH, S_INR. ring. }
  unfold zsum. rewrite E, INR_IZR_INZ, Z2Nat.id by lia. lra.
Qed.
Lemma sum2_bound : forall a b c d f x, (a <= b)%Z -> (c <= d)%Z -> 0 <= x -> (b - a <= 2 ^ 20)%Z -> (d - c <= 2 ^ 20)%Z -> (forall i k, (a <= i < b)%Z -> (c <= k < d)%Z -> f i k <= x) ->
  sum2 a b c d f <= bp 40 * x.
Proof.
  intros a b c d f x H1 H2 X N1 N2 H. unfold sum2. assert (P1 : 0 <= IZR (b - a) <= bp 20) by (split; [apply IZR_le; lia|change (bp 20) with (IZR (2 ^ 20)); apply IZR_le; exact N1]).
  assert (P2 : 0 <= IZR (d - c) <= bp 20) by (split; [apply IZR_le; lia|change (bp 20) with (IZR (2 ^ 20)); apply IZR_le; exact N2]).
  apply Rle_trans with (IZR (b - a) * (bp 20 * x)).
  - apply zsum_bound; [exact H1|]. intros i Hi. apply Rle_trans with (IZR (d - c) * x); [apply zsum_bound; [exact H2|]; intros; now apply H|]. apply Rmult_le_compat_r; lra.
  - change 40%Z with (20 + 20)%Z. rewrite bpow_plus, Rmult_assoc. apply Rmult_le_compat_r; [apply Rmult_le_pos; lra|lra].
Qed.

Section Solver.
Variables pw lg : b64 -> b64.
Notation A := (b64_arith pw lg).
Variables (g : ggeom A) (md : gmedium A) (dt : b64) (theta K : R).
Hypothesis HS : steady pw lg g md dt theta K.
Let G := real_geom pw lg g.
Let RM := real_medium pw lg md.
Let DR : R := real (gdr A g).
Let DZ : R := real (gdz A g).
Let DT : R := real dt.
Notation rf := (real_fields pw lg).
Let GO : geom_ok G := G_ok _ _ _ _ _ _ _ HS.
Let Hth : 0 < theta <= 1 := theta_pos _ _ _ _ _ _ _ HS.
Let Hpa : passive G RM := RM_passive _ _ _ _ _ _ _ HS.
Let HDT : 0 < DT := DT_pos _ _ _ _ _ _ _ HS.
Lemma courant : DT * DT * (4 / 3 / (Geometry.dr G * Geometry.dr G) + 1 / (Geometry.dz G * Geometry.dz G)) <= (1 - theta) * (EPSILON0 * MAGN_CONST).
Proof. rewrite (G_dr _ _ _ _ _ _ _ HS : Geometry.dr G = DR), (G_dz _ _ _ _ _ _ _ HS : Geometry.dz G = DZ). exact (fs_courant _ _ _ _ _ _ _ HS). Qed.

(** ** Volumes *)
Lemma PI34 : 3 < c_PI < 4. Proof. unfold c_PI. lra. Qed.
Lemma cell_volume : bp (-90) <= DR * DR * DZ <= bp 30.
Proof.
  assert (R := fs_dr _ _ _ _ _ _ _ HS). assert (Z := fs_dz _ _ _ _ _ _ _ HS). fold DR in R. fold DZ in Z. assert (P := bpow_gt_0 radix2 (-30)).
  replace (bp (-90)) with (bp (-30) * bp (-30) * bp (-30)) by (rewrite <- !bpow_plus; reflexivity). replace (bp 30) with (bp 10 * bp 10 * bp 10) by (rewrite <- !bpow_plus; reflexivity).
  assert (0 <= bp (-30) * bp (-30)) by (apply Rmult_le_pos; lra). assert (0 <= DR * DR) by (apply Rmult_le_pos; lra).
  split; apply Rmult_le_compat; try lra; apply Rmult_le_compat; lra.
Qed.
Lemma half_vol : forall i, (0 <= i < gn_r A g)%Z -> bp (-91) <= half_volume DR DZ i <= bp 53.
Proof.
  intros i Hi. assert (N := fs_nr _ _ _ _ _ _ _ HS). assert (I : 0 <= IZR i <= 1048575) by (split; apply IZR_le; lia). assert (C := cell_volume). assert (P := PI34). assert (B := bpow_gt_0 radix2 (-90)).
  unfold half_volume. replace (c_PI * ((IZR i + 1) * DR * ((IZR i + 1) * DR) - IZR i * DR * (IZR i * DR)) * DZ) with (c_PI * (2 * IZR i + 1) * (DR * DR * DZ)) by ring.
  assert (L : 1 <= c_PI * (2 * IZR i + 1) <= bp 23) by (change (bp 23) with 8388608; nra).
  replace (bp (-91)) with (/ 2 * bp (-90)) by (change (-90)%Z with (1 + -91)%Z; rewrite bpow_plus; change (bp 1) with 2; field). replace (bp 53) with (bp 23 * bp 30) by (rewrite <- bpow_plus; reflexivity).
  split; apply Rmult_le_compat; lra.
Qed.
Lemma node_vol : forall i, (0 <= i < gn_r A g)%Z -> bp (-91) <= node_volume DR DZ i <= bp 53.
Proof.
  intros i Hi. assert (N := fs_nr _ _ _ _ _ _ _ HS). assert (C := cell_volume). assert (P := PI34). assert (B := bpow_gt_0 radix2 (-90)).
  replace (bp (-91)) with (/ 2 * bp (-90)) by (change (-90)%Z with (1 + -91)%Z; rewrite bpow_plus; change (bp 1) with 2; field). replace (bp 53) with (bp 23 * bp 30) by (rewrite <- bpow_plus; reflexivity).
  destruct (Z.eq_dec i 0) as [->|Ni].
  - rewrite node_volume_0. unfold CYL_VOL. replace (c_PI * DZ * DR * DR / 4) with (c_PI / 4 * (DR * DR * DZ)) by field. change (bp 23) with 8388608. split; apply Rmult_le_compat; lra.
  - assert (I : 1 <= IZR i <= 1048576) by (split; apply IZR_le; lia). rewrite node_volume_pos_i by lia. unfold CELL_VOLUME. replace (c_PI * DZ * DR * DR * 2 * IZR i) with (c_PI * 2 * IZR i * (DR * DR * DZ)) by ring.
    assert (L : 1 <= c_PI * 2 * IZR i <= bp 23) by (change (bp 23) with 8388608; nra). split; apply Rmult_le_compat; lra.
Qed.
Lemma e_point : forall f a i k, (forall a i k, e_at G a i k -> 0 <= f a i k) -> e_at G a i k -> bp (-91) * f a i k <= e_sum G f.
Proof.
  intros f a i k H Ha. assert (B := bpow_gt_0 radix2 (-91)). unfold e_sum. rewrite (G_dr _ _ _ _ _ _ _ HS : Geometry.dr G = DR), (G_dz _ _ _ _ _ _ _ HS : Geometry.dz G = DZ).
  assert (P1 : forall i k, (0 <= i < n_r G - 1)%Z -> (1 <= k < n_z G - 1)%Z -> 0 <= half_volume DR DZ i * f ER i k) by (intros i' k' Hi' Hk'; cbn in Hi', Hk'; apply Rmult_le_pos; [destruct (half_vol i'); [lia|lra]|apply H; cbn; lia]).
  assert (P2 : forall i k, (1 <= i < n_r G - 1)%Z -> (1 <= k < n_z G - 1)%Z -> 0 <= node_volume DR DZ i * f EPHI i k) by (intros i' k' Hi' Hk'; cbn in Hi', Hk'; apply Rmult_le_pos; [destruct (node_vol i'); [lia|lra]|apply H; cbn; lia]).
  assert (P3 : forall i k, (0 <= i < n_r G - 1)%Z -> (0 <= k < n_z G - 1)%Z -> 0 <= node_volume DR DZ i * f EZ i k) by (intros i' k' Hi' Hk'; cbn in Hi', Hk'; apply Rmult_le_pos; [destruct (node_vol i'); [lia|lra]|apply H; cbn; lia]).
  assert (S1 := sum2_nonneg _ _ _ _ _ P1). assert (S2 := sum2_nonneg _ _ _ _ _ P2). assert (S3 := sum2_nonneg _ _ _ _ _ P3). assert (F := H a i k Ha).
  destruct a; cbn in Ha; try contradiction.
  - assert (Q := sum2_point _ _ _ _ _ i k P1 ltac:(cbn; lia) ltac:(cbn; lia)). cbv beta in Q. destruct (half_vol i ltac:(lia)) as (V & _). assert (bp (-91) * f ER i k <= half_volume DR DZ i * f ER i k) by (apply Rmult_le_compat_r; assumption). lra.
  - assert (Q := sum2_point _ _ _ _ _ i k P2 ltac:(cbn; lia) ltac:(cbn; lia)). cbv beta in Q. destruct (node_vol i ltac:(lia)) as (V & _). assert (bp (-91) * f EPHI i k <= node_volume DR DZ i * f EPHI i k) by (apply Rmult_le_compat_r; assumption). lra.
  - assert (Q := sum2_point _ _ _ _ _ i k P3 ltac:(cbn; lia) ltac:(cbn; lia)). cbv beta in Q. destruct (node_vol i ltac:(lia)) as (V & _). assert (bp (-91) * f EZ i k <= node_volume DR DZ i * f EZ i k) by (apply Rmult_le_compat_r; assumption). lra.
Qed.
Lemma h_point : forall f a i k, (forall a i k, h_at G a i k -> 0 <= f a i k) -> h_at G a i k -> bp (-91) * f a i k <= h_sum G f.
Proof.
  intros f a i k H Ha. assert (B := bpow_gt_0 radix2 (-91)). unfold h_sum. rewrite (G_dr _ _ _ _ _ _ _ HS : Geometry.dr G = DR), (G_dz _ _ _ _ _ _ _ HS : Geometry.dz G = DZ).
  assert (P1 : forall i k, (0 <= i < n_r G - 1)%Z -> (0 <= k < n_z G - 1)%Z -> 0 <= node_volume DR DZ i * f HR i k) by (intros i' k' Hi' Hk'; cbn in Hi', Hk'; apply Rmult_le_pos; [destruct (node_vol i'); [lia|lra]|apply H; cbn; lia]).
  assert (P2 : forall i k, (0 <= i < n_r G - 1)%Z -> (0 <= k < n_z G - 1)%Z -> 0 <= half_volume DR DZ i * f HPHI i k) by (intros i' k' Hi' Hk'; cbn in Hi', Hk'; apply Rmult_le_pos; [destruct (half_vol i'); [lia|lra]|apply H; cbn; lia]).
  assert (P3 : forall i k, (0 <= i < n_r G - 1)%Z -> (1 <= k < n_z G - 1)%Z -> 0 <= half_volume DR DZ i * f HZ i k) by (intros i' k' Hi' Hk'; cbn in Hi', Hk'; apply Rmult_le_pos; [destruct (half_vol i'); [lia|lra]|apply H; cbn; lia]).
  assert (S1 := sum2_nonneg _ _ _ _ _ P1). assert (S2 := sum2_nonneg _ _ _ _ _ P2). assert (S3 := sum2_nonneg _ _ _ _ _ P3). assert (F := H a i k Ha).
  destruct a; cbn in Ha; try contradiction.
  - assert (Q := sum2_point _ _ _ _ _ i k P1 ltac:(cbn; lia) ltac:(cbn; lia)). cbv beta in Q. destruct (node_vol i ltac:(lia)) as (V & _). assert (bp (-91) * f HR i k <= node_volume DR DZ i * f HR i k) by (apply Rmult_le_compat_r; assumption). lra.
  - assert (Q := sum2_point _ _ _ _ _ i k P2 ltac:(cbn; lia) ltac:(cbn; lia)). cbv beta in Q. destruct (half_vol i ltac:(lia)) as (V & _). assert (bp (-91) * f HPHI i k <= half_volume DR DZ i * f HPHI i k) by (apply Rmult_le_compat_r; assumption). lra.
  - assert (Q := sum2_point _ _ _ _ _ i k P3 ltac:(cbn; lia) ltac:(cbn; lia)). cbv beta in Q. destruct (half_vol i ltac:(lia)) as (V & _). assert (bp (-91) * f HZ i k <= half_volume DR DZ i * f HZ i k) by (apply Rmult_le_compat_r; assumption). lra.
Qed.
Lemma root_point : forall x s, 0 <= s -> bp (-91) * (x * x) <= s -> Rabs x <= bp 46 * sqrt s.
Proof.
  intros x s Hs H. rewrite <- sqrt_Rsqr_abs. unfold Rsqr. replace (bp 46) with (sqrt (bp 92)) by (replace (bp 92) with (bp 46 * bp 46) by (rewrite <- bpow_plus; reflexivity); apply sqrt_square, bpow_ge_0).
  rewrite <- sqrt_mult_alt by apply bpow_ge_0. apply sqrt_le_1_alt. assert (E : bp 91 * bp (-91) = 1) by (rewrite <- bpow_plus; reflexivity). assert (P := bpow_gt_0 radix2 91).
  apply Rle_trans with (bp 91 * s).
  - replace (x * x) with (bp 91 * (bp (-91) * (x * x))) by (rewrite <- Rmult_assoc, E; ring). apply Rmult_le_compat_l; lra.
  - apply Rmult_le_compat_r; [exact Hs|apply bpow_le; lia].
Qed.
Lemma en_point : forall f a i k, e_at G a i k -> Rabs (f a i k) <= bp 46 * en G f.
Proof.
  intros f a i k Ha. unfold en. apply root_point; [apply e_sum_nonneg; [exact GO|intros; apply sqr_nonneg]|].
  apply (e_point (fun a i k => f a i k * f a i k)); [intros; apply sqr_nonneg|exact Ha].
Qed.
Lemma hn_point : forall f a i k, h_at G a i k -> Rabs (f a i k) <= bp 46 * hn G f.
Proof.
  intros f a i k Ha. unfold hn. apply root_point; [apply h_sum_nonneg; [exact GO|intros; apply sqr_nonneg]|].
  apply (h_point (fun a i k => f a i k * f a i k)); [intros; apply sqr_nonneg|exact Ha].
Qed.
Lemma one_bound : forall s, s <= 3 * (bp 40 * bp 53) -> sqrt s <= bp 48.
Proof.
  intros s H. rewrite <- (sqrt_square (bp 48)) by apply bpow_ge_0. apply sqrt_le_1_alt. apply Rle_trans with (1 := H). rewrite <- !bpow_plus. change (40 + 53)%Z with 93%Z. change (48 + 48)%Z with (93 + 3)%Z. rewrite bpow_plus. change (bp 3) with 8.
  assert (P := bpow_gt_0 radix2 93). lra.
Qed.
Lemma e_one_bound : e_one G <= bp 48.
Proof.
  assert (NR := fs_nr _ _ _ _ _ _ _ HS). assert (NZ := fs_nz _ _ _ _ _ _ _ HS). assert (B := bpow_ge_0 radix2 53).
  apply one_bound. unfold e_sum. rewrite (G_dr _ _ _ _ _ _ _ HS : Geometry.dr G = DR), (G_dz _ _ _ _ _ _ _ HS : Geometry.dz G = DZ). cbn [n_r n_z G real_geom].
  assert (S1 : sum2 0 (gn_r A g - 1) 1 (gn_z A g - 1) (fun i _ => half_volume DR DZ i * (1 * 1)) <= bp 40 * bp 53) by (apply sum2_bound; try lia; [exact B|]; intros i k Hi Hk; destruct (half_vol i); [lia|lra]).
  assert (S2 : sum2 1 (gn_r A g - 1) 1 (gn_z A g - 1) (fun i _ => node_volume DR DZ i * (1 * 1)) <= bp 40 * bp 53) by (apply sum2_bound; try lia; [exact B|]; intros i k Hi Hk; destruct (node_vol i); [lia|lra]).
  assert (S3 : sum2 0 (gn_r A g - 1) 0 (gn_z A g - 1) (fun i _ => node_volume DR DZ i * (1 * 1)) <= bp 40 * bp 53) by (apply sum2_bound; try lia; [exact B|]; intros i k Hi Hk; destruct (node_vol i); [lia|lra]).
  unfold G, real_geom in *. cbn [n_r n_z]. lra.
Qed.
Lemma h_one_bound : h_one G <= bp 48.
Proof.
  assert (NR := fs_nr _ _ _ _ _ _ _ HS). assert (NZ := fs_nz _ _ _ _ _ _ _ HS). assert (B := bpow_ge_0 radix2 53).
  apply one_bound. unfold h_sum. rewrite (G_dr _ _ _ _ _ _ _ HS : Geometry.dr G = DR), (G_dz _ _ _ _ _ _ _ HS : Geometry.dz G = DZ).
  assert (S1 : sum2 0 (gn_r A g - 1) 0 (gn_z A g - 1) (fun i _ => node_volume DR DZ i * (1 * 1)) <= bp 40 * bp 53) by (apply sum2_bound; try lia; [exact B|]; intros i k Hi Hk; destruct (node_vol i); [lia|lra]).
  assert (S2 : sum2 0 (gn_r A g - 1) 0 (gn_z A g - 1) (fun i _ => half_volume DR DZ i * (1 * 1)) <= bp 40 * bp 53) by (apply sum2_bound; try lia; [exact B|]; intros i k Hi Hk; destruct (half_vol i); [lia|lra]).
  assert (S3 : sum2 0 (gn_r A g - 1) 1 (gn_z A g - 1) (fun i _ => half_volume DR DZ i * (1 * 1)) <= bp 40 * bp 53) by (apply sum2_bound; try lia; [exact B|]; intros i k Hi Hk; destruct (half_vol i); [lia|lra]).
  unfold G, real_geom in *. cbn [n_r n_z]. lra.
Qed.

(** ** The floor *)
Lemma sqrt_lower : forall x n, bp (n + n) <= x -> bp n <= sqrt x.
Proof. intros x n H. rewrite <- (sqrt_square (bp n)) by apply bpow_ge_0. apply sqrt_le_1_alt. now rewrite <- bpow_plus. Qed.
Lemma sqrt_upper1 : forall x, x <= 1 -> sqrt x <= 1.
Proof. intros x H. rewrite <- sqrt_1. now apply sqrt_le_1_alt. Qed.
Lemma inv_bp : forall x n, bp n <= x -> 0 < / x <= bp (- n).
Proof. intros x n H. assert (P := bpow_gt_0 radix2 n). split; [apply Rinv_0_lt_compat; lra|]. rewrite bpow_opp. apply Rinv_le; lra. Qed.
Lemma c0_bound : 0 <= c0 G <= bp 33.
Proof.
  split; [left; apply c0_pos; exact GO|]. unfold c0. rewrite (G_dr _ _ _ _ _ _ _ HS : Geometry.dr G = DR), (G_dz _ _ _ _ _ _ _ HS : Geometry.dz G = DZ). fold DR DZ. destruct (inv_bp DR (-30) (proj1 (fs_dr _ _ _ _ _ _ _ HS))) as (_ & P1). destruct (inv_bp DZ (-30) (proj1 (fs_dz _ _ _ _ _ _ _ HS))) as (_ & P2).
  change (- (-30))%Z with 30%Z in *. change (33)%Z with (30 + 3)%Z. rewrite bpow_plus. change (bp 3) with 8. assert (P := bpow_gt_0 radix2 30). unfold Rdiv. lra.
Qed.
Lemma rate_lower : bp (-23) <= rate theta.
Proof.
  apply sqrt_lower. change (-23 + -23)%Z with (1 + -10 + -37)%Z. rewrite !bpow_plus. change (bp 1) with 2. assert (T := fs_theta _ _ _ _ _ _ _ HS). assert (E := bp_37). assert (P := bpow_gt_0 radix2 (-10)). assert (Q := bpow_gt_0 radix2 (-37)).
  apply Rmult_le_compat; [lra|lra| |lra]. lra.
Qed.
Lemma rate_upper : rate theta <= 1.
Proof. apply sqrt_upper1. assert (E := bp_37). assert (H : EPSILON0 <= / 2) by (unfold EPSILON0; lra). nra. Qed.
Lemma floor_h_bound : 0 <= floor_h G DT <= bp 102.
Proof.
  split; [apply (floor_h_pos G GO DT HDT)|]. unfold floor_h. assert (C := c0_bound). assert (O := h_one_bound). assert (M := bp_20). destruct (inv_bp MAGN_CONST (-20) (proj1 M)) as (M1 & M2). change (- (-20))%Z with 20%Z in M2.
  assert (T := fs_dt _ _ _ _ _ _ _ HS). fold DT in T. assert (R1 : sqrt (MAGN_CONST / 2) <= 1) by (apply sqrt_upper1; unfold MAGN_CONST; lra). assert (R0 := sqrt_pos (MAGN_CONST / 2)). assert (H0 : 0 <= h_one G) by apply sqrt_pos.
  assert (Q : DT / MAGN_CONST * c0 G <= bp 53). { change 53%Z with (20 + 33)%Z. rewrite bpow_plus. apply Rmult_le_compat; [unfold Rdiv; apply Rmult_le_pos; lra|lra| |lra]. unfold Rdiv. rewrite <- (Rmult_1_l (bp 20)). apply Rmult_le_compat; lra. }
  assert (Q0 : 0 <= DT / MAGN_CONST * c0 G) by (apply Rmult_le_pos; [unfold Rdiv; apply Rmult_le_pos; lra|lra]).
  change 102%Z with (54 + 48)%Z. rewrite bpow_plus. apply Rmult_le_compat; [apply Rmult_le_pos; lra|exact H0| |exact O].
  rewrite <- (Rmult_1_l (bp 54)). apply Rmult_le_compat; [exact R0|lra|exact R1|]. change 54%Z with (1 + 53)%Z. rewrite bpow_plus. change (bp 1) with 2. assert (1 <= bp 53) by (apply (bpow_le radix2 0); lia). lra.
Qed.
Lemma floor_e_bound : 0 <= floor_e G DT theta K <= bp 106.
Proof.
  split; [apply (floor_e_pos G GO DT theta Hth HDT K (fs_K1 _ _ _ _ _ _ _ HS))|]. unfold floor_e. assert (C := c0_bound). assert (O := e_one_bound). destruct (inv_bp _ _ rate_lower) as (R1 & R2). change (- (-23))%Z with 23%Z in R2.
  assert (T := fs_dt _ _ _ _ _ _ _ HS). fold DT in T. assert (E0 : 0 <= e_one G) by apply sqrt_pos. assert (K1 := fs_K1 _ _ _ _ _ _ _ HS). assert (KM := fs_margin _ _ _ _ _ _ _ HS). assert (E := bp_37). assert (EP := bpow_gt_0 radix2 (-37)).
  assert (KB : K <= bp 41) by (apply Rle_trans with (1 := KM); rewrite <- (Rmult_1_l (bp 41)) at 2; apply Rmult_le_compat_r; [apply bpow_ge_0|lra]).
  assert (KE : K * EPSILON0 <= bp 5) by (change 5%Z with (41 + -36)%Z; rewrite bpow_plus; apply Rmult_le_compat; lra). change (bp 5) with 32 in KE.
  replace (DT / rate theta * (2 * (K * EPSILON0 / DT) + 1 + c0 G)) with (/ rate theta * (2 * (K * EPSILON0) + DT * (1 + c0 G))) by (field; split; [lra|]; assert (P := rate_lower); assert (Q := bpow_gt_0 radix2 (-23)); lra).
  assert (DC : DT * (1 + c0 G) <= 1 + c0 G) by (rewrite <- (Rmult_1_l (1 + c0 G)) at 2; apply Rmult_le_compat_r; lra). assert (DC0 : 0 <= DT * (1 + c0 G)) by (apply Rmult_le_pos; lra). assert (KE0 : 0 <= K * EPSILON0) by (apply Rmult_le_pos; lra).
  change 106%Z with (23 + 35 + 48)%Z. rewrite !bpow_plus. apply Rmult_le_compat; [apply Rmult_le_pos; lra|exact E0| |exact O]. apply Rmult_le_compat; [lra|lra|lra|]. change 35%Z with (2 + 33)%Z. rewrite bpow_plus. change (bp 2) with 4. assert (128 <= bp 33) by (apply (bpow_le radix2 7); lia). lra.
Qed.
Lemma floors : 26 * u * phi * floor_h G DT <= 1 /\ 26 * u * phi * (floor_h G DT + floor_e G DT theta K) <= bp (-300).
Proof.
  destruct floor_h_bound as (H0 & H1). destruct floor_e_bound as (E0 & E1). assert (P := bpow_gt_0 radix2 (-500)). unfold phi. assert (U : 0 <= 26 * u <= 1) by (rewrite u_val; lra).
  assert (B : floor_h G DT + floor_e G DT theta K <= bp 107) by (change 107%Z with (1 + 106)%Z; rewrite bpow_plus; change (bp 1) with 2; assert (bp 102 <= bp 106) by (apply bpow_le; lia); lra).
  assert (B2 : 26 * u * bp (-500) <= bp (-500)) by (rewrite <- (Rmult_1_l (bp (-500))) at 2; apply Rmult_le_compat_r; lra). assert (B3 : 0 <= 26 * u * bp (-500)) by (apply Rmult_le_pos; lra).
  assert (B4 : 26 * u * bp (-500) * (floor_h G DT + floor_e G DT theta K) <= bp (-300)).
  { apply Rle_trans with (bp (-500) * bp 107); [apply Rmult_le_compat; lra|]. rewrite <- bpow_plus. apply bpow_le. lia. }
  split; [|exact B4]. apply Rle_trans with (26 * u * bp (-500) * (floor_h G DT + floor_e G DT theta K)); [apply Rmult_le_compat_l; lra|]. apply Rle_trans with (1 := B4). apply (bpow_le radix2 _ 0). lia.
Qed.

(** ** Magnitudes *)
Section Magnitude.
Variables (m h : fmem) (X s n : R).
Hypothesis Hm : conducting G m.
Hypothesis Hs : s * s = 1.
Hypothesis HX : theta * (EPSILON0 / 2 * e_size G m) + MAGN_CONST / 2 * h_mid G DT s m h <= X.
Hypothesis Hn : sqrt X <= n.
Lemma t_lower : 0 < / sqrt theta <= bp 5.
Proof. apply (inv_bp _ (-5)). apply sqrt_lower. exact (proj1 (fs_theta _ _ _ _ _ _ _ HS)). Qed.
Lemma e_magnitude : forall a i k, e_at G a i k -> Rabs (m (a, i, k)) <= bp 70 * n.
Proof.
  intros a i k Ha. assert (F := e_from G GO DT theta Hth m h X s HX). assert (P := en_point (at_ m) a i k Ha). unfold at_ at 1 in P. assert (T := t_lower). assert (SX := sqrt_pos X).
  assert (RE : bp (-19) <= sqrt (EPSILON0 / 2)) by (apply sqrt_lower; change (-19 + -19)%Z with (-37 + -1)%Z; rewrite bpow_plus; change (bp (-1)) with (/ 2); assert (E := bp_37); lra).
  assert (L : bp (-19) * en G (at_ m) <= bp 5 * n).
  { apply Rle_trans with (sqrt (EPSILON0 / 2) * en G (at_ m)); [apply Rmult_le_compat_r; [apply sqrt_pos|exact RE]|]. apply Rle_trans with (1 := F). unfold Rdiv. rewrite Rmult_comm. apply Rmult_le_compat; lra. }
  apply Rle_trans with (1 := P). replace (bp 46) with (bp 65 * bp (-19)) by (rewrite <- bpow_plus; reflexivity). replace (bp 70) with (bp 65 * bp 5) by (rewrite <- bpow_plus; reflexivity). rewrite !Rmult_assoc. apply Rmult_le_compat_l; [apply bpow_ge_0|exact L].
Qed.
Lemma h_magnitude : forall a i k, h_at G a i k -> Rabs (h (a, i, k)) <= bp 70 * n.
Proof.
  intros a i k Ha. assert (F := h_from G GO DT theta Hth courant HDT m h X s Hm Hs HX). assert (P := hn_point (at_ h) a i k Ha). unfold at_ at 1 in P. assert (T := t_lower). assert (SX := sqrt_pos X).
  assert (RE : bp (-11) <= sqrt (MAGN_CONST / 2)) by (apply sqrt_lower; apply Rle_trans with (bp (-20) * / 2); [change (/ 2) with (bp (-1)); rewrite <- bpow_plus; apply bpow_le; lia|]; assert (E := bp_20); lra).
  assert (L : bp (-11) * hn G (at_ h) <= bp 6 * n).
  { apply Rle_trans with (sqrt (MAGN_CONST / 2) * hn G (at_ h)); [apply Rmult_le_compat_r; [apply sqrt_pos|exact RE]|]. apply Rle_trans with (1 := F). change 6%Z with (5 + 1)%Z. rewrite bpow_plus. change (bp 1) with 2. unfold Rdiv. replace (bp 5 * 2 * n) with (2 * n * bp 5) by ring. apply Rmult_le_compat; lra. }
  apply Rle_trans with (1 := P). replace (bp 46) with (bp 57 * bp (-11)) by (rewrite <- bpow_plus; reflexivity). apply Rle_trans with (bp 57 * (bp 6 * n)); [rewrite Rmult_assoc; apply Rmult_le_compat_l; [apply bpow_ge_0|exact L]|].
  rewrite <- Rmult_assoc, <- bpow_plus. apply Rmult_le_compat_r; [lra|apply bpow_le; lia].
Qed.
End Magnitude.

(** ** One step *)
Definition sound (m : gmem A) : Prop := finite_fields pw lg g m /\ walled pw lg g m.
Lemma sound_conducting : forall m, sound m -> conducting G (rf m).
Proof. intros m (_ & W) x Hx. now apply W. Qed.
Lemma energy_after : forall m, energy pw lg g md dt m = after G RM DT (rf m) (rf m).
Proof. intro m. unfold energy. symmetry. apply after_leapfrog; [exact GO|]. intros; reflexivity. Qed.
Lemma free_at : forall a i k, free G (a, i, k) <-> e_at G a i k \/ h_at G a i k.
Proof. intros a i k. destruct a; cbn; tauto. Qed.
Lemma e_keeps_h : forall m a i k, (a = HR \/ a = HPHI \/ a = HZ) -> gcalc_efield A g md dt m (a, i, k) = m (a, i, k).
Proof. intros m a i k Ha. apply gcalc_efield_other; intro E; subst a; intuition discriminate. Qed.
Lemma h_keeps : forall m a i k, (a = ER \/ a = EPHI \/ a = EZ) -> gcalc_hfield A g dt m (a, i, k) = m (a, i, k).
Proof. intros m a i k Ha. apply gcalc_hfield_other. destruct Ha as [->|[->| ->]]; reflexivity. Qed.
Lemma step_wall : forall j m x, wall_location G x -> gfield_step A g md dt j m x = m x.
Proof.
  intros j m [[a i] k] Hx. assert (NR := fs_nr _ _ _ _ _ _ _ HS). assert (NZ := fs_nz _ _ _ _ _ _ _ HS). unfold gfield_step. destruct a; cbn in Hx; try contradiction.
  - rewrite gcalc_efield_er by lia. rect; [lia|]. cbn [gset_current]. apply h_keeps. tauto.
  - rewrite gcalc_efield_ephi. rect; [lia|]. cbn [gset_current]. apply h_keeps. tauto.
  - rewrite gcalc_efield_ez by lia. rect; [lia|]. cbn [gset_current]. apply h_keeps. tauto.
Qed.
Lemma real_density : forall j a i k, e_at G a i k -> density (real_currents pw lg j) a i k = rf (gset_current A j (fun _ => b64_of_Z 0)) (jof a, i, k).
Proof. intros j a i k Ha. destruct a; cbn in Ha; try contradiction; reflexivity. Qed.
Lemma ch_ext : forall h h' a i k, e_at G a i k -> (forall x, match x with (HR, _, _) | (HPHI, _, _) | (HZ, _, _) => h x = h' x | _ => True end) -> ch G h a i k = ch G h' a i k.
Proof.
  intros h h' a i k Ha H. assert (X1 := fun i k => H (HR, i, k)). assert (X2 := fun i k => H (HPHI, i, k)). assert (X3 := fun i k => H (HZ, i, k)). cbn in X1, X2, X3.
  destruct a; cbn in Ha; try contradiction; unfold ch, curl_z; rewrite ?X1, ?X2, ?X3; reflexivity.
Qed.
Lemma kappa : 84 * (K * (26 * u) / theta) <= 1.
Proof.
  assert (KM := fs_margin _ _ _ _ _ _ _ HS). assert (B : K / theta <= bp 41) by (apply Rmult_le_reg_r with theta; [lra|]; unfold Rdiv; rewrite Rmult_assoc, Rinv_l by lra; lra).
  replace (84 * (K * (26 * u) / theta)) with (2184 * u * (K / theta)) by (field; lra). apply Rle_trans with (2184 * u * bp 41); [apply Rmult_le_compat_l; [rewrite u_val; lra|exact B]|]. unfold u. rewrite Rmult_assoc, <- bpow_plus. cbn. lra.
Qed.
Lemma scale_growth : scale theta K (26 * u) <= growth theta K.
Proof.
  unfold scale, growth. assert (K1 := fs_K1 _ _ _ _ _ _ _ HS). assert (0 <= K / theta) by (apply Rdiv_nonneg; lra).
  replace (21 * (K * (26 * u) / theta)) with (K / theta * (546 * u)) by (field; lra). apply Rplus_le_compat_l. apply Rmult_le_compat_l; [assumption|]. rewrite u_val. cbn. lra.
Qed.
Lemma growth_1 : 1 <= growth theta K.
Proof. unfold growth. assert (K1 := fs_K1 _ _ _ _ _ _ _ HS). assert (0 <= K / theta * bp (-43)) by (apply Rmult_le_pos; [apply Rdiv_nonneg; lra|apply bpow_ge_0]). lra. Qed.

Lemma step64 : forall j m, sound m -> finite_currents pw lg g j -> sqrt (energy pw lg g md dt m) <= bp 300 -> DT / sqrt (2 * theta * EPSILON0) * current_size G (real_currents pw lg j) <= bp 300 ->
  sound (gfield_step A g md dt j m) /\
  sqrt (energy pw lg g md dt (gfield_step A g md dt j m)) <=
  growth theta K * (sqrt (energy pw lg g md dt m) + DT / sqrt (2 * theta * EPSILON0) * current_size G (real_currents pw lg j) + bp (-300)).
Proof.
  intros j m HM HJ HE HB. assert (NR := fs_nr _ _ _ _ _ _ _ HS). assert (NZ := fs_nz _ _ _ _ _ _ _ HS). rewrite !energy_after in *. assert (CM := sound_conducting m HM). destruct HM as (FM & WM). assert (C := courant).
  assert (AL := after_lower G GO RM DT theta Hpa C (rf m) (rf m) CM). assert (U := u_pos). assert (E26 : 0 <= 26 * u) by lra. assert (PH : 0 <= phi) by apply bpow_ge_0.
  assert (V1 : forall x, free G x -> val (m x)).
  { intros [[a i] k] Hx. split; [now apply FM|]. apply free_at in Hx. apply Rle_trans with (bp 70 * bp 300); [|rewrite <- bpow_plus; apply bpow_le; lia].
    destruct Hx as [Hx|Hx]; [exact (e_magnitude _ _ _ _ _ AL HE a i k Hx)|exact (h_magnitude _ _ _ 1 _ CM ltac:(ring) AL HE a i k Hx)]. }
  assert (V2 : forall x, wall_location G x -> val (m x)).
  { intros x Hx. destruct (WM x Hx) as (F & Z). split; [exact F|]. rewrite Z, Rabs_R0. apply bpow_ge_0. }
  set (h := gcalc_hfield A g dt m). set (hj := gset_current A j h). set (m' := gfield_step A g md dt j m).
  assert (H1 := cell_h pw lg g md dt theta K HS m V1 V2). fold G h in H1.
  assert (H1' : forall a i k, h_at G a i k -> Rabs (rf m' (a, i, k) - (rf m (a, i, k) + DT / MAGN_CONST * ce G (rf m) a i k)) <= 26 * u * (Rabs (rf m (a, i, k)) + phi + DT / MAGN_CONST * mce G (fun x => Rabs (rf m x) + phi) a i k)).
  { intros a i k Ha. replace (rf m' (a, i, k)) with (real (h (a, i, k))); [exact (proj2 (H1 a i k Ha))|]. unfold real_fields, m', gfield_step. rewrite e_keeps_h by (destruct a; cbn in Ha; tauto). destruct a; cbn in Ha; try contradiction; reflexivity. }
  assert (MP := magnetic_part G GO RM DT theta Hth Hpa C HDT (26 * u) phi E26 PH (rf m) (rf m) (rf m') CM H1').
  assert (BL := before_lower G GO RM DT theta Hpa C (rf m) (rf m') CM). destruct floors as (FH & FB).
  assert (WB : sqrt (before G RM DT (rf m) (rf m')) <= bp 302).
  { apply Rle_trans with (1 := MP). set (s := sqrt (after G RM DT (rf m) (rf m))) in *. assert (S0 : 0 <= s) by apply sqrt_pos. assert (T := fs_theta _ _ _ _ _ _ _ HS). destruct (inv_bp theta (-10) (proj1 T)) as (T1 & T2). change (- (-10))%Z with 10%Z in T2.
    replace (26 * u * (6 * s / theta + phi * floor_h G DT)) with (156 * u * / theta * s + 26 * u * phi * floor_h G DT) by (unfold Rdiv; ring).
    assert (Q : 156 * u * / theta <= 1) by (apply Rle_trans with (156 * u * bp 10); [apply Rmult_le_compat_l; lra|rewrite u_val; cbn; lra]). assert (Q2 : 156 * u * / theta * s <= 1 * s) by (apply Rmult_le_compat_r; assumption).
    change 302%Z with (2 + 300)%Z. rewrite bpow_plus. change (bp 2) with 4. assert (1 <= bp 300) by (apply (bpow_le radix2 0); lia). lra. }
  assert (VH : forall a i k, h_at G a i k -> val (hj (a, i, k))).
  { intros a i k Ha. assert (EQ : hj (a, i, k) = m' (a, i, k)) by (unfold m', gfield_step; fold h hj; symmetry; apply e_keeps_h; destruct a; cbn in Ha; tauto).
    split; [replace (hj (a, i, k)) with (h (a, i, k)) by (destruct a; cbn in Ha; try contradiction; reflexivity); exact (proj1 (H1 a i k Ha))|].
    rewrite EQ. apply Rle_trans with (bp 70 * bp 302); [exact (h_magnitude _ _ _ (-1) _ CM ltac:(ring) BL WB a i k Ha)|]. rewrite <- bpow_plus. apply bpow_le. lia. }
  assert (V3 : forall x, free G x -> val (hj x)).
  { intros [[a i] k] Hx. apply free_at in Hx. destruct Hx as [Hx|Hx]; [|now apply VH]. replace (hj (a, i, k)) with (m (a, i, k)); [apply V1, free_at; now left|].
    unfold hj, h. destruct a; cbn in Hx; try contradiction; cbn [gset_current]; symmetry; apply h_keeps; tauto. }
  assert (CS : forall a i k, e_at G a i k -> Rabs (density (real_currents pw lg j) a i k) <= bp 426).
  { intros a i k Ha. apply Rle_trans with (1 := en_point (density (real_currents pw lg j)) a i k Ha). change (en G (density (real_currents pw lg j))) with (current_size G (real_currents pw lg j)). set (c := current_size G (real_currents pw lg j)) in *.
    assert (C0 : 0 <= c) by apply sqrt_pos. change (sqrt (2 * theta * EPSILON0)) with (rate theta) in HB. assert (RL := rate_lower). assert (RU := rate_upper). assert (RP := bpow_gt_0 radix2 (-23)). assert (T := fs_dt _ _ _ _ _ _ _ HS). fold DT in T.
    assert (L : bp (-80) * c <= bp 300). { apply Rle_trans with (2 := HB). apply Rmult_le_compat_r; [exact C0|]. apply Rle_trans with DT; [lra|]. unfold Rdiv. rewrite <- (Rmult_1_r DT) at 1. apply Rmult_le_compat_l; [lra|]. rewrite <- Rinv_1 at 1. apply Rinv_le; lra. }
    replace (bp 46) with (bp 126 * bp (-80)) by (rewrite <- bpow_plus; reflexivity). replace (bp 426) with (bp 126 * bp 300) by (rewrite <- bpow_plus; reflexivity). rewrite Rmult_assoc. apply Rmult_le_compat_l; [apply bpow_ge_0|exact L]. }
  assert (VJ : forall a i k, e_at G a i k -> val (hj (jof a, i, k)) /\ real (hj (jof a, i, k)) = density (real_currents pw lg j) a i k).
  { intros a i k Ha. assert (RI : (0 <= i < gn_r A g)%Z /\ (0 <= k < gn_z A g)%Z) by (destruct a; cbn in Ha; lia). destruct (HJ i k (proj1 RI) (proj2 RI)) as (F1 & F2 & F3).
    assert (D : real (hj (jof a, i, k)) = density (real_currents pw lg j) a i k) by (destruct a; cbn in Ha; try contradiction; reflexivity). split; [|exact D]. split; [destruct a; cbn in Ha; try contradiction; assumption|].
    rewrite D. apply Rle_trans with (1 := CS a i k Ha). apply bpow_le. lia. }
  assert (E1 := cell_e pw lg g md dt theta K HS hj V3). fold G RM DT in E1.
  assert (HE' : forall a i k, (a = ER \/ a = EPHI \/ a = EZ) -> hj (a, i, k) = m (a, i, k)) by (intros a i k Ha; unfold hj, h; destruct Ha as [->|[->| ->]]; cbn [gset_current]; apply h_keeps; tauto).
  assert (HH' : forall a i k, (a = HR \/ a = HPHI \/ a = HZ) -> hj (a, i, k) = m' (a, i, k)) by (intros a i k Ha; unfold m', gfield_step; fold h hj; symmetry; now apply e_keeps_h).
  assert (E1' : forall a i k, e_at G a i k -> Rabs (rf m' (a, i, k) - (rf m (a, i, k) * koef_e RM DT i k - (density (real_currents pw lg j) a i k - ch G (rf m') a i k) * koef_h RM DT i k)) <=
     26 * u * (2 * (Rabs (rf m (a, i, k)) + phi) + (Rabs (density (real_currents pw lg j) a i k) + phi + mch G (fun x => Rabs (rf m' x) + phi) a i k) * koef_h RM DT i k)).
  { intros a i k Ha. destruct (VJ a i k Ha) as (VJ1 & VJ2). destruct (E1 a i k Ha VJ1) as (_ & B). change (gcalc_efield A g md dt hj (a, i, k)) with (m' (a, i, k)) in B. unfold am in B.
    change (rf hj (jof a, i, k)) with (real (hj (jof a, i, k))) in B. rewrite VJ2 in B. change (real (m' (a, i, k))) with (rf m' (a, i, k)) in B.
    replace (rf hj (a, i, k)) with (rf m (a, i, k)) in B by (unfold real_fields; rewrite HE' by (destruct a; cbn in Ha; tauto); reflexivity).
    assert (H3 : forall i k, hj (HR, i, k) = m' (HR, i, k)) by (intros; apply HH'; tauto). assert (H4 : forall i k, hj (HPHI, i, k) = m' (HPHI, i, k)) by (intros; apply HH'; tauto). assert (H5 : forall i k, hj (HZ, i, k) = m' (HZ, i, k)) by (intros; apply HH'; tauto).
    replace (ch G (rf hj) a i k) with (ch G (rf m') a i k) in B by (unfold ch, curl_z, real_fields; destruct a; cbn in Ha; try contradiction; rewrite ?H3, ?H4, ?H5; reflexivity).
    replace (mch G (fun x => Rabs (rf hj x) + phi) a i k) with (mch G (fun x => Rabs (rf m' x) + phi) a i k) in B by (unfold mch, real_fields; destruct a; cbn in Ha; try contradiction; rewrite ?H3, ?H4, ?H5; reflexivity).
    exact B. }
  assert (SM : sound m').
  { split.
    - intros [[a i] k] Hx. apply free_at in Hx. destruct Hx as [Hx|Hx].
      + exact (proj1 (E1 a i k Hx (proj1 (VJ a i k Hx)))).
      + rewrite <- (HH' a i k) by (destruct a; cbn in Hx; tauto). now apply VH.
    - intros x Hx. unfold m'. rewrite step_wall by exact Hx. now apply WM. }
  split; [exact SM|]. assert (KM : forall i k, (0 <= i < n_r G)%Z -> (0 <= k < n_z G)%Z -> epsilon RM i k + sigma RM i k * DT / (2 * EPSILON0) <= K) by exact (fs_K _ _ _ _ _ _ _ HS).
  assert (P := perturbed_step G GO RM DT theta Hth Hpa C HDT K (26 * u) phi KM (fs_K1 _ _ _ _ _ _ _ HS) E26 PH kappa (rf m) (rf m) (rf m') (rf m') (density (real_currents pw lg j)) CM (sound_conducting m' SM) H1' E1').
  apply Rle_trans with (1 := P). change (rate theta) with (sqrt (2 * theta * EPSILON0)). change (en G (density (real_currents pw lg j))) with (current_size G (real_currents pw lg j)).
  assert (Z0 : 0 <= DT / sqrt (2 * theta * EPSILON0) * current_size G (real_currents pw lg j)). { apply Rmult_le_pos; [|apply sqrt_pos]. apply Rdiv_nonneg; [lra|]. apply sqrt_lt_R0. assert (EP := EPSILON0_pos). apply Rmult_lt_0_compat; lra. }
  assert (Z1 := sqrt_pos (after G RM DT (rf m) (rf m))). assert (SC := scale_growth). assert (GR := growth_1). destruct floor_h_bound as (X1 & _). destruct floor_e_bound as (X2 & _).
  assert (X3 : 0 <= 26 * u * phi * (floor_h G DT + floor_e G DT theta K)) by (apply Rmult_le_pos; [apply Rmult_le_pos; lra|lra]).
  apply Rle_trans with (growth theta K * (sqrt (after G RM DT (rf m) (rf m)) + DT / sqrt (2 * theta * EPSILON0) * current_size G (real_currents pw lg j) + 26 * u * phi * (floor_h G DT + floor_e G DT theta K))); [apply Rmult_le_compat_r; lra|].
  apply Rmult_le_compat_l; lra.
Qed.

(** ** Runs *)
Theorem run64 : forall js m, sound m -> Forall (finite_currents pw lg g) js -> budget pw lg g md dt theta K js m <= bp 300 ->
  sound (gfield_run A g md dt js m) /\ sqrt (energy pw lg g md dt (gfield_run A g md dt js m)) <= budget pw lg g md dt theta K js m.
Proof.
  assert (GR := growth_1). set (q := DT / sqrt (2 * theta * EPSILON0)). assert (Q0 : 0 <= q) by (apply Rdiv_nonneg; [lra|]; apply sqrt_lt_R0; assert (EP := EPSILON0_pos); apply Rmult_lt_0_compat; lra).
  assert (F0 := bpow_ge_0 radix2 (-300)).
  intro js. induction js as [|j js IH]; intros m HM HF HB.
  - cbn [gfield_run fold_left]. split; [exact HM|]. unfold budget. cbn [length map total_size fold_right INR pow]. lra.
  - inversion HF as [|? ? Fj Fjs]; subst. unfold budget in HB. cbn [length map total_size fold_right] in HB. fold (total_size G (map (real_currents pw lg) js)) in HB. fold G DT q in HB.
    change (fold_right (fun (j : currents3) (s : R) => current_size G j + s) 0 (map (real_currents pw lg) js)) with (total_size G (map (real_currents pw lg) js)) in HB.
    set (T := total_size G (map (real_currents pw lg) js)) in *. set (c := current_size G (real_currents pw lg j)) in *. set (s := sqrt (energy pw lg g md dt m)) in *. set (n := length js) in *.
    assert (T0 : 0 <= T). { unfold T. clear. induction js as [|x js IH]; cbn; [lra|]. assert (0 <= current_size G (real_currents pw lg x)) by apply sqrt_pos. fold (total_size G (map (real_currents pw lg) js)). lra. }
    assert (C0 : 0 <= c) by apply sqrt_pos. assert (S0 : 0 <= s) by apply sqrt_pos. assert (N0 := pos_INR n). rewrite S_INR in HB. assert (GP : 1 <= growth theta K ^ n) by (apply pow_R1_Rle; exact GR).
    assert (QC : 0 <= q * c) by (now apply Rmult_le_pos). assert (QT : 0 <= q * T) by (now apply Rmult_le_pos). assert (NF : 0 <= INR n * bp (-300)) by (apply Rmult_le_pos; assumption).
    cbn [pow] in HB.
    assert (LE : s + q * (c + T) + (INR n + 1) * bp (-300) <= bp 300).
    { apply Rle_trans with (2 := HB). rewrite <- (Rmult_1_l (s + _ + _)) at 1. apply Rmult_le_compat_r; [|]. - rewrite Rmult_plus_distr_l, Rmult_plus_distr_r. lra. - rewrite <- (Rmult_1_l 1). apply Rmult_le_compat; lra. }
    rewrite Rmult_plus_distr_l, Rmult_plus_distr_r in LE.
    destruct (step64 j m HM Fj) as (SM & SE); [fold s; lra|fold q c; lra|]. fold s q c in SE. set (m' := gfield_step A g md dt j m) in *.
    assert (BB : budget pw lg g md dt theta K js m' <= growth theta K ^ S n * (s + q * (c + T) + (INR n + 1) * bp (-300))).
    { unfold budget. change (total_size (real_geom pw lg g) (map (real_currents pw lg) js)) with T. fold DT q n. cbn [pow]. replace (growth theta K * growth theta K ^ n * (s + q * (c + T) + (INR n + 1) * bp (-300))) with (growth theta K ^ n * (growth theta K * (s + q * c + bp (-300)) + growth theta K * (q * T + INR n * bp (-300)))) by ring.
      apply Rmult_le_compat_l; [lra|]. assert (X : q * T + INR n * bp (-300) <= growth theta K * (q * T + INR n * bp (-300))) by (rewrite <- (Rmult_1_l (q * T + INR n * bp (-300))) at 1; apply Rmult_le_compat_r; lra). lra. }
    destruct (IH m' SM Fjs) as (R1 & R2); [apply Rle_trans with (1 := BB); exact HB|]. change (gfield_run A g md dt (j :: js) m) with (gfield_run A g md dt js m'). split; [exact R1|].
    apply Rle_trans with (1 := R2). apply Rle_trans with (1 := BB). unfold budget. cbn [length map total_size fold_right]. fold (total_size G (map (real_currents pw lg) js)).
    change (fold_right (fun j s => current_size (real_geom pw lg g) j + s) 0 (map (real_currents pw lg) js)) with T. fold s n DT q. change (current_size (real_geom pw lg g) (real_currents pw lg j)) with c. rewrite S_INR. lra.
Qed.

Lemma run64_bound : forall m n, sound m -> sqrt (energy pw lg g md dt m) <= n -> forall x, free G x -> Rabs (rf m x) <= bp 70 * n.
Proof.
  intros m n SO E [[a i] k] Hx. assert (CM := sound_conducting m SO). rewrite energy_after in E. assert (AL := after_lower G GO RM DT theta Hpa courant (rf m) (rf m) CM). apply free_at in Hx.
  destruct Hx as [Hx|Hx]; [exact (e_magnitude _ _ _ _ _ AL E a i k Hx)|exact (h_magnitude _ _ _ 1 _ CM ltac:(ring) AL E a i k Hx)].
Qed.

(** Without currents *)
Lemma growth_n : forall x n, 0 <= x -> INR n * x <= / 2 -> (1 + x) ^ n <= 1 + 2 * (INR n * x).
Proof.
  intros x n Hx. induction n as [|n IH]; intro H; [cbn; lra|]. rewrite S_INR in *. assert (N := pos_INR n). assert (NX : 0 <= INR n * x) by (now apply Rmult_le_pos). cbn [pow].
  apply Rle_trans with ((1 + x) * (1 + 2 * (INR n * x))); [apply Rmult_le_compat_l; [lra|]; apply IH; lra|]. assert (2 * (INR n * x) * x <= 1 * x) by (apply Rmult_le_compat_r; lra). lra.
Qed.
Definition none : gcurrents A := GCur A (fun _ _ => b64_of_Z 0) (fun _ _ => b64_of_Z 0) (fun _ _ => b64_of_Z 0).
Lemma none_size : current_size G (real_currents pw lg none) = 0.
Proof.
  unfold current_size. rewrite (e_sum_ext G _ (fun a i k => 0 * 0)).
  - rewrite (e_sum_scal G 0 (fun _ _ _ => 0)), Rmult_0_l. apply sqrt_0.
  - intros a i k Ha. destruct a; cbn in Ha; try contradiction; cbn; ring.
Qed.
Lemma quiet64 : forall n m, sound m -> INR n * (K / theta) <= bp 42 -> sqrt (energy pw lg g md dt m) <= bp 290 ->
  sound (gfield_run A g md dt (repeat none n) m) /\
  sqrt (energy pw lg g md dt (gfield_run A g md dt (repeat none n) m)) <= (1 + INR n * (K / theta) * bp (-42)) * (sqrt (energy pw lg g md dt m) + INR n * bp (-300)).
Proof.
  intros n m SO HN HE. assert (K1 := fs_K1 _ _ _ _ _ _ _ HS). assert (KT : 1 <= K / theta) by (apply Rmult_le_reg_r with theta; [lra|]; unfold Rdiv; rewrite Rmult_assoc, Rinv_l by lra; lra).
  assert (N0 := pos_INR n). assert (NK : INR n <= INR n * (K / theta)) by (rewrite <- (Rmult_1_r (INR n)) at 1; apply Rmult_le_compat_l; lra).
  assert (G1 : growth theta K ^ n <= 1 + INR n * (K / theta) * bp (-42)).
  { unfold growth. replace (INR n * (K / theta) * bp (-42)) with (2 * (INR n * (K / theta * bp (-43)))) by (change (-42)%Z with (1 + -43)%Z; rewrite bpow_plus; change (bp 1) with 2; ring).
    apply growth_n; [apply Rmult_le_pos; [lra|apply bpow_ge_0]|]. rewrite <- Rmult_assoc. apply Rle_trans with (bp 42 * bp (-43)); [apply Rmult_le_compat_r; [apply bpow_ge_0|exact HN]|]. rewrite <- bpow_plus. cbn. lra. }
  assert (TS : total_size G (map (real_currents pw lg) (repeat none n)) = 0). { clear. induction n as [|n IH]; [reflexivity|]. cbn [repeat map total_size fold_right]. change (current_size G (real_currents pw lg none) + total_size G (map (real_currents pw lg) (repeat none n)) = 0). rewrite IH, none_size. ring. }
  assert (S0 := sqrt_pos (energy pw lg g md dt m)). assert (F0 := bpow_ge_0 radix2 (-300)). assert (NF : 0 <= INR n * bp (-300)) by (now apply Rmult_le_pos).
  assert (B : budget pw lg g md dt theta K (repeat none n) m <= (1 + INR n * (K / theta) * bp (-42)) * (sqrt (energy pw lg g md dt m) + INR n * bp (-300))).
  { unfold budget. change (total_size (real_geom pw lg g)) with (total_size G). rewrite TS, repeat_length, Rmult_0_r, Rplus_0_r. apply Rmult_le_compat_r; [lra|exact G1]. }
  destruct (run64 (repeat none n) m SO) as (R1 & R2).
  - clear. induction n as [|n IH]; cbn; constructor; [|exact IH]. intros i k _ _. repeat split; reflexivity.
  - apply Rle_trans with (1 := B). assert (Q : 0 <= INR n * (K / theta) * bp (-42) <= 1).
    { split; [apply Rmult_le_pos; [lra|apply bpow_ge_0]|]. apply Rle_trans with (bp 42 * bp (-42)); [apply Rmult_le_compat_r; [apply bpow_ge_0|exact HN]|]. rewrite <- bpow_plus. cbn. lra. }
    apply Rle_trans with (2 * (bp 290 + bp (-258))).
    + apply Rmult_le_compat; [lra|lra|lra|]. apply Rplus_le_compat; [exact HE|]. replace (bp (-258)) with (bp 42 * bp (-300)) by (rewrite <- bpow_plus; reflexivity). apply Rmult_le_compat_r; lra.
    + change 300%Z with (2 + 298)%Z. rewrite bpow_plus. change (bp 2) with 4. assert (bp 290 <= bp 298) by (apply bpow_le; lia). assert (bp (-258) <= bp 298) by (apply bpow_le; lia). lra.
  - split; [exact R1|]. apply Rle_trans with (1 := R2). exact B.
Qed.
End Solver.
