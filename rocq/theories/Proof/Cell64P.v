(** One cell of the field update in binary64: every component is its exact value up to rounding. *)
From Coq Require Import Reals ZArith Lia Lra List Bool Psatz.
From Flocq Require Import Core IEEE754.BinarySingleNaN.
From Verif.Lib Require Import RAux Grid Par.
From Verif.Model Require Import Constants Geometry Fields Binary64 Temperature64 Arith GenCode GenFields.
From Verif.Spec Require Import Cloud Continuity Maxwell Poynting Field64.
From Verif.Proof Require Import GeometryP FieldsP MaxwellP EnergyP StabilityP PoyntingP PerturbP GenFieldsP.
From Verif.Proof Require Import Binary64P FloatP Axis64P Push64P Err64P Ana64P Leg64P Charge64P.
Import ListNotations.
Local Open Scope R_scope.
Notation bp := (bpow radix2).
Notation fin x := (@is_finite prec64 emax64 x = true).
Notation real x := (@B2R prec64 emax64 x).

(** ** Constants *)
Lemma bp_37 : bp (-37) <= EPSILON0 <= bp (-36).
Proof. unfold EPSILON0. split; cbn; lra. Qed.
Lemma bp_20 : bp (-20) <= MAGN_CONST <= bp (-19).
Proof. unfold MAGN_CONST. split; cbn; lra. Qed.
Lemma good_eps0 : good (b64_lit 885 100000000000000) EPSILON0 EPSILON0 (Sh 7 (-37) (-36) true).
Proof.
  assert (G1 := good_Z 885 9 10 eq_refl ltac:(split; cbn; lra)). assert (G2 := good_Z 100000000000000 46 47 eq_refl ltac:(split; cbn; lra)).
  assert (G := analysed _ _ _ _ (Di (V 0) (V 1)) _ (goods_cons _ _ _ _ _ _ _ _ G1 (goods_cons _ _ _ _ _ _ _ _ G2 goods_nil)) eq_refl). cbn [eb er em nth s_k] in G.
  change (885 / 100000000000000) with EPSILON0 in G. destruct G as (N & _ & L). split; [exact N|]. split; [exact bp_37|exact L].
Qed.
Lemma good_mu0 : good (b64_lit 126 100000000) MAGN_CONST MAGN_CONST (Sh 7 (-20) (-19) true).
Proof.
  assert (G1 := good_Z 126 6 7 eq_refl ltac:(split; cbn; lra)). assert (G2 := good_Z 100000000 26 27 eq_refl ltac:(split; cbn; lra)).
  assert (G := analysed _ _ _ _ (Di (V 0) (V 1)) _ (goods_cons _ _ _ _ _ _ _ _ G1 (goods_cons _ _ _ _ _ _ _ _ G2 goods_nil)) eq_refl). cbn [eb er em nth s_k] in G.
  change (126 / 100000000) with MAGN_CONST in G. destruct G as (N & _ & L). split; [exact N|]. split; [exact bp_20|exact L].
Qed.

Section Cell.
Variables pw lg : b64 -> b64.
Notation A := (b64_arith pw lg).
Variables (g : ggeom A) (md : gmedium A) (dt : b64) (theta K : R).
Hypothesis HS : steady pw lg g md dt theta K.
Let G := real_geom pw lg g.
Let RM := real_medium pw lg md.
Let DR : R := real (gdr A g).
Let DZ : R := real (gdz A g).
Let DT : R := real dt.

Lemma DR_pos : 0 < DR. Proof. assert (P := bpow_gt_0 radix2 (-30)). assert (Q := fs_dr _ _ _ _ _ _ _ HS). fold DR in Q. lra. Qed.
Lemma DZ_pos : 0 < DZ. Proof. assert (P := bpow_gt_0 radix2 (-30)). assert (Q := fs_dz _ _ _ _ _ _ _ HS). fold DZ in Q. lra. Qed.
Lemma DT_pos : 0 < DT. Proof. assert (P := bpow_gt_0 radix2 (-80)). assert (Q := fs_dt _ _ _ _ _ _ _ HS). fold DT in Q. lra. Qed.
Lemma theta_pos : 0 < theta <= 1. Proof. assert (P := bpow_gt_0 radix2 (-10)). assert (Q := fs_theta _ _ _ _ _ _ _ HS). lra. Qed.
Lemma G_ok : geom_ok G.
Proof.
  assert (N := fs_nr _ _ _ _ _ _ _ HS). assert (N' := fs_nz _ _ _ _ _ _ _ HS). repeat split; cbn; try lia; apply Rmult_lt_0_compat; try (apply IZR_lt; lia); [exact DR_pos|exact DZ_pos].
Qed.
Lemma G_dr : Geometry.dr G = DR.
Proof. assert (N := fs_nr _ _ _ _ _ _ _ HS). unfold Geometry.dr, G, real_geom, n_r, r_size. fold DR. field. assert (0 < IZR (gn_r A g - 1)) by (apply IZR_lt; lia). lra. Qed.
Lemma G_dz : Geometry.dz G = DZ.
Proof. assert (N := fs_nz _ _ _ _ _ _ _ HS). unfold Geometry.dz, G, real_geom, n_z, z_size. fold DZ. field. assert (0 < IZR (gn_z A g - 1)) by (apply IZR_lt; lia). lra. Qed.
Lemma RM_passive : passive G RM.
Proof. intros i k Hi Hk. destruct (fs_medium _ _ _ _ _ _ _ HS i k Hi Hk) as (_ & P & _ & Q). cbn. lra. Qed.

Lemma good_dr : good (gdr A g : b64) DR DR (Sh 0 (-30) 10 true).
Proof. apply good_exact; [exact (fs_fdr _ _ _ _ _ _ _ HS)|reflexivity|exact (fs_dr _ _ _ _ _ _ _ HS)]. Qed.
Lemma good_dz : good (gdz A g : b64) DZ DZ (Sh 0 (-30) 10 true).
Proof. apply good_exact; [exact (fs_fdz _ _ _ _ _ _ _ HS)|reflexivity|exact (fs_dz _ _ _ _ _ _ _ HS)]. Qed.
Lemma good_dt : good dt DT DT (Sh 0 (-80) 0 true).
Proof. apply good_exact; [exact (fs_fdt _ _ _ _ _ _ _ HS)|reflexivity|exact (fs_dt _ _ _ _ _ _ _ HS)]. Qed.
Lemma good_2 : good (b64_of_Z 2) 2 2 (Sh 0 1 1 true). Proof. apply good_Z; [reflexivity|cbn; lra]. Qed.
Lemma good_4 : good (b64_of_Z 4) 4 4 (Sh 0 2 2 true). Proof. apply good_Z; [reflexivity|cbn; lra]. Qed.

(** ** The coefficients *)
Section Koef.
Variables (i k : Z).
Hypothesis Hi : (0 <= i < gn_r A g)%Z.
Hypothesis Hk : (0 <= k < gn_z A g)%Z.
Let E : R := real (gepsilon A md i k).
Let Sg : R := real (gsigma A md i k).
Let den : R := epsilonx2 RM i k + sigma_t RM DT i k.
Lemma good_sigma : good (gsigma A md i k : b64) Sg (Sg + bp (-60)) (Sh 0 (-60) 41 false).
Proof.
  destruct (fs_medium _ _ _ _ _ _ _ HS i k Hi Hk) as (_ & _ & F & B). fold Sg in B. assert (P := bpow_gt_0 radix2 (-60)). split; [|split]; cbn [s_k s_lo s_hi s_rel]; [| |discriminate].
  - replace (0 / 4) with 0 by lra. apply near_exact; [exact F|]. fold Sg. rewrite Rabs_pos_eq; lra.
  - split; [lra|]. assert (bp (-60) <= bp 40) by (apply bpow_le; lia). replace (bp 41) with (2 * bp 40) by (cbn; lra). lra.
Qed.
Lemma good_eps : good (gepsilon A md i k : b64) E E (Sh 0 0 20 true).
Proof. destruct (fs_medium _ _ _ _ _ _ _ HS i k Hi Hk) as (F & B & _). apply good_exact; [exact F|reflexivity|exact B]. Qed.
Definition koef_env := goods_cons _ _ _ _ _ _ _ _ good_2 (goods_cons _ _ _ _ _ _ _ _ good_eps (goods_cons _ _ _ _ _ _ _ _ good_eps0
  (goods_cons _ _ _ _ _ _ _ _ good_sigma (goods_cons _ _ _ _ _ _ _ _ good_dt goods_nil)))).
Lemma den_facts : bp (-37) <= den /\ 2 * E * EPSILON0 + (Sg + bp (-60)) * DT <= 2 * den /\ 2 * E * EPSILON0 + (Sg + bp (-60)) * DT <= bp 42.
Proof.
  destruct (fs_medium _ _ _ _ _ _ _ HS i k Hi Hk) as (_ & B & _ & B'). fold E in B. fold Sg in B'. assert (E0 := bp_37). assert (T := fs_dt _ _ _ _ _ _ _ HS). fold DT in T. assert (TP := DT_pos).
  unfold den, epsilonx2, sigma_t, RM, real_medium. cbn [epsilon sigma]. fold E Sg. assert (P := bpow_gt_0 radix2 (-37)). assert (P1 := bpow_gt_0 radix2 (-60)). assert (Q : bp (-60) <= bp (-37)) by (apply bpow_le; lia).
  assert (S0 : 0 <= Sg * DT) by (apply Rmult_le_pos; lra). assert (E1 : EPSILON0 <= E * EPSILON0) by (rewrite <- (Rmult_1_l EPSILON0) at 1; apply Rmult_le_compat_r; lra).
  assert (D1 : bp (-60) * DT <= bp (-60)) by (rewrite <- (Rmult_1_r (bp (-60))) at 2; apply Rmult_le_compat_l; lra).
  split; [lra|]. split; [lra|]. assert (S1 : Sg * DT <= bp 40) by (rewrite <- (Rmult_1_r (bp 40)); apply Rmult_le_compat; lra).
  assert (E2 : E * EPSILON0 <= bp 20 * bp (-36)) by (apply Rmult_le_compat; lra). rewrite <- bpow_plus in E2. cbn in *. lra.
Qed.
Lemma den_good : good (add A (gepsilonx2 A md i k) (gsigma_t A md dt i k) : b64) den den (Sh 48 (-37) 42 true).
Proof.
  assert (GG := analysed _ _ _ _ (Pl (Ti (Ti (V 0) (V 1)) (V 2)) (Ti (V 3) (V 4))) _ koef_env eq_refl). cbn [eb er em nth s_k s_lo s_hi s_rel Z.max Z.add Pos.add Z.compare Pos.compare Pos.compare_cont] in GG.
  change (2 * E * EPSILON0 + Sg * DT) with den in GG.
  destruct den_facts as (D1 & D2 & D3). assert (P := bpow_gt_0 radix2 (-37)). split; [|split]; cbn [s_k s_lo s_hi s_rel].
  - apply (rescale _ _ _ _ _ _ GG); [rewrite Rabs_pos_eq; lra| |lra|rewrite u_val; lra]. cbn [s_k]. 
    match goal with |- ?z / 4 * _ <= _ => replace z with 24 by (f_equal; reflexivity) end. lra.
  - destruct GG as ((_ & _ & S & _) & _). rewrite Rabs_pos_eq in S by lra. split; lra.
  - intros _. split; [lra|]. rewrite Rabs_pos_eq; lra.
Qed.
Lemma kh_good : good (gkoef_h A md dt i k : b64) (koef_h RM DT i k) (koef_h RM DT i k) (Sh 61 (-121) 38 true).
Proof.
  exact (analysed _ _ _ _ (Di (Ti (V 0) (V 1)) (V 2)) _ (goods_cons _ _ _ _ _ _ _ _ good_2 (goods_cons _ _ _ _ _ _ _ _ good_dt (goods_cons _ _ _ _ _ _ _ _ den_good goods_nil))) eq_refl).
Qed.
Lemma ke_good : good (gkoef_e A md dt i k : b64) (koef_e RM DT i k) 2 (Sh 79 1 1 false).
Proof.
  assert (GG := analysed _ _ _ _ (Di (Mi (Ti (Ti (V 1) (V 2)) (V 3)) (Ti (V 4) (V 5))) (V 0)) _ (goods_cons _ _ _ _ _ _ _ _ den_good koef_env) eq_refl). cbn [eb er em nth] in GG.
  destruct den_facts as (D1 & D2 & D3). assert (P := bpow_gt_0 radix2 (-37)).
  assert (L : (2 * E * EPSILON0 + (Sg + bp (-60)) * DT) / den <= 2) by (apply Rmult_le_reg_r with den; [lra|]; unfold Rdiv; rewrite Rmult_assoc, Rinv_l by lra; lra).
  split; [|split]; cbn [s_k s_lo s_hi s_rel]; [|unfold rg; cbn; lra|discriminate].
  destruct GG as (N & _). cbn [s_k] in N. apply (near_weaken _ _ _ _ 2 (79 / 4)) in N; [exact N|exact L| |rewrite u_val; lra]. right. reflexivity.
Qed.
End Koef.

(** ** The updates *)
Definition phi : R := bp (-500).
Definition val (x : b64) : Prop := fin x /\ Rabs (real x) <= bp 499.
Definition am (m : gmem A) (x : loc) : R := Rabs (real_fields pw lg m x) + phi.
Lemma good_val : forall x, val x -> good x (real x) (Rabs (real x) + phi) (Sh 0 (-500) 500 false).
Proof.
  intros x (F & B). assert (P := bpow_gt_0 radix2 (-500)). assert (Q := Rabs_pos (real x)). unfold phi. split; [|split]; cbn [s_k s_lo s_hi s_rel]; [| |discriminate].
  - replace (0 / 4) with 0 by lra. apply near_exact; [exact F|lra].
  - split; [lra|]. assert (bp (-500) <= bp 499) by (apply bpow_le; lia). change 500%Z with (499 + 1)%Z. rewrite bpow_plus. change (bp 1) with 2. lra.
Qed.
Lemma finish : forall (v : b64) X M s X' M' c, good v X M s -> X = X' -> M <= M' -> IZR (s_k s) / 4 <= c -> fin v /\ Rabs (real v - X') <= c * u * M'.
Proof.
  intros v X M s X' M' c ((F & (K0 & _) & SX & E) & R & _) <- HM HC. split; [exact F|]. apply Rle_trans with (1 := E). assert (P := rg_pos _ _ _ R). assert (U := u_pos).
  apply Rmult_le_compat; [apply Rmult_le_pos; lra|lra| |exact HM]. apply Rmult_le_compat_r; lra.
Qed.
Notation "a :+ b" := (goods_cons _ _ _ _ _ _ _ _ a b) (at level 60, right associativity).

Definition jof (a : farr) : farr := match a with ER => JR | EPHI => JPHI | _ => JZ end.

Section Update.
Variable m : gmem A.
Hypothesis HV : forall x, free G x -> val (m x).

Lemma cell_e : forall a i k, e_at G a i k -> val (m (jof a, i, k)) ->
  fin (gcalc_efield A g md dt m (a, i, k)) /\
  Rabs (real (gcalc_efield A g md dt m (a, i, k)) -
        (real_fields pw lg m (a, i, k) * koef_e RM DT i k - (real_fields pw lg m (jof a, i, k) - ch G (real_fields pw lg m) a i k) * koef_h RM DT i k))
  <= 26 * u * (2 * am m (a, i, k) + (am m (jof a, i, k) + mch G (am m) a i k) * koef_h RM DT i k).
Proof.
  intros a i k Ha HJ. assert (NR := fs_nr _ _ _ _ _ _ _ HS). assert (NZ := fs_nz _ _ _ _ _ _ _ HS). assert (PR := DR_pos). assert (PZ := DZ_pos).
  assert (IN : (0 <= i < gn_r A g)%Z /\ (0 <= k < gn_z A g)%Z) by (destruct a; cbn in Ha; lia). destruct IN as (I1 & I2).
  assert (KE := ke_good i k I1 I2). assert (KH := kh_good i k I1 I2).
  destruct a; cbn in Ha; try contradiction; cbn [jof] in *; unfold mch, ch; rewrite ?G_dr, ?G_dz.
  - rewrite gcalc_efield_er by lia. rect; [|lia].
    assert (V0 := good_val _ (HV (ER, i, k) Ha)). assert (V1 := good_val _ HJ). assert (V2 := good_val _ (HV (HPHI, i, k) ltac:(cbn; lia))). assert (V3 := good_val _ (HV (HPHI, i, (k - 1)%Z) ltac:(cbn; lia))).
    assert (GG := analysed _ _ _ _ (Mi (Ti (V 0) (V 4)) (Ti (Pl (V 1) (Di (Mi (V 2) (V 3)) (V 6))) (V 5))) _ (V0 :+ V1 :+ V2 :+ V3 :+ KE :+ KH :+ good_dz :+ goods_nil) eq_refl). cbn [eb er em nth] in GG.
    eapply finish; [exact GG| | |cbn; lra]; unfold am, real_fields; [field; lra|right; ring].
  - rewrite gcalc_efield_ephi. rect; [|lia].
    assert (V0 := good_val _ (HV (EPHI, i, k) Ha)). assert (V1 := good_val _ HJ). assert (V2 := good_val _ (HV (HR, i, k) ltac:(cbn; lia))). assert (V3 := good_val _ (HV (HR, i, (k - 1)%Z) ltac:(cbn; lia))).
    assert (V4 := good_val _ (HV (HZ, i, k) ltac:(cbn; lia))). assert (V5 := good_val _ (HV (HZ, (i - 1)%Z, k) ltac:(cbn; lia))).
    assert (GG := analysed _ _ _ _ (Mi (Ti (V 0) (V 6)) (Ti (Pl (Mi (V 1) (Di (Mi (V 2) (V 3)) (V 8))) (Di (Mi (V 4) (V 5)) (V 9))) (V 7))) _ (V0 :+ V1 :+ V2 :+ V3 :+ V4 :+ V5 :+ KE :+ KH :+ good_dz :+ good_dr :+ goods_nil) eq_refl). cbn [eb er em nth] in GG.
    eapply finish; [exact GG| | |cbn; lra]; unfold am, real_fields; [field; lra|right; ring].
  - unfold curl_z. destruct (Z.eqb_spec i 0) as [->|N].
    + rewrite gcalc_efield_ez_axis. rect; [|lia].
      assert (V0 := good_val _ (HV (EZ, 0%Z, k) Ha)). assert (V1 := good_val _ HJ). assert (V2 := good_val _ (HV (HPHI, 0%Z, k) ltac:(cbn; lia))).
      assert (GG := analysed _ _ _ _ (Mi (Ti (V 0) (V 3)) (Ti (Mi (V 1) (Ti (Di (V 6) (V 5)) (V 2))) (V 4))) _ (V0 :+ V1 :+ V2 :+ KE :+ KH :+ good_dr :+ good_4 :+ goods_nil) eq_refl). cbn [eb er em nth] in GG.
      eapply finish; [exact GG| | |cbn; lra]; unfold am, real_fields; rewrite ?G_dr; [field; lra|right; ring].
    + rewrite gcalc_efield_ez by lia. rect; [|lia]. assert (I3 : 1 <= IZR i) by (apply IZR_le; lia). assert (I4 : IZR i <= 1048576) by (apply IZR_le; lia).
      assert (V0 := good_val _ (HV (EZ, i, k) Ha)). assert (V1 := good_val _ HJ). assert (V2 := good_val _ (HV (HPHI, i, k) ltac:(cbn; lia))). assert (V3 := good_val _ (HV (HPHI, (i - 1)%Z, k) ltac:(cbn; lia))).
      assert (GI := good_Z i 0 20 ltac:(lia) ltac:(split; cbn; lra)).
      assert (GG := analysed _ _ _ _ (Mi (Ti (V 0) (V 4)) (Ti (Mi (Mi (V 1) (Di (Mi (V 2) (V 3)) (V 6))) (Di (Pl (V 2) (V 3)) (Ti (Ti (V 7) (V 6)) (V 8)))) (V 5))) _ (V0 :+ V1 :+ V2 :+ V3 :+ KE :+ KH :+ good_dr :+ good_2 :+ GI :+ goods_nil) eq_refl). cbn [eb er em nth] in GG.
      eapply finish; [exact GG| | |cbn; lra]; unfold am, real_fields; rewrite ?G_dr; [field; lra|right; ring].
Qed.
End Update.

Section UpdateH.
Variable m : gmem A.
Hypothesis HV : forall x, free G x -> val (m x).
Hypothesis HW : forall x, wall_location G x -> val (m x).
Lemma half_ok : forall i, (0 <= i < gn_r A g)%Z -> good (b64_add (b64_of_Z i) (b64_lit 1 2)) (IZR i + 1 / 2) (IZR i + 1 / 2) (Sh 0 (-1) 21 true).
Proof.
  intros k Hk. assert (NR := fs_nr _ _ _ _ _ _ _ HS). assert (K0 : 0 <= IZR k <= 1048576) by (split; apply IZR_le; lia). destruct lit_half as (FH & EH). destruct (of_Z_exact k ltac:(cbn in *; lia)) as (FK & EK).
  destruct (add_ok (b64_of_Z k) (b64_lit 1 2) FK FH) as (F & E); [rewrite EK, EH, Rabs_pos_eq by lra; apply Rle_trans with (bp 21); [change (bp 21) with 2097152; lra|apply bpow_le; lia]|].
  apply good_exact; [exact F| |change (bp (-1)) with (/ 2); change (bp 21) with 2097152; lra].
  rewrite E, EK, EH. replace (IZR k + / 2) with (IZR (2 * k + 1) * bp (-1)) by (rewrite plus_IZR, mult_IZR; cbn; lra). rewrite rnd_exact; [rewrite plus_IZR, mult_IZR; change (bp (-1)) with (/ 2); field|lia|lia].
Qed.
Ltac ok := first [apply HV; cbn; lia | apply HW; cbn; lia].
Lemma on_grid : forall a i k, match a with
  | ER => (0 <= i < n_r G - 1 /\ 0 <= k < n_z G)%Z | EPHI => (0 <= i < n_r G /\ 0 <= k < n_z G)%Z | EZ => (0 <= i < n_r G /\ 0 <= k < n_z G - 1)%Z | _ => False end -> val (m (a, i, k)).
Proof.
  intros a i k H. assert (NR := fs_nr _ _ _ _ _ _ _ HS). assert (NZ := fs_nz _ _ _ _ _ _ _ HS). cbn in H. destruct a; try contradiction.
  - assert (D : (k = 0 \/ k = gn_z A g - 1 \/ 1 <= k < gn_z A g - 1)%Z) by lia. destruct D as [D|[D|D]]; ok.
  - assert (D : (k = 0 \/ k = gn_z A g - 1 \/ i = 0 \/ i = gn_r A g - 1 \/ (1 <= i < gn_r A g - 1 /\ 1 <= k < gn_z A g - 1))%Z) by lia. destruct D as [D|[D|[D|[D|D]]]]; ok.
  - assert (D : (i = gn_r A g - 1 \/ 0 <= i < gn_r A g - 1)%Z) by lia. destruct D as [D|D]; ok.
Qed.
Lemma cell_h : forall a i k, h_at G a i k ->
  fin (gcalc_hfield A g dt m (a, i, k)) /\
  Rabs (real (gcalc_hfield A g dt m (a, i, k)) - (real_fields pw lg m (a, i, k) + DT / MAGN_CONST * ce G (real_fields pw lg m) a i k))
  <= 26 * u * (am m (a, i, k) + DT / MAGN_CONST * mce G (am m) a i k).
Proof.
  intros a i k Ha. assert (NR := fs_nr _ _ _ _ _ _ _ HS). assert (NZ := fs_nz _ _ _ _ _ _ _ HS). assert (PR := DR_pos). assert (PZ := DZ_pos). assert (MP := MAGN_CONST_pos).
  destruct a; cbn in Ha; try contradiction; unfold mce, ce; rewrite ?G_dr, ?G_dz.
  - rewrite gcalc_hfield_hr by lia. rect; [|lia].
    assert (V0 := good_val _ (HV (HR, i, k) Ha)). assert (V1 := good_val _ (on_grid EPHI i (k + 1) ltac:(cbn; lia))). assert (V2 := good_val _ (on_grid EPHI i k ltac:(cbn; lia))).
    assert (GG := analysed _ _ _ _ (Pl (V 0) (Di (Ti (V 3) (Mi (V 1) (V 2))) (Ti (V 4) (V 5)))) _ (V0 :+ V1 :+ V2 :+ good_dt :+ good_dz :+ good_mu0 :+ goods_nil) eq_refl). cbn [eb er em nth] in GG.
    eapply finish; [exact GG| | |cbn; lra]; unfold am, real_fields; [field; lra|right; field; lra].
  - rewrite gcalc_hfield_hphi. rect; [|lia].
    assert (V0 := good_val _ (HV (HPHI, i, k) Ha)). assert (V1 := good_val _ (on_grid EZ (i + 1) k ltac:(cbn; lia))). assert (V2 := good_val _ (on_grid EZ i k ltac:(cbn; lia))).
    assert (V3 := good_val _ (on_grid ER i (k + 1) ltac:(cbn; lia))). assert (V4 := good_val _ (on_grid ER i k ltac:(cbn; lia))).
    assert (GG := analysed _ _ _ _ (Pl (V 0) (Di (Ti (V 5) (Mi (Di (Mi (V 1) (V 2)) (V 6)) (Di (Mi (V 3) (V 4)) (V 7)))) (V 8))) _ (V0 :+ V1 :+ V2 :+ V3 :+ V4 :+ good_dt :+ good_dr :+ good_dz :+ good_mu0 :+ goods_nil) eq_refl). cbn [eb er em nth] in GG.
    eapply finish; [exact GG| | |cbn; lra]; unfold am, real_fields, curl_phi; rewrite ?G_dr, ?G_dz; [field; lra|right; field; lra].
  - rewrite gcalc_hfield_hz. rect; [|lia]. assert (I0 : 0 <= IZR i) by (apply IZR_le; lia).
    assert (V0 := good_val _ (HV (HZ, i, k) Ha)). assert (V1 := good_val _ (on_grid EPHI (i + 1) k ltac:(cbn; lia))). assert (V2 := good_val _ (on_grid EPHI i k ltac:(cbn; lia))).
    assert (GG := analysed _ _ _ _ (Mi (V 0) (Di (Ti (V 3) (Pl (Di (Pl (V 1) (V 2)) (Ti (Ti (V 6) (V 4)) (V 7))) (Di (Mi (V 1) (V 2)) (V 4)))) (V 5))) _ (V0 :+ V1 :+ V2 :+ good_dt :+ good_dr :+ good_mu0 :+ good_2 :+ half_ok i ltac:(lia) :+ goods_nil) eq_refl). cbn [eb er em nth] in GG.
    eapply finish; [exact GG| | |cbn; lra]; unfold am, real_fields, curl_e_z; rewrite ?G_dr, ?G_dz; [field; lra|right; field; lra].
Qed.
End UpdateH.
End Cell.
