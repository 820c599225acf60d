(** The magnetic field at half time in binary64 (C79): what the particles feel is bounded when the fields are. *)
From Coq Require Import Reals ZArith Lia Lra List Bool Psatz.
From Flocq Require Import Core IEEE754.BinarySingleNaN.
From Verif.Lib Require Import RAux Grid Par.
From Verif.Model Require Import Constants Geometry Fields Binary64 Temperature64 Arith GenCode GenRun GenFields.
From Verif.Spec Require Import Maxwell Poynting Field64 Double.
From Verif.Proof Require Import MaxwellP GenFieldsP Binary64P FloatP Axis64P Push64P Err64P Ana64P Leg64P Limit64P Cell64P Solver64P.
Import ListNotations.
Local Open Scope R_scope.

Notation "a :+ b" := (goods_cons _ _ _ _ _ _ _ _ a b) (at level 60, right associativity).
(** ** Zeros *)
Definition zr (x : b64) : Prop := fin x /\ real x = 0.
Lemma fit0 : forall x, x = 0 -> Rabs x <= bp 1023. Proof. intros x ->. rewrite Rabs_R0. apply bpow_ge_0. Qed.
Lemma zr_sub : forall x y, zr x -> zr y -> zr (b64_sub x y).
Proof. intros x y (F & E) (F' & E'). assert (Z : real x - real y = 0) by lra. destruct (sub_ok x y F F' (fit0 _ Z)) as (K & V). split; [exact K|]. now rewrite V, Z, rnd_0. Qed.
Lemma zr_add : forall x y, zr x -> zr y -> zr (b64_add x y).
Proof. intros x y (F & E) (F' & E'). assert (Z : real x + real y = 0) by lra. destruct (add_ok x y F F' (fit0 _ Z)) as (K & V). split; [exact K|]. now rewrite V, Z, rnd_0. Qed.
Lemma zr_mul : forall x y, fin x -> zr y -> zr (b64_mul x y).
Proof. intros x y F (F' & E'). assert (Z : real x * real y = 0) by (rewrite E'; ring). destruct (mul_ok x y F F' (fit0 _ Z)) as (K & V). split; [exact K|]. now rewrite V, Z, rnd_0. Qed.
Lemma zr_div : forall x y, zr x -> real y <> 0 -> zr (b64_div x y).
Proof. intros x y (F & E) N. assert (Z : real x / real y = 0) by (rewrite E; unfold Rdiv; ring). destruct (div_ok x y F N (fit0 _ Z)) as (K & V). split; [exact K|]. now rewrite V, Z, rnd_0. Qed.
Lemma add_zr : forall x y, fin x -> zr y -> fin (b64_add x y) /\ real (b64_add x y) = real x.
Proof.
  intros x y F (F' & E). assert (B := Rlt_le _ _ (abs_B2R_lt_emax _ _ x)).
  assert (S : real x + real y = real x) by lra.
  assert (C := Bplus_correct prec64 emax64 _ _ mode_NE x y F F'). unfold b64_add.
  assert (R : round radix2 (SpecFloat.fexp prec64 emax64) (round_mode mode_NE) (real x + real y) = real x).
  { rewrite S. apply round_generic; [apply valid_rnd_round_mode|apply generic_format_B2R]. }
  rewrite R in C. rewrite Rlt_bool_true in C by apply abs_B2R_lt_emax. destruct C as (C1 & C2 & _). split; assumption.
Qed.
Lemma sub_zr : forall x y, fin x -> zr y -> fin (b64_sub x y) /\ real (b64_sub x y) = real x.
Proof.
  intros x y F (F' & E). assert (S : real x - real y = real x) by lra.
  assert (C := Bminus_correct prec64 emax64 _ _ mode_NE x y F F'). unfold b64_sub.
  assert (R : round radix2 (SpecFloat.fexp prec64 emax64) (round_mode mode_NE) (real x - real y) = real x).
  { rewrite S. apply round_generic; [apply valid_rnd_round_mode|apply generic_format_B2R]. }
  rewrite R in C. rewrite Rlt_bool_true in C by apply abs_B2R_lt_emax. destruct C as (C1 & C2 & _). split; assumption.
Qed.

Section Half.
Variables pw lg : b64 -> b64.
Notation A := (b64_arith pw lg).
Variables (g : ggeom A) (md : gmedium A) (dt : b64) (theta K : R).
Hypothesis HS : steady pw lg g md dt theta K.
Let G := real_geom pw lg g.
Let DR : R := real (gdr A g).
Let DZ : R := real (gdz A g).
Let DT : R := real dt.
Hypothesis LR : 300000000 * DT <= DR / 40.
Hypothesis LZ : 300000000 * DT <= DZ / 40.
Let NR := fs_nr _ _ _ _ _ _ _ HS.
Let NZ := fs_nz _ _ _ _ _ _ _ HS.
Let PR : 0 < DR := DR_pos _ _ _ _ _ _ _ HS.
Let PZ : 0 < DZ := DZ_pos _ _ _ _ _ _ _ HS.
Let PT : 0 < DT := DT_pos _ _ _ _ _ _ _ HS.

(** ** The components that nothing drives *)
Definition idle (x : loc) : Prop :=
  match x with
  | (ER, i, k) => i = (gn_r A g - 1)%Z /\ (0 <= k < gn_z A g)%Z
  | (EZ, i, k) => k = (gn_z A g - 1)%Z /\ (0 <= i < gn_r A g)%Z
  | (HR, i, k) => (0 <= i < gn_r A g /\ 0 <= k < gn_z A g /\ (i = gn_r A g - 1 \/ k = gn_z A g - 1))%Z
  | (HPHI, i, k) => (0 <= i < gn_r A g /\ 0 <= k < gn_z A g /\ (i = gn_r A g - 1 \/ k = gn_z A g - 1))%Z
  | (HZ, i, k) => (0 <= i < gn_r A g /\ 0 <= k < gn_z A g /\ (i = gn_r A g - 1 \/ k = gn_z A g - 1 \/ k = 0))%Z
  | (HRH, i, k) => k = (gn_z A g - 1)%Z /\ (0 <= i < gn_r A g)%Z
  | (HPHIH, i, k) | (HZH, i, k) => (0 <= i < gn_r A g /\ 0 <= k < gn_z A g /\ (i = gn_r A g - 1 \/ k = gn_z A g - 1))%Z
  | _ => False
  end.
Definition rests (m : gmem A) : Prop := forall x, idle x -> lim (m x) (bp 247).

Lemma mu_low : 0 < real (b64_lit 126 100000000).
Proof. assert (MP := MAGN_CONST_pos). destruct good_mu0 as (N & _). assert (X := small_error _ _ _ N ltac:(lra)). lra. Qed.
Lemma dzmu : real (b64_mul (gdz A g) (b64_lit 126 100000000)) <> 0.
Proof.
  assert (MP := MAGN_CONST_pos). assert (GG := analysed _ _ _ _ (Ti (V 0) (V 1)) _ (good_dz _ _ _ _ _ _ _ HS :+ good_mu0 :+ goods_nil) eq_refl). cbn [eb er em nth] in GG. destruct GG as (N & _). assert (P : 0 < DZ * MAGN_CONST) by (apply Rmult_lt_0_compat; lra). fold DZ in N.
  assert (X := small_error _ _ _ N ltac:(lra)). lra.
Qed.
Lemma drhalf : forall i, (0 <= i < gn_r A g)%Z -> real (b64_mul (b64_mul (b64_of_Z 2) (gdr A g)) (b64_add (b64_of_Z i) (b64_lit 1 2))) <> 0.
Proof.
  intros i Hi. assert (I0 : 0 <= IZR i) by (apply IZR_le; lia).
  assert (GG := analysed _ _ _ _ (Ti (Ti (V 0) (V 1)) (V 2)) _ (good_2 :+ good_dr _ _ _ _ _ _ _ HS :+ half_ok _ _ _ _ _ _ _ HS i Hi :+ goods_nil) eq_refl). cbn [eb er em nth] in GG. destruct GG as (N & _).
  fold DR in N. assert (P : 0 < 2 * DR * (IZR i + 1 / 2)) by (apply Rmult_lt_0_compat; lra).
  assert (X := small_error _ _ _ N ltac:(lra)). lra.
Qed.
Lemma dr_nz : real (gdr A g) <> 0. Proof. fold DR. lra. Qed.
Lemma alpha_r_zero : forall e' e, zr e' -> zr e -> zr (galpha_r A g dt e' e).
Proof.
  intros e' e Z Z'. change (zr (b64_div (b64_mul dt (b64_sub e' e)) (b64_mul (gdz A g) (b64_lit 126 100000000)))).
  apply zr_div; [apply zr_mul; [exact (fs_fdt _ _ _ _ _ _ _ HS)|now apply zr_sub]|exact dzmu].
Qed.
Lemma alpha_z_zero : forall i e' e, (0 <= i < gn_r A g)%Z -> zr e' -> zr e -> zr (galpha_z A g dt i e' e).
Proof.
  intros i e' e Hi Z Z'. change (zr (b64_div (b64_mul dt (b64_add (b64_div (b64_add e' e) (b64_mul (b64_mul (b64_of_Z 2) (gdr A g)) (b64_add (b64_of_Z i) (b64_lit 1 2)))) (b64_div (b64_sub e' e) (gdr A g)))) (b64_lit 126 100000000))).
  assert (M := mu_low). apply zr_div; [|lra]. apply zr_mul; [exact (fs_fdt _ _ _ _ _ _ _ HS)|]. apply zr_add; apply zr_div; [now apply zr_add|now apply drhalf|now apply zr_sub|exact dr_nz].
Qed.

Section State.
Variable m : gmem A.
Hypothesis HW : walled pw lg g m.
Hypothesis HV : forall x, free G x -> lim (m x) (bp 247).
Hypothesis HI : rests m.
Lemma wall_lim : forall x, wall_location G x -> lim (m x) (bp 247).
Proof. intros x H. destruct (HW x H) as (F & E). split; [exact F|]. rewrite E, Rabs_R0. apply bpow_ge_0. Qed.
Ltac okl := first [apply HV; cbn; lia | apply HI; cbn; lia | apply wall_lim; cbn; lia].
Lemma fields_lim : forall a i k, match a with
  | ER | EPHI | EZ => (0 <= i < gn_r A g /\ 0 <= k < gn_z A g)%Z
  | HR => (0 <= i < gn_r A g /\ 0 <= k < gn_z A g - 1)%Z
  | HPHI => (0 <= i < gn_r A g - 1 /\ 0 <= k < gn_z A g - 1)%Z
  | HZ => (0 <= i < gn_r A g - 1 /\ 0 <= k < gn_z A g - 1)%Z | _ => False end -> lim (m (a, i, k)) (bp 247).
Proof.
  intros a i k H. destruct a; try contradiction.
  - assert (D : (i = gn_r A g - 1 \/ i < gn_r A g - 1 /\ (k = 0 \/ k = gn_z A g - 1 \/ 1 <= k < gn_z A g - 1))%Z) by lia. destruct D as [D|(D' & [D|[D|D]])]; okl.
  - assert (D : (k = 0 \/ k = gn_z A g - 1 \/ i = 0 \/ i = gn_r A g - 1 \/ (1 <= i < gn_r A g - 1 /\ 1 <= k < gn_z A g - 1))%Z) by lia. destruct D as [D|[D|[D|[D|D]]]]; okl.
  - assert (D : (k = gn_z A g - 1 \/ k < gn_z A g - 1 /\ (i = gn_r A g - 1 \/ i < gn_r A g - 1))%Z) by lia. destruct D as [D|(D' & [D|D])]; okl.
  - assert (D : (i = gn_r A g - 1 \/ i < gn_r A g - 1)%Z) by lia. destruct D as [D|D]; okl.
  - okl.
  - assert (D : (k = 0 \/ 1 <= k)%Z) by lia. destruct D as [D|D]; okl.
Qed.
Lemma good_lim : forall x, lim x (bp 247) -> good x (real x) (bp 247) (Sh 0 247 247 false).
Proof.
  intros x (F & B). split; [|split]; cbn [s_k s_lo s_hi s_rel]; [| |discriminate].
  - replace (0 / 4) with 0 by lra. apply near_exact; assumption.
  - split; apply Rle_refl.
Qed.
Lemma rate_z : DT / (DZ * MAGN_CONST) <= / 8.
Proof.
  assert (MP := MAGN_CONST_pos). assert (P : 0 < DZ * MAGN_CONST) by (apply Rmult_lt_0_compat; lra). apply Rmult_le_reg_r with (1 := P). unfold Rdiv. rewrite Rmult_assoc, Rinv_l by lra. unfold MAGN_CONST in *. lra.
Qed.
Lemma rate_r : DT / (DR * MAGN_CONST) <= / 8.
Proof.
  assert (MP := MAGN_CONST_pos). assert (P : 0 < DR * MAGN_CONST) by (apply Rmult_lt_0_compat; lra). apply Rmult_le_reg_r with (1 := P). unfold Rdiv. rewrite Rmult_assoc, Rinv_l by lra. unfold MAGN_CONST in *. lra.
Qed.
Lemma done : forall (v : b64) X M s, good v X M s -> M <= 2 * bp 247 -> lim v (bp 251).
Proof.
  intros v X M s (N & _) L. destruct (near_size _ _ _ _ N) as (M0 & B). split; [apply N|]. change 251%Z with (4 + 247)%Z. rewrite bpow_plus. change (bp 4) with 16. lra.
Qed.
Lemma half_hr : forall i k, (0 <= i < gn_r A g)%Z -> (0 <= k < gn_z A g - 1)%Z -> lim (gcalc_hfield A g dt m (HRH, i, k)) (bp 251).
Proof.
  intros i k Hi Hk. rewrite gcalc_hfield_hr_half by lia. rect; [|lia].
  assert (V0 := good_lim _ (fields_lim HR i k ltac:(cbn; lia))). assert (V1 := good_lim _ (fields_lim EPHI i (k + 1) ltac:(cbn; lia))). assert (V2 := good_lim _ (fields_lim EPHI i k ltac:(cbn; lia))).
  assert (GG := analysed _ _ _ _ (Pl (V 0) (Di (Di (Ti (V 3) (Mi (V 1) (V 2))) (Ti (V 4) (V 5))) (V 6))) _ (V0 :+ V1 :+ V2 :+ good_dt _ _ _ _ _ _ _ HS :+ good_dz _ _ _ _ _ _ _ HS :+ good_mu0 :+ good_2 :+ goods_nil) eq_refl). cbn [eb er em nth] in GG. fold DT DZ in GG.
  eapply done; [exact GG|]. assert (MP := MAGN_CONST_pos). assert (X := bpow_gt_0 radix2 247). assert (R := rate_z).
  replace (bp 247 + DT * (bp 247 + bp 247) / (DZ * MAGN_CONST) / 2) with (bp 247 * (1 + DT / (DZ * MAGN_CONST))) by (field; lra). replace (2 * bp 247) with (bp 247 * 2) by ring. apply Rmult_le_compat_l; lra.
Qed.
Lemma half_hphi : forall i k, (0 <= i < gn_r A g - 1)%Z -> (0 <= k < gn_z A g - 1)%Z -> lim (gcalc_hfield A g dt m (HPHIH, i, k)) (bp 251).
Proof.
  intros i k Hi Hk. rewrite gcalc_hfield_hphi_half by lia. rect; [|lia].
  assert (V0 := good_lim _ (fields_lim HPHI i k ltac:(cbn; lia))). assert (V1 := good_lim _ (fields_lim EZ (i + 1) k ltac:(cbn; lia))). assert (V2 := good_lim _ (fields_lim EZ i k ltac:(cbn; lia))).
  assert (V3 := good_lim _ (fields_lim ER i (k + 1) ltac:(cbn; lia))). assert (V4 := good_lim _ (fields_lim ER i k ltac:(cbn; lia))).
  assert (GG := analysed _ _ _ _ (Pl (V 0) (Di (Di (Ti (V 5) (Mi (Di (Mi (V 1) (V 2)) (V 6)) (Di (Mi (V 3) (V 4)) (V 7)))) (V 8)) (V 9))) _ (V0 :+ V1 :+ V2 :+ V3 :+ V4 :+ good_dt _ _ _ _ _ _ _ HS :+ good_dr _ _ _ _ _ _ _ HS :+ good_dz _ _ _ _ _ _ _ HS :+ good_mu0 :+ good_2 :+ goods_nil) eq_refl). cbn [eb er em nth] in GG. fold DT DZ DR in GG.
  eapply done; [exact GG|]. assert (MP := MAGN_CONST_pos). assert (X := bpow_gt_0 radix2 247). assert (R := rate_z). assert (R' := rate_r).
  match goal with |- ?x <= _ => replace x with (bp 247 * (1 + DT / (DR * MAGN_CONST) + DT / (DZ * MAGN_CONST))) by (field; lra) end. replace (2 * bp 247) with (bp 247 * 2) by ring. apply Rmult_le_compat_l; lra.
Qed.
Lemma half_hz : forall i k, (0 <= i < gn_r A g - 1)%Z -> (0 <= k < gn_z A g - 1)%Z -> lim (gcalc_hfield A g dt m (HZH, i, k)) (bp 251).
Proof.
  intros i k Hi Hk. assert (I0 : 0 <= IZR i) by (apply IZR_le; lia). rewrite gcalc_hfield_hz_half by lia. rect; [|lia].
  assert (V0 := good_lim _ (fields_lim HZ i k ltac:(cbn; lia))). assert (V1 := good_lim _ (fields_lim EPHI (i + 1) k ltac:(cbn; lia))). assert (V2 := good_lim _ (fields_lim EPHI i k ltac:(cbn; lia))).
  assert (GG := analysed _ _ _ _ (Mi (V 0) (Di (Di (Ti (V 3) (Pl (Di (Pl (V 1) (V 2)) (Ti (Ti (V 6) (V 4)) (V 7))) (Di (Mi (V 1) (V 2)) (V 4)))) (V 5)) (V 6))) _ (V0 :+ V1 :+ V2 :+ good_dt _ _ _ _ _ _ _ HS :+ good_dr _ _ _ _ _ _ _ HS :+ good_mu0 :+ good_2 :+ half_ok _ _ _ _ _ _ _ HS i ltac:(lia) :+ goods_nil) eq_refl). cbn [eb er em nth] in GG. fold DT DR in GG.
  eapply done; [exact GG|]. assert (MP := MAGN_CONST_pos). assert (X := bpow_gt_0 radix2 247). assert (R' := rate_r).
  match goal with |- ?x <= _ => replace x with (bp 247 * (1 + DT / (DR * MAGN_CONST) * (1 + / (2 * (IZR i + 1 / 2))))) by (field; lra) end. replace (2 * bp 247) with (bp 247 * 2) by ring. apply Rmult_le_compat_l; [lra|].
  assert (P : 0 < DT / (DR * MAGN_CONST)) by (apply Rdiv_lt_0_compat; [lra|apply Rmult_lt_0_compat; lra]).
  assert (Y : / (2 * (IZR i + 1 / 2)) <= / 1) by (apply Rinv_le_contravar; lra). rewrite Rinv_1 in Y.
  assert (DT / (DR * MAGN_CONST) * (1 + / (2 * (IZR i + 1 / 2))) <= / 8 * 2); [|lra]. apply Rmult_le_compat; try lra. assert (0 < / (2 * (IZR i + 1 / 2))) by (apply Rinv_0_lt_compat; lra). lra.
Qed.
Lemma inside_range : forall i k, GenRun.inside A g i k = true -> (0 <= i < gn_r A g /\ 0 <= k < gn_z A g)%Z.
Proof. intros i k H. unfold GenRun.inside in H. rewrite !andb_true_iff, !Z.leb_le, !Z.ltb_lt in H. lia. Qed.
Lemma up : forall x, lim x (bp 247) -> lim x (bp 251). Proof. intros x H. apply (lim_weaken _ _ _ H). apply bpow_le. lia. Qed.
Lemma whole_lim : forall a i k, In a [ER; EPHI; EZ; HR; HPHI; HZ] -> (0 <= i < gn_r A g /\ 0 <= k < gn_z A g)%Z -> lim (m (a, i, k)) (bp 247).
Proof.
  intros a i k IA H. cbn [In] in IA.
  assert (D : (i = gn_r A g - 1 \/ k = gn_z A g - 1 \/ (i < gn_r A g - 1 /\ k < gn_z A g - 1))%Z) by lia.
  destruct IA as [<-|[<-|[<-|[<-|[<-|[<-|[]]]]]]]; try (apply fields_lim; lia); (destruct D as [D|[D|D]]; [apply HI; cbn; lia|apply HI; cbn; lia|apply fields_lim; lia]).
Qed.
Lemma half_calm : calm pw lg g (gcalc_hfield A g dt m).
Proof.
  intros a i k IA IN. apply inside_range in IN. change (lim (gcalc_hfield A g dt m (a, i, k)) (bp 251)).
  cbn [In] in IA. destruct IA as [<-|[<-|[<-|[<-|[<-|[<-|[]]]]]]].
  - rewrite h_keeps by tauto. apply up, fields_lim. lia.
  - rewrite h_keeps by tauto. apply up, fields_lim. lia.
  - rewrite h_keeps by tauto. apply up, fields_lim. lia.
  - destruct (Z.eq_dec k (gn_z A g - 1)) as [E|N]; [|apply half_hr; lia]. rewrite gcalc_hfield_hr_half by lia. rect; [lia|]. apply up, HI. cbn. lia.
  - assert (D : (i = gn_r A g - 1 \/ k = gn_z A g - 1 \/ (i < gn_r A g - 1 /\ k < gn_z A g - 1))%Z) by lia. destruct D as [D|[D|D]]; [| |apply half_hphi; lia]; rewrite gcalc_hfield_hphi_half; (rect; [lia|]); apply up, HI; cbn; lia.
  - assert (D : (i = gn_r A g - 1 \/ k = gn_z A g - 1 \/ (i < gn_r A g - 1 /\ k < gn_z A g - 1))%Z) by lia. destruct D as [D|[D|D]]; [| |apply half_hz; lia]; rewrite gcalc_hfield_hz_half; (rect; [lia|]); apply up, HI; cbn; lia.
Qed.
Lemma same_lim : forall x y : b64, lim x (bp 247) -> fin y /\ real y = real x -> lim y (bp 247).
Proof. intros x y (F & B) (F' & E). split; [exact F'|]. now rewrite E. Qed.
Lemma idle_step : forall j, rests (gfield_step A g md dt j m).
Proof.
  intros j ((a & i) & k) H. unfold gfield_step. assert (HX := HI _ H). destruct a; cbn in H; try contradiction.
  - rewrite gcalc_efield_er by lia. rect; [lia|]. cbn [gset_current]. rewrite h_keeps by tauto. exact HX.
  - destruct (Z.eq_dec i 0) as [->|N]; [rewrite gcalc_efield_ez_axis|rewrite gcalc_efield_ez by lia]; (rect; [lia|]); cbn [gset_current]; rewrite h_keeps by tauto; exact HX.
  - rewrite gcalc_efield_other by discriminate. cbn [gset_current]. rewrite gcalc_hfield_hr by lia. rect; [|exact HX]. apply (same_lim _ _ HX).
    apply add_zr; [apply HX|]. apply alpha_r_zero; apply HW; cbn; lia.
  - rewrite gcalc_efield_other by discriminate. cbn [gset_current]. rewrite gcalc_hfield_hphi. rect; [lia|exact HX].
  - rewrite gcalc_efield_other by discriminate. cbn [gset_current]. rewrite gcalc_hfield_hz by lia. rect; [|exact HX]. apply (same_lim _ _ HX).
    apply sub_zr; [apply HX|]. apply alpha_z_zero; [lia| |]; apply HW; cbn; lia.
  - rewrite gcalc_efield_other by discriminate. cbn [gset_current]. rewrite gcalc_hfield_hr_half by lia. rect; [lia|]. exact HX.
  - rewrite gcalc_efield_other by discriminate. cbn [gset_current]. rewrite gcalc_hfield_hphi_half by lia. rect; [lia|]. exact HX.
  - rewrite gcalc_efield_other by discriminate. cbn [gset_current]. rewrite gcalc_hfield_hz_half by lia. rect; [lia|]. exact HX.
Qed.
End State.
End Half.
