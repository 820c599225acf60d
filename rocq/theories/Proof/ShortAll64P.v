(** A short move in binary64 between well-placed ends: every current is a number of a bounded size. *)
From Coq Require Import Reals ZArith List Bool Lia Lra Psatz.
From Flocq Require Import Core IEEE754.BinarySingleNaN.
From Verif.Lib Require Import RAux Outcome.
From Verif.Model Require Import Constants Binary64 Temperature64 Arith CurrentDeposit GenCode.
From Verif.Spec Require Import Double Deposit64 Short.
From Verif.Proof Require Import Binary64P FloatP Axis64P Motion64P Push64P Cells64P Err64P Ana64P Log64P Leg64P LegBound64P Short64P ShortMove64P Strict64P.
Import ListNotations.
Local Open Scope R_scope.

Lemma sub_half : forall i, (0 <= i <= 2 ^ 20)%Z -> fin (b64_sub (b64_of_Z i) (b64_lit 1 2)) /\ B2R (b64_sub (b64_of_Z i) (b64_lit 1 2)) = IZR i - / 2.
Proof.
  intros i I. destruct (of_Z_exact i ltac:(lia)) as (F1 & E1). destruct lit_half as (FH & EH). assert (B : 0 <= IZR i <= 1048576) by (split; apply IZR_le; lia).
  destruct (sub_ok (b64_of_Z i) (b64_lit 1 2) F1 FH) as (F & V); [rewrite E1, EH; apply Rle_trans with (bp 21); [apply Rabs_le; change (bp 21) with 2097152; lra|apply bpow_le; lia]|].
  split; [exact F|]. rewrite V, E1, EH. replace (IZR i - / 2) with (IZR (2 * i - 1) * bp (-1)) by (rewrite minus_IZR, mult_IZR; cbn; lra). apply rnd_exact; lia.
Qed.

Section All.
Variables pw lg : b64 -> b64.
Notation A := (b64_arith pw lg).
Variables (g : ggeom A) (dt q rn zn ro zo : b64).
Hypothesis HL : accurate_log lg.
Hypothesis HF : fine pw lg g dt.
Hypothesis HM : short_move pw lg g dt q rn zn ro zo.
Hypothesis HP : well_placed pw lg g rn zn ro zo.
Notation dr := (sdr pw lg g). Notation dz := (sdz pw lg g).
Notation DR := (B2R dr). Notation DZ := (B2R dz).
Notation nr := (gn_r A g). Notation nz := (gn_z A g).
Notation modest := (modest pw lg 8 g dt q).
Notation PI64 := (b64_lit 7853981633974483 2500000000000000).
Notation half64 := (b64_lit 1 2).
Let AR : axis nr (gr_size A g) dr := AXR pw lg g dt HF.
Let AZ : axis nz (gz_size A g) dz := AXZ pw lg g dt HF.
Let FRN : fits nr dr rn := proj1 (fits_r pw lg g dt HF rn (sm_rn _ _ _ _ _ _ _ _ _ HM)).
Let FRO : fits nr dr ro := proj1 (fits_r pw lg g dt HF ro (sm_ro _ _ _ _ _ _ _ _ _ HM)).
Let FZN : fits nz dz zn := fits_z pw lg g dt HF zn (sm_zn _ _ _ _ _ _ _ _ _ HM).
Let FZO : fits nz dz zo := fits_z pw lg g dt HF zo (sm_zo _ _ _ _ _ _ _ _ _ HM).
Notation i_n := (gcell A rn dr). Notation i_o := (gcell A ro dr). Notation k_n := (gcell A zn dz). Notation k_o := (gcell A zo dz).

Lemma nr_hi : (nr <= 2 ^ 20)%Z. Proof. assert (N := ax_n _ _ _ AR). cbn in *. lia. Qed.
Lemma in_row : forall m (x : b64), (0 <= m)%Z -> (IZR m - / 20) * DR <= B2R x <= (IZR m + 1 + / 20) * DR -> 455 / 1000 * DR <= B2R x -> 9 / 20 * ((IZR m + 1) * DR) <= B2R x <= 21 / 20 * ((IZR m + 1) * DR).
Proof.
  intros m x M B O. assert (L := len_pos _ _ _ AR). unfold len in L. assert (M0 : 0 <= IZR m) by (apply IZR_le; exact M). assert (0 <= IZR m * DR) by (apply Rmult_le_pos; lra). split; [|lra].
  destruct (Z.eq_dec m 0) as [->|N]; [lra|]. assert (1 <= IZR m) by (apply IZR_le; lia). assert (DR <= IZR m * DR) by (rewrite <- (Rmult_1_l DR) at 1; apply Rmult_le_compat_r; lra). lra.
Qed.

(** differences of places *)
Lemma diff_at : forall n size d (x y : b64), axis n size d -> fin x -> fin y -> Rabs (B2R x - B2R y) <= 105 / 100 * len d -> fin (b64_sub x y) /\ Rabs (B2R (b64_sub x y)) <= 11 / 10 * len d /\ Rabs (B2R (b64_sub x y) - (B2R x - B2R y)) <= len d / 1000000.
Proof.
  intros n size d x y AX FX FY B. assert (L := len_pos _ _ _ AX). assert (QB := q_bounds _ _ _ AX). destruct (sub_q _ _ _ AX x y FX FY) as (F & E); [lra|]. split; [exact F|]. split; [|lra]. apply Rabs_le_inv in B, E. apply Rabs_le. lra.
Qed.
Lemma to_border : forall n size d m (x : b64), axis n size d -> (0 <= m <= n - 1)%Z -> fin x -> (IZR m - 104 / 100) * len d <= B2R x <= (IZR m + 104 / 100) * len d ->
  (fin (b64_sub (border d m) x) /\ Rabs (B2R (b64_sub (border d m) x)) <= 11 / 10 * len d) /\ (fin (b64_sub x (border d m)) /\ Rabs (B2R (b64_sub x (border d m))) <= 11 / 10 * len d).
Proof.
  intros n size d m x AX M FX B. assert (L := len_pos _ _ _ AX). destruct (border_at _ _ _ AX m M) as (FB & EB). apply Rabs_le_inv in EB.
  destruct (diff_at n size d (border d m) x AX FB FX) as (F1 & B1 & _); [apply Rabs_le; lra|]. destruct (diff_at n size d x (border d m) AX FX FB) as (F2 & B2 & _); [apply Rabs_le; lra|]. repeat split; assumption.
Qed.

Lemma axial : modest (gstrict_axial A g dt q rn zn zo i_n k_n k_o).
Proof.
  assert (HP1 := HP); destruct HP1 as (P1 & P2 & P3 & P4). destruct (cell_at pw lg _ _ _ AR rn FRN P1) as (MI & BI). destruct (cell_at pw lg _ _ _ AZ zn FZN P3) as (MK & BK). destruct (cell_at pw lg _ _ _ AZ zo FZO P4) as (MO & BO).
  assert (L := len_pos _ _ _ AR). assert (LZ := len_pos _ _ _ AZ). assert (SZ := small_z pw lg g dt q rn zn ro zo HM). assert (NH := nr_hi). assert (OX := proj2 (fits_r pw lg g dt HF rn (sm_rn _ _ _ _ _ _ _ _ _ HM))).
  assert (SZ' := SZ). apply Rabs_le_inv in SZ'. unfold len in L, BI, BK, BO, LZ.
  apply axial_modest; try assumption; try exact (sm_dt _ _ _ _ _ _ _ _ _ HM); try exact (sm_q _ _ _ _ _ _ _ _ _ HM); try exact (sm_dr _ _ _ _ _ _ _ _ _ HM); try exact (proj1 FRN); try lia.
  - apply in_row; [lia|lra|lra].
  - destruct (diff_at _ _ _ zn zo AZ (proj1 FZN) (proj1 FZO)) as (F1 & B1 & _); [lra|]. split; assumption.
  - intros E z [->| ->].
    + apply (to_border _ _ _ _ _ AZ); [lia|exact (proj1 FZN)|unfold len; lra].
    + apply (to_border _ _ _ _ _ AZ); [lia|exact (proj1 FZO)|]. rewrite E, plus_IZR in *. unfold len in *. lra.
  - intros E z [->| ->].
    + apply (to_border _ _ _ _ _ AZ); [lia|exact (proj1 FZN)|rewrite plus_IZR; unfold len; lra].
    + apply (to_border _ _ _ _ _ AZ); [lia|exact (proj1 FZO)|]. replace (k_n + 1)%Z with k_o by lia. unfold len. lra.
Qed.

(** the sum of a place and a difference is the other place again, up to rounding *)
Lemma there : forall m (o y : b64), (0 <= m)%Z -> fin o -> fin y -> (IZR m - / 100) * DR <= B2R y <= (IZR m + 1 + / 100) * DR -> 46 / 100 * DR <= B2R y -> Rabs (B2R o) <= 1048577 * DR -> Rabs (B2R y - B2R o) <= 9 / 10 * DR ->
  let e := b64_sub y o in (fin e /\ Rabs (B2R e) <= DR) /\ fin (b64_add o e) /\ 9 / 20 * ((IZR m + 1) * DR) <= B2R (b64_add o e) <= 21 / 20 * ((IZR m + 1) * DR).
Proof.
  intros m o y M FO FY BY OY BO D e. assert (L := len_pos _ _ _ AR). assert (QB := q_bounds _ _ _ AR). destruct (sub_q _ _ _ AR y o FY FO) as (FE & EE); [unfold len in *; lra|]. fold e in FE, EE. unfold len in *. apply Rabs_le_inv in D, EE, BO.
  destruct (add_q _ _ _ AR o e FO FE) as (FS & ES); [apply Rabs_le; unfold len; lra|]. apply Rabs_le_inv in ES. unfold len in *. split; [split; [exact FE|apply Rabs_le; lra]|]. split; [exact FS|]. apply in_row; [exact M|lra|lra].
Qed.
Definition inrow (m : Z) (x : b64) : Prop := fin x /\ 9 / 20 * ((IZR m + 1) * DR) <= B2R x <= 21 / 20 * ((IZR m + 1) * DR).
Lemma leg1 : forall m h o e w i k, (0 <= m < 2 ^ 20)%Z -> fin h -> B2R h = IZR m + / 2 -> inrow m o -> inrow m (b64_add o e) -> fin e /\ Rabs (B2R e) <= DR -> fin w /\ Rabs (B2R w) <= 11 / 10 * DZ ->
  modest_value pw lg 8 g dt q (gj_r A i k (mul A (mul A (gDENSITY_STRICT A q (mul A h (gdr A g)) (gdr A g) (gdz A g) dt) (gstrict_radial_leg A (gdr A g) (mul A h (gdr A g)) o e)) w)).
Proof.
  intros m h o e w i k M FH EH (FO & BO) (FS & BS) (FE & BE) (FW & BW).
  assert (K := leg_modest pw lg g dt q HF (sm_dt _ _ _ _ _ _ _ _ _ HM) (sm_q _ _ _ _ _ _ _ _ _ HM) m (m + 1) h o (b64_add o e) e w M ltac:(lia) ltac:(lia) FH EH FO BO FS BS FE BE FW BW i k).
  cbn [eb f_rad f_dens f_r0 f_leg nth rvals] in K. exact K.
Qed.
Lemma leg2 : forall m mm h e w i k, (0 <= m < 2 ^ 20)%Z -> (1 <= mm <= 2 ^ 20)%Z -> (m <= mm)%Z -> fin h -> B2R h = IZR m + / 2 -> inrow m (b64_add (border dr mm) e) -> fin e /\ Rabs (B2R e) <= DR -> fin w /\ Rabs (B2R w) <= 11 / 10 * DZ ->
  modest_value pw lg 8 g dt q (gj_r A i k (mul A (mul A (gDENSITY_STRICT A q (mul A h (gdr A g)) (gdr A g) (gdz A g) dt) (gstrict_radial_leg2 A (gdr A g) (mul A h (gdr A g)) mm e)) w)).
Proof.
  intros m mm h e w i k M MM1 MM2 FH EH (FS & BS) (FE & BE) (FW & BW).
  assert (K := leg2_modest pw lg g dt q HF (sm_dt _ _ _ _ _ _ _ _ _ HM) (sm_q _ _ _ _ _ _ _ _ _ HM) (sm_dr _ _ _ _ _ _ _ _ _ HM) m mm h _ (b64_add (border dr mm) e) e w M MM1 MM2 FH EH FS BS FS BS FE BE FW BW i k).
  cbn [eb f_rad f_dens f_r0 f_leg2 nth rvals] in K. exact K.
Qed.
Lemma radial : modest (gstrict_radial A g dt q rn zn ro i_n k_n i_o).
Proof.
  assert (HP1 := HP); destruct HP1 as (P1 & P2 & P3 & P4). destruct (cell_at pw lg _ _ _ AR rn FRN P1) as (MI & BI). destruct (cell_at pw lg _ _ _ AR ro FRO P2) as (MJ & BJ). destruct (cell_at pw lg _ _ _ AZ zn FZN P3) as (MK & BK).
  assert (L := len_pos _ _ _ AR). assert (LZ := len_pos _ _ _ AZ). assert (SR := small_r pw lg g dt q rn zn ro zo HM). assert (NH := nr_hi). assert (OX := proj2 (fits_r pw lg g dt HF rn (sm_rn _ _ _ _ _ _ _ _ _ HM))). assert (OY := proj2 (fits_r pw lg g dt HF ro (sm_ro _ _ _ _ _ _ _ _ _ HM))).
  assert (AN := fits_abs _ _ _ AR rn FRN). assert (AO := fits_abs _ _ _ AR ro FRO). assert (FN := proj1 FRN). assert (FO := proj1 FRO). assert (SR' := SR). apply Rabs_le_inv in SR'. unfold len in L, BI, BJ, BK, LZ, AN, AO, SR, SR'.
  assert (WL : fin (b64_sub (border dz (k_n + 1)) zn) /\ Rabs (B2R (b64_sub (border dz (k_n + 1)) zn)) <= 11 / 10 * DZ) by (apply (to_border _ _ _ _ _ AZ); [lia|exact (proj1 FZN)|rewrite plus_IZR; unfold len; lra]).
  assert (WR : fin (b64_sub zn (border dz k_n)) /\ Rabs (B2R (b64_sub zn (border dz k_n))) <= 11 / 10 * DZ) by (apply (to_border _ _ _ _ _ AZ); [lia|exact (proj1 FZN)|unfold len; lra]).
  assert (RN : inrow i_n rn) by (split; [exact FN|apply in_row; [lia|lra|lra]]). assert (RO : inrow i_o ro) by (split; [exact FO|apply in_row; [lia|lra|lra]]).
  destruct lit_half as (FHF & EHF). destruct (of_half i_n 1 ltac:(lia) ltac:(lia) half64 FHF ltac:(rewrite EHF; lra)) as (FH1 & EH1). assert (EH1' : B2R (b64_add (b64_of_Z i_n) half64) = IZR i_n + / 2) by (rewrite EH1; lra).
  unfold gstrict_radial. cbv zeta. change (gcell A) with (gcell A) in *.
  destruct (Z.eqb_spec (i_n - i_o) 0) as [E0|E0]; [|destruct (Z.eqb_spec (i_n - i_o) 1) as [E1|E1]; [|destruct (Z.eqb_spec (i_n - i_o) (-1)) as [E2|E2]; [|constructor]]].
  - destruct (there i_n ro rn ltac:(lia) FO FN ltac:(lra) ltac:(lra) ltac:(lra) ltac:(lra)) as (FE & FS & BS). assert (EQ : i_o = i_n) by lia. rewrite EQ in RO.
    apply Forall_cons; [|apply Forall_cons; [|apply Forall_nil]].
    + exact (leg1 i_n _ ro _ _ _ _ ltac:(lia) FH1 EH1' RO (conj FS BS) FE WL).
    + exact (leg1 i_n _ ro _ _ _ _ ltac:(lia) FH1 EH1' RO (conj FS BS) FE WR).
  - assert (EQ : i_n = (i_o + 1)%Z) by lia. destruct (border_at _ _ _ AR i_n ltac:(lia)) as (FB & EB). apply Rabs_le_inv in EB. unfold len in EB. assert (EI : IZR i_n = IZR i_o + 1) by (rewrite EQ, plus_IZR; reflexivity).
    destruct (sub_half i_n ltac:(lia)) as (FH2 & EH2). assert (EH2' : B2R (b64_sub (b64_of_Z i_n) half64) = IZR i_o + / 2) by (rewrite EH2; lra). assert (IO : 0 <= IZR i_o * DR) by (apply Rmult_le_pos; [apply IZR_le; lia|lra]). assert (IZR i_n * DR <= 1048576 * DR) by (apply Rmult_le_compat_r; [lra|apply IZR_le; lia]). rewrite EI in *.
    destruct (there i_o ro (border dr i_n) ltac:(lia) FO FB ltac:(lra) ltac:(lra) ltac:(lra) ltac:(apply Rabs_le; lra)) as (FE & FS & BS).
    destruct (there i_n (border dr i_n) rn ltac:(lia) FB FN ltac:(rewrite EI; lra) ltac:(lra) ltac:(apply Rabs_le; lra) ltac:(apply Rabs_le; lra)) as (FE' & FS' & BS').
    rewrite <- EI in EH1'. apply Forall_cons; [|apply Forall_cons; [|apply Forall_cons; [|apply Forall_cons; [|apply Forall_nil]]]].
    + exact (leg1 i_o _ ro _ _ _ _ ltac:(lia) FH2 EH2' RO (conj FS BS) FE WL).
    + exact (leg1 i_o _ ro _ _ _ _ ltac:(lia) FH2 EH2' RO (conj FS BS) FE WR).
    + exact (leg2 i_n i_n _ _ _ _ _ ltac:(lia) ltac:(lia) ltac:(lia) FH1 EH1' (conj FS' BS') FE' WL).
    + exact (leg2 i_n i_n _ _ _ _ _ ltac:(lia) ltac:(lia) ltac:(lia) FH1 EH1' (conj FS' BS') FE' WR).
  - assert (EQ : i_o = (i_n + 1)%Z) by lia. destruct (border_at _ _ _ AR (i_n + 1) ltac:(lia)) as (FB & EB). apply Rabs_le_inv in EB. rewrite plus_IZR in EB. unfold len in EB. assert (EI : IZR i_o = IZR i_n + 1) by (rewrite EQ, plus_IZR; reflexivity).
    destruct lit_3half as (F3 & V3). destruct (of_half i_n 3 ltac:(lia) ltac:(lia) (b64_lit 3 2) F3 V3) as (FH2 & EH2). assert (EH2' : B2R (b64_add (b64_of_Z i_n) (b64_lit 3 2)) = IZR i_o + / 2) by (rewrite EH2; lra).
    assert (IN : 0 <= IZR i_n * DR) by (apply Rmult_le_pos; [apply IZR_le; lia|lra]). assert (IZR i_n * DR <= 1048575 * DR) by (apply Rmult_le_compat_r; [lra|apply IZR_le; lia]). rewrite EI in BJ.
    destruct (there i_o ro (border dr (i_n + 1)) ltac:(lia) FO FB ltac:(rewrite EI; lra) ltac:(lra) ltac:(lra) ltac:(apply Rabs_le; lra)) as (FE & FS & BS).
    destruct (there i_n (border dr (i_n + 1)) rn ltac:(lia) FB FN ltac:(lra) ltac:(lra) ltac:(apply Rabs_le; lra) ltac:(apply Rabs_le; lra)) as (FE' & FS' & BS').
    apply Forall_cons; [|apply Forall_cons; [|apply Forall_cons; [|apply Forall_cons; [|apply Forall_nil]]]].
    + exact (leg1 i_o _ ro _ _ _ _ ltac:(lia) FH2 EH2' RO (conj FS BS) FE WL).
    + exact (leg1 i_o _ ro _ _ _ _ ltac:(lia) FH2 EH2' RO (conj FS BS) FE WR).
    + exact (leg2 i_n (i_n + 1) _ _ _ _ _ ltac:(lia) ltac:(lia) ltac:(lia) FH1 EH1' (conj FS' BS') FE' WL).
    + exact (leg2 i_n (i_n + 1) _ _ _ _ _ ltac:(lia) ltac:(lia) ltac:(lia) FH1 EH1' (conj FS' BS') FE' WR).
Qed.

Lemma strict : modest (gstrict_motion A g dt q rn zn ro zo).
Proof.
  unfold gstrict_motion. cbv zeta. destruct (ltb A (absv A (sub A rn ro)) (gMNZL A)); destruct (ltb A (absv A (sub A zn zo)) (gMNZL A)); try apply modest_nil; [exact axial|exact radial].
Qed.
Theorem short_modest : modest (gcurrent_single A g dt q rn zn ro zo).
Proof.
  assert (HP1 := HP); destruct HP1 as (P1 & P2 & P3 & P4). assert (ST := strict).
  destruct (tie_cells pw lg _ _ _ AR rn ro FRN FRO P1 P2 (small_r pw lg g dt q rn zn ro zo HM)) as (cn & co & E & CR). destruct (tie_cells pw lg _ _ _ AZ zn zo FZN FZO P3 P4 (small_z pw lg g dt q rn zn ro zo HM)) as (kn & ko & E' & CZ).
  unfold gcurrent_single. change (gdr A g) with dr. change (gdz A g) with dz. rewrite E, E'. cbv zeta.
  change (ltb A (absv A (sub A rn ro)) (gMNZL A)) with (Bltb (Babs (b64_sub rn ro)) (b64_lit 1 1000000000000000)). change (ltb A (absv A (sub A zn zo)) (gMNZL A)) with (Bltb (Babs (b64_sub zn zo)) (b64_lit 1 1000000000000000)).
  destruct (Bltb (Babs (b64_sub rn ro)) (b64_lit 1 1000000000000000)) eqn:TR; [exact ST|]. destruct (Bltb (Babs (b64_sub zn zo)) (b64_lit 1 1000000000000000)) eqn:TZ; [exact ST|].
  destruct (Z.eqb_spec (Z.abs (cn - co) + Z.abs (kn - ko)) 0) as [Z0|_]; [|destruct (Z.eqb_spec (Z.abs (cn - co) + Z.abs (kn - ko)) 1) as [_|_]; [|destruct (Z.eqb_spec (Z.abs (cn - co) + Z.abs (kn - ko)) 2) as [Z2|_]; [|apply modest_nil]]].
  - destruct CR as [c RN RO|c _ _ _|c _ _ _]; [|exfalso; lia|exfalso; lia]. destruct CZ as [k ZN ZO|k _ _ _|k _ _ _]; [|exfalso; lia|exfalso; lia].
    apply (leg pw lg g dt q rn zn ro zo HL HF HM); [exact (end_point _ _ _ AR _ _ RO)|exact (end_point _ _ _ AR _ _ RN)|exact (end_point _ _ _ AZ _ _ ZO)|exact (end_point _ _ _ AZ _ _ ZN)|exact (off_ro pw lg g dt q rn zn ro zo HF HM)|exact (off_rn pw lg g dt q rn zn ro zo HF HM)].
  - exact (one_modest pw lg g dt q rn zn ro zo HL HF HM TR TZ cn co kn ko CR CZ).
  - exact (two_modest pw lg g dt q rn zn ro zo HL HF HM TR TZ cn co kn ko CR CZ Z2).
Qed.
End All.
