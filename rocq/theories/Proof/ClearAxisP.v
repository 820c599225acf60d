(** When the cell numbers that the program computes agree with the borders that it computes. *)
From Coq Require Import Reals ZArith List Bool Lia Lra Psatz.
From Flocq Require Import Core IEEE754.BinarySingleNaN.
From Verif.Lib Require Import RAux Outcome.
From Verif.Model Require Import Constants Binary64 Temperature64 Arith CurrentDeposit GenCode.
From Verif.Spec Require Import Double Short.
From Verif.Proof Require Import Binary64P FloatP Axis64P Motion64P Cells64P Short64P ShortMove64P.
Import ListNotations.
Local Open Scope R_scope.

Section Clear.
Variables pw lg : b64 -> b64.
Notation A := (b64_arith pw lg).
Variables (n : Z) (size d : b64).
Hypothesis AX : axis n size d.
Notation len := (len d).

Lemma cell_same : forall x y : b64, fin x -> fin y -> Rabs (B2R x) <= 4194304 * len -> B2R x = B2R y -> gcell A x d = gcell A y d.
Proof.
  intros x y FX FY B E. rewrite !(cell64_eq d pw lg). destruct (quot _ _ _ AX x FX B) as (_ & E1 & _). destruct (quot _ _ _ AX y FY) as (_ & E2 & _); [now rewrite <- E|]. now rewrite E1, E2, E.
Qed.

Theorem clear_placed : clear_axis pw lg n d -> forall x, fits n d x -> placed pw lg d x.
Proof.
  intros HC x FX. assert (B := fits_abs _ _ _ AX x FX). destruct FX as (F & BX). assert (L := len_pos _ _ _ AX). assert (N := ax_n _ _ _ AX). unfold placed. set (m := gcell A x d).
  assert (M : (0 <= m <= n - 2)%Z). { split; [unfold m; rewrite (cell64_eq d pw lg); lia|]. apply (cell_range pw lg _ _ _ _ AX F). unfold top. fold len. lra. }
  split.
  - destruct (Z.eq_dec m 0) as [E|E]; [now left|right]. destruct (HC m ltac:(lia)) as (C1 & _). destruct (node _ _ _ m AX ltac:(lia)) as (FB & _). fold (border d m) in FB.
    destruct (Rle_or_lt (B2R x) (IZR m * len)) as [K|K].
    { exfalso. assert (Q := cell64_le _ _ _ AX pw lg x m F ltac:(lra) ltac:(cbn in *; lia) K). fold m in Q. lia. }
    assert (LE : B2R (border d m) <= B2R x).
    { unfold border. destruct (of_Z_exact m) as (FZ & EZ); [cbn in *; lia|]. assert (MB : 0 <= IZR m <= 1048576) by (split; apply IZR_le; cbn in *; lia). assert (LH := len_hi _ _ _ AX).
      destruct (mul_ok (b64_of_Z m) d FZ (fin_d _ _ _ AX)) as (_ & EM).
      - rewrite EZ. fold len. rewrite Rabs_pos_eq by (apply Rmult_le_pos; lra). apply Rle_trans with (bp 31); [|apply bpow_le; lia]. change (bp 31) with 2147483648. assert (IZR m * len <= 1048576 * 1024) by (apply Rmult_le_compat; lra). lra.
      - rewrite EM, EZ, <- (rnd_B2R x). apply rnd_mono. fold len. lra. }
    destruct LE as [LT|EQ]; [exact LT|]. exfalso. assert (S := cell_same x (border d m) F FB ltac:(lra) (eq_sym EQ)). fold m in S. lia.
  - destruct (HC (m + 1)%Z ltac:(lia)) as (_ & C2). apply (border_spec pw lg n size d (m + 1) AX); [lia|exact C2|exact F|lra|unfold m; lia].
Qed.

(** Cells whose size is a power of two. *)
Lemma double_form : forall x : b64, exists M E, B2R x = IZR M * bp E /\ (Z.abs M < 2 ^ 53)%Z /\ (-1074 <= E)%Z.
Proof.
  intro x. destruct (FLT_format_generic radix2 (-1074) 53 (B2R x) (generic_format_B2R prec64 emax64 x)) as [f E1 E2 E3]. exists (Fnum f), (Fexp f). unfold F2R in E1. split; [exact E1|]. split; [exact E2|exact E3].
Qed.
Lemma div_power : forall (x : b64) e, len = bp e -> bp (-60) <= B2R x -> rnd (B2R x / len) = B2R x / len.
Proof.
  intros x e E B. destruct (double_form x) as (M & E2 & EX & HM & HE). rewrite EX, E. unfold Rdiv. rewrite <- bpow_opp, Rmult_assoc, <- bpow_plus. apply rnd_exact; [exact HM|].
  assert (EB : (e <= 10)%Z). { assert (H := len_hi _ _ _ AX). rewrite E in H. change 1024 with (bp 10) in H. now apply le_bpow in H. }
  assert (MB : IZR M <= bp 53) by (change (bp 53) with (IZR (2 ^ 53)); apply IZR_le; lia). assert (P := bpow_gt_0 radix2 E2). assert (K : bp (-60) <= bp (53 + E2)) by (rewrite bpow_plus; apply Rle_trans with (1 := B); rewrite EX; apply Rmult_le_compat_r; lra).
  apply le_bpow in K. lia.
Qed.
Theorem power_clear : forall e, B2R d = bp e -> clear_axis pw lg n d.
Proof.
  intros e E m M. assert (L := len_pos _ _ _ AX). assert (N := ax_n _ _ _ AX). assert (LO := ax_lo _ _ _ AX). assert (LH := len_hi _ _ _ AX). fold len in LO, E.
  assert (MB : 1 <= IZR m <= 1048576) by (split; apply IZR_le; cbn in *; lia). destruct (of_Z_exact m) as (FZ & EZ); [cbn in *; lia|].
  assert (PL : len <= IZR m * len) by (rewrite <- (Rmult_1_l len) at 1; apply Rmult_le_compat_r; lra). assert (PH : IZR m * len <= 1048576 * len) by (apply Rmult_le_compat_r; lra).
  assert (EB : fin (border d m) /\ B2R (border d m) = IZR m * len).
  { unfold border. destruct (mul_ok (b64_of_Z m) d FZ (fin_d _ _ _ AX)) as (F & EM).
    - rewrite EZ. fold len. rewrite Rabs_pos_eq by lra. apply Rle_trans with (bp 31); [|apply bpow_le; lia]. change (bp 31) with 2147483648. lra.
    - split; [exact F|]. rewrite EM, EZ. fold len. rewrite E. apply rnd_exact; [cbn in *; lia|]. assert (K : bp (-30) <= bp e) by (rewrite <- E; exact LO). apply le_bpow in K. lia. }
  destruct EB as (FB & EB). set (b := border d m) in *.
  assert (B60 : bp (-60) <= B2R b) by (rewrite EB; apply Rle_trans with (bp (-30)); [apply bpow_le; lia|lra]).
  assert (QB : B2R b / len = IZR m) by (rewrite EB; field; lra).
  split.
  - rewrite (cell64_eq d pw lg). destruct (quot _ _ _ AX b FB) as (_ & E1 & _); [rewrite EB, Rabs_pos_eq; lra|]. rewrite E1, (div_power b e E B60), QB, Zceil_IZR. lia.
  - assert (SC := Bsucc_correct prec64 emax64 eq_refl eq_refl b FB). set (s := @Bsucc prec64 emax64 eq_refl eq_refl b) in *.
    assert (SB : succ radix2 (SpecFloat.fexp prec64 emax64) (B2R b) <= 2 * B2R b).
    { apply (@succ_le_lt radix2 _ (@FLT_exp_valid (-1074) 53 eq_refl)); [apply generic_format_B2R| |lra].
      replace (2 * B2R b) with (IZR m * bp (e + 1)) by (rewrite EB, E, bpow_plus; change (bp 1) with 2; ring). rewrite <- rnd_exact; [apply generic_format_round; [exact (@FLT_exp_valid (-1074) 53 eq_refl)|apply valid_rnd_N]|cbn in *; lia|]. assert (K : bp (-30) <= bp e) by (rewrite <- E; exact LO). apply le_bpow in K. lia. }
    rewrite Rlt_bool_true in SC; [|apply Rle_lt_trans with (1 := SB); apply Rle_lt_trans with (bp 32); [change (bp 32) with 4294967296; lra|apply bpow_lt; reflexivity]].
    destruct SC as (SE & SF & _). assert (LT : B2R b < B2R s) by (rewrite SE; apply succ_gt_id; lra).
    rewrite (cell64_eq d pw lg). destruct (quot _ _ _ AX s SF) as (_ & E1 & _); [rewrite SE in LT |- *; rewrite Rabs_pos_eq; lra|]. rewrite E1, (div_power s e E ltac:(lra)).
    assert (IZR m < B2R s / len) by (rewrite <- QB; unfold Rdiv; apply Rmult_lt_compat_r; [now apply Rinv_0_lt_compat|exact LT]).
    assert (m < Zceil (B2R s / len))%Z by (apply lt_IZR; apply Rlt_le_trans with (1 := H); apply Zceil_ub). lia.
Qed.
End Clear.

Section Grid.
Variables pw lg : b64 -> b64.
Notation A := (b64_arith pw lg).
Theorem clear_well_placed : forall (g : ggeom A) dt q rn zn ro zo, fine pw lg g dt -> clear_axis pw lg (gn_r A g) (gdr A g) -> clear_axis pw lg (gn_z A g) (gdz A g) ->
  short_move pw lg g dt q rn zn ro zo -> well_placed pw lg g rn zn ro zo.
Proof.
  intros g dt q rn zn ro zo HF CR CZ HM. assert (AR := AXR pw lg g dt HF). assert (AZ := AXZ pw lg g dt HF).
  repeat split; try (apply (clear_placed pw lg _ _ _ AR CR); apply (fits_r pw lg g dt HF); apply HM); apply (clear_placed pw lg _ _ _ AZ CZ); apply (fits_z pw lg g dt HF); apply HM.
Qed.
Theorem power_grid : forall (g : ggeom A) dt a b, fine pw lg g dt -> @B2R prec64 emax64 (gdr A g) = bp a -> @B2R prec64 emax64 (gdz A g) = bp b ->
  clear_axis pw lg (gn_r A g) (gdr A g) /\ clear_axis pw lg (gn_z A g) (gdz A g).
Proof. intros g dt a b HF EA EB. split; [exact (power_clear pw lg _ _ _ (AXR pw lg g dt HF) a EA)|exact (power_clear pw lg _ _ _ (AXZ pw lg g dt HF) b EB)]. Qed.
End Grid.
