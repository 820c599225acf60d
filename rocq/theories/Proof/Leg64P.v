(** One oblique leg of the current deposition in binary64: the four deposited currents balance the move of the
    charge up to rounding. *)
From Coq Require Import Reals ZArith List Bool Lia Lra Psatz.
From Flocq Require Import Core IEEE754.BinarySingleNaN.
From Verif.Lib Require Import RAux Outcome.
From Verif.Model Require Import Constants Binary64 Temperature64 Arith GenCode.
From Verif.Spec Require Import Double Deposit64.
From Verif.Proof Require Import Binary64P FloatP Axis64P Push64P Err64P Ana64P Log64P.
Import ListNotations.
Local Open Scope R_scope.

(** ** Constants *)
Lemma good_exact : forall (x : b64) X lo hi, fin x -> B2R x = X -> bp lo <= X <= bp hi -> good x X X (Sh 0 lo hi true).
Proof.
  intros x X lo hi F E H. assert (P := bpow_gt_0 radix2 lo). split; [|split; [exact H|]]; cbn [s_k].
  - replace (0 / 4) with 0 by lra. rewrite <- E. apply near_exact; [exact F|]. rewrite E, Rabs_pos_eq; lra.
  - intros _. rewrite Rabs_pos_eq by lra. split; [lra|reflexivity].
Qed.
Lemma good_Z : forall n lo hi, (Z.abs n < 2 ^ 53)%Z -> bp lo <= IZR n <= bp hi -> good (b64_of_Z n) (IZR n) (IZR n) (Sh 0 lo hi true).
Proof. intros n lo hi H B. destruct (of_Z_exact n H) as (F & E). now apply good_exact. Qed.
Lemma lit_half : fin (b64_lit 1 2) /\ B2R (b64_lit 1 2) = / 2.
Proof. split; [reflexivity|]. unfold b64_lit. destruct (of_Z_exact 1 eq_refl) as (F1 & E1). destruct (of_Z_exact 2 eq_refl) as (F2 & E2).
  destruct (div_ok (b64_of_Z 1) (b64_of_Z 2) F1 ltac:(rewrite E2; lra)) as (_ & E); [rewrite E1, E2; apply Rle_trans with (bp 1); [cbn; rewrite Rabs_pos_eq; lra|apply bpow_le; lia]|].
  rewrite E, E1, E2. replace (1 / 2) with (IZR 1 * bp (-1)) by (cbn; lra). rewrite rnd_exact; [cbn; lra|reflexivity|lia].
Qed.
Lemma lit_quarter : fin (b64_lit 1 4) /\ B2R (b64_lit 1 4) = / 4.
Proof. split; [reflexivity|]. unfold b64_lit. destruct (of_Z_exact 1 eq_refl) as (F1 & E1). destruct (of_Z_exact 4 eq_refl) as (F2 & E2).
  destruct (div_ok (b64_of_Z 1) (b64_of_Z 4) F1 ltac:(rewrite E2; lra)) as (_ & E); [rewrite E1, E2; apply Rle_trans with (bp 1); [cbn; rewrite Rabs_pos_eq; lra|apply bpow_le; lia]|].
  rewrite E, E1, E2. replace (1 / 4) with (IZR 1 * bp (-2)) by (cbn; lra). rewrite rnd_exact; [cbn; lra|reflexivity|lia].
Qed.
Lemma good_PI : good (b64_lit 7853981633974483 2500000000000000) c_PI c_PI (Sh 7 1 2 true).
Proof.
  assert (G1 := good_Z 7853981633974483 52 53 eq_refl ltac:(split; cbn; lra)). assert (G2 := good_Z 2500000000000000 51 52 eq_refl ltac:(split; cbn; lra)).
  assert (G := analysed _ _ _ _ (Di (V 0) (V 1)) _ (goods_cons _ _ _ _ _ _ _ _ G1 (goods_cons _ _ _ _ _ _ _ _ G2 goods_nil)) eq_refl). cbn [eb er em nth s_k] in G.
  replace (7853981633974483 / 2500000000000000) with c_PI in G by (unfold c_PI; lra). destruct G as (N & _ & L). split; [exact N|]. split; [split; unfold c_PI; cbn; lra|exact L].
Qed.
Lemma mnzl_val : fin (b64_lit 1 1000000000000000) /\ bp (-50) <= B2R (b64_lit 1 1000000000000000) <= / 900000000000000.
Proof.
  destruct (of_Z_exact 1 eq_refl) as (F1 & E1). destruct (of_Z_exact 1000000000000000 eq_refl) as (F2 & E2).
  destruct (div_ok (b64_of_Z 1) (b64_of_Z 1000000000000000) F1 ltac:(rewrite E2; lra)) as (F & E); [rewrite E1, E2; apply Rle_trans with (bp 1); [cbn; rewrite Rabs_pos_eq; lra|apply bpow_le; lia]|].
  unfold b64_lit. split; [exact F|]. rewrite E, E1, E2. assert (R : Rabs (rnd (1 / 1000000000000000) - 1 / 1000000000000000) <= u * (1 / 1000000000000000)) by (apply rnd_rel; apply Rle_trans with (bp (-50)); [apply bpow_le; lia|cbn; lra]).
  apply Rabs_le_inv in R. assert (U := u_val). change (bp (-50)) with (/ 1125899906842624). lra.
Qed.

Section Leg.
Variables pw lg : b64 -> b64.
Notation A := (b64_arith pw lg).
Variables (g : ggeom A) (dt q rn zn ro zo : b64) (c k : Z).
Definition dr64 : b64 := gdr A g.
Definition dz64 : b64 := gdz A g.
Notation DR := (B2R dr64). Notation DZ := (B2R dz64). Notation DT := (B2R dt). Notation Q := (B2R q).
Notation RN := (B2R rn). Notation ZN := (B2R zn). Notation RO := (B2R ro). Notation ZO := (B2R zo).

Record leg_ok : Prop := Leg {
  l_log : accurate_log lg;
  l_fr : fin dr64; l_fz : fin dz64; l_ft : fin dt; l_fq : fin q; l_frn : fin rn; l_fzn : fin zn; l_fro : fin ro; l_fzo : fin zo;
  l_dr : bp (-30) <= DR <= bp 10; l_dz : bp (-30) <= DZ <= bp 10; l_dt : bp (-200) <= DT <= bp 10; l_q : bp (-200) <= Rabs Q <= bp 200;
  l_c : (0 <= c < 2 ^ 20)%Z; l_k : (0 <= k < 2 ^ 20)%Z;
  l_ro : 9 / 20 * ((IZR c + 1) * DR) <= RO <= 21 / 20 * ((IZR c + 1) * DR);
  l_rn : 9 / 20 * ((IZR c + 1) * DR) <= RN <= 21 / 20 * ((IZR c + 1) * DR);
  l_e : Rabs (RN - RO) <= 11 / 10 * DR; l_a : Rabs (ZN - ZO) <= 11 / 10 * DZ;
  l_z : Rabs ZO <= (IZR k + 2) * DZ;
  l_te : Bltb (Babs (b64_sub rn ro)) (b64_lit 1 1000000000000000) = false;
  l_ta : Bltb (Babs (b64_sub zn zo)) (b64_lit 1 1000000000000000) = false }.
Hypothesis H : leg_ok.

Definition e : R := Rabs (RN - RO).
Definition a : R := Rabs (ZN - ZO).
Definition Rr : R := (IZR c + 1) * DR.

Lemma C0 : 0 <= IZR c <= bp 20 - 1.
Proof. assert (K := l_c H). change (bp 20) with (IZR (2 ^ 20)). rewrite <- minus_IZR. split; apply IZR_le; lia. Qed.
Lemma K0 : 0 <= IZR k <= bp 20 - 1.
Proof. assert (K := l_k H). change (bp 20) with (IZR (2 ^ 20)). rewrite <- minus_IZR. split; apply IZR_le; lia. Qed.
Lemma DRp : 0 < DR. Proof. assert (P := l_dr H). assert (P1 := bpow_gt_0 radix2 (-30)). lra. Qed.
Lemma DZp : 0 < DZ. Proof. assert (P := l_dz H). assert (P1 := bpow_gt_0 radix2 (-30)). lra. Qed.
Lemma DTp : 0 < DT. Proof. assert (P := l_dt H). assert (P1 := bpow_gt_0 radix2 (-200)). lra. Qed.
Lemma Rr_pos : DR <= Rr. Proof. unfold Rr. assert (C := C0). assert (P := DRp). nra. Qed.
Lemma Rr_rg : bp (-30) <= Rr <= bp 30.
Proof.
  assert (C := C0). assert (P := DRp). assert (D := l_dr H). assert (R := Rr_pos). split; [lra|]. unfold Rr. change 30%Z with (20 + 10)%Z. rewrite bpow_plus. apply Rmult_le_compat; lra.
Qed.
Lemma small_diff : forall x y : b64, fin x -> fin y -> Rabs (B2R x - B2R y) <= bp 12 -> Bltb (Babs (b64_sub x y)) (b64_lit 1 1000000000000000) = false ->
  bp (-51) <= Rabs (B2R x - B2R y) /\ good (b64_sub x y) (B2R x - B2R y) (Rabs (B2R x - B2R y)) (Sh 5 (-51) 12 true).
Proof.
  intros x y FX FY B T. destruct mnzl_val as (FM & LM & _). destruct (sub_ok x y FX FY) as (F & V); [apply Rle_trans with (1 := B); apply bpow_le; lia|].
  assert (FA : fin (Babs (b64_sub x y))) by (rewrite is_finite_Babs; exact F).
  assert (L : bp (-50) <= Rabs (rnd (B2R x - B2R y))).
  { rewrite <- V, <- B2R_Babs. apply Rnot_lt_le. intro N. assert (bp (-50) <= B2R (Babs (b64_sub x y))).
    { apply Rle_trans with (1 := LM). apply Rnot_lt_le. intro N'. apply (ltb_ok _ _ FA FM) in N'. congruence. } lra. }
  set (w := B2R x - B2R y) in *. assert (W : bp (-51) <= Rabs w).
  { assert (R := rnd_err w). assert (T1 := Rabs_triang_inv (rnd w) w). assert (TS : tiny <= bp (-60)) by (apply bpow_le; lia). assert (PW := Rabs_pos w).
    assert (u * Rabs w <= / 1000 * Rabs w) by (apply Rmult_le_compat_r; [exact PW|rewrite u_val; lra]).
    change (-50)%Z with (-51 + 1)%Z in L. rewrite bp_succ in L. assert (bp (-60) <= bp (-51) * / 512) by (cbn; lra). assert (P51 := bpow_gt_0 radix2 (-51)). lra. }
  split; [exact W|]. assert (R : rg (Rabs w) (-51) 12) by (split; assumption). split; [|split; [exact R|]]; cbn [s_k].
  - split; [exact F|]. split; [split; [lra|rewrite u_val; lra]|]. split; [lra|]. rewrite V. fold w. replace (5 / 4) with (0 + 5 / 4) by lra.
    apply round_near; [split; [lra|rewrite u_val; lra]|apply Rle_trans with (2 := W); apply bpow_le; lia|lra|unfold Rminus at 1; rewrite Rplus_opp_r, Rabs_R0; lra].
  - intros _. split; [|reflexivity]. intro Z. rewrite Z, Rabs_R0 in W. assert (P51 := bpow_gt_0 radix2 (-51)). lra.
Qed.
Lemma eB : Rabs (RN - RO) <= bp 12.
Proof. apply Rle_trans with (1 := l_e H). assert (D := l_dr H). change 12%Z with (10 + 1 + 1)%Z. rewrite !bp_succ. assert (P := DRp). lra. Qed.
Lemma aB : Rabs (ZN - ZO) <= bp 12.
Proof. apply Rle_trans with (1 := l_a H). assert (D := l_dz H). change 12%Z with (10 + 1 + 1)%Z. rewrite !bp_succ. assert (P := DZp). lra. Qed.
Notation d := (b64_sub rn ro).
Notation zd := (b64_sub zn zo).
Lemma d_good : bp (-51) <= e /\ good d (RN - RO) e (Sh 5 (-51) 12 true).
Proof. apply small_diff; [apply H|apply H|exact eB|apply H]. Qed.
Lemma z_good : bp (-51) <= a /\ good zd (ZN - ZO) a (Sh 5 (-51) 12 true).
Proof. apply small_diff; [apply H|apply H|exact aB|apply H]. Qed.
Lemma ep : 0 < e. Proof. destruct d_good as (P & _). assert (P1 := bpow_gt_0 radix2 (-51)). lra. Qed.
Lemma ap : 0 < a. Proof. destruct z_good as (P & _). assert (P1 := bpow_gt_0 radix2 (-51)). lra. Qed.
Lemma RO_rg : bp (-32) <= RO <= bp 31.
Proof. assert (O := l_ro H). fold Rr in O. assert (R := Rr_rg). change (-30)%Z with (-32 + 1 + 1)%Z in R. change 31%Z with (30 + 1)%Z. rewrite !bp_succ in *. lra. Qed.
Lemma RN_rg : bp (-32) <= RN <= bp 31.
Proof. assert (O := l_rn H). fold Rr in O. assert (R := Rr_rg). change (-30)%Z with (-32 + 1 + 1)%Z in R. change 31%Z with (30 + 1)%Z. rewrite !bp_succ in *. lra. Qed.
Lemma ROp : 0 < RO. Proof. assert (R := RO_rg). assert (P := bpow_gt_0 radix2 (-32)). lra. Qed.
Lemma RNp : 0 < RN. Proof. assert (R := RN_rg). assert (P := bpow_gt_0 radix2 (-32)). lra. Qed.

(** ** The two logarithms *)
Definition lg1 : b64 := lg (b64_div (b64_add (b64_mul (b64_div d zd) zd) ro) ro).
Definition lg2 : b64 := lg (b64_div (b64_add ro d) ro).
Definition ML : R := 3 * (e / RO).
Lemma ML_rg : rg ML (-81) 46.
Proof.
  destruct d_good as (L & _). assert (RE : rg e (-51) 12) by (split; [exact L|exact eB]). assert (RR : rg RO (-32) 31) by exact RO_rg. assert (RQ := rg_div _ _ _ _ _ _ RE RR). cbn [Z.sub Z.add Z.opp] in RQ.
  assert (R3 : rg 3 1 2) by (split; cbn; lra). exact (rg_mul _ _ _ _ _ _ R3 RQ).
Qed.
Lemma two_logs : exists L, good lg2 L ML (Sh 0 (-81) 46 false) /\ good lg1 L ML (Sh 192 (-81) 46 false).
Proof.
  destruct d_good as (Le & _). destruct z_good as (La & ((Fz & _ & _ & Ez) & _ & _)). cbn [s_k] in Ez. assert (OP := l_ro H). assert (NP := l_rn H). fold Rr in OP, NP.
  assert (PU := u_pos). assert (US : 5 / 4 * u <= / 1000) by (rewrite u_val; lra). assert (AP := ap).
  assert (ZB : bp (-60) <= Rabs (B2R zd) <= bp 60).
  { assert (T1 := Rabs_triang_inv (B2R zd) (ZN - ZO)). assert (T2 := Rabs_triang_inv (ZN - ZO) (B2R zd)). rewrite (Rabs_minus_sym (ZN - ZO)) in T2. fold a in *.
    assert (5 / 4 * u * a <= / 1000 * a) by (apply Rmult_le_compat_r; lra). assert (bp (-60) * 2 <= bp (-51)) by (cbn; lra). assert (AB := aB). fold a in AB. assert (bp 12 * 2 <= bp 60) by (cbn; lra). lra. }
  assert (E60 : bp (-60) <= Rabs (RN - RO)). { apply Rle_trans with (2 := Le). apply bpow_le. lia. }
  assert (RB : bp (-40) <= RO <= bp 40). { assert (R := RO_rg). split; [apply Rle_trans with (2 := proj1 R)|apply Rle_trans with (1 := proj2 R)]; apply bpow_le; lia. }
  assert (NB : 3 / 7 * RO <= RN <= 7 / 3 * RO) by lra.
  destruct (logs lg rn ro zd (l_log H) (l_frn H) (l_fro H) Fz RB NB ZB E60) as (L & _ & L2 & L1).
  exists L. split; (split; [|split; [exact ML_rg|discriminate]]); cbn [s_k].
  - replace (0 / 4) with 0 by lra. exact L2.
  - replace (192 / 4) with 48 by lra. exact L1.
Qed.

(** ** The other values *)
Lemma s_good : good (b64_add ro d) RN RN (Sh 11 (-32) 31 true).
Proof.
  destruct d_good as (Le & ((FD & _ & _ & ED) & _ & _)). cbn [s_k] in ED. assert (OP := l_ro H). assert (NP := l_rn H). fold Rr in OP, NP.
  assert (E60 : bp (-60) <= Rabs (RN - RO)). { apply Rle_trans with (2 := Le). apply bpow_le. lia. }
  assert (RB : bp (-40) <= RO <= bp 40). { assert (R := RO_rg). split; [apply Rle_trans with (2 := proj1 R)|apply Rle_trans with (1 := proj2 R)]; apply bpow_le; lia. }
  assert (NB : 3 / 7 * RO <= RN <= 7 / 3 * RO) by lra. assert (P := RNp). assert (PU := u_pos).
  destruct (sum_back rn ro RB NB E60 d (5 / 4) FD ltac:(lra) ED) as (B & S). destruct (add_ok ro d (l_fro H) FD) as (F & V); [rewrite Rplus_comm; exact B|].
  split; [|split; [exact RN_rg|]]; cbn [s_k].
  - split; [exact F|]. split; [split; [lra|rewrite u_val; lra]|]. split; [rewrite Rabs_pos_eq; lra|]. rewrite V, Rplus_comm. apply Rle_trans with (1 := S). assert (0 <= u * RN) by (apply Rmult_le_pos; lra). lra.
  - intros _. rewrite Rabs_pos_eq by lra. split; [lra|reflexivity].
Qed.
Lemma h_val : fin (b64_add (b64_of_Z c) (b64_lit 1 2)) /\ B2R (b64_add (b64_of_Z c) (b64_lit 1 2)) = IZR c + / 2.
Proof.
  assert (C := l_c H). destruct (of_Z_exact c ltac:(lia)) as (F1 & E1). destruct lit_half as (F2 & E2). assert (B := C0).
  destruct (add_ok (b64_of_Z c) (b64_lit 1 2) F1 F2) as (F & V); [rewrite E1, E2; apply Rle_trans with (bp 21); [rewrite Rabs_pos_eq by lra; change (bp 21) with (2 * bp 20); lra|apply bpow_le; lia]|].
  split; [exact F|]. rewrite V, E1, E2. replace (IZR c + / 2) with (IZR (2 * c + 1) * bp (-1)) by (rewrite plus_IZR, mult_IZR; cbn; lra). apply rnd_exact; lia.
Qed.

Definition vals : list b64 :=
  [dr64; dz64; dt; q; b64_lit 7853981633974483 2500000000000000; b64_of_Z (c + 1); b64_add (b64_of_Z c) (b64_lit 1 2); b64_of_Z k; zo; ro; d; zd; lg1; lg2; b64_add ro d;
   b64_of_Z 1; b64_of_Z 2; b64_of_Z 4; b64_of_Z 8; b64_lit 1 2; b64_lit 1 4].
Definition reals (L : R) : list R :=
  [DR; DZ; DT; Q; c_PI; IZR (c + 1); IZR c + / 2; IZR k; ZO; RO; RN - RO; ZN - ZO; L; L; RN; 1; 2; 4; 8; / 2; / 4].
Definition mags : list R :=
  [DR; DZ; DT; Rabs Q; c_PI; IZR (c + 1); IZR c + / 2; IZR k + 1; (IZR k + 2) * DZ; RO; e; a; ML; ML; RN; 1; 2; 4; 8; / 2; / 4].
Definition shapes : list shape :=
  [Sh 0 (-30) 10 true; Sh 0 (-30) 10 true; Sh 0 (-200) 10 true; Sh 0 (-200) 200 true; Sh 7 1 2 true; Sh 0 0 20 true; Sh 0 (-1) 20 true; Sh 0 0 20 false; Sh 0 (-29) 31 false; Sh 0 (-32) 31 true;
   Sh 5 (-51) 12 true; Sh 5 (-51) 12 true; Sh 192 (-81) 46 false; Sh 0 (-81) 46 false; Sh 11 (-32) 31 true; Sh 0 0 0 true; Sh 0 1 1 true; Sh 0 2 2 true; Sh 0 3 3 true; Sh 0 (-1) (-1) true; Sh 0 (-2) (-2) true].

Lemma env : exists L, goods vals (reals L) mags shapes.
Proof.
  destruct two_logs as (L & L2 & L1). exists L. unfold vals, reals, mags, shapes. assert (C := C0). assert (K := K0). assert (CC := l_c H). assert (KK := l_k H).
  assert (C1 : IZR (c + 1) = IZR c + 1) by (now rewrite plus_IZR).
  repeat apply goods_cons; try apply goods_nil.
  - apply good_exact; [apply H|reflexivity|apply H].
  - apply good_exact; [apply H|reflexivity|apply H].
  - apply good_exact; [apply H|reflexivity|apply H].
  - assert (QB := l_q H). split; [|split; [exact QB|]]; cbn [s_k].
    + replace (0 / 4) with 0 by lra. apply near_exact; [apply H|lra].
    + intros _. split; [|reflexivity]. intro Z. rewrite Z, Rabs_R0 in QB. assert (P := bpow_gt_0 radix2 (-200)). lra.
  - exact good_PI.
  - apply good_Z; [lia|]. rewrite C1. change (bp 0) with 1. lra.
  - destruct h_val as (F & E). apply good_exact; [exact F|exact E|]. change (bp (-1)) with (/ 2). lra.
  - destruct (of_Z_exact k ltac:(lia)) as (F & E). split; [|split; [|discriminate]]; cbn [s_k].
    + replace (0 / 4) with 0 by lra. assert (N := near_exact (b64_of_Z k) (IZR k + 1) F). rewrite E in N. apply N. rewrite Rabs_pos_eq; lra.
    + split; cbn [s_lo s_hi]; [change (bp 0) with 1; lra|lra].
  - assert (D := l_dz H). assert (DP := DZp). split; [|split; [|discriminate]]; cbn [s_k s_lo s_hi].
    + replace (0 / 4) with 0 by lra. apply near_exact; [apply H|apply H].
    + split; [change (-29)%Z with (-30 + 1)%Z; rewrite bp_succ; nra|]. change 31%Z with (21 + 10)%Z. rewrite bpow_plus. change (bp 21) with (2 * bp 20). assert (1 <= bp 20) by (cbn; lra). apply Rmult_le_compat; lra.
  - apply good_exact; [apply H|reflexivity|exact RO_rg].
  - apply d_good.
  - apply z_good.
  - exact L1.
  - exact L2.
  - exact s_good.
  - apply good_Z; [lia|cbn; lra].
  - apply good_Z; [lia|cbn; lra].
  - apply good_Z; [lia|cbn; lra].
  - apply good_Z; [lia|cbn; lra].
  - destruct lit_half. apply good_exact; [assumption|assumption|cbn; lra].
  - destruct lit_quarter. apply good_exact; [assumption|assumption|cbn; lra].
Qed.

(** ** The deposited values *)
Section Exprs.
Variable v : nat -> ex.
Let DRv := v 0%nat. Let DZv := v 1%nat. Let DTv := v 2%nat. Let Qv := v 3%nat. Let PIv := v 4%nat. Let Hv := v 6%nat. Let Kv := v 7%nat. Let ZOv := v 8%nat. Let ROv := v 9%nat.
Let Dv := v 10%nat. Let ZDv := v 11%nat. Let L1v := v 12%nat. Let L2v := v 13%nat. Let Sv := v 14%nat. Let One := v 15%nat. Let Two := v 16%nat. Let Four := v 17%nat. Let Eight := v 18%nat.
Let Half := v 19%nat. Let Quarter := v 20%nat.
Definition x_dens_r (r : ex) : ex := Di Qv (Ti (Ti (Ti (Ti (Ti (Ti (Ti Two PIv) r) DRv) DZv) DTv) Two) DRv).
Definition x_dens_z (r : ex) : ex := Di Qv (Ti (Ti (Ti (Ti (Ti (Ti Two PIv) r) DRv) DZv) DTv) DZv).
Definition x_k : ex := Di Dv ZDv.
Definition x_z0 (r : ex) : ex := Ti (x_dens_r r)
  (Pl (Mi (Mi (Ti DRv ZDv) (Di (Ti (Ti x_k ZDv) ZDv) Two)) (Ti ZDv ROv)) (Ti (Ti (Di (Ti DRv DRv) x_k) (Mi (Ti Hv Hv) Quarter)) L1v)).
Definition x_z1 (r : ex) : ex := Ti (x_dens_r r)
  (Pl (Pl (Pl (Di (Ti (Ti x_k ZDv) ZDv) Two) (Ti ZDv ROv)) (Ti ZDv DRv)) (Ti (Ti (Di (Ti DRv DRv) x_k) (Mi Quarter (Ti Hv Hv))) L1v)).
Definition x_z0' : ex := Ti (Di Qv (Ti (Ti (Ti (Ti (Di (Ti (Ti Two PIv) DRv) Four) DRv) DZv) DTv) DRv))
  (Mi (Mi (Ti DRv ZDv) (Di (Ti (Ti x_k ZDv) ZDv) Two)) (Ti ZDv ROv)).
Definition x_z1' : ex := Ti (x_dens_r DRv)
  (Pl (Pl (Di (Ti (Ti x_k ZDv) ZDv) Two) (Ti ZDv DRv)) (Ti ZDv ROv)).
Definition x_k' : ex := Di (Ng ZDv) Dv.
Definition x_r0 : ex := Ti Hv DRv.
Definition x_b1 : ex := Mi (Ti (Pl Kv One) DZv) ZOv.
Definition x_b2 : ex := Mi ZOv (Ti Kv DZv).
Definition x_x0 : ex := Ti (x_dens_z x_r0)
  (Pl (Pl (Pl (Pl (Ti (Ti x_r0 x_k') Dv) (Ti (Ti (Di x_k' Two) Dv) (Pl ROv (Di Dv Two))))
      (Ti (Ti Half Dv) (Mi x_b1 (Ti x_k' (Pl (Ti Two x_r0) ROv)))))
      (Di (Ti (Ti Dv (Mi x_b1 (Ti x_k' ROv))) (Mi (Ti (Ti Four x_r0) x_r0) (Ti DRv DRv))) (Ti (Ti Eight ROv) Sv)))
      (Ti (Ti x_k' (Mi (Di (Ti x_r0 x_r0) Two) (Di (Ti DRv DRv) Eight))) L2v)).
Definition x_x1 : ex := Ti (x_dens_z x_r0)
  (Mi (Pl (Pl (Mi (Ti (Ti (Ng x_r0) x_k') Dv) (Ti (Ti (Di x_k' Two) Dv) (Pl ROv (Di Dv Two))))
      (Ti (Ti Half Dv) (Pl x_b2 (Ti x_k' (Pl (Ti Two x_r0) ROv)))))
      (Di (Ti (Ti Dv (Pl x_b2 (Ti x_k' ROv))) (Mi (Ti (Ti Four x_r0) x_r0) (Ti DRv DRv))) (Ti (Ti Eight ROv) Sv)))
      (Ti (Ti x_k' (Mi (Di (Ti x_r0 x_r0) Two) (Di (Ti DRv DRv) Eight))) L2v)).
End Exprs.

(** ** The shares of the charge, as polynomials of the position *)
Definition pr0 (r : R) : R := (((IZR c + 1 / 2) * DR) * ((IZR c + 1 / 2) * DR) - (r - DR / 2) * (r - DR / 2)) / (2 * r * DR).
Definition pr1 (r : R) : R := ((r + DR / 2) * (r + DR / 2) - ((IZR c + 1 / 2) * DR) * ((IZR c + 1 / 2) * DR)) / (2 * r * DR).
Definition pz0 (z : R) : R := ((IZR k + 1) * DZ - z) / DZ.
Definition pz1 (z : R) : R := (z - IZR k * DZ) / DZ.
Definition Ss : R := 2 * c_PI * ((IZR c + 1 / 2) * DR) * DZ.
Definition Aa0 : R := if (1 <=? c)%Z then 2 * c_PI * IZR c * DR * DR else c_PI * DR * DR / 4.
Definition Aa1 : R := 2 * c_PI * IZR (c + 1) * DR * DR.

Definition rv (L : R) : list R := IZR c :: reals L.
Definition Xz0 (L : R) : R := if (1 <=? c)%Z then er (rv L) (x_z0 (fun n => V (S n)) (Ti (V 0) (V 1))) else er (reals L) (x_z0' V).
Definition Xz1 (L : R) : R := if (1 <=? c)%Z then er (reals L) (x_z1 V (Ti (V 5) (V 0))) else er (reals L) (x_z1' V).
Definition Xx0 (L : R) : R := er (reals L) (x_x0 V).
Definition Xx1 (L : R) : R := er (reals L) (x_x1 V).

Lemma nz : DR <> 0 /\ DZ <> 0 /\ DT <> 0 /\ c_PI <> 0 /\ RO <> 0 /\ RN <> 0 /\ RN - RO <> 0 /\ ZN - ZO <> 0 /\ IZR c + / 2 <> 0 /\ IZR c + 1 <> 0.
Proof.
  assert (P1 := DRp). assert (P2 := DZp). assert (P3 := DTp). assert (P4 := ROp). assert (P5 := RNp). assert (P6 := ep). assert (P7 := ap). assert (P8 := C0). assert (P9 := c_PI_pos).
  repeat match goal with |- _ /\ _ => split end; try lra.
  - intro Z. unfold e in P6. rewrite Z, Rabs_R0 in P6. lra.
  - intro Z. unfold a in P7. rewrite Z, Rabs_R0 in P7. lra.
Qed.
Ltac idt := match goal with N : _ /\ _ |- _ => destruct N as (N1 & N2 & N3 & N4 & N5 & N6 & N7 & N8 & N9 & N10) end;
  unfold Aa0, Aa1, Ss, pr0, pr1, pz0, pz1, Xz0, Xz1, Xx0, Xx1; destruct (Z.leb_spec 1 c) as [LC|LC];
  [assert (N11 : IZR c <> 0) by (assert (1 <= IZR c) by (apply IZR_le; exact LC); lra)|assert (E0 : IZR c = 0) by (replace c with 0%Z by (assert (K := l_c H); lia); reflexivity)];
  cbn [er rv reals nth x_z0 x_z1 x_z0' x_z1' x_x0 x_x1 x_dens_r x_dens_z x_k x_k' x_r0 x_b1 x_b2]; rewrite ?plus_IZR; try match goal with E : IZR c = 0 |- _ => rewrite !E end; field; repeat match goal with |- _ /\ _ => split end; first [assumption|lra].
Lemma id00 : forall L, Q * (pr0 RN * pz0 ZN) - Q * (pr0 RO * pz0 ZO) = - (DT * (Aa0 * Xz0 L + Ss * Xx0 L)).
Proof. intro L. assert (N := nz). idt. Qed.
Lemma id10 : forall L, Q * (pr1 RN * pz0 ZN) - Q * (pr1 RO * pz0 ZO) = - (DT * (Aa1 * Xz1 L - Ss * Xx0 L)).
Proof. intro L. assert (N := nz). idt. Qed.
Lemma id01 : forall L, Q * (pr0 RN * pz1 ZN) - Q * (pr0 RO * pz1 ZO) = - (DT * (- (Aa0 * Xz0 L) + Ss * Xx1 L)).
Proof. intro L. assert (N := nz). idt. Qed.
Lemma id11 : forall L, Q * (pr1 RN * pz1 ZN) - Q * (pr1 RO * pz1 ZO) = - (DT * (- (Aa1 * Xz1 L) - Ss * Xx1 L)).
Proof. intro L. assert (N := nz). idt. Qed.

(** ** Sizes *)
Definition mv : list R := IZR c :: mags.
Definition Mz0 : R := if (1 <=? c)%Z then em mv (x_z0 (fun n => V (S n)) (Ti (V 0) (V 1))) else em mags (x_z0' V).
Definition Mz1 : R := if (1 <=? c)%Z then em mags (x_z1 V (Ti (V 5) (V 0))) else em mags (x_z1' V).
Definition Mx0 : R := em mags (x_x0 V).
Definition Mx1 : R := em mags (x_x1 V).
Definition AQ : R := Rabs Q.

Lemma le_quot : forall x y b, 0 < b -> x <= y * b -> x / b <= y.
Proof. intros x y b P L. apply Rmult_le_reg_r with b; [exact P|]. replace (x / b * b) with x by (field; lra). exact L. Qed.
Lemma h_sq : (IZR c + / 2) * (IZR c + / 2) + / 4 <= (IZR c + 1) * (IZR c + 1).
Proof. assert (C := C0). nra. Qed.
Lemma Rsq : DR * DR * ((IZR c + / 2) * (IZR c + / 2) + / 4) <= Rr * Rr.
Proof.
  assert (C := C0). assert (P := DRp). assert (S := h_sq). unfold Rr. replace ((IZR c + 1) * DR * ((IZR c + 1) * DR)) with (DR * DR * ((IZR c + 1) * (IZR c + 1))) by ring.
  apply Rmult_le_compat_l; [apply Rmult_le_pos; lra|exact S].
Qed.
Lemma e_Rr : e <= 11 / 10 * Rr. Proof. assert (E := l_e H). fold e in E. assert (R := Rr_pos). lra. Qed.
Lemma inner_z : DR + e / 2 + RO + 3 * (DR * DR * ((IZR c + / 2) * (IZR c + / 2) + / 4)) / RO <= 19 / 2 * Rr.
Proof.
  assert (R := Rr_pos). assert (E := e_Rr). assert (O := l_ro H). fold Rr in O. assert (S := Rsq). assert (P := ROp). assert (PD := DRp).
  assert (T : 3 * (DR * DR * ((IZR c + / 2) * (IZR c + / 2) + / 4)) / RO <= 20 / 3 * Rr). { apply le_quot; [exact P|]. nra. }
  assert (E2 := l_e H). fold e in E2. lra.
Qed.
Lemma inner_z' : DR + e / 2 + RO <= 19 / 2 * Rr.
Proof. assert (R := Rr_pos). assert (E := e_Rr). assert (O := l_ro H). fold Rr in O. assert (PD := DRp). lra. Qed.
Lemma scale_z : forall x, 0 <= x <= 19 / 2 * Rr -> AQ * / 2 * (a / DZ) * (x / DR) <= 53 / 10 * (IZR c + 1) * AQ.
Proof.
  intros x (X0 & X1). assert (PD := DRp). assert (PZ := DZp). assert (PA := ap). assert (LA := l_a H). fold a in LA. assert (QP := Rabs_pos Q). fold AQ in QP. assert (C := C0).
  assert (A1 : 0 <= a / DZ <= 11 / 10) by (apply quot_within; lra). assert (A2 : 0 <= x / DR <= 19 / 2 * (IZR c + 1)) by (apply quot_within; unfold Rr in X1; lra).
  apply Rle_trans with (AQ * / 2 * (11 / 10) * (19 / 2 * (IZR c + 1))); [|nra].
  apply Rmult_le_compat; [apply Rmult_le_pos; lra|lra| |lra]. apply Rmult_le_compat_l; lra.
Qed.
Lemma pos3 : 0 <= 3 * (DR * DR * ((IZR c + / 2) * (IZR c + / 2) + / 4)) / RO.
Proof. assert (P := ROp). assert (C := C0). assert (PD := DRp). apply Rmult_le_pos; [|left; now apply Rinv_0_lt_compat]. apply Rmult_le_pos; [lra|]. apply Rmult_le_pos; [apply Rmult_le_pos; lra|nra]. Qed.

Ltac mgs := unfold Mz0, Mz1, Aa0, Aa1; destruct (Z.leb_spec 1 c) as [LC|LC];
  [assert (N11 : IZR c <> 0) by (assert (1 <= IZR c) by (apply IZR_le; exact LC); lra)|assert (E0 : IZR c = 0) by (replace c with 0%Z by (assert (K := l_c H); lia); reflexivity)];
  cbn [em mv mags nth x_z0 x_z1 x_z0' x_z1' x_x0 x_x1 x_dens_r x_dens_z x_k x_k' x_r0 x_b1 x_b2]; unfold ML; fold AQ; rewrite ?plus_IZR.

Lemma size_z0 : DT * Aa0 * Mz0 <= 53 / 10 * (IZR c + 1) * AQ.
Proof.
  destruct nz as (N1 & N2 & N3 & N4 & N5 & N6 & _ & _ & N9 & N10). assert (PE := ep). assert (PA := ap). assert (P3 := pos3). assert (PD := DRp). assert (PO := ROp).
  assert (PZ2 : 0 <= DR + e / 2 + RO) by lra. assert (PZ1 := Rplus_le_le_0_compat _ _ PZ2 P3).
  mgs.
  - apply Rle_trans with (2 := scale_z _ (conj PZ1 inner_z)). right. field. repeat split; lra.
  - apply Rle_trans with (2 := scale_z (DR + e / 2 + RO) (conj PZ2 inner_z')). right. field. repeat split; lra.
Qed.
Lemma size_z1 : DT * Aa1 * Mz1 <= 53 / 10 * (IZR c + 1) * AQ.
Proof.
  destruct nz as (N1 & N2 & N3 & N4 & N5 & N6 & _ & _ & N9 & N10). assert (PE := ep). assert (PA := ap). assert (P3 := pos3). assert (PD := DRp). assert (PO := ROp).
  assert (PZ2 : 0 <= DR + e / 2 + RO) by lra. assert (PZ1 := Rplus_le_le_0_compat _ _ PZ2 P3).
  mgs.
  - apply Rle_trans with (2 := scale_z _ (conj PZ1 inner_z)). right. field. repeat split; lra.
  - apply Rle_trans with (2 := scale_z (DR + e / 2 + RO) (conj PZ2 inner_z')). right. rewrite E0. field. repeat split; lra.
Qed.

(** radial currents *)
Definition Bb : R := (2 * IZR k + 4) * DZ.
Definition h2 : R := DR * DR * (4 * (IZR c + / 2) * (IZR c + / 2) + 1).
Lemma h2_le : 0 <= h2 <= 4 * (Rr * Rr).
Proof.
  assert (S := Rsq). assert (C := C0). assert (PD := DRp). unfold h2. replace (DR * DR * (4 * (IZR c + / 2) * (IZR c + / 2) + 1)) with (4 * (DR * DR * ((IZR c + / 2) * (IZR c + / 2) + / 4))) by lra.
  split; [|lra]. apply Rmult_le_pos; [lra|]. apply Rmult_le_pos; [apply Rmult_le_pos; lra|nra].
Qed.
Lemma inner_x : forall B, 0 <= B <= Bb -> let hd := (IZR c + / 2) * DR in
  hd * a + / 2 * a * (RO + e / 2) + / 2 * (e * B + a * (2 * hd + RO)) + (e * B + a * RO) * h2 / (8 * RO * RN) + a * h2 * 3 / (8 * RO) <= 47 / 5 * (a * Rr) + 3 * (e * Bb).
Proof.
  intros B HB hd. assert (R := Rr_pos). assert (E := e_Rr). assert (O := l_ro H). assert (N := l_rn H). fold Rr in O, N. destruct h2_le as (H0 & H1). assert (PO := ROp). assert (PN := RNp). assert (PA := ap). assert (PE := ep).
  assert (C := C0). assert (K := K0). assert (PD := DRp). assert (PZ := DZp). assert (HD : 0 < hd <= Rr) by (unfold hd, Rr; split; nra).
  assert (BP : 0 <= e * B) by (apply Rmult_le_pos; lra). assert (BQ : e * B <= e * Bb) by (apply Rmult_le_compat_l; lra). assert (AR : 0 < a * Rr) by (apply Rmult_lt_0_compat; lra).
  assert (T4 : (e * B + a * RO) * h2 / (8 * RO * RN) <= 247 / 100 * (e * B + 21 / 20 * (a * Rr))).
  { assert (AO : 0 <= a * RO <= 21 / 20 * (a * Rr)) by (split; [apply Rmult_le_pos; lra|nra]).
    assert (Q8 : h2 / (8 * RO * RN) <= 247 / 100). { apply le_quot; [apply Rmult_lt_0_compat; lra|]. assert (9 / 20 * Rr * (9 / 20 * Rr) <= RO * RN) by (apply Rmult_le_compat; lra). nra. }
    assert (Q0 : 0 <= h2 / (8 * RO * RN)) by (apply Rmult_le_pos; [exact H0|left; apply Rinv_0_lt_compat; apply Rmult_lt_0_compat; lra]).
    replace ((e * B + a * RO) * h2 / (8 * RO * RN)) with (h2 / (8 * RO * RN) * (e * B + a * RO)) by (field; lra). apply Rmult_le_compat; lra. }
  assert (T5 : a * h2 * 3 / (8 * RO) <= 10 / 3 * (a * Rr)).
  { apply le_quot; [lra|]. assert (a * h2 <= a * (4 * (Rr * Rr))) by (apply Rmult_le_compat_l; lra). assert (a * Rr * Rr <= a * Rr * (20 / 9 * RO)) by (apply Rmult_le_compat_l; lra). nra. }
  assert (T1 : hd * a <= a * Rr) by nra. assert (T2 : a * (RO + e / 2) <= 16 / 10 * (a * Rr)) by nra. assert (T3 : a * (2 * hd + RO) <= 305 / 100 * (a * Rr)) by nra. lra.
Qed.
Lemma scale_x : AQ * ((47 / 5 * (a * Rr) + 3 * (e * Bb)) / (DR * DZ)) <= (11 * (IZR c + 1) + 7 * (IZR k + 2)) * AQ.
Proof.
  assert (PD := DRp). assert (PZ := DZp). assert (PA := ap). assert (PE := ep). assert (LA := l_a H). fold a in LA. assert (LE := l_e H). fold e in LE. assert (QP := Rabs_pos Q). fold AQ in QP. assert (C := C0). assert (K := K0).
  rewrite Rmult_comm. apply Rmult_le_compat_r; [exact QP|].
  replace ((47 / 5 * (a * Rr) + 3 * (e * Bb)) / (DR * DZ)) with (47 / 5 * (a / DZ) * (IZR c + 1) + 3 * (e / DR) * (2 * IZR k + 4)) by (unfold Rr, Bb; field; lra).
  assert (A1 : 0 <= a / DZ <= 11 / 10) by (apply quot_within; lra). assert (A2 : 0 <= e / DR <= 11 / 10) by (apply quot_within; lra). nra.
Qed.
Ltac sx B := destruct nz as (N1 & N2 & N3 & N4 & N5 & N6 & _ & _ & N9 & N10); assert (PE := ep); assert (PA := ap); assert (QP := Rabs_pos Q); fold AQ in QP; assert (PD := DRp); assert (PZ := DZp); assert (K := K0);
  apply Rle_trans with (2 := scale_x); unfold Ss, Mx0, Mx1; cbn [em mv mags nth x_x0 x_x1 x_dens_z x_k' x_r0 x_b1 x_b2]; unfold ML; fold AQ;
  assert (BI : 0 <= B <= Bb) by (unfold Bb; split; [apply Rmult_le_pos; lra|apply Rmult_le_compat_r; lra]);
  assert (I := inner_x B BI); cbv zeta in I; assert (IP : 0 <= / (DR * DZ)) by (left; apply Rinv_0_lt_compat; now apply Rmult_lt_0_compat);
  assert (J := Rmult_le_compat_l _ _ _ QP (Rmult_le_compat_r _ _ _ IP I)); apply Rle_trans with (2 := J); right; unfold h2, Bb; field; repeat split; lra.
Lemma size_x0 : DT * Ss * Mx0 <= (11 * (IZR c + 1) + 7 * (IZR k + 2)) * AQ.
Proof. sx ((2 * IZR k + 4) * DZ). Qed.
Lemma size_x1 : DT * Ss * Mx1 <= (11 * (IZR c + 1) + 7 * (IZR k + 2)) * AQ.
Proof. sx ((2 * IZR k + 3) * DZ). Qed.

(** ** The balance of the leg *)
Definition leg_eps : R := bp (-43) * (IZR c + IZR k + 3) * AQ.

Definition out64 (z0 z1 x0 x1 : b64) : list (gjinc A) := [gj_z A c k z0; gj_z A (c + 1) k z1; gj_r A c k x0; gj_r A c (k + 1) x1].

Lemma near_scaled : forall x X M s j B C, good x X M s -> IZR (s_k s) / 4 <= j -> 0 <= B -> B * M <= C -> fin x /\ Rabs (B * (B2R x - X)) <= j * u * C.
Proof.
  intros x X M s j B C ((F & (K1 & K2) & S & E) & _ & _) J PB HC. split; [exact F|]. rewrite Rabs_mult, (Rabs_pos_eq B) by exact PB. assert (P := u_pos). assert (PM : 0 <= M) by (apply Rle_trans with (2 := S); apply Rabs_pos).
  apply Rle_trans with (B * (j * u * M)).
  - apply Rmult_le_compat_l; [exact PB|]. apply Rle_trans with (1 := E). apply Rmult_le_compat_r; [exact PM|apply Rmult_le_compat_r; lra].
  - replace (B * (j * u * M)) with (j * u * (B * M)) by ring. apply Rmult_le_compat_l; [apply Rmult_le_pos; lra|exact HC].
Qed.

Theorem leg_balance : exists z0 z1 x0 x1 : b64, gsimple_current A g dt q rn zn ro zo c k = out64 z0 z1 x0 x1 /\
  (fin z0 /\ fin z1 /\ fin x0 /\ fin x1) /\
  Rabs (Q * (pr0 RN * pz0 ZN) - Q * (pr0 RO * pz0 ZO) + DT * (Aa0 * B2R z0 + Ss * B2R x0)) <= leg_eps /\
  Rabs (Q * (pr1 RN * pz0 ZN) - Q * (pr1 RO * pz0 ZO) + DT * (Aa1 * B2R z1 - Ss * B2R x0)) <= leg_eps /\
  Rabs (Q * (pr0 RN * pz1 ZN) - Q * (pr0 RO * pz1 ZO) + DT * (- (Aa0 * B2R z0) + Ss * B2R x1)) <= leg_eps /\
  Rabs (Q * (pr1 RN * pz1 ZN) - Q * (pr1 RO * pz1 ZO) + DT * (- (Aa1 * B2R z1) - Ss * B2R x1)) <= leg_eps.
Proof.
  destruct env as (L & G).
  assert (GX0 := analysed _ _ _ _ (x_x0 V) (Sh 176 (-354) 752 false) G eq_refl). assert (GX1 := analysed _ _ _ _ (x_x1 V) (Sh 176 (-354) 752 false) G eq_refl).
  assert (GZ1 : exists z1 s, good z1 (Xz1 L) Mz1 s /\ (s_k s <= 320)%Z /\ z1 = if (1 <=? c)%Z then eb vals (x_z1 V (Ti (V 5) (V 0))) else eb vals (x_z1' V)).
  { unfold Xz1, Mz1. destruct (1 <=? c)%Z; eexists; eexists; (split; [apply analysed with (1 := G); vm_compute; reflexivity|]); (split; [|reflexivity]); cbn; lia. }
  assert (GZ0 : exists z0 s, good z0 (Xz0 L) Mz0 s /\ (s_k s <= 320)%Z /\ z0 = if (1 <=? c)%Z then eb (b64_of_Z c :: vals) (x_z0 (fun n => V (S n)) (Ti (V 0) (V 1))) else eb vals (x_z0' V)).
  { unfold Xz0, Mz0. destruct (Z.leb_spec 1 c) as [LC|LC].
    - assert (GC : goods (b64_of_Z c :: vals) (rv L) mv (Sh 0 0 20 true :: shapes)).
      { apply goods_cons; [|exact G]. assert (CC := l_c H). apply good_Z; [lia|]. assert (1 <= IZR c) by (apply IZR_le; exact LC). assert (B := C0). change (bp 0) with 1. lra. }
      eexists. eexists. split; [apply analysed with (1 := GC); vm_compute; reflexivity|]. split; [|reflexivity]. cbn. lia.
    - eexists. eexists. split; [apply analysed with (1 := G); vm_compute; reflexivity|]. split; [|reflexivity]. cbn. lia. }
  destruct GZ1 as (z1 & s1 & GZ1 & K1 & E1). destruct GZ0 as (z0 & s0 & GZ0 & K0' & E0).
  assert (SZ0 := size_z0). assert (SZ1 := size_z1). assert (SX0 := size_x0). assert (SX1 := size_x1).
  assert (PT := DTp). assert (PP := c_PI_pos). assert (PD := DRp). assert (PZ := DZp). assert (C := C0). assert (KP := K0). assert (C1 : IZR (c + 1) = IZR c + 1) by (now rewrite plus_IZR). assert (QP : 0 <= AQ) by apply Rabs_pos.
  assert (PA0 : 0 <= DT * Aa0). { apply Rmult_le_pos; [lra|]. unfold Aa0. destruct (1 <=? c)%Z; [repeat apply Rmult_le_pos; lra|]. unfold Rdiv. repeat apply Rmult_le_pos; lra. }
  assert (PA1 : 0 <= DT * Aa1). { apply Rmult_le_pos; [lra|]. unfold Aa1. rewrite C1. repeat apply Rmult_le_pos; lra. }
  assert (PS : 0 <= DT * Ss). { apply Rmult_le_pos; [lra|]. unfold Ss. repeat apply Rmult_le_pos; lra. }
  assert (k1 : forall s, (s_k s <= 320)%Z -> IZR (s_k s) / 4 <= 80) by (intros s KS; apply IZR_le in KS; lra).
  destruct (near_scaled _ _ _ _ 80 _ _ GZ0 (k1 _ K0') PA0 SZ0) as (F0 & D0). destruct (near_scaled _ _ _ _ 80 _ _ GZ1 (k1 _ K1) PA1 SZ1) as (F1 & D1).
  assert (k2 : IZR (s_k (Sh 176 (-354) 752 false)) / 4 <= 44) by (cbn [s_k]; lra).
  destruct (near_scaled _ _ _ _ 44 _ _ GX0 k2 PS SX0) as (F2 & D2). destruct (near_scaled _ _ _ _ 44 _ _ GX1 k2 PS SX1) as (F3 & D3).
  exists z0, z1, (eb vals (x_x0 V)), (eb vals (x_x1 V)). split.
  { unfold gsimple_current, out64. cbv zeta. change (ltb A) with (@Bltb prec64 emax64). change (absv A) with (@Babs prec64 emax64). change (sub A) with b64_sub.
    change (gMNZL A) with (b64_lit 1 1000000000000000). rewrite (l_te H), (l_ta H). rewrite E0, E1. destruct (1 <=? c)%Z; reflexivity. }
  split; [repeat split; assumption|].
  assert (UB : bp (-43) = 1024 * u) by (unfold u; change 1024 with (bp 10); rewrite <- bpow_plus; reflexivity).
  assert (PU := u_pos). assert (UQ : 0 <= u * AQ) by (apply Rmult_le_pos; lra).
  assert (EPS : 80 * u * (53 / 10 * (IZR c + 1) * AQ) + 44 * u * ((11 * (IZR c + 1) + 7 * (IZR k + 2)) * AQ) <= leg_eps).
  { unfold leg_eps. rewrite UB. replace (80 * u * (53 / 10 * (IZR c + 1) * AQ) + 44 * u * ((11 * (IZR c + 1) + 7 * (IZR k + 2)) * AQ)) with ((80 * (53 / 10 * (IZR c + 1)) + 44 * (11 * (IZR c + 1) + 7 * (IZR k + 2))) * (u * AQ)) by ring.
    replace (1024 * u * (IZR c + IZR k + 3) * AQ) with (1024 * (IZR c + IZR k + 3) * (u * AQ)) by ring. apply Rmult_le_compat_r; [exact UQ|lra]. }
  assert (two : forall x y bx by_, Rabs x <= bx -> Rabs y <= by_ -> bx + by_ <= leg_eps -> Rabs (x + y) <= leg_eps) by (intros x y bx by_ X Y B; apply Rle_trans with (1 := Rabs_triang _ _); lra).
  assert (twom : forall x y bx by_, Rabs x <= bx -> Rabs y <= by_ -> bx + by_ <= leg_eps -> Rabs (x - y) <= leg_eps) by (intros x y bx by_ X Y B; unfold Rminus; apply Rle_trans with (1 := Rabs_triang _ _); rewrite Rabs_Ropp; lra).
  fold (Xx0 L) in D2. fold (Xx1 L) in D3. set (x0 := eb vals (x_x0 V)) in *. set (x1 := eb vals (x_x1 V)) in *. clearbody x0 x1.
  split; [|split; [|split]].
  - rewrite (id00 L). replace (- (DT * (Aa0 * Xz0 L + Ss * Xx0 L)) + DT * (Aa0 * B2R z0 + Ss * B2R x0)) with (DT * Aa0 * (B2R z0 - Xz0 L) + DT * Ss * (B2R x0 - Xx0 L)) by ring. exact (two _ _ _ _ D0 D2 EPS).
  - rewrite (id10 L). replace (- (DT * (Aa1 * Xz1 L - Ss * Xx0 L)) + DT * (Aa1 * B2R z1 - Ss * B2R x0)) with (DT * Aa1 * (B2R z1 - Xz1 L) - DT * Ss * (B2R x0 - Xx0 L)) by ring. exact (twom _ _ _ _ D1 D2 EPS).
  - rewrite (id01 L). replace (- (DT * (- (Aa0 * Xz0 L) + Ss * Xx1 L)) + DT * (- (Aa0 * B2R z0) + Ss * B2R x1)) with (- (DT * Aa0 * (B2R z0 - Xz0 L) - DT * Ss * (B2R x1 - Xx1 L))) by ring. rewrite Rabs_Ropp. exact (twom _ _ _ _ D0 D3 EPS).
  - rewrite (id11 L). replace (- (DT * (- (Aa1 * Xz1 L) - Ss * Xx1 L)) + DT * (- (Aa1 * B2R z1) - Ss * B2R x1)) with (- (DT * Aa1 * (B2R z1 - Xz1 L) + DT * Ss * (B2R x1 - Xx1 L))) by ring. rewrite Rabs_Ropp. exact (two _ _ _ _ D1 D3 EPS).
Qed.
End Leg.
