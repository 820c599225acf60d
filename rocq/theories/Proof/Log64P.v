(** The two logarithms of the oblique deposition in binary64. *)
From Coq Require Import Reals ZArith List Bool Lia Lra Psatz.
From Flocq Require Import Core IEEE754.BinarySingleNaN Sterbenz.
From Verif.Lib Require Import RAux.
From Verif.Model Require Import Binary64 Temperature64 Arith.
From Verif.Spec Require Import Double Deposit64.
From Verif.Proof Require Import Binary64P FloatP Axis64P Push64P Err64P Ana64P.
Import ListNotations.
Local Open Scope R_scope.

Notation fmt := (generic_format radix2 (SpecFloat.fexp prec64 emax64)).
Local Instance fexp_valid : Valid_exp (SpecFloat.fexp prec64 emax64) := @FLT_exp_valid (-1074) 53 eq_refl.
Local Instance fexp_mono : Monotone_exp (SpecFloat.fexp prec64 emax64) := FLT_exp_monotone (-1074) 53.

(** ** Neighbouring doubles *)
Lemma gap : forall x y, fmt x -> fmt y -> 0 < x -> x < y -> u * x <= y - x.
Proof.
  intros x y FX FY P L. assert (S := succ_le_lt _ _ x y FX FY L). rewrite succ_eq_pos in S by lra.
  assert (U := ulp_FLT_gt radix2 (-1074) 53 x). change (FLT_exp (-1074) 53) with (SpecFloat.fexp prec64 emax64) in U.
  rewrite Rabs_pos_eq in U by lra. change (bp (- (53))) with u in U. lra.
Qed.
Lemma gap_any : forall x y, fmt x -> fmt y -> 0 < x -> 0 < y -> x <> y -> u * Rmin x y <= Rabs (x - y).
Proof.
  intros x y FX FY PX PY N. destruct (Rlt_dec x y) as [L|L].
  - rewrite Rmin_left by lra. rewrite Rabs_left by lra. assert (G := gap x y FX FY PX L). lra.
  - rewrite Rmin_right by lra. rewrite Rabs_pos_eq by lra. assert (G := gap y x FY FX PY ltac:(lra)). lra.
Qed.
Lemma fmt_rnd : forall w, fmt (rnd w). Proof. intro w. apply generic_format_round; [exact fexp_valid|apply valid_rnd_N]. Qed.
Lemma rnd_best : forall w x, fmt x -> Rabs (rnd w - w) <= Rabs (x - w).
Proof. intros w x F. assert (P := round_N_pt radix2 (SpecFloat.fexp prec64 emax64) (fun z => negb (Z.even z)) w). destruct P as (_ & P). now apply P. Qed.
Lemma rnd_back : forall w x, fmt x -> 0 < x -> Rabs (w - x) * 2 <= 9 / 10 * u * x -> rnd w = x.
Proof.
  intros w x F P H. destruct (Req_dec (rnd w) x) as [E|N]; [exact E|exfalso].
  assert (B := rnd_best w x F). rewrite (Rabs_minus_sym x w) in B. assert (T := Rabs_triang (rnd w - w) (w - x)). replace (rnd w - w + (w - x)) with (rnd w - x) in T by ring.
  assert (D : Rabs (rnd w - x) <= 9 / 10 * u * x) by lra. assert (PU := u_pos). assert (US : u <= / 100) by (rewrite u_val; lra).
  assert (DD := Rabs_le_inv _ _ D). assert (UX : 0 < u * x) by (now apply Rmult_lt_0_compat). assert (UX1 : u * x <= / 100 * x) by (apply Rmult_le_compat_r; lra).
  assert (G := gap_any (rnd w) x (fmt_rnd w) F ltac:(lra) P N). assert (M : x * (99 / 100) <= Rmin (rnd w) x) by (apply Rmin_glb; lra).
  assert (u * (x * (99 / 100)) <= u * Rmin (rnd w) x) by (apply Rmult_le_compat_l; lra). lra.
Qed.

(** ** The real logarithm *)
Lemma ln_le_sub : forall x, 0 < x -> ln x <= x - 1.
Proof. intros x P. assert (E := exp_ineq1_le (ln x)). rewrite exp_ln in E by exact P. lra. Qed.
Lemma ln_diff : forall a b, 0 < a -> 0 < b -> ln a - ln b <= (a - b) / b.
Proof.
  intros a b PA PB. assert (Q : 0 < a / b) by (apply Rdiv_lt_0_compat; lra). assert (L := ln_le_sub _ Q). unfold Rdiv in L. rewrite ln_mult in L by (auto; now apply Rinv_0_lt_compat).
  rewrite ln_Rinv in L by exact PB. unfold Rdiv. replace ((a - b) * / b) with (a * / b - 1) by (field; lra). lra.
Qed.
Lemma ln_lip : forall a b m, 0 < m -> m <= a -> m <= b -> Rabs (ln a - ln b) <= Rabs (a - b) / m.
Proof.
  assert (H : forall a b m, 0 < m -> m <= a -> m <= b -> ln a - ln b <= Rabs (a - b) / m).
  { intros a b m P HA HB. assert (D := ln_diff a b ltac:(lra) ltac:(lra)). apply Rle_trans with (1 := D). unfold Rdiv.
    apply Rle_trans with (Rabs (a - b) * / b); [apply Rmult_le_compat_r; [left; apply Rinv_0_lt_compat; lra|apply Rle_abs]|].
    apply Rmult_le_compat_l; [apply Rabs_pos|]. apply Rinv_le; lra. }
  intros a b m P HA HB. apply Rabs_le. assert (H1 := H a b m P HA HB). assert (H2 := H b a m P HB HA). rewrite (Rabs_minus_sym b a) in H2. lra.
Qed.

Lemma quot_within : forall l h a b, 0 < b -> l * b <= a -> a <= h * b -> l <= a / b <= h.
Proof.
  intros l h a b P L H. assert (E : a / b * b = a) by (field; lra). split; apply Rmult_le_reg_r with b; try exact P; rewrite E; assumption.
Qed.

(** ** The arguments of the two logarithms *)
Section Two.
Variables (lg : b64 -> b64) (rn ro zd : b64).
Hypothesis HL : accurate_log lg.
Hypotheses (Fn : fin rn) (Fo : fin ro) (Fz : fin zd).
Notation RN := (B2R rn). Notation RO := (B2R ro). Notation ZD := (B2R zd).
Hypothesis Ho : bp (-40) <= RO <= bp 40.
Hypothesis Hn : 3 / 7 * RO <= RN <= 7 / 3 * RO.
Hypothesis Hz : bp (-60) <= Rabs ZD <= bp 60.
Hypothesis Hd : bp (-60) <= Rabs (RN - RO).
Let e := Rabs (RN - RO).
Let d := b64_sub rn ro.
Let x1 := b64_div (b64_add (b64_mul (b64_div d zd) zd) ro) ro.
Let x2 := b64_div (b64_add ro d) ro.

Lemma RO_pos : 0 < RO. Proof. assert (P := bpow_gt_0 radix2 (-40)). lra. Qed.
Lemma e_pos : 0 < e. Proof. assert (P := bpow_gt_0 radix2 (-60)). unfold e. lra. Qed.
Lemma e_le : e <= 4 / 3 * RO /\ e <= 4 / 3 * RN.
Proof. assert (P := RO_pos). unfold e. split; apply Rabs_le; lra. Qed.
Lemma big40 : forall x, Rabs x <= 4 * bp 40 -> Rabs x <= bp 1023.
Proof. intros x H. apply Rle_trans with (1 := H). replace 4 with (bp 2) by (cbn; lra). rewrite <- bpow_plus. apply bpow_le. lia. Qed.

Lemma e_rg : rg e (-60) 41.
Proof. split; [exact Hd|]. apply Rle_trans with (1 := proj1 e_le). change 41%Z with (40 + 1)%Z. rewrite bp_succ. assert (P := RO_pos). lra. Qed.

Lemma d_good : good d (RN - RO) e (Sh 5 (-60) 41 true).
Proof.
  assert (P := RO_pos). assert (E := e_rg). assert (PE := e_pos). unfold d.
  destruct (sub_ok rn ro Fn Fo) as (F & V); [apply big40; assert (L := e_le); fold e; lra|].
  split; [|split; [exact E|]]; cbn [s_k s_lo s_hi].
  - split; [exact F|]. split; [split; [lra|rewrite u_val; lra]|]. split; [unfold e; lra|]. rewrite V. replace (5 / 4) with (0 + 5 / 4) by lra.
    apply round_near; [split; [lra|rewrite u_val; lra]| |unfold e; lra|unfold Rminus at 1; rewrite Rplus_opp_r, Rabs_R0; lra].
    apply Rle_trans with (2 := proj1 E). apply bpow_le. lia.
  - intros _. split; [|reflexivity]. intro Z. unfold e in PE. rewrite Z, Rabs_R0 in PE. lra.
Qed.

Lemma ro_good : good ro RO RO (Sh 0 (-40) 40 true).
Proof.
  assert (P := RO_pos). split; [|split; [exact Ho|]]; cbn [s_k].
  - replace (0 / 4) with 0 by lra. apply near_exact; [exact Fo|rewrite Rabs_pos_eq; lra].
  - intros _. rewrite Rabs_pos_eq by lra. split; [lra|reflexivity].
Qed.
Lemma zd_good : good zd ZD (Rabs ZD) (Sh 0 (-60) 60 true).
Proof.
  split; [|split; [exact Hz|]]; cbn [s_k].
  - replace (0 / 4) with 0 by lra. apply near_exact; [exact Fz|lra].
  - intros _. split; [|reflexivity]. intro Z. rewrite Z, Rabs_R0 in Hz. assert (P := bpow_gt_0 radix2 (-60)). lra.
Qed.

(** sum that gives r_new again, up to rounding *)
Lemma sum_back : forall s k, fin s -> 0 <= k <= 5 -> Rabs (B2R s - (RN - RO)) <= k * u * e ->
  Rabs (B2R s + RO) <= bp 1023 /\ Rabs (rnd (B2R s + RO) - RN) <= (k * (4 / 3) + 101 / 100) * u * RN.
Proof.
  intros s k F HK H. assert (P := RO_pos). destruct e_le as (E1 & E2). assert (PE := e_pos). assert (PU := u_pos). assert (US : u <= / 1000) by (rewrite u_val; lra).
  assert (UE : 0 <= u * e) by (apply Rmult_le_pos; lra). assert (URN : 0 <= u * RN) by (apply Rmult_le_pos; lra).
  assert (KE : k * u * e <= k * (4 / 3) * u * RN).
  { replace (k * (4 / 3) * u * RN) with (k * u * (4 / 3 * RN)) by ring. apply Rmult_le_compat_l; [apply Rmult_le_pos; lra|exact E2]. }
  assert (KB : k * (4 / 3) * u * RN <= / 100 * RN). { apply Rmult_le_compat_r; [lra|]. assert (k * u <= 5 * / 1000) by (apply Rmult_le_compat; lra). lra. }
  set (w := B2R s + RO). assert (W : Rabs (w - RN) <= k * u * e). { unfold w. replace (B2R s + RO - RN) with (B2R s - (RN - RO)) by ring. exact H. }
  assert (W' := Rabs_le_inv _ _ W). assert (WP : 0 < w) by lra. assert (WU : w <= 101 / 100 * RN) by lra.
  split; [apply big40; rewrite Rabs_pos_eq by lra; lra|].
  assert (WL : bp (-1022) <= w). { assert (bp (-1022) <= bp (-50)) by (apply bpow_le; lia). assert (bp (-50) * 4 <= bp (-40)) by (replace 4 with (bp 2) by (cbn; lra); rewrite <- bpow_plus; apply bpow_le; lia). lra. }
  assert (RR := rnd_rel w WL). assert (T := Rabs_triang (rnd w - w) (w - RN)). replace (rnd w - w + (w - RN)) with (rnd w - RN) in T by ring.
  assert (u * w <= u * (101 / 100 * RN)) by (apply Rmult_le_compat_l; lra). lra.
Qed.

(** the quotient by r_old *)
Lemma quot_near : forall s k, fin s -> 0 <= k <= 8 -> Rabs (B2R s - RN) <= k * u * RN ->
  fin (b64_div s ro) /\ Rabs (B2R (b64_div s ro) - RN / RO) <= (k + 101 / 100) * u * (RN / RO).
Proof.
  intros s k F HK H. assert (P := RO_pos). assert (PU := u_pos). assert (US : u <= / 1000) by (rewrite u_val; lra). assert (PI := Rinv_0_lt_compat _ P).
  set (X := RN / RO). assert (XB : 3 / 7 <= X <= 7 / 3). { unfold X. apply quot_within; lra. }
  assert (UX : 0 <= u * X) by (apply Rmult_le_pos; lra).
  assert (W : Rabs (B2R s / RO - X) <= k * u * X).
  { unfold X, Rdiv. replace (B2R s * / RO - RN * / RO) with ((B2R s - RN) * / RO) by ring. rewrite Rabs_mult, (Rabs_pos_eq (/ RO)) by lra. rewrite <- Rmult_assoc. apply Rmult_le_compat_r; lra. }
  assert (KB : k * u * X <= / 100 * X). { apply Rmult_le_compat_r; [lra|]. assert (k * u <= 8 * / 1000) by (apply Rmult_le_compat; lra). lra. }
  set (w := B2R s / RO) in *. assert (W' := Rabs_le_inv _ _ W).
  destruct (div_ok s ro F ltac:(lra)) as (FQ & EQ). { fold w. apply Rle_trans with (bp 10); [|apply bpow_le; lia]. cbn. rewrite Rabs_pos_eq; lra. }
  fold w in EQ. split; [exact FQ|]. rewrite EQ.
  assert (WL : bp (-1022) <= w). { apply Rle_trans with (bp (-2)); [apply bpow_le; lia|cbn; lra]. }
  assert (RR := rnd_rel w WL). assert (T := Rabs_triang (rnd w - w) (w - X)). replace (rnd w - w + (w - X)) with (rnd w - X) in T by ring.
  assert (u * w <= u * (101 / 100 * X)) by (apply Rmult_le_compat_l; lra). lra.
Qed.

Lemma prod_near : exists p, b64_mul (b64_div d zd) zd = p /\ fin p /\ Rabs (B2R p - (RN - RO)) <= 9 / 2 * u * e.
Proof.
  assert (G : goods [d; zd] [RN - RO; ZD] [e; Rabs ZD] [Sh 5 (-60) 41 true; Sh 0 (-60) 60 true]) by (apply goods_cons; [exact d_good|apply goods_cons; [exact zd_good|apply goods_nil]]).
  assert (H := analysed _ _ _ _ (Ti (Di (V 0) (V 1)) (V 1)) _ G eq_refl). destruct H as ((F & _ & _ & E) & _ & _). cbn [eb er em nth s_k] in *.
  eexists. split; [reflexivity|]. split; [exact F|]. assert (PZ : ZD <> 0). { intro Z. rewrite Z, Rabs_R0 in Hz. assert (P := bpow_gt_0 radix2 (-60)). lra. }
  replace ((RN - RO) / ZD * ZD) with (RN - RO) in E by (field; exact PZ). replace (e / Rabs ZD * Rabs ZD) with e in E by (field; now apply Rabs_no_R0).
  apply Rle_trans with (1 := E). assert (0 <= u * e) by (apply Rmult_le_pos; [left; apply u_pos|left; apply e_pos]). cbn. lra.
Qed.

(** ** When the move is small against the radius, the two arguments are the same double *)
Lemma small_same : e <= RO / 8 -> x1 = x2 /\ fin x2 /\ B2R x2 = rnd (RN / RO).
Proof.
  intro S. assert (P := RO_pos). assert (PE := e_pos). assert (PU := u_pos).
  assert (SB := Rabs_le_inv _ _ S). fold e in SB. assert (UE : 0 <= u * e) by (apply Rmult_le_pos; lra). assert (U8 : u * e <= u * (RO / 8)) by (apply Rmult_le_compat_l; lra).
  assert (FmN : fmt RN) by apply generic_format_B2R. assert (FmO : fmt RO) by apply generic_format_B2R.
  assert (DX : B2R d = RN - RO).
  { destruct (sub_ok rn ro Fn Fo) as (_ & V); [apply big40; assert (L := e_le); fold e; lra|]. fold d in V. rewrite V. unfold rnd. apply round_generic; [apply valid_rnd_N|].
    apply sterbenz; [exact fexp_valid|exact fexp_mono|exact FmN|exact FmO|lra]. }
  assert (FD : fin d) by apply d_good.
  assert (S2 : fin (b64_add ro d) /\ B2R (b64_add ro d) = RN).
  { destruct (add_ok ro d Fo FD) as (F & V); [rewrite DX; replace (RO + (RN - RO)) with RN by ring; apply big40; rewrite Rabs_pos_eq; lra|]. split; [exact F|]. rewrite V, DX. replace (RO + (RN - RO)) with RN by ring. apply rnd_B2R. }
  destruct prod_near as (p & EP & FP & BP).
  assert (BP2 : Rabs (B2R p - (RN - RO)) <= 21 / 10 * u * e).
  { assert (G : goods [d; zd] [B2R d; ZD] [Rabs (B2R d); Rabs ZD] [Sh 0 (-60) 41 true; Sh 0 (-60) 60 true]).
    { apply goods_cons; [|apply goods_cons; [exact zd_good|apply goods_nil]]. rewrite DX. fold e. split; [|split; [exact e_rg|]]; cbn [s_k].
      - replace (0 / 4) with 0 by lra. rewrite <- DX. apply near_exact; [exact FD|]. rewrite DX. unfold e. lra.
      - intros _. split; [|reflexivity]. intro Z. unfold e in PE. rewrite Z, Rabs_R0 in PE. lra. }
    assert (PZ : ZD <> 0). { intro Z. rewrite Z, Rabs_R0 in Hz. assert (P0 := bpow_gt_0 radix2 (-60)). lra. } assert (AZ : 0 < Rabs ZD) by (now apply Rabs_pos_lt).
    assert (US : u <= / 1000) by (rewrite u_val; lra).
    set (q := B2R d / ZD). assert (QE : Rabs q = e / Rabs ZD) by (unfold q, Rdiv; rewrite Rabs_mult, Rabs_inv, DX; reflexivity).
    assert (RQ : rg (e / Rabs ZD) (-120) 101) by (apply (rg_div _ _ _ _ _ _ e_rg Hz)).
    assert (QL : bp (-1022) <= Rabs q) by (rewrite QE; apply Rle_trans with (2 := proj1 RQ); apply bpow_le; lia).
    assert (QU : Rabs q <= bp 101) by (rewrite QE; apply RQ).
    destruct (div_ok d zd FD PZ) as (FQ & EQ); [fold q; apply Rle_trans with (1 := QU); apply bpow_le; lia|]. fold q in EQ.
    assert (rel : forall w, bp (-1022) <= Rabs w -> Rabs (rnd w - w) <= u * Rabs w).
    { intros w HW. destruct (Rle_dec 0 w) as [W0|W0]; [rewrite (Rabs_pos_eq w) in * by lra; now apply rnd_rel|]. rewrite (Rabs_left w) in * by lra.
      assert (N := rnd_rel (- w) HW). rewrite rnd_opp in N. replace (- rnd w - - w) with (- (rnd w - w)) in N by ring. now rewrite Rabs_Ropp in N. }
    assert (R1 := rel q QL). set (q' := rnd q) in *.
    assert (D1 : Rabs (q' * ZD - (RN - RO)) <= u * e).
    { replace (q' * ZD - (RN - RO)) with ((q' - q) * ZD) by (unfold q; rewrite DX; field; exact PZ). rewrite Rabs_mult. apply Rle_trans with (u * Rabs q * Rabs ZD); [apply Rmult_le_compat_r; [apply Rabs_pos|exact R1]|].
      rewrite QE. right. field. lra. }
    assert (D1' := D1). assert (TT := Rabs_triang_inv (q' * ZD) (RN - RO)). fold e in TT. assert (UE1 : u * e <= / 1000 * e) by (apply Rmult_le_compat_r; lra).
    assert (TL := Rabs_triang_inv (RN - RO) (q' * ZD)). rewrite (Rabs_minus_sym (RN - RO)) in TL. fold e in TL.
    destruct (mul_ok (b64_div d zd) zd FQ Fz) as (FM & EM). { rewrite EQ. fold q'. apply Rle_trans with (bp 42); [|apply bpow_le; lia]. change 42%Z with (41 + 1)%Z. rewrite bp_succ. assert (E41 := proj2 e_rg). lra. }
    assert (R2 := rel (q' * ZD)). assert (QZ : bp (-1022) <= Rabs (q' * ZD)).
    { apply Rle_trans with (bp (-61)); [apply bpow_le; lia|]. assert (E60 := proj1 e_rg). change (-60)%Z with (-61 + 1)%Z in E60. rewrite bp_succ in E60. lra. }
    specialize (R2 QZ). rewrite <- EP, EM, EQ. fold q'. assert (T3 := Rabs_triang (rnd (q' * ZD) - q' * ZD) (q' * ZD - (RN - RO))).
    replace (rnd (q' * ZD) - q' * ZD + (q' * ZD - (RN - RO))) with (rnd (q' * ZD) - (RN - RO)) in T3 by ring.
    assert (u * Rabs (q' * ZD) <= u * (1001 / 1000 * e)) by (apply Rmult_le_compat_l; lra). lra. }
  assert (S1 : fin (b64_add p ro) /\ B2R (b64_add p ro) = RN).
  { destruct (sum_back p (21 / 10) FP ltac:(lra) BP2) as (HB & _). destruct (add_ok p ro FP Fo HB) as (F & V). split; [exact F|]. rewrite V.
    apply rnd_back; [exact FmN|lra|]. replace (B2R p + RO - RN) with (B2R p - (RN - RO)) by ring.
    assert (u * RO <= u * (8 / 7 * RN)) by (apply Rmult_le_compat_l; lra). lra. }
  assert (SE : b64_add p ro = b64_add ro d).
  { destruct S1 as (F1 & V1), S2 as (F2 & V2). apply B2R_inj; [| |congruence].
    - apply is_finite_strict_B2R. rewrite V1. lra.
    - apply is_finite_strict_B2R. rewrite V2. lra. }
  assert (NR : RO <> 0) by lra. assert (PI := Rinv_0_lt_compat _ P).
  assert (XB : 3 / 7 <= RN / RO <= 7 / 3). { apply quot_within; lra. }
  destruct (div_ok (b64_add ro d) ro (proj1 S2) NR) as (FQ & EQ). { rewrite (proj2 S2). apply Rle_trans with (bp 10); [|apply bpow_le; lia]. cbn. rewrite Rabs_pos_eq; lra. }
  split; [unfold x1, x2; rewrite EP, SE; reflexivity|]. split; [exact FQ|]. unfold x2. rewrite EQ, (proj2 S2). reflexivity.
Qed.

Lemma small_log : e <= RO / 8 -> Rabs (ln (B2R x2)) <= 5 / 2 * (e / RO) /\ / 16 <= B2R x2 <= 16.
Proof.
  intro S. destruct (small_same S) as (_ & F & V). assert (P := RO_pos). assert (PE := e_pos). assert (PU := u_pos). assert (US : u <= / 1000) by (rewrite u_val; lra).
  assert (PI := Rinv_0_lt_compat _ P). assert (FmN : fmt RN) by apply generic_format_B2R. assert (FmO : fmt RO) by apply generic_format_B2R.
  set (X := RN / RO) in *. set (t := e / RO).
  assert (T8 : t <= / 8) by (unfold t; apply (quot_within 0); lra).
  assert (TX : Rabs (X - 1) = t). { unfold X, t, e, Rdiv. replace (RN * / RO - 1) with ((RN - RO) * / RO) by (field; lra). rewrite Rabs_mult, (Rabs_pos_eq (/ RO)); lra. }
  assert (XB : 7 / 8 <= X <= 9 / 8). { assert (A : Rabs (X - 1) <= / 8) by lra. apply Rabs_le_inv in A. lra. }
  assert (NE : RN <> RO). { intro Z. unfold e in PE. rewrite Z, Rminus_diag_eq, Rabs_R0 in PE by reflexivity. lra. }
  assert (G := gap_any RN RO FmN FmO ltac:(lra) P NE). fold e in G.
  assert (UT : u * Rmin X 1 <= t).
  { apply Rmult_le_reg_r with RO; [exact P|]. replace (t * RO) with e by (unfold t; field; lra). apply Rle_trans with (2 := G). rewrite Rmult_assoc. apply Rmult_le_compat_l; [lra|].
    apply Rmin_glb; [apply Rle_trans with (X * RO); [apply Rmult_le_compat_r; [lra|apply Rmin_l]|unfold X, Rdiv; rewrite Rmult_assoc, Rinv_l; lra]|].
    apply Rle_trans with (1 * RO); [apply Rmult_le_compat_r; [lra|apply Rmin_r]|lra]. }
  assert (RR : Rabs (rnd X - X) <= u * X). { apply rnd_rel. apply Rle_trans with (bp (-1)); [apply bpow_le; lia|cbn; lra]. }
  set (y := rnd X) in *. assert (TR := Rabs_triang (y - X) (X - 1)). replace (y - X + (X - 1)) with (y - 1) in TR by ring. rewrite TX in TR.
  assert (UX : u * X <= / 1000 * (9 / 8)) by (apply Rmult_le_compat; lra). assert (YX := Rabs_le_inv _ _ RR). rewrite V. split; [|lra].
  destruct (Rle_dec 1 X) as [X1|X1].
  - rewrite Rmin_right in UT by lra. assert (Y1 : 1 <= y). { replace 1 with (rnd 1) by (apply (rnd_exact_Z 1); reflexivity). apply rnd_mono. exact X1. }
    assert (L0 : 0 <= ln y). { rewrite <- ln_1. destruct (Req_dec y 1) as [->|N]; [lra|]. left. apply ln_increasing; lra. }
    rewrite Rabs_pos_eq by exact L0. apply Rle_trans with (1 := ln_le_sub y ltac:(lra)). rewrite Rabs_pos_eq in TR by lra. assert (u * X <= u * (9 / 8)) by (apply Rmult_le_compat_l; lra). lra.
  - rewrite Rmin_left in UT by lra. assert (Y1 : y <= 1). { replace 1 with (rnd 1) by (apply (rnd_exact_Z 1); reflexivity). apply rnd_mono. lra. }
    assert (L := ln_lip y 1 (86 / 100) ltac:(lra) ltac:(lra) ltac:(lra)). rewrite ln_1, Rminus_0_r in L. apply Rle_trans with (1 := L). unfold Rdiv. apply Rle_trans with (2 * t * / (86 * / 100)); [apply Rmult_le_compat_r; lra|lra].
Qed.

Lemma logs : exists L, Rabs L <= 3 * (e / RO) /\
  near (lg x2) L (3 * (e / RO)) 0 /\ near (lg x1) L (3 * (e / RO)) 48.
Proof.
  assert (P := RO_pos). assert (PE := e_pos). assert (PU := u_pos). assert (PI := Rinv_0_lt_compat _ P). assert (UV := u_val).
  assert (T0 : 0 < e / RO) by (apply Rdiv_lt_0_compat; lra).
  destruct (Rle_dec e (RO / 8)) as [S|S].
  - destruct (small_same S) as (SE & F & _). destruct (small_log S) as (LB & XB). rewrite SE. destruct (HL x2 F XB) as (FL & EL).
    exists (B2R (lg x2)). set (y := B2R (lg x2)) in *. change (bpow radix2 (-52)) with (bp (-52)) in EL. replace (bp (-52)) with (2 * u) in EL by (rewrite u_val; cbn; lra).
    assert (TR := Rabs_triang_inv y (ln (B2R x2))). assert (2 * u * Rabs (ln (B2R x2)) <= / 1000 * Rabs (ln (B2R x2))) by (apply Rmult_le_compat_r; [apply Rabs_pos|lra]).
    assert (B : Rabs y <= 3 * (e / RO)) by lra. split; [exact B|]. split; [now apply near_exact|]. apply near_weaken with (3 * (e / RO)) 0; [now apply near_exact|lra|lra|lra].
  - destruct e_le as (E1 & E2).
    set (X := RN / RO). assert (XB : 3 / 7 <= X <= 7 / 3). { unfold X. apply quot_within; lra. }
    set (t := e / RO) in *. assert (TX : Rabs (X - 1) = t). { unfold X, t, e, Rdiv. replace (RN * / RO - 1) with ((RN - RO) * / RO) by (field; lra). rewrite Rabs_mult, (Rabs_pos_eq (/ RO)); lra. }
    assert (T8 : / 8 <= t) by (unfold t; apply (quot_within _ 2); lra).
    assert (LX : Rabs (ln X) <= 7 / 3 * t).
    { assert (L := ln_lip X 1 (3 / 7) ltac:(lra) ltac:(lra) ltac:(lra)). rewrite ln_1, Rminus_0_r, TX in L. lra. }
    assert (LX2 : Rabs (ln X) <= 4 / 3).
    { destruct (Rle_dec 1 X) as [X1|X1]; [|assert (L := ln_lip X 1 (3 / 7) ltac:(lra) ltac:(lra) ltac:(lra)); rewrite ln_1, Rminus_0_r in L; rewrite (Rabs_left (X - 1)) in L by lra; lra].
      assert (0 <= ln X) by (rewrite <- ln_1; destruct (Req_dec X 1) as [->|N]; [lra|left; apply ln_increasing; lra]). rewrite Rabs_pos_eq by assumption. assert (L := ln_le_sub X ltac:(lra)). lra. }
    destruct d_good as ((FD & _ & _ & ED) & _ & _). cbn [s_k] in ED. replace (IZR 5 / 4) with (5 / 4) in ED by (cbn; lra). destruct prod_near as (p & EP & FP & BP).
    destruct (sum_back d (5 / 4) FD ltac:(lra) ED) as (B2 & S2). destruct (add_ok ro d Fo FD) as (FA2 & VA2); [rewrite Rplus_comm; exact B2|]. rewrite (Rplus_comm RO) in VA2.
    destruct (sum_back p (9 / 2) FP ltac:(lra) BP) as (B1 & S1). destruct (add_ok p ro FP Fo B1) as (FA1 & VA1).
    rewrite <- VA2 in S2. rewrite <- VA1 in S1.
    assert (PX : 0 <= u * RN) by (apply Rmult_le_pos; lra).
    destruct (quot_near (b64_add ro d) (27 / 10) FA2 ltac:(lra)) as (F2 & Q2); [lra|]. destruct (quot_near (b64_add p ro) (702 / 100) FA1 ltac:(lra)) as (F1 & Q1); [lra|].
    unfold x1, x2. rewrite EP. fold X in Q1, Q2. set (y1 := b64_div (b64_add p ro) ro) in *. set (y2 := b64_div (b64_add ro d) ro) in *.
    assert (UX : 0 <= u * X) by (apply Rmult_le_pos; lra). assert (UX2 : u * X <= u * (7 / 3)) by (apply Rmult_le_compat_l; lra).
    assert (Z1 := Rabs_le_inv _ _ Q1). assert (Z2 := Rabs_le_inv _ _ Q2).
    assert (lnq : forall (y : b64) k, 0 <= k <= 10 -> Rabs (B2R y - X) <= k * u * X -> Rabs (ln (B2R y) - ln X) <= k * (101 / 100) * u).
    { intros y k HK HY. assert (k * u * X <= 10 * (u * X)) by (rewrite Rmult_assoc; apply Rmult_le_compat_r; lra). assert (HY' := Rabs_le_inv _ _ HY). assert (u * X <= / 100000 * X) by (apply Rmult_le_compat_r; lra).
      assert (L := ln_lip (B2R y) X (X * (100 / 101)) ltac:(lra) ltac:(lra) ltac:(lra)). apply Rle_trans with (1 := L). unfold Rdiv.
      apply Rle_trans with (k * u * X * / (X * (100 * / 101))); [apply Rmult_le_compat_r; [left; apply Rinv_0_lt_compat; lra|exact HY]|]. right. field. lra. }
    assert (L1 := lnq y1 (702 / 100 + 101 / 100) ltac:(lra) Q1). assert (L2 := lnq y2 (27 / 10 + 101 / 100) ltac:(lra) Q2).
    destruct (HL y1 F1 ltac:(lra)) as (FL1 & EL1). destruct (HL y2 F2 ltac:(lra)) as (FL2 & EL2).
    replace (bpow radix2 (-52)) with (2 * u) in EL1, EL2 by (rewrite u_val; cbn; lra).
    set (g1 := B2R (lg y1)) in *. set (g2 := B2R (lg y2)) in *. set (l1 := ln (B2R y1)) in *. set (l2 := ln (B2R y2)) in *. set (l0 := ln X) in *.
    assert (A1 := Rabs_triang_inv l1 l0). assert (A2 := Rabs_triang_inv l2 l0).
    assert (M1 : 2 * u * Rabs l1 <= 2 * u * (14 / 10)) by (apply Rmult_le_compat_l; lra). assert (M2 : 2 * u * Rabs l2 <= 2 * u * (14 / 10)) by (apply Rmult_le_compat_l; lra).
    assert (A3 := Rabs_triang_inv g2 l2).
    exists g2. assert (B : Rabs g2 <= 3 * t) by lra. split; [exact B|]. split; [now apply near_exact|].
    split; [exact FL1|]. split; [lra|]. split; [exact B|]. fold g1.
    replace (g1 - g2) with ((g1 - l1) + (l1 - l0) + (l0 - l2) + (l2 - g2)) by ring.
    assert (TT : Rabs (g1 - l1 + (l1 - l0) + (l0 - l2) + (l2 - g2)) <= Rabs (g1 - l1) + Rabs (l1 - l0) + Rabs (l0 - l2) + Rabs (l2 - g2)).
    { eapply Rle_trans; [apply Rabs_triang|]. apply Rplus_le_compat_r. eapply Rle_trans; [apply Rabs_triang|]. apply Rplus_le_compat_r. apply Rabs_triang. }
    rewrite (Rabs_minus_sym l0), (Rabs_minus_sym l2 g2) in TT. assert (48 * u * (3 * / 8) <= 48 * u * (3 * t)) by (apply Rmult_le_compat_l; lra). lra.
Qed.
End Two.
