(** One push of a particle in binary64: what happens to its momentum. *)
From Coq Require Import Reals ZArith List Bool Lia Lra Psatz.
From Flocq Require Import Core IEEE754.BinarySingleNaN.
From Verif.Lib Require Import RAux Outcome.
From Verif.Model Require Import Binary64 Temperature64 Arith GenCode.
From Verif.Spec Require Import Double Momentum.
From Verif.Proof Require Import Binary64P FloatP Axis64P Push64P Err64P MomentumR.
Local Open Scope R_scope.

Definition phi : R := bp (-100).
Lemma phi_rg : rg phi (-100) (-100). Proof. split; apply Rle_refl. Qed.
Lemma phi_val : 0 < phi <= / 1000000000000000000000000000000.
Proof. split; [apply bpow_gt_0|]. unfold phi. rewrite bp_m100. lra. Qed.

Lemma rg_one : rg 1 0 0. Proof. split; cbn; lra. Qed.
Lemma rg_two : rg 2 1 1. Proof. split; cbn; lra. Qed.
Lemma rg_cc : rg cc 56 57. Proof. unfold cc. split; cbn; lra. Qed.
Ltac rgt := match goal with
  | H : rg ?M _ _ |- rg ?M _ _ => exact H
  | |- rg phi _ _ => exact phi_rg
  | |- rg 1 _ _ => exact rg_one
  | |- rg 2 _ _ => exact rg_two
  | |- rg cc _ _ => exact rg_cc
  | |- rg (_ + _) _ _ => eapply rg_add; [rgt|rgt]
  | |- rg (_ * _) _ _ => eapply rg_mul; [rgt|rgt]
  | |- rg (_ / _) _ _ => eapply rg_div; [rgt|rgt]
  end.
Ltac rgs := eapply rg_weaken; [rgt|lia|lia].
Ltac ku := rewrite ?u_val; lra.

Ltac give H tac := match type of H with ?P -> _ => let X := fresh "X" in assert (X : P) by tac; specialize (H X); clear X end.

Lemma near_shrink : forall x X M k M' k', near x X M k -> M <= (1 + / 1000) * M' -> Rabs X <= M' -> k * (1 + / 1000) <= k' -> k' * u <= / 1024 -> near x X M' k'.
Proof.
  intros x X M k M' k' (F & (K0 & K1) & S & E) HM HX HK HC. assert (P := u_pos). assert (0 <= M') by (apply Rle_trans with (2 := HX); apply Rabs_pos).
  split; [exact F|]. split; [split; [lra|exact HC]|]. split; [exact HX|]. apply Rle_trans with (1 := E).
  apply Rle_trans with (k * u * ((1 + / 1000) * M')); [apply Rmult_le_compat_l; [apply Rmult_le_pos; lra|exact HM]|].
  replace (k * u * ((1 + / 1000) * M')) with (k * (1 + / 1000) * u * M') by ring. apply Rmult_le_compat_r; [assumption|apply Rmult_le_compat_r; lra].
Qed.
Lemma near_Z : forall n, (Z.abs n < 2 ^ 53)%Z -> near (b64_of_Z n) (IZR n) (Rabs (IZR n)) 0.
Proof. intros n H. destruct (of_Z_exact n H) as (F & E). rewrite <- E. apply near_exact; [exact F|lra]. Qed.
Lemma near_0 : near (b64_of_Z 0) 0 phi 0.
Proof. destruct (of_Z_exact 0 eq_refl) as (F & E). rewrite <- E at 2. apply near_exact; [exact F|]. rewrite E, Rabs_R0. apply Rlt_le, phi_val. Qed.
Lemma near_1 : near (b64_of_Z 1) 1 1 0.
Proof. assert (H := near_Z 1 eq_refl). rewrite Rabs_pos_eq in H by lra. exact H. Qed.
Lemma near_2 : near (b64_of_Z 2) 2 2 0.
Proof. assert (H := near_Z 2 eq_refl). rewrite Rabs_pos_eq in H by lra. exact H. Qed.
Lemma C2_exact : fin C2 /\ B2R C2 = cc.
Proof.
  destruct C2_val as (F & E). split; [exact F|]. rewrite E. unfold cc. replace (300000000 * 300000000) with 90000000000000000 by lra.
  replace 90000000000000000 with (IZR 5625000000000000 * bp 4) by (cbn; lra). now apply rnd_exact.
Qed.
Lemma near_C2 : near C2 cc cc 0.
Proof. destruct C2_exact as (F & E). rewrite <- E at 1. apply near_exact; [exact F|]. rewrite E. assert (P := cc_pos). rewrite Rabs_pos_eq; lra. Qed.

Lemma near_sq : forall x, mg x 400 -> near (b64_mul x x) (B2R x * B2R x) (B2R x * B2R x + phi) (5 / 4).
Proof.
  intros x (F & B). assert (P := phi_val). assert (Q := Rle_0_sqr (B2R x)). unfold Rsqr in Q.
  destruct (mul_ok x x F F) as (FM & EM).
  { rewrite Rabs_mult. apply Rle_trans with (bp 400 * bp 400); [apply Rmult_le_compat; auto using Rabs_pos|rewrite <- bpow_plus; apply bpow_le; lia]. }
  split; [exact FM|]. split; [split; [lra|ku]|]. split; [rewrite Rabs_pos_eq; lra|]. rewrite EM. replace (5 / 4) with (0 + 5 / 4) by lra. apply round_near.
  - split; [lra|ku].
  - apply Rle_trans with phi; [apply bpow_le; lia|lra].
  - rewrite Rabs_pos_eq; lra.
  - unfold Rminus. rewrite Rplus_opp_r, Rabs_R0. lra.
Qed.

Section Boost.
Variables pw lg : b64 -> b64.
Notation A := (b64_arith pw lg).
Notation x0 v := (@B2R prec64 emax64 (g0 A v)).
Notation x1 v := (@B2R prec64 emax64 (g1 A v)).
Notation x2 v := (@B2R prec64 emax64 (g2 A v)).
Definition sq (v : gvec A) : R := x0 v * x0 v + x1 v * x1 v + x2 v * x2 v.
Lemma sq_pos : forall v, 0 <= sq v. Proof. intro v. apply sq_pos3. Qed.
Lemma sq_size : forall v, sq v = size3 pw lg v * size3 pw lg v.
Proof. intro v. unfold size3. now rewrite length_sq. Qed.
Lemma size_pos : forall v, 0 <= size3 pw lg v. Proof. intro v. apply length_pos. Qed.

Lemma mgv_weaken : forall v e e', mgv pw lg v e -> (e <= e')%Z -> mgv pw lg v e'.
Proof. intros v e e' (X & Y & Z) L. split; [|split]; eapply mg_weaken; eauto. Qed.

Lemma rg_sq : forall v e, mgv pw lg v e -> (0 <= e)%Z -> rg (sq v + 4 * phi) (-98) (2 * e + 3).
Proof.
  intros v e ((_ & X) & (_ & Y) & (_ & Z)) E. assert (P := phi_val). assert (Q := sq_pos v).
  assert (S : forall t, Rabs t <= bp e -> t * t <= bp (2 * e)).
  { intros t T. replace (t * t) with (Rabs t * Rabs t) by (unfold Rabs; destruct (Rcase_abs t); ring). replace (2 * e)%Z with (e + e)%Z by lia. rewrite bpow_plus. apply Rmult_le_compat; auto using Rabs_pos. }
  apply S in X, Y, Z. split; [replace (bp (-98)) with (4 * phi) by (unfold phi; change 4 with (bp 2); rewrite <- bpow_plus; reflexivity); lra|].
  rewrite bpow_plus. change (bp 3) with 8. assert (1 <= bp (2 * e)) by (apply (bpow_le radix2 0); lia). unfold sq. lra.
Qed.

Lemma sum_near : forall v, mgv pw lg v 400 -> near (gtv_squared_sum A v) (sq v) (sq v + 4 * phi) 5.
Proof.
  intros v H. assert (RR := rg_sq v 400 H ltac:(lia)). destruct H as (HX & HY & HZ). assert (P := phi_val).
  assert (NX := near_sq _ HX). assert (NY := near_sq _ HY). assert (NZ := near_sq _ HZ).
  assert (QX := Rle_0_sqr (x0 v)). assert (QY := Rle_0_sqr (x1 v)). assert (QZ := Rle_0_sqr (x2 v)). unfold Rsqr in *. unfold sq in RR.
  assert (RG : forall M, phi <= M <= sq v + 4 * phi -> rg M (-900) 1000).
  { intros M (L & U). split; [apply Rle_trans with phi; [apply bpow_le; lia|exact L]|]. apply Rle_trans with (1 := U). apply Rle_trans with (1 := proj2 RR). apply bpow_le. lia. }
  unfold sq in RG. cbn [num b64_arith] in *.
  assert (S1 := near_add _ _ _ _ _ _ _ _ (5 / 4) near_0 NX ltac:(lra) ltac:(lra) ltac:(ku)). give S1 ltac:(apply RG; lra).
  assert (S2 := near_add _ _ _ _ _ _ _ _ (10 / 4) S1 NY ltac:(lra) ltac:(lra) ltac:(ku)). give S2 ltac:(apply RG; lra).
  assert (S3 := near_add _ _ _ _ _ _ _ _ (15 / 4) S2 NZ ltac:(lra) ltac:(lra) ltac:(ku)). give S3 ltac:(apply RG; lra).
  unfold gtv_squared_sum, gtv_dot. change (add A) with b64_add. change (mul A) with b64_mul. change (of_int A 0) with (b64_of_Z 0).
  apply (near_weaken _ _ _ _ (sq v + 4 * phi) 5) in S3; [|unfold sq; lra|lra|ku].
  refine (near_eq _ _ _ _ _ _ S3 _ eq_refl). unfold sq. ring.
Qed.

(** ** The Lorentz factor of a velocity *)
Lemma gamma_near : forall v g, mgv pw lg v 31 -> 1 <= g -> g * g * u * 32 <= / 1024 -> 1 <= g * g * (1 - sq v / cc) ->
  exists y, gget_gamma A (gtv_squared_sum A v) = Ok y /\ near y (/ sqrt (1 - sq v / cc)) (/ sqrt (1 - sq v / cc)) (20 * (g * g)).
Proof.
  intros v g HV G HC HD. assert (V := sum_near v (mgv_weaken v 31 400 HV ltac:(lia))). assert (Q := sq_pos v). assert (C := cc_pos). assert (P := phi_val). assert (PU := u_pos).
  assert (RS := rg_sq v 31 HV ltac:(lia)). set (D := 1 - sq v / cc) in *. assert (G1 : 1 <= g * g) by nra.
  assert (DP : 0 < D) by nra. assert (SC : sq v / cc < 1) by (unfold D in DP; lra).
  assert (SCC : sq v <= cc). { apply Rmult_le_reg_r with (/ cc); [now apply Rinv_0_lt_compat|]. rewrite Rinv_r by lra. unfold Rdiv in SC. lra. }
  assert (B1 := near_div _ _ _ _ _ _ _ (501 / 100) V near_C2 C ltac:(lra) ltac:(ku)). give B1 ltac:(rgs).
  assert (QC : 0 <= sq v / cc) by (apply Rmult_le_pos; [exact Q|left; now apply Rinv_0_lt_compat]).
  assert (M1 : (sq v + 4 * phi) / cc <= 101 / 100).
  { apply Rmult_le_reg_r with cc; [exact C|]. unfold Rdiv. rewrite Rmult_assoc, Rinv_l by lra. assert (1 <= cc) by (unfold cc; lra). lra. }
  apply (near_weaken _ _ _ _ (101 / 100) (13 / 2)) in B1; [|exact M1|lra|ku]. cbn [num b64_arith] in B1. set (beta := b64_div (gtv_squared_sum A v) C2) in *.
  assert (R2 : rg (1 + 101 / 100) (-900) 1000) by (apply (rg_weaken _ 1 2); [split; cbn; lra|lia|lia]).
  assert (D1 := near_sub _ _ _ _ _ _ _ _ (13 / 2) near_1 B1 ltac:(lra) ltac:(lra) ltac:(ku) R2). fold D in D1.
  unfold gget_gamma. cbv zeta. change (div A) with b64_div. change (ltb A) with (@Bltb prec64 emax64). change (sub A) with b64_sub. change (of_int A) with b64_of_Z. change (root A) with b64_sqrt.
  change (gLIGHT_SPEED_POW_2 A) with C2. change (inf_quot A) with (fun a b : b64 => b64_is_inf (b64_div a b)). cbv beta. fold beta. set (d := b64_sub (b64_of_Z 1) beta) in *.
  assert (GD : / (g * g) <= D). { apply Rmult_le_reg_l with (g * g); [lra|]. rewrite Rinv_r by lra. exact HD. }
  assert (UG : u * 32768 <= / (g * g)). { apply Rmult_le_reg_l with (g * g); [lra|]. rewrite Rinv_r by lra. lra. }
  destruct B1 as (FB & _ & _ & EB). destruct (of_Z_exact 1 eq_refl) as (FO & EO).
  assert (NL : Bltb (b64_of_Z 1) beta = false).
  { destruct (Bltb (b64_of_Z 1) beta) eqn:E; [|reflexivity]. exfalso. apply ltb_ok in E; [|assumption|assumption]. rewrite EO in E. apply Rabs_le_inv in EB. unfold D in *. lra. }
  rewrite NL.
  assert (ND : near d D D (16 * (g * g))).
  { destruct D1 as (FD & _ & _ & ED). split; [exact FD|]. split; [split; lra|]. split; [rewrite Rabs_pos_eq; lra|]. apply Rle_trans with (1 := ED).
    replace ((13 / 2 + 5 / 4) * u * (1 + 101 / 100)) with (u * (31 / 4 * (201 / 100))) by field. replace (16 * (g * g) * u * D) with (u * (16 * (g * g * D))) by ring.
    apply Rmult_le_compat_l; lra. }
  assert (D1' : D <= 1) by (unfold D; lra).
  assert (RD : rg D (-60) 0). { split; [|cbn; lra]. apply Rle_trans with (2 := GD). apply Rle_trans with (2 := UG). rewrite u_val. cbn. lra. }
  assert (RQ : rg (sqrt D) (-30) 0) by (apply rg_sqrt; exact RD).
  assert (NQ := near_sqrt _ _ _ ND DP ltac:(rewrite u_val in *; lra)). give NQ ltac:(rgs). set (q := b64_sqrt d) in *.
  assert (SP := sqrt_lt_R0 D DP).
  assert (NY := near_div _ _ _ _ _ _ _ (20 * (g * g) - 5 / 4) near_1 NQ SP ltac:(lra) ltac:(rewrite u_val in *; lra)). give NY ltac:(rgs). set (y := b64_div (b64_of_Z 1) q) in *.
  assert (FY := proj1 NY).
  assert (NI : b64_is_inf y = false). { clearbody y. destruct y; cbn in FY; try discriminate; reflexivity. }
  rewrite NI. exists y. split; [reflexivity|]. refine (near_eq _ _ _ _ _ _ (near_weaken _ _ _ _ _ (20 * (g * g)) NY (Rle_refl _) _ _) _ _); try lra; unfold Rdiv; lra.
Qed.

(** ** The inverse of the Lorentz factor of a momentum *)
Variable a : R.
Hypothesis HA : 0 <= a <= 8192.
Hypothesis HP : close_pow pw a.

Lemma rsqrt_change : forall X Y k, 0 < X -> 0 <= k <= / 1024 -> Rabs (Y - X) <= k * X -> Rabs (/ sqrt Y - / sqrt X) <= k * / sqrt X.
Proof.
  intros X Y k PX PK H. apply Rabs_le_inv in H. assert (k * X <= / 1024 * X) by (apply Rmult_le_compat_r; lra). assert (PY : 0 < Y) by lra.
  assert (SX := sqrt_lt_R0 _ PX). assert (SY := sqrt_lt_R0 _ PY). assert (EX := sqrt_sqrt X ltac:(lra)). assert (EY := sqrt_sqrt Y ltac:(lra)).
  set (p := sqrt X) in *. set (q := sqrt Y) in *.
  assert (L : p * (1 - k) <= q).
  { apply Rsqr_incr_0; [|apply Rmult_le_pos; lra|lra]. unfold Rsqr. rewrite EY. replace (p * (1 - k) * (p * (1 - k))) with (p * p * ((1 - k) * (1 - k))) by ring. rewrite EX.
    apply Rle_trans with (X * (1 - k)); [apply Rmult_le_compat_l; nra|lra]. }
  assert (D : (q - p) * (q + p) = Y - X) by (rewrite <- EX, <- EY; ring).
  assert (B : Rabs (q - p) <= k * q).
  { apply Rmult_le_reg_r with (q + p); [lra|]. rewrite <- (Rabs_pos_eq (q + p)) at 1 by lra. rewrite <- Rabs_mult, D. apply Rabs_le.
    assert (k * X <= k * q * (q + p)).
    { rewrite Rmult_assoc. apply Rmult_le_compat_l; [lra|]. rewrite <- EX. replace (q * (q + p)) with (q * q + q * p) by ring.
      assert (p * (1 - k) * p <= q * p) by (apply Rmult_le_compat_r; lra). assert (p * p * / 2 <= q * q).
      { apply Rle_trans with (p * (1 - k) * (p * (1 - k))); [|apply Rmult_le_compat; try lra; apply Rmult_le_pos; lra]. assert (/ 2 <= (1 - k) * (1 - k)) by nra. nra. }
      assert (k * (p * p) <= / 1024 * (p * p)) by (apply Rmult_le_compat_r; nra). nra. }
    lra. }
  replace (/ q - / p) with (- ((q - p) * (/ q * / p))) by (field; lra). rewrite Rabs_Ropp, Rabs_mult, (Rabs_pos_eq (/ q * / p)).
  - apply Rle_trans with (k * q * (/ q * / p)); [apply Rmult_le_compat_r; [|exact B]|right; field; lra]. apply Rmult_le_pos; left; now apply Rinv_0_lt_compat.
  - apply Rmult_le_pos; left; now apply Rinv_0_lt_compat.
Qed.

Lemma gamma_inv_near : forall v, mgv pw lg v 400 -> near (gget_gamma_inv A (gtv_squared_sum A v)) (/ boost (size3 pw lg v)) (/ boost (size3 pw lg v)) (a + 10).
Proof.
  intros v HV. assert (V := sum_near v HV). assert (Q := sq_pos v). assert (C := cc_pos). assert (P := phi_val). assert (PU := u_pos). assert (RS := rg_sq v 400 HV ltac:(lia)).
  assert (B1 := near_div _ _ _ _ _ _ _ (501 / 100) V near_C2 C ltac:(lra) ltac:(ku)). give B1 ltac:(rgs).
  assert (X1 := near_add _ _ _ _ _ _ _ _ (626 / 100) near_1 B1 ltac:(lra) ltac:(lra) ltac:(ku)). give X1 ltac:(rgs).
  assert (QC : 0 <= sq v / cc) by (apply Rmult_le_pos; [exact Q|left; now apply Rinv_0_lt_compat]).
  assert (E : 1 + sq v / cc = boost (size3 pw lg v) * boost (size3 pw lg v)) by (rewrite boost_sq, <- sq_size; reflexivity).
  apply (near_shrink _ _ _ _ (1 + sq v / cc) 8) in X1; [| |rewrite Rabs_pos_eq; lra|lra|ku].
  2: { assert ((sq v + 4 * phi) / cc <= sq v / cc + / 1000); [|nra]. unfold Rdiv. rewrite Rmult_plus_distr_r. apply Rplus_le_compat_l. apply Rmult_le_reg_r with cc; [exact C|]. rewrite Rmult_assoc, Rinv_l by lra. unfold cc. lra. }
  unfold gget_gamma_inv. change (add A) with b64_add. change (div A) with b64_div. change (of_int A 1) with (b64_of_Z 1). change (gLIGHT_SPEED_POW_2 A) with C2. change (pow_mhalf A) with pw.
  cbn [num b64_arith] in *. set (x := b64_add (b64_of_Z 1) (b64_div (gtv_squared_sum A v) C2)) in *. destruct X1 as (FX & _ & _ & EX).
  assert (W := boost_ge (size3 pw lg v)). set (w := boost (size3 pw lg v)) in *. rewrite E in EX.
  assert (GE : 1 <= B2R x).
  { assert (FB := proj1 B1). assert (PB : 0 <= B2R (b64_div (gtv_squared_sum A v) C2)).
    { destruct (mg_squared pw lg v 400 HV ltac:(lia) ltac:(lia)) as ((FS & SB) & SP). destruct C2_exact as (FC & EC). cbn [num b64_arith] in *. rewrite Rabs_pos_eq in SB by exact SP.
      assert (S0 : 0 <= B2R (gtv_squared_sum A v : b64) / cc) by (apply Rmult_le_pos; [exact SP|left; now apply Rinv_0_lt_compat]). cbn [num b64_arith] in S0.
      destruct (div_ok (gtv_squared_sum A v) C2 FS) as (_ & EE).
      - rewrite EC. lra.
      - rewrite EC, Rabs_pos_eq by exact S0. apply Rmult_le_reg_r with cc; [exact C|]. unfold Rdiv. rewrite Rmult_assoc, Rinv_l, Rmult_1_r by lra. apply Rle_trans with (1 := SB).
        apply Rle_trans with (bp 1023 * 1); [rewrite Rmult_1_r; apply bpow_le; lia|apply Rmult_le_compat_l; [apply bpow_ge_0|unfold cc; lra]].
      - rewrite EE, EC. now apply rnd_nonneg. }
    destruct (of_Z_exact 1 eq_refl) as (FO & EO). assert (SZ := near_size _ _ _ _ B1). destruct SZ as (_ & SZ).
    destruct (add_ok (b64_of_Z 1) (b64_div (gtv_squared_sum A v) C2) FO FB) as (_ & EE).
    - rewrite EO. apply (fits_M _ (1 + (sq v + 4 * phi) / cc)); [rewrite Rabs_pos_eq by lra; rewrite Rabs_pos_eq in SZ by lra; lra|]. assert (RR : rg (1 + (sq v + 4 * phi) / cc) (-900) 1000) by rgs. apply RR.
    - unfold x. rewrite EE, EO. rewrite <- (rnd_exact_Z 1) at 1 by reflexivity. apply rnd_mono. lra. }
  destruct (HP x FX GE) as (FP & EP). fold u in EP. set (p := pw x) in *.
  assert (IW : 0 < / w) by (apply Rinv_0_lt_compat; lra).
  assert (RS1 : Rabs (/ sqrt (B2R x) - / w) <= 8 * u * / w).
  { assert (RC := rsqrt_change (w * w) (B2R x) (8 * u) ltac:(nra) ltac:(split; [lra|ku]) EX). rewrite sqrt_square in RC by lra. exact RC. }
  assert (SX : 0 < sqrt (B2R x)) by (apply sqrt_lt_R0; lra). set (q := sqrt (B2R x)) in *. assert (IQ := Rinv_0_lt_compat _ SX).
  assert (P1 : Rabs (B2R p - / q) <= a * u * / q).
  { replace (B2R p - / q) with ((B2R p * q - 1) * / q) by (field; lra). rewrite Rabs_mult, (Rabs_pos_eq (/ q)) by lra. apply Rmult_le_compat_r; lra. }
  assert (AU : 0 <= a * u <= / 1000000000000 /\ (a + 10) * u <= / 1024). { rewrite u_val. split; [split|]; lra. }
  split; [exact FP|]. split; [split; lra|]. split; [rewrite Rabs_pos_eq; lra|].
  assert (TR := Rabs_triang (B2R p - / q) (/ q - / w)). replace (B2R p - / q + (/ q - / w)) with (B2R p - / w) in TR by ring.
  apply Rabs_le_inv in RS1. assert (RS2 : Rabs (/ q - / w) <= 8 * u * / w) by (apply Rabs_le; lra).
  assert (a * u * / q <= a * u * (/ w + 8 * u * / w)) by (apply Rmult_le_compat_l; lra).
  assert (0 < u * / w) by (apply Rmult_lt_0_compat; lra). assert (a * u * (8 * u * / w) <= u * / w) by (replace (a * u * (8 * u * / w)) with (a * u * 8 * (u * / w)) by ring; rewrite <- (Rmult_1_l (u * / w)) at 2; apply Rmult_le_compat_r; lra).
  lra.
Qed.

(** ** The rotation *)
Lemma rotation_near : forall b v, mgv pw lg b 299 -> mgv pw lg v 80 ->
  Rabs (size3 pw lg (gboris_rotation A b v) - size3 pw lg v) <= 400 * u * (size3 pw lg v + phi) /\ finite3 pw lg (gboris_rotation A b v).
Proof.
  intros b v HB HV. assert (P := phi_val). assert (PU := u_pos).
  assert (SB := sum_near b (mgv_weaken b 299 400 HB ltac:(lia))). assert (QB := sq_pos b). assert (RB := rg_sq b 299 HB ltac:(lia)).
  assert (NB0 := size_pos b). assert (NV0 := size_pos v). assert (EB := sq_size b). assert (EV := sq_size v).
  assert (RV := rg_sq v 80 HV ltac:(lia)).
  set (n := size3 pw lg b) in *. set (m := size3 pw lg v) in *. set (S := sq b) in *.
  set (B := n + phi). set (N := m + phi).
  assert (RN : rg N (-100) 83).
  { unfold N. split; [change (bp (-100)) with phi; lra|]. assert (m <= bp 82); [|change (bp 83) with (bp (82 + 1)); rewrite bp_succ; assert (1 <= bp 82) by (apply (bpow_le radix2 0); lia); lra].
    destruct (Rle_lt_dec m (bp 82)) as [L|L]; [exact L|]. exfalso. assert (bp 82 * bp 82 < m * m) by (apply Rmult_le_0_lt_compat; try apply bpow_ge_0; lra). rewrite <- bpow_plus in H. destruct RV as (_ & RV). rewrite EV in RV.
    assert (bp (2 * 80 + 3) <= bp (82 + 82)) by (apply bpow_le; lia). lra. }
  assert (RBB : rg B (-100) 303).
  { unfold B. split; [change (bp (-100)) with phi; lra|]. assert (n <= bp 302); [|change (bp 303) with (bp (302 + 1)); rewrite bp_succ; assert (1 <= bp 302) by (apply (bpow_le radix2 0); lia); lra].
    destruct (Rle_lt_dec n (bp 302)) as [L|L]; [exact L|]. exfalso. assert (bp 302 * bp 302 < n * n) by (apply Rmult_le_0_lt_compat; try apply bpow_ge_0; lra). rewrite <- bpow_plus in H. destruct RB as (_ & RB). rewrite EB in RB.
    assert (bp (2 * 299 + 3) <= bp (302 + 302)) by (apply bpow_le; lia). lra. }
  assert (D1 := near_add _ _ _ _ _ _ _ _ 5 near_1 SB ltac:(lra) ltac:(lra) ltac:(ku)). give D1 ltac:(rgs).
  apply (near_shrink _ _ _ _ (1 + S) (63 / 10)) in D1; [|lra|rewrite Rabs_pos_eq; lra|lra|ku].
  assert (RS : rg (1 + S) 0 603).
  { split; [change (bp 0) with 1; lra|]. destruct RB as (_ & RB). assert (bp (2 * 299 + 3) + 1 <= bp 603); [|lra]. change (bp 603) with (bp (602 + 1)). rewrite bp_succ.
    assert (1 <= bp 602) by (apply (bpow_le radix2 0); lia). assert (bp (2 * 299 + 3) <= bp 602) by (apply bpow_le; lia). lra. }
  assert (C1 := near_div _ _ _ _ _ _ _ (64 / 10) near_2 D1 ltac:(lra) ltac:(lra) ltac:(ku)). give C1 ltac:(rgs).
  assert (BC := length_part (x0 b) (x1 b) (x2 b)). fold (size3 pw lg b) in BC. fold n in BC.
  assert (VC := length_part (x0 v) (x1 v) (x2 v)). fold (size3 pw lg v) in VC. fold m in VC.
  destruct HB as ((FB0 & _) & (FB1 & _) & (FB2 & _)). destruct HV as ((FV0 & _) & (FV1 & _) & (FV2 & _)). cbn [num b64_arith] in *.
  assert (B0 := near_exact (g0 A b) B FB0 ltac:(unfold B; lra)). assert (B1 := near_exact (g1 A b) B FB1 ltac:(unfold B; lra)). assert (B2 := near_exact (g2 A b) B FB2 ltac:(unfold B; lra)).
  assert (V0 := near_exact (g0 A v) N FV0 ltac:(unfold N; lra)). assert (V1 := near_exact (g1 A v) N FV1 ltac:(unfold N; lra)). assert (V2 := near_exact (g2 A v) N FV2 ltac:(unfold N; lra)).
  cbn [num b64_arith] in *.
  assert (PR : forall x y X Y, near x X N 0 -> near y Y B 0 -> near (b64_mul x y) (X * Y) (N * B) (0 + 5 / 4)).
  { intros x y X Y HX HY. apply (near_mul _ _ _ _ _ _ _ _ 0 HX HY); [lra|ku|rgs]. }
  assert (T1 : forall p x y s t X Y Pr Sr Tr, near p Pr N 0 -> near x X N 0 -> near y Y B 0 -> near s Sr N 0 -> near t Tr B 0 ->
     near (b64_sub (b64_add p (b64_mul x y)) (b64_mul s t)) (Pr + X * Y - Sr * Tr) (N + N * B + N * B) (15 / 4)).
  { intros p x y s t X Y Pr Sr Tr Hp Hx Hy Hs Ht. assert (Z1 := near_add _ _ _ _ _ _ _ _ (5 / 4) Hp (PR _ _ _ _ Hx Hy) ltac:(lra) ltac:(lra) ltac:(ku)). give Z1 ltac:(rgs).
    assert (Z2 := near_sub _ _ _ _ _ _ _ _ (10 / 4) Z1 (PR _ _ _ _ Hs Ht) ltac:(lra) ltac:(lra) ltac:(ku)). give Z2 ltac:(rgs).
    apply (near_weaken _ _ _ _ (N + N * B + N * B) (15 / 4) Z2); [lra|lra|ku]. }
  assert (T2 : forall p x y s t X Y Pr Sr Tr, near p Pr N 0 -> near x X N 0 -> near y Y B 0 -> near s Sr N 0 -> near t Tr B 0 ->
     near (b64_add (b64_sub p (b64_mul x y)) (b64_mul s t)) (Pr - X * Y + Sr * Tr) (N + N * B + N * B) (15 / 4)).
  { intros p x y s t X Y Pr Sr Tr Hp Hx Hy Hs Ht. assert (Z1 := near_sub _ _ _ _ _ _ _ _ (5 / 4) Hp (PR _ _ _ _ Hx Hy) ltac:(lra) ltac:(lra) ltac:(ku)). give Z1 ltac:(rgs).
    assert (Z2 := near_add _ _ _ _ _ _ _ _ (10 / 4) Z1 (PR _ _ _ _ Hs Ht) ltac:(lra) ltac:(lra) ltac:(ku)). give Z2 ltac:(rgs).
    apply (near_weaken _ _ _ _ (N + N * B + N * B) (15 / 4) Z2); [lra|lra|ku]. }
  set (L := N + N * B + N * B) in *. assert (RL : rg L (-100) 400) by (unfold L; rgs).
  assert (T3 : forall x X y Y, near x X L (15 / 4) -> near y Y B 0 -> near (b64_mul x y) (X * Y) (L * B) 5).
  { intros x X y Y Hx Hy. assert (Z1 := near_mul _ _ _ _ _ _ _ _ (15 / 4) Hx Hy ltac:(lra) ltac:(ku)). give Z1 ltac:(rgs). apply (near_weaken _ _ _ _ (L * B) 5 Z1); [lra|lra|ku]. }
  assert (LB : L * B <= (1 + S) * N * (9 / 4)).
  { unfold L. replace ((N + N * B + N * B) * B) with (N * (B + 2 * B * B)) by ring. replace ((1 + S) * N * (9 / 4)) with (N * ((1 + S) * (9 / 4))) by ring. apply Rmult_le_compat_l; [apply Rlt_le, (rg_pos _ _ _ RN)|].
    rewrite EB. unfold B. assert (n * phi <= n * / 1000) by (apply Rmult_le_compat_l; lra). assert (PP : phi * phi <= 1 * / 1000) by (apply Rmult_le_compat; lra). assert (SQ := Rle_0_sqr (n - 201 / 100)). unfold Rsqr in SQ. lra. }
  set (k := 2 / (1 + S)) in *.
  assert (T4 : forall p Pr x X, near p Pr N 0 -> near x X (L * B + L * B) (25 / 4) -> near (b64_add p (b64_mul (b64_div (b64_of_Z 2) (b64_add (b64_of_Z 1) (gtv_squared_sum A b))) x)) (Pr + k * X) (10 * N) 17).
  { intros p Pr x X Hp Hx. cbn [num b64_arith]. assert (Z1 := near_mul _ _ _ _ _ _ _ _ (14 + / 100) C1 Hx ltac:(ku) ltac:(ku)). give Z1 ltac:(unfold k; rgs).
    assert (Z2 := near_add _ _ _ _ _ _ _ _ (14 + / 100 + 5 / 4) Hp Z1 ltac:(lra) ltac:(lra) ltac:(ku)). give Z2 ltac:(unfold k; rgs).
    apply (near_weaken _ _ _ _ (10 * N) 17 Z2); [|lra|ku].
    assert (k * (L * B + L * B) <= k * (2 * ((1 + S) * N * (9 / 4)))) by (apply Rmult_le_compat_l; [unfold k; apply Rmult_le_pos; [lra|left; apply Rinv_0_lt_compat; lra]|lra]).
    replace (k * (2 * ((1 + S) * N * (9 / 4)))) with (9 * N) in H by (unfold k; field; lra). lra. }
  assert (RLB : rg (L * B + L * B) (-900) 1000) by rgs.
  assert (TS : forall x X y Y, near x X (L * B) 5 -> near y Y (L * B) 5 -> near (b64_sub x y) (X - Y) (L * B + L * B) (25 / 4)).
  { intros x X y Y Hx Hy. apply (near_weaken _ _ _ _ (L * B + L * B) (25 / 4) (near_sub _ _ _ _ _ _ _ _ 5 Hx Hy ltac:(lra) ltac:(lra) ltac:(ku) RLB)); [lra|lra|ku]. }
  assert (TA : forall x X y Y, near x X (L * B) 5 -> near y Y (L * B) 5 -> near (b64_add x y) (X + Y) (L * B + L * B) (25 / 4)).
  { intros x X y Y Hx Hy. apply (near_weaken _ _ _ _ (L * B + L * B) (25 / 4) (near_add _ _ _ _ _ _ _ _ 5 Hx Hy ltac:(lra) ltac:(lra) ltac:(ku) RLB)); [lra|lra|ku]. }
  unfold gboris_rotation. cbv zeta.
  change (add A) with b64_add. change (sub A) with b64_sub. change (mul A) with b64_mul. change (div A) with b64_div. change (opp A) with (@Bopp prec64 emax64). change (of_int A) with b64_of_Z.
  cbn [num b64_arith] in *.
  assert (O0 := T4 _ _ _ _ V0 (TS _ _ _ _ (T3 _ _ _ _ (T2 _ _ _ _ _ _ _ _ _ _ V1 V0 B2 V2 B0) B2) (T3 _ _ _ _ (T1 _ _ _ _ _ _ _ _ _ _ V2 V0 B1 V1 B0) B1))).
  assert (O1 := T4 _ _ _ _ V1 (TA _ _ _ _ (T3 _ _ _ _ (near_opp _ _ _ _ (T1 _ _ _ _ _ _ _ _ _ _ V0 V1 B2 V2 B1)) B2) (T3 _ _ _ _ (T1 _ _ _ _ _ _ _ _ _ _ V2 V0 B1 V1 B0) B0))).
  assert (O2 := T4 _ _ _ _ V2 (TS _ _ _ _ (T3 _ _ _ _ (T1 _ _ _ _ _ _ _ _ _ _ V0 V1 B2 V2 B1) B1) (T3 _ _ _ _ (T2 _ _ _ _ _ _ _ _ _ _ V1 V0 B2 V2 B0) B0))).
  destruct O0 as (FO0 & _ & _ & EO0). destruct O1 as (FO1 & _ & _ & EO1). destruct O2 as (FO2 & _ & _ & EO2).
  split; [|split; [exact FO0|split; [exact FO1|exact FO2]]].
  assert (RL3 := rotation_length (x0 v) (x1 v) (x2 v) (x0 b) (x1 b) (x2 b)). cbv zeta in RL3. fold S in RL3. change (x0 b * x0 b + x1 b * x1 b + x2 b * x2 b) with S in RL3. fold k in RL3.
  assert (NE := length_near _ _ _ _ _ _ _ EO0 EO1 EO2).
  cbn [num b64_arith] in *. rewrite RL3 in NE. unfold size3. cbn [g0 g1 g2]. cbn [num b64_arith]. fold (size3 pw lg v). fold m. fold N.
  apply Rle_trans with (1 := NE). assert (0 < N) by (apply (rg_pos _ _ _ RN)). nra.
Qed.

(** ** The kick by the electric field *)
Lemma near_prod : forall x y : b64, fin x -> fin y -> Rabs (B2R x * B2R y) <= bp 999 -> near (b64_mul x y) (B2R x * B2R y) (Rabs (B2R x * B2R y) + bp (-900)) (5 / 4).
Proof.
  intros x y FX FY S. assert (P := bpow_gt_0 radix2 (-900)). destruct (mul_ok x y FX FY) as (F & E); [apply Rle_trans with (1 := S); apply bpow_le; lia|].
  split; [exact F|]. split; [split; [lra|ku]|]. split; [lra|]. rewrite E. replace (5 / 4) with (0 + 5 / 4) by lra. apply round_near.
  - split; [lra|ku].
  - assert (Q := Rabs_pos (B2R x * B2R y)). lra.
  - lra.
  - unfold Rminus. rewrite Rplus_opp_r, Rabs_R0. assert (Q := Rabs_pos (B2R x * B2R y)). lra.
Qed.

Definition kick (q m dt : b64) (e : gvec A) : R := Rabs (B2R q) * B2R dt / (2 * B2R m) * size3 pw lg e.

Lemma kick_near : forall (q m dt : b64) (e : gvec A), sane q m -> fin dt -> 0 < B2R dt <= bp (-18) -> mgv pw lg e 265 ->
  let k := B2R q * B2R dt / (2 * B2R m) in let e1 := gtv_product A e (b64_div (b64_mul q dt) (b64_mul (b64_of_Z 2) m)) in let M := kick q m dt e + phi in
  near (g0 A e1) (k * x0 e) M 6 /\ near (g1 A e1) (k * x1 e) M 6 /\ near (g2 A e1) (k * x2 e) M 6.
Proof.
  intros q m dt e HQ FD HD HE k e1 M. assert (HQ' := HQ). destruct HQ as (FQ & FM & (ML & MU) & QM). assert (MP : 0 < B2R m) by (apply Rlt_le_trans with (2 := ML); apply bpow_gt_0).
  assert (PU := u_pos). assert (PP := phi_val).
  assert (QD : Rabs (B2R q * B2R dt) <= bp 32 * B2R m).
  { rewrite Rabs_mult, (Rabs_pos_eq (B2R dt)) by lra. apply Rle_trans with (bp 50 * B2R m * bp (-18)); [apply Rmult_le_compat; [apply Rabs_pos|lra|exact QM|lra]|].
    replace (bp 50 * B2R m * bp (-18)) with (bp 50 * bp (-18) * B2R m) by ring. rewrite <- bpow_plus. right. reflexivity. }
  assert (QF : Rabs (B2R q * B2R dt) <= bp 432).
  { apply Rle_trans with (1 := QD). apply Rle_trans with (bp 32 * bp 400); [apply Rmult_le_compat_l; [apply bpow_ge_0|exact MU]|rewrite <- bpow_plus; apply bpow_le; lia]. }
  assert (N1 := near_prod q dt FQ FD (Rle_trans _ _ _ QF (bpow_le radix2 432 999 ltac:(lia)))).
  assert (RM : rg (B2R m) (-400) 400) by (split; assumption).
  assert (NM := near_exact m (B2R m) FM ltac:(rewrite Rabs_pos_eq; lra)).
  assert (N2 := near_mul _ _ _ _ _ _ _ _ 0 near_2 NM ltac:(lra) ltac:(ku)). give N2 ltac:(rgs).
  (* sizes that stay in range whatever the mass *)
  set (W := Rabs (B2R q * B2R dt) + 2 * B2R m * bp (-400)).
  assert (WM : bp (-900) <= 2 * B2R m * bp (-400)).
  { apply Rle_trans with (bp (-400) * bp (-400)); [rewrite <- bpow_plus; apply bpow_le; lia|]. apply Rmult_le_compat_r; [apply bpow_ge_0|lra]. }
  apply (near_weaken _ _ _ _ W (5 / 4)) in N1; [|unfold W; lra|lra|ku].
  assert (BK : Rabs k <= bp 32).
  { unfold k, Rdiv. rewrite Rabs_mult, (Rabs_pos_eq (/ (2 * B2R m))) by (left; apply Rinv_0_lt_compat; lra). apply Rmult_le_reg_r with (2 * B2R m); [lra|]. rewrite Rmult_assoc, Rinv_l, Rmult_1_r by lra.
    apply Rle_trans with (1 := QD). apply Rmult_le_compat_l; [apply bpow_ge_0|lra]. }
  assert (EW : W / (2 * B2R m) = Rabs k + bp (-400)).
  { unfold W, k, Rdiv. rewrite (Rabs_mult (B2R q * B2R dt)), (Rabs_pos_eq (/ (2 * B2R m))) by (left; apply Rinv_0_lt_compat; lra). field. lra. }
  assert (RK : rg (Rabs k + bp (-400)) (-400) 33).
  { assert (Q := Rabs_pos k). split; [lra|]. change (bp 33) with (bp (32 + 1)). rewrite bp_succ. assert (bp (-400) <= bp 32) by (apply bpow_le; lia). lra. }
  assert (N3 := near_div _ _ _ _ _ _ _ (26 / 10) N1 N2 ltac:(lra) ltac:(lra) ltac:(ku)). rewrite EW in N3. give N3 ltac:(rgs).
  fold k in N3. set (c1 := b64_div (b64_mul q dt) (b64_mul (b64_of_Z 2) m)) in *.
  apply (near_weaken _ _ _ _ (Rabs k + bp (-400)) 4) in N3; [|lra|lra|ku].
  assert (EK : kick q m dt e = Rabs k * size3 pw lg e).
  { unfold kick, k. f_equal. unfold Rdiv. rewrite Rabs_mult, Rabs_mult, (Rabs_pos_eq (/ (2 * B2R m))), (Rabs_pos_eq (B2R dt)); [reflexivity|lra|left; apply Rinv_0_lt_compat; lra]. }
  assert (PH4 : phi / 4 = bp (-102)) by (unfold phi; change (-100)%Z with (-102 + 2)%Z; rewrite bpow_plus; change (bp 2) with 4; lra).
  assert (PART : forall x : b64, mg x 265 -> Rabs (B2R x) <= size3 pw lg e -> near (b64_mul x c1) (k * B2R x) M 6).
  { intros x (FX & BX) SX. assert (FL := bpow_gt_0 radix2 (-200)).
    assert (NX := near_exact x (Rabs (B2R x) + bp (-200)) FX ltac:(lra)).
    assert (RX : rg (Rabs (B2R x) + bp (-200)) (-200) 266).
    { assert (Q := Rabs_pos (B2R x)). split; [lra|]. change (bp 266) with (bp (265 + 1)). rewrite bp_succ. assert (bp (-200) <= bp 265) by (apply bpow_le; lia). lra. }
    assert (N4 := near_mul _ _ _ _ _ _ _ _ 4 NX N3 ltac:(lra) ltac:(ku)). give N4 ltac:(rgs).
    assert (LE : (Rabs (B2R x) + bp (-200)) * (Rabs k + bp (-400)) <= M).
    { unfold M. rewrite EK. assert (PK := Rabs_pos k). assert (PX := Rabs_pos (B2R x)).
      assert (H1 : Rabs (B2R x) * Rabs k <= Rabs k * size3 pw lg e) by (rewrite Rmult_comm; apply Rmult_le_compat_l; assumption).
      assert (H2 : Rabs (B2R x) * bp (-400) <= phi / 4).
      { apply Rle_trans with (bp 265 * bp (-400)); [apply Rmult_le_compat_r; [apply bpow_ge_0|exact BX]|]. rewrite PH4, <- bpow_plus. apply bpow_le. lia. }
      assert (H3 : bp (-200) * Rabs k <= phi / 4).
      { apply Rle_trans with (bp (-200) * bp 32); [apply Rmult_le_compat_l; [lra|exact BK]|]. rewrite PH4, <- bpow_plus. apply bpow_le. lia. }
      assert (H4 : bp (-200) * bp (-400) <= phi / 4) by (rewrite PH4, <- bpow_plus; apply bpow_le; lia). lra. }
    apply (near_weaken _ _ _ _ M 6) in N4; [|exact LE|lra|ku]. refine (near_eq _ _ _ _ _ _ N4 _ eq_refl). ring. }
  assert (SC := length_part (x0 e) (x1 e) (x2 e)). fold (size3 pw lg e) in SC. destruct SC as (S0 & S1 & S2). destruct HE as (E0 & E1 & E2).
  split; [|split]; apply PART; assumption.
Qed.

(** ** Components below MNZL are set to zero *)
Lemma mnzl_small : fin (gMNZL A : b64) /\ 0 <= B2R (gMNZL A : b64) <= / 900000000000000.
Proof.
  destruct (of_Z_exact 1 eq_refl) as (F1 & E1). destruct (of_Z_exact 1000000000000000 eq_refl) as (F2 & E2).
  destruct (div_ok (b64_of_Z 1) (b64_of_Z 1000000000000000) F1) as (F & E); [rewrite E2; lra|rewrite E1, E2, Rabs_pos_eq by lra; apply Rle_trans with (bp 0); [cbn; lra|apply bpow_le; lia]|].
  change (gMNZL A) with (b64_div (b64_of_Z 1) (b64_of_Z 1000000000000000)). split; [exact F|]. rewrite E, E1, E2.
  split; [apply rnd_nonneg; lra|]. assert (R := rnd_err (1 / 1000000000000000)). assert (T := tiny_num). rewrite (Rabs_pos_eq (1 / 1000000000000000)) in R by lra. apply Rabs_le_inv in R. rewrite u_val in R. lra.
Qed.

Lemma ground_near : forall x : b64, fin x -> let y := ground_small A x in fin (y : b64) /\ B2R (y : b64) * B2R (y : b64) <= B2R x * B2R x /\ Rabs (B2R (y : b64) - B2R x) <= / 900000000000000.
Proof.
  intros x F y. unfold y, ground_small. change (ltb A) with (@Bltb prec64 emax64). change (absv A) with (@Babs prec64 emax64). change (of_int A 0) with (b64_of_Z 0).
  destruct mnzl_small as (FM & MB). cbn [num b64_arith] in *. assert (Q := Rle_0_sqr (B2R x)). unfold Rsqr in Q.
  destruct (Bltb (Babs x) (gMNZL A)) eqn:E.
  - destruct (of_Z_exact 0 eq_refl) as (F0 & E0). rewrite E0. apply ltb_ok in E; [|rewrite is_finite_Babs; exact F|exact FM]. rewrite B2R_Babs in E.
    split; [exact F0|]. split; [lra|]. unfold Rminus. rewrite Rplus_0_l, Rabs_Ropp. lra.
  - split; [exact F|]. split; [lra|]. unfold Rminus. rewrite Rplus_opp_r, Rabs_R0. lra.
Qed.

Lemma near_mg : forall x X M k e, near x X M k -> M * (1 + / 1024) <= bp e -> mg x e.
Proof. intros x X M k e N H. destruct (near_size _ _ _ _ N) as (_ & S). split; [apply N|lra]. Qed.

(** ** A push *)
Definition psi : R := bp (-60).
Lemma psi_rg : rg psi (-60) (-60). Proof. split; apply Rle_refl. Qed.
Lemma psi_val : psi = / 1152921504606846976. Proof. unfold psi. cbn. lra. Qed.

Theorem push_momentum : forall (dt q m : b64) (e h v : gvec A) g, sane q m -> fin dt -> 0 < B2R dt <= bp (-18) -> mgv pw lg e 265 -> mgv pw lg h 265 -> finite3 pw lg v ->
  1 <= g -> (8 * a + 1024) * u * (g * g) <= / 64 -> 1 <= g * g * (1 - size3 pw lg v * size3 pw lg v / cc) ->
  let K := kick q m dt e in let P := momentum pw lg v in
  1 + (P + 2 * K + 1) * (P + 2 * K + 1) / cc <= g * g ->
  exists v', gboris_push A true dt q m e h v = Ok v' /\ finite3 pw lg v' /\ size3 pw lg v' < 300000000 /\
    1 <= 6 / 5 * g * (6 / 5 * g) * (1 - size3 pw lg v' * size3 pw lg v' / cc) /\
    Rabs (momentum pw lg v' - P) <= 2 * K + (8 * a + 1024) * u * (g * g) * (P + 2 * K) + / 100000000000000 * (g * g * g).
Proof.
  intros dt q m e h v g HQ FD HD HE HH (FV0 & FV1 & FV2) G HG GV K P GK.
  assert (PU := u_pos). assert (PP := phi_val). assert (PS := psi_val). assert (C := cc_pos). assert (GG : 1 <= g * g) by nra.
  set (d := u * (g * g)) in *. replace ((8 * a + 1024) * u * (g * g)) with ((8 * a + 1024) * d) in * by (unfold d; ring).
  assert (UD : u <= d) by (unfold d; nra). assert (AD : 0 <= a * d) by (apply Rmult_le_pos; lra). assert (D1 : d <= / 65536) by lra.
  (* zeroed components *)
  set (v0 := ground_velocity A v). destruct (ground_near (g0 A v) FV0) as (F0 & Q0 & N0). destruct (ground_near (g1 A v) FV1) as (F1 & Q1 & N1). destruct (ground_near (g2 A v) FV2) as (F2 & Q2 & N2).
  assert (SQ0 : sq v0 <= sq v) by (unfold sq, v0; cbn [ground_velocity g0 g1 g2 num b64_arith] in *; lra).
  assert (SN0 : Rabs (size3 pw lg v0 - size3 pw lg v) <= 2 * / 900000000000000) by (unfold size3; apply length_near; assumption).
  assert (V0 := size_pos v0). assert (VV := size_pos v). assert (SV0 := sq_size v0). assert (SV := sq_size v).
  assert (LE0 : size3 pw lg v0 <= size3 pw lg v) by (unfold size3 at 1; apply length_le; [exact VV|fold (sq v0); lra]).
  rewrite <- SV in GV.
  assert (GV0 : 1 <= g * g * (1 - sq v0 / cc)).
  { apply Rle_trans with (1 := GV). apply Rmult_le_compat_l; [lra|]. assert (sq v0 / cc <= sq v / cc) by (apply Rmult_le_compat_r; [left; now apply Rinv_0_lt_compat|exact SQ0]). lra. }
  set (s0 := size3 pw lg v0) in *. set (s := size3 pw lg v) in *.
  assert (DV0 : 0 < 1 - s0 * s0 / cc) by (rewrite <- SV0; nra). assert (DV : 0 < 1 - s * s / cc) by (rewrite <- SV; nra).
  assert (W0 := momentum_pos s0 V0 DV0). assert (WP := momentum_mono s s0 ltac:(lra) DV). fold (momentum pw lg v) in WP. change (momentum_at s) with P in WP.
  assert (WN : Rabs (momentum_at s0 - P) <= 5 * / 900000000000000 * (g * g * g)).
  { assert (SL := momentum_slope s0 s g V0 VV G ltac:(rewrite <- SV0; exact GV0) ltac:(rewrite <- SV; exact GV)). change (momentum_at s) with P in SL. apply Rle_trans with (1 := SL).
    assert (G3 : 0 <= g * g * g) by nra. apply Rle_trans with (2 * (g * g * g) * (2 * / 900000000000000)); [apply Rmult_le_compat_l; lra|lra]. }
  set (w0 := momentum_at s0) in *.
  assert (SC : s0 < 300000000).
  { apply Rnot_le_lt. intro L. assert (cc <= s0 * s0) by (unfold cc; apply Rmult_le_compat; lra).
    assert (1 <= s0 * s0 / cc) by (apply Rmult_le_reg_r with cc; [exact C|]; unfold Rdiv at 1; rewrite Rmult_assoc, Rinv_l; lra). lra. }
  assert (C0 := length_part (x0 v0) (x1 v0) (x2 v0)). fold (size3 pw lg v0) in C0. fold s0 in C0.
  assert (MV0 : mgv pw lg v0 31). { assert (B31 : bp 31 = 2147483648) by reflexivity. cbn [num b64_arith] in C0. split; [|split]; (split; [assumption|rewrite B31; lra]). }
  destruct (gamma_near v0 g MV0 G ltac:(replace (g * g * u * 32) with (32 * d) by (unfold d; ring); lra) GV0) as (y & EY & NY).
  (* sizes *)
  assert (K0 : 0 <= K). { unfold K, kick. apply Rmult_le_pos; [|apply size_pos]. destruct HQ as (_ & _ & (ML & _) & _). assert (0 < B2R m) by (apply Rlt_le_trans with (2 := ML); apply bpow_gt_0).
    apply Rmult_le_pos; [apply Rmult_le_pos; [apply Rabs_pos|lra]|left; apply Rinv_0_lt_compat; lra]. }
  assert (P0 : 0 <= P) by lra.
  assert (G38 : g * g <= 137438953472). { unfold d in D1. rewrite u_val in D1. lra. }
  assert (TB : P + 2 * K + 1 <= 150000000000000).
  { destruct (Rle_lt_dec (P + 2 * K + 1) 150000000000000) as [L|L]; [exact L|]. exfalso. assert (150000000000000 * 150000000000000 <= (P + 2 * K + 1) * (P + 2 * K + 1)) by (apply Rmult_le_compat; lra).
    assert (150000000000000 * 150000000000000 / cc <= (P + 2 * K + 1) * (P + 2 * K + 1) / cc) by (apply Rmult_le_compat_r; [left; now apply Rinv_0_lt_compat|assumption]).
    replace (150000000000000 * 150000000000000 / cc) with 250000000000 in H0 by (unfold cc; lra). lra. }
  set (T := w0 + 2 * K + 4 * psi). assert (B60 : bp 60 = 1152921504606846976) by reflexivity.
  assert (T0 : 4 * psi <= T <= P + 2 * K + 1) by (unfold T; rewrite psi_val; lra).
  assert (RT : rg T (-60) 60). { split; [change (bp (-60)) with psi; rewrite psi_val in *; lra|rewrite B60; lra]. }
  assert (dT0 : 0 <= d * T) by (apply Rmult_le_pos; lra). assert (uT : u * T <= d * T) by (apply Rmult_le_compat_r; lra).
  assert (dT1 : d * T <= / 65536 * T) by (apply Rmult_le_compat_r; lra). assert (adT : 0 <= a * d * T) by (apply Rmult_le_pos; lra).
  (* gamma v0 *)
  set (ga := / sqrt (1 - sq v0 / cc)) in *.
  assert (GA : 0 < ga <= g).
  { assert (DD : 0 < 1 - sq v0 / cc) by nra. assert (SP := sqrt_lt_R0 _ DD). unfold ga. split; [now apply Rinv_0_lt_compat|]. apply Rmult_le_reg_r with (sqrt (1 - sq v0 / cc)); [exact SP|]. rewrite Rinv_l by lra.
    apply Rsqr_incr_0; [|lra|apply Rmult_le_pos; lra]. unfold Rsqr. replace (g * sqrt (1 - sq v0 / cc) * (g * sqrt (1 - sq v0 / cc))) with (g * g * (sqrt (1 - sq v0 / cc) * sqrt (1 - sq v0 / cc))) by ring. rewrite sqrt_sqrt by lra. lra. }
  assert (EW : s0 * ga = w0) by (unfold w0, momentum_at, ga, s0; rewrite SV0; reflexivity).
  assert (GP : g <= 400000). { destruct (Rle_lt_dec g 400000) as [L|L]; [exact L|]. exfalso. assert (400000 * 400000 <= g * g) by (apply Rmult_le_compat; lra). lra. }
  assert (GPhi : ga * phi <= psi).
  { rewrite psi_val. apply Rle_trans with (400000 * / 1000000000000000000000000000000); [apply Rmult_le_compat; lra|lra]. }
  assert (GA1 : 1 <= ga).
  { unfold ga. apply Rle_trans with (/ 1); [rewrite Rinv_1; lra|]. assert (QC : 0 <= sq v0 / cc) by (apply Rmult_le_pos; [apply sq_pos|left; now apply Rinv_0_lt_compat]). assert (DD : 0 < 1 - sq v0 / cc) by nra.
    apply Rinv_le; [now apply sqrt_lt_R0|]. apply Rle_trans with (sqrt 1); [apply sqrt_le_1_alt; lra|rewrite sqrt_1; lra]. }
  assert (RSA : rg ((s0 + phi) * ga) (-100) 60).
  { split; [change (bp (-100)) with phi|rewrite B60].
    - apply Rle_trans with (phi * 1); [lra|apply Rmult_le_compat; lra].
    - rewrite Rmult_plus_distr_r, EW. rewrite psi_val in *. lra. }
  assert (X0 : forall x : b64, fin x -> Rabs (B2R x) <= s0 -> near (b64_mul x y) (ga * B2R x) (w0 + psi) (20 * (g * g) + 2)).
  { intros x FX SX. assert (NX := near_exact x (s0 + phi) FX ltac:(lra)).
    assert (KU : (20 * (g * g) + 5 / 4) * u <= / 1024) by (replace ((20 * (g * g) + 5 / 4) * u) with (20 * d + 5 / 4 * u) by (unfold d; ring); lra).
    assert (N3 := near_mul _ _ _ _ _ _ _ _ (20 * (g * g)) NX NY ltac:(lra) KU). give N3 ltac:(rgs).
    apply (near_weaken _ _ _ _ (w0 + psi) (20 * (g * g) + 2)) in N3; [|rewrite Rmult_plus_distr_r, EW; lra|lra|replace ((20 * (g * g) + 2) * u) with (20 * d + 2 * u) by (unfold d; ring); lra].
    refine (near_eq _ _ _ _ _ _ N3 _ eq_refl). ring. }
  destruct (kick_near q m dt e HQ FD HD HE) as (E0 & E1 & E2). fold K in E0, E1, E2. set (k := B2R q * B2R dt / (2 * B2R m)) in *.
  assert (EK : Rabs k * size3 pw lg e = K).
  { unfold K, kick, k. f_equal. destruct HQ as (_ & _ & (ML & _) & _). assert (0 < B2R m) by (apply Rlt_le_trans with (2 := ML); apply bpow_gt_0).
    unfold Rdiv. rewrite Rabs_mult, Rabs_mult, (Rabs_pos_eq (/ (2 * B2R m))), (Rabs_pos_eq (B2R dt)); [reflexivity|lra|left; apply Rinv_0_lt_compat; lra]. }
  unfold gboris_push. cbv zeta. cbn [num b64_arith] in *. fold v0. rewrite EY. cbn [bind].
  change (div A (mul A q dt) (mul A (of_int A 2) m)) with (b64_div (b64_mul q dt) (b64_mul (b64_of_Z 2) m)).
  assert (HB := const1_ok q m dt HQ FD HD). set (c1 := b64_div (b64_mul q dt) (b64_mul (b64_of_Z 2) m)) in *. set (e1 := gtv_product A e c1) in *.
  assert (B1 : mgv pw lg (gtv_product A h (mul A (gMAGN_CONST A) c1)) 298).
  { apply (mgv_product _ _ _ _ 265 14); [exact HH| |lia..]. apply (mg_mul2 _ _ (-19) 33); [exact (bt_mg _ _ _ MAGN_bt)|exact HB|lia..]. }
  set (b1 := gtv_product A h _) in *.
  (* half a kick *)
  set (u2 := gtv_add A (gtv_product A v0 y) e1).
  assert (RPK : rg (w0 + psi + (K + phi)) (-60) 60). { split; [change (bp (-60)) with psi|rewrite B60]; rewrite psi_val in *; lra. }
  assert (KU2 : (20 * (g * g) + 2 + 5 / 4) * u <= / 1024) by (replace ((20 * (g * g) + 2 + 5 / 4) * u) with (20 * d + (2 + 5 / 4) * u) by (unfold d; ring); lra).
  assert (ADD : forall x X z Z0, near x X (w0 + psi) (20 * (g * g) + 2) -> near z Z0 (K + phi) 6 -> near (b64_add x z) (X + Z0) T (20 * (g * g) + 4)).
  { intros x X z Z0 HX HZ. assert (N3 := near_add _ _ _ _ _ _ _ _ (20 * (g * g) + 2) HX HZ ltac:(lra) ltac:(lra) KU2). give N3 ltac:(rgs).
    apply (near_weaken _ _ _ _ T (20 * (g * g) + 4) N3); [unfold T; rewrite psi_val in *; lra|lra|replace ((20 * (g * g) + 4) * u) with (20 * d + 4 * u) by (unfold d; ring); lra]. }
  assert (U20 := ADD _ _ _ _ (X0 (g0 A v0) F0 (proj1 C0)) E0). assert (U21 := ADD _ _ _ _ (X0 (g1 A v0) F1 (proj1 (proj2 C0))) E1). assert (U22 := ADD _ _ _ _ (X0 (g2 A v0) F2 (proj2 (proj2 C0))) E2).
  change (near (g0 A u2) (ga * x0 v0 + k * x0 e) T (20 * (g * g) + 4)) in U20. change (near (g1 A u2) (ga * x1 v0 + k * x1 e) T (20 * (g * g) + 4)) in U21. change (near (g2 A u2) (ga * x2 v0 + k * x2 e) T (20 * (g * g) + 4)) in U22.
  assert (TT : T * (1 + / 1024) <= bp 60) by (rewrite B60; lra).
  assert (MU2 : mgv pw lg u2 60) by (split; [|split]; eapply near_mg; eauto).
  set (l2 := length3 (ga * x0 v0 + k * x0 e) (ga * x1 v0 + k * x1 e) (ga * x2 v0 + k * x2 e)).
  assert (L2 : Rabs (size3 pw lg u2 - l2) <= 48 * (d * T)).
  { assert (NE := length_near _ _ _ _ _ _ _ (proj2 (proj2 (proj2 U20))) (proj2 (proj2 (proj2 U21))) (proj2 (proj2 (proj2 U22)))). fold l2 in NE. fold (size3 pw lg u2) in NE. apply Rle_trans with (1 := NE).
    replace (2 * ((20 * (g * g) + 4) * u * T)) with (40 * (d * T) + 8 * (u * T)) by (unfold d; ring). lra. }
  assert (LW : Rabs (l2 - w0) <= K).
  { assert (LA := length_add (ga * x0 v0) (ga * x1 v0) (ga * x2 v0) (k * x0 e) (k * x1 e) (k * x2 e)). assert (LB := length_add_low (ga * x0 v0) (ga * x1 v0) (ga * x2 v0) (k * x0 e) (k * x1 e) (k * x2 e)).
    rewrite !length_scale in LA, LB. fold (size3 pw lg v0) in LA, LB. fold (size3 pw lg e) in LA, LB. fold s0 in LA, LB. rewrite EK, (Rabs_pos_eq ga), (Rmult_comm ga s0), EW in LA, LB by lra. fold l2 in LA, LB. apply Rabs_le. lra. }
  (* rotation *)
  assert (NG := gamma_inv_near u2 (mgv_weaken u2 60 400 MU2 ltac:(lia))). assert (W2 := boost_ge (size3 pw lg u2)).
  assert (MG : mg (gget_gamma_inv A (gtv_squared_sum A u2)) 1).
  { apply (near_mg _ _ _ _ 1 NG). assert (/ boost (size3 pw lg u2) <= 1) by (rewrite <- Rinv_1; apply Rinv_le; lra). change (bp 1) with 2. lra. }
  assert (B2 : mgv pw lg (gtv_product A b1 (gget_gamma_inv A (gtv_squared_sum A u2))) 299) by (apply (mgv_product _ _ _ _ 298 1); [exact B1|exact MG|lia..]).
  destruct (rotation_near _ u2 B2 (mgv_weaken u2 60 80 MU2 ltac:(lia))) as (R3 & (F30 & F31 & F32)).
  set (u3 := gboris_rotation A (gtv_product A b1 (gget_gamma_inv A (gtv_squared_sum A u2))) u2) in *.
  apply Rabs_le_inv in L2. apply Rabs_le_inv in LW.
  assert (S2 : size3 pw lg u2 + phi <= 102 / 100 * T) by (unfold T in *; rewrite psi_val in *; lra).
  assert (R3' : Rabs (size3 pw lg u3 - size3 pw lg u2) <= 410 * (d * T)).
  { apply Rle_trans with (1 := R3). assert (400 * u * (size3 pw lg u2 + phi) <= 400 * u * (102 / 100 * T)) by (apply Rmult_le_compat_l; lra). lra. }
  apply Rabs_le_inv in R3'. assert (S3P := size_pos u3).
  assert (S3 : size3 pw lg u3 <= w0 + K + 458 * (d * T)) by lra.
  (* the other half *)
  set (u4 := gtv_add A u3 e1). set (n3 := size3 pw lg u3) in *.
  assert (C3 := length_part (x0 u3) (x1 u3) (x2 u3)). fold (size3 pw lg u3) in C3. fold n3 in C3.
  assert (M4 : n3 + psi + (K + phi) <= 2 * T) by (unfold T in *; rewrite psi_val in *; lra).
  assert (R4 : rg (n3 + psi + (K + phi)) (-60) 61). { split; [change (bp (-60)) with psi; lra|change (bp 61) with (bp (60 + 1)); rewrite bp_succ; destruct RT; lra]. }
  assert (ADD4 : forall x z Z0, fin x -> Rabs (B2R x) <= n3 -> near z Z0 (K + phi) 6 -> near (b64_add x z) (B2R x + Z0) (2 * T) 8).
  { intros x z Z0 FX SX HZ. assert (NX := near_exact x (n3 + psi) FX ltac:(rewrite psi_val; lra)). assert (N3 := near_add _ _ _ _ _ _ _ _ 6 NX HZ ltac:(lra) ltac:(lra) ltac:(ku)). give N3 ltac:(rgs).
    apply (near_weaken _ _ _ _ (2 * T) 8 N3); [exact M4|lra|ku]. }
  assert (U40 := ADD4 _ _ _ F30 (proj1 C3) E0). assert (U41 := ADD4 _ _ _ F31 (proj1 (proj2 C3)) E1). assert (U42 := ADD4 _ _ _ F32 (proj2 (proj2 C3)) E2).
  change (near (g0 A u4) (x0 u3 + k * x0 e) (2 * T) 8) in U40. change (near (g1 A u4) (x1 u3 + k * x1 e) (2 * T) 8) in U41. change (near (g2 A u4) (x2 u3 + k * x2 e) (2 * T) 8) in U42.
  set (l4 := length3 (x0 u3 + k * x0 e) (x1 u3 + k * x1 e) (x2 u3 + k * x2 e)).
  assert (L4 : Rabs (size3 pw lg u4 - l4) <= 32 * (d * T)).
  { assert (NE := length_near _ _ _ _ _ _ _ (proj2 (proj2 (proj2 U40))) (proj2 (proj2 (proj2 U41))) (proj2 (proj2 (proj2 U42)))). fold l4 in NE. fold (size3 pw lg u4) in NE. apply Rle_trans with (1 := NE). lra. }
  assert (LW4 : Rabs (l4 - n3) <= K).
  { assert (LA := length_add (x0 u3) (x1 u3) (x2 u3) (k * x0 e) (k * x1 e) (k * x2 e)). assert (LB := length_add_low (x0 u3) (x1 u3) (x2 u3) (k * x0 e) (k * x1 e) (k * x2 e)).
    rewrite !length_scale in LA, LB. fold (size3 pw lg u3) in LA, LB. fold (size3 pw lg e) in LA, LB. rewrite EK in LA, LB. fold l4 in LA, LB. fold n3 in LA, LB. apply Rabs_le. lra. }
  apply Rabs_le_inv in L4. apply Rabs_le_inv in LW4. assert (S4P := size_pos u4).
  set (n4 := size3 pw lg u4) in *. assert (S4 : n4 <= 101 / 100 * T) by (unfold T in *; rewrite psi_val in *; lra).
  assert (MU4 : mgv pw lg u4 62).
  { split; [|split]; (eapply near_mg; [eassumption|]; replace (bp 62) with 4611686018427387904 by reflexivity; lra). }
  assert (NG4 := gamma_inv_near u4 (mgv_weaken u4 62 400 MU4 ltac:(lia))). assert (W4 := boost_ge n4). fold n4 in NG4. set (ga4 := boost n4) in *.
  assert (BG : ga4 * ga4 <= 103 / 100 * (g * g)).
  { unfold ga4. rewrite boost_sq. assert (n4 * n4 <= 101 / 100 * (P + 2 * K + 1) * (101 / 100 * (P + 2 * K + 1))) by (apply Rmult_le_compat; lra).
    assert (n4 * n4 / cc <= 10201 / 10000 * ((P + 2 * K + 1) * (P + 2 * K + 1) / cc)).
    { apply Rle_trans with (101 / 100 * (P + 2 * K + 1) * (101 / 100 * (P + 2 * K + 1)) / cc); [apply Rmult_le_compat_r; [left; now apply Rinv_0_lt_compat|assumption]|right; field; lra]. }
    lra. }
  set (p := gget_gamma_inv A (gtv_squared_sum A u4)) in *. cbn [num b64_arith] in *.
  assert (IG : 0 < / ga4 <= 1) by (split; [apply Rinv_0_lt_compat; lra|rewrite <- Rinv_1; apply Rinv_le; lra]).
  assert (RG4 : rg (/ ga4) (-40) 0).
  { split; [|change (bp 0) with 1; lra]. apply Rle_trans with (/ (ga4 * ga4)); [|apply Rinv_le; [lra|]; rewrite <- (Rmult_1_l ga4) at 1; apply Rmult_le_compat_r; lra].
    replace (bp (-40)) with (/ 1099511627776) by (cbn; lra). apply Rinv_le; [nra|lra]. }
  assert (RN4 : rg (n4 + psi) (-60) 61). { split; [change (bp (-60)) with psi; lra|change (bp 61) with (bp (60 + 1)); rewrite bp_succ; destruct RT; rewrite psi_val in *; lra]. }
  assert (C4 := length_part (x0 u4) (x1 u4) (x2 u4)). fold (size3 pw lg u4) in C4. fold n4 in C4.
  destruct U40 as (F40 & _). destruct U41 as (F41 & _). destruct U42 as (F42 & _).
  assert (AU : (a + 12) * u <= / 1024). { rewrite u_val. lra. }
  assert (MUL : forall x : b64, fin x -> Rabs (B2R x) <= n4 -> near (b64_mul x p) (B2R x * / ga4) ((n4 + psi) * / ga4) (a + 12)).
  { intros x FX SX. assert (NX := near_exact x (n4 + psi) FX ltac:(rewrite psi_val; lra)). assert (N3 := near_mul _ _ _ _ _ _ _ _ (a + 10) NX NG4 ltac:(lra) ltac:(lra)). give N3 ltac:(rgs).
    apply (near_weaken _ _ _ _ ((n4 + psi) * / ga4) (a + 12) N3); lra. }
  assert (O0 := MUL _ F40 (proj1 C4)). assert (O1 := MUL _ F41 (proj1 (proj2 C4))). assert (O2 := MUL _ F42 (proj2 (proj2 C4))).
  set (v' := gtv_product A u4 p). exists v'. split; [reflexivity|].
  assert (FV' : finite3 pw lg v') by (split; [exact (proj1 O0)|split; [exact (proj1 O1)|exact (proj1 O2)]]).
  assert (L5 : Rabs (size3 pw lg v' - n4 / ga4) <= 2 * ((a + 12) * u * ((n4 + psi) * / ga4))).
  { assert (NE := length_near _ _ _ _ _ _ _ (proj2 (proj2 (proj2 O0))) (proj2 (proj2 (proj2 O1))) (proj2 (proj2 (proj2 O2)))).
    rewrite !(Rmult_comm _ (/ ga4)), length_scale in NE. fold (size3 pw lg u4) in NE. fold n4 in NE. rewrite (Rabs_pos_eq (/ ga4)) in NE by lra.
    unfold Rdiv. rewrite (Rmult_comm n4). rewrite (Rmult_comm (n4 + psi)). exact NE. }
  assert (V' := size_pos v'). set (s' := size3 pw lg v') in *.
  assert (N4C : (n4 + psi) * / ga4 <= 300000001).
  { rewrite Rmult_plus_distr_r. destruct (momentum_boost n4 S4P) as (_ & _ & NL). fold ga4 in NL. unfold Rdiv in NL. assert (psi * / ga4 <= psi * 1) by (apply Rmult_le_compat_l; rewrite ?psi_val; lra). rewrite psi_val in *. lra. }
  assert (N4P : 0 <= (n4 + psi) * / ga4) by (apply Rmult_le_pos; rewrite ?psi_val; lra).
  assert (AU0 : 0 <= (a + 12) * u) by (apply Rmult_le_pos; lra).
  assert (SML : Rabs (s' - n4 / boost n4) <= 300000000 / (32 * (ga4 * ga4))).
  { fold ga4. apply Rle_trans with (1 := L5). apply Rle_trans with (2 * ((a + 12) * u * 300000001)); [apply Rmult_le_compat_l; [lra|apply Rmult_le_compat_l; lra]|].
    apply Rmult_le_reg_r with (32 * (ga4 * ga4)); [nra|]. replace (300000000 / (32 * (ga4 * ga4)) * (32 * (ga4 * ga4))) with 300000000 by (field; nra).
    assert ((a + 12) * u * (ga4 * ga4) <= (a + 12) * u * (103 / 100 * (g * g))) by (apply Rmult_le_compat_l; lra).
    assert (EQ : (a + 12) * u * (103 / 100 * (g * g)) = 103 / 100 * ((a + 12) * d)) by (unfold d; ring).
    assert ((a + 12) * d <= / 500) by lra. lra. }
  destruct (momentum_close n4 s' ga4 S4P V' ltac:(apply Rle_refl) SML) as (LT & GE & MC). fold ga4 in MC.
  split; [exact FV'|]. split; [exact LT|]. split.
  { apply Rle_trans with (1 := GE). assert (DS : 0 <= 1 - s' * s' / cc).
    { destruct (Rle_lt_dec 0 (1 - s' * s' / cc)) as [X|X]; [exact X|]. exfalso. assert (9 / 8 * ga4 * (9 / 8 * ga4) * (1 - s' * s' / cc) <= 0); [|lra]. assert (0 <= 9 / 8 * ga4 * (9 / 8 * ga4)) by nra. nra. }
    apply Rmult_le_compat_r; [exact DS|]. lra. }
  assert (MC' : Rabs (momentum_at s' - n4) <= (7 * a + 90) * (d * T)).
  { apply Rle_trans with (1 := MC). apply Rle_trans with (3 * (ga4 * ga4 * ga4) * (2 * ((a + 12) * u * ((n4 + psi) * / ga4)))); [apply Rmult_le_compat_l; [repeat apply Rmult_le_pos; lra|exact L5]|].
    replace (3 * (ga4 * ga4 * ga4) * (2 * ((a + 12) * u * ((n4 + psi) * / ga4)))) with (6 * (ga4 * ga4) * ((a + 12) * u * (n4 + psi))) by (field; lra).
    assert (H1 : (a + 12) * u * (n4 + psi) <= (a + 12) * u * (102 / 100 * T)) by (apply Rmult_le_compat_l; [exact AU0|unfold T in *; rewrite psi_val in *; lra]).
    apply Rle_trans with (6 * (103 / 100 * (g * g)) * ((a + 12) * u * (102 / 100 * T))).
    - apply Rmult_le_compat; [repeat apply Rmult_le_pos; lra|apply Rmult_le_pos; [exact AU0|rewrite psi_val; lra]|lra|exact H1].
    - replace (6 * (103 / 100 * (g * g)) * ((a + 12) * u * (102 / 100 * T))) with (63036 / 10000 * (a * d * T) + 63036 / 10000 * 12 * (d * T)) by (unfold d; field). lra. }
  apply Rabs_le_inv in MC'. apply Rabs_le_inv in WN. change (momentum pw lg v') with (momentum_at s').
  assert (DTT : (8 * a + 1024) * (d * T) <= (8 * a + 1024) * d * (P + 2 * K) + / 64 * (4 * psi)).
  { replace ((8 * a + 1024) * (d * T)) with ((8 * a + 1024) * d * T) by ring. apply Rle_trans with ((8 * a + 1024) * d * (P + 2 * K + 4 * psi)); [apply Rmult_le_compat_l; [apply Rmult_le_pos; lra|unfold T; lra]|].
    rewrite Rmult_plus_distr_l. apply Rplus_le_compat_l. apply Rmult_le_compat_r; rewrite ?psi_val; lra. }
  assert (TOT : (7 * a + 90) * (d * T) + 48 * (d * T) + 410 * (d * T) + 32 * (d * T) <= (8 * a + 1024) * (d * T)) by lra.
  assert (G3 : 1 <= g * g * g) by (rewrite <- (Rmult_1_l 1) at 1; apply Rmult_le_compat; lra). apply Rabs_le. rewrite psi_val in *. lra.
Qed.
End Boost.
