(** The velocities of loaded particles in binary64, in numbers. *)
From Coq Require Import ZArith Reals Lra Lia Psatz List Bool.
From Flocq Require Import Core IEEE754.BinarySingleNaN.
From Verif.Lib Require Import RAux Outcome Par.
From Verif.Model Require Import Binary64 Temperature64 Arith Constants GenCode GenRun GenSim GenLoad.
From Verif.Spec Require Import Double Loop64 Load64.
From Verif.Proof Require Import Binary64P FloatP Motion64R Axis64P Err64P Push64P Ana64P Leg64P RandP Rand64P Place64P Load64P BunchP DumpP.
Import ListNotations.
Local Open Scope R_scope.

Definition c2 : R := 300000000 * 300000000.
Definition gam (y : R) : R := sqrt (1 + y * y / c2).
Lemma c2_pos : 0 < c2. Proof. unfold c2. lra. Qed.
Lemma arg_ge1 : forall y, 1 <= 1 + y * y / c2.
Proof. intro y. assert (0 <= y * y / c2); [|lra]. apply Rmult_le_pos; [apply Rle_0_sqr|left; apply Rinv_0_lt_compat, c2_pos]. Qed.
Lemma gam_sq : forall y, gam y * gam y = 1 + y * y / c2.
Proof. intro y. apply sqrt_sqrt. assert (H := arg_ge1 y). lra. Qed.
Lemma gam_ge1 : forall y, 1 <= gam y.
Proof. intro y. rewrite <- sqrt_1. apply sqrt_le_1_alt, arg_ge1. Qed.
Lemma gam_abs : forall y, Rabs y <= 300000000 * gam y.
Proof.
  intro y. assert (G := gam_ge1 y). assert (S := gam_sq y). apply Rabs_le. assert (Q : y * y <= 300000000 * gam y * (300000000 * gam y)).
  { replace (300000000 * gam y * (300000000 * gam y)) with (c2 * (gam y * gam y)) by (unfold c2; ring). rewrite S. replace (c2 * (1 + y * y / c2)) with (c2 + y * y) by (field; apply Rgt_not_eq, c2_pos). assert (P := c2_pos). lra. }
  split; [apply Ropp_le_cancel; rewrite Ropp_involutive|]; apply sq_le_inv; lra.
Qed.
(** the root in gamma is Lipschitz *)
Lemma gam_lip : forall x X, 300000000 * Rabs (gam X - gam x) <= Rabs (x - X).
Proof.
  intros x X. assert (G1 := gam_ge1 x). assert (G2 := gam_ge1 X). assert (A1 := gam_abs x). assert (A2 := gam_abs X). assert (P := c2_pos).
  assert (E : 300000000 * (gam X - gam x) * (300000000 * (gam X + gam x)) = (X - x) * (X + x)).
  { replace (300000000 * (gam X - gam x) * (300000000 * (gam X + gam x))) with (c2 * (gam X * gam X - gam x * gam x)) by (unfold c2; ring). rewrite !gam_sq. field. lra. }
  assert (B : Rabs (X + x) <= 300000000 * (gam X + gam x)) by (apply Rle_trans with (1 := Rabs_triang _ _); lra).
  apply Rmult_le_reg_r with (300000000 * (gam X + gam x)); [lra|].
  replace (300000000 * Rabs (gam X - gam x) * (300000000 * (gam X + gam x))) with (Rabs (300000000 * (gam X - gam x) * (300000000 * (gam X + gam x)))).
  - rewrite E, Rabs_mult, (Rabs_minus_sym x X). apply Rmult_le_compat_l; [apply Rabs_pos|exact B].
  - rewrite !Rabs_mult, (Rabs_pos_eq 300000000), (Rabs_pos_eq (gam X + gam x)) by lra. reflexivity.
Qed.
Lemma speed_lip : forall x X eps eta, 0 <= eps <= / 4 -> 0 <= eta -> Rabs (x - X) <= eps * Rabs X + eta -> Rabs (x / gam x - X / gam X) <= 4 * eps * 300000000 + 4 * eta.
Proof.
  intros x X eps eta He Ht H. assert (G1 := gam_ge1 x). assert (G2 := gam_ge1 X). assert (A1 := gam_abs x). assert (A2 := gam_abs X). assert (L := gam_lip x X).
  assert (AX : Rabs X <= 2 * Rabs x + 2 * eta).
  { assert (T := Rabs_triang_inv X x). rewrite Rabs_minus_sym in T. assert (eps * Rabs X <= / 4 * Rabs X) by (apply Rmult_le_compat_r; [apply Rabs_pos|lra]). assert (P := Rabs_pos x). lra. }
  replace (x / gam x - X / gam X) with ((x - X) / gam x + X / gam X * ((gam X - gam x) / gam x)) by (field; lra).
  apply Rle_trans with (1 := Rabs_triang _ _). unfold Rdiv. rewrite !Rabs_mult.
  assert (I1 : 0 < / gam x <= 1) by (split; [apply Rinv_0_lt_compat; lra|rewrite <- Rinv_1; apply Rinv_le; lra]).
  rewrite (Rabs_pos_eq (/ gam x)) by lra. rewrite (Rabs_pos_eq (/ gam X)) by (left; apply Rinv_0_lt_compat; lra).
  assert (W : Rabs X * / gam X <= 300000000) by (apply Rmult_le_reg_r with (gam X); [lra|]; rewrite Rmult_assoc, Rinv_l by lra; lra).
  assert (D : Rabs (x - X) * / gam x <= 2 * eps * 300000000 + 2 * eta).
  { apply Rle_trans with ((2 * eps * Rabs x + 2 * eta) * / gam x).
    - apply Rmult_le_compat_r; [lra|]. apply Rle_trans with (1 := H). assert (eps * Rabs X <= eps * (2 * Rabs x + 2 * eta)) by (apply Rmult_le_compat_l; lra). assert (eps * eta <= / 4 * eta) by (apply Rmult_le_compat_r; lra). lra.
    - rewrite Rmult_plus_distr_r. apply Rplus_le_compat.
      + rewrite Rmult_assoc. apply Rmult_le_compat_l; [lra|]. apply Rmult_le_reg_r with (gam x); [lra|]. rewrite Rmult_assoc, Rinv_l by lra. lra.
      + rewrite <- (Rmult_1_r (2 * eta)) at 2. apply Rmult_le_compat_l; lra. }
  assert (S : Rabs X * / gam X * (Rabs (gam X - gam x) * / gam x) <= Rabs (x - X) * / gam x).
  { apply Rle_trans with (300000000 * (Rabs (gam X - gam x) * / gam x)); [apply Rmult_le_compat_r; [apply Rmult_le_pos; [apply Rabs_pos|lra]|exact W]|]. rewrite <- Rmult_assoc. apply Rmult_le_compat_r; lra. }
  lra.
Qed.

Lemma Rabs_triang_minus : forall a b e, Rabs (a - b) <= e -> Rabs a <= Rabs b + e.
Proof. intros a b e H. replace a with (a - b + b) by ring. apply Rle_trans with (1 := Rabs_triang _ _). lra. Qed.

Section Thermal.
Variables pw lg : b64 -> b64.
Notation A := (b64_arith pw lg).
Hypothesis HA : accurate_pow pw.

Lemma near_C2 : near C2 c2 c2 2.
Proof.
  destruct C2_val as (F & E). assert (R := rnd_err 90000000000000000). rewrite <- E in R. rewrite (Rabs_pos_eq 90000000000000000) in R by lra. assert (T := tiny_num). assert (CE : c2 = 90000000000000000) by (unfold c2; ring). rewrite CE.
  split; [exact F|]. split; [rewrite u_val; lra|]. split; [apply Req_le, Rabs_pos_eq; lra|]. apply Rle_trans with (1 := R). rewrite u_val. lra.
Qed.
Lemma pow_near : forall (y : b64) a, fin y -> 1 <= a -> Rabs (B2R y - a) <= 24 * u * a -> fin (pw y) /\ Rabs (B2R (pw y) * sqrt a - 1) <= 64 * u.
Proof.
  intros y a FY A1 DY. assert (UV := u_val).
  assert (Y1 : 1 / 2 <= B2R y) by (apply Rabs_le_inv in DY; rewrite UV in DY; lra).
  destruct (HA y FY Y1) as (FG & EG). split; [exact FG|]. set (g := pw y) in *.
  assert (G1 : 1 <= sqrt a) by (rewrite <- sqrt_1; now apply sqrt_le_1_alt). assert (GS : sqrt a * sqrt a = a) by (apply sqrt_sqrt; lra). set (ga := sqrt a) in *.
  assert (S1 : 1 / 2 <= sqrt (B2R y)). { apply sq_le_inv; [apply sqrt_pos|]. rewrite sqrt_sqrt by lra. lra. }
  assert (SS : sqrt (B2R y) * sqrt (B2R y) = B2R y) by (apply sqrt_sqrt; lra). set (sy := sqrt (B2R y)) in *.
  assert (DS : Rabs (sy - ga) <= 24 * u * ga).
  { apply Rmult_le_reg_r with ga; [lra|]. replace (24 * u * ga * ga) with (24 * u * a) by (rewrite <- GS; ring). apply Rle_trans with (2 := DY). rewrite <- SS, <- GS. replace (sy * sy - ga * ga) with ((sy - ga) * (sy + ga)) by ring. rewrite Rabs_mult. apply Rmult_le_compat_l; [apply Rabs_pos|]. rewrite Rabs_pos_eq; lra. }
  (* g ga - 1 = (g sy - 1) - g (sy - ga) *)
  assert (B50 : bp (-50) = / 1125899906842624) by reflexivity. rewrite B50 in EG.
  assert (GP : Rabs (B2R g) * ga <= 9 / 8).
  { assert (AG : Rabs (B2R g * sy) <= 1 + / 1000). { replace (B2R g * sy) with (B2R g * sy - 1 + 1) by ring. apply Rle_trans with (1 := Rabs_triang _ _). rewrite (Rabs_pos_eq 1) by lra. lra. }
    rewrite Rabs_mult in AG. rewrite (Rabs_pos_eq sy) in AG by lra.
    assert (SG : (1 - / 1000) * ga <= sy) by (apply Rabs_le_inv in DS; rewrite UV in DS; lra). assert (Rabs (B2R g) * ((1 - / 1000) * ga) <= Rabs (B2R g) * sy) by (apply Rmult_le_compat_l; [apply Rabs_pos|exact SG]). lra. }
  replace (B2R g * ga - 1) with (B2R g * sy - 1 + - (B2R g * (sy - ga))) by ring. apply Rle_trans with (1 := Rabs_triang _ _). rewrite Rabs_Ropp.
  assert (Z : Rabs (B2R g * (sy - ga)) <= 27 * u).
  { rewrite Rabs_mult. apply Rle_trans with (Rabs (B2R g) * (24 * u * ga)); [apply Rmult_le_compat_l; [apply Rabs_pos|exact DS]|]. assert (U := u_pos). replace (Rabs (B2R g) * (24 * u * ga)) with (24 * u * (Rabs (B2R g) * ga)) by ring.
    apply Rle_trans with (24 * u * (9 / 8)); [apply Rmult_le_compat_l; lra|lra]. }
  rewrite UV in *. lra.
Qed.
Lemma gamma_near : forall x : b64, mg x 300 -> let g := gget_gamma_inv A (b64_mul x x) in fin (g : b64) /\ Rabs (B2R (g : b64) * gam (B2R x) - 1) <= 64 * u.
Proof.
  intros x (Fx & Bx) g. unfold gget_gamma_inv in g.
  change (add A) with b64_add in g. change (div A) with b64_div in g. change (of_int A 1) with (b64_of_Z 1) in g. change (gLIGHT_SPEED_POW_2 A) with C2 in g. change (pow_mhalf A) with pw in g.
  set (M := Rabs (B2R x) + bp (-400)). assert (P4 := bpow_gt_0 radix2 (-400)). assert (AP := Rabs_pos (B2R x)). assert (P3 := bpow_gt_0 radix2 300).
  assert (MU : bp (-400) <= M <= bp 301). { unfold M. split; [lra|]. assert (bp 301 = 2 * bp 300) by (rewrite <- bp_succ; reflexivity). assert (bp (-400) <= bp 300) by (apply bpow_le; lia). lra. }
  assert (C := c2_pos). assert (RC : rg c2 56 57). { unfold c2. split; cbn; lra. }
  assert (RM : rg (M * M) (-800) 602) by exact (rg_mul _ _ _ _ _ _ MU MU).
  assert (NX : near x (B2R x) M 0) by (apply near_exact; [exact Fx|unfold M; lra]).
  assert (NS : near (b64_mul x x) (B2R x * B2R x) (M * M) (0 + 5 / 4)) by (apply (near_mul _ _ _ _ _ _ _ _ 0 NX NX); [lra|rewrite u_val; lra|apply rg_weaken with (1 := RM); lia]).
  assert (RQ : rg (M * M / c2) (-857) 546) by exact (rg_div _ _ _ _ _ _ RM RC).
  assert (NQ : near (b64_div (b64_mul x x) C2) (B2R x * B2R x / c2) (M * M / c2) (4 + 5 / 4)) by (apply (near_div _ _ _ _ _ _ _ 4 NS near_C2); [exact C|lra|rewrite u_val; lra|apply rg_weaken with (1 := RQ); lia]).
  destruct (of_Z_exact 1 eq_refl) as (FO & EO). assert (NO : near (b64_of_Z 1) 1 1 0) by (assert (X := near_exact (b64_of_Z 1) 1 FO); rewrite EO in X; apply X; rewrite Rabs_pos_eq; lra).
  assert (Q0 : 0 < M * M / c2) by (destruct RQ as (L & _); assert (P := bpow_gt_0 radix2 (-857)); lra).
  assert (NA : near (b64_add (b64_of_Z 1) (b64_div (b64_mul x x) C2)) (1 + B2R x * B2R x / c2) (1 + M * M / c2) (6 + 5 / 4)).
  { apply (near_add _ _ _ _ _ _ _ _ 6 NO NQ); [lra|lra|rewrite u_val; lra|]. split; [apply Rle_trans with (bp 0); [apply bpow_le; lia|cbn; lra]|]. destruct RQ as (_ & RQ). apply Rle_trans with (bp 547); [|apply bpow_le; lia].
    assert (bp 547 = 2 * bp 546) by (rewrite <- bp_succ; reflexivity). assert (1 <= bp 546) by (apply (bpow_le radix2 0 546); lia). lra. }
  set (y := b64_add (b64_of_Z 1) (b64_div (b64_mul x x) C2)) in *. set (a := 1 + B2R x * B2R x / c2) in *. assert (A1 : 1 <= a) by apply arg_ge1.
  destruct NA as (FY & _ & _ & EY).
  assert (MA : 1 + M * M / c2 <= 2 * a).
  { unfold a, M. assert (SQ : Rabs (B2R x) * Rabs (B2R x) = B2R x * B2R x) by (rewrite <- Rabs_mult; apply Rabs_pos_eq, Rle_0_sqr).
    assert (E4 : bp (-400) * bp (-400) <= / 4) by (rewrite <- bpow_plus; apply Rle_trans with (bp (-2)); [apply bpow_le; lia|cbn; lra]).
    assert (QQ : (Rabs (B2R x) + bp (-400)) * (Rabs (B2R x) + bp (-400)) <= 2 * (B2R x * B2R x) + / 2). { rewrite <- SQ. assert (S := Rle_0_sqr (Rabs (B2R x) - bp (-400))). unfold Rsqr in S. lra. }
    apply Rle_trans with (1 + (2 * (B2R x * B2R x) + / 2) / c2); [apply Rplus_le_compat_l, Rmult_le_compat_r; [left; now apply Rinv_0_lt_compat|exact QQ]|].
    assert (HI : / 2 / c2 <= 1) by (unfold c2; lra). replace ((2 * (B2R x * B2R x) + / 2) / c2) with (2 * (B2R x * B2R x / c2) + / 2 / c2) by (field; lra). lra. }
  assert (DY : Rabs (B2R y - a) <= 16 * u * a). { apply Rle_trans with (1 := EY). assert (U := u_pos). assert ((6 + 5 / 4) * u * (1 + M * M / c2) <= (6 + 5 / 4) * u * (2 * a)) by (apply Rmult_le_compat_l; [lra|exact MA]). nra. }
  exact (pow_near y a FY A1 ltac:(assert (U := u_pos); apply Rle_trans with (1 := DY); apply Rmult_le_compat_r; lra)).
Qed.

Lemma speed_near : forall x : b64, mg x 300 -> let v := b64_mul x (gget_gamma_inv A (b64_mul x x)) in fin v /\ Rabs (B2R v - B2R x / gam (B2R x)) <= 3 / 1000000.
Proof.
  intros x Mx v. destruct (gamma_near x Mx) as (FG & EG). set (g := gget_gamma_inv A (b64_mul x x)) in *. destruct Mx as (Fx & Bx).
  assert (G1 := gam_ge1 (B2R x)). assert (GA := gam_abs (B2R x)). set (ga := gam (B2R x)) in *. set (w := B2R x / ga).
  assert (W : Rabs w <= 300000000). { unfold w, Rdiv. rewrite Rabs_mult, (Rabs_pos_eq (/ ga)) by (left; apply Rinv_0_lt_compat; lra). apply Rmult_le_reg_r with ga; [lra|]. rewrite Rmult_assoc, Rinv_l by lra. lra. }
  assert (E : B2R x * B2R (g : b64) - w = w * (B2R (g : b64) * ga - 1)) by (unfold w; field; lra).
  rewrite u_val in EG.
  assert (D : Rabs (B2R x * B2R (g : b64) - w) <= 300000000 * (64 * / 9007199254740992)) by (rewrite E, Rabs_mult; apply Rmult_le_compat; auto using Rabs_pos).
  assert (AB : Rabs (B2R x * B2R (g : b64)) <= 300000001). { replace (B2R x * B2R (g : b64)) with (B2R x * B2R (g : b64) - w + w) by ring. apply Rle_trans with (1 := Rabs_triang _ _). lra. }
  destruct (mul_ok x g Fx FG) as (FV & EV); [apply Rle_trans with (1 := AB); apply Rle_trans with (bp 30); [cbn; lra|apply bpow_le; lia]|]. fold v in FV, EV. split; [exact FV|].
  rewrite EV. assert (R := rnd_err (B2R x * B2R (g : b64))). assert (T := tiny_num). rewrite u_val in R. replace (rnd (B2R x * B2R g) - w) with (rnd (B2R x * B2R (g : b64)) - B2R x * B2R (g : b64) + (B2R x * B2R (g : b64) - w)) by ring.
  apply Rle_trans with (1 := Rabs_triang _ _). lra.
Qed.

Lemma p_charge : pn (gEL_CHARGE A) (16 / IZR (10 ^ 20)) 5 (-63) (-62).
Proof.
  assert (SZ : bp 66 <= IZR (10 ^ 20) <= bp 67) by (rewrite <- !(IZR_Zpower radix2) by lia; split; apply IZR_le; now vm_compute). assert (P66 := bpow_gt_0 radix2 66).
  destruct (of_Z_ok (10 ^ 20)) as (F2 & E2); [rewrite Rabs_pos_eq by lra; apply Rle_trans with (1 := proj2 SZ); apply bpow_le; lia|].
  assert (P2 : pn (b64_of_Z (10 ^ 20)) (IZR (10 ^ 20)) 2 66 67).
  { split; [|exact SZ]. split; [exact F2|]. split; [rewrite u_val; lra|]. split; [rewrite Rabs_pos_eq; lra|]. rewrite E2. apply Rle_trans with (1 := rnd_err _). rewrite Rabs_pos_eq by lra. assert (T := tiny_num). assert (64 <= bp 66) by (apply (bpow_le radix2 6 66); lia). rewrite u_val. lra. }
  assert (P1 : pn (b64_of_Z 16) 16 0 4 4) by (apply pn_Z; [lia|cbn; lra]).
  change (gEL_CHARGE A) with (b64_div (b64_of_Z 16) (b64_of_Z (10 ^ 20))). apply (pn_div _ _ _ _ _ _ _ _ _ _ 5 P1 P2); try lia; try lra; rewrite u_val; lra.
Qed.

(** sqrt(2 e E / m) * 0.74 *)
Definition thermal (m e : R) : R := sqrt (2 * (16 / IZR (10 ^ 20)) * e / m) * (74 / 100).
Lemma p_thermal : forall mass energy : b64, fin mass -> bp (-200) <= B2R mass <= bp 100 -> fin energy -> bp (-100) <= B2R energy <= bp 100 ->
  pn (b64_mul (b64_sqrt (b64_div (b64_mul (b64_mul (b64_of_Z 2) (gEL_CHARGE A)) energy) mass)) (b64_lit 74 100)) (thermal (B2R mass) (B2R energy)) 20 (-132) 121.
Proof.
  intros mass energy Fm Hm Fe He.
  assert (P2 : pn (b64_of_Z 2) 2 0 1 1) by (apply pn_Z; [lia|cbn; lra]).
  assert (PM : pn mass (B2R mass) 0 (-200) 100) by (apply pn_exact; assumption). assert (PE : pn energy (B2R energy) 0 (-100) 100) by (apply pn_exact; assumption).
  assert (Q1 := pn_mul _ _ _ _ _ _ _ _ _ _ 7 P2 p_charge ltac:(rewrite u_val; lra) ltac:(rewrite u_val; lra) ltac:(lia) ltac:(lia)).
  assert (Q2 := pn_mul _ _ _ _ _ _ _ _ _ _ 9 Q1 PE ltac:(rewrite u_val; lra) ltac:(rewrite u_val; lra) ltac:(lia) ltac:(lia)).
  assert (Q3 := pn_div _ _ _ _ _ _ _ _ _ _ 11 Q2 PM ltac:(lra) ltac:(rewrite u_val; lra) ltac:(lia) ltac:(lia)).
  set (X := 2 * (16 / IZR (10 ^ 20)) * B2R energy / B2R mass) in *. assert (XP := pn_pos _ _ _ _ _ Q3). destruct Q3 as (N3 & R3). cbn [Z.add Z.sub Z.opp] in R3.
  assert (RS : rg (sqrt X) (-131) 120).
  { destruct R3 as (L & U). split.
    - rewrite <- (sqrt_square (bp (-131))) by apply bpow_ge_0. apply sqrt_le_1_alt. rewrite <- bpow_plus. apply Rle_trans with (2 := L). apply bpow_le. vm_compute. discriminate.
    - rewrite <- (sqrt_square (bp 120)) by apply bpow_ge_0. apply sqrt_le_1_alt. rewrite <- bpow_plus. apply Rle_trans with (1 := U). apply bpow_le. vm_compute. discriminate. }
  assert (Q4 : pn (b64_sqrt (b64_div (b64_mul (b64_mul (b64_of_Z 2) (gEL_CHARGE A)) energy) mass)) (sqrt X) (11 + 5 / 4) (-131) 120).
  { split; [|exact RS]. apply near_sqrt; [exact N3|exact XP|rewrite u_val; lra|apply rg_weaken with (1 := RS); lia]. }
  assert (P7 : pn (b64_of_Z 74) 74 0 6 7) by (apply pn_Z; [lia|cbn; lra]). assert (P100 : pn (b64_of_Z 100) 100 0 6 7) by (apply pn_Z; [lia|cbn; lra]).
  assert (Q5 := pn_div _ _ _ _ _ _ _ _ _ _ 2 P7 P100 ltac:(lra) ltac:(rewrite u_val; lra) ltac:(lia) ltac:(lia)).
  exact (pn_mul _ _ _ _ _ _ _ _ _ _ 20 Q4 Q5 ltac:(rewrite u_val; lra) ltac:(rewrite u_val; lra) ltac:(lia) ltac:(lia)).
Qed.
Lemma component_near : forall rho t : b64, forall T, pn t T 20 (-132) 121 -> fin rho -> -1 <= B2R rho <= 1 ->
  let x := b64_mul rho t in let v := b64_mul x (gget_gamma_inv A (b64_mul x x)) in let X := B2R rho * T in
  fin v /\ Rabs (B2R v - X / gam X) <= bp (-16).
Proof.
  intros rho t T ((Ft & _ & _ & Et) & RT) Fr Hr x v X. assert (P121 := bpow_gt_0 radix2 121). assert (P132 := bpow_gt_0 radix2 (-132)). destruct RT as (T1 & T2). assert (UV := u_val). assert (TN := tiny_num).
  assert (AR : Rabs (B2R rho) <= 1) by (apply Rabs_le; lra).
  assert (AT : Rabs (B2R t) <= bp 122). { assert (E : bp 122 = 2 * bp 121) by (rewrite <- bp_succ; reflexivity). apply Rabs_le_inv in Et. rewrite UV in Et. apply Rabs_le. lra. }
  assert (AX : Rabs (B2R rho * B2R t) <= bp 122). { rewrite Rabs_mult. apply Rle_trans with (1 * bp 122); [apply Rmult_le_compat; auto using Rabs_pos|lra]. }
  destruct (mul_ok rho t Fr Ft) as (Fx & Ex); [apply Rle_trans with (1 := AX); apply bpow_le; lia|]. fold x in Fx, Ex.
  assert (Mx : mg x 300).
  { split; [exact Fx|]. rewrite Ex. apply Rle_trans with (1 := Rabs_triang_minus _ _ _ (rnd_err _)). apply Rle_trans with (bp 123); [|apply bpow_le; lia]. assert (E : bp 123 = 2 * bp 122) by (rewrite <- bp_succ; reflexivity). assert (1 <= bp 122) by (apply (bpow_le radix2 0 122); lia). rewrite UV. lra. }
  destruct (speed_near x Mx) as (Fv & Ev). fold v in Fv, Ev. split; [exact Fv|].
  assert (D : Rabs (B2R x - X) <= 30 * u * Rabs X + tiny).
  { assert (D1 : Rabs (B2R rho * B2R t - X) <= 20 * u * Rabs X). { unfold X. replace (B2R rho * B2R t - B2R rho * T) with (B2R rho * (B2R t - T)) by ring. rewrite !Rabs_mult, (Rabs_pos_eq T) by lra. replace (20 * u * (Rabs (B2R rho) * T)) with (Rabs (B2R rho) * (20 * u * T)) by ring. apply Rmult_le_compat_l; [apply Rabs_pos|exact Et]. }
    assert (D2 := rnd_err (B2R rho * B2R t)). rewrite <- Ex in D2. assert (D3 := Rabs_triang_inv (B2R rho * B2R t) X). assert (XP := Rabs_pos X).
    replace (B2R x - X) with (B2R x - B2R rho * B2R t + (B2R rho * B2R t - X)) by ring. apply Rle_trans with (1 := Rabs_triang _ _). rewrite UV in *. lra. }
  assert (L := speed_lip (B2R x) X (30 * u) tiny ltac:(rewrite UV; lra) ltac:(lra) D). replace (B2R v - X / gam X) with (B2R v - B2R x / gam (B2R x) + (B2R x / gam (B2R x) - X / gam X)) by ring.
  apply Rle_trans with (1 := Rabs_triang _ _). replace (bp (-16)) with (/ 65536) by reflexivity. rewrite UV in L. lra.
Qed.
Lemma thermal_near : forall (mass : b64) (d : draw A), fin mass -> bp (-200) <= B2R mass <= bp 100 -> drawn pw lg d -> bp (-100) <= B2R (d_energy A d : b64) ->
  let v := gthermal A mass (d_energy A d) (d_rnd A d) in let T := thermal (B2R mass) (B2R (d_energy A d : b64)) in
  let speed (rho : b64) := B2R rho * T / gam (B2R rho * T) in
  Rabs (B2R (g0 A v : b64) - speed (g0 A (d_rnd A d))) <= bp (-16) /\ Rabs (B2R (g1 A v : b64) - speed (g1 A (d_rnd A d))) <= bp (-16) /\ Rabs (B2R (g2 A v : b64) - speed (g2 A (d_rnd A d))) <= bp (-16).
Proof.
  intros mass d Fm Hm ((Fe & He) & (F0 & R0) & (F1 & R1) & (F2 & R2)) HE v T speed. subst v. unfold gthermal. cbn [g0 g1 g2].
  assert (P := p_thermal mass (d_energy A d) Fm Hm Fe ltac:(split; [exact HE|apply He])). fold T in P.
  split; [|split]; apply (component_near _ _ T P); assumption.
Qed.
End Thermal.

Lemma made_speed : forall B ipow g n1 n2 charge mass draws ps n p d, gload_group B ipow g n1 n2 charge mass draws = Some ps ->
  nth_error ps n = Some p -> nth_error draws n = Some d -> gvel B (gph B p) = gthermal B mass (d_energy B d) (d_rnd B d).
Proof.
  intros B ipow g n1 n2 charge mass draws ps n p d L Hn Hd. unfold gload_group in L. destruct (gload_rands B ipow _ _) as [rands|]; [|discriminate]. injection L as <-.
  rewrite nth_error_map in Hn. destruct (nth_error (combine rands draws) n) as [[y d']|] eqn:E; [|discriminate]. injection Hn as <-.
  assert (D : d' = d). { assert (G : forall (U V : Type) (l : list U) (l' : list V) n a b, nth_error (combine l l') n = Some (a, b) -> nth_error l' n = Some b) by (intros U V l; induction l as [|u0 l IH]; intros [|v0 l'] [|m] a b H; cbn in *; try discriminate; [congruence|exact (IH _ _ _ _ H)]). apply G in E. congruence. }
  subst. reflexivity.
Qed.
