(** The places of loaded particles in binary64. *)
From Coq Require Import ZArith Reals Lra Lia Psatz List Bool.
From Flocq Require Import Core Mult_error IEEE754.BinarySingleNaN.
From Verif.Lib Require Import RAux Outcome.
From Verif.Model Require Import Binary64 Temperature64 Arith GenCode GenLoad.
From Verif.Spec Require Import Double Load64.
From Verif.Proof Require Import Binary64P FloatP Motion64R Axis64P Err64P.
Local Open Scope R_scope.

(** ** The root of a rounded square *)
Notation fx := (SpecFloat.fexp prec64 emax64).
Notation F64 := (generic_format radix2 fx).

Lemma rnd_le_mid : forall x v, F64 x -> v < (x + succ radix2 fx x) / 2 -> rnd v <= x.
Proof. intros x v Fx H. apply (round_N_le_midp radix2 fx _ x v Fx H). Qed.
Lemma rnd_ge_mid : forall x v, F64 x -> (x + pred radix2 fx x) / 2 < v -> x <= rnd v.
Proof. intros x v Fx H. apply (round_N_ge_midp radix2 fx _ x v Fx H). Qed.

Lemma root_hi : forall x, 0 <= x -> sqrt (x * x * (1 + u)) <= x * (1 + u / 2).
Proof.
  intros x Hx. assert (U := u_val). rewrite <- (sqrt_square (x * (1 + u / 2))) by (apply Rmult_le_pos; lra). apply sqrt_le_1_alt.
  replace (x * (1 + u / 2) * (x * (1 + u / 2))) with (x * x * (1 + u + u * u / 4)) by field. apply Rmult_le_compat_l; [nra|rewrite U; lra].
Qed.
Lemma root_lo : forall x, 0 <= x -> x * (1 - u / 2 - u * u / 4) <= sqrt (x * x * (1 - u)).
Proof.
  intros x Hx. assert (U := u_val). rewrite <- (sqrt_square (x * (1 - u / 2 - u * u / 4))) by (apply Rmult_le_pos; rewrite ?U; lra). apply sqrt_le_1_alt.
  replace (x * (1 - u / 2 - u * u / 4) * (x * (1 - u / 2 - u * u / 4))) with (x * x * (1 - u - u * u / 4 + u * u * u / 4 + u * u * u * u / 16)) by field. apply Rmult_le_compat_l; [nra|rewrite U; lra].
Qed.

Lemma normal_ulp : forall x, bp (-1000) <= x -> ulp radix2 fx x = bp (mag radix2 x - 53) /\ bp (mag radix2 x - 1) <= x < bp (mag radix2 x).
Proof.
  intros x Hx. assert (P := bpow_gt_0 radix2 (-1000)). assert (M := bpow_mag_le radix2 x ltac:(lra)). assert (G := bpow_mag_gt radix2 x). rewrite Rabs_pos_eq in M, G by lra.
  split; [|split; assumption]. rewrite ulp_neq_0 by lra. unfold cexp. f_equal. unfold SpecFloat.fexp, SpecFloat.emin.
  assert (-1000 < mag radix2 x)%Z by (apply (lt_bpow radix2); lra). change prec64 with 53%Z. change emax64 with 1024%Z. lia.
Qed.

Lemma root_of_square : forall x, F64 x -> bp (-400) <= x <= bp 400 -> rnd (sqrt (rnd (x * x))) = x.
Proof.
  intros x Fx (Lx & Ux). assert (P4 := bpow_gt_0 radix2 (-400)). assert (U := u_val).
  assert (LN : bp (-1000) <= x) by (apply Rle_trans with (2 := Lx); apply bpow_le; lia).
  destruct (normal_ulp x LN) as (UL & ML & MU). set (e := mag radix2 x : Z) in *.
  assert (E53 : bp (e - 53) = 2 * u * bp (e - 1)) by (unfold u; rewrite <- bp_succ; change (bpow radix2) with bp; rewrite <- bpow_plus; f_equal; lia).
  assert (E1 : bp e = 2 * bp (e - 1)) by (rewrite <- bp_succ; f_equal; lia). assert (PE := bpow_gt_0 radix2 (e - 1)).
  assert (X2 : 0 < x * x) by nra.
  assert (ERR : Rabs (rnd (x * x) - x * x) <= u * (x * x)).
  { assert (R := error_le_half_ulp radix2 fx (fun z => negb (Z.even z)) (x * x)). apply Rle_trans with (1 := R).
    assert (LX : bp (-1000) <= x * x).
    { apply Rle_trans with (bp (-400) * bp (-400)); [rewrite <- bpow_plus; apply bpow_le; lia|]. apply Rmult_le_compat; lra. }
    destruct (normal_ulp (x * x) LX) as (-> & M2 & _). set (f := mag radix2 (x * x) : Z) in *.
    assert (bp (f - 53) = 2 * u * bp (f - 1)) by (unfold u; rewrite <- bp_succ; rewrite <- bpow_plus; f_equal; lia). rewrite H. rewrite U in *. lra. }
  apply Rabs_le_inv in ERR.
  assert (HI : sqrt (rnd (x * x)) <= x * (1 + u / 2)).
  { apply Rle_trans with (2 := root_hi x ltac:(lra)). apply sqrt_le_1_alt. lra. }
  assert (SU : rnd (sqrt (rnd (x * x))) <= x).
  { apply rnd_le_mid; [exact Fx|]. rewrite succ_eq_pos, UL, E53 by lra. apply Rle_lt_trans with (1 := HI).
    replace (x * (1 + u / 2)) with (x + u * x / 2) by field. rewrite U. lra. }
  apply Rle_antisym; [exact SU|]. destruct (Req_dec x (bp (e - 1))) as [E|NE].
  - assert (EX : rnd (x * x) = x * x).
    { rewrite E, <- bpow_plus. apply rnd_bp. assert (-400 <= e)%Z by (apply (le_bpow radix2); lra). lia. }
    rewrite EX, sqrt_square by lra. apply Req_le. symmetry. apply round_generic; [apply valid_rnd_N|exact Fx].
  - apply rnd_ge_mid; [exact Fx|]. rewrite pred_eq_pos by lra. unfold pred_pos. fold e. rewrite Req_bool_false by exact NE. rewrite UL, E53.
    assert (LO : x * (1 - u / 2 - u * u / 4) <= sqrt (rnd (x * x))).
    { apply Rle_trans with (1 := root_lo x ltac:(lra)). apply sqrt_le_1_alt. lra. }
    apply Rlt_le_trans with (2 := LO).
    assert (XU : x <= bp e - bp (e - 53)).
    { assert (S := succ_le_lt radix2 fx x (bp e) Fx). assert (FE : F64 (bp e)).
      { apply generic_format_bpow. unfold SpecFloat.fexp, SpecFloat.emin. change prec64 with 53%Z. change emax64 with 1024%Z. assert (-400 <= e)%Z by (apply (le_bpow radix2); lra). lia. }
      specialize (S FE MU). rewrite succ_eq_pos, UL in S by lra. lra. }
    rewrite E53, E1 in XU. 
    replace (x * (1 - u / 2 - u * u / 4)) with (x - (u * x / 2 + u * u * x / 4)) by field. rewrite U in *. lra.
Qed.

(** ** One axis *)
Section Axis.
Variables (n : Z) (size d : b64).
Hypothesis AX : axis n size d.
Notation len := (len d).
Notation q := (q d).
Notation top := (top n d).
Let Ll := len_lo _ _ _ AX. Let Lh := len_hi _ _ _ AX. Let Lp := len_pos _ _ _ AX. Let Qb := q_bounds _ _ _ AX. Let Th := top_hi _ _ _ AX. Let Nb := n_bounds _ _ _ AX. Let Fd := fin_d _ _ _ AX.
Notation hd := (b64_div d (b64_of_Z 2)).
Definition W : b64 := b64_sub size d.

Lemma half_exact : fin hd /\ B2R hd = len / 2.
Proof.
  destruct two as (F2 & E2). destruct (div_ok d (b64_of_Z 2) Fd) as (F & E).
  - rewrite E2. lra.
  - rewrite E2. apply (small_fits _ _ _ AX). unfold Axis64P.len in *. rewrite Rabs_pos_eq; lra.
  - split; [exact F|]. rewrite E, E2. fold len. apply round_generic; [apply valid_rnd_N|].
    replace (len / 2) with (len * bp (-1)) by (cbn; lra).
    assert (G : F64 len) by (unfold Axis64P.len; apply generic_format_B2R).
    apply (mult_bpow_exact_FLT radix2 (3 - emax64 - prec64) prec64); [exact G|].
    assert (-30 < mag radix2 len)%Z.
    { apply (lt_bpow radix2). apply Rle_lt_trans with len; [rewrite bp_m30; exact Ll|]. assert (M := bpow_mag_gt radix2 len). rewrite Rabs_pos_eq in M by lra. exact M. }
    change emax64 with 1024%Z. change prec64 with 53%Z. lia.
Qed.

Lemma top_lo : 2 * len <= top.
Proof. unfold Axis64P.top. nra. Qed.

Lemma W_ok : fin W /\ Rabs (B2R W - (top - len)) <= 2 * q.
Proof.
  assert (S := size_ok _ _ _ AX). apply Rabs_le_inv in S. assert (T := top_lo).
  destruct (sub_q _ _ _ AX size d (ax_fin _ _ _ AX) Fd) as (F & E); [unfold Axis64P.len in *; apply Rabs_le; lra|].
  split; [exact F|]. fold len in E. apply Rabs_le_inv in E. apply Rabs_le. unfold W. lra.
Qed.
Lemma W_range : 99 / 100 * len <= B2R W <= 1048576 * len.
Proof. destruct W_ok as (_ & E). apply Rabs_le_inv in E. assert (T := top_lo). lra. Qed.

Lemma place : forall p : b64, fin p -> 0 <= B2R p <= B2R W + 2 * q ->
  let r := b64_add p hd in fin r /\ len / 2 <= B2R r <= top - len / 2 + 6 * q /\ Rabs (B2R r - (B2R p + len / 2)) <= q.
Proof.
  intros p Fp (P0 & P1) r. destruct half_exact as (FH & EH). destruct W_ok as (_ & E). apply Rabs_le_inv in E.
  destruct (add_ok p hd Fp FH) as (FR & ER).
  { apply (small_fits _ _ _ AX). rewrite EH, Rabs_pos_eq; lra. }
  destruct (add_q _ _ _ AX p hd Fp FH) as (_ & D); [rewrite EH; apply Rabs_le; lra|].
  fold r in FR, ER, D. rewrite EH in ER, D. split; [exact FR|]. split; [split|exact D].
  - rewrite ER. rewrite <- EH at 1. rewrite <- (rnd_B2R hd), EH. apply rnd_mono. lra.
  - apply Rabs_le_inv in D. lra.
Qed.

Lemma radius_place : forall x : b64, fraction x ->
  let r := b64_add (b64_mul W x) hd in fin r /\ len / 2 <= B2R r <= top - len / 2 + 6 * q /\ Rabs (B2R r - ((top - len) * B2R x + len / 2)) <= 4 * q.
Proof.
  intros x (Fx & X0 & X1) r. assert (P36 := bpow_gt_0 radix2 (-36)). destruct W_ok as (FW & EW). assert (WR := W_range). assert (B : 0 <= B2R W * B2R x <= B2R W) by nra.
  destruct (mul_q _ _ _ AX W x FW Fx) as (FM & EM); [apply Rabs_le; lra|]. apply Rabs_le_inv in EM.
  destruct (mul_ok W x FW Fx) as (_ & VM); [apply (small_fits _ _ _ AX), Rabs_le; lra|].
  assert (M0 : 0 <= B2R (b64_mul W x)) by (rewrite VM, <- rnd_0; apply rnd_mono; lra).
  destruct (place (b64_mul W x) FM) as (FR & RR & DR); [lra|]. split; [exact FR|]. split; [exact RR|]. fold r in DR. apply Rabs_le_inv in DR, EW. apply Rabs_le.
  assert (Rabs ((B2R W - (top - len)) * B2R x) <= 2 * q).
  { rewrite Rabs_mult, (Rabs_pos_eq (B2R x)) by lra. apply Rle_trans with (Rabs (B2R W - (top - len)) * 1); [apply Rmult_le_compat_l; [apply Rabs_pos|lra]|]. rewrite Rmult_1_r. apply Rabs_le. lra. }
  apply Rabs_le_inv in H. lra.
Qed.

Lemma add_zero : forall p : b64, fin p -> fin (b64_add p (b64_of_Z 0)) /\ B2R (b64_add p (b64_of_Z 0)) = B2R p.
Proof.
  intros p Fp. destruct (of_Z_exact 0 eq_refl) as (F0 & E0). unfold b64_add.
  assert (C := Bplus_correct prec64 emax64 _ _ mode_NE p (b64_of_Z 0) Fp F0).
  rewrite E0, Rplus_0_r in C. rewrite (round_generic radix2 _ _ (B2R p)) in C by apply generic_format_B2R.
  rewrite Rlt_bool_true in C by apply abs_B2R_lt_emax. destruct C as (C1 & C2 & _). split; [exact C2|exact C1].
Qed.
Lemma sub_zero : forall p : b64, fin p -> fin (b64_sub p (b64_of_Z 0)) /\ B2R (b64_sub p (b64_of_Z 0)) = B2R p.
Proof.
  intros p Fp. destruct (of_Z_exact 0 eq_refl) as (F0 & E0). unfold b64_sub.
  assert (C := Bminus_correct prec64 emax64 _ _ mode_NE p (b64_of_Z 0) Fp F0).
  rewrite E0, Rminus_0_r in C. rewrite (round_generic radix2 _ _ (B2R p)) in C by apply generic_format_B2R.
  rewrite Rlt_bool_true in C by apply abs_B2R_lt_emax. destruct C as (C1 & C2 & _). split; [exact C2|exact C1].
Qed.

(** the branch of equal densities *)
Lemma even_place : forall x : b64, fraction x ->
  let z := b64_add (b64_add (b64_mul x W) (b64_of_Z 0)) hd in fin z /\ len / 2 <= B2R z <= top - len / 2 + 6 * q /\ Rabs (B2R z - ((top - len) * B2R x + len / 2)) <= 4 * q.
Proof.
  intros x (Fx & X0 & X1) r. assert (P36 := bpow_gt_0 radix2 (-36)). destruct W_ok as (FW & EW). assert (WR := W_range). assert (B : 0 <= B2R x * B2R W <= B2R W) by nra.
  destruct (mul_q _ _ _ AX x W Fx FW) as (FM & EM); [apply Rabs_le; lra|]. apply Rabs_le_inv in EM.
  destruct (mul_ok x W Fx FW) as (_ & VM); [apply (small_fits _ _ _ AX), Rabs_le; lra|].
  assert (M0 : 0 <= B2R (b64_mul x W)) by (rewrite VM, <- rnd_0; apply rnd_mono; lra). destruct (add_zero _ FM) as (FZ & EZ).
  destruct (place (b64_add (b64_mul x W) (b64_of_Z 0)) FZ) as (FR & RR & DR); [lra|]. split; [exact FR|]. split; [exact RR|]. fold r in DR. rewrite EZ in DR. apply Rabs_le_inv in DR, EW. apply Rabs_le.
  assert (H : Rabs ((B2R W - (top - len)) * B2R x) <= 2 * q).
  { rewrite Rabs_mult, (Rabs_pos_eq (B2R x)) by lra. apply Rle_trans with (Rabs (B2R W - (top - len)) * 1); [apply Rmult_le_compat_l; [apply Rabs_pos|lra]|]. rewrite Rmult_1_r. apply Rabs_le. lra. }
  apply Rabs_le_inv in H. lra.
Qed.

(** the branch of different densities: the root is between the densities *)
Variables n1 n2 : b64.
Hypothesis DEN : densities n1 n2.
Hypothesis DIFF : B2R n1 <> B2R n2.
Notation a := (B2R n1).
Notation b := (B2R n2).
Notation M := (Rmax a b).
Notation dn := (b64_sub n2 n1).

Lemma den_range : 0 <= a <= M /\ 0 <= b <= M /\ bp (-100) <= M <= bp 100 /\ M / 1024 <= Rabs (b - a).
Proof.
  destruct DEN as (_ & _ & D1 & D2 & P & S). assert (P1 := bpow_gt_0 radix2 (-100)). assert (P2 := bpow_gt_0 radix2 100).
  assert (A0 : 0 <= a) by (destruct D1; lra). assert (B0 : 0 <= b) by (destruct D2; lra). split; [split; [exact A0|apply Rmax_l]|]. split; [split; [exact B0|apply Rmax_r]|].
  split; [|destruct S; [contradiction|assumption]]. unfold Rmax. destruct (Rle_dec a b); destruct D1, D2; lra.
Qed.

Lemma M_rg : rg M (-100) 100. Proof. apply den_range. Qed.
Ltac rg1 := let G := fresh in assert (G := M_rg); let P := fresh in assert (P := rg_pos _ _ _ G).

Lemma dn_near : near dn (b - a) (M + M) (5 / 4).
Proof.
  destruct den_range as (HA & HB & HM & _). destruct DEN as (F1 & F2 & _). assert (U := u_val).
  apply near_eq with (X := b - a) (M := M + M); [|reflexivity|reflexivity]. replace (5 / 4) with (0 + 5 / 4) by lra.
  apply (near_sub n2 b M 0 n1 a M 0 0); try lra.
  - apply near_exact; [exact F2|rewrite Rabs_pos_eq; lra].
  - apply near_exact; [exact F1|rewrite Rabs_pos_eq; lra].
  - apply rg_weaken with (-100)%Z 101%Z; [|lia|lia]. assert (G := rg_add M M (-100) 100 (-100) 100 M_rg M_rg). exact G.
Qed.

Variable x : b64.
Hypothesis FRAC : fraction x.
Notation two := (b64_of_Z 2).
Definition S2 : b64 := b64_add (b64_mul (b64_mul two n1) dn) (b64_mul dn dn).
Definition X' : b64 := b64_add (b64_mul n1 n1) (b64_mul x S2).

Lemma two_n1 : near (b64_mul two n1) (2 * a) (2 * M) (5 / 4).
Proof.
  destruct den_range as (HA & HB & HM & _). destruct DEN as (F1 & F2 & _). destruct Axis64P.two as (FT & ET). assert (U := u_val).
  assert (N2 : near two 2 2 0). { apply near_eq with (B2R two) 2; [|exact ET|reflexivity]. apply near_exact; [exact FT|rewrite ET, Rabs_pos_eq; lra]. }
  replace (5 / 4) with (0 + 5 / 4) by lra.
  apply (near_mul two 2 2 0 n1 a M 0 0); try lra; [exact N2|apply near_exact; [exact F1|rewrite Rabs_pos_eq; lra]|].
  apply rg_weaken with (1 + -100)%Z (1 + 100)%Z; [|lia|lia]. apply rg_mul; [split; cbn; lra|exact M_rg].
Qed.

Lemma S2_near : near S2 (b * b - a * a) (8 * (M * M)) (51 / 10).
Proof.
  assert (U := u_val). assert (N1 := two_n1). assert (ND := dn_near). assert (RM := M_rg).
  assert (R2 : rg (M + M) (-100) 101) by (apply (rg_add M M (-100) 100 (-100) 100 RM RM)).
  assert (R2' : rg (2 * M) (-99) 101) by (apply (rg_mul 2 M 1 1 (-100) 100); [split; cbn; lra|exact RM]).
  assert (A1 : near (b64_mul (b64_mul two n1) dn) (2 * a * (b - a)) (2 * M * (M + M)) (26 / 10 + 5 / 4)).
  { apply (near_mul _ _ _ _ _ _ _ _ (26 / 10) N1 ND); [rewrite U; lra|rewrite U; lra|]. apply rg_weaken with (-99 + -100)%Z (101 + 101)%Z; [|lia|lia]. now apply rg_mul. }
  assert (A2 : near (b64_mul dn dn) ((b - a) * (b - a)) ((M + M) * (M + M)) (26 / 10 + 5 / 4)).
  { apply (near_mul _ _ _ _ _ _ _ _ (26 / 10) ND ND); [rewrite U; lra|rewrite U; lra|]. apply rg_weaken with (-100 + -100)%Z (101 + 101)%Z; [|lia|lia]. now apply rg_mul. }
  assert (A3 : near S2 (2 * a * (b - a) + (b - a) * (b - a)) (2 * M * (M + M) + (M + M) * (M + M)) (26 / 10 + 5 / 4 + 5 / 4)).
  { apply (near_add _ _ _ _ _ _ _ _ (26 / 10 + 5 / 4) A1 A2); try lra. apply rg_weaken with (Z.max (-99 + -100) (-100 + -100))%Z (Z.max (101 + 101) (101 + 101) + 1)%Z; [|lia|lia]. apply rg_add; now apply rg_mul. }
  apply near_weaken with (8 * (M * M)) (26 / 10 + 5 / 4 + 5 / 4); try lra. apply (near_eq _ _ _ _ _ _ A3); ring.
Qed.

Lemma X_near : near X' (a * a + B2R x * (b * b - a * a)) (9 * (M * M)) 8.
Proof.
  assert (U := u_val). assert (NS := S2_near). assert (RM := M_rg). destruct den_range as (HA & HB & HM & _). destruct DEN as (F1 & F2 & _). destruct FRAC as (Fx & X0 & X1). assert (P36 := bpow_gt_0 radix2 (-36)).
  assert (RMM : rg (M * M) (-200) 200) by (apply (rg_mul M M (-100) 100 (-100) 100 RM RM)).
  assert (R8 : rg (8 * (M * M)) (-197) 203) by (apply (rg_mul 8 (M * M) 3 3 (-200) 200); [split; cbn; lra|exact RMM]).
  assert (NA : near n1 a M 0) by (apply near_exact; [exact F1|rewrite Rabs_pos_eq; lra]).
  assert (NX : near x (B2R x) 1 0) by (apply near_exact; [exact Fx|rewrite Rabs_pos_eq; lra]).
  assert (A1 : near (b64_mul n1 n1) (a * a) (M * M) (0 + 5 / 4)).
  { apply (near_mul _ _ _ _ _ _ _ _ 0 NA NA); [lra|lra|]. apply rg_weaken with (-200)%Z 200%Z; [exact RMM|lia|lia]. }
  assert (A2 : near (b64_mul x S2) (B2R x * (b * b - a * a)) (1 * (8 * (M * M))) (51 / 10 + 5 / 4)).
  { apply (near_mul _ _ _ _ _ _ _ _ (51 / 10) NX NS); [lra|lra|]. rewrite Rmult_1_l. apply rg_weaken with (-197)%Z 203%Z; [exact R8|lia|lia]. }
  assert (A3 : near X' (a * a + B2R x * (b * b - a * a)) (M * M + 1 * (8 * (M * M))) (51 / 10 + 5 / 4 + 5 / 4)).
  { apply (near_add _ _ _ _ _ _ _ _ (51 / 10 + 5 / 4) A1 A2); try lra. rewrite Rmult_1_l. apply rg_weaken with (Z.max (-200) (-197))%Z (Z.max 200 203 + 1)%Z; [|lia|lia]. apply rg_add; assumption. }
  apply near_weaken with (9 * (M * M)) (51 / 10 + 5 / 4 + 5 / 4); try lra. apply (near_eq _ _ _ _ _ _ A3); ring.
Qed.

Lemma gap : 128 * u * (M * M) <= (1 - B2R x) * Rabs (b * b - a * a) /\ M * M / 1024 <= Rabs (b * b - a * a).
Proof.
  destruct den_range as (HA & HB & HM & HD). destruct FRAC as (Fx & X0 & X1). assert (P := bpow_gt_0 radix2 (-100)).
  assert (G : M * M / 1024 <= Rabs (b * b - a * a)).
  { replace (b * b - a * a) with ((b - a) * (b + a)) by ring. rewrite Rabs_mult, (Rabs_pos_eq (b + a)) by lra.
    apply Rle_trans with (M / 1024 * M); [right; field|]. apply Rmult_le_compat; try lra. unfold Rmax in *. destruct (Rle_dec a b); lra. }
  split; [|exact G]. assert (V36 : bp (-36) = / 68719476736) by (cbn; lra). change (bpow radix2 (-36)) with (bp (-36)) in X1. rewrite V36 in X1. rewrite u_val.
  apply Rle_trans with (/ 68719476736 * (M * M / 1024)); [right; lra|]. apply Rmult_le_compat; try lra. assert (0 <= M * M) by nra. lra.
Qed.

Notation aa := (b64_mul n1 n1).
Notation xs := (b64_mul x S2).
Lemma parts_near : near aa (a * a) (M * M) (5 / 4) /\ near xs (B2R x * (b * b - a * a)) (8 * (M * M)) 7 /\ B2R X' = rnd (B2R aa + B2R xs) /\ B2R xs = rnd (B2R x * B2R S2) /\ B2R aa = rnd (a * a).
Proof.
  assert (U := u_val). assert (NS := S2_near). assert (RM := M_rg). destruct den_range as (HA & HB & HM & _). destruct DEN as (F1 & F2 & _). destruct FRAC as (Fx & X0 & X1). assert (P36 := bpow_gt_0 radix2 (-36)).
  assert (RMM : rg (M * M) (-200) 200) by (apply (rg_mul M M (-100) 100 (-100) 100 RM RM)). assert (PMM := rg_pos _ _ _ RMM).
  assert (R8 : rg (8 * (M * M)) (-197) 203) by (apply (rg_mul 8 (M * M) 3 3 (-200) 200); [split; cbn; lra|exact RMM]).
  assert (NA : near n1 a M 0) by (apply near_exact; [exact F1|rewrite Rabs_pos_eq; lra]).
  assert (NX : near x (B2R x) 1 0) by (apply near_exact; [exact Fx|rewrite Rabs_pos_eq; lra]).
  assert (A1 : near aa (a * a) (M * M) (0 + 5 / 4)).
  { apply (near_mul _ _ _ _ _ _ _ _ 0 NA NA); [lra|lra|]. apply rg_weaken with (-200)%Z 200%Z; [exact RMM|lia|lia]. }
  assert (A2 : near xs (B2R x * (b * b - a * a)) (1 * (8 * (M * M))) (51 / 10 + 5 / 4)).
  { apply (near_mul _ _ _ _ _ _ _ _ (51 / 10) NX NS); [lra|lra|]. rewrite Rmult_1_l. apply rg_weaken with (-197)%Z 203%Z; [exact R8|lia|lia]. }
  destruct (near_size _ _ _ _ A1) as (_ & Z1). destruct (near_size _ _ _ _ A2) as (_ & Z2). destruct (near_size _ _ _ _ NS) as (_ & Z3). 
  assert (UP : M * M <= bp 200) by apply RMM. assert (V : bp 210 = 1024 * bp 200) by (replace 1024 with (bp 10) by (cbn; lra); rewrite <- bpow_plus; reflexivity). assert (V2 : bp 210 <= bp 1023) by (apply bpow_le; lia).
  split; [apply near_weaken with (M * M) (0 + 5 / 4); try lra; exact A1|]. split; [apply near_weaken with (1 * (8 * (M * M))) (51 / 10 + 5 / 4); try lra; exact A2|].
  split; [|split].
  - apply add_ok; [apply A1|apply A2|]. apply Rle_trans with (1 := Rabs_triang _ _). lra.
  - apply mul_ok; [exact Fx|apply NS|]. rewrite Rabs_mult, (Rabs_pos_eq (B2R x)) by lra. apply Rle_trans with (1 * (8 * (M * M) * (1 + / 1024))); [apply Rmult_le_compat; try lra; apply Rabs_pos|lra].
  - apply mul_ok; [exact F1|exact F1|]. rewrite Rabs_pos_eq by nra. apply Rle_trans with (M * M); [apply Rmult_le_compat; lra|lra].
Qed.

Lemma sq_root : rnd (sqrt (rnd (a * a))) = a.
Proof.
  destruct DEN as (F1 & _ & [E|(L & H)] & _).
  - rewrite E, Rmult_0_l, rnd_0, sqrt_0. apply rnd_0.
  - apply root_of_square; [apply generic_format_B2R|]. split; [apply Rle_trans with (2 := L)|apply Rle_trans with (1 := H)]; apply bpow_le; lia.
Qed.

Notation s := (b64_sqrt X').
Lemma root_between : fin s /\ ((a < b /\ a <= B2R s <= b) \/ (b < a /\ b <= B2R s <= a)).
Proof.
  assert (U := u_val). assert (NX := X_near). assert (NS := S2_near). destruct gap as (G1 & G2). destruct parts_near as (NA & NP & EX & EP & EA). destruct den_range as (HA & HB & HM & _). destruct FRAC as (Fx & X0 & X1).
  assert (P36 := bpow_gt_0 radix2 (-36)). assert (PM := bpow_gt_0 radix2 (-100)). assert (PMM : 0 < M * M) by nra.
  destruct NX as (FX & _ & _ & EXn). destruct NS as (FS & _ & _ & ES). apply Rabs_le_inv in EXn, ES.
  assert (X0' : 0 <= B2R X').
  { destruct (Rtotal_order a b) as [H|[H|H]]; [|contradiction|].
    - rewrite (Rabs_pos_eq (b * b - a * a)) in G1, G2 by nra. rewrite EX, <- rnd_0. apply rnd_mono. rewrite EP, EA.
      assert (0 <= rnd (a * a)) by (rewrite <- rnd_0; apply rnd_mono; nra). assert (0 <= rnd (B2R x * B2R S2)) by (rewrite <- rnd_0; apply rnd_mono; apply Rmult_le_pos; [lra|rewrite U in ES; lra]). lra.
    - rewrite (Rabs_left1 (b * b - a * a)) in G1, G2 by nra. assert (0 <= b * b) by nra. rewrite U in *. lra. }
  assert (RA : rnd (a * a) = rnd (B2R aa)) by (rewrite rnd_B2R; symmetry; exact EA).
  destruct (sqrt_ok X' FX X0') as (Fs & Es). split; [exact Fs|]. rewrite Es.
  destruct (Rtotal_order a b) as [H|[H|H]]; [left|contradiction|right].
  - rewrite (Rabs_pos_eq (b * b - a * a)) in G1, G2 by nra. split; [exact H|]. split.
    + rewrite <- sq_root at 1. apply rnd_mono, sqrt_le_1_alt. rewrite EX, RA. apply rnd_mono.
      assert (0 <= B2R xs); [|lra]. rewrite EP, <- rnd_0. apply rnd_mono, Rmult_le_pos; [lra|rewrite U in ES; lra].
    + rewrite <- (rnd_B2R n2). apply rnd_mono. rewrite <- (sqrt_square b) by lra. apply sqrt_le_1_alt. rewrite U in *. lra.
  - rewrite (Rabs_left1 (b * b - a * a)) in G1, G2 by nra. split; [exact H|]. split.
    + rewrite <- (rnd_B2R n2) at 1. apply rnd_mono. rewrite <- (sqrt_square b) at 1 by lra. apply sqrt_le_1_alt. rewrite U in *. lra.
    + apply Rle_trans with (rnd (sqrt (rnd (a * a)))); [|rewrite sq_root; lra]. apply rnd_mono, sqrt_le_1_alt. rewrite EX, RA. apply rnd_mono.
      assert (B2R xs <= 0); [|lra]. rewrite EP, <- rnd_0. apply rnd_mono. assert (B2R S2 <= 0) by (rewrite U in ES; lra). nra.
Qed.

Notation y := (b64_sub s n1).
Notation c := (b64_div W dn).
Lemma share : forall A B e w, 0 < B -> 0 <= A <= B -> 0 <= w -> 0 <= e -> 0 <= (w / B + e) * A <= w + e * B.
Proof.
  intros A0 B0 e w HB HA Hw He. assert (0 <= w / B0) by (apply Rmult_le_pos; [lra|left; now apply Rinv_0_lt_compat]). split; [apply Rmult_le_pos; lra|].
  apply Rle_trans with ((w / B0 + e) * B0); [apply Rmult_le_compat_l; lra|]. right. field. lra.
Qed.

Lemma uneven_place :
  let p := b64_mul c y in fin p /\ 0 <= B2R p <= B2R W + 2 * q /\
  exists t, 0 <= t <= 1 /\ Rabs (B2R p - B2R W * t) <= 2 * q /\ Rabs (a + (b - a) * t - B2R s) <= 7 * u * M.
Proof.
  assert (U := u_val). destruct root_between as (Fs & RB). destruct den_range as (HA & HB & HM & HD). destruct DEN as (F1 & F2 & _).
  assert (PM := bpow_gt_0 radix2 (-100)). assert (HM1 := proj2 HM).
  assert (V101 : bp 101 = 2 * bp 100) by (rewrite <- bp_succ; reflexivity). assert (UP : bp 101 <= bp 1023) by (apply bpow_le; lia).
  destruct (sub_ok n2 n1 F2 F1) as (FD & ED); [apply Rabs_le; lra|]. destruct (sub_ok s n1 Fs F1) as (FY & EY); [destruct RB as [(? & ?)|(? & ?)]; apply Rabs_le; lra|].
  assert (DL : M / 2048 <= Rabs (B2R dn) <= 2 * M).
  { destruct dn_near as (_ & _ & _ & E). assert (T1 := Rabs_triang_inv (b - a) (B2R dn)). rewrite Rabs_minus_sym in E. assert (T2 := Rabs_triang_inv (B2R dn) (b - a)). rewrite (Rabs_minus_sym (B2R dn) (b - a)) in T2.
    assert (Rabs (b - a) <= M) by (apply Rabs_le; lra). rewrite U in E. lra. }
  assert (YB : Rabs (B2R y) <= Rabs (B2R dn) /\ 0 <= B2R y * B2R dn).
  { destruct RB as [(H & R1)|(H & R1)].
    - assert (0 <= B2R y) by (rewrite EY, <- rnd_0; apply rnd_mono; lra). assert (B2R y <= B2R dn) by (rewrite EY, ED; apply rnd_mono; lra). rewrite !Rabs_pos_eq by lra. split; [lra|nra].
    - assert (B2R y <= 0) by (rewrite EY, <- rnd_0; apply rnd_mono; lra). assert (B2R dn <= B2R y) by (rewrite EY, ED; apply rnd_mono; lra). rewrite !Rabs_left1 by lra. split; [lra|nra]. }
  destruct YB as (YB & YS). set (D := B2R dn) in *. assert (D0 : D <> 0) by (intro E; rewrite E, Rabs_R0 in DL; lra).
  assert (WR := W_range). destruct W_ok as (FW & _). assert (W0 : 0 < B2R W) by lra. set (w := B2R W) in *.
  assert (AD : 0 < Rabs D) by lra.
  assert (V111 : bp 111 = 2048 * bp 100) by (replace 2048 with (bp 11) by (cbn; lra); rewrite <- bpow_plus; reflexivity).
  assert (VM1 : bp (-111) = / 2048 * bp (-100)) by (replace (/ 2048) with (bp (-11)) by (cbn; lra); rewrite <- bpow_plus; reflexivity).
  assert (ID : / Rabs D <= bp 111).
  { replace (bp 111) with (/ bp (-111)) by (rewrite <- bpow_opp; reflexivity). apply Rinv_le; [apply bpow_gt_0|rewrite VM1; lra]. }
  assert (IP : 0 < / Rabs D) by now apply Rinv_0_lt_compat.
  assert (WD : Rabs (w / D) = w / Rabs D) by (unfold Rdiv; rewrite Rabs_mult, Rabs_inv, (Rabs_pos_eq w) by lra; reflexivity).
  assert (WDB : w / Rabs D <= bp 31 * bp 111).
  { unfold Rdiv. apply Rmult_le_compat; try lra. apply Rle_trans with (1048576 * 1024); [lra|]. apply Rle_trans with (bp 30); [cbn; lra|apply bpow_le; lia]. }
  rewrite <- bpow_plus in WDB. change (31 + 111)%Z with 142%Z in WDB.
  destruct (div_ok W dn FW D0) as (FC & EC); [fold w D; rewrite WD; apply Rle_trans with (1 := WDB); apply bpow_le; lia|]. fold w D in EC.
  assert (RC := rnd_err (w / D)). rewrite <- EC, WD in RC.
  (* the size of the product *)
  assert (SG : B2R c * D >= 0 /\ Rabs (B2R c) <= w / Rabs D + (u * (w / Rabs D) + tiny)).
  { split.
    - rewrite EC. destruct (Rtotal_order D 0) as [H|[H|H]]; [|contradiction|].
      + assert (rnd (w / D) <= 0); [|nra]. rewrite <- rnd_0. apply rnd_mono. unfold Rdiv. assert (/ D < 0) by now apply Rinv_lt_0_compat. nra.
      + assert (0 <= rnd (w / D)); [|nra]. rewrite <- rnd_0. apply rnd_mono. unfold Rdiv. assert (0 < / D) by now apply Rinv_0_lt_compat. nra.
    - assert (T := Rabs_triang_inv (B2R c) (w / D)). rewrite WD in T. lra. }
  destruct SG as (SG & CB).
  assert (TP := tiny_pos).
  assert (E0 : 0 <= u * (w / Rabs D) + tiny) by (rewrite U; assert (0 <= w / Rabs D) by (apply Rmult_le_pos; lra); lra).
  assert (SH := share (Rabs (B2R y)) (Rabs D) (u * (w / Rabs D) + tiny) w AD (conj (Rabs_pos _) YB) ltac:(lra) E0).
  assert (EB : (u * (w / Rabs D) + tiny) * Rabs D = u * w + tiny * Rabs D) by (field; lra). rewrite EB in SH.
  assert (TD : tiny * Rabs D <= bp (-100)).
  { apply Rle_trans with (bp (-1000) * bp 101); [apply Rmult_le_compat; try lra; apply tiny_small|]. rewrite <- bpow_plus. apply bpow_le. lia. }
  rewrite bp_m100 in TD.
  assert (PB : 0 <= B2R c * B2R y <= w + u * w + tiny * Rabs D).
  { split.
    - destruct (Rtotal_order D 0) as [H|[H|H]]; [|contradiction|]; [assert (B2R c <= 0) by nra; assert (B2R y <= 0) by nra; nra|assert (0 <= B2R c) by nra; assert (0 <= B2R y) by nra; nra].
    - apply Rle_trans with (1 := RRle_abs _). rewrite Rabs_mult. apply Rle_trans with ((w / Rabs D + (u * (w / Rabs D) + tiny)) * Rabs (B2R y)); [apply Rmult_le_compat_r; [apply Rabs_pos|exact CB]|lra]. }
  assert (QE := q_eq d).
  assert (UB : w + u * w + tiny * Rabs D <= w + q).
  { rewrite U, QE. lra. }
  intro p. destruct (mul_q _ _ _ AX c y FC FY) as (FPp & EPp); [apply Rabs_le; lra|].
  destruct (mul_ok c y FC FY) as (_ & VP); [apply (small_fits _ _ _ AX), Rabs_le; lra|]. fold p in FPp, EPp, VP. apply Rabs_le_inv in EPp.
  split; [exact FPp|]. split; [split; [rewrite VP, <- rnd_0; apply rnd_mono; lra|lra]|].
  exists (B2R y / D). assert (TE : B2R y / D = Rabs (B2R y) / Rabs D).
  { destruct (Rtotal_order D 0) as [H|[H|H]]; [|contradiction|].
    - rewrite (Rabs_left1 D) by lra. rewrite (Rabs_left1 (B2R y)) by nra. field. exact D0.
    - rewrite (Rabs_pos_eq D) by lra. rewrite (Rabs_pos_eq (B2R y)) by nra. reflexivity. }
  assert (TR : 0 <= B2R y / D <= 1).
  { rewrite TE. split; [apply Rmult_le_pos; [apply Rabs_pos|lra]|]. apply Rmult_le_reg_r with (Rabs D); [exact AD|]. unfold Rdiv. rewrite Rmult_assoc, Rinv_l by lra. lra. }
  split; [exact TR|]. split.
  - assert (RCB : Rabs (B2R c * B2R y - w * (B2R y / D)) <= u * w + tiny * Rabs D).
    { replace (B2R c * B2R y - w * (B2R y / D)) with ((B2R c - w / D) * B2R y) by (field; exact D0). rewrite Rabs_mult. rewrite <- EB. apply Rmult_le_compat; try apply Rabs_pos; assumption. }
    apply Rabs_le_inv in RCB. apply Rabs_le. rewrite U, QE in *. lra.
  - assert (EYY := rnd_err (B2R s - a)). rewrite <- EY in EYY.
    destruct dn_near as (_ & _ & _ & EDN). fold D in EDN. set (t := B2R y / D) in *. assert (YT : B2R y = D * t) by (unfold t; field; exact D0).
    assert (SA : Rabs (B2R s - a) <= M) by (destruct RB as [(? & ?)|(? & ?)]; apply Rabs_le; lra).
    assert (TM : tiny <= u * M) by (assert (G := tiny_scale M); assert (bp (-900) <= M) by (apply Rle_trans with (2 := proj1 HM); apply bpow_le; lia); specialize (G H); assert (0 <= u * M) by (apply Rmult_le_pos; [apply Rlt_le, u_pos|lra]); lra).
    assert (G1 : Rabs (D * t - (B2R s - a)) <= 2 * u * M).
    { rewrite <- YT. apply Rle_trans with (1 := EYY). assert (u * Rabs (B2R s - a) <= u * M) by (apply Rmult_le_compat_l; [apply Rlt_le, u_pos|exact SA]). lra. }
    assert (G2 : Rabs ((D - (b - a)) * t) <= 5 / 2 * u * M).
    { rewrite Rabs_mult, (Rabs_pos_eq t) by lra. apply Rle_trans with (Rabs (D - (b - a)) * 1); [apply Rmult_le_compat_l; [apply Rabs_pos|lra]|]. rewrite Rmult_1_r. apply Rle_trans with (1 := EDN). lra. }
    apply Rabs_le_inv in G1, G2. assert (0 <= u * M) by (apply Rmult_le_pos; [apply Rlt_le, u_pos|lra]). apply Rabs_le. lra.
Qed.

Lemma root_square : Rabs (B2R s * B2R s - (a * a + B2R x * (b * b - a * a))) <= 80 * u * (M * M).
Proof.
  assert (U := u_val). destruct root_between as (Fs & RB). destruct den_range as (HA & HB & HM & _). assert (PM := bpow_gt_0 radix2 (-100)). assert (MP : 0 < M * M) by nra.
  destruct X_near as (FX & _ & _ & EX). apply Rabs_le_inv in EX. set (XX := a * a + B2R x * (b * b - a * a)) in *.
  destruct (Rle_lt_dec 0 (B2R X')) as [X0|X0].
  2: { exfalso. destruct gap as (G1 & G2). destruct FRAC as (_ & x0 & x1). assert (P36 := bpow_gt_0 radix2 (-36)). destruct parts_near as (_ & _ & EXX & EP & EA). destruct S2_near as (_ & _ & _ & ES). apply Rabs_le_inv in ES.
       destruct (Rle_lt_dec a b) as [H|H].
       - rewrite (Rabs_pos_eq (b * b - a * a)) in G1, G2 by nra. assert (0 <= B2R X'); [|lra]. rewrite EXX, <- rnd_0. apply rnd_mono. rewrite EP, EA.
         assert (0 <= rnd (a * a)) by (rewrite <- rnd_0; apply rnd_mono; nra). assert (0 <= rnd (B2R x * B2R S2)) by (rewrite <- rnd_0; apply rnd_mono; apply Rmult_le_pos; [lra|rewrite U in ES; lra]). lra.
       - rewrite (Rabs_left1 (b * b - a * a)) in G1, G2 by nra. assert (0 <= b * b) by nra. unfold XX in EX. rewrite U in *. lra. }
  destruct (sqrt_ok X' FX X0) as (_ & Es). assert (S0 := sqrt_pos (B2R X')). assert (SS := sqrt_sqrt (B2R X') X0). set (h := sqrt (B2R X')) in *.
  assert (XU : B2R X' <= 2 * (M * M)).
  { assert (XX <= M * M); [|rewrite U in *; lra]. unfold XX. destruct FRAC as (_ & x0 & x1). assert (P36 := bpow_gt_0 radix2 (-36)). assert (a * a <= M * M) by (apply Rmult_le_compat; lra). assert (b * b <= M * M) by (apply Rmult_le_compat; lra).
    replace (a * a + B2R x * (b * b - a * a)) with ((1 - B2R x) * (a * a) + B2R x * (b * b)) by ring. assert ((1 - B2R x) * (a * a) <= (1 - B2R x) * (M * M)) by (apply Rmult_le_compat_l; lra). assert (B2R x * (b * b) <= B2R x * (M * M)) by (apply Rmult_le_compat_l; lra). lra. }
  assert (HU : h <= 3 / 2 * M) by (apply sq_le_inv; [lra|rewrite SS; nra]).
  assert (R := rnd_err h). rewrite <- Es, (Rabs_pos_eq h) in R by exact S0.
  assert (TM : tiny <= u * M * / 1024) by (apply tiny_scale; apply Rle_trans with (2 := proj1 HM); apply bpow_le; lia).
  assert (UM : 0 <= u * M) by (apply Rmult_le_pos; [apply Rlt_le, u_pos|lra]).
  assert (R2 : Rabs (B2R s - h) <= 8 / 5 * u * M) by (apply Rle_trans with (1 := R); assert (u * h <= u * (3 / 2 * M)) by (apply Rmult_le_compat_l; [apply Rlt_le, u_pos|exact HU]); lra).
  assert (SP : 0 <= B2R s <= M) by (destruct RB as [(? & ?)|(? & ?)]; lra).
  assert (D2 : Rabs (B2R s * B2R s - B2R X') <= 4 * u * (M * M)).
  { rewrite <- SS. replace (B2R s * B2R s - h * h) with ((B2R s - h) * (B2R s + h)) by ring. rewrite Rabs_mult, (Rabs_pos_eq (B2R s + h)) by lra.
    apply Rle_trans with (8 / 5 * u * M * (5 / 2 * M)); [apply Rmult_le_compat; [apply Rabs_pos|lra|exact R2|lra]|]. right. field. }
  apply Rabs_le_inv in D2. apply Rabs_le. rewrite U in *. lra.
Qed.

(** the part of the density law that is used up at z *)
Lemma uneven_law : forall z, let p := b64_mul c y in Rabs (z - (B2R p + len / 2)) <= q ->
  let zeta := (z - len / 2) / (top - len) in
  Rabs ((a + (b - a) * zeta) * (a + (b - a) * zeta) - (a * a + B2R x * (b * b - a * a))) <= bp (-26) * (M * M).
Proof.
  intros z p Hz zeta. assert (U := u_val). destruct uneven_place as (_ & _ & t & T0 & TP & TS). fold p in TP. destruct W_ok as (_ & EW). assert (RS := root_square). destruct root_between as (_ & RB).
  destruct den_range as (HA & HB & HM & _). assert (PM := bpow_gt_0 radix2 (-100)). assert (T2 := top_lo). assert (L1 : len <= top - len) by lra.
  assert (SP : 0 <= B2R s <= M) by (destruct RB as [(? & ?)|(? & ?)]; lra).
  assert (WT : Rabs ((B2R W - (top - len)) * t) <= 2 * q).
  { rewrite Rabs_mult, (Rabs_pos_eq t) by lra. apply Rle_trans with (Rabs (B2R W - (top - len)) * 1); [apply Rmult_le_compat_l; [apply Rabs_pos|lra]|]. lra. }
  apply Rabs_le_inv in Hz, TP, WT.
  assert (ZT : Rabs (zeta - t) <= 5 / 1073741824).
  { replace (zeta - t) with ((z - len / 2 - (top - len) * t) / (top - len)) by (unfold zeta; field; lra). unfold Rdiv at 1. assert (IP : 0 < / (top - len)) by (apply Rinv_0_lt_compat; lra). rewrite Rabs_mult, (Rabs_pos_eq (/ (top - len))) by lra.
    apply Rmult_le_reg_r with (top - len); [lra|]. rewrite Rmult_assoc, Rinv_l, Rmult_1_r by lra. apply Rle_trans with (5 * q); [apply Rabs_le; lra|]. rewrite (q_eq d). lra. }
  assert (DAB : Rabs (b - a) <= M) by (apply Rabs_le; lra).
  assert (E1 : Rabs ((b - a) * (zeta - t)) <= 5 / 1073741824 * M).
  { rewrite Rabs_mult, Rmult_comm. apply Rmult_le_compat; auto using Rabs_pos. }
  set (v := a + (b - a) * zeta). assert (EV : Rabs (v - B2R s) <= 6 / 1073741824 * M).
  { replace (v - B2R s) with ((b - a) * (zeta - t) + (a + (b - a) * t - B2R s)) by (unfold v; ring). apply Rle_trans with (1 := Rabs_triang _ _). rewrite U in TS. lra. }
  assert (EV2 : Rabs (v * v - B2R s * B2R s) <= 13 / 1073741824 * (M * M)).
  { replace (v * v - B2R s * B2R s) with ((v - B2R s) * (v + B2R s)) by ring. rewrite Rabs_mult. apply Rle_trans with (6 / 1073741824 * M * (21 / 10 * M)); [|assert (0 < M * M) by nra; lra].
    apply Rmult_le_compat; auto using Rabs_pos. apply Rabs_le_inv in EV. apply Rabs_le. lra. }
  replace (bp (-26)) with (16 / 1073741824) by (cbn; lra). assert (0 < M * M) by nra. apply Rabs_le_inv in EV2, RS. rewrite U in RS. apply Rabs_le. lra.
Qed.
End Axis.

(** ** The model's functions *)
Section Places.
Variables pw lg : b64 -> b64.
Notation A := (b64_arith pw lg).
Variables (g : ggeom A) (dt : b64).
Hypothesis HF : fine pw lg g dt.
Let AR : axis (gn_r A g) (gr_size A g) (gdr A g). Proof. exact (Motion64P.axr pw lg g dt HF). Qed.
Let AZ : axis (gn_z A g) (gz_size A g) (gdz A g). Proof. exact (Motion64P.axz pw lg g dt HF). Qed.

Lemma load_r_ok : forall x : b64, fraction x -> let r := gload_r A g x in
  fin (r : b64) /\ len (gdr A g) / 2 <= B2R (r : b64) <= top (gn_r A g) (gdr A g) - len (gdr A g) / 2 + 6 * q (gdr A g) /\
  Rabs (B2R (r : b64) - ((top (gn_r A g) (gdr A g) - len (gdr A g)) * B2R x + len (gdr A g) / 2)) <= 4 * q (gdr A g).
Proof. intros x Hx r. exact (radius_place _ _ _ AR x Hx). Qed.

Lemma zero_sub : forall p d : b64, fin p -> fin d -> Rabs (B2R p - B2R d) <= bp 1023 -> let p0 := b64_sub p (b64_of_Z 0) in
  fin (b64_sub p0 d) /\ B2R (b64_sub p0 d) = B2R (b64_sub p d).
Proof.
  intros p d Fp Fd H p0. destruct (sub_zero p Fp) as (F & E). fold p0 in F, E. destruct (sub_ok p0 d F Fd) as (F1 & E1); [rewrite E; exact H|]. destruct (sub_ok p d Fp Fd H) as (_ & E2).
  split; [exact F1|]. rewrite E1, E2, E. reflexivity.
Qed.

Lemma pos_strict : forall x : b64, fin x -> 0 < B2R x -> is_finite_strict x = true.
Proof. intros [?|?| |? ? ? ?] F P; cbn in *; try discriminate; try lra. Qed.

Lemma load_z_ok : forall n1 n2 x : b64, densities n1 n2 -> fraction x -> let z := gload_z A g n1 n2 (of_int A 0) x in
  fin (z : b64) /\ len (gdz A g) / 2 <= B2R (z : b64) <= top (gn_z A g) (gdz A g) - len (gdz A g) / 2 + 6 * q (gdz A g) /\
  (B2R n1 = B2R n2 -> Rabs (B2R (z : b64) - ((top (gn_z A g) (gdz A g) - len (gdz A g)) * B2R x + len (gdz A g) / 2)) <= 4 * q (gdz A g)) /\
  (B2R n1 <> B2R n2 -> let zeta := (B2R (z : b64) - len (gdz A g) / 2) / (top (gn_z A g) (gdz A g) - len (gdz A g)) in let v := B2R n1 + (B2R n2 - B2R n1) * zeta in
    Rabs (v * v - (B2R n1 * B2R n1 + B2R x * (B2R n2 * B2R n2 - B2R n1 * B2R n1))) <= bp (-26) * (Rmax (B2R n1) (B2R n2) * Rmax (B2R n1) (B2R n2))).
Proof.
  intros n1 n2 x HD HX z. subst z. unfold gload_z. cbv zeta. change (sub A n2 n1) with (b64_sub n2 n1). change (eqb A) with (@Beqb prec64 emax64).
  destruct (of_Z_exact 0 eq_refl) as (F0 & E0). destruct (HD) as (F1 & F2 & D1 & D2 & _).
  assert (FDN : fin (b64_sub n2 n1) /\ B2R (b64_sub n2 n1) = rnd (B2R n2 - B2R n1)).
  { apply sub_ok; [exact F2|exact F1|]. assert (P := bpow_gt_0 radix2 (-100)). assert (bp 101 = 2 * bp 100) by (rewrite <- bp_succ; reflexivity). assert (bp 101 <= bp 1023) by (apply bpow_le; lia). assert (P2 := bpow_gt_0 radix2 100).
    apply Rabs_le. destruct D1, D2; lra. }
  destruct FDN as (FD & ED). destruct (Req_dec (B2R n1) (B2R n2)) as [E|NE].
  - assert (EQ : Beqb (b64_sub n2 n1) (of_int A 0) = true).
    { change (of_int A 0) with (b64_of_Z 0). apply eqb_ok; [exact FD|exact F0|]. rewrite ED, E0, E, Rminus_diag_eq by reflexivity. apply rnd_0. }
    rewrite EQ. destruct (even_place _ _ _ AZ x HX) as (FR & RR & DR). split; [exact FR|]. split; [exact RR|]. split; [intros _; exact DR|]. intro NE. contradiction.
  - assert (DN := den_range n1 n2 HD NE). destruct (dn_near n1 n2 HD NE) as (_ & _ & _ & EN). assert (U := u_val). assert (P := bpow_gt_0 radix2 (-100)).
    assert (EQ : Beqb (b64_sub n2 n1) (of_int A 0) = false).
    { change (of_int A 0) with (b64_of_Z 0). destruct (Beqb (b64_sub n2 n1) (b64_of_Z 0)) eqn:Q; [|reflexivity]. apply eqb_ok in Q; [|exact FD|exact F0]. exfalso. rewrite Q, E0 in EN.
      assert (T := Rabs_minus_sym 0 (B2R n2 - B2R n1)). rewrite T, Rminus_0_r in EN. rewrite U in EN. lra. }
    rewrite EQ. destruct (uneven_place _ _ _ AZ n1 n2 HD NE x HX) as (FP & PP & _). cbv zeta in FP, PP.
    set (wz := sub A (sub A (gz_size A g) (of_int A 0)) (gdz A g)).
    assert (WZ : fin (wz : b64) /\ B2R (wz : b64) = B2R (W (gz_size A g) (gdz A g))).
    { apply (zero_sub (gz_size A g) (gdz A g)); [exact (ax_fin _ _ _ AZ)|exact (fin_d _ _ _ AZ)|]. apply (small_fits _ _ _ AZ). assert (S := size_ok _ _ _ AZ). apply Rabs_le_inv in S. assert (T := top_hi _ _ _ AZ). assert (L := len_pos _ _ _ AZ). assert (Q := q_bounds _ _ _ AZ). assert (T2 := top_lo _ _ _ AZ).
      unfold len in *. apply Rabs_le. lra. }
    destruct WZ as (FWZ & EWZ). 
    assert (EWW : (wz : b64) = W (gz_size A g) (gdz A g)).
    { apply B2R_inj; [| |exact EWZ].
      - apply pos_strict; [exact FWZ|]. rewrite EWZ. assert (WR := W_range _ _ _ AZ). assert (L := len_pos _ _ _ AZ). lra.
      - apply pos_strict; [apply (W_ok _ _ _ AZ)|]. assert (WR := W_range _ _ _ AZ). assert (L := len_pos _ _ _ AZ). lra. }
    rewrite EWW. destruct (add_zero _ FP) as (FZ & EZ). destruct (place _ _ _ AZ _ FZ) as (FR & RR & DR); [rewrite EZ; exact PP|].
    split; [exact FR|]. split; [exact RR|]. split; [intro E; contradiction|]. intros _. cbv zeta in DR. rewrite EZ in DR. exact (uneven_law _ _ _ AZ n1 n2 HD NE x HX _ DR).
Qed.
End Places.
