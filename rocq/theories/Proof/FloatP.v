(** Facts about binary64 operations in the form used by the proofs about the program in double precision:
    finiteness, size, error. *)
From Coq Require Import ZArith Reals Lra Lia Psatz Bool.
From Flocq Require Import Core IEEE754.BinarySingleNaN Relative.
From Verif.Lib Require Import RAux.
From Verif.Model Require Import Binary64 Temperature64 Arith.
From Verif.Proof Require Import Binary64P.
Local Open Scope R_scope.

Notation bp := (bpow radix2).
Definition tiny : R := bp (-1075).

Lemma tiny_pos : 0 < tiny. Proof. apply bpow_gt_0. Qed.

Lemma rnd_err : forall x, Rabs (rnd x - x) <= u * Rabs x + tiny.
Proof.
  intro x. destruct (error_N_FLT radix2 (-1074) 53 ltac:(reflexivity) (fun z => negb (Z.even z)) x) as (eps & eta & E1 & E2 & _ & E).
  unfold rnd. change (SpecFloat.fexp prec64 emax64) with (FLT_exp (-1074) 53). rewrite E.
  replace (x * (1 + eps) + eta - x) with (x * eps + eta) by ring.
  apply Rle_trans with (1 := Rabs_triang _ _). rewrite Rabs_mult.
  assert (A : Rabs eps <= u). { replace u with (/ 2 * bp (- (53) + 1)); [exact E1|]. unfold u. change (bp (-(53) + 1)) with (bp (-52)). cbn. lra. }
  assert (B : Rabs eta <= tiny).
  { replace tiny with (/ 2 * bp (-1074)); [exact E2|]. unfold tiny. change (/ 2) with (bp (-1)). rewrite <- bpow_plus. reflexivity. }
  assert (C := Rabs_pos x). nra.
Qed.

Lemma rnd_mono : forall x y, x <= y -> rnd x <= rnd y.
Proof. intros x y H. unfold rnd. apply round_le; [exact (@FLT_exp_valid (-1074) 53 eq_refl)|apply valid_rnd_N|exact H]. Qed.

Lemma rnd_B2R : forall x : b64, rnd (B2R x) = B2R x.
Proof. intro x. unfold rnd. apply round_generic; [apply valid_rnd_N|]. apply generic_format_B2R. Qed.

Lemma rnd_0 : rnd 0 = 0.
Proof. unfold rnd. apply round_0. apply valid_rnd_N. Qed.

Lemma rnd_bp : forall e, (-1074 <= e)%Z -> rnd (bp e) = bp e.
Proof.
  intros e He. replace (bp e) with (1 * bp e) by lra. apply (rnd_exact 1); [reflexivity|exact He].
Qed.

Lemma rnd_opp : forall x, rnd (- x) = - rnd x.
Proof. intro x. unfold rnd. apply round_NE_opp. Qed.

Lemma rnd_abs_le : forall x e, (-1074 <= e)%Z -> Rabs x <= bp e -> Rabs (rnd x) <= bp e.
Proof.
  intros x e He H. apply Rabs_le_inv in H. apply Rabs_le. rewrite <- (rnd_bp e He), <- rnd_opp. split; apply rnd_mono; lra.
Qed.

Lemma bp_lt_max : bp 1023 < bp emax64.
Proof. apply bpow_lt. reflexivity. Qed.

Lemma fits : forall x, Rabs x <= bp 1023 -> Rabs (rnd x) < bp emax64.
Proof. intros x H. apply Rle_lt_trans with (bp 1023); [apply rnd_abs_le; [lia|exact H]|apply bp_lt_max]. Qed.

(** ** Operations *)

Notation fin x := (is_finite x = true).

Lemma add_ok : forall x y : b64, fin x -> fin y -> Rabs (B2R x + B2R y) <= bp 1023 ->
  fin (b64_add x y) /\ B2R (b64_add x y) = rnd (B2R x + B2R y).
Proof. intros x y Fx Fy H. destruct (add_correct x y Fx Fy (fits _ H)). now split. Qed.

Lemma sub_ok : forall x y : b64, fin x -> fin y -> Rabs (B2R x - B2R y) <= bp 1023 ->
  fin (b64_sub x y) /\ B2R (b64_sub x y) = rnd (B2R x - B2R y).
Proof.
  intros x y Fx Fy H. assert (C := Bminus_correct prec64 emax64 _ _ mode_NE x y Fx Fy).
  change (round radix2 (SpecFloat.fexp prec64 emax64) (round_mode mode_NE) (B2R x - B2R y)) with (rnd (B2R x - B2R y)) in C.
  rewrite Rlt_bool_true in C by now apply fits. unfold b64_sub. tauto.
Qed.

Lemma mul_ok : forall x y : b64, fin x -> fin y -> Rabs (B2R x * B2R y) <= bp 1023 ->
  fin (b64_mul x y) /\ B2R (b64_mul x y) = rnd (B2R x * B2R y).
Proof.
  intros x y Fx Fy H. assert (C := Bmult_correct prec64 emax64 _ _ mode_NE x y).
  change (round radix2 (SpecFloat.fexp prec64 emax64) (round_mode mode_NE) (B2R x * B2R y)) with (rnd (B2R x * B2R y)) in C.
  rewrite Rlt_bool_true in C by now apply fits. unfold b64_mul. destruct C as (C1 & C2 & _). rewrite C2, Fx, Fy. now split.
Qed.

Lemma div_ok : forall x y : b64, fin x -> B2R y <> 0 -> Rabs (B2R x / B2R y) <= bp 1023 ->
  fin (b64_div x y) /\ B2R (b64_div x y) = rnd (B2R x / B2R y).
Proof.
  intros x y Fx Hy H. assert (C := Bdiv_correct prec64 emax64 _ _ mode_NE x y Hy).
  change (round radix2 (SpecFloat.fexp prec64 emax64) (round_mode mode_NE) (B2R x / B2R y)) with (rnd (B2R x / B2R y)) in C.
  rewrite Rlt_bool_true in C by now apply fits. unfold b64_div. destruct C as (C1 & C2 & _). rewrite C2, Fx. now split.
Qed.

Lemma sqrt_ok : forall x : b64, fin x -> 0 <= B2R x -> fin (b64_sqrt x) /\ B2R (b64_sqrt x) = rnd (sqrt (B2R x)).
Proof.
  intros x Fx Hx. destruct (Bsqrt_correct prec64 emax64 _ _ mode_NE x) as (C1 & C2 & _). unfold b64_sqrt.
  split; [|exact C1]. rewrite C2. destruct x as [s|s| |s m e He]; try reflexivity; try discriminate. destruct s; [|reflexivity].
  cbn in Hx. exfalso. assert (K := F2R_lt_0 radix2 (Float radix2 (Zneg m) e) eq_refl). cbn in K, Hx. lra.
Qed.

Lemma opp_ok : forall x : b64, fin x -> fin (Bopp x) /\ B2R (Bopp x) = - B2R x.
Proof. intros x Fx. split; [now rewrite is_finite_Bopp|apply B2R_Bopp]. Qed.

Lemma of_Z_ok : forall n, Rabs (IZR n) <= bp 1023 -> fin (b64_of_Z n) /\ B2R (b64_of_Z n) = rnd (IZR n).
Proof.
  intros n H. assert (C := binary_normalize_correct prec64 emax64 eq_refl eq_refl mode_NE n 0 false). cbv zeta in C.
  change (round radix2 (SpecFloat.fexp prec64 emax64) (round_mode mode_NE) (F2R (Float radix2 n 0))) with (rnd (F2R (Float radix2 n 0))) in C.
  replace (F2R (Float radix2 n 0)) with (IZR n) in C by (unfold F2R; cbn; lra).
  rewrite Rlt_bool_true in C by now apply fits. unfold b64_of_Z. tauto.
Qed.

Lemma of_Z_exact : forall n, (Z.abs n < 2 ^ 53)%Z -> fin (b64_of_Z n) /\ B2R (b64_of_Z n) = IZR n.
Proof.
  intros n H. destruct (of_Z_ok n) as (A & B).
  - rewrite <- abs_IZR. apply Rle_trans with (bp 53).
    + replace (bp 53) with (IZR (2 ^ 53)) by (cbn; lra). apply IZR_le. lia.
    + apply bpow_le. lia.
  - split; [exact A|]. rewrite B. now apply rnd_exact_Z.
Qed.

Lemma ltb_ok : forall x y : b64, fin x -> fin y -> Bltb x y = true <-> B2R x < B2R y.
Proof.
  intros x y Fx Fy. rewrite (Bltb_correct prec64 emax64 x y Fx Fy). destruct (Rlt_bool_spec (B2R x) (B2R y)); split; intros; try lra; try reflexivity; discriminate.
Qed.

Lemma leb_ok : forall x y : b64, fin x -> fin y -> Bleb x y = true <-> B2R x <= B2R y.
Proof.
  intros x y Fx Fy. rewrite (Bleb_correct prec64 emax64 x y Fx Fy). destruct (Rle_bool_spec (B2R x) (B2R y)); split; intros; try lra; try reflexivity; discriminate.
Qed.

Lemma eqb_ok : forall x y : b64, fin x -> fin y -> Beqb x y = true <-> B2R x = B2R y.
Proof.
  intros x y Fx Fy. rewrite (Beqb_correct prec64 emax64 x y Fx Fy). destruct (Req_bool_spec (B2R x) (B2R y)); split; intros; try lra; try reflexivity; try discriminate; contradiction.
Qed.

Lemma ceil_ok : forall x : b64, b64_ceil_int x = Zceil (B2R x).
Proof.
  intro x. unfold b64_ceil_int. rewrite trunc_correct.
  destruct (Bnearbyint_correct prec64 emax64 _ mode_UP x) as (E & _). rewrite E.
  replace (round radix2 (FIX_exp 0) (round_mode mode_UP) (B2R x)) with (IZR (Zceil (B2R x))); [apply Ztrunc_IZR|].
  unfold round, F2R, scaled_mantissa, cexp, FIX_exp. cbn. now rewrite !Rmult_1_r.
Qed.

(** ** Sizes *)

Definition mg (x : b64) (e : Z) : Prop := fin x /\ Rabs (B2R x) <= bp e.

Lemma mg_weaken : forall x e e', mg x e -> (e <= e')%Z -> mg x e'.
Proof. intros x e e' (F & H) L. split; [exact F|]. apply Rle_trans with (1 := H). now apply bpow_le. Qed.

Lemma bp_succ : forall e, bp (e + 1) = 2 * bp e.
Proof. intro e. rewrite bpow_plus. cbn. lra. Qed.

Lemma mg_add : forall x y e, mg x e -> mg y e -> (-1074 <= e)%Z -> (e < 1023)%Z -> mg (b64_add x y) (e + 1).
Proof.
  intros x y e (Fx & Hx) (Fy & Hy) L H. assert (S : Rabs (B2R x + B2R y) <= bp (e + 1)).
  { rewrite bp_succ. apply Rle_trans with (1 := Rabs_triang _ _). lra. }
  destruct (add_ok x y Fx Fy) as (F & E); [apply Rle_trans with (1 := S); apply bpow_le; lia|].
  split; [exact F|]. rewrite E. apply rnd_abs_le; [lia|exact S].
Qed.

Lemma mg_sub : forall x y e, mg x e -> mg y e -> (-1074 <= e)%Z -> (e < 1023)%Z -> mg (b64_sub x y) (e + 1).
Proof.
  intros x y e (Fx & Hx) (Fy & Hy) L H. assert (S : Rabs (B2R x - B2R y) <= bp (e + 1)).
  { rewrite bp_succ. unfold Rminus. apply Rle_trans with (1 := Rabs_triang _ _). rewrite Rabs_Ropp. lra. }
  destruct (sub_ok x y Fx Fy) as (F & E); [apply Rle_trans with (1 := S); apply bpow_le; lia|].
  split; [exact F|]. rewrite E. apply rnd_abs_le; [lia|exact S].
Qed.

Lemma mg_mul : forall x y a b, mg x a -> mg y b -> (-1074 <= a + b)%Z -> (a + b <= 1023)%Z -> mg (b64_mul x y) (a + b).
Proof.
  intros x y a b (Fx & Hx) (Fy & Hy) L H. assert (S : Rabs (B2R x * B2R y) <= bp (a + b)).
  { rewrite Rabs_mult, bpow_plus. apply Rmult_le_compat; auto using Rabs_pos. }
  destruct (mul_ok x y Fx Fy) as (F & E); [apply Rle_trans with (1 := S); apply bpow_le; lia|].
  split; [exact F|]. rewrite E. apply rnd_abs_le; [lia|exact S].
Qed.

Lemma mg_div : forall x y a b, mg x a -> bp b <= Rabs (B2R y) -> (-1074 <= a - b)%Z -> (a - b <= 1023)%Z -> mg (b64_div x y) (a - b).
Proof.
  intros x y a b (Fx & Hx) Hy L H. assert (P := bpow_gt_0 radix2 b).
  assert (N : B2R y <> 0). { intro E. rewrite E, Rabs_R0 in Hy. lra. }
  assert (S : Rabs (B2R x / B2R y) <= bp (a - b)).
  { unfold Rdiv. rewrite Rabs_mult. unfold Zminus. rewrite bpow_plus. apply Rmult_le_compat; auto using Rabs_pos.
    rewrite Rabs_inv, bpow_opp. apply Rinv_le; assumption. }
  destruct (div_ok x y Fx N) as (F & E); [apply Rle_trans with (1 := S); apply bpow_le; lia|].
  split; [exact F|]. rewrite E. apply rnd_abs_le; [lia|exact S].
Qed.

Lemma mg_opp : forall x e, mg x e -> mg (Bopp x) e.
Proof. intros x e (F & H). destruct (opp_ok x F) as (F' & E). split; [exact F'|]. now rewrite E, Rabs_Ropp. Qed.

Lemma mg_of_Z : forall n e, Rabs (IZR n) <= bp e -> (-1074 <= e <= 1023)%Z -> mg (b64_of_Z n) e.
Proof.
  intros n e H (L & M). destruct (of_Z_ok n) as (F & E); [apply Rle_trans with (1 := H); apply bpow_le; lia|].
  split; [exact F|]. rewrite E. now apply rnd_abs_le.
Qed.

Lemma mg_zero : forall e, mg (b64_of_Z 0) e.
Proof.
  intro e. split; [reflexivity|]. destruct (of_Z_exact 0) as (_ & E); [reflexivity|]. rewrite E, Rabs_R0. apply bpow_ge_0.
Qed.

(** Quotients of numbers near one another *)
Lemma quot_gt_one : forall x y : b64, bp (-1022) <= B2R y -> B2R y < B2R x -> 1 < rnd (B2R x / B2R y).
Proof.
  intros x y Py H. assert (P0 := bpow_gt_0 radix2 (-1022)). assert (Q1 : 1 < B2R x / B2R y) by (apply Rmult_lt_reg_r with (B2R y); [lra|]; field_simplify; lra).
  assert (G : 1 <= rnd (B2R x / B2R y)). { rewrite <- (rnd_exact_Z 1) by reflexivity. apply rnd_mono. lra. }
  destruct (Rle_lt_or_eq_dec _ _ G) as [K|K]; [exact K|]. exfalso.
  assert (E : Rabs (1 - B2R x / B2R y) <= u).
  { assert (E := @error_le_half_ulp_round radix2 (FLT_exp (-1074) 53) (@FLT_exp_valid (-1074) 53 eq_refl) (@FLT_exp_monotone (-1074) 53) (fun z => negb (Z.even z)) (B2R x / B2R y)).
    change (round radix2 (FLT_exp (-1074) 53) (Znearest (fun z => negb (Z.even z))) (B2R x / B2R y)) with (rnd (B2R x / B2R y)) in E.
    rewrite <- K in E. change 1 with (bp 0) in E at 2. rewrite ulp_bpow in E. replace u with (/ 2 * bp (FLT_exp (-1074) 53 (0 + 1))); [exact E|].
    unfold u. change (FLT_exp (-1074) 53 (0 + 1)) with (-52)%Z. cbn. lra. }
  apply Rabs_le_inv in E.
  (* succ y <= x *)
  set (fx := SpecFloat.fexp prec64 emax64).
  assert (V : Valid_exp fx) by exact (@FLT_exp_valid (-1074) 53 eq_refl).
  assert (S : succ radix2 fx (B2R y) <= B2R x) by (apply succ_le_lt; auto; apply generic_format_B2R).
  rewrite succ_eq_pos in S by lra.
  assert (U : u * B2R y < ulp radix2 fx (B2R y)).
  { rewrite ulp_neq_0 by lra. unfold cexp. destruct (mag radix2 (B2R y)) as (e & He). cbn [mag_val]. specialize (He ltac:(lra)).
    rewrite Rabs_pos_eq in He by lra. assert (L : (-1022 < e)%Z) by (apply (lt_bpow radix2); lra).
    assert (X : fx e = (e - 53)%Z). { unfold fx, SpecFloat.fexp, SpecFloat.emin, prec64, emax64. lia. }
    rewrite X. unfold u. replace (e - 53)%Z with (-53 + e)%Z by lia. rewrite bpow_plus. apply Rmult_lt_compat_l; [apply bpow_gt_0|apply He]. }
  assert (T := u_small).
  assert (B2R x <= B2R y + u * B2R y). { replace (B2R x) with (B2R x / B2R y * B2R y) by (field; lra). nra. }
  lra.
Qed.
