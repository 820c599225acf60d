(** Rounding analysis of the clock: C26, C27. *)
From Coq Require Import ZArith Reals Lra Lia Psatz.
From Flocq Require Import Core IEEE754.BinarySingleNaN Relative.
From Verif.Model Require Import Binary64.
Local Open Scope R_scope.

Definition rnd (x : R) : R := round radix2 (SpecFloat.fexp prec64 emax64) ZnearestE x.
Definition u : R := bpow radix2 (-53).

Lemma u_val : u = / 9007199254740992.
Proof. unfold u. cbn. lra. Qed.

Lemma u_small : 0 < u < 1 / 100.
Proof. rewrite u_val. lra. Qed.

Lemma rnd_rel : forall x, bpow radix2 (-1022) <= x -> Rabs (rnd x - x) <= u * x.
Proof.
  intros x Hx. assert (P := bpow_gt_0 radix2 (-1022)).
  assert (E := relative_error_N_FLT radix2 (-1074) 53 ltac:(reflexivity) (fun z => negb (Z.even z)) x).
  change (-1074 + 53 - 1)%Z with (-1022)%Z in E. rewrite (Rabs_pos_eq x) in E by lra. specialize (E Hx).
  unfold rnd. change (SpecFloat.fexp prec64 emax64) with (FLT_exp (-1074) 53).
  replace u with (/ 2 * bpow radix2 (- (53) + 1)); [exact E|]. unfold u. cbn. lra.
Qed.

Lemma rnd_bounds : forall x, bpow radix2 (-1022) <= x -> x * (1 - u) <= rnd x <= x * (1 + u).
Proof.
  intros x Hx. assert (E := rnd_rel x Hx). apply Rabs_le_inv in E. lra.
Qed.

Lemma rnd_exact : forall m e, (Z.abs m < 2 ^ 53)%Z -> (-1074 <= e)%Z -> rnd (IZR m * bpow radix2 e) = IZR m * bpow radix2 e.
Proof.
  intros m e Hm He. unfold rnd. apply round_generic; [apply valid_rnd_N|].
  change (SpecFloat.fexp prec64 emax64) with (FLT_exp (-1074) 53).
  apply generic_format_FLT. exists (Float radix2 m e); [reflexivity|exact Hm|exact He].
Qed.

Lemma rnd_exact_Z : forall m, (Z.abs m < 2 ^ 53)%Z -> rnd (IZR m) = IZR m.
Proof. intros m Hm. replace (IZR m) with (IZR m * bpow radix2 0) by (cbn; lra). apply rnd_exact; [exact Hm|lia]. Qed.

Lemma big_bpow : 2 ^ 30 < bpow radix2 emax64.
Proof. replace (2 ^ 30) with (bpow radix2 30) by (cbn; lra). apply bpow_lt. reflexivity. Qed.

Lemma add_correct : forall x y : b64, is_finite x = true -> is_finite y = true ->
  Rabs (rnd (B2R x + B2R y)) < bpow radix2 emax64 ->
  B2R (b64_add x y) = rnd (B2R x + B2R y) /\ is_finite (b64_add x y) = true.
Proof.
  intros x y Fx Fy H. assert (C := Bplus_correct prec64 emax64 _ _ mode_NE x y Fx Fy).
  change (round radix2 (SpecFloat.fexp prec64 emax64) (round_mode mode_NE) (B2R x + B2R y)) with (rnd (B2R x + B2R y)) in C.
  rewrite Rlt_bool_true in C by exact H. unfold b64_add. tauto.
Qed.

Lemma div_correct : forall x y : b64, B2R y <> 0 -> Rabs (rnd (B2R x / B2R y)) < bpow radix2 emax64 ->
  B2R (b64_div x y) = rnd (B2R x / B2R y).
Proof.
  intros x y Hy H. assert (C := Bdiv_correct prec64 emax64 _ _ mode_NE x y Hy).
  change (round radix2 (SpecFloat.fexp prec64 emax64) (round_mode mode_NE) (B2R x / B2R y)) with (rnd (B2R x / B2R y)) in C.
  rewrite Rlt_bool_true in C by exact H. unfold b64_div. tauto.
Qed.

Lemma trunc_correct : forall x : b64, Btrunc x = Ztrunc (B2R x).
Proof.
  intro x. apply eq_IZR. rewrite (Btrunc_correct prec64 emax64 _ x). unfold round, F2R, scaled_mantissa, cexp, FIX_exp.
  cbn. rewrite !Rmult_1_r. reflexivity.
Qed.

Lemma pow_up : forall n, 0 <= INR n * u <= 1 -> (1 + u) ^ n * (1 - INR n * u) <= 1.
Proof.
  intros n Hn. assert (U := u_small). assert (P1 : 0 <= (1 + u) ^ n) by (apply pow_le; lra).
  assert (B : 1 - INR n * u <= (1 - u) ^ n).
  { clear Hn P1. induction n as [|n IH]; [cbn; lra|]. rewrite S_INR. cbn [pow].
    assert (0 <= INR n) by apply pos_INR. nra. }
  assert (C : (1 + u) ^ n * (1 - u) ^ n <= 1).
  { rewrite <- Rpow_mult_distr. replace ((1 + u) * (1 - u)) with (1 - u * u) by ring.
    rewrite <- (pow1 n) at 2. apply pow_incr. nra. }
  nra.
Qed.

Lemma pow_down : forall n, 1 - INR n * u <= (1 - u) ^ n.
Proof.
  induction n as [|n IH]; [cbn; lra|]. assert (U := u_small). rewrite S_INR. cbn [pow].
  assert (0 <= INR n) by apply pos_INR. nra.
Qed.

Section Clock.
Variable dt : b64.
Hypothesis Fdt : is_finite dt = true.
Hypothesis Hdt : bpow radix2 (-1022) <= B2R dt <= 1.

Let d := B2R dt.

Lemma d_pos : 0 < d.
Proof. assert (P := bpow_gt_0 radix2 (-1022)). unfold d. lra. Qed.

Lemma pow_le_2 : forall n, (n <= 2 ^ 26)%nat -> (1 + u) ^ n <= 2.
Proof.
  intros n Hn. assert (U := u_small).
  assert (N : INR n <= 67108864).
  { change 67108864 with (IZR (2 ^ 26)). rewrite INR_IZR_INZ. apply IZR_le.
    replace (2 ^ 26)%Z with (Z.of_nat (2 ^ 26)) by (rewrite Nat2Z.inj_pow; reflexivity). lia. }
  assert (N0 : 0 <= INR n) by apply pos_INR.
  assert (NU : INR n * u <= 1 / 2) by (rewrite u_val; lra).
  assert (A := pow_up n ltac:(split; [rewrite u_val; lra|lra])).
  assert (P : 0 <= (1 + u) ^ n) by (apply pow_le; lra). nra.
Qed.

Lemma clock_bounds : forall n, (n <= 2 ^ 26)%nat -> is_finite (clock64 dt n) = true /\
  INR n * d * (1 - u) ^ n <= B2R (clock64 dt n) <= INR n * d * (1 + u) ^ n.
Proof.
  assert (U := u_small). assert (D := d_pos).
  induction n as [|n IH]; intro Hn; [cbn; split; [reflexivity|lra]|].
  destruct (IH ltac:(lia)) as (F & L & H). change (clock64 dt (S n)) with (b64_add (clock64 dt n) dt).
  assert (N0 : 0 <= INR n) by apply pos_INR.
  assert (P1 : 0 <= (1 - u) ^ n) by (apply pow_le; lra). assert (P2 : 1 <= (1 + u) ^ n) by (apply pow_R1_Rle; lra).
  assert (P3 : (1 - u) ^ n <= 1) by (rewrite <- (pow1 n) at 2; apply pow_incr; lra).
  set (t := B2R (clock64 dt n)) in *.
  assert (T0 : 0 <= t) by (assert (0 <= INR n * d) by nra; nra).
  assert (Q := rnd_bounds (t + d) ltac:(unfold d; lra)).
  assert (UP : (t + d) * (1 + u) <= INR (S n) * d * (1 + u) ^ S n).
  { rewrite S_INR. cbn [pow]. assert (t + d <= (INR n + 1) * d * (1 + u) ^ n) by nra. nra. }
  assert (LO : INR (S n) * d * (1 - u) ^ S n <= (t + d) * (1 - u)).
  { rewrite S_INR. cbn [pow]. assert ((INR n + 1) * d * (1 - u) ^ n <= t + d) by nra. nra. }
  assert (OV : Rabs (rnd (t + d)) < bpow radix2 emax64).
  { assert (0 <= rnd (t + d)) by nra. rewrite Rabs_pos_eq by assumption.
    assert (P4 := pow_le_2 (S n) Hn). assert (B := big_bpow).
    assert (N : INR (S n) <= 67108864).
    { change 67108864 with (IZR (2 ^ 26)). rewrite INR_IZR_INZ. apply IZR_le.
      replace (2 ^ 26)%Z with (Z.of_nat (2 ^ 26)) by (rewrite Nat2Z.inj_pow; reflexivity). lia. }
    assert (SN : 0 <= INR (S n)) by apply pos_INR.
    assert (D1 : d <= 1) by (unfold d; lra).
    assert (INR (S n) * d <= 67108864) by nra. assert (0 <= INR (S n) * d) by nra.
    assert (P5 : 0 <= (1 + u) ^ S n) by (apply pow_le; lra).
    assert (INR (S n) * d * (1 + u) ^ S n <= 134217728) by nra.
    apply Rle_lt_trans with 134217728; [lra|]. lra. }
  destruct (add_correct (clock64 dt n) dt F Fdt OV) as [E F']. split; [exact F'|]. rewrite E. fold t d. lra.
Qed.

(** The step index is off by at most one, downwards, for the first 2^26 - 1 steps. *)
Lemma index_bounds : forall n, (n < 2 ^ 26)%nat ->
  index64 (clock64 dt n) dt = Z.of_nat n \/ index64 (clock64 dt n) dt = (Z.of_nat n - 1)%Z.
Proof.
  intros n Hn. assert (U := u_small). assert (D := d_pos).
  destruct (clock_bounds n ltac:(lia)) as (F & L & H). unfold index64. rewrite trunc_correct.
  destruct (Nat.eq_dec n 0) as [->|N0].
  { left. rewrite div_correct; change (B2R (clock64 dt 0)) with 0; fold d.
    - unfold Rdiv. rewrite Rmult_0_l. rewrite (rnd_exact_Z 0) by (cbn; lia). apply Ztrunc_IZR.
    - fold d. lra.
    - unfold Rdiv. rewrite Rmult_0_l. rewrite (rnd_exact_Z 0) by (cbn; lia). rewrite Rabs_R0. apply bpow_gt_0. }
  set (t := B2R (clock64 dt n)) in *.
  assert (N1 : 1 <= INR n) by (change 1 with (INR 1); apply le_INR; lia).
  assert (NB : INR n + 1 <= 67108864).
  { rewrite <- S_INR. change 67108864 with (IZR (2 ^ 26)). rewrite INR_IZR_INZ. apply IZR_le.
    replace (2 ^ 26)%Z with (Z.of_nat (2 ^ 26)) by (rewrite Nat2Z.inj_pow; reflexivity). lia. }
  assert (TD : INR n * (1 - u) ^ n <= t / d <= INR n * (1 + u) ^ n).
  { split.
    - apply Rmult_le_reg_r with d; [exact D|]. replace (t / d * d) with t by (field; lra). lra.
    - apply Rmult_le_reg_r with d; [exact D|]. replace (t / d * d) with t by (field; lra). lra. }
  assert (PD := pow_down n). assert (PD1 := pow_down (S n)). rewrite S_INR in PD1. cbn [pow] in PD1.
  assert (NU : (INR n + 1) * u <= 1 / 134217728).
  { rewrite u_val. lra. }
  assert (HALF : 1 / 2 <= t / d) by nra.
  assert (Q := rnd_bounds (t / d)).
  assert (B0 : bpow radix2 (-1022) <= t / d).
  { apply Rle_trans with (bpow radix2 (-1)); [apply bpow_le; lia|]. cbn. lra. }
  specialize (Q B0).
  assert (PU := pow_up (S n)). rewrite S_INR in PU. specialize (PU ltac:(split; nra)). cbn [pow] in PU.
  set (q := rnd (t / d)) in *.
  assert (QL : INR n * (1 - (INR n + 1) * u) <= q).
  { apply Rle_trans with (INR n * ((1 - u) * (1 - u) ^ n)); [nra|]. nra. }
  assert (QU : q * (1 - (INR n + 1) * u) <= INR n).
  { assert (q <= INR n * ((1 + u) * (1 + u) ^ n)) by nra.
    assert (0 <= 1 - (INR n + 1) * u) by lra.
    apply Rle_trans with (INR n * ((1 + u) * (1 + u) ^ n) * (1 - (INR n + 1) * u)); [nra|]. nra. }
  assert (SQ : (INR n + 1) * ((INR n + 1) * u) < 1).
  { apply Rle_lt_trans with (67108864 * (1 / 134217728)); [|lra]. apply Rmult_le_compat; nra. }
  assert (A : INR n - 1 < q) by nra.
  assert (B : q < INR n + 1) by nra.
  rewrite div_correct.
  - fold t d q. rewrite Ztrunc_floor by lra. rewrite INR_IZR_INZ in A, B.
    destruct (Rle_or_lt (IZR (Z.of_nat n)) q) as [G|G].
    + left. apply Zfloor_imp. rewrite plus_IZR. lra.
    + right. apply Zfloor_imp. rewrite plus_IZR, minus_IZR. lra.
  - fold d. lra.
  - fold t d q. rewrite Rabs_pos_eq by lra. assert (BB := big_bpow). apply Rlt_trans with (2 ^ 30); [|exact BB].
    replace (2 ^ 30) with 1073741824 by lra. lra.
Qed.
End Clock.

(** With a short mantissa nothing is rounded. *)
Lemma clock_exact : forall dt m e n, is_finite dt = true -> B2R dt = IZR m * bpow radix2 e -> (0 < m)%Z ->
  (-1074 <= e <= 900)%Z -> (Z.of_nat n * m < 2 ^ 53)%Z ->
  is_finite (clock64 dt n) = true /\ B2R (clock64 dt n) = INR n * B2R dt.
Proof.
  intros dt m e n F E Hm He. induction n as [|n IH]; intro Hn; [cbn; split; [reflexivity|lra]|].
  destruct (IH ltac:(lia)) as (F' & E'). change (clock64 dt (S n)) with (b64_add (clock64 dt n) dt).
  assert (S' : B2R (clock64 dt n) + B2R dt = IZR (Z.of_nat (S n) * m) * bpow radix2 e).
  { rewrite E', E, mult_IZR, <- INR_IZR_INZ, S_INR. ring. }
  assert (X : rnd (B2R (clock64 dt n) + B2R dt) = IZR (Z.of_nat (S n) * m) * bpow radix2 e).
  { rewrite S'. apply rnd_exact; lia. }
  destruct (add_correct (clock64 dt n) dt F' F) as [A B].
  - rewrite X, Rabs_mult, (Rabs_pos_eq (bpow radix2 e)) by apply bpow_ge_0. rewrite <- abs_IZR.
    apply Rlt_le_trans with (bpow radix2 53 * bpow radix2 e).
    + apply Rmult_lt_compat_r; [apply bpow_gt_0|]. change (bpow radix2 53) with (IZR (2 ^ 53)). apply IZR_lt. lia.
    + rewrite <- bpow_plus. apply bpow_le. unfold emax64. lia.
  - split; [exact B|]. rewrite A, X, E, mult_IZR, <- INR_IZR_INZ. ring.
Qed.

Lemma index_exact : forall dt m e n, is_finite dt = true -> B2R dt = IZR m * bpow radix2 e -> (0 < m)%Z ->
  (-1074 <= e <= 900)%Z -> (Z.of_nat n * m < 2 ^ 53)%Z -> index64 (clock64 dt n) dt = Z.of_nat n.
Proof.
  intros dt m e n F E Hm He Hn. destruct (clock_exact dt m e n F E Hm He Hn) as (F' & E').
  assert (D : 0 < B2R dt). { rewrite E. apply Rmult_lt_0_compat; [now apply IZR_lt|apply bpow_gt_0]. }
  assert (Q : B2R (clock64 dt n) / B2R dt = IZR (Z.of_nat n)) by (rewrite E', INR_IZR_INZ; field; lra).
  assert (N : (Z.abs (Z.of_nat n) < 2 ^ 53)%Z) by nia.
  unfold index64. rewrite trunc_correct, div_correct.
  - rewrite Q, rnd_exact_Z by exact N. apply Ztrunc_IZR.
  - lra.
  - rewrite Q, rnd_exact_Z by exact N. rewrite <- abs_IZR. apply Rlt_trans with (bpow radix2 53).
    + change (bpow radix2 53) with (IZR (2 ^ 53)). now apply IZR_lt.
    + apply bpow_lt. reflexivity.
Qed.
