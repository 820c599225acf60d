(** random_reverse in binary64. *)
From Coq Require Import ZArith Reals Lra Lia Psatz List Bool.
From Flocq Require Import Core IEEE754.BinarySingleNaN.
From Verif.Lib Require Import RAux Outcome.
From Verif.Model Require Import Binary64 Temperature64 Arith GenCode Rand GenLoad.
From Verif.Spec Require Import Load64.
From Verif.Proof Require Import Binary64P FloatP Err64P RandP.
Local Open Scope R_scope.

Section Rand64.
Variables pw lg : b64 -> b64.
Notation A := (b64_arith pw lg).
Variable ipow : Z -> Z -> b64.
Hypothesis HI : good_ipow ipow.
Variable b : Z.
Hypothesis HB : (2 <= b <= 16)%Z.
Lemma HB2 : (2 <= b)%Z. Proof. lia. Qed.
Lemma br : 2 <= IZR b <= 16. Proof. split; apply IZR_le; lia. Qed.

Lemma val_high : forall n, (0 <= n)%Z -> val b n <= 1 - / (IZR b * IZR (Z.max n 1)).
Proof.
  assert (B := br). intros n Hn. revert n Hn. apply (Z_ind_div b HB2).
  - rewrite (val_nonpos b 0) by lia. change (Z.max 0 1) with 1%Z. assert (/ (IZR b * 1) <= 1); [|lra]. rewrite Rmult_1_r, <- Rinv_1. apply Rinv_le; lra.
  - intros n Hn IH. rewrite (val_step b HB2 n) by lia. assert (M := mod_range b HB2 n). rewrite Z.max_l by lia.
    assert (N1 : 1 <= IZR n) by (apply IZR_le; lia).
    assert (Q0 : (0 <= n / b)%Z) by (apply Z.div_pos; lia). assert (QN : (b * (n / b) <= n)%Z) by (apply Z.mul_div_le; lia).
    assert (K : IZR (Z.max (n / b) 1) * IZR b <= IZR n * IZR b).
    { apply Rmult_le_compat_r; [lra|]. apply IZR_le. assert (n / b <= n)%Z by (apply Z.div_le_upper_bound; nia). lia. }
    destruct (Z.eq_dec (n / b) 0) as [E|E].
    + rewrite E, (val_nonpos b 0), Rplus_0_r by lia. apply Rmult_le_reg_r with (IZR b); [lra|]. unfold Rdiv. rewrite Rmult_assoc, Rinv_l, Rmult_1_r by lra.
      rewrite Rmult_minus_distr_r, Rmult_1_l. rewrite Rinv_mult. replace (/ IZR b * / IZR n * IZR b) with (/ IZR n) by (field; lra).
      assert (/ IZR n <= 1) by (rewrite <- Rinv_1; apply Rinv_le; lra). lra.
    + rewrite Z.max_l in IH by lia. apply Rmult_le_reg_r with (IZR b); [lra|]. unfold Rdiv. rewrite Rmult_assoc, Rinv_l, Rmult_1_r by lra.
      rewrite Rmult_minus_distr_r, Rmult_1_l. rewrite Rinv_mult. replace (/ IZR b * / IZR n * IZR b) with (/ IZR n) by (field; lra).
      assert (/ IZR n <= / (IZR b * IZR (n / b))).
      { apply Rinv_le; [apply Rmult_lt_0_compat; [lra|apply IZR_lt; lia]|]. rewrite <- mult_IZR. now apply IZR_le. }
      lra.
Qed.

Lemma val_below : forall n, (0 <= n < 2 ^ 31)%Z -> 0 <= val b n <= 1 - bp (-35).
Proof.
  intros n Hn. split; [apply (val_range b HB2); lia|]. apply Rle_trans with (1 := val_high n (proj1 Hn)). assert (B := br).
  assert (bp (-35) <= / (IZR b * IZR (Z.max n 1))); [|lra].
  replace (bp (-35)) with (/ (16 * 2147483648)) by (cbn; lra). assert (1 <= IZR (Z.max n 1)) by (apply IZR_le; lia).
  apply Rinv_le; [nra|]. apply Rmult_le_compat; try lra. apply IZR_le. cbn in Hn. lia.
Qed.

Lemma quot_div : forall n, (0 <= n)%Z -> Z.rem n b = (n mod b)%Z /\ Z.quot (n - Z.rem n b) b = (n / b)%Z.
Proof.
  intros n Hn. rewrite Z.rem_mod_nonneg by lia. split; [reflexivity|].
  rewrite Z.quot_div_nonneg; [|assert (M := Z.mod_le n b); lia|lia].
  replace (n - n mod b)%Z with (n / b * b)%Z by (rewrite Z.mod_eq by lia; lia). apply Z.div_mul. lia.
Qed.

Lemma term_near : forall d k, (0 <= d <= b - 1)%Z -> (1 <= k <= 31)%Z ->
  let t := b64_mul (b64_of_Z d) (ipow b k) in fin t /\ 0 <= B2R t <= 1 + bp (-48) /\ Rabs (B2R t - IZR d * / IZR b ^ Z.to_nat k) <= bp (-50) + bp (-52).
Proof.
  intros d k Hd Hk t. destruct (HI b k HB Hk) as (FI & EI). assert (B := br).
  destruct (of_Z_exact d) as (FD & ED); [cbn; lia|].
  assert (D : 0 <= IZR d <= IZR b - 1) by (rewrite <- minus_IZR; split; apply IZR_le; lia).
  assert (P : IZR b <= IZR b ^ Z.to_nat k).
  { replace (Z.to_nat k) with (S (Z.to_nat (k - 1))) by lia. cbn [pow]. assert (1 <= IZR b ^ Z.to_nat (k - 1)) by (apply pow_R1_Rle; lra). nra. }
  set (p := IZR b ^ Z.to_nat k) in *. set (i := B2R (ipow b k)) in *.
  assert (E1 : Rabs (i - / p) <= bp (-50) * / p).
  { replace (i - / p) with ((i * p - 1) * / p) by (field; lra). rewrite Rabs_mult, (Rabs_pos_eq (/ p)) by (left; apply Rinv_0_lt_compat; lra).
    apply Rmult_le_compat_r; [left; apply Rinv_0_lt_compat; lra|exact EI]. }
  assert (IP : 0 < / p) by (apply Rinv_0_lt_compat; lra).
  assert (DP : 0 <= IZR d * / p <= 1).
  { split; [apply Rmult_le_pos; lra|]. apply Rmult_le_reg_r with p; [lra|]. rewrite Rmult_assoc, Rinv_l by lra. lra. }
  assert (V50 : bp (-50) = / 1125899906842624) by (cbn; lra). assert (V52 : bp (-52) = / 4503599627370496) by (cbn; lra). assert (V48 : bp (-48) = / 281474976710656) by (cbn; lra).
  assert (I0 : 0 <= i) by (apply Rabs_le_inv in E1; nra).
  assert (E2 : Rabs (IZR d * i - IZR d * / p) <= bp (-50)).
  { rewrite <- Rmult_minus_distr_l, Rabs_mult, (Rabs_pos_eq (IZR d)) by lra. apply Rle_trans with (IZR d * (bp (-50) * / p)); [apply Rmult_le_compat_l; lra|].
    replace (IZR d * (bp (-50) * / p)) with (bp (-50) * (IZR d * / p)) by ring. nra. }
  apply Rabs_le_inv in E2. assert (W : 0 <= IZR d * i) by (apply Rmult_le_pos; lra).
  destruct (mul_ok (b64_of_Z d) (ipow b k) FD FI) as (F & E); [rewrite ED; fold i; rewrite Rabs_pos_eq by lra; apply Rle_trans with 2; [lra|apply (bpow_le radix2 1 1023); lia]|].
  rewrite ED in E. fold i t in E. assert (R := rnd_err (IZR d * i)). assert (T := Axis64P.tiny_100). rewrite Axis64P.bp_m100 in T. rewrite u_val, (Rabs_pos_eq (IZR d * i)) in R by lra.
  apply Rabs_le_inv in R. split; [exact F|]. split; [split|].
  - rewrite E, <- rnd_0. apply rnd_mono. lra.
  - rewrite E. lra.
  - rewrite E. apply Rabs_le. lra.
Qed.

Lemma rr64_loop : forall fuel n o (r : b64) R0, (0 <= n < 2 ^ Z.of_nat fuel)%Z -> (1 <= o <= 32)%Z -> (n * 2 ^ (o - 1) < 2 ^ 31)%Z ->
  fin r -> 0 <= B2R r -> 0 <= R0 -> R0 + val b n * / IZR b ^ Z.to_nat (o - 1) <= 1 -> Rabs (B2R r - R0) <= IZR (o - 1) * bp (-49) ->
  exists x, grr_loop A ipow fuel n b o r = Some x /\ fin x /\ 0 <= B2R x /\ Rabs (B2R x - (R0 + val b n * / IZR b ^ Z.to_nat (o - 1))) <= 31 * bp (-49).
Proof.
  assert (BR := br). induction fuel as [|fuel IH]; intros n o r R0 Hn Ho HO Fr Pr P0 L0 E0.
  - assert (n = 0)%Z by (cbn in Hn; lia). subst n. exists r. rewrite (val_nonpos b 0) by lia. rewrite Rmult_0_l, Rplus_0_r. cbn [grr_loop Z.leb Z.compare]. split; [reflexivity|]. split; [exact Fr|]. split; [exact Pr|].
    apply Rle_trans with (1 := E0). apply Rmult_le_compat_r; [apply bpow_ge_0|]. apply IZR_le. lia.
  - cbn [grr_loop]. destruct (Z.leb_spec 1 n) as [N1|N0].
    2: { assert (n = 0)%Z by lia. subst n. exists r. rewrite (val_nonpos b 0) by lia. rewrite Rmult_0_l, Rplus_0_r. split; [reflexivity|]. split; [exact Fr|]. split; [exact Pr|].
         apply Rle_trans with (1 := E0). apply Rmult_le_compat_r; [apply bpow_ge_0|]. apply IZR_le. lia. }
    assert (O31 : (o <= 31)%Z).
    { destruct (Z.le_gt_cases o 31) as [H|H]; [exact H|]. assert (o = 32)%Z by lia. subst o. change (2 ^ (32 - 1))%Z with (2 ^ 31)%Z in HO. nia. }
    destruct (quot_div n (proj1 Hn)) as (-> & EQ). rewrite EQ in *. clear EQ. assert (MR : (0 <= n mod b <= b - 1)%Z) by (assert (M := Z.mod_pos_bound n b); lia).
    destruct (term_near (n mod b) o MR ltac:(lia)) as (FT & PT & ET). cbv zeta in FT, PT, ET.
    change (mul A (of_int A (n mod b)) (ipow b o)) with (b64_mul (b64_of_Z (n mod b)) (ipow b o)). set (t := b64_mul (b64_of_Z (n mod b)) (ipow b o)) in *.
    change (add A r t) with (b64_add r t).
    assert (STEP : val b n * / IZR b ^ Z.to_nat (o - 1) = IZR (n mod b) * / IZR b ^ Z.to_nat o + val b (n / b) * / IZR b ^ Z.to_nat o).
    { rewrite (val_step b HB2 n) by lia. replace (Z.to_nat o) with (S (Z.to_nat (o - 1))) by lia. cbn [pow]. assert (IZR b ^ Z.to_nat (o - 1) <> 0) by (apply pow_nonzero; lra). field. split; lra. }
    assert (PI' : 0 < / IZR b ^ Z.to_nat o) by (apply Rinv_0_lt_compat, pow_lt; lra).
    assert (QV : 0 <= val b (n / b)) by (apply (val_range b HB2); apply Z.div_pos; lia).
    assert (T2 : 0 <= val b (n / b) * / IZR b ^ Z.to_nat o) by (apply Rmult_le_pos; lra).
    assert (T1 : 0 <= IZR (n mod b) * / IZR b ^ Z.to_nat o) by (apply Rmult_le_pos; [apply IZR_le; lia|lra]).
    rewrite STEP in L0. set (tau := IZR (n mod b) * / IZR b ^ Z.to_nat o) in *.
    assert (V49 : bp (-49) = / 562949953421312) by (cbn; lra). assert (V50 : bp (-50) = / 1125899906842624) by (cbn; lra). assert (V52 : bp (-52) = / 4503599627370496) by (cbn; lra).
    assert (OB : 0 <= IZR (o - 1) <= 31) by (split; apply IZR_le; lia).
    assert (OE : 0 <= IZR (o - 1) * bp (-49) <= / 1000000000) by (rewrite V49; lra). apply Rabs_le_inv in E0, ET.
    assert (SB : 0 <= B2R r + B2R t <= 2) by lra.
    destruct (add_ok r t Fr FT) as (FS & ES); [rewrite Rabs_pos_eq by lra; apply Rle_trans with (bp 1); [cbn; lra|apply bpow_le; lia]|].
    assert (R := rnd_err (B2R r + B2R t)). rewrite <- ES, u_val, (Rabs_pos_eq (B2R r + B2R t)) in R by lra. assert (T := Axis64P.tiny_100). rewrite Axis64P.bp_m100 in T. apply Rabs_le_inv in R.
    assert (PS : 0 <= B2R (b64_add r t)) by (rewrite ES, <- rnd_0; apply rnd_mono; lra).
    destruct (IH (n / b)%Z (o + 1)%Z (b64_add r t) (R0 + tau)) as (x & Ex & Fx & Px & Dx).
    + split; [apply Z.div_pos; lia|]. apply Z.div_lt_upper_bound; [lia|]. rewrite Nat2Z.inj_succ, Z.pow_succ_r in Hn by lia. nia.
    + lia.
    + replace (o + 1 - 1)%Z with (Z.succ (o - 1)) by lia. rewrite Z.pow_succ_r by lia. assert (b * (n / b) <= n)%Z by (apply Z.mul_div_le; lia). assert (0 <= n / b)%Z by (apply Z.div_pos; lia). assert (0 < 2 ^ (o - 1))%Z by (apply Z.pow_pos_nonneg; lia).
      assert (n / b * 2 <= n)%Z by nia. nia.
    + exact FS.
    + exact PS.
    + lra.
    + replace (o + 1 - 1)%Z with o by lia. lra.
    + replace (o + 1 - 1)%Z with (o - 1 + 1)%Z by lia. rewrite plus_IZR. apply Rabs_le. rewrite V50, V52 in *. rewrite V49 in *. lra.
    + replace (o + 1 - 1)%Z with o in Dx by lia. exists x. rewrite STEP. split; [exact Ex|]. split; [exact Fx|]. split; [exact Px|].
      replace (R0 + (tau + val b (n / b) * / IZR b ^ Z.to_nat o)) with (R0 + tau + val b (n / b) * / IZR b ^ Z.to_nat o) by ring. exact Dx.
Qed.

Theorem rr64 : forall n, (0 <= n < 2 ^ 31)%Z -> exists x, grandom_reverse A ipow n b = Some x /\ fraction x /\ Rabs (B2R x - val b n) <= bp (-44).
Proof.
  intros n Hn. destruct (of_Z_exact 0 eq_refl) as (F0 & E0). assert (V := val_below n Hn). assert (P35 := bpow_gt_0 radix2 (-35)).
  destruct (rr64_loop 32 n 1 (b64_of_Z 0) 0) as (x & Ex & Fx & Px & Dx).
  - cbn in *. lia.
  - lia.
  - cbn in *. lia.
  - exact F0.
  - rewrite E0. lra.
  - lra.
  - change (Z.to_nat (1 - 1)) with O. cbn [pow]. rewrite Rinv_1. lra.
  - rewrite E0, Rminus_0_r, Rabs_R0. change (IZR (1 - 1)) with 0. lra.
  - exists x. split; [exact Ex|]. change (Z.to_nat (1 - 1)) with O in Dx. cbn [pow] in Dx. rewrite Rinv_1, Rmult_1_r, Rplus_0_l in Dx. assert (V49 : bp (-49) = / 562949953421312) by (cbn; lra). assert (V44 : bp (-44) = / 17592186044416) by (cbn; lra).
    assert (V36 : bp (-36) = / 68719476736) by (cbn; lra). assert (V35 : bp (-35) = / 34359738368) by (cbn; lra).
    assert (D : Rabs (B2R x - val b n) <= bp (-44)) by (apply Rle_trans with (31 * bp (-49)); [exact Dx|rewrite V49, V44; lra]).
    split; [|exact D]. split; [exact Fx|]. split; [exact Px|]. apply Rabs_le_inv in D. rewrite V44, V36, V35 in *. lra.
Qed.
End Rand64.
