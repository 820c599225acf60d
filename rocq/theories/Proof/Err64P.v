(** Error bounds in binary64: a double x computes the real number X, of size at most M, with an error of k units u * M. *)
From Coq Require Import Reals ZArith List Bool Lia Lra Psatz.
From Flocq Require Import Core IEEE754.BinarySingleNaN.
From Verif.Lib Require Import RAux.
From Verif.Model Require Import Binary64 Temperature64.
From Verif.Proof Require Import Binary64P FloatP Push64P.
Local Open Scope R_scope.
Notation bp := (bpow radix2).
Notation fin x := (@is_finite prec64 emax64 x = true).

(** ** Ranges of sizes *)
Definition rg (M : R) (a b : Z) : Prop := bp a <= M <= bp b.
Lemma rg_pos : forall M a b, rg M a b -> 0 < M.
Proof. intros M a b (L & _). assert (P := bpow_gt_0 radix2 a). lra. Qed.
Lemma rg_weaken : forall M a b a' b', rg M a b -> (a' <= a)%Z -> (b <= b')%Z -> rg M a' b'.
Proof. intros M a b a' b' (L & U) HA HB. split; [apply Rle_trans with (2 := L)|apply Rle_trans with (1 := U)]; now apply bpow_le. Qed.
Lemma rg_mul : forall M N a b c d, rg M a b -> rg N c d -> rg (M * N) (a + c) (b + d).
Proof.
  intros M N a b c d H K. assert (P := rg_pos _ _ _ H). assert (Q := rg_pos _ _ _ K). assert (P1 := bpow_ge_0 radix2 a). assert (P2 := bpow_ge_0 radix2 c).
  destruct H, K. unfold rg. rewrite !bpow_plus. split; apply Rmult_le_compat; lra.
Qed.
Lemma rg_inv : forall M a b, rg M a b -> rg (/ M) (- b) (- a).
Proof. intros M a b H. assert (P := rg_pos _ _ _ H). assert (P1 := bpow_gt_0 radix2 a). destruct H. unfold rg. rewrite !bpow_opp. split; apply Rinv_le; lra. Qed.
Lemma rg_div : forall M N a b c d, rg M a b -> rg N c d -> rg (M / N) (a - d) (b - c).
Proof. intros M N a b c d H K. unfold Rdiv, Zminus. apply rg_mul; [exact H|now apply rg_inv]. Qed.
Lemma rg_add : forall M N a b c d, rg M a b -> rg N c d -> rg (M + N) (Z.max a c) (Z.max b d + 1).
Proof.
  intros M N a b c d H K. assert (P := rg_pos _ _ _ H). assert (Q := rg_pos _ _ _ K). destruct H as (L1 & U1), K as (L2 & U2). split.
  - destruct (Z.max_spec a c) as [(_ & ->)|(_ & ->)]; lra.
  - rewrite bp_succ. assert (bp b <= bp (Z.max b d)) by (apply bpow_le; lia). assert (bp d <= bp (Z.max b d)) by (apply bpow_le; lia). lra.
Qed.
Lemma rg_sqrt : forall M a b, rg M (2 * a) (2 * b) -> rg (sqrt M) a b.
Proof.
  intros M a b (L & U). split; [rewrite <- (sqrt_square (bp a)) by apply bpow_ge_0|rewrite <- (sqrt_square (bp b)) by apply bpow_ge_0]; apply sqrt_le_1_alt; rewrite <- bpow_plus;
    [replace (a + a)%Z with (2 * a)%Z by lia|replace (b + b)%Z with (2 * b)%Z by lia]; assumption.
Qed.

(** ** Values with errors *)
Definition near (x : b64) (X M k : R) : Prop := fin x /\ (0 <= k /\ k * u <= / 1024) /\ Rabs X <= M /\ Rabs (B2R x - X) <= k * u * M.

Lemma u_pos : 0 < u. Proof. rewrite u_val. lra. Qed.
Lemma tiny_scale : forall M, bp (-900) <= M -> tiny <= u * M * / 1024.
Proof.
  intros M H. assert (E : tiny = u * bp (-1012) * / 1024).
  { unfold tiny, u. replace (/ 1024) with (bp (-10)) by (cbn; lra). rewrite <- !bpow_plus. reflexivity. }
  assert (K : bp (-1012) <= M) by (apply Rle_trans with (2 := H); apply bpow_le; lia). rewrite E. assert (P := u_pos).
  apply Rmult_le_compat_r; [lra|]. apply Rmult_le_compat_l; lra.
Qed.

Lemma near_size : forall x X M k, near x X M k -> 0 <= M /\ Rabs (B2R x) <= M * (1 + / 1024).
Proof.
  intros x X M k (_ & (K0 & K1) & S & E). assert (P := Rabs_pos X). assert (M0 : 0 <= M) by lra. split; [exact M0|].
  assert (T := Rabs_triang_inv (B2R x) X). assert (k * u * M <= / 1024 * M) by (apply Rmult_le_compat_r; lra). lra.
Qed.

(** a real number within k units, rounded *)
Lemma round_near : forall W X M k, (0 <= k /\ k * u <= / 256) -> bp (-900) <= M -> Rabs X <= M -> Rabs (W - X) <= k * u * M -> Rabs (rnd W - X) <= (k + 5 / 4) * u * M.
Proof.
  intros W X M k (K0 & K1) HM S E. assert (R := rnd_err W). assert (T := tiny_scale M HM). assert (P := bpow_gt_0 radix2 (-900)). assert (PU := u_pos).
  assert (TW := Rabs_triang_inv W X). assert (KM : k * u * M <= / 256 * M) by (apply Rmult_le_compat_r; lra).
  assert (UW : u * Rabs W <= u * (M + / 256 * M)) by (apply Rmult_le_compat_l; lra).
  assert (TR := Rabs_triang (rnd W - W) (W - X)). replace (rnd W - W + (W - X)) with (rnd W - X) in TR by ring.
  assert (UM : 0 < u * M) by (apply Rmult_lt_0_compat; lra). nra.
Qed.

Lemma near_exact : forall x M, fin x -> Rabs (B2R x) <= M -> near x (B2R x) M 0.
Proof.
  intros x M F S. split; [exact F|]. split; [split; lra|]. split; [exact S|]. unfold Rminus. rewrite Rplus_opp_r, Rabs_R0. lra.
Qed.
Lemma near_weaken : forall x X M k M' k', near x X M k -> M <= M' -> k <= k' -> k' * u <= / 1024 -> near x X M' k'.
Proof.
  intros x X M k M' k' N HM HK HC. destruct (near_size _ _ _ _ N) as (M0 & _). destruct N as (F & (K0 & K1) & S & E). assert (P := u_pos).
  split; [exact F|]. split; [split; lra|]. split; [lra|]. apply Rle_trans with (1 := E). rewrite !Rmult_assoc. apply Rmult_le_compat; try lra; [apply Rmult_le_pos; lra|apply Rmult_le_compat_l; lra].
Qed.
Lemma near_eq : forall x X M k X' M', near x X M k -> X = X' -> M = M' -> near x X' M' k.
Proof. now intros x X M k X' M' H <- <-. Qed.
Lemma near_opp : forall x X M k, near x X M k -> near (Bopp x) (- X) M k.
Proof.
  intros x X M k (F & K & S & E). destruct (opp_ok x F) as (F' & V). split; [exact F'|]. split; [exact K|]. rewrite Rabs_Ropp. split; [exact S|].
  rewrite V. replace (- B2R x - - X) with (- (B2R x - X)) by ring. now rewrite Rabs_Ropp.
Qed.

Lemma fits_M : forall W M, Rabs W <= M * 2 -> M <= bp 1000 -> Rabs W <= bp 1023.
Proof.
  intros W M H HM. apply Rle_trans with (1 := H). apply Rle_trans with (bp 1001); [|apply bpow_le; lia]. replace 1001%Z with (1000 + 1)%Z by lia. rewrite bp_succ. lra.
Qed.

Lemma near_add : forall x X M k y Y N l K, near x X M k -> near y Y N l -> k <= K -> l <= K -> (K + 5 / 4) * u <= / 1024 -> rg (M + N) (-900) 1000 ->
  near (b64_add x y) (X + Y) (M + N) (K + 5 / 4).
Proof.
  intros x X M k y Y N l K HX HY HK HL HC (R1 & R2). destruct (near_size _ _ _ _ HX) as (M0 & SX). destruct (near_size _ _ _ _ HY) as (N0 & SY).
  destruct HX as (FX & (K0 & K1) & HX1 & HX2). destruct HY as (FY & (L0 & L1) & HY1 & HY2). assert (P := u_pos).
  destruct (add_ok x y FX FY) as (F & E); [apply (fits_M _ (M + N)); [|exact R2]; apply Rle_trans with (1 := Rabs_triang _ _); lra|].
  split; [exact F|]. split; [split; lra|]. split; [apply Rle_trans with (1 := Rabs_triang _ _); lra|]. rewrite E. apply round_near; [split; nra|exact R1|apply Rle_trans with (1 := Rabs_triang _ _); lra|].
  replace (B2R x + B2R y - (X + Y)) with ((B2R x - X) + (B2R y - Y)) by ring. apply Rle_trans with (1 := Rabs_triang _ _).
  assert (k * u * M <= K * u * M) by (apply Rmult_le_compat_r; [lra|apply Rmult_le_compat_r; lra]).
  assert (l * u * N <= K * u * N) by (apply Rmult_le_compat_r; [lra|apply Rmult_le_compat_r; lra]). lra.
Qed.
Lemma near_sub : forall x X M k y Y N l K, near x X M k -> near y Y N l -> k <= K -> l <= K -> (K + 5 / 4) * u <= / 1024 -> rg (M + N) (-900) 1000 ->
  near (b64_sub x y) (X - Y) (M + N) (K + 5 / 4).
Proof.
  intros x X M k y Y N l K HX HY HK HL HC (R1 & R2). destruct (near_size _ _ _ _ HX) as (M0 & SX). destruct (near_size _ _ _ _ HY) as (N0 & SY).
  destruct HX as (FX & (K0 & K1) & HX1 & HX2). destruct HY as (FY & (L0 & L1) & HY1 & HY2). assert (P := u_pos).
  assert (TR : forall a b, Rabs (a - b) <= Rabs a + Rabs b) by (intros a b; unfold Rminus; apply Rle_trans with (1 := Rabs_triang _ _); rewrite Rabs_Ropp; lra).
  destruct (sub_ok x y FX FY) as (F & E); [apply (fits_M _ (M + N)); [|exact R2]; apply Rle_trans with (1 := TR _ _); lra|].
  split; [exact F|]. split; [split; lra|]. split; [apply Rle_trans with (1 := TR _ _); lra|]. rewrite E. apply round_near; [split; nra|exact R1|apply Rle_trans with (1 := TR _ _); lra|].
  replace (B2R x - B2R y - (X - Y)) with ((B2R x - X) - (B2R y - Y)) by ring. apply Rle_trans with (1 := TR _ _).
  assert (k * u * M <= K * u * M) by (apply Rmult_le_compat_r; [lra|apply Rmult_le_compat_r; lra]).
  assert (l * u * N <= K * u * N) by (apply Rmult_le_compat_r; [lra|apply Rmult_le_compat_r; lra]). lra.
Qed.

Lemma near_mul : forall x X M k y Y N l K, near x X M k -> near y Y N l -> k + l + k * l * u <= K -> (K + 5 / 4) * u <= / 1024 -> rg (M * N) (-900) 1000 ->
  near (b64_mul x y) (X * Y) (M * N) (K + 5 / 4).
Proof.
  intros x X M k y Y N l K HX HY HK HC (R1 & R2). destruct (near_size _ _ _ _ HX) as (M0 & SX). destruct (near_size _ _ _ _ HY) as (N0 & SY).
  destruct HX as (FX & (K0 & K1) & HX1 & HX2). destruct HY as (FY & (L0 & L1) & HY1 & HY2). assert (P := u_pos).
  assert (K2 : 0 <= k * l * u) by (apply Rmult_le_pos; [apply Rmult_le_pos|]; lra).
  assert (S : Rabs (X * Y) <= M * N) by (rewrite Rabs_mult; apply Rmult_le_compat; auto using Rabs_pos).
  assert (MN : 0 <= M * N) by (apply Rmult_le_pos; lra).
  destruct (mul_ok x y FX FY) as (F & E).
  { apply (fits_M _ (M * N)); [|exact R2]. rewrite Rabs_mult. apply Rle_trans with (M * (1 + / 1024) * (N * (1 + / 1024))); [apply Rmult_le_compat; auto using Rabs_pos|].
    replace (M * (1 + / 1024) * (N * (1 + / 1024))) with (M * N * ((1 + / 1024) * (1 + / 1024))) by ring. apply Rmult_le_compat_l; lra. }
  split; [exact F|]. split; [split; lra|]. split; [exact S|]. rewrite E. apply round_near; [split; [lra|nra]|exact R1|exact S|].
  replace (B2R x * B2R y - X * Y) with ((B2R x - X) * Y + X * (B2R y - Y) + (B2R x - X) * (B2R y - Y)) by ring.
  apply Rle_trans with (1 := Rabs_triang _ _). apply Rle_trans with (k * u * M * N + M * (l * u * N) + k * u * M * (l * u * N)).
  - apply Rplus_le_compat; [apply Rle_trans with (1 := Rabs_triang _ _); apply Rplus_le_compat|]; rewrite Rabs_mult; apply Rmult_le_compat; auto using Rabs_pos.
  - replace (k * u * M * N + M * (l * u * N) + k * u * M * (l * u * N)) with ((k + l + k * l * u) * u * (M * N)) by ring.
    apply Rmult_le_compat_r; [exact MN|apply Rmult_le_compat_r; lra].
Qed.

(** the divisor with its own size *)
Lemma near_div : forall x X M k y Y l K, near x X M k -> near y Y Y l -> 0 < Y -> (k + l) * (1 + / 1000) <= K -> (K + 5 / 4) * u <= / 1024 -> rg (M / Y) (-900) 1000 ->
  near (b64_div x y) (X / Y) (M / Y) (K + 5 / 4).
Proof.
  intros x X M k y Y l K HX HY PY HK HC (R1 & R2). destruct (near_size _ _ _ _ HX) as (M0 & SX).
  destruct HX as (FX & (K0 & K1) & HX1 & HX2). destruct HY as (FY & (L0 & L1) & HY1 & HY2). assert (P := u_pos).
  assert (LY : l * u * Y <= / 1024 * Y) by (apply Rmult_le_compat_r; lra). assert (HY3 := Rabs_le_inv _ _ HY2). set (y' := B2R y) in *.
  assert (Q : Y * (1023 / 1024) <= y') by lra. assert (PY' : 0 < y') by lra. assert (PI := Rinv_0_lt_compat _ PY').
  assert (IY : / y' <= (1 + / 1000) * / Y).
  { apply Rmult_le_reg_r with y'; [exact PY'|]. rewrite Rinv_l by lra. apply Rmult_le_reg_r with Y; [exact PY|]. replace ((1 + / 1000) * / Y * y' * Y) with ((1 + / 1000) * y') by (field; lra). lra. }
  assert (PM : M / y' <= (1 + / 1000) * (M / Y)) by (unfold Rdiv; rewrite (Rmult_comm M (/ Y)), <- Rmult_assoc, (Rmult_comm M (/ y')); apply Rmult_le_compat_r; lra).
  assert (MY : 0 <= M / Y) by (apply Rmult_le_pos; [lra|left; now apply Rinv_0_lt_compat]).
  assert (AX : Rabs (B2R x / y') <= M * (1 + / 1024) / y').
  { unfold Rdiv. rewrite Rabs_mult, (Rabs_pos_eq (/ y')) by lra. apply Rmult_le_compat_r; lra. }
  destruct (div_ok x y FX) as (F & E); [fold y'; lra| |].
  { fold y'. apply (fits_M _ (M / Y)); [|exact R2]. apply Rle_trans with (1 := AX). unfold Rdiv in *. nra. }
  assert (S : Rabs (X / Y) <= M / Y).
  { unfold Rdiv. rewrite Rabs_mult, (Rabs_pos_eq (/ Y)) by (left; now apply Rinv_0_lt_compat). apply Rmult_le_compat_r; [left; now apply Rinv_0_lt_compat|exact HX1]. }
  split; [exact F|]. split; [split; [nra|lra]|]. split; [exact S|]. rewrite E. fold y'. apply round_near; [split; nra|exact R1|exact S|].
  replace (B2R x / y' - X / Y) with (((B2R x - X) - X / Y * (y' - Y)) / y') by (field; lra).
  unfold Rdiv at 1. rewrite Rabs_mult, (Rabs_pos_eq (/ y')) by lra.
  apply Rle_trans with ((k + l) * u * M * / y').
  - apply Rmult_le_compat_r; [lra|]. unfold Rminus at 1. apply Rle_trans with (1 := Rabs_triang _ _). rewrite Rabs_Ropp, Rabs_mult.
    assert (Rabs (X / Y) * Rabs (y' - Y) <= M / Y * (l * u * Y)) by (apply Rmult_le_compat; auto using Rabs_pos).
    replace (M / Y * (l * u * Y)) with (l * u * M) in * by (field; lra). lra.
  - replace ((k + l) * u * M * / y') with ((k + l) * u * (M / y')) by (unfold Rdiv; ring).
    apply Rle_trans with ((k + l) * u * ((1 + / 1000) * (M / Y))); [apply Rmult_le_compat_l; [apply Rmult_le_pos; lra|exact PM]|].
    replace ((k + l) * u * ((1 + / 1000) * (M / Y))) with ((k + l) * (1 + / 1000) * u * (M / Y)) by ring.
    apply Rmult_le_compat_r; [exact MY|apply Rmult_le_compat_r; lra].
Qed.

Lemma near_sqrt : forall x X k, near x X X k -> 0 < X -> (k + 5 / 4) * u <= / 1024 -> rg (sqrt X) (-900) 1000 -> near (b64_sqrt x) (sqrt X) (sqrt X) (k + 5 / 4).
Proof.
  intros x X k (FX & (K0 & K1) & HX1 & HX2) PX HC (R1 & R2). assert (P := u_pos). assert (PS := sqrt_lt_R0 _ PX).
  assert (k * u * X <= / 1024 * X) by (apply Rmult_le_compat_r; lra). assert (HX3 := Rabs_le_inv _ _ HX2). assert (PX' : 0 < B2R x) by lra.
  destruct (sqrt_ok x FX) as (F & E); [lra|]. assert (S : Rabs (sqrt X) <= sqrt X) by (rewrite Rabs_pos_eq; lra).
  split; [exact F|]. split; [split; lra|]. split; [exact S|]. rewrite E. apply round_near; [split; lra|exact R1|exact S|].
  assert (PS' := sqrt_lt_R0 _ PX'). assert (D : (sqrt (B2R x) - sqrt X) * (sqrt (B2R x) + sqrt X) = B2R x - X).
  { replace ((sqrt (B2R x) - sqrt X) * (sqrt (B2R x) + sqrt X)) with (sqrt (B2R x) * sqrt (B2R x) - sqrt X * sqrt X) by ring. rewrite !sqrt_sqrt; lra. }
  apply Rmult_le_reg_r with (sqrt (B2R x) + sqrt X); [lra|]. rewrite <- (Rabs_pos_eq (sqrt (B2R x) + sqrt X)) at 1 by lra. rewrite <- Rabs_mult, D.
  apply Rle_trans with (1 := HX2). replace (k * u * X) with (k * u * sqrt X * sqrt X) by (rewrite Rmult_assoc, sqrt_sqrt; [reflexivity|lra]).
  apply Rmult_le_compat_l; [apply Rmult_le_pos; [apply Rmult_le_pos|]; lra|lra].
Qed.
