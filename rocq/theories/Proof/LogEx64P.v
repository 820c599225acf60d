(** A logarithm as [accurate_log] wants it: the natural logarithm, rounded to the nearest double. *)
From Coq Require Import Reals ZArith Bool Lia Lra Psatz.
From Flocq Require Import Core IEEE754.BinarySingleNaN.
From Verif.Lib Require Import RAux.
From Verif.Model Require Import Binary64 Temperature64 Arith.
From Verif.Spec Require Import Deposit64.
From Verif.Proof Require Import Binary64P FloatP Axis64P Err64P Log64P.
Local Open Scope R_scope.

Notation fx := (SpecFloat.fexp prec64 emax64).

(** The double nearest to a real number. *)
Definition nearest (x : R) : b64 := binary_normalize prec64 emax64 eq_refl eq_refl mode_NE (Ztrunc (scaled_mantissa radix2 fx (rnd x))) (cexp radix2 fx (rnd x)) false.

Lemma nearest_ok : forall x, Rabs x <= bp 1000 -> fin (nearest x) /\ B2R (nearest x) = rnd x.
Proof.
  intros x H. assert (C := binary_normalize_correct prec64 emax64 eq_refl eq_refl mode_NE (Ztrunc (scaled_mantissa radix2 fx (rnd x))) (cexp radix2 fx (rnd x)) false). cbv zeta in C.
  assert (E : F2R {| Fnum := Ztrunc (scaled_mantissa radix2 fx (rnd x)); Fexp := cexp radix2 fx (rnd x) |} = rnd x) by (symmetry; exact (fmt_rnd x)).
  rewrite E in C. change (round radix2 fx (round_mode mode_NE) (rnd x)) with (rnd (rnd x)) in C.
  assert (I : rnd (rnd x) = rnd x) by (apply round_generic; [apply valid_rnd_N|apply fmt_rnd]). rewrite I in C.
  rewrite Rlt_bool_true in C.
  - destruct C as (C1 & C2 & _). split; [exact C2|exact C1].
  - apply Rle_lt_trans with (bp 1000); [|apply bpow_lt; reflexivity]. apply Rabs_le. apply Rabs_le_inv in H. assert (B := rnd_bp 1000 ltac:(lia)). split.
    + rewrite <- B, <- rnd_opp. apply rnd_mono. lra.
    + rewrite <- B. apply rnd_mono. lra.
Qed.

Definition near_ln (x : b64) : b64 := nearest (ln (B2R x)).

Lemma rnd_rel_abs : forall x, bp (-1022) <= Rabs x -> Rabs (rnd x - x) <= u * Rabs x.
Proof.
  intros x H. destruct (Rle_lt_dec 0 x) as [L|L].
  - rewrite (Rabs_pos_eq x) in H |- * by exact L. now apply rnd_rel.
  - rewrite (Rabs_left x) in H |- * by exact L. assert (K := rnd_rel (- x) H). rewrite rnd_opp in K. replace (- rnd x - - x) with (- (rnd x - x)) in K by ring. now rewrite Rabs_Ropp in K.
Qed.

Theorem near_ln_accurate : accurate_log near_ln.
Proof.
  intros x Fx Hx. set (X := B2R x) in *. assert (UV := u_val). assert (UP := u_pos).
  assert (L : Rabs (ln X) <= 16).
  { apply Rabs_le. assert (L1 := ln_le_sub X ltac:(lra)). assert (L2 := ln_le_sub (/ X) ltac:(apply Rinv_0_lt_compat; lra)). rewrite ln_Rinv in L2 by lra.
    assert (/ X <= 16) by (replace 16 with (/ / 16) by lra; apply Rinv_le_contravar; lra). lra. }
  destruct (nearest_ok (ln X)) as (F & E); [apply Rle_trans with (1 := L); change 16 with (bp 4); apply bpow_le; lia|].
  split; [exact F|]. unfold near_ln. fold X. rewrite E.
  destruct (Req_dec X 1) as [->|N].
  { rewrite ln_1. replace (rnd 0) with 0 by (symmetry; apply round_0; apply valid_rnd_N). rewrite Rminus_0_r, Rabs_R0. lra. }
  apply Rle_trans with (u * Rabs (ln X)); [|apply Rmult_le_compat_r; [apply Rabs_pos|unfold u; apply bpow_le; lia]].
  apply rnd_rel_abs. assert (FX : generic_format radix2 fx X) by apply generic_format_B2R. assert (F1 : generic_format radix2 fx 1) by (rewrite <- (rnd_exact_Z 1) by reflexivity; apply fmt_rnd).
  assert (G := gap_any X 1 FX F1 ltac:(lra) ltac:(lra) N). assert (M : / 16 <= Rmin X 1) by (apply Rmin_glb; lra).
  assert (G2 : / 16 * u <= Rabs (X - 1)) by (apply Rle_trans with (2 := G); rewrite Rmult_comm; apply Rmult_le_compat_l; lra).
  apply Rle_trans with (u * (/ 256)). { unfold u. replace (/ 256) with (bp (-8)) by (cbn; lra). rewrite <- bpow_plus. apply bpow_le. lia. }
  destruct (Rle_lt_dec X 1) as [O|O].
  - assert (L1 := ln_le_sub X ltac:(lra)). rewrite Rabs_left1 in G2 by lra. rewrite Rabs_left1 by lra. lra.
  - assert (L2 := ln_le_sub (/ X) ltac:(apply Rinv_0_lt_compat; lra)). rewrite ln_Rinv in L2 by lra. rewrite Rabs_pos_eq in G2 by lra.
    assert (K : / 16 * (X - 1) <= 1 - / X). { assert (I : / 16 <= / X) by (apply Rinv_le_contravar; lra). replace (1 - / X) with (/ X * (X - 1)) by (field; lra). apply Rmult_le_compat_r; lra. }
    rewrite Rabs_pos_eq; [lra|]. assert (0 <= / 16 * (X - 1)) by (apply Rmult_le_pos; lra). lra.
Qed.
