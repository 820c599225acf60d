(** The rounded logarithm next to one (C74). *)
From Coq Require Import Reals ZArith Bool Lia Lra Psatz FunctionalExtensionality.
From Flocq Require Import Core IEEE754.BinarySingleNaN.
From Verif.Lib Require Import RAux.
From Verif.Model Require Import Binary64 Temperature64 Arith.
From Verif.Proof Require Import Binary64P FloatP Axis64P Err64P Log64P LogEx64P SignP.
Local Open Scope R_scope.

Lemma ln_lower : forall e, 0 < e -> e - e * e / 2 <= ln (1 + e).
Proof.
  intros e P. assert (D : 0 <= (1 + e - 1) * (H (-2) (-1) (1 + e) - H (-2) (-1) 1)).
  { apply grows with (fun x => x + -2 - -1 * / x). intros c Hc. rewrite Rmin_left, Rmax_right in Hc by lra. split; [apply dH; lra|].
    replace (c + -2 - -1 * / c) with ((c - 1) * (c - 1) * / c) by (field; lra). apply Rmult_le_pos; [nra|left; apply Rinv_0_lt_compat; lra]. }
  unfold H in D. rewrite ln_1 in D. nra.
Qed.
Lemma ln_upper : forall e, 0 < e -> ln (1 + e) <= e - e * e / 2 + e * e * e / 2.
Proof.
  intros e P. set (f := fun x => / 2 * x - / 2 * / x - ln x).
  assert (D : 0 <= (1 + e - 1) * (f (1 + e) - f 1)).
  { apply grows with (fun x => / 2 * 1 - / 2 * ((0 * x - 1 * 1) / x²) - / x). intros c Hc. rewrite Rmin_left, Rmax_right in Hc by lra. split.
    - assert (I := derivable_pt_lim_div (fct_cte 1) id c 0 1 (derivable_pt_lim_const 1 c) (derivable_pt_lim_id c) ltac:(unfold id; lra)). unfold id at 2 3, fct_cte at 2 in I.
      assert (D1 := derivable_pt_lim_minus _ _ c _ _ (derivable_pt_lim_minus _ _ c _ _ (derivable_pt_lim_scal _ (/ 2) c _ (derivable_pt_lim_id c)) (derivable_pt_lim_scal _ (/ 2) c _ I)) (derivable_pt_lim_ln c ltac:(lra))).
      apply ext_lim with (2 := D1). intro y. unfold minus_fct, mult_real_fct, fct_cte, div_fct, id, f, Rdiv. set (v := / y); set (w := ln y); field.
    - replace (/ 2 * 1 - / 2 * ((0 * c - 1 * 1) / c²) - / c) with (/ 2 * ((c - 1) * (c - 1)) * / (c * c)) by (unfold Rsqr; field; lra). apply Rmult_le_pos; [nra|left; apply Rinv_0_lt_compat; nra]. }
  assert (K : f 1 <= f (1 + e)) by nra. unfold f in K. rewrite ln_1, Rinv_1 in K.
  assert (I : / (1 + e) >= 1 - e + e * e - e * e * e). { apply Rle_ge, Rmult_le_reg_r with (1 + e); [lra|]. rewrite Rinv_l by lra. assert (0 <= e * e * e * e) by (repeat apply Rmult_le_pos; lra). nra. }
  nra.
Qed.

(** The normalized value of m 2^e. *)
Definition norm (m e : Z) : b64 := binary_normalize prec64 emax64 eq_refl eq_refl mode_NE m e false.
Lemma norm_ok : forall m e, Rabs (IZR m * bp e) <= bp 1000 -> B2R (norm m e) = rnd (IZR m * bp e).
Proof.
  intros m e L. assert (C := binary_normalize_correct prec64 emax64 eq_refl eq_refl mode_NE m e false). cbv zeta in C. unfold F2R in C. cbn [Fnum Fexp] in C.
  change (round radix2 fx (round_mode mode_NE) (IZR m * bp e)) with (rnd (IZR m * bp e)) in C.
  rewrite Rlt_bool_true in C; [exact (proj1 C)|].
  apply Rle_lt_trans with (bp 1000); [|apply bpow_lt; reflexivity]. apply Rabs_le. apply Rabs_le_inv in L. assert (B := rnd_bp 1000 ltac:(lia)). split.
  - rewrite <- B, <- rnd_opp. apply rnd_mono. lra.
  - rewrite <- B. apply rnd_mono. lra.
Qed.

Lemma near_ln_at : forall (x y : b64) (m : Z), B2R x = 1 + IZR m * bp (-52) -> (0 < m < 2 ^ 30)%Z ->
  norm (m * 2 ^ 53 - m * m) (-105) = y -> B2SF (norm (m * 2 ^ 105 - m * m * 2 ^ 52 + m * m * m) (-157)) = B2SF y -> is_finite_strict y = true -> near_ln x = y.
Proof.
  intros x y m Ex Hm L U0 S. assert (U := B2SF_inj _ _ _ _ U0). set (e := IZR m * bp (-52)) in *.
  assert (M1 : 1 <= IZR m) by (apply (IZR_le 1); lia). assert (M2 : IZR m <= 2 ^ 30) by (rewrite pow_IZR; apply IZR_le; change (2 ^ Z.of_nat 30)%Z with (2 ^ 30)%Z; lia).
  assert (B52 : bp (-52) = / 4503599627370496) by (cbn; lra).
  assert (E0 : 0 < e) by (unfold e; rewrite B52; lra). assert (E1 : e <= 1) by (unfold e; rewrite B52; lra).
  assert (Lo := ln_lower e E0). assert (Up := ln_upper e E0). rewrite <- Ex in Lo, Up.
  assert (E105 : IZR (m * 2 ^ 53 - m * m) * bp (-105) = e - e * e / 2).
  { unfold e. rewrite minus_IZR, !mult_IZR. replace (bp (-105)) with (bp (-52) * bp (-52) * / 2) by (cbn; lra). rewrite B52. change (2 ^ 53)%Z with 9007199254740992%Z. field. }
  assert (E157 : IZR (m * 2 ^ 105 - m * m * 2 ^ 52 + m * m * m) * bp (-157) = e - e * e / 2 + e * e * e / 2).
  { unfold e. rewrite plus_IZR, minus_IZR, !mult_IZR. replace (bp (-157)) with (bp (-52) * bp (-52) * bp (-52) * / 2) by (cbn; lra). rewrite B52. change (2 ^ 52)%Z with 4503599627370496%Z. change (2 ^ 105)%Z with 40564819207303340847894502572032%Z. field. }
  assert (Q : 0 <= e * e <= e) by nra. assert (Q3 : 0 <= e * e * e <= e) by nra.
  assert (T : 4 <= bp 1000) by (change 4 with (bp 2); apply bpow_le; lia).
  assert (N1 := norm_ok (m * 2 ^ 53 - m * m) (-105)). rewrite E105, L in N1. specialize (N1 ltac:(apply Rabs_le; lra)).
  assert (N2 := norm_ok (m * 2 ^ 105 - m * m * 2 ^ 52 + m * m * m) (-157)). rewrite E157, U in N2. specialize (N2 ltac:(apply Rabs_le; lra)).
  destruct (nearest_ok (ln (B2R x))) as (F & V); [apply Rabs_le; lra|]. fold (near_ln x) in F, V.
  assert (W : B2R (near_ln x) = B2R y). { rewrite V. apply Rle_antisym; [rewrite N2; now apply rnd_mono|rewrite N1; now apply rnd_mono]. }
  assert (Y0 : B2R y <> 0). { destruct y as [s|s| |s mm ee HB]; try discriminate S. cbn. apply F2R_neq_0. destruct s; discriminate. }
  apply B2R_inj; [|exact S|exact W]. destruct (near_ln x) as [s|s| |s mm ee HB]; try discriminate F; [|reflexivity]. cbn in W. congruence.
Qed.

(** The rounded logarithm with one value written down. *)
Definition near_ln_with (x0 y0 : b64) (x : b64) : b64 := if Beqb x x0 then y0 else near_ln x.
Lemma near_ln_with_eq : forall x0 y0, is_finite_strict x0 = true -> near_ln x0 = y0 -> near_ln_with x0 y0 = near_ln.
Proof.
  intros x0 y0 S E. apply functional_extensionality. intro x. unfold near_ln_with. destruct (Beqb x x0) eqn:Q; [|reflexivity].
  assert (FX : is_finite x0 = true) by (destruct x0; try discriminate S; reflexivity).
  destruct (is_finite x) eqn:F.
  - rewrite Beqb_correct in Q by assumption. assert (B : B2R x = B2R x0). { revert Q. case Req_bool_spec; [now intros|discriminate]. }
    unfold near_ln in *. rewrite B. now symmetry.
  - destruct x as [s|s| |s mm ee HB], x0 as [s'|s'| |s' m' e' HB']; try discriminate; cbn in Q; try discriminate; destruct s; discriminate.
Qed.
