(** In binary64 the particles of a run are where the arrays are. *)
From Coq Require Import ZArith Reals Lra Lia Psatz Bool List.
From Flocq Require Import Core IEEE754.BinarySingleNaN.
From Verif.Lib Require Import RAux Outcome.
From Verif.Model Require Import Binary64 Temperature64 Arith Pusher GenCode GenRun.
From Verif.Spec Require Import Double.
From Verif.Proof Require Import Binary64P FloatP Motion64R Axis64P GenIndexP Motion64P.
Local Open Scope R_scope.

Lemma half_val : fin (b64_lit 1 2) /\ B2R (b64_lit 1 2) = 1 / 2.
Proof.
  destruct (of_Z_exact 1 ltac:(reflexivity)) as (F1 & E1). destruct (of_Z_exact 2 ltac:(reflexivity)) as (F2 & E2).
  assert (V : B2R (b64_of_Z 1) / B2R (b64_of_Z 2) = bp (-1)) by (rewrite E1, E2; cbn; lra).
  destruct (div_ok (b64_of_Z 1) (b64_of_Z 2) F1) as (F & E); [rewrite E2; lra| |].
  - rewrite V, Rabs_pos_eq by apply bpow_ge_0. apply bpow_le. lia.
  - split; [exact F|]. unfold b64_lit. rewrite E, V, rnd_bp by lia. cbn. lra.
Qed.

Lemma ltb_false : forall x y : b64, fin x -> fin y -> B2R y <= B2R x -> Bltb x y = false.
Proof. intros x y Fx Fy H. destruct (Bltb x y) eqn:E; [|reflexivity]. apply ltb_ok in E; [lra|assumption|assumption]. Qed.

Section Cells.
Variables pw lg : b64 -> b64.
Notation A := (b64_arith pw lg).

Lemma node : forall n size d k, axis n size d -> (0 <= k <= n - 1)%Z ->
  fin (b64_mul (b64_of_Z k) d) /\ Rabs (B2R (b64_mul (b64_of_Z k) d) - IZR k * len d) <= q d.
Proof.
  intros n size d k AX Hk. assert (N := ax_n _ _ _ AX). destruct (of_Z_exact k) as (F & E); [cbn in *; lia|].
  assert (L := len_pos _ _ _ AX). assert (B : 0 <= IZR k <= 1048576) by (split; apply IZR_le; lia).
  destruct (mul_q _ _ _ AX (b64_of_Z k) d F (fin_d _ _ _ AX)) as (F2 & E2).
  { rewrite E, Rabs_pos_eq; [|apply Rmult_le_pos; unfold len in *; lra]. apply Rmult_le_compat_r; unfold len in *; lra. }
  split; [exact F2|]. rewrite E in E2. exact E2.
Qed.

Lemma half_len : forall n size d, axis n size d -> fin (b64_mul (b64_lit 1 2) d) /\ Rabs (B2R (b64_mul (b64_lit 1 2) d) - len d / 2) <= q d.
Proof.
  intros n size d AX. destruct half_val as (F & E). assert (L := len_pos _ _ _ AX).
  destruct (mul_q _ _ _ AX (b64_lit 1 2) d F (fin_d _ _ _ AX)) as (F2 & E2); [rewrite E; unfold len in *; rewrite Rabs_pos_eq; lra|].
  split; [exact F2|]. rewrite E in E2. replace (len d / 2) with (1 / 2 * B2R d) by (unfold len; lra). exact E2.
Qed.

Lemma border_spec : forall n size d k, axis n size d -> (1 <= k <= n - 1)%Z ->
  (k <= gcell A (@Bsucc prec64 emax64 eq_refl eq_refl (b64_mul (b64_of_Z k) d)) d)%Z ->
  forall z : b64, fin z -> Rabs (B2R z) <= 4194304 * len d -> (gcell A z d < k)%Z -> B2R z <= B2R (b64_mul (b64_of_Z k) d).
Proof.
  intros n size d k AX Hk HB z Fz Hz C. destruct (Rle_dec (B2R z) (B2R (b64_mul (b64_of_Z k) d))) as [K|K]; [exact K|]. exfalso.
  assert (L := len_pos _ _ _ AX). assert (QB := q_bounds _ _ _ AX). assert (N := ax_n _ _ _ AX).
  destruct (node _ _ _ k AX ltac:(lia)) as (FM & EM). apply Rabs_le_inv in EM.
  set (m := b64_mul (b64_of_Z k) d) in *. assert (KB : 1 <= IZR k <= 1048576) by (split; apply IZR_le; lia).
  assert (KL : IZR k * len d <= 1048576 * len d) by (apply Rmult_le_compat_r; lra).
  assert (KL0 : len d <= IZR k * len d) by (rewrite <- (Rmult_1_l (len d)) at 1; apply Rmult_le_compat_r; lra).
  assert (SC := Bsucc_correct prec64 emax64 eq_refl eq_refl m FM).
  assert (SL : succ radix2 (SpecFloat.fexp prec64 emax64) (B2R m) <= B2R z).
  { apply (@succ_le_lt radix2 _ (@FLT_exp_valid (-1074) 53 eq_refl)); [apply generic_format_B2R|apply generic_format_B2R|lra]. }
  assert (Hz' := Rabs_le_inv _ _ Hz).
  rewrite Rlt_bool_true in SC.
  - destruct SC as (SE & SF & _). set (s := @Bsucc prec64 emax64 eq_refl eq_refl m) in *.
    assert (MS : B2R m <= B2R s).
    { rewrite SE. apply succ_ge_id. }
    destruct (quot _ _ _ AX z Fz Hz) as (_ & EZ & _). destruct (quot _ _ _ AX s SF) as (_ & ES & _); [apply Rabs_le; lra|].
    rewrite cell64_eq in C, HB. rewrite EZ in C. rewrite ES in HB.
    assert (R : rnd (B2R s / len d) <= rnd (B2R z / len d)).
    { apply rnd_mono. unfold Rdiv. apply Rmult_le_compat_r; [left; now apply Rinv_0_lt_compat|lra]. }
    assert (Zceil (rnd (B2R s / len d)) <= Zceil (rnd (B2R z / len d)))%Z by now apply Zceil_le. lia.
  - apply Rle_lt_trans with (1 := SL). apply Rle_lt_trans with (bp 32); [|apply bpow_lt; reflexivity].
    assert (LH := len_hi _ _ _ AX). change (bp 32) with 4294967296. lra.
Qed.

Variable g : ggeom A.
Variable dt : b64.
Hypothesis HF : fine pw lg g dt.
Notation home := (home pw lg g).
Notation midway := (midway pw lg g).
Notation dr := (dr pw lg g).
Notation dz := (dz pw lg g).

Lemma top_r : top (gn_r A g) dr = wr pw lg g + B2R dr / 2. Proof. unfold wr, wall, len. lra. Qed.
Lemma top_z : top (gn_z A g) dz = wz pw lg g + B2R dz / 2. Proof. unfold wz, wall, len. lra. Qed.

(** Half a cell back *)
Lemma back : forall n size d x, axis n size d -> fin x -> 0 <= B2R x <= top n d ->
  fin (b64_sub x (b64_mul (b64_lit 1 2) d)) /\ Rabs (B2R (b64_sub x (b64_mul (b64_lit 1 2) d)) - (B2R x - len d / 2)) <= 2 * q d.
Proof.
  intros n size d x AX Fx H. assert (T := top_hi _ _ _ AX). assert (L := len_pos _ _ _ AX). assert (QB := q_bounds _ _ _ AX).
  destruct (half_len _ _ _ AX) as (F & E). apply Rabs_le_inv in E.
  destruct (sub_q _ _ _ AX x (b64_mul (b64_lit 1 2) d) Fx F) as (F2 & E2); [apply Rabs_le; lra|].
  split; [exact F2|]. apply Rabs_le_inv in E2. apply Rabs_le. lra.
Qed.

Lemma cell_range : forall n size d x, axis n size d -> fin x -> - len d <= B2R x <= top n d -> (gcell A x d <= n - 2)%Z.
Proof.
  intros n size d x AX Fx H. assert (T := top_hi _ _ _ AX). assert (L := len_pos _ _ _ AX). assert (N := ax_n _ _ _ AX).
  replace (n - 2)%Z with (n - 1 - 1)%Z by lia. apply (cell64_le _ _ _ AX); [exact Fx|apply Rabs_le; lra|cbn in *; lia|apply H].
Qed.

Lemma cell_back : forall n size d x, axis n size d -> fin x -> 0 <= B2R x <= top n d -> (gcell A (b64_sub x (b64_mul (b64_lit 1 2) d)) d <= n - 2)%Z.
Proof.
  intros n size d x AX Fx H. destruct (back _ _ _ _ AX Fx H) as (F & E). assert (L := len_pos _ _ _ AX). assert (QB := q_bounds _ _ _ AX). apply Rabs_le_inv in E.
  apply (cell_range _ _ _ _ AX F). lra.
Qed.

Lemma home_range : forall r z, home r z -> fin r /\ 0 < B2R r <= top (gn_r A g) dr - 3 / 8 * B2R dr /\ fin z /\ 0 < B2R z <= top (gn_z A g) dz - 3 / 8 * B2R dz.
Proof.
  intros r z (FR & (R1 & R2) & FZ & (Z1 & Z2)). assert (Q1 := q_bounds _ _ _ (axr pw lg g dt HF)). assert (Q2 := q_bounds _ _ _ (axz pw lg g dt HF)).
  assert (L1 := len_pos _ _ _ (axr pw lg g dt HF)). assert (L2 := len_pos _ _ _ (axz pw lg g dt HF)).
  assert (T1 := top_r). assert (T2 := top_z). unfold qr, qz, len in *. repeat split; try assumption; lra.
Qed.

Theorem home_reads : forall r z, home r z ->
  Forall (fun x => inside A g (snd (fst x)) (snd x) = true) (interpolation_reads A g r z).
Proof.
  intros r z H. destruct (home_range r z H) as (FR & R & FZ & Z). assert (AR := axr pw lg g dt HF). assert (AZ := axz pw lg g dt HF).
  assert (L1 := len_pos _ _ _ AR). assert (L2 := len_pos _ _ _ AZ). unfold len in L1, L2.
  apply greads_inside; [apply (cell_range _ _ _ _ AR FR)|apply (cell_back _ _ _ _ AR FR)|apply (cell_range _ _ _ _ AZ FZ)|apply (cell_back _ _ _ _ AZ FZ)]; unfold len; fold dr; fold dz; lra.
Qed.

Lemma cell_back_apart : forall n size d x, axis n size d -> fin x -> 0 <= B2R x <= top n d - 5 / 8 * len d ->
  (gcell A (b64_sub x (b64_mul (b64_lit 1 2) d)) d <= n - 3)%Z.
Proof.
  intros n size d x AX Fx H. assert (T := top_hi _ _ _ AX). assert (L := len_pos _ _ _ AX). assert (N := ax_n _ _ _ AX). assert (QB := q_bounds _ _ _ AX).
  destruct (back _ _ _ _ AX Fx) as (F & E); [lra|]. apply Rabs_le_inv in E. replace (n - 3)%Z with (n - 2 - 1)%Z by lia.
  apply (cell64_le _ _ _ AX); [exact F|apply Rabs_le; lra|cbn in *; lia|]. unfold top in *. rewrite minus_IZR in *. lra.
Qed.

Theorem apart_reads : forall r z, home r z -> apart pw lg g r z ->
  Forall (fun x => allocated pw lg g (fst (fst x)) (snd (fst x)) (snd x)) (interpolation_reads A g r z).
Proof.
  intros r z H (AR & AZ). destruct (home_range r z H) as (FR & R & FZ & Z). assert (AXR := axr pw lg g dt HF). assert (AXZ := axz pw lg g dt HF).
  assert (L1 := len_pos _ _ _ AXR). assert (L2 := len_pos _ _ _ AXZ). unfold len in L1, L2. change (gdr A g) with dr in AR. change (gdz A g) with dz in AZ. cbn [num b64_arith] in *.
  assert (K := greads_rows A g r z). refine (Forall_impl _ _ (K _ _ _ _)); [intros ((a & i) & k) X; exact X| | | |]; clear K; revert H; intros _; [apply (cell_range _ _ _ _ AXR FR)|apply (cell_back_apart _ _ _ _ AXR FR)|apply (cell_range _ _ _ _ AXZ FZ)|apply (cell_back_apart _ _ _ _ AXZ FZ)]; unfold top, len in *; fold dr; fold dz; lra.
Qed.

Theorem home_charge : forall q r z, home r z -> Forall (rin A g) (gcharge_weighting_single A g q r z).
Proof.
  intros q0 r z H. destruct (home_range r z H) as (FR & R & FZ & Z). assert (AR := axr pw lg g dt HF). assert (AZ := axz pw lg g dt HF).
  assert (L1 := len_pos _ _ _ AR). assert (L2 := len_pos _ _ _ AZ). unfold len in L1, L2. assert (N := ax_n _ _ _ AR).
  apply gcharge_inside; [lia|apply (cell_range _ _ _ _ AR FR)|apply (cell_range _ _ _ _ AZ FZ)]; unfold len; fold dr; fold dz; lra.
Qed.

Theorem midway_azimuthal : forall ro zo r z q v, midway ro zo r z -> Forall (jin A g) (gazimuthal_single A g q v r z).
Proof.
  intros ro zo r z q0 v (_ & FR & R & _ & FZ & Z & _). assert (AR := axr pw lg g dt HF). assert (AZ := axz pw lg g dt HF).
  assert (L1 := len_pos _ _ _ AR). assert (L2 := len_pos _ _ _ AZ). assert (T1 := top_r). assert (T2 := top_z). unfold len in *.
  apply gazimuthal_inside; [apply (cell_range _ _ _ _ AR FR)|apply (cell_range _ _ _ _ AZ FZ)]; unfold len; fold dr; fold dz; lra.
Qed.

Theorem home_current : forall q ro zo rn zn, border_clear pw lg g -> home ro zo -> home rn zn ->
  Rabs (B2R rn - B2R ro) <= 97 / 100 * B2R dr -> Rabs (B2R zn - B2R zo) <= 83 / 100 * B2R dz ->
  Forall (jin A g) (gcurrent_single A g dt q rn zn ro zo).
Proof.
  intros q0 ro zo rn zn BC Ho Hn NR NZ. assert (AR := axr pw lg g dt HF). assert (AZ := axz pw lg g dt HF).
  destruct (home_range _ _ Ho) as (FRo & Ro & FZo & Zo). destruct (home_range _ _ Hn) as (FRn & Rn & FZn & Zn).
  assert (L1 := len_pos _ _ _ AR). assert (L2 := len_pos _ _ _ AZ). unfold len in L1, L2. assert (TH1 := top_hi _ _ _ AR). assert (TH2 := top_hi _ _ _ AZ). unfold len in TH1, TH2.
  assert (QB1 := q_bounds _ _ _ AR). assert (QB2 := q_bounds _ _ _ AZ). unfold len in QB1, QB2.
  assert (NNR := ax_n _ _ _ AR). assert (NNZ := ax_n _ _ _ AZ).
  assert (XRo : Rabs (B2R ro) <= 4194304 * len dr) by (unfold len; rewrite Rabs_pos_eq; lra).
  assert (XRn : Rabs (B2R rn) <= 4194304 * len dr) by (unfold len; rewrite Rabs_pos_eq; lra).
  assert (XZo : Rabs (B2R zo) <= 4194304 * len dz) by (unfold len; rewrite Rabs_pos_eq; lra).
  assert (XZn : Rabs (B2R zn) <= 4194304 * len dz) by (unfold len; rewrite Rabs_pos_eq; lra).
  apply gcurrent_single_inside.
  - split; [apply (cell_range _ _ _ _ AR FRn); unfold len; fold dr; lra|]. split; [apply (cell_range _ _ _ _ AR FRo); unfold len; fold dr; lra|].
    apply (cell64_near _ _ _ AR); try assumption. unfold len. lra.
  - split; [apply (cell_range _ _ _ _ AZ FZn); unfold len; fold dz; lra|]. split; [apply (cell_range _ _ _ _ AZ FZo); unfold len; fold dz; lra|].
    apply (cell64_near _ _ _ AZ); try assumption. unfold len. lra.
  - intros _ C. assert (K : len dr < B2R ro) by (apply (cell64_pos _ _ _ AR pw lg ro FRo XRo); unfold Motion64P.dr; lia).
    destruct (of_Z_exact 1 ltac:(reflexivity)) as (F1 & E1).
    destruct (mul_ok (b64_of_Z 1) dr F1 (fin_d _ _ _ AR)) as (FM & EM).
    { rewrite E1, Rmult_1_l. apply (small_fits _ _ _ AR). unfold len. rewrite Rabs_pos_eq; lra. }
    apply ltb_ok; [exact FM|exact FRo|]. change (B2R (b64_mul (b64_of_Z 1) dr) < B2R ro). rewrite EM, E1, Rmult_1_l, rnd_B2R. exact K.
  - intros _ _. destruct (node _ _ _ (gn_r A g - 1) AR ltac:(lia)) as (FM & EM). apply Rabs_le_inv in EM.
    apply ltb_false; [exact FM|exact FRo|]. change (B2R ro <= B2R (b64_mul (b64_of_Z (gn_r A g - 1)) dr)). unfold top, len in *. lra.
  - intros _ _. destruct (node _ _ _ 0 AZ ltac:(lia)) as (FM & EM). apply Rabs_le_inv in EM.
    apply ltb_false; [exact FZo|exact FM|]. change (B2R (b64_mul (b64_of_Z 0) dz) <= B2R zo). destruct Ho as (_ & _ & _ & (Z1 & _)). unfold qz, len in *. lra.
  - intros _ C NE. destruct (node _ _ _ (gn_z A g - 2) AZ ltac:(lia)) as (FM & EM).
    assert (K := border_spec _ _ _ (gn_z A g - 2) AZ ltac:(lia) BC zo FZo XZo ltac:(unfold Motion64P.dz; lia)).
    apply ltb_ok; [exact FZo|exact FM|]. change (B2R zo < B2R (b64_mul (b64_of_Z (gn_z A g - 2)) dz)).
    destruct K as [K|K]; [exact K|]. exfalso.
    assert (EQ : Beqb zo (b64_mul (b64_of_Z (gn_z A g - 2)) dz) = true) by (apply eqb_ok; assumption).
    change (Beqb zo (b64_mul (b64_of_Z (gn_z A g - 2)) dz) = false) in NE. congruence.
Qed.
End Cells.
