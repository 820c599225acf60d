(** Particles in short steps (C79): in a step in which light passes at most 1/40 of a cell, a particle moves by at most 1/32 of a cell. *)
From Coq Require Import ZArith Reals Lra Lia Psatz Bool List.
From Flocq Require Import Core IEEE754.BinarySingleNaN.
From Verif.Lib Require Import RAux Outcome.
From Verif.Model Require Import Binary64 Temperature64 Arith Pusher GenCode GenRun.
From Verif.Spec Require Import Double.
From Verif.Proof Require Import Binary64P FloatP Motion64R Axis64P GenIndexP Motion64P.
Local Open Scope R_scope.

(** ** Real numbers *)
Lemma nudged : forall d q a y x z, 0 < d -> 0 <= q <= d / 1000000 -> x * x + z * z <= 12501 / 1000000 * d * (12501 / 1000000 * d) ->
  Rabs (a - x) <= 3 * q -> Rabs (y - z) <= 3 * q -> a * a + y * y <= d / 79 * (d / 79).
Proof.
  intros d q a y x z Hd Hq H A Y. apply Rabs_le_inv in A, Y.
  assert (X : Rabs x <= 12501 / 1000000 * d). { apply Rabs_le. split; [apply Ropp_le_cancel; rewrite Ropp_involutive|]; apply sq_le_inv; nra. }
  assert (Z : Rabs z <= 12501 / 1000000 * d). { apply Rabs_le. split; [apply Ropp_le_cancel; rewrite Ropp_involutive|]; apply sq_le_inv; nra. }
  assert (K : forall s t, Rabs s <= 12501 / 1000000 * d -> -(3 * q) <= t - s <= 3 * q -> t * t <= s * s + d / 10000000 * d).
  { intros s t S T. assert (E : t * t = s * s + 2 * (s * (t - s)) + (t - s) * (t - s)) by ring.
    assert (P1 : Rabs (t - s) <= 3 * (d / 1000000)) by (apply Rabs_le; lra). assert (P0 := Rabs_pos (t - s)). assert (P2 := Rabs_pos s).
    assert (B1 : s * (t - s) <= 12501 / 1000000 * d * (3 * (d / 1000000))).
    { apply Rle_trans with (1 := Rle_abs _). rewrite Rabs_mult. apply Rmult_le_compat; assumption. }
    assert (B2 : (t - s) * (t - s) <= 3 * (d / 1000000) * (3 * (d / 1000000))).
    { apply Rle_trans with (1 := Rle_abs _). rewrite Rabs_mult. apply Rmult_le_compat; assumption. }
    assert (0 < d * d) by now apply Rmult_lt_0_compat. lra. }
  assert (K1 := K x a X A). assert (K2 := K z y Z Y). assert (0 < d * d) by now apply Rmult_lt_0_compat. lra.
Qed.

Section Radial.
Variables d q w : R.
Hypothesis Hd : 0 < d.
Hypothesis Hq : 0 <= q <= d / 1000000.
Hypothesis Hw : 3 / 2 * d <= w.
Definition small (a y : R) : Prop := a * a + y * y <= d / 79 * (d / 79).
Lemma small_abs : forall a y, small a y -> - (d / 79) <= a <= d / 79 /\ - (d / 79) <= y <= d / 79.
Proof.
  intros a y H. unfold small in H. split; split.
  1,3: apply Ropp_le_cancel; rewrite Ropp_involutive. all: apply sq_le_inv; nra.
Qed.
Lemma glide_first : forall r a y h0 h, d / 2 - 8 * q <= r -> small a y -> 0 <= h0 -> h0 * h0 = (r + a) * (r + a) + y * y -> Rabs (h - h0) <= 4 * q ->
  Rabs (h - r) <= 1267 / 100000 * d.
Proof.
  intros r a y h0 h R1 D H0 E N. apply Rabs_le_inv in N. destruct (small_abs a y D) as (A & _).
  assert (U : h0 <= r + d / 79).
  { replace r with (Rabs r) by (apply Rabs_pos_eq; lra). apply (hyp_shift (r + a) y r); try lra. unfold small in D. nra. }
  assert (L : r + a <= h0) by (apply sq_le_inv; nra). apply Rabs_le. lra.
Qed.
Variables wf wx2 hd : R.
Hypothesis Hwf : Rabs (wf - w) <= 4 * q.
Hypothesis Hwx : Rabs (wx2 - 2 * w) <= 10 * q.
Hypothesis Hhd : Rabs (hd - d / 2) <= q.
Lemma glide_second : forall r h a y x1 x2 h0 h2, d / 2 - 8 * q <= r <= w + d / 4096 -> Rabs (h - r) <= 1267 / 100000 * d ->
  small a y -> x1 = h + a -> reflected d q wf wx2 hd x1 x2 -> 0 <= h0 -> h0 * h0 = x2 * x2 + y * y -> Rabs (h2 - h0) <= 4 * q ->
  Rabs (h2 - r) <= d / 32 /\ h2 <= w + d / 4096.
Proof.
  intros r h a y x1 x2 h0 h2 (R1 & R2) HR D E1 RF H0 E N. apply Rabs_le_inv in N, HR.
  destruct (small_abs a y D) as (A & Y). apply Rabs_le_inv in Hwf, Hwx, Hhd.
  assert (X : d / 2 - 4 * q <= x2 <= w + 20 * q /\ - (26 / 1000 * d) <= x2 - r <= 26 / 1000 * d).
  { destruct RF as [(B & C)|[(B & B' & C)|(B & B' & C)]]; try apply Rabs_le_inv in C; lra. }
  destruct X as ((X1 & X2) & X3 & X4). assert (L : x2 <= h0) by (apply sq_le_inv; nra).
  assert (YY : y * y <= d / 79 * (d / 79)) by (unfold small in D; nra).
  assert (U : h0 <= x2 + 17 / 100000 * d).
  { apply sq_le_inv; [lra|]. rewrite E. assert (x2 * d >= 49 / 100 * d * d) by (assert (49 / 100 * d <= x2) by lra; nra). assert (0 < d * d) by now apply Rmult_lt_0_compat. nra. }
  split; [apply Rabs_le; lra|lra].
Qed.
End Radial.
Lemma glide_axial : forall d q w wf wx2 hd z a z1 b x1 x2, 0 < d -> 0 <= q <= d / 1000000 -> 3 / 2 * d <= w ->
  Rabs (wf - w) <= 4 * q -> Rabs (wx2 - 2 * w) <= 10 * q -> Rabs (hd - d / 2) <= q ->
  at_home_z d q w z -> Rabs a <= d / 79 -> Rabs b <= d / 79 -> z1 = z + a -> x1 = z1 + b -> reflected d q wf wx2 hd x1 x2 -> Rabs (x2 - z) <= d / 32.
Proof.
  intros d q w wf wx2 hd z a z1 b x1 x2 Hd Hq Hw Hwf Hwx Hhd (Z1 & Z2) A B -> -> RF. apply Rabs_le_inv in A, B, Hwf, Hwx, Hhd.
  destruct RF as [(X & C)|[(X & X' & C)|(X & X' & C)]]; try apply Rabs_le_inv in C; apply Rabs_le; lra.
Qed.

Section Glide.
Variables pw lg : b64 -> b64.
Notation A := (b64_arith pw lg).
Variable g : ggeom A.
Variable dt : b64.
Hypothesis HF : fine pw lg g dt.
Hypothesis HR : 300000000 * B2R dt <= @B2R prec64 emax64 (gdr A g) / 40.
Hypothesis HZ : 300000000 * B2R dt <= @B2R prec64 emax64 (gdz A g) / 40.
Notation dr := (dr pw lg g).
Notation dz := (dz pw lg g).
Notation axr := (axr pw lg g dt HF).
Notation axz := (axz pw lg g dt HF).
Notation wr := (wr pw lg g).
Notation wz := (wz pw lg g).

Lemma short_side : forall x y : b64, forall w : gvec A, limited pw lg w -> fin x -> fin y -> B2R y = 0 -> Rabs (B2R x) <= 2097152 * B2R dr ->
  let x' := b64_add x (b64_mul (g0 A w : b64) (b64_div dt (b64_of_Z 2))) in
  let y' := b64_add y (b64_mul (g1 A w : b64) (b64_div dt (b64_of_Z 2))) in
  small (B2R dr) (B2R x' - B2R x) (B2R y').
Proof.
  intros x y w Hw Fx Fy Y0 Hx x' y'. destruct (limited_comp pw lg w Hw) as (V0 & V1 & V2). destruct Hw as (F0 & F1 & F2 & S). cbv zeta in S.
  assert (L := len_pos _ _ _ axr). destruct (dt_pos pw lg g dt HF) as (FD & PD). assert (B := bp30). assert (QB := q_bounds _ _ _ axr).
  assert (CR : 300000000 * B2R dt <= 4 / 5 * B2R dr) by apply HF. assert (HR' : 300000000 * B2R dt <= B2R dr / 40) by exact HR. unfold len in *.
  assert (T0 : fin x' /\ Rabs (B2R x' - (B2R x + B2R (g0 A w : b64) * (B2R dt / 2))) <= 3 * qr pw lg g).
  { apply (half_move _ _ _ axr); try assumption; [eapply Rle_trans; [exact V0|exact B]|]. now apply (comp_reach pw lg g dt HF). }
  assert (T1 : fin y' /\ Rabs (B2R y' - (B2R y + B2R (g1 A w : b64) * (B2R dt / 2))) <= 3 * qr pw lg g).
  { apply (half_move _ _ _ axr); try assumption; [rewrite Y0, Rabs_R0; unfold len; lra|eapply Rle_trans; [exact V1|exact B]|]. now apply (comp_reach pw lg g dt HF). }
  destruct T0 as (FX & X). destruct T1 as (FY & Y). rewrite Y0 in Y.
  apply (nudged _ (qr pw lg g) _ _ (B2R (g0 A w : b64) * (B2R dt / 2)) (B2R (g1 A w : b64) * (B2R dt / 2))); [exact L|unfold qr in *; lra| | |].
  - cbn [num b64_arith] in *. set (a := B2R (g0 A w : b64)) in *. set (b := B2R (g1 A w : b64)) in *. set (c := B2R (g2 A w : b64)) in *.
    assert (T : B2R dt / 2 * 300000001 <= 12501 / 1000000 * B2R dr) by lra.
    assert (AB : a * a + b * b <= 300000001 * 300000001) by nra.
    replace (a * (B2R dt / 2) * (a * (B2R dt / 2)) + b * (B2R dt / 2) * (b * (B2R dt / 2))) with ((a * a + b * b) * (B2R dt / 2 * (B2R dt / 2))) by ring.
    apply Rle_trans with (300000001 * 300000001 * (B2R dt / 2 * (B2R dt / 2))); [apply Rmult_le_compat_r; [nra|exact AB]|].
    replace (300000001 * 300000001 * (B2R dt / 2 * (B2R dt / 2))) with (B2R dt / 2 * 300000001 * (B2R dt / 2 * 300000001)) by ring.
    apply Rmult_le_compat; lra.
  - replace (B2R x' - B2R x - B2R (g0 A w : b64) * (B2R dt / 2)) with (B2R x' - (B2R x + B2R (g0 A w : b64) * (B2R dt / 2))) by ring. exact X.
  - replace (B2R y' - B2R (g1 A w : b64) * (B2R dt / 2)) with (B2R y' - (0 + B2R (g1 A w : b64) * (B2R dt / 2))) by ring. exact Y.
Qed.

Lemma short_along : forall z : b64, forall w : gvec A, limited pw lg w -> fin z -> Rabs (B2R z) <= 2097152 * B2R dz ->
  let z' := b64_add z (b64_mul (g2 A w : b64) (b64_div dt (b64_of_Z 2))) in
  Rabs (B2R z' - B2R z) <= B2R dz / 79.
Proof.
  intros z w Hw Fz Hz z'. destruct (limited_comp pw lg w Hw) as (V0 & V1 & V2). destruct Hw as (F0 & F1 & F2 & S).
  assert (L := len_pos _ _ _ axz). destruct (dt_pos pw lg g dt HF) as (FD & PD). assert (B := bp30). assert (QB := q_bounds _ _ _ axz).
  assert (CZ : 300000000 * B2R dt <= 4 / 5 * B2R dz) by apply HF. assert (HZ' : 300000000 * B2R dt <= B2R dz / 40) by exact HZ. unfold len in *.
  assert (T0 : fin z' /\ Rabs (B2R z' - (B2R z + B2R (g2 A w : b64) * (B2R dt / 2))) <= 3 * qz pw lg g).
  { apply (half_move _ _ _ axz); try assumption; [eapply Rle_trans; [exact V2|exact B]|]. now apply (comp_reach pw lg g dt HF). }
  destruct T0 as (FZ & Z). unfold qz in *.
  assert (D : Rabs (B2R (g2 A w : b64) * (B2R dt / 2)) <= 12501 / 1000000 * B2R dz).
  { rewrite Rabs_mult, (Rabs_pos_eq (B2R dt / 2)) by lra. apply Rle_trans with (300000001 * (B2R dt / 2)); [apply Rmult_le_compat_r; [lra|exact V2]|lra]. }
  apply Rabs_le_inv in Z, D. apply Rabs_le. lra.
Qed.

(** The first half step. *)
Theorem glide_first64 : forall (f f' : gphase A) (v : gvec A), home pw lg g (g0 A (gpos A f)) (g2 A (gpos A f)) ->
  fin (g1 A (gpos A f) : b64) -> B2R (g1 A (gpos A f) : b64) = 0 -> limited pw lg v ->
  ghalf_step_pos A dt (gdump_position_to_old A (GPhase A (gpos A f) v (gr_old A f) (gz_old A f) (gsin A f))) = Ok f' ->
  let f'' := gback_position_to_rz A f' in
  Rabs (B2R (g0 A (gpos A f'') : b64) - B2R (gr_old A f'' : b64)) <= 1267 / 100000 * B2R dr /\ Rabs (B2R (g2 A (gpos A f'') : b64) - B2R (gz_old A f'' : b64)) <= B2R dz / 79.
Proof.
  intros f f' v H FY Y0 Hv E. destruct (home_small pw lg g dt HF _ _ H) as (SR & SZ). destruct (H) as (FR & AR & FZ & AZ).
  unfold ghalf_step_pos in E. cbn [gdump_position_to_old gpos g0 g1 g2 gvel] in E.
  change (finite A) with (@is_finite prec64 emax64) in E. rewrite FR, FZ in E. cbn [andb] in E. injection E as <-.
  cbv zeta. unfold gback_position_to_rz. cbn [gpos gvel gr_old gz_old gsin g0 g1 g2].
  change (root A) with b64_sqrt. change (add A) with b64_add. change (mul A) with b64_mul. change (div A) with b64_div. change (of_int A) with b64_of_Z.
  assert (L1 := len_pos _ _ _ axr). assert (L2 := len_pos _ _ _ axz). unfold len in L1, L2.
  destruct (sideways pw lg g dt HF (g0 A v) (g0 A (gpos A f)) (g1 A (gpos A f)) v Hv eq_refl FR FY Y0) as (FX & FYY & _); [cbn [num b64_arith] in *; lra|].
  assert (D := short_side (g0 A (gpos A f)) (g1 A (gpos A f)) v Hv FR FY Y0 ltac:(cbn [num b64_arith] in *; lra)). cbv zeta in D.
  assert (DZ := short_along (g2 A (gpos A f)) v Hv FZ ltac:(cbn [num b64_arith] in *; lra)). cbv zeta in DZ.
  cbn [num b64_arith] in *.
  set (x' := b64_add (g0 A (gpos A f)) _) in *. set (y' := b64_add (g1 A (gpos A f)) _) in *. set (z' := b64_add (g2 A (gpos A f)) _) in *.
  destruct (small_abs (B2R dr) L1 _ _ D) as (DA & DY).
  assert (QB := q_bounds _ _ _ axr). apply Rabs_le_inv in SR, SZ. destruct AR as (AR1 & AR2).
  unfold qr, len in *. split; [|exact DZ].
  assert (X1 : 8 / 100 * B2R dr <= B2R x' <= 1200000 * B2R dr) by lra.
  destruct (distance _ _ _ axr x' y' FX FYY) as (FH & HH).
  { rewrite Rabs_pos_eq by lra. unfold len. lra. } { apply Rabs_le. unfold len. lra. } { rewrite Rabs_pos_eq by lra. unfold len. lra. }
  set (h := b64_sqrt (b64_add (b64_mul x' x') (b64_mul y' y'))) in *.
  assert (HP := sqrt_pos (B2R x' * B2R x' + B2R y' * B2R y')).
  assert (HS : sqrt (B2R x' * B2R x' + B2R y' * B2R y') * sqrt (B2R x' * B2R x' + B2R y' * B2R y') = B2R x' * B2R x' + B2R y' * B2R y') by (apply sqrt_sqrt; nra).
  apply (glide_first (B2R dr) (q dr) L1 ltac:(lra) (B2R (g0 A (gpos A f) : b64)) (B2R x' - B2R (g0 A (gpos A f) : b64)) (B2R y')
     (sqrt (B2R x' * B2R x' + B2R y' * B2R y')) (B2R h)); [exact AR1|exact D|exact HP| |exact HH].
  rewrite HS. ring.
Qed.

(** The second half step. *)
Definition slim (r : b64) : Prop := B2R r <= wr + B2R dr / 4096.
Theorem glide_second64 : forall (f f1 f' : gphase A),
  midway pw lg g (gr_old A f) (gz_old A f) (g0 A (gpos A f)) (g2 A (gpos A f)) -> g1 A (gpos A f) = b64_of_Z 0 -> limited pw lg (gvel A f) ->
  Rabs (B2R (g0 A (gpos A f) : b64) - B2R (gr_old A f : b64)) <= 1267 / 100000 * B2R dr -> Rabs (B2R (g2 A (gpos A f) : b64) - B2R (gz_old A f : b64)) <= B2R dz / 79 ->
  slim (gr_old A f) -> ghalf_step_pos A dt f = Ok f1 -> returned pw lg g f1 f' ->
  Rabs (B2R (g0 A (gpos A f') : b64) - B2R (gr_old A f : b64)) <= B2R dr / 32 /\ Rabs (B2R (g2 A (gpos A f') : b64) - B2R (gz_old A f : b64)) <= B2R dz / 32 /\
  slim (g0 A (gpos A f')).
Proof.
  intros f f1 f' (H & FR & RB & _ & FZ & ZB & _) Y0 Hv DR DZ SL E RT. destruct (home_small pw lg g dt HF _ _ H) as (SR & SZ). destruct (H) as (FRo & AR & FZo & AZ).
  unfold ghalf_step_pos in E. change (finite A) with (@is_finite prec64 emax64) in E. cbv zeta in E. rewrite FR, FZ in E. cbn [andb] in E. injection E as <-.
  assert (L1 := len_pos _ _ _ axr). assert (L2 := len_pos _ _ _ axz). unfold len in L1, L2.
  assert (QB := q_bounds _ _ _ axr). assert (QZ := q_bounds _ _ _ axz). apply Rabs_le_inv in SR, SZ.
  assert (T1 := top_hi _ _ _ axr). assert (T2 := top_hi _ _ _ axz). assert (W1 := wall_lo _ _ _ axr). assert (W2 := wall_lo _ _ _ axz).
  assert (TW1 : top (gn_r A g) dr = wr + B2R dr / 2) by (unfold Motion64P.wr, wall, len; lra).
  assert (TW2 : top (gn_z A g) dz = wz + B2R dz / 2) by (unfold Motion64P.wz, wall, len; lra).
  destruct zero_ok as (FO & EO).
  assert (BR : Rabs (B2R (g0 A (gpos A f) : b64)) <= 2097152 * B2R dr) by (cbn [num b64_arith] in *; unfold len in *; rewrite Rabs_pos_eq; lra).
  assert (BZ : Rabs (B2R (g2 A (gpos A f) : b64)) <= 2097152 * B2R dz) by (cbn [num b64_arith] in *; unfold len in *; rewrite Rabs_pos_eq; lra).
  assert (FY : fin (g1 A (gpos A f) : b64)) by (rewrite Y0; exact FO). assert (VY : B2R (g1 A (gpos A f) : b64) = 0) by (rewrite Y0; exact EO).
  destruct (sideways pw lg g dt HF (g0 A (gvel A f)) (g0 A (gpos A f)) (g1 A (gpos A f)) (gvel A f) Hv eq_refl FR FY VY BR) as (FX & FYY & _).
  assert (D := short_side (g0 A (gpos A f)) (g1 A (gpos A f)) (gvel A f) Hv FR FY VY BR). cbv zeta in D.
  destruct (lengthways pw lg g dt HF (g2 A (gpos A f)) (gvel A f) Hv FZ BZ) as (FZ' & _).
  assert (DZ' := short_along (g2 A (gpos A f)) (gvel A f) Hv FZ BZ). cbv zeta in DZ'.
  destruct RT as (R0 & R1 & R2 & R3 & R4 & R5 & _). cbn [gpos g0 g1 g2 gr_old gz_old] in *.
  change (add A) with b64_add in *. change (mul A) with b64_mul in *. change (div A) with b64_div in *. change (of_int A) with b64_of_Z in *.
  cbn [num b64_arith] in *.
  set (x' := b64_add (g0 A (gpos A f)) _) in *. set (y' := b64_add (g1 A (gpos A f)) _) in *. set (z' := b64_add (g2 A (gpos A f)) _) in *.
  destruct (small_abs (B2R dr) L1 _ _ D) as (DA & DY).
  unfold qr, qz, len in *. fold wr wz in W1, W2.
  destruct (refl_ok _ _ _ x' axr FX) as (FRR & RR); [fold wr; lra|].
  destruct (refl_ok _ _ _ z' axz FZ') as (FZZ & RZ); [fold wz; apply Rabs_le_inv in DZ'; lra|].
  destruct (wf_ok _ _ _ axr) as (_ & WF). destruct (wx2_ok _ _ _ axr) as (_ & WX). destruct (hd_ok _ _ _ axr) as (_ & HD).
  destruct (wf_ok _ _ _ axz) as (_ & WFz). destruct (wx2_ok _ _ _ axz) as (_ & WXz). destruct (hd_ok _ _ _ axz) as (_ & HDz).
  unfold len in *. fold wr in WF, WX. fold wz in WFz, WXz.
  set (x2 := refl (gr_size A g) dr x') in *. set (z2 := refl (gz_size A g) dz z') in *.
  set (h0 := sqrt (B2R x2 * B2R x2 + B2R y' * B2R y')).
  assert (HP : 0 <= h0) by apply sqrt_pos.
  assert (HS : h0 * h0 = B2R x2 * B2R x2 + B2R y' * B2R y') by (apply sqrt_sqrt; nra).
  assert (WF4 : Rabs (B2R (wf (gr_size A g) dr) - wr) <= 4 * q dr) by lra.
  assert (WX4 : Rabs (B2R (wx2 (gr_size A g) dr) - 2 * wr) <= 10 * q dr) by lra.
  assert (WFz4 : Rabs (B2R (wf (gz_size A g) dz) - wz) <= 4 * q dz) by lra.
  assert (WXz4 : Rabs (B2R (wx2 (gz_size A g) dz) - 2 * wz) <= 10 * q dz) by lra.
  assert (X2 : B2R dr / 4 <= B2R x2 <= wr + 20 * q dr).
  { destruct RR as [(B & C)|[(B & B' & C)|(B & B' & C)]]; try apply Rabs_le_inv in C; apply Rabs_le_inv in DR, WF4, WX4, HD; destruct AR; lra. }
  assert (AR' : B2R dr / 2 - 8 * q dr <= B2R (gr_old A f) <= wr + B2R dr / 4096) by (split; [apply AR|exact SL]).
  destruct (distance _ _ _ axr x2 y' FRR FYY) as (FH & HH).
  { unfold len. rewrite Rabs_pos_eq; lra. } { apply Rabs_le. unfold len. lra. } { unfold len. rewrite Rabs_pos_eq; lra. }
  rewrite <- R0 in FH, HH. fold h0 in HH.
  destruct (glide_second (B2R dr) (q dr) wr L1 ltac:(lra) W1 _ _ _ WF4 WX4 HD (B2R (gr_old A f)) (B2R (g0 A (gpos A f))) (B2R x' - B2R (g0 A (gpos A f))) (B2R y')
     (B2R x') (B2R x2) h0 _ AR' DR D ltac:(ring) RR HP HS HH) as (K1 & K2).
  assert (K3 := glide_axial (B2R dz) (q dz) wz _ _ _ (B2R (gz_old A f)) (B2R (g2 A (gpos A f)) - B2R (gz_old A f)) (B2R (g2 A (gpos A f)))
     (B2R z' - B2R (g2 A (gpos A f))) (B2R z') (B2R z2) L2 ltac:(lra) W2 WFz4 WXz4 HDz AZ DZ DZ' ltac:(ring) ltac:(ring) RZ).
  rewrite R2. split; [exact K1|]. split; [exact K3|exact K2].
Qed.
End Glide.
