(** Motion of one particle in binary64. *)
From Coq Require Import ZArith Reals Lra Lia Psatz Bool List.
From Flocq Require Import Core IEEE754.BinarySingleNaN.
From Verif.Lib Require Import RAux Outcome.
From Verif.Model Require Import Binary64 Temperature64 Arith Pusher GenCode GenRun.
From Verif.Spec Require Import Double.
From Verif.Proof Require Import Binary64P FloatP Motion64R Axis64P GenIndexP.
Local Open Scope R_scope.

Lemma disp_near : forall d q a y x z, 0 < d -> 0 <= q <= d / 1000000 -> x * x + z * z <= 405 / 1000 * d * (405 / 1000 * d) ->
  Rabs (a - x) <= 3 * q -> Rabs (y - z) <= 3 * q -> disp d a y.
Proof.
  intros d q a y x z Hd Hq H A Y. unfold disp. apply Rabs_le_inv in A, Y.
  assert (X : Rabs x <= 405 / 1000 * d). { apply Rabs_le. split; [apply Ropp_le_cancel; rewrite Ropp_involutive|]; apply sq_le_inv; nra. }
  assert (Z : Rabs z <= 405 / 1000 * d). { apply Rabs_le. split; [apply Ropp_le_cancel; rewrite Ropp_involutive|]; apply sq_le_inv; nra. }
  assert (K : forall s t, Rabs s <= 405 / 1000 * d -> -(3 * q) <= t - s <= 3 * q -> t * t <= s * s + d / 100000 * d).
  { intros s t S T. assert (E : t * t = s * s + 2 * (s * (t - s)) + (t - s) * (t - s)) by ring.
    assert (P1 : Rabs (t - s) <= d / 300000) by (apply Rabs_le; lra). assert (P0 := Rabs_pos (t - s)). assert (P2 := Rabs_pos s).
    assert (B1 : s * (t - s) <= 405 / 1000 * d * (d / 300000)).
    { apply Rle_trans with (1 := Rle_abs _). rewrite Rabs_mult. apply Rmult_le_compat; assumption. }
    assert (B2 : (t - s) * (t - s) <= d / 300000 * (d / 300000)).
    { apply Rle_trans with (1 := Rle_abs _). rewrite Rabs_mult. apply Rmult_le_compat; assumption. }
    assert (0 < d * d) by now apply Rmult_lt_0_compat. lra. }
  assert (K1 := K x a X A). assert (K2 := K z y Z Y). assert (0 < d * d) by now apply Rmult_lt_0_compat. lra.
Qed.

Section Motion.
Variables pw lg : b64 -> b64.
Notation A := (b64_arith pw lg).
Variable g : ggeom A.
Variable dt : b64.
Hypothesis HF : fine pw lg g dt.

Definition dr : b64 := gdr A g.
Definition dz : b64 := gdz A g.
Definition qr : R := q dr.
Definition qz : R := q dz.
Definition wr : R := wall (gn_r A g) dr.
Definition wz : R := wall (gn_z A g) dz.

Lemma axr : axis (gn_r A g) (gr_size A g) dr.
Proof. destruct HF. constructor; try assumption; try reflexivity; apply fine_dr. Qed.
Lemma axz : axis (gn_z A g) (gz_size A g) dz.
Proof. destruct HF. constructor; try assumption; try reflexivity; apply fine_dz. Qed.

Definition home (r z : b64) : Prop :=
  fin r /\ at_home (B2R dr) qr wr (B2R r) /\ fin z /\ at_home_z (B2R dz) qz wz (B2R z).

(** Between the half steps: where the particle came from, where it is. *)
Definition midway (ro zo r z : b64) : Prop :=
  home ro zo /\ fin r /\ 8 / 100 * B2R dr <= B2R r <= wr + 48 / 100 * B2R dr /\ Rabs (B2R r - B2R ro) <= 42 / 100 * B2R dr /\
  fin z /\ 8 / 100 * B2R dz <= B2R z <= wz + 42 / 100 * B2R dz /\ Rabs (B2R z - B2R zo) <= 41 / 100 * B2R dz.

Lemma limited_comp : forall v, limited pw lg v ->
  Rabs (B2R (g0 A v : b64)) <= 300000001 /\ Rabs (B2R (g1 A v : b64)) <= 300000001 /\ Rabs (B2R (g2 A v : b64)) <= 300000001.
Proof.
  intros v (_ & _ & _ & H). cbv zeta in H. cbn [num b64_arith] in *.
  assert (K : forall x, x * x <= 300000001 * 300000001 -> Rabs x <= 300000001).
  { intros x Hx. apply Rabs_le. split; [apply Ropp_le_cancel; rewrite Ropp_involutive|]; apply sq_le_inv; nra. }
  repeat split; apply K; nra.
Qed.

Lemma dt_pos : fin dt /\ 0 < B2R dt. Proof. apply HF. Qed.

Lemma reach : forall d, 300000000 * B2R dt <= 4 / 5 * d -> 0 < d -> 300000001 * B2R dt <= 8001 / 10000 * d.
Proof. intros d H P. assert (D := dt_pos). lra. Qed.

Lemma comp_reach : forall v d, 300000000 * B2R dt <= 4 / 5 * d -> 0 < d -> Rabs v <= 300000001 -> Rabs v * B2R dt <= 81 / 100 * d.
Proof.
  intros v d H P V. assert (D := dt_pos). apply Rle_trans with (300000001 * B2R dt); [apply Rmult_le_compat_r; lra|].
  assert (R := reach d H P). lra.
Qed.

Lemma bp30 : 300000001 <= bp 30. Proof. cbn. lra. Qed.

Lemma zero_ok : fin (b64_of_Z 0) /\ B2R (b64_of_Z 0) = 0.
Proof. now apply of_Z_exact. Qed.

(** The sideways part of a half step with velocity [v] from (x, 0) *)
Lemma sideways : forall v x y : b64, forall w : gvec A, limited pw lg w -> v = g0 A w -> fin x -> fin y -> B2R y = 0 ->
  Rabs (B2R x) <= 2097152 * B2R dr ->
  let x' := b64_add x (b64_mul v (b64_div dt (b64_of_Z 2))) in
  let y' := b64_add y (b64_mul (g1 A w : b64) (b64_div dt (b64_of_Z 2))) in
  fin x' /\ fin y' /\ disp (B2R dr) (B2R x' - B2R x) (B2R y').
Proof.
  intros v x y w Hw -> Fx Fy Y0 Hx x' y'. destruct (limited_comp w Hw) as (V0 & V1 & V2). destruct Hw as (F0 & F1 & F2 & S). cbv zeta in S.
  assert (L := len_pos _ _ _ axr). destruct dt_pos as (FD & PD). assert (B := bp30). assert (QB := q_bounds _ _ _ axr).
  assert (CR : 300000000 * B2R dt <= 4 / 5 * B2R dr) by apply HF. unfold len in *.
  assert (T0 : fin x' /\ Rabs (B2R x' - (B2R x + B2R (g0 A w : b64) * (B2R dt / 2))) <= 3 * qr).
  { apply (half_move _ _ _ axr); try assumption; [eapply Rle_trans; [exact V0|exact B]|]. now apply comp_reach. }
  assert (T1 : fin y' /\ Rabs (B2R y' - (B2R y + B2R (g1 A w : b64) * (B2R dt / 2))) <= 3 * qr).
  { apply (half_move _ _ _ axr); try assumption; [rewrite Y0, Rabs_R0; unfold len; lra|eapply Rle_trans; [exact V1|exact B]|]. now apply comp_reach. }
  destruct T0 as (FX & X). destruct T1 as (FY & Y). split; [exact FX|]. split; [exact FY|]. rewrite Y0 in Y.
  apply (disp_near _ qr _ _ (B2R (g0 A w : b64) * (B2R dt / 2)) (B2R (g1 A w : b64) * (B2R dt / 2))); [exact L|unfold qr in *; lra| | |].
  - cbn [num b64_arith] in *. set (a := B2R (g0 A w : b64)) in *. set (b := B2R (g1 A w : b64)) in *. set (c := B2R (g2 A w : b64)) in *.
    assert (R := reach _ CR L). assert (T : B2R dt / 2 * 300000001 <= 405 / 1000 * B2R dr) by lra.
    assert (AB : a * a + b * b <= 300000001 * 300000001) by nra.
    replace (a * (B2R dt / 2) * (a * (B2R dt / 2)) + b * (B2R dt / 2) * (b * (B2R dt / 2))) with ((a * a + b * b) * (B2R dt / 2 * (B2R dt / 2))) by ring.
    apply Rle_trans with (300000001 * 300000001 * (B2R dt / 2 * (B2R dt / 2))); [apply Rmult_le_compat_r; [nra|exact AB]|].
    replace (300000001 * 300000001 * (B2R dt / 2 * (B2R dt / 2))) with (B2R dt / 2 * 300000001 * (B2R dt / 2 * 300000001)) by ring.
    apply Rmult_le_compat; lra.
  - replace (B2R x' - B2R x - B2R (g0 A w : b64) * (B2R dt / 2)) with (B2R x' - (B2R x + B2R (g0 A w : b64) * (B2R dt / 2))) by ring. exact X.
  - replace (B2R y' - B2R (g1 A w : b64) * (B2R dt / 2)) with (B2R y' - (0 + B2R (g1 A w : b64) * (B2R dt / 2))) by ring. exact Y.
Qed.

Lemma lengthways : forall z : b64, forall w : gvec A, limited pw lg w -> fin z -> Rabs (B2R z) <= 2097152 * B2R dz ->
  let z' := b64_add z (b64_mul (g2 A w : b64) (b64_div dt (b64_of_Z 2))) in
  fin z' /\ Rabs (B2R z' - B2R z) <= 41 / 100 * B2R dz.
Proof.
  intros z w Hw Fz Hz z'. destruct (limited_comp w Hw) as (V0 & V1 & V2). destruct Hw as (F0 & F1 & F2 & S).
  assert (L := len_pos _ _ _ axz). destruct dt_pos as (FD & PD). assert (B := bp30). assert (QB := q_bounds _ _ _ axz).
  assert (CZ : 300000000 * B2R dt <= 4 / 5 * B2R dz) by apply HF. unfold len in *.
  assert (T0 : fin z' /\ Rabs (B2R z' - (B2R z + B2R (g2 A w : b64) * (B2R dt / 2))) <= 3 * qz).
  { apply (half_move _ _ _ axz); try assumption; [eapply Rle_trans; [exact V2|exact B]|]. now apply comp_reach. }
  destruct T0 as (FZ & Z). split; [exact FZ|]. unfold qz in *. assert (C := reach _ CZ L).
  assert (D : Rabs (B2R (g2 A w : b64) * (B2R dt / 2)) <= 401 / 1000 * B2R dz).
  { rewrite Rabs_mult, (Rabs_pos_eq (B2R dt / 2)) by lra. apply Rle_trans with (300000001 * (B2R dt / 2)); [apply Rmult_le_compat_r; [lra|exact V2]|lra]. }
  apply Rabs_le_inv in Z, D. apply Rabs_le. lra.
Qed.

Lemma home_small : forall r z, home r z -> Rabs (B2R r) <= 1100000 * B2R dr /\ Rabs (B2R z) <= 1100000 * B2R dz.
Proof.
  intros r z (_ & (R1 & R2) & _ & (Z1 & Z2)). assert (Q1 := q_bounds _ _ _ axr). assert (Q2 := q_bounds _ _ _ axz).
  assert (T1 := top_hi _ _ _ axr). assert (T2 := top_hi _ _ _ axz). assert (L1 := len_pos _ _ _ axr). assert (L2 := len_pos _ _ _ axz).
  assert (W1 := wall_lo _ _ _ axr). assert (W2 := wall_lo _ _ _ axz).
  unfold qr, qz, wr, wz, wall, len in *. split; apply Rabs_le; lra.
Qed.

(** The first half step: dump_position_to_old, half_step_pos, back_position_to_rz *)
Theorem first_half64 : forall (f : gphase A) (v : gvec A), home (g0 A (gpos A f)) (g2 A (gpos A f)) ->
  fin (g1 A (gpos A f) : b64) -> B2R (g1 A (gpos A f) : b64) = 0 -> limited pw lg v ->
  exists f', ghalf_step_pos A dt (gdump_position_to_old A (GPhase A (gpos A f) v (gr_old A f) (gz_old A f) (gsin A f))) = Ok f' /\
  let f'' := gback_position_to_rz A f' in
  gr_old A f'' = g0 A (gpos A f) /\ gz_old A f'' = g2 A (gpos A f) /\ gvel A f'' = v /\ g1 A (gpos A f'') = b64_of_Z 0 /\
  midway (gr_old A f'') (gz_old A f'') (g0 A (gpos A f'')) (g2 A (gpos A f'')).
Proof.
  intros f v H FY Y0 Hv. destruct (home_small _ _ H) as (SR & SZ). destruct (H) as (FR & AR & FZ & AZ).
  unfold ghalf_step_pos. cbn [gdump_position_to_old gpos g0 g1 g2 gvel].
  change (finite A) with (@is_finite prec64 emax64). rewrite FR, FZ. cbn [andb]. eexists. split; [reflexivity|].
  cbv zeta. unfold gback_position_to_rz. cbn [gpos gvel gr_old gz_old gsin g0 g1 g2]. split; [reflexivity|]. split; [reflexivity|]. split; [reflexivity|]. split; [reflexivity|].
  change (root A) with b64_sqrt. change (add A) with b64_add. change (mul A) with b64_mul. change (div A) with b64_div. change (of_int A) with b64_of_Z.
  assert (L1 := len_pos _ _ _ axr). assert (L2 := len_pos _ _ _ axz). unfold len in L1, L2.
  destruct (sideways (g0 A v) (g0 A (gpos A f)) (g1 A (gpos A f)) v Hv eq_refl FR FY Y0) as (FX & FYY & D); [cbn [num b64_arith] in *; lra|].
  destruct (lengthways (g2 A (gpos A f)) v Hv FZ) as (FZ' & DZ); [cbn [num b64_arith] in *; lra|].
  cbn [num b64_arith] in *.
  set (x' := b64_add (g0 A (gpos A f)) _) in *. set (y' := b64_add (g1 A (gpos A f)) _) in *. set (z' := b64_add (g2 A (gpos A f)) _) in *.
  destruct (disp_abs (B2R dr) L1 _ _ D) as (DA & DY).
  assert (QB := q_bounds _ _ _ axr). assert (QZ := q_bounds _ _ _ axz). apply Rabs_le_inv in SR, SZ. destruct AR as (AR1 & AR2). destruct AZ as (AZ1 & AZ2).
  unfold qr, qz, wr, wz, len in *.
  assert (X1 : 8 / 100 * B2R dr <= B2R x' <= 1200000 * B2R dr) by lra.
  destruct (distance _ _ _ axr x' y' FX FYY) as (FH & HH).
  { rewrite Rabs_pos_eq by lra. unfold len. lra. } { apply Rabs_le. unfold len. lra. } { rewrite Rabs_pos_eq by lra. unfold len. lra. }
  set (h := b64_sqrt (b64_add (b64_mul x' x') (b64_mul y' y'))) in *.
  assert (HP := sqrt_pos (B2R x' * B2R x' + B2R y' * B2R y')).
  assert (HS : sqrt (B2R x' * B2R x' + B2R y' * B2R y') * sqrt (B2R x' * B2R x' + B2R y' * B2R y') = B2R x' * B2R x' + B2R y' * B2R y') by (apply sqrt_sqrt; nra).
  assert (W := wall_lo _ _ _ axr). unfold len in W.
  destruct (first_half_R (B2R dr) (q dr) (wall (gn_r A g) dr) L1 ltac:(lra) (B2R (g0 A (gpos A f) : b64)) (B2R x' - B2R (g0 A (gpos A f) : b64)) (B2R y')
     (sqrt (B2R x' * B2R x' + B2R y' * B2R y')) (B2R h)) as (_ & HB & HD); [split; assumption|exact D|exact HP| |exact HH|].
  { rewrite HS. ring. }
  unfold midway. split; [exact H|]. split; [exact FH|]. split; [exact HB|]. split; [exact HD|]. split; [exact FZ'|].
  split; [|exact DZ]. apply Rabs_le_inv in DZ. unfold wz. lra.
Qed.

(** ** Reflection *)

Definition refl (size d x : b64) : b64 :=
  let x := if Bltb (wf size d) x then b64_sub (wx2 size d) x else x in if Bltb x (hd d) then b64_sub d x else x.

Lemma refl_ok : forall n size d x, axis n size d -> fin x -> - B2R d <= B2R x <= wall n d + 95 / 100 * B2R d ->
  fin (refl size d x) /\ reflected (B2R d) (q d) (B2R (wf size d)) (B2R (wx2 size d)) (B2R (hd d)) (B2R x) (B2R (refl size d x)).
Proof.
  intros n size d x AX Fx Hx. destruct (wf_ok _ _ _ AX) as (FW & W). destruct (wx2_ok _ _ _ AX) as (FX & X). destruct (hd_ok _ _ _ AX) as (FH & H).
  assert (QB := q_bounds _ _ _ AX). assert (L := len_pos _ _ _ AX). assert (WL := wall_lo _ _ _ AX). assert (T := top_hi _ _ _ AX). assert (FD := fin_d _ _ _ AX).
  assert (TW : top n d = wall n d + B2R d / 2) by (unfold wall, len; lra).
  unfold len in *. apply Rabs_le_inv in W, X, H. unfold refl, reflected. cbv zeta. destruct (Bltb (wf size d) x) eqn:E1.
  - apply ltb_ok in E1; [|assumption|assumption].
    destruct (sub_q _ _ _ AX (wx2 size d) x FX Fx) as (F & S); [unfold len; apply Rabs_le; lra|].
    assert (N : Bltb (b64_sub (wx2 size d) x) (hd d) = false).
    { destruct (Bltb (b64_sub (wx2 size d) x) (hd d)) eqn:E2; [|reflexivity]. apply ltb_ok in E2; [|assumption|assumption]. apply Rabs_le_inv in S. lra. }
    rewrite N. split; [exact F|]. left. split; [exact E1|exact S].
  - assert (N1 : B2R x <= B2R (wf size d)).
    { destruct (Rle_dec (B2R x) (B2R (wf size d))) as [K|K]; [exact K|]. exfalso. assert (E : Bltb (wf size d) x = true) by (apply ltb_ok; [assumption|assumption|lra]). congruence. }
    destruct (Bltb x (hd d)) eqn:E2.
    + apply ltb_ok in E2; [|assumption|assumption]. destruct (sub_q _ _ _ AX d x FD Fx) as (F & S); [unfold len; apply Rabs_le; lra|].
      split; [exact F|]. right. left. repeat split; [exact N1|exact E2|exact S].
    + assert (N2 : B2R (hd d) <= B2R x).
      { destruct (Rle_dec (B2R (hd d)) (B2R x)) as [K|K]; [exact K|]. exfalso. assert (E : Bltb x (hd d) = true) by (apply ltb_ok; [assumption|assumption|lra]). congruence. }
      split; [exact Fx|]. right. right. repeat split; [exact N1|exact N2].
Qed.

(** Position after a reflection and the return to the half-plane, from the position before *)
Definition returned (f f' : gphase A) : Prop :=
  let r := refl (gr_size A g) dr (g0 A (gpos A f)) in
  g0 A (gpos A f') = b64_sqrt (b64_add (b64_mul r r) (b64_mul (g1 A (gpos A f)) (g1 A (gpos A f)))) /\
  g1 A (gpos A f') = b64_of_Z 0 /\ g2 A (gpos A f') = refl (gz_size A g) dz (g2 A (gpos A f)) /\
  gsin A f' = b64_div (g1 A (gpos A f) : b64) (g0 A (gpos A f') : b64) /\
  gr_old A f' = gr_old A f /\ gz_old A f' = gz_old A f /\
  (g0 A (gvel A f') = g0 A (gvel A f) \/ g0 A (gvel A f') = Bopp (g0 A (gvel A f) : b64)  \/ g0 A (gvel A f') = Bopp (Bopp (g0 A (gvel A f) : b64))) /\
  g1 A (gvel A f') = g1 A (gvel A f) /\
  (g2 A (gvel A f') = g2 A (gvel A f) \/ g2 A (gvel A f') = Bopp (g2 A (gvel A f) : b64) \/ g2 A (gvel A f') = Bopp (Bopp (g2 A (gvel A f) : b64))).

Lemma reflection_returned : forall f, returned f (gback_position_to_rz A (greflection A g f)).
Proof.
  intro f. unfold greflection, gback_position_to_rz, returned, refl. cbv zeta.
  change (ltb A) with (@Bltb prec64 emax64). change (sub A) with b64_sub. change (div A) with b64_div. change (mul A) with b64_mul. change (of_int A) with b64_of_Z.
  change (b64_div (gdr A g) (b64_of_Z 2)) with (hd dr). change (b64_div (gdz A g) (b64_of_Z 2)) with (hd dz).
  change (b64_sub (gr_size A g) (hd dr)) with (wf (gr_size A g) dr). change (b64_sub (gz_size A g) (hd dz)) with (wf (gz_size A g) dz).
  change (b64_mul (wf (gr_size A g) dr) (b64_of_Z 2)) with (wx2 (gr_size A g) dr). change (b64_mul (wf (gz_size A g) dz) (b64_of_Z 2)) with (wx2 (gz_size A g) dz).
  change (gdr A g) with dr. change (gdz A g) with dz.
  set (r := g0 A (gpos A f)). set (z := g2 A (gpos A f)).
  destruct (Bltb (wf (gr_size A g) dr) r); destruct (Bltb (wf (gz_size A g) dz) z);
  cbv beta iota;
  match goal with |- context [if Bltb ?x (hd dr) then _ else _] => destruct (Bltb x (hd dr)) end;
  match goal with |- context [if Bltb ?x (hd dz) then _ else _] => destruct (Bltb x (hd dz)) end;
  cbn [gpos gvel g0 g1 g2 gr_old gz_old gsin]; repeat split; auto.
Qed.

Lemma bunch_returned : forall f, fst (gbunch_reflection A g f) = true -> returned f (gback_position_to_rz A (snd (gbunch_reflection A g f))).
Proof.
  intro f. unfold gbunch_reflection, gback_position_to_rz, returned, refl. cbv zeta.
  change (ltb A) with (@Bltb prec64 emax64). change (sub A) with b64_sub. change (div A) with b64_div. change (mul A) with b64_mul. change (of_int A) with b64_of_Z.
  change (b64_div (gdr A g) (b64_of_Z 2)) with (hd dr). change (b64_div (gdz A g) (b64_of_Z 2)) with (hd dz).
  change (b64_sub (gr_size A g) (hd dr)) with (wf (gr_size A g) dr). change (b64_sub (gz_size A g) (hd dz)) with (wf (gz_size A g) dz).
  change (gdr A g) with dr. change (gdz A g) with dz.
  set (r := g0 A (gpos A f)). set (z := g2 A (gpos A f)).
  destruct (Bltb r (hd dr)) eqn:E1; destruct (Bltb z (hd dz)) eqn:E2; cbn [fst snd]; intro H; apply negb_true_iff, orb_false_iff in H; destruct H as (H1 & H2);
  cbn [gpos gvel g0 g1 g2 gr_old gz_old gsin]; rewrite H1, H2, E1, E2; repeat split; auto.
Qed.

(** The second half step *)
Theorem second_half64 : forall (f f1 f' : gphase A),
  midway (gr_old A f) (gz_old A f) (g0 A (gpos A f)) (g2 A (gpos A f)) -> g1 A (gpos A f) = b64_of_Z 0 -> limited pw lg (gvel A f) ->
  ghalf_step_pos A dt f = Ok f1 -> returned f1 f' ->
  home (g0 A (gpos A f')) (g2 A (gpos A f')) /\ g1 A (gpos A f') = b64_of_Z 0 /\
  gr_old A f' = gr_old A f /\ gz_old A f' = gz_old A f /\
  Rabs (B2R (g0 A (gpos A f') : b64) - B2R (gr_old A f : b64)) <= 97 / 100 * B2R dr /\
  Rabs (B2R (g2 A (gpos A f') : b64) - B2R (gz_old A f : b64)) <= 83 / 100 * B2R dz /\
  fin (gsin A f' : b64) /\ Rabs (B2R (gsin A f' : b64)) <= 85 / 100.
Proof.
  intros f f1 f' (H & FR & RB & DR & FZ & ZB & DZ) Y0 Hv E RT. destruct (home_small _ _ H) as (SR & SZ). destruct (H) as (FRo & AR & FZo & AZ).
  unfold ghalf_step_pos in E. change (finite A) with (@is_finite prec64 emax64) in E. cbv zeta in E. rewrite FR, FZ in E. cbn [andb] in E. injection E as <-.
  assert (L1 := len_pos _ _ _ axr). assert (L2 := len_pos _ _ _ axz). unfold len in L1, L2.
  assert (QB := q_bounds _ _ _ axr). assert (QZ := q_bounds _ _ _ axz). apply Rabs_le_inv in SR, SZ.
  assert (T1 := top_hi _ _ _ axr). assert (T2 := top_hi _ _ _ axz). assert (W1 := wall_lo _ _ _ axr). assert (W2 := wall_lo _ _ _ axz).
  assert (TW1 : top (gn_r A g) dr = wr + B2R dr / 2) by (unfold wr, wall, len; lra).
  assert (TW2 : top (gn_z A g) dz = wz + B2R dz / 2) by (unfold wz, wall, len; lra).
  destruct zero_ok as (FO & EO).
  destruct (sideways (g0 A (gvel A f)) (g0 A (gpos A f)) (g1 A (gpos A f)) (gvel A f) Hv eq_refl FR) as (FX & FYY & D).
  { rewrite Y0. exact FO. } { rewrite Y0. exact EO. } { cbn [num b64_arith] in *. unfold len in *. rewrite Rabs_pos_eq; lra. }
  destruct (lengthways (g2 A (gpos A f)) (gvel A f) Hv FZ) as (FZ' & DZ').
  { cbn [num b64_arith] in *. unfold len in *. rewrite Rabs_pos_eq; lra. }
  destruct RT as (R0 & R1 & R2 & R3 & R4 & R5 & _). cbn [gpos g0 g1 g2 gr_old gz_old] in *.
  change (add A) with b64_add in *. change (mul A) with b64_mul in *. change (div A) with b64_div in *. change (of_int A) with b64_of_Z in *.
  cbn [num b64_arith] in *.
  set (x' := b64_add (g0 A (gpos A f)) _) in *. set (y' := b64_add (g1 A (gpos A f)) _) in *. set (z' := b64_add (g2 A (gpos A f)) _) in *.
  destruct (disp_abs (B2R dr) L1 _ _ D) as (DA & DY). apply Rabs_le_inv in DZ'.
  unfold qr, qz, len in *. fold wr wz in W1, W2.
  destruct (refl_ok _ _ _ x' axr FX) as (FRR & RR); [fold wr; lra|].
  destruct (refl_ok _ _ _ z' axz FZ') as (FZZ & RZ); [fold wz; lra|].
  destruct (wf_ok _ _ _ axr) as (_ & WF). destruct (wx2_ok _ _ _ axr) as (_ & WX). destruct (hd_ok _ _ _ axr) as (_ & HD).
  destruct (wf_ok _ _ _ axz) as (_ & WFz). destruct (wx2_ok _ _ _ axz) as (_ & WXz). destruct (hd_ok _ _ _ axz) as (_ & HDz).
  unfold len in *. fold wr in WF, WX. fold wz in WFz, WXz.
  set (x2 := refl (gr_size A g) dr x') in *. set (z2 := refl (gz_size A g) dz z') in *.
  set (h0 := sqrt (B2R x2 * B2R x2 + B2R y' * B2R y')).
  assert (HP : 0 <= h0) by apply sqrt_pos.
  assert (HS : h0 * h0 = B2R x2 * B2R x2 + B2R y' * B2R y') by (apply sqrt_sqrt; nra).
  assert (WF4 : Rabs (B2R (wf (gr_size A g) dr) - wr) <= 4 * q dr) by lra.
  assert (WX4 : Rabs (B2R (wx2 (gr_size A g) dr) - 2 * wr) <= 10 * q dr) by lra.
  assert (WFz4 : Rabs (B2R (wf (gz_size A g) dz) - wz) <= 4 * q dz) by lra.
  assert (WXz4 : Rabs (B2R (wx2 (gz_size A g) dz) - 2 * wz) <= 10 * q dz) by lra.
  assert (SH := second_half_R (B2R dr) (q dr) wr L1 ltac:(lra) W1 _ _ _ WF4 WX4 HD (B2R (gr_old A f)) (B2R (g0 A (gpos A f))) (B2R x' - B2R (g0 A (gpos A f))) (B2R y')
     (B2R x') (B2R x2) h0).
  assert (SH' := fun h2 => SH h2 AR RB DR D ltac:(ring) RR HP HS). clear SH.
  destruct (SH' h0) as (X2 & _ & HL & _); [replace (h0 - h0) with 0 by ring; rewrite Rabs_R0; lra|].
  destruct (distance _ _ _ axr x2 y' FRR FYY) as (FH & HH).
  { unfold len. rewrite Rabs_pos_eq; lra. } { apply Rabs_le. unfold len. lra. } { unfold len. rewrite Rabs_pos_eq; lra. }
  rewrite <- R0 in FH, HH. fold h0 in HH. destruct (SH' _ HH) as (_ & AH & _ & NR).
  destruct (axial_R (B2R dz) (q dz) wz _ _ _ L2 ltac:(lra) W2 WFz4 WXz4 HDz (B2R (gz_old A f)) (B2R (g2 A (gpos A f)) - B2R (gz_old A f)) (B2R (g2 A (gpos A f)))
     (B2R z' - B2R (g2 A (gpos A f))) (B2R z') (B2R z2) AZ DZ ltac:(apply Rabs_le; lra) ltac:(ring) ltac:(ring) RZ) as (_ & AHz & NZ).
  rewrite R1, R2, R4, R5. split; [split; [exact FH|split; [exact AH|split; [exact FZZ|exact AHz]]]|]. split; [reflexivity|]. split; [reflexivity|]. split; [reflexivity|].
  split; [exact NR|]. split; [exact NZ|].
  set (h := g0 A (gpos A f')) in *. apply Rabs_le_inv in HH. cbn [num b64_arith] in *.
  assert (HB : 489 / 1000 * B2R dr <= B2R h) by lra.
  assert (QQ : Rabs (B2R y' / B2R h) <= 84 / 100).
  { unfold Rdiv. rewrite Rabs_mult, Rabs_inv, (Rabs_pos_eq (B2R h)) by lra. apply Rmult_le_reg_r with (B2R h); [lra|].
    rewrite Rmult_assoc, Rinv_l by lra. rewrite Rmult_1_r. apply Rabs_le. lra. }
  destruct (div_ok y' h FYY) as (FS & ES); [lra|apply Rle_trans with (1 := QQ); apply Rle_trans with (bp 0); [cbn; lra|apply bpow_le; lia]|].
  rewrite R3. split; [exact FS|]. rewrite ES. assert (RE := rnd_err (B2R y' / B2R h)). rewrite u_val in RE. assert (T := tiny_100). rewrite bp_m100 in T.
  assert (TI := Rabs_triang_inv (rnd (B2R y' / B2R h)) (B2R y' / B2R h)). lra.
Qed.

(** A bunch particle that started a cell or more from the wall and from the far end survives. *)
Lemma second_alive : forall f f1 : gphase A,
  midway (gr_old A f) (gz_old A f) (g0 A (gpos A f)) (g2 A (gpos A f)) -> g1 A (gpos A f) = b64_of_Z 0 -> limited pw lg (gvel A f) ->
  ghalf_step_pos A dt f = Ok f1 -> B2R (gr_old A f : b64) <= wr - B2R dr -> B2R (gz_old A f : b64) <= wz - 9 / 10 * B2R dz ->
  fst (gbunch_reflection A g f1) = true.
Proof.
  intros f f1 (H & FR & RB & DR & FZ & ZB & DZ) Y0 Hv E RO ZO.
  unfold ghalf_step_pos in E. change (finite A) with (@is_finite prec64 emax64) in E. cbv zeta in E. rewrite FR, FZ in E. cbn [andb] in E. injection E as <-.
  assert (L1 := len_pos _ _ _ axr). assert (L2 := len_pos _ _ _ axz). unfold len in L1, L2.
  assert (QB := q_bounds _ _ _ axr). assert (QZ := q_bounds _ _ _ axz).
  assert (T1 := top_hi _ _ _ axr). assert (T2 := top_hi _ _ _ axz). assert (W1 := wall_lo _ _ _ axr). assert (W2 := wall_lo _ _ _ axz).
  assert (TW1 : top (gn_r A g) dr = wr + B2R dr / 2) by (unfold wr, wall, len; lra).
  assert (TW2 : top (gn_z A g) dz = wz + B2R dz / 2) by (unfold wz, wall, len; lra).
  destruct zero_ok as (FO & EO).
  destruct (sideways (g0 A (gvel A f)) (g0 A (gpos A f)) (g1 A (gpos A f)) (gvel A f) Hv eq_refl FR) as (FX & _ & D).
  { rewrite Y0. exact FO. } { rewrite Y0. exact EO. } { cbn [num b64_arith] in *. unfold len in *. rewrite Rabs_pos_eq; lra. }
  destruct (lengthways (g2 A (gpos A f)) (gvel A f) Hv FZ) as (FZ' & DZ').
  { cbn [num b64_arith] in *. unfold len in *. rewrite Rabs_pos_eq; lra. }
  unfold gbunch_reflection. cbn [gpos g0 g1 g2 gvel gr_old gz_old].
  change (ltb A) with (@Bltb prec64 emax64). change (add A) with b64_add in *. change (sub A) with b64_sub. change (mul A) with b64_mul in *. change (div A) with b64_div in *. change (of_int A) with b64_of_Z in *.
  change (b64_div (gdr A g) (b64_of_Z 2)) with (hd dr). change (b64_div (gdz A g) (b64_of_Z 2)) with (hd dz).
  change (b64_sub (gr_size A g) (hd dr)) with (wf (gr_size A g) dr). change (b64_sub (gz_size A g) (hd dz)) with (wf (gz_size A g) dz).
  cbn [num b64_arith] in *.
  set (x' := b64_add (g0 A (gpos A f)) _) in *. set (z' := b64_add (g2 A (gpos A f)) _) in *.
  destruct (disp_abs (B2R dr) L1 _ _ D) as (DA & _). apply Rabs_le_inv in DZ', DR, DZ.
  destruct (wf_ok _ _ _ axr) as (FW & WF). destruct (wf_ok _ _ _ axz) as (FWz & WFz). apply Rabs_le_inv in WF, WFz. fold wr in WF. fold wz in WFz. unfold len in *.
  assert (E1 : Bltb (wf (gr_size A g) dr) x' = false).
  { destruct (Bltb (wf (gr_size A g) dr) x') eqn:E1; [|reflexivity]. apply ltb_ok in E1; [|assumption|assumption]. exfalso. lra. }
  assert (E2 : Bltb (wf (gz_size A g) dz) z' = false).
  { destruct (Bltb (wf (gz_size A g) dz) z') eqn:E2; [|reflexivity]. apply ltb_ok in E2; [|assumption|assumption]. exfalso. lra. }
  rewrite E1, E2. destruct (Bltb x' (hd dr)); destruct (Bltb z' (hd dz)); reflexivity.
Qed.
End Motion.
