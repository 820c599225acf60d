(** Proof of C57. *)
From Coq Require Import Reals ZArith Lra Lia List Psatz.
From Verif.Lib Require Import RAux.
From Verif.Model Require Import Constants Geometry Pusher Motion.
From Verif.Spec Require Import Mirror.
From Verif.Proof Require Import GeometryP MotionP.
Import ListNotations.
Local Open Scope R_scope.

(** The two tests on one coordinate. *)
Definition bounce (lo hi x v : R) : R * R :=
  let (x1, v1) := reflect_above hi x v in reflect_below lo x1 v1.

Lemma bounce_spec : forall lo hi x v, lo <= hi -> lo - (hi - lo) <= x <= hi + (hi - lo) ->
  let (x', v') := bounce lo hi x v in
  lo <= x' <= hi /\ (x' = x /\ v' = v \/ x' = 2 * lo - x /\ v' = - v \/ x' = 2 * lo - x + 2 * (hi - lo) /\ v' = - v).
Proof.
  intros lo hi x v H Hx. unfold bounce, reflect_above, reflect_below.
  destruct (Rlt_dec hi x); destruct (Rlt_dec _ lo); try (exfalso; lra).
  - split; [lra|]. right; right. split; lra.
  - split; [lra|]. right; left. split; lra.
  - split; [lra|]. left. split; lra.
Qed.

Lemma mirrored_start : forall lo hi x v, lo <= x <= hi -> mirrored_flight lo hi x v 0 x v.
Proof. intros. split; [assumption|]. exists 0%Z. left. split; lra. Qed.

Lemma mirrored_bounce : forall lo hi x v t dt x1 v1, lo <= hi -> mirrored_flight lo hi x v t x1 v1 ->
  Rabs v * dt <= hi - lo -> 0 <= dt ->
  let (x2, v2) := bounce lo hi (x1 + v1 * dt) v1 in mirrored_flight lo hi x v (t + dt) x2 v2.
Proof.
  intros lo hi x v t dt x1 v1 H [B (k & K)] L Ht.
  assert (V : Rabs v1 = Rabs v) by (destruct K as [[_ ->]|[_ ->]]; [|rewrite Rabs_Ropp]; reflexivity).
  assert (A : - (hi - lo) <= v1 * dt <= hi - lo).
  { assert (A := Rabs_def2 (v1 * dt) (hi - lo)). rewrite <- V in L.
    assert (Rabs (v1 * dt) <= hi - lo) by (rewrite Rabs_mult, (Rabs_pos_eq dt) by lra; exact L).
    unfold Rabs in H0. destruct (Rcase_abs (v1 * dt)); lra. }
  assert (S := bounce_spec lo hi (x1 + v1 * dt) v1 H). destruct (bounce lo hi (x1 + v1 * dt) v1) as [x2 v2].
  destruct S as [B2 S]; [lra|]. split; [exact B2|].
  destruct K as [[-> ->]|[-> ->]]; destruct S as [[-> ->]|[[-> ->]|[-> ->]]].
  - exists k. left. split; ring.
  - exists (- k)%Z. right. rewrite opp_IZR. split; ring.
  - exists (1 - k)%Z. right. rewrite minus_IZR. split; ring.
  - exists k. right. split; ring.
  - exists (- k)%Z. left. rewrite opp_IZR. split; ring.
  - exists (1 - k)%Z. left. rewrite minus_IZR. split; ring.
Qed.

(** Axial part of one step. *)
Lemma move_axial : forall g dt p,
  (v2 (pos (move g dt p)), v2 (vel (move g dt p))) =
  bounce (dz g / 2) (z_size g - dz g / 2) (v2 (pos p) + v2 (vel p) * dt) (v2 (vel p)).
Proof.
  intros g dt p. unfold move, second_half, reflection.
  destruct (reflect_above (r_size g - dr g / 2) _ _) as [r1 vr1].
  destruct (reflect_above (z_size g - dz g / 2) _ _) as [z1 vz1] eqn:E.
  destruct (reflect_below (dr g / 2) _ _) as [r2 vr2].
  destruct (reflect_below (dz g / 2) _ _) as [z2 vz2] eqn:E2. cbn.
  unfold bounce. unfold first_half, half_step_pos, back_position_to_rz, dump_position_to_old in E. cbn in E.
  replace (v2 (pos p) + v2 (vel p) * (dt / 2) + v2 (vel p) * (dt / 2)) with (v2 (pos p) + v2 (vel p) * dt) in E by lra.
  rewrite E, E2. reflexivity.
Qed.

(** Radial part of one step of a particle that does not move around the axis. *)
Lemma move_radial : forall g dt p, v1 (pos p) = 0 -> v1 (vel p) = 0 ->
  0 < v0 (pos p) + v0 (vel p) * (dt / 2) -> 0 < dr g ->
  let b := bounce (dr g / 2) (r_size g - dr g / 2) (v0 (pos p) + v0 (vel p) * dt) (v0 (vel p)) in
  0 < fst b ->
  (v0 (pos (move g dt p)), v0 (vel (move g dt p))) = b /\ v1 (pos (move g dt p)) = 0 /\ v1 (vel (move g dt p)) = 0.
Proof.
  intros g dt p Y W H0 Hd b Hb. unfold move, second_half, reflection.
  set (h := half_step_pos dt (first_half dt p)).
  assert (P0 : v0 (pos h) = v0 (pos p) + v0 (vel p) * dt).
  { unfold h, first_half, half_step_pos, back_position_to_rz, dump_position_to_old. cbn. rewrite Y, W.
    replace (sqrt _) with (v0 (pos p) + v0 (vel p) * (dt / 2)); [lra|].
    rewrite Rmult_0_l, Rplus_0_r, Rmult_0_l, Rplus_0_r. rewrite sqrt_square by lra. reflexivity. }
  assert (P1 : v1 (pos h) = 0) by (unfold h, first_half, half_step_pos, back_position_to_rz, dump_position_to_old; cbn; rewrite W; ring).
  assert (V0 : v0 (vel h) = v0 (vel p)) by reflexivity. assert (V1 : v1 (vel h) = 0) by exact W.
  destruct (reflect_above (r_size g - dr g / 2) _ _) as [r1 vr1] eqn:E.
  destruct (reflect_above (z_size g - dz g / 2) _ _) as [z1 vz1].
  destruct (reflect_below (dr g / 2) _ _) as [r2 vr2] eqn:E2.
  destruct (reflect_below (dz g / 2) _ _) as [z2 vz2].
  assert (B : b = (r2, vr2)) by (unfold b, bounce; rewrite <- P0, <- V0, E; exact E2).
  rewrite B in *. cbn [fst] in Hb.
  unfold back_velocity_to_rz, back_position_to_rz. cbn [pos vel v0 v1 v2 sin_theta]. rewrite P1, V1.
  assert (S : sqrt (r2 * r2 + 0 * 0) = r2) by (rewrite Rmult_0_l, Rplus_0_r; apply sqrt_square; lra).
  rewrite S. replace (0 / r2) with 0 by (unfold Rdiv; ring).
  replace (1 - 0 * 0) with 1 by ring. rewrite sqrt_1. repeat split; try ring. f_equal; ring.
Qed.

Lemma axial_mirror : forall g dt n p, geom_ok g -> (2 <= n_z g)%Z -> 0 <= dt ->
  Rabs (v2 (vel p)) * dt <= z_size g - dz g -> dz g / 2 <= v2 (pos p) <= z_size g - dz g / 2 ->
  mirrored_flight (dz g / 2) (z_size g - dz g / 2) (v2 (pos p)) (v2 (vel p)) (INR n * dt)
    (v2 (pos (free_run g dt n p))) (v2 (vel (free_run g dt n p))).
Proof.
  intros g dt n p Hg N Ht L B. induction n as [|n IH].
  - cbn [free_run INR]. rewrite Rmult_0_l. now apply mirrored_start.
  - cbn [free_run]. assert (M := move_axial g dt (free_run g dt n p)).
    assert (M2 := mirrored_bounce _ _ _ _ _ dt _ _ (Rle_trans _ _ _ (proj1 B) (proj2 B)) IH ltac:(lra) Ht).
    rewrite <- M in M2. rewrite S_INR. replace ((INR n + 1) * dt) with (INR n * dt + dt) by ring. exact M2.
Qed.

Lemma radial_mirror : forall g dt n p, geom_ok g -> (3 <= n_r g)%Z -> 0 <= dt ->
  v1 (pos p) = 0 -> v1 (vel p) = 0 ->
  Rabs (v0 (vel p)) * dt < dr g -> dr g / 2 <= v0 (pos p) <= r_size g - dr g / 2 ->
  mirrored_flight (dr g / 2) (r_size g - dr g / 2) (v0 (pos p)) (v0 (vel p)) (INR n * dt)
    (v0 (pos (free_run g dt n p))) (v0 (vel (free_run g dt n p))) /\
  v1 (pos (free_run g dt n p)) = 0 /\ v1 (vel (free_run g dt n p)) = 0.
Proof.
  intros g dt n p Hg N Ht Y W L B. assert (D := dr_pos g Hg).
  assert (S : dr g <= r_size g - dr g).
  { assert (Rs : r_size g = IZR (n_r g - 1) * dr g).
    { unfold dr. field. apply not_0_IZR. lia. }
    assert (2 <= IZR (n_r g - 1)) by (apply IZR_le; lia). rewrite Rs. nra. }
  induction n as [|n (IH & IY & IW)].
  - cbn [free_run INR]. rewrite Rmult_0_l. split; [|now split]. now apply mirrored_start.
  - cbn [free_run]. set (q := free_run g dt n p) in *.
    assert (Q := IH). destruct Q as [QB (k & K)].
    assert (V : Rabs (v0 (vel q)) = Rabs (v0 (vel p))) by (destruct K as [[_ ->]|[_ ->]]; [|rewrite Rabs_Ropp]; reflexivity).
    assert (A : - dr g < v0 (vel q) * dt < dr g).
    { rewrite <- V in L. assert (Rabs (v0 (vel q) * dt) < dr g) by (rewrite Rabs_mult, (Rabs_pos_eq dt) by lra; exact L).
      apply Rabs_def2 in H. lra. }
    assert (M2 := mirrored_bounce _ _ _ _ _ dt _ _ (Rle_trans _ _ _ (proj1 B) (proj2 B)) IH ltac:(lra) Ht).
    assert (M := move_radial g dt q IY IW ltac:(lra) D). cbv zeta in M.
    destruct (bounce _ _ (v0 (pos q) + v0 (vel q) * dt) (v0 (vel q))) as [x2 w2].
    destruct M as (E & M1 & M3); [cbn; destruct M2; lra|]. 
    assert (E1 := f_equal fst E). assert (E2 := f_equal snd E). cbn [fst snd] in E1, E2. rewrite E1, E2.
    split; [|now split]. rewrite S_INR. replace ((INR n + 1) * dt) with (INR n * dt + dt) by ring. exact M2.
Qed.
