(** The motion of one step, without fields and away from the walls. *)
From Coq Require Import Reals ZArith Lra Lia Psatz.
From Verif.Lib Require Import RAux Outcome.
From Verif.Model Require Import Constants Geometry Pusher Motion.
From Verif.Spec Require Import Straight.
Local Open Scope R_scope.

(** The radius in the middle of the step *)
Definition mid_radius (r vr vphi dt : R) : R := sqrt ((r + vr * (dt / 2)) * (r + vr * (dt / 2)) + vphi * (dt / 2) * (vphi * (dt / 2))).

Lemma sqrt_sum_sq : forall x y, sqrt (x * x + y * y) * sqrt (x * x + y * y) = x * x + y * y.
Proof. intros x y. apply sqrt_sqrt. assert (A := Rle_0_sqr x). assert (B := Rle_0_sqr y). unfold Rsqr in *. lra. Qed.
Lemma above_none : forall w x v, x <= w -> reflect_above w x v = (x, v).
Proof. intros w x v H. unfold reflect_above. destruct (Rlt_dec w x); [lra|reflexivity]. Qed.
Lemma below_none : forall w x v, w <= x -> reflect_below w x v = (x, v).
Proof. intros w x v H. unfold reflect_below. destruct (Rlt_dec x w); [lra|reflexivity]. Qed.

Lemma free_move : forall g dt p, v1 (pos p) = 0 ->
  let r1 := mid_radius (v0 (pos p)) (v0 (vel p)) (v1 (vel p)) dt in
  let x := r1 + v0 (vel p) * (dt / 2) in let y := v1 (vel p) * (dt / 2) in let z := line_height (v2 (pos p)) (v2 (vel p)) dt in
  dr g / 2 <= x <= r_size g - dr g / 2 -> dz g / 2 <= z <= z_size g - dz g / 2 ->
  let p' := move g dt p in let s := y / sqrt (x * x + y * y) in
  v0 (pos p') = sqrt (x * x + y * y) /\ v1 (pos p') = 0 /\ v2 (pos p') = z /\
  v0 (vel p') = sqrt (1 - s * s) * v0 (vel p) - s * v1 (vel p).
Proof.
  intros g dt [[r y0 z0] [vr vp vz] ro zo st] Y r1 x y z HX HZ p' s. cbn [pos vel v0 v1 v2] in *. subst y0.
  assert (E : half_step_pos dt (first_half dt (Phase (V3 r 0 z0) (V3 vr vp vz) ro zo st)) =
              Phase (V3 x y z) (V3 vr vp vz) r z0 (vp * (dt / 2) / r1)).
  { unfold first_half, half_step_pos, back_position_to_rz, dump_position_to_old. cbn [pos vel v0 v1 v2 r_old z_old sin_theta]. unfold x, y, z, r1, mid_radius, line_height.
    f_equal; [f_equal; [|ring|field]|]; rewrite !Rplus_0_l; reflexivity. }
  unfold p', move, second_half. rewrite E. unfold reflection. cbn [pos vel v0 v1 v2 r_old z_old sin_theta].
  rewrite !above_none by lra. rewrite !below_none by lra. unfold back_position_to_rz, back_velocity_to_rz. cbn [pos vel v0 v1 v2 r_old z_old sin_theta]. fold s. repeat split.
Qed.

Lemma free_move_vel : forall g dt p, v1 (pos p) = 0 ->
  let r1 := mid_radius (v0 (pos p)) (v0 (vel p)) (v1 (vel p)) dt in
  let x := r1 + v0 (vel p) * (dt / 2) in let y := v1 (vel p) * (dt / 2) in let z := line_height (v2 (pos p)) (v2 (vel p)) dt in
  dr g / 2 <= x <= r_size g - dr g / 2 -> dz g / 2 <= z <= z_size g - dz g / 2 ->
  let p' := move g dt p in let s := y / sqrt (x * x + y * y) in
  v1 (vel p') = s * v0 (vel p) + sqrt (1 - s * s) * v1 (vel p) /\ v2 (vel p') = v2 (vel p).
Proof.
  intros g dt [[r y0 z0] [vr vp vz] ro zo st] Y r1 x y z HX HZ p' s. cbn [pos vel v0 v1 v2] in *. subst y0.
  assert (E : half_step_pos dt (first_half dt (Phase (V3 r 0 z0) (V3 vr vp vz) ro zo st)) =
              Phase (V3 x y z) (V3 vr vp vz) r z0 (vp * (dt / 2) / r1)).
  { unfold first_half, half_step_pos, back_position_to_rz, dump_position_to_old. cbn [pos vel v0 v1 v2 r_old z_old sin_theta]. unfold x, y, z, r1, mid_radius, line_height.
    f_equal; [f_equal; [|ring|field]|]; rewrite !Rplus_0_l; reflexivity. }
  unfold p', move, second_half. rewrite E. unfold reflection. cbn [pos vel v0 v1 v2 r_old z_old sin_theta].
  rewrite !above_none by lra. rewrite !below_none by lra. unfold back_position_to_rz, back_velocity_to_rz. cbn [pos vel v0 v1 v2 r_old z_old sin_theta]. fold s. repeat split.
Qed.

(** What is missing to the square of the radius on the straight line *)
Lemma deficit : forall r vr vphi dt, 0 <= r -> 0 < r + vr * (dt / 2) ->
  let r1 := mid_radius r vr vphi dt in let x := r1 + vr * (dt / 2) in let y := vphi * (dt / 2) in
  line_radius r vr vphi dt * line_radius r vr vphi dt - (x * x + y * y) = 2 * (y * y) * ((r1 + r) / (r1 + r + vr * (dt / 2))) /\ 0 < (r1 + r) / (r1 + r + vr * (dt / 2)).
Proof.
  intros r vr vphi dt R0 H r1 x y. unfold line_radius. rewrite sqrt_sum_sq. unfold line_x, line_y. set (a := r + vr * (dt / 2)) in *.
  assert (Q : r1 * r1 = a * a + y * y) by (unfold r1, mid_radius; fold a y; apply sqrt_sum_sq).
  assert (P : 0 < r1) by (unfold r1, mid_radius; fold a y; apply sqrt_lt_R0; assert (B := Rle_0_sqr y); unfold Rsqr in B; nra).
  set (w := vr * (dt / 2)) in *. assert (EA : a = r + w) by reflexivity.
  replace (r + vr * dt) with (a + w) by (unfold a, w; field). replace (vphi * dt) with (2 * y) by (unfold y; field).
  assert (D : 0 < r1 + r + w) by lra.
  split; [|apply Rmult_lt_0_compat; [lra|now apply Rinv_0_lt_compat]].
  unfold x. apply Rmult_eq_reg_r with (r1 + r + w); [|lra].
  replace (2 * (y * y) * ((r1 + r) / (r1 + r + w)) * (r1 + r + w)) with (2 * (y * y) * (r1 + r)) by (field; lra).
  replace (y * y) with (r1 * r1 - a * a) by lra. replace (2 * y * (2 * y)) with (4 * (r1 * r1 - a * a)) by (replace (r1 * r1 - a * a) with (y * y) by lra; ring). rewrite EA. ring.
Qed.

(** On the straight line the outward velocity grows *)
Lemma line_outward_grows : forall r vr vphi dt, 0 <= r -> 0 <= vr -> 0 < dt -> vphi <> 0 -> 0 < r + vr * (dt / 2) -> vr < line_outward r vr vphi dt.
Proof.
  intros r vr vphi dt R0 V0 DT V H. unfold line_outward. set (X := line_x r vr dt). set (Y := line_y vphi dt). set (L := line_radius r vr vphi dt).
  assert (X0 : 0 < X) by (unfold X, line_x; nra). assert (VV : 0 < vphi * vphi) by nra. assert (Y2 : vphi * Y = vphi * vphi * dt) by (unfold Y, line_y; ring).
  assert (YY : Y * Y = vphi * vphi * (dt * dt)) by (unfold Y, line_y; ring). assert (YP : 0 < vphi * vphi * (dt * dt)) by (apply Rmult_lt_0_compat; nra).
  assert (Q : L * L = X * X + Y * Y) by apply sqrt_sum_sq. assert (L0 : 0 < L) by (apply sqrt_lt_R0; change (0 < X * X + Y * Y); nra).
  (* L - X = Y^2 / (L + X) and vr dt <= X *)
  assert (VX : vr * dt <= X) by (unfold X, line_x; lra). assert (LX : X < L) by nra.
  apply Rmult_lt_reg_r with L; [exact L0|]. unfold Rdiv. rewrite Rmult_assoc, Rinv_l, Rmult_1_r by lra. rewrite Y2.
  assert (P : (L - X) * (L + X) = vphi * vphi * (dt * dt)) by (replace ((L - X) * (L + X)) with (L * L - X * X) by ring; lra).
  assert (vr * (L - X) < vphi * vphi * dt); [|lra].
  apply Rmult_lt_reg_r with (dt * (L + X)); [apply Rmult_lt_0_compat; lra|].
  replace (vr * (L - X) * (dt * (L + X))) with (vr * dt * ((L - X) * (L + X))) by ring. rewrite P.
  replace (vphi * vphi * dt * (dt * (L + X))) with ((L + X) * (vphi * vphi * (dt * dt))) by ring. apply Rmult_lt_compat_r; [exact YP|lra].
Qed.

(** The cosine that back_velocity_to_rz computes from the sine *)
Lemma cos_of_sin : forall x y, 0 <= x -> y <> 0 -> let l := sqrt (x * x + y * y) in sqrt (1 - y / l * (y / l)) = x / l.
Proof.
  intros x y X Y l. assert (YY : 0 < y * y) by nra. assert (L : 0 < l) by (apply sqrt_lt_R0; nra). assert (Q : l * l = x * x + y * y) by apply sqrt_sum_sq.
  replace (1 - y / l * (y / l)) with (x / l * (x / l)).
  - apply sqrt_square. unfold Rdiv. apply Rmult_le_pos; [exact X|]. left. now apply Rinv_0_lt_compat.
  - apply Rmult_eq_reg_r with (l * l); [|nra]. replace (x / l * (x / l) * (l * l)) with (x * x) by (field; lra).
    replace ((1 - y / l * (y / l)) * (l * l)) with (l * l - y * y) by (field; lra). rewrite Q. ring.
Qed.

(** On the straight line the angular momentum stays *)
Lemma line_momentum : forall r vr vphi t, line_radius r vr vphi t <> 0 -> line_radius r vr vphi t * line_around r vr vphi t = r * vphi.
Proof. intros r vr vphi t H. unfold line_around. set (l := line_radius r vr vphi t) in *. unfold line_x, line_y. field. exact H. Qed.

(** A particle that moves towards the axis goes on doing so until it touches a wall *)
Lemma stays_inward : forall x y v vphi dt, 0 < x -> 0 < dt -> y = vphi * (dt / 2) -> v < 0 ->
  let s := y / sqrt (x * x + y * y) in sqrt (1 - s * s) * v - s * vphi < 0.
Proof.
  intros x y v vphi dt X DT EY V s. assert (YY := Rle_0_sqr y). unfold Rsqr in YY. assert (XX : 0 < x * x) by nra.
  assert (L : 0 < sqrt (x * x + y * y)) by (apply sqrt_lt_R0; lra). assert (Q := sqrt_sum_sq x y). set (l := sqrt (x * x + y * y)) in *.
  assert (SV : 0 <= s * vphi).
  { unfold s. rewrite EY. replace (vphi * (dt / 2) / l * vphi) with (vphi * vphi * (dt / 2) * / l) by (unfold Rdiv; ring).
    assert (VV := Rle_0_sqr vphi). unfold Rsqr in VV. apply Rmult_le_pos; [apply Rmult_le_pos; lra|]. left. now apply Rinv_0_lt_compat. }
  assert (C : 0 < sqrt (1 - s * s)).
  { apply sqrt_lt_R0. apply Rmult_lt_reg_r with (l * l); [nra|]. rewrite Rmult_0_l. replace ((1 - s * s) * (l * l)) with (l * l - y * y) by (unfold s; field; lra). lra. }
  nra.
Qed.
