(** C85: a particle on which no force acts. *)
From Coq Require Import Reals ZArith Lra Lia Psatz.
From Verif.Lib Require Import RAux Outcome.
From Verif.Model Require Import Constants Geometry Pusher Motion.
From Verif.Spec Require Import Dynamics Straight.
From Verif.Proof Require Import PusherP VayP FreeP.
Local Open Scope R_scope.

(** * C85: without forces a particle moves in a straight line
    False of the code as soon as the particle moves around the axis (C85_short_refuted, C85_inward_refuted). *)

(** Without fields a step of a particle (any pusher, then motion) is its motion alone, so the theorems below are about whole steps. *)
Theorem C85_no_force : forall k g q m dt p, subluminal (vel p) -> not_tiny (vel p) -> m <> 0 ->
  bind (push k dt q m vzero vzero (vel p)) (fun v => Ok (move g dt (set_vel v p))) = Ok (move g dt p).
Proof.
  intros k g q m dt p S T M. assert (E : push k dt q m vzero vzero (vel p) = Ok (vel p)).
  { destruct k; unfold push; try (rewrite boris_free by (intro; assumption); now rewrite round_velocity_id by assumption).
    destruct (vay_electric dt q m vzero (vel p) S M) as (v' & H & P). destruct (vay_subluminal dt q m vzero vzero (vel p) (Rlt_le _ _ S)) as (w & HW & S'). rewrite H in HW. injection HW as <-. rewrite H. f_equal.
    rewrite round_velocity_id, vscale_zero, vadd_zero in P by assumption. rewrite <- (normalised_momentum v' S'), <- (normalised_momentum (vel p) S), P. reflexivity. }
  rewrite E. cbn [bind]. destruct p. reflexivity.
Qed.
Print Assumptions C85_no_force.

(** What a step touches no wall means: the point that the program tests (the second half step starts at the radius in the middle and uses the
    velocity as it was in the plane at the start) is inside. *)
Definition no_wall (g : geom) (dt : R) (p : phase) : Prop :=
  0 <= v0 (pos p) /\ v1 (pos p) = 0 /\ 0 < line_x (v0 (pos p)) (v0 (vel p)) (dt / 2) /\
  dr g / 2 <= line_radius (v0 (pos p)) (v0 (vel p)) (v1 (vel p)) (dt / 2) + v0 (vel p) * (dt / 2) <= r_size g - dr g / 2 /\
  dz g / 2 <= line_height (v2 (pos p)) (v2 (vel p)) dt <= z_size g - dz g / 2.

(** True: the height, always; radius and outward velocity, if the particle does not move around the axis. *)
Theorem C85_meridional_partial : forall g dt p, no_wall g dt p ->
  let p' := move g dt p in
  v2 (pos p') = line_height (v2 (pos p)) (v2 (vel p)) dt /\
  (v1 (vel p) = 0 -> v0 (pos p') = line_radius (v0 (pos p)) (v0 (vel p)) (v1 (vel p)) dt /\ v0 (vel p') = v0 (vel p)).
Proof.
  intros g dt p (R0 & Y & X0 & HX & HZ) p'. destruct (free_move g dt p Y HX HZ) as (E0 & _ & E2 & EV). split; [exact E2|]. intro V.
  unfold p'. rewrite E0, EV, V. clear E0 EV E2 HX. unfold line_x in X0.
  assert (M : mid_radius (v0 (pos p)) (v0 (vel p)) 0 dt = v0 (pos p) + v0 (vel p) * (dt / 2)) by (unfold mid_radius; rewrite !Rmult_0_l, Rplus_0_r; apply sqrt_square; lra). rewrite M.
  split; [unfold line_radius, line_x, line_y; f_equal; field|].
  match goal with |- context [0 * (dt / 2) / ?d] => replace (0 * (dt / 2) / d) with 0 by (unfold Rdiv; ring) end. replace (1 - 0 * 0) with 1 by ring. rewrite sqrt_1. ring.
Qed.
Print Assumptions C85_meridional_partial.

(** False otherwise: for every particle that moves around the axis the new radius is too small, by the given amount of its square: for small steps
    half of the gain from moving sideways is lost. *)
Theorem C85_short_refuted : forall g dt p, no_wall g dt p -> dt <> 0 -> v1 (vel p) <> 0 ->
  let p' := move g dt p in let r := v0 (pos p) in let r1 := line_radius r (v0 (vel p)) (v1 (vel p)) (dt / 2) in
  let true_r := line_radius r (v0 (vel p)) (v1 (vel p)) dt in
  true_r * true_r - v0 (pos p') * v0 (pos p') = (v1 (vel p) * dt) * (v1 (vel p) * dt) / 2 * ((r1 + r) / (r1 + r + v0 (vel p) * (dt / 2))) /\
  v0 (pos p') < true_r.
Proof.
  intros g dt p (R0 & Y & X0 & HX & HZ) DT V p' r r1 true_r. destruct (free_move g dt p Y HX HZ) as (E0 & _ & _ & _).
  destruct (deficit r (v0 (vel p)) (v1 (vel p)) dt R0 X0) as (D & P). fold true_r in D. change (mid_radius r (v0 (vel p)) (v1 (vel p)) dt) with r1 in D, P.
  unfold p'. rewrite E0. change (mid_radius (v0 (pos p)) (v0 (vel p)) (v1 (vel p)) dt) with r1. rewrite sqrt_sum_sq. rewrite D. split; [clear D P; set (k := (r1 + r) / (r1 + r + v0 (vel p) * (dt / 2))); field|].
  set (y := v1 (vel p) * (dt / 2)) in *. assert (Y2 : 0 < y * y) by (assert (y <> 0) by (unfold y; apply Rmult_integral_contrapositive; split; [exact V|lra]); nra).
  assert (T0 : 0 <= true_r) by apply sqrt_pos. set (x := r1 + v0 (vel p) * (dt / 2)) in *.
  assert (L : x * x + y * y < true_r * true_r) by (assert (0 < 2 * (y * y) * ((r1 + r) / (r1 + r + v0 (vel p) * (dt / 2)))) by (apply Rmult_lt_0_compat; lra); lra).
  rewrite <- (sqrt_square true_r T0). apply sqrt_lt_1_alt. split; [nra|exact L].
Qed.
Print Assumptions C85_short_refuted.

(** A particle that moves exactly around the axis flies outwards on the straight line; in the program it gets a velocity towards the axis. *)
Theorem C85_inward_refuted : forall g dt p, no_wall g dt p -> 0 < dt -> v0 (vel p) = 0 -> v1 (vel p) <> 0 ->
  0 < line_outward (v0 (pos p)) (v0 (vel p)) (v1 (vel p)) dt /\ v0 (vel (move g dt p)) < 0.
Proof.
  intros g dt p (R0 & Y & X0 & HX & HZ) DT V0 V. destruct (free_move g dt p Y HX HZ) as (_ & _ & _ & EV). unfold line_x in X0. rewrite V0 in *. rewrite Rmult_0_l, Rplus_0_r in X0. split.
  - unfold line_outward, line_radius, line_x, line_y. rewrite Rmult_0_l, Rmult_0_l, Rplus_0_r, Rplus_0_l. assert (VV : 0 < v1 (vel p) * v1 (vel p)) by nra.
    apply Rmult_lt_0_compat; [rewrite <- Rmult_assoc; now apply Rmult_lt_0_compat|]. apply Rinv_0_lt_compat, sqrt_lt_R0. assert (Q := Rle_0_sqr (v1 (vel p) * dt)). unfold Rsqr in Q. nra.
  - rewrite EV, Rmult_0_r. set (x := mid_radius _ _ _ _ + _). set (y := v1 (vel p) * (dt / 2)).
    assert (S : 0 < sqrt (x * x + y * y)).
    { apply sqrt_lt_R0. assert (VV : 0 < v1 (vel p) * v1 (vel p)) by nra. assert (0 < y * y) by (unfold y; replace (v1 (vel p) * (dt / 2) * (v1 (vel p) * (dt / 2))) with (v1 (vel p) * v1 (vel p) * (dt / 2 * (dt / 2))) by ring; apply Rmult_lt_0_compat; nra). nra. }
    assert (Z : 0 < y / sqrt (x * x + y * y) * v1 (vel p)); [|lra].
    replace (y / sqrt (x * x + y * y) * v1 (vel p)) with (v1 (vel p) * v1 (vel p) * (dt / 2) * / sqrt (x * x + y * y)) by (unfold y, Rdiv; ring).
    assert (VV : 0 < v1 (vel p) * v1 (vel p)) by nra. apply Rmult_lt_0_compat; [apply Rmult_lt_0_compat; [exact VV|lra]|now apply Rinv_0_lt_compat].
Qed.
Print Assumptions C85_inward_refuted.

(** And so on for ever: however small the steps, from the first step on until it touches a wall that particle moves towards the axis, while on the
    straight line it always moves away. *)
Theorem C85_inward_run_refuted : forall g dt p n, 0 < dr g -> 0 < dt -> v0 (vel p) = 0 -> v1 (vel p) <> 0 ->
  (forall k, (k <= n)%nat -> no_wall g dt (Nat.iter k (move g dt) p)) ->
  0 < line_outward (v0 (pos p)) (v0 (vel p)) (v1 (vel p)) (INR (S n) * dt) /\ v0 (vel (Nat.iter (S n) (move g dt) p)) < 0.
Proof.
  intros g dt p n G DT V0 V H. split.
  - destruct (H O (Nat.le_0_l n)) as (R0 & _ & X0 & _). cbn [Nat.iter nat_rect] in *. unfold line_x in X0. rewrite V0 in *. rewrite Rmult_0_l, Rplus_0_r in X0.
    assert (T : 0 < INR (S n) * dt) by (apply Rmult_lt_0_compat; [apply lt_0_INR; lia|exact DT]). set (t := INR (S n) * dt) in *. clearbody t.
    apply (line_outward_grows (v0 (pos p)) 0 (v1 (vel p)) t); lra.
  - induction n as [|n IH].
    + apply (C85_inward_refuted g dt p (H O (le_n O)) DT V0 V).
    + specialize (IH (fun k K => H k (Nat.le_trans _ _ _ K (Nat.le_succ_diag_r n)))). assert (N := H (S n) (le_n _)). clear H.
      change (Nat.iter (S (S n)) (move g dt) p) with (move g dt (Nat.iter (S n) (move g dt) p)). set (q := Nat.iter (S n) (move g dt) p) in *. clearbody q.
      destruct N as (R0 & Y & X0 & HX & HZ). destruct (free_move g dt q Y HX HZ) as (_ & _ & _ & EV). rewrite EV.
      apply stays_inward with dt; [|exact DT|reflexivity|exact IH]. change (mid_radius (v0 (pos q)) (v0 (vel q)) (v1 (vel q)) dt) with (line_radius (v0 (pos q)) (v0 (vel q)) (v1 (vel q)) (dt / 2)). lra.
Qed.
Print Assumptions C85_inward_run_refuted.

(** More: as long as a particle does not move towards the axis, the straight line lets its outward velocity grow, the program lets it shrink, by the
    given amount at least. The error of a step is of first order in the step, so that it does not go away with small steps. *)
Theorem C85_slow_refuted : forall g dt p, no_wall g dt p -> 0 < dt -> 0 <= v0 (vel p) -> v1 (vel p) <> 0 ->
  let p' := move g dt p in
  v0 (vel p) < line_outward (v0 (pos p)) (v0 (vel p)) (v1 (vel p)) dt /\
  v0 (vel p') <= v0 (vel p) - v1 (vel p) * v1 (vel p) * (dt / 2) / v0 (pos p').
Proof.
  intros g dt p (R0 & Y & X0 & HX & HZ) DT V0 V p'. destruct (free_move g dt p Y HX HZ) as (E0 & _ & _ & EV). split; [apply line_outward_grows; assumption|].
  unfold p'. rewrite EV, E0. set (x := mid_radius _ _ _ _ + _). set (y := v1 (vel p) * (dt / 2)). set (s := y / sqrt (x * x + y * y)).
  replace (v1 (vel p) * v1 (vel p) * (dt / 2) / sqrt (x * x + y * y)) with (s * v1 (vel p)) by (unfold s, y, Rdiv; ring).
  assert (C : sqrt (1 - s * s) <= sqrt 1) by (apply sqrt_le_1_alt; assert (Q := Rle_0_sqr s); unfold Rsqr in Q; lra). rewrite sqrt_1 in C. nra.
Qed.
Print Assumptions C85_slow_refuted.

(** The angular momentum about the axis, which the straight line keeps, in the program exactly; it grows with each step unless the particle moves
    towards the axis. *)
Theorem C85_spin_refuted : forall g dt p, no_wall g dt p -> 0 <= dr g -> 0 < dt -> v1 (vel p) <> 0 ->
  let p' := move g dt p in let r := v0 (pos p) in let r1 := line_radius r (v0 (vel p)) (v1 (vel p)) (dt / 2) in
  line_radius r (v0 (vel p)) (v1 (vel p)) dt * line_around r (v0 (vel p)) (v1 (vel p)) dt = r * v1 (vel p) /\
  v0 (pos p') * v1 (vel p') = (r1 + v0 (vel p) * dt) * v1 (vel p) /\
  (0 <= v0 (vel p) -> Rabs (r * v1 (vel p)) < Rabs (v0 (pos p') * v1 (vel p'))).
Proof.
  intros g dt p (R0 & Y & X0 & HX & HZ) G DT V p' r r1. destruct (free_move g dt p Y HX HZ) as (E0 & _ & _ & _). destruct (free_move_vel g dt p Y HX HZ) as (E1 & _).
  change (mid_radius (v0 (pos p)) (v0 (vel p)) (v1 (vel p)) dt) with r1 in E0, E1. fold p' in E0, E1. change (line_radius (v0 (pos p)) (v0 (vel p)) (v1 (vel p)) (dt / 2)) with r1 in HX.
  set (x := r1 + v0 (vel p) * (dt / 2)) in *. set (y := v1 (vel p) * (dt / 2)) in *. assert (X : 0 <= x) by lra.
  assert (YN : y <> 0) by (unfold y; apply Rmult_integral_contrapositive; split; [exact V|lra]). assert (YY : 0 < y * y) by nra.
  assert (LN : 0 < sqrt (x * x + y * y)) by (apply sqrt_lt_R0; nra).
  split.
  { apply line_momentum. apply Rgt_not_eq, sqrt_lt_R0. assert (A := Rle_0_sqr (line_x r (v0 (vel p)) dt)). unfold Rsqr in A.
    replace (line_y (v1 (vel p)) dt * line_y (v1 (vel p)) dt) with (4 * (y * y)) by (unfold line_y, y; field). lra. }
  assert (L : v0 (pos p') * v1 (vel p') = (r1 + v0 (vel p) * dt) * v1 (vel p)).
  { rewrite E1, E0, cos_of_sin by assumption. set (l := sqrt (x * x + y * y)) in *. replace (l * (y / l * v0 (vel p) + x / l * v1 (vel p))) with (y * v0 (vel p) + x * v1 (vel p)) by (field; lra). unfold x, y. field. }
  split; [exact L|]. intro V0. rewrite L, !Rabs_mult. apply Rmult_lt_compat_r; [now apply Rabs_pos_lt|]. clear L E0 E1 LN HX HZ. clearbody p'.
  assert (M : r + v0 (vel p) * (dt / 2) < r1).
  { unfold line_x in X0. fold r in X0. unfold r1, line_radius, line_x, line_y. fold y. rewrite <- (sqrt_square (r + v0 (vel p) * (dt / 2))) at 1 by lra. apply sqrt_lt_1_alt. nra. }
  fold r in R0. rewrite !Rabs_pos_eq by nra. nra.
Qed.
Print Assumptions C85_spin_refuted.

(** True: the error of the radius in one step is small of second order, unless the particle comes near the axis. *)
Theorem C85_error_partial : forall g dt p, no_wall g dt p -> 0 < v0 (pos p) -> 0 <= v0 (pos p) + v0 (vel p) * dt -> 
  let p' := move g dt p in let true_r := line_radius (v0 (pos p)) (v0 (vel p)) (v1 (vel p)) dt in
  0 < true_r -> 0 <= true_r - v0 (pos p') <= (v1 (vel p) * dt) * (v1 (vel p) * dt) / true_r.
Proof.
  intros g dt p (R0 & Y & X0 & HX & HZ) RP W p' true_r T0. destruct (free_move g dt p Y HX HZ) as (E0 & _ & _ & _).
  destruct (deficit (v0 (pos p)) (v0 (vel p)) (v1 (vel p)) dt R0 X0) as (D & P). fold true_r in D.
  assert (M : 0 <= mid_radius (v0 (pos p)) (v0 (vel p)) (v1 (vel p)) dt) by apply sqrt_pos. set (r1 := mid_radius (v0 (pos p)) (v0 (vel p)) (v1 (vel p)) dt) in *.
  set (x := r1 + v0 (vel p) * (dt / 2)) in *. set (y := v1 (vel p) * (dt / 2)) in *. set (r := v0 (pos p)) in *. unfold line_x in X0.
  assert (EP : v0 (pos p') = sqrt (x * x + y * y)) by exact E0. assert (Q : v0 (pos p') * v0 (pos p') = x * x + y * y) by (rewrite EP; apply sqrt_sum_sq).
  assert (P0 : 0 <= v0 (pos p')) by (rewrite EP; apply sqrt_pos). clearbody true_r. generalize dependent (v0 (pos p')). intros r' EP Q P0.
  assert (K : (r1 + r) / (r1 + r + v0 (vel p) * (dt / 2)) <= 2).
  { apply Rmult_le_reg_r with (r1 + r + v0 (vel p) * (dt / 2)); [lra|]. unfold Rdiv at 1. rewrite Rmult_assoc, Rinv_l, Rmult_1_r by lra. lra. }
  set (k := (r1 + r) / (r1 + r + v0 (vel p) * (dt / 2))) in *. assert (YY := Rle_0_sqr y). unfold Rsqr in YY.
  replace (v1 (vel p) * dt * (v1 (vel p) * dt)) with (4 * (y * y)) by (unfold y; field).
  assert (D' : true_r * true_r - r' * r' = 2 * (y * y) * k) by lra. assert (B : 0 <= 2 * (y * y) * k <= 4 * (y * y)) by nra.
  assert (L : 0 <= true_r - r') by nra. split; [exact L|].
  apply Rmult_le_reg_r with true_r; [exact T0|]. unfold Rdiv. rewrite Rmult_assoc, Rinv_l, Rmult_1_r by lra. nra.
Qed.
Print Assumptions C85_error_partial.

(** True over any number of steps: the height; and the radius, if the particle does not move around the axis. *)
Theorem C85_run_partial : forall g dt p n, 0 <= dr g -> (forall k, (k < n)%nat -> no_wall g dt (Nat.iter k (move g dt) p)) ->
  let p' := Nat.iter n (move g dt) p in
  v2 (pos p') = line_height (v2 (pos p)) (v2 (vel p)) (INR n * dt) /\ v2 (vel p') = v2 (vel p) /\
  (0 <= v0 (pos p) -> v1 (vel p) = 0 -> v0 (pos p') = line_radius (v0 (pos p)) (v0 (vel p)) 0 (INR n * dt) /\ 0 <= v0 (pos p) + v0 (vel p) * (INR n * dt) /\
     v0 (vel p') = v0 (vel p) /\ v1 (vel p') = 0).
Proof.
  intros g dt p n G. induction n as [|n IH]; intros H p'.
  - unfold p'. cbn [Nat.iter nat_rect INR]. unfold line_height, line_radius, line_x, line_y. rewrite !Rmult_0_l, !Rmult_0_r, !Rplus_0_r. split; [reflexivity|]. split; [reflexivity|].
    intros R0 V. rewrite sqrt_square by exact R0. auto.
  - destruct (IH (fun k K => H k (Nat.lt_lt_succ_r _ _ K))) as (Z & VZ & A). clear IH. assert (N := H n (Nat.lt_succ_diag_r n)). clear H.
    assert (E : p' = move g dt (Nat.iter n (move g dt) p)) by reflexivity. rewrite E. clear p' E. set (q := Nat.iter n (move g dt) p) in *. clearbody q.
    destruct (C85_meridional_partial g dt q N) as (MZ & MR). destruct N as (R0 & Y & X0 & HX & HZ). destruct (free_move_vel g dt q Y HX HZ) as (W1 & W2).
    rewrite S_INR. split; [rewrite MZ, Z, VZ; unfold line_height; ring|]. split; [rewrite W2; exact VZ|].
    intros RP V. destruct (A RP V) as (AR & AP & AV & AW). destruct (MR AW) as (B0 & B1). rewrite W1, B0, B1, AW, AR, AV. clear W1 B0 B1 MR MZ HZ.
    assert (L : line_radius (v0 (pos p)) (v0 (vel p)) 0 (INR n * dt) = v0 (pos p) + v0 (vel p) * (INR n * dt)).
    { unfold line_radius, line_x, line_y. rewrite !Rmult_0_l, Rplus_0_r. apply sqrt_square. exact AP. }
    rewrite L. rewrite AR, AV, L in X0. unfold line_x in X0. rewrite AR, AV, AW, L in HX. destruct HX as (HX & _). unfold line_radius at 1 in HX. unfold line_x, line_y in HX.
    rewrite !Rmult_0_l, Rplus_0_r, sqrt_square in HX by lra.
    split; [unfold line_radius, line_x, line_y; f_equal; ring|]. split; [lra|]. split; [reflexivity|]. unfold Rdiv. ring.
Qed.
Print Assumptions C85_run_partial.
(** ** A case that meets the hypotheses: a tube of ten cells of 1 m, a particle at 5 m that goes around at 3 m/s; one second *)
Example C85_hypotheses_met : let g := Geom 11 11 10 10 in let p := Phase (V3 5 0 5) (V3 0 3 1) 0 0 0 in
  no_wall g 1 p /\ v0 (vel p) = 0 /\ v1 (vel p) <> 0.
Proof.
  cbv zeta. split; [|split; [reflexivity|cbn; lra]]. unfold no_wall, line_x, line_radius, line_height, line_x, line_y, dr, dz. cbn [pos vel v0 v1 v2 n_r n_z r_size z_size]. change (11 - 1)%Z with 10%Z.
  split; [lra|]. split; [reflexivity|]. split; [lra|]. split; [|split; lra].
  assert (L : 5 <= sqrt ((5 + 0 * (1 / 2)) * (5 + 0 * (1 / 2)) + 3 * (1 / 2) * (3 * (1 / 2)))) by (rewrite <- (sqrt_square 5) at 1 by lra; apply sqrt_le_1_alt; lra).
  assert (U : sqrt ((5 + 0 * (1 / 2)) * (5 + 0 * (1 / 2)) + 3 * (1 / 2) * (3 * (1 / 2))) <= 6) by (rewrite <- (sqrt_square 6) by lra; apply sqrt_le_1_alt; lra).
  lra.
Qed.

Example C85_no_force_hypotheses_met : subluminal (V3 0 3 1) /\ not_tiny (V3 0 3 1).
Proof.
  split; [unfold subluminal, norm2, LIGHT_SPEED; cbn [v0 v1 v2]; lra|]. unfold not_tiny, MNZL. cbn [v0 v1 v2].
  split; [left; reflexivity|]. split; right; rewrite Rabs_pos_eq; lra.
Qed.
(** Five steps of a tenth of a second outwards and along the axis *)
Example C85_run_hypotheses_met : let g := Geom 11 11 10 10 in let p := Phase (V3 5 0 5) (V3 1 0 1) 0 0 0 in
  0 <= dr g /\ 0 <= v0 (pos p) /\ v1 (vel p) = 0 /\ forall k, (k < 5)%nat -> no_wall g (/ 10) (Nat.iter k (move g (/ 10)) p).
Proof.
  cbv zeta. set (g := Geom 11 11 10 10). set (p := Phase (V3 5 0 5) (V3 1 0 1) 0 0 0).
  assert (DR : dr g = 1) by (unfold dr, g; cbn [n_r r_size]; change (11 - 1)%Z with 10%Z; lra). assert (DZ : dz g = 1) by (unfold dz, g; cbn [n_z z_size]; change (11 - 1)%Z with 10%Z; lra).
  split; [lra|]. split; [cbn; lra|]. split; [reflexivity|].
  assert (A : forall q, v1 (pos q) = 0 -> v1 (vel q) = 0 -> v0 (vel q) = 1 -> v2 (vel q) = 1 -> 5 <= v0 (pos q) <= 6 -> 5 <= v2 (pos q) <= 6 -> no_wall g (/ 10) q).
  { intros q Y W V VZ R Z. unfold no_wall, line_radius, line_height, line_x, line_y. rewrite DR, DZ, W, V, VZ, !Rmult_0_l, Rplus_0_r, sqrt_square by lra. unfold g. cbn [r_size z_size]. repeat split; lra. }
  assert (I : forall k, (k <= 5)%nat -> let q := Nat.iter k (move g (/ 10)) p in
    v1 (pos q) = 0 /\ v1 (vel q) = 0 /\ v0 (vel q) = 1 /\ v2 (vel q) = 1 /\ v0 (pos q) = 5 + INR k / 10 /\ v2 (pos q) = 5 + INR k / 10).
  { induction k as [|k IH]; intros K; cbv zeta.
    - unfold p. cbn [Nat.iter nat_rect pos vel v0 v1 v2 INR]. repeat split; lra.
    - specialize (IH ltac:(lia)). cbv zeta in IH. change (Nat.iter (S k) (move g (/ 10)) p) with (move g (/ 10) (Nat.iter k (move g (/ 10)) p)). set (q := Nat.iter k (move g (/ 10)) p) in *. clearbody q.
      destruct IH as (Y & W & V & VZ & R & Z). assert (KR : 0 <= INR k <= 5) by (split; [apply pos_INR|replace 5 with (INR 5) by (cbn; lra); apply le_INR; lia]).
      assert (N : no_wall g (/ 10) q) by (apply A; try assumption; lra). destruct (C85_meridional_partial g (/ 10) q N) as (MZ & MR). destruct (MR W) as (M0 & M1).
      destruct N as (_ & _ & _ & HX & HZ). destruct (free_move g (/ 10) q Y HX HZ) as (_ & EY & _ & _). destruct (free_move_vel g (/ 10) q Y HX HZ) as (W1 & W2).
      rewrite S_INR, EY, W1, W2, M0, M1, MZ, W, V, VZ, R, Z. clear - KR.
      split; [reflexivity|]. split; [unfold Rdiv; ring|]. split; [reflexivity|]. split; [reflexivity|]. unfold line_radius, line_height, line_x, line_y.
      split; [rewrite !Rmult_0_l, Rplus_0_r, sqrt_square by lra|]; lra. }
  intros k K. destruct (I k ltac:(lia)) as (Y & W & V & VZ & R & Z). assert (KR : 0 <= INR k <= 5) by (split; [apply pos_INR|replace 5 with (INR 5) by (cbn; lra); apply le_INR; lia]).
  apply A; try assumption; lra.
Qed.

(** Two steps of a tenth of a second of the particle that goes around *)
Example C85_inward_run_hypotheses_met : let g := Geom 11 11 10 10 in let p := Phase (V3 5 0 5) (V3 0 3 1) 0 0 0 in
  0 < dr g /\ v0 (vel p) = 0 /\ v1 (vel p) <> 0 /\ forall k, (k <= 1)%nat -> no_wall g (/ 10) (Nat.iter k (move g (/ 10)) p).
Proof.
  cbv zeta. set (g := Geom 11 11 10 10). set (p := Phase (V3 5 0 5) (V3 0 3 1) 0 0 0).
  assert (DR : dr g = 1) by (unfold dr, g; cbn [n_r r_size]; change (11 - 1)%Z with 10%Z; lra). assert (DZ : dz g = 1) by (unfold dz, g; cbn [n_z z_size]; change (11 - 1)%Z with 10%Z; lra).
  split; [lra|]. split; [reflexivity|]. split; [cbn; lra|].
  assert (S6 : forall a b, 4 <= a <= 5.5 -> -1 <= b <= 1 -> a <= sqrt (a * a + b * b) <= 6).
  { intros a b A B. split; [rewrite <- (sqrt_square a) at 1 by lra|rewrite <- (sqrt_square 6) by lra]; apply sqrt_le_1_alt; nra. }
  assert (A : forall q, v1 (pos q) = 0 -> -1 <= v0 (vel q) <= 1 -> -4 <= v1 (vel q) <= 4 -> v2 (vel q) = 1 -> 5 <= v0 (pos q) <= 5.3 -> 5 <= v2 (pos q) <= 6 -> no_wall g (/ 10) q).
  { intros q Y V W VZ R Z. unfold no_wall, line_radius, line_height, line_x, line_y. rewrite DR, DZ, VZ. unfold g. cbn [r_size z_size].
    assert (B := S6 (v0 (pos q) + v0 (vel q) * (/ 10 / 2)) (v1 (vel q) * (/ 10 / 2)) ltac:(lra) ltac:(lra)). lra. }
  assert (P0 : no_wall g (/ 10) p) by (apply A; unfold p; cbn [pos vel v0 v1 v2]; lra).
  intros k K. destruct k as [|[|k]]; [exact P0| |lia]. change (Nat.iter 1 (move g (/ 10)) p) with (move g (/ 10) p).
  destruct P0 as (_ & Y & _ & HX & HZ). destruct (free_move g (/ 10) p Y HX HZ) as (E0 & EY & E2 & EV). destruct (free_move_vel g (/ 10) p Y HX HZ) as (W1 & W2).
  unfold mid_radius, line_height, p in E0, E2, EV, W1, W2. cbn [pos vel v0 v1 v2] in E0, E2, EV, W1, W2. fold p in E0, E2, EV, W1, W2.
  assert (M : 5 <= sqrt ((5 + 0 * (/ 10 / 2)) * (5 + 0 * (/ 10 / 2)) + 3 * (/ 10 / 2) * (3 * (/ 10 / 2))) <= 5.1).
  { split; [rewrite <- (sqrt_square 5) at 1 by lra|rewrite <- (sqrt_square 5.1) by lra]; apply sqrt_le_1_alt; lra. }
  set (m := sqrt ((5 + 0 * (/ 10 / 2)) * (5 + 0 * (/ 10 / 2)) + 3 * (/ 10 / 2) * (3 * (/ 10 / 2)))) in *. clearbody m.
  assert (L : 5 <= sqrt ((m + 0 * (/ 10 / 2)) * (m + 0 * (/ 10 / 2)) + 3 * (/ 10 / 2) * (3 * (/ 10 / 2))) <= 5.3).
  { split; [rewrite <- (sqrt_square 5) at 1 by lra|rewrite <- (sqrt_square 5.3) by lra]; apply sqrt_le_1_alt; nra. }
  set (l := sqrt ((m + 0 * (/ 10 / 2)) * (m + 0 * (/ 10 / 2)) + 3 * (/ 10 / 2) * (3 * (/ 10 / 2)))) in *. clearbody l.
  assert (I : 0 < / l <= / 5) by (split; [apply Rinv_0_lt_compat|apply Rinv_le_contravar]; lra).
  assert (S : 0 <= 3 * (/ 10 / 2) / l <= 0.1) by (unfold Rdiv at 1 3; lra). set (s := 3 * (/ 10 / 2) / l) in *. clearbody s.
  assert (C : sqrt (1 - s * s) <= sqrt 1) by (apply sqrt_le_1_alt; nra). rewrite sqrt_1 in C. assert (C0 := sqrt_pos (1 - s * s)).
  apply A; [exact EY| | |exact W2| |]; try rewrite EV; try rewrite W1; try rewrite E0; try rewrite E2; lra.
Qed.
