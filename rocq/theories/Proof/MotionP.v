(** Proofs about the motion of particles: C15, C16, C17. *)
From Coq Require Import Reals ZArith Lra Lia List Psatz.
From Verif.Lib Require Import RAux Grid Outcome.
From Verif.Model Require Import Constants Geometry ChargeDeposit CurrentDeposit Pusher Motion.
From Verif.Spec Require Import Dynamics Domain.
From Verif.Proof Require Import GeometryP ChargeP CurrentP CurrentP4.
Import ListNotations.
Local Open Scope R_scope.

(** ** Plane geometry *)

Lemma hyp_sq : forall x y, sqrt (x * x + y * y) * sqrt (x * x + y * y) = x * x + y * y.
Proof. intros. apply sqrt_sqrt. nra. Qed.

Lemma hyp_nonneg : forall x y, 0 <= sqrt (x * x + y * y).
Proof. intros. apply sqrt_pos. Qed.

Lemma sq_le : forall a b, 0 <= b -> a * a <= b * b -> a <= b.
Proof. intros a b Hb H. destruct (Rle_dec a b) as [L|L]; [assumption|]. nra. Qed.

Lemma abs_sq_le : forall a b, 0 <= b -> a * a <= b * b -> Rabs a <= b.
Proof. intros a b Hb H. apply sq_le; [assumption|]. rewrite <- Rabs_mult, Rabs_right by nra. assumption. Qed.

Lemma hyp_ge_x : forall x y, x <= sqrt (x * x + y * y).
Proof. intros x y. apply sq_le; [apply hyp_nonneg|]. rewrite hyp_sq. nra. Qed.

(** Moving from (r, 0) by (a, b) with a^2 + b^2 <= s^2 changes the radius by at most s. *)
Lemma hyp_move_up : forall r a b s, 0 <= r -> 0 <= s -> a * a + b * b <= s * s ->
  sqrt ((r + a) * (r + a) + b * b) <= r + s.
Proof.
  intros r a b s Hr Hs H. apply sq_le; [lra|]. rewrite hyp_sq.
  assert (A : a <= s) by (apply sq_le; nra). nra.
Qed.

Lemma hyp_move_down : forall r a b s, 0 <= r -> 0 <= s -> a * a + b * b <= s * s ->
  r - s <= sqrt ((r + a) * (r + a) + b * b).
Proof.
  intros r a b s Hr Hs H. apply Rle_trans with (r + a); [|apply hyp_ge_x].
  assert (A : - a <= s) by (apply sq_le; nra). lra.
Qed.

(** ** The domain *)

Lemma domain_r : forall g, geom_ok g -> (3 <= n_r g)%Z -> 2 * dr g <= r_size g.
Proof.
  intros g Hg H. rewrite (r_size_dr g Hg). assert (D := dr_pos g Hg).
  assert (X : IZR 2 <= IZR (n_r g - 1)) by (apply IZR_le; lia). nra.
Qed.

Lemma domain_z : forall g, geom_ok g -> (3 <= n_z g)%Z -> 2 * dz g <= z_size g.
Proof.
  intros g Hg H. rewrite (z_size_dz g Hg). assert (D := dz_pos g Hg).
  assert (X : IZR 2 <= IZR (n_z g - 1)) by (apply IZR_le; lia). nra.
Qed.

(** The step limit: a little less than half a cell per half step. *)
Definition step_limit (g : geom) : R := dr g / 2 * (1 - dr g / (4 * r_size g)).

Lemma step_limit_lt : forall g, geom_ok g -> step_limit g < dr g / 2.
Proof.
  intros g Hg. assert (D := dr_pos g Hg). destruct Hg as (_ & _ & R0 & _). unfold step_limit.
  assert (0 < dr g / (4 * r_size g)) by (apply Rdiv_pos; lra). nra.
Qed.

(** sqrt(wall^2 + s^2) + s <= R exactly when s is below the limit. *)
Lemma limit_fits : forall g s r, geom_ok g -> 0 <= s <= step_limit g -> 0 <= r ->
  r * r <= (r_size g - dr g / 2) * (r_size g - dr g / 2) + s * s -> r + s <= r_size g.
Proof.
  intros g s r Hg [Hs0 Hs] Hr H. assert (D := dr_pos g Hg). assert (L := step_limit_lt g Hg).
  assert (R0 : 0 < r_size g) by (destruct Hg as (_ & _ & R0 & _); exact R0).
  assert (RD : dr g <= r_size g).
  { rewrite (r_size_dr g Hg). destruct Hg as (N & _).
    assert (X : IZR 1 <= IZR (n_r g - 1)) by (apply IZR_le; lia). nra. }
  set (d := dr g) in *. set (R' := r_size g) in *.
  assert (E : step_limit g * (4 * R') = d / 2 * (4 * R' - d)) by (unfold step_limit; fold d R'; field; lra).
  assert (S4 : s * (4 * R') <= d / 2 * (4 * R' - d)) by (rewrite <- E; apply Rmult_le_compat_r; lra).
  assert (r <= R' - s); [|lra]. apply sq_le; [lra|]. nra.
Qed.

(** ** One step *)

(** The displacement in half a step. *)
Lemma slow_r : forall g dt s v, slow g dt s v ->
  (v0 v * (dt / 2)) * (v0 v * (dt / 2)) + (v1 v * (dt / 2)) * (v1 v * (dt / 2)) <= s * s.
Proof. intros g dt s v [H _]. nra. Qed.

Lemma slow_z : forall g dt s v, 0 < dt -> slow g dt s v -> Rabs (v2 v * (dt / 2)) < dz g / 2.
Proof.
  intros g dt s v Ht [_ H]. rewrite Rabs_mult, (Rabs_right (dt / 2)) by lra. lra.
Qed.

Lemma abs_lt_iff : forall x y, Rabs x < y -> - y < x < y.
Proof. intros x y H. unfold Rabs in H. destruct (Rcase_abs x); lra. Qed.

Section Step.
Variables (g : geom) (dt s : R) (p : phase) (v : vec3).
Hypotheses (Hg : geom_ok g) (N1 : (3 <= n_r g)%Z) (N2 : (3 <= n_z g)%Z) (Ht : 0 < dt)
  (Hs : 0 <= s <= step_limit g) (Hv : slow g dt s v) (Hp : nearly_inside g s p).

Let r := v0 (pos p).
Let z := v2 (pos p).
Let a := v0 v * (dt / 2).
Let b := v1 v * (dt / 2).
Let c := v2 v * (dt / 2).

Definition half_r := sqrt ((r + a) * (r + a) + b * b).

Lemma first_half_eq : v1 (pos p) = 0 ->
  first_half dt (set_vel v p) = Phase (V3 half_r 0 (z + c)) v r z (b / half_r).
Proof.
  intro Y. unfold first_half, back_position_to_rz, half_step_pos, dump_position_to_old, set_vel. cbn.
  rewrite Y. replace (0 + v1 v * (dt / 2)) with b by (unfold b; ring). reflexivity.
Qed.

Lemma half_bounds : 0 < half_r <= r_size g /\ 0 <= z + c <= z_size g /\ r - s <= half_r <= r + s.
Proof.
  destruct Hp as (Y & R1 & R2 & Z1 & Z2). fold r in R1, R2. fold z in Z1, Z2.
  assert (D := dr_pos g Hg). assert (Dz := dz_pos g Hg).
  assert (AB : a * a + b * b <= s * s) by (apply (slow_r g dt s v Hv)).
  assert (C := abs_lt_iff _ _ (slow_z g dt s v Ht Hv)). fold c in C.
  assert (L := step_limit_lt g Hg).
  assert (U := hyp_move_up r a b s ltac:(lra) ltac:(lra) AB).
  assert (W := hyp_move_down r a b s ltac:(lra) ltac:(lra) AB). fold half_r in U, W.
  assert (F := limit_fits g s r Hg Hs ltac:(lra) R2).
  repeat match goal with |- _ /\ _ => split end; lra.
Qed.

(** The position before the last return to the half-plane. *)
Lemma second_half_spec : exists x y z',
  pos (second_half g dt (first_half dt (set_vel v p))) = V3 (sqrt (x * x + y * y)) 0 z' /\
  sin_theta (second_half g dt (first_half dt (set_vel v p))) = y / sqrt (x * x + y * y) /\
  r_old (second_half g dt (first_half dt (set_vel v p))) = r /\
  z_old (second_half g dt (first_half dt (set_vel v p))) = z /\
  v2 (vel (second_half g dt (first_half dt (set_vel v p)))) * v2 (vel (second_half g dt (first_half dt (set_vel v p)))) = v2 v * v2 v /\
  y = b /\ y * y <= s * s /\
  dr g / 2 <= x <= r_size g - dr g / 2 /\ dz g / 2 <= z' <= z_size g - dz g / 2 /\
  (x = half_r + a \/ (x = 2 * (r_size g - dr g / 2) - (half_r + a) /\ r_size g - dr g / 2 < half_r + a)
   \/ (x = dr g - (half_r + a) /\ half_r + a < dr g / 2)) /\
  Rabs (z' - z) < dz g.
Proof.
  destruct half_bounds as ((H1 & H2) & (Z1 & Z2) & H3 & H4).
  destruct Hp as (Y & R1 & R2 & W1 & W2). fold r in R1, R2. fold z in W1, W2.
  assert (D := dr_pos g Hg). assert (Dz := dz_pos g Hg).
  assert (AB : a * a + b * b <= s * s) by (apply (slow_r g dt s v Hv)).
  assert (C := abs_lt_iff _ _ (slow_z g dt s v Ht Hv)). fold c in C.
  assert (L := step_limit_lt g Hg).
  assert (RR := domain_r g Hg N1). assert (ZZ := domain_z g Hg N2).
  assert (A1 : a <= s) by (apply sq_le; nra). assert (A2 : - a <= s) by (apply sq_le; nra).
  rewrite (first_half_eq Y). unfold second_half, half_step_pos, reflection, reflect_above, reflect_below. cbn [pos vel v0 v1 v2 r_old z_old sin_theta].
  fold a b c. replace (0 + b) with b by ring. replace (z + c + c) with (z + 2 * c) by ring.
  set (X := half_r + a) in *.
  destruct (Rlt_dec (r_size g - dr g / 2) X) as [E1|E1].
  - destruct (Rlt_dec (2 * (r_size g - dr g / 2) - X) (dr g / 2)) as [E2|E2]; [unfold X in *; lra|].
    destruct (Rlt_dec (z_size g - dz g / 2) (z + 2 * c)) as [E3|E3];
    [destruct (Rlt_dec (2 * (z_size g - dz g / 2) - (z + 2 * c)) (dz g / 2)) as [E4|E4]; [lra|]|
     destruct (Rlt_dec (z + 2 * c) (dz g / 2)) as [E4|E4]];
    (exists (2 * (r_size g - dr g / 2) - X), b; eexists; cbn;
     repeat match goal with |- _ /\ _ => split end; try reflexivity; try ring; try lra; try nra;
     try (right; left; split; [reflexivity|assumption]); unfold X; try lra; apply Rabs_def1; lra).
  - destruct (Rlt_dec X (dr g / 2)) as [E2|E2].
    + destruct (Rlt_dec (z_size g - dz g / 2) (z + 2 * c)) as [E3|E3];
      [destruct (Rlt_dec (2 * (z_size g - dz g / 2) - (z + 2 * c)) (dz g / 2)) as [E4|E4]; [lra|]|
       destruct (Rlt_dec (z + 2 * c) (dz g / 2)) as [E4|E4]];
      (exists (2 * (dr g / 2) - X), b; eexists; cbn;
       repeat match goal with |- _ /\ _ => split end; try reflexivity; try ring; try lra; try nra;
       try (right; right; split; [field|assumption]); unfold X; try lra; apply Rabs_def1; lra).
    + destruct (Rlt_dec (z_size g - dz g / 2) (z + 2 * c)) as [E3|E3];
      [destruct (Rlt_dec (2 * (z_size g - dz g / 2) - (z + 2 * c)) (dz g / 2)) as [E4|E4]; [lra|]|
       destruct (Rlt_dec (z + 2 * c) (dz g / 2)) as [E4|E4]];
      (exists X, b; eexists; cbn;
       repeat match goal with |- _ /\ _ => split end; try reflexivity; try ring; try lra; try nra;
       try (left; reflexivity); try lra; apply Rabs_def1; lra).
Qed.

Lemma step_nearly_inside : nearly_inside g s (second_half g dt (first_half dt (set_vel v p))).
Proof.
  destruct second_half_spec as (x & y & z' & P & _ & _ & _ & _ & _ & Y & X & Z & _).
  assert (D := dr_pos g Hg).
  unfold nearly_inside. rewrite P; cbn. split; [reflexivity|].
  assert (G := hyp_ge_x x y). split; [lra|]. split; [|lra]. rewrite hyp_sq.
  assert (R0 : 0 <= x) by lra. nra.
Qed.

(** The radius changes by less than a cell when the step is at most 4/5 of a cell. *)
Lemma step_radius_change : s <= 2 / 5 * dr g ->
  Rabs (v0 (pos (second_half g dt (first_half dt (set_vel v p)))) - r) < dr g.
Proof.
  intro S5. destruct half_bounds as ((H1 & H2) & _ & H3 & H4).
  destruct Hp as (Y & R1 & R2 & W1 & W2). fold r in R1, R2.
  assert (D := dr_pos g Hg). assert (L := step_limit_lt g Hg). assert (RR := domain_r g Hg N1).
  assert (AB : a * a + b * b <= s * s) by (apply (slow_r g dt s v Hv)).
  assert (A1 : a <= s) by (apply sq_le; nra). assert (A2 : - a <= s) by (apply sq_le; nra).
  destruct second_half_spec as (x & y & z' & P & _ & _ & _ & _ & EY & YY & X & Z & K & _).
  rewrite P; cbn [v0]. assert (G := hyp_ge_x x y). assert (Q := hyp_sq x y). assert (Q0 := hyp_nonneg x y).
  set (f := sqrt (x * x + y * y)) in *. rewrite <- EY in AB.
  destruct K as [K|[[K K']|[K K']]].
  - (* no reflection *)
    assert (U : f <= half_r + s). { unfold f. rewrite K. apply hyp_move_up; [lra|lra|exact AB]. }
    assert (V : half_r - s <= f). { unfold f. rewrite K. apply hyp_move_down; [lra|lra|exact AB]. }
    apply Rabs_def1; lra.
  - (* outer wall *)
    assert (wall_ge : 3 / 2 * dr g <= r_size g - dr g / 2) by lra.
    set (w := r_size g - dr g / 2) in *.
    assert (RW : r <= w + dr g / 15).
    { apply sq_le; [lra|]. assert (s * s <= 4 / 25 * (dr g * dr g)) by nra. nra. }
    assert (U : f * f <= w * w + s * s) by (rewrite Q; nra).
    assert (F1 : f <= w + dr g / 15).
    { apply sq_le; [lra|]. assert (s * s <= 4 / 25 * (dr g * dr g)) by nra. nra. }
    assert (F2 : w - s - s <= r) by lra.
    apply Rabs_def1; [lra|].
    assert (2 * w - (r + s + s) <= f) by lra. lra.
  - (* near the axis *)
    assert (U : f <= (dr g - half_r) + s).
    { unfold f. rewrite K. replace (dr g - (half_r + a)) with ((dr g - half_r) + (- a)) by ring.
      apply hyp_move_up; [lra|lra|]. replace (- a * - a) with (a * a) by ring. exact AB. }
    apply Rabs_def1; lra.
Qed.

End Step.

(** ** Any number of steps *)

Lemma move_pos : forall g dt p, pos (move g dt p) = pos (second_half g dt (first_half dt p)).
Proof. reflexivity. Qed.

Lemma nearly_inside_pos : forall g s p p', pos p = pos p' -> nearly_inside g s p -> nearly_inside g s p'.
Proof. intros g s p p' E. unfold nearly_inside. now rewrite E. Qed.

Lemma run_nearly_inside : forall g dt s vs p,
  geom_ok g -> (3 <= n_r g)%Z -> (3 <= n_z g)%Z -> 0 < dt -> 0 <= s <= step_limit g ->
  Forall (slow g dt s) vs -> nearly_inside g s p -> nearly_inside g s (motion_run g dt vs p).
Proof.
  intros g dt s vs p Hg N1 N2 Ht Hs H. revert p. induction H as [|v vs Hv _ IH]; intros p Hp; [exact Hp|].
  unfold motion_run in *. cbn [fold_left]. apply IH.
  apply (nearly_inside_pos g s (second_half g dt (first_half dt (set_vel v p)))); [symmetry; apply move_pos|].
  now apply step_nearly_inside.
Qed.

(** ** C17: return to the half-plane *)

Lemma back_position_radius : forall p,
  let p' := back_position_to_rz p in
  v0 (pos p') * v0 (pos p') + v1 (pos p') * v1 (pos p') =
  v0 (pos p) * v0 (pos p) + v1 (pos p) * v1 (pos p) /\ 0 <= v0 (pos p') /\ v2 (pos p') = v2 (pos p).
Proof.
  intro p. cbn. split; [rewrite hyp_sq; ring|]. split; [apply hyp_nonneg|reflexivity].
Qed.

Lemma sin_bound : forall x y, 0 < x * x + y * y ->
  y / sqrt (x * x + y * y) * (y / sqrt (x * x + y * y)) <= 1.
Proof.
  intros x y H. assert (Q := hyp_sq x y). assert (P : 0 < sqrt (x * x + y * y)) by now apply sqrt_lt_R0.
  set (f := sqrt (x * x + y * y)) in *.
  replace (y / f * (y / f)) with (y * y / (f * f)) by (field; lra).
  apply Rdiv_le_1; nra.
Qed.

Lemma back_velocity_speed : forall p, sin_theta p * sin_theta p <= 1 ->
  norm2 (vel (back_velocity_to_rz p)) = norm2 (vel p).
Proof.
  intros p H. unfold norm2, back_velocity_to_rz; cbn.
  set (s := sin_theta p) in *. assert (C : sqrt (1 - s * s) * sqrt (1 - s * s) = 1 - s * s) by (apply sqrt_sqrt; lra).
  set (c := sqrt (1 - s * s)) in *.
  transitivity ((c * c + s * s) * (v0 (vel p) * v0 (vel p) + v1 (vel p) * v1 (vel p)) + v2 (vel p) * v2 (vel p)); [ring|].
  rewrite C. ring.
Qed.

Lemma second_half_speed : forall g dt p, norm2 (vel (second_half g dt p)) = norm2 (vel p).
Proof.
  intros g dt p. unfold second_half, back_position_to_rz, reflection, reflect_above, reflect_below, half_step_pos, norm2; cbn.
  repeat match goal with |- context [Rlt_dec ?a ?b] => destruct (Rlt_dec a b) end; cbn;
  repeat match goal with |- context [Rlt_dec ?a ?b] => destruct (Rlt_dec a b) end; cbn; ring.
Qed.

Lemma move_speed : forall g dt s p v,
  geom_ok g -> (3 <= n_r g)%Z -> (3 <= n_z g)%Z -> 0 < dt -> 0 <= s <= step_limit g ->
  slow g dt s v -> nearly_inside g s p ->
  norm2 (vel (move g dt (set_vel v p))) = norm2 v.
Proof.
  intros g dt s p v Hg N1 N2 Ht Hs Hv Hp. unfold move. rewrite back_velocity_speed.
  - rewrite second_half_speed. reflexivity.
  - destruct (second_half_spec g dt s p v Hg N1 N2 Ht Hs Hv Hp) as (x & y & z' & _ & S & _ & _ & _ & _ & _ & X & _).
    rewrite S. apply sin_bound. assert (D := dr_pos g Hg). nra.
Qed.

(** Speed limit and step limit *)
Lemma speed_slow : forall g dt s v, 0 < dt -> 0 <= s ->
  norm2 v <= LIGHT_SPEED * LIGHT_SPEED -> LIGHT_SPEED * dt <= 2 * s -> LIGHT_SPEED * dt < dz g ->
  slow g dt s v.
Proof.
  intros g dt s v Ht Hs Hv H1 H2. unfold norm2 in Hv. assert (C : 0 < LIGHT_SPEED) by (unfold LIGHT_SPEED; lra).
  split.
  - apply Rle_trans with (LIGHT_SPEED * LIGHT_SPEED * (dt / 2 * (dt / 2))); [apply Rmult_le_compat_r; nra|].
    replace (LIGHT_SPEED * LIGHT_SPEED * (dt / 2 * (dt / 2))) with ((LIGHT_SPEED * dt / 2) * (LIGHT_SPEED * dt / 2)) by field.
    assert (0 < LIGHT_SPEED * dt) by (apply Rmult_lt_0_compat; lra). apply Rmult_le_compat; lra.
  - assert (Rabs (v2 v) <= LIGHT_SPEED) by (apply abs_sq_le; nra).
    apply Rle_lt_trans with (LIGHT_SPEED * dt); [apply Rmult_le_compat_r; lra|assumption].
Qed.

Lemma limit_two_fifths : forall g, geom_ok g -> (3 <= n_r g)%Z -> 2 / 5 * dr g <= step_limit g.
Proof.
  intros g Hg N. assert (D := dr_pos g Hg). assert (RR := domain_r g Hg N). unfold step_limit.
  assert (dr g / (4 * r_size g) <= 1 / 8); [|nra].
  apply Rmult_le_reg_r with (4 * r_size g); [lra|]. replace (dr g / (4 * r_size g) * (4 * r_size g)) with (dr g) by (field; lra). lra.
Qed.

Lemma inside_nearly : forall g s p, v1 (pos p) = 0 -> geom_ok g -> inside_domain g (v0 (pos p)) (v2 (pos p)) -> nearly_inside g s p.
Proof.
  intros g s p Y Hg ((R1 & R2) & Z). assert (D := dr_pos g Hg). unfold nearly_inside.
  repeat match goal with |- _ /\ _ => split end; try tauto; try lra. nra.
Qed.

Lemma nearly_inside_upper : forall g s p, geom_ok g -> 0 <= s <= step_limit g -> nearly_inside g s p ->
  0 < v0 (pos p) <= r_size g /\ 0 < v2 (pos p) <= z_size g.
Proof.
  intros g s p Hg Hs (Y & R1 & R2 & Z1 & Z2). assert (D := dr_pos g Hg). assert (Dz := dz_pos g Hg).
  assert (F := limit_fits g s (v0 (pos p)) Hg Hs ltac:(lra) R2). lra.
Qed.
