(** Properties C15-C18: motion of a particle, walls, grid accesses, interpolation of fields. *)
From Coq Require Import Reals ZArith Lra Lia List Psatz.
From Verif.Lib Require Import RAux Grid Outcome Par.
From Verif.Model Require Import Constants Geometry ChargeDeposit CurrentDeposit Fields Pusher Motion Interp.
From Verif.Spec Require Import Dynamics Domain Sample.
From Verif.Proof Require Import GeometryP ChargeP CurrentP CurrentP4 FieldsP MaxwellP PusherP MotionP InterpP.
Import ListNotations.
Local Open Scope R_scope.

(** C15. Partial: the full claim is that after every step the particle is at least half a cell
    from every wall if it moves at most one cell per step. That is false, see
    C15_refuted. What holds: when the particle moves at most
    2 step_limit = dr (1 - dr / (4 R)) per step, then after any number of steps, whatever
    velocities the pusher sets, it is at least half a cell from the axis and both end walls, it
    passes the reflecting radius by no more than the effect of one sideways half step, and in
    the middle and at the end of the step it is on the grid. *)
Theorem C15_stays_in_domain_partial : forall g dt s vs p,
  geom_ok g -> (3 <= n_r g)%Z -> (3 <= n_z g)%Z -> 0 < dt ->
  0 <= s <= dr g / 2 * (1 - dr g / (4 * r_size g)) ->
  Forall (slow g dt s) vs -> v1 (pos p) = 0 -> inside_domain g (v0 (pos p)) (v2 (pos p)) ->
  let p' := motion_run g dt vs p in
  nearly_inside g s p' /\ on_grid g (v0 (pos p')) (v2 (pos p')) /\
  (forall v, slow g dt s v ->
     let h := first_half dt (set_vel v p') in on_grid g (v0 (pos h)) (v2 (pos h))).
Proof.
  intros g dt s vs p Hg N1 N2 Ht Hs Hvs Y Hp p'.
  assert (I : nearly_inside g s p') by (apply run_nearly_inside; auto; now apply inside_nearly).
  split; [exact I|]. split.
  - destruct (nearly_inside_upper g s p' Hg Hs I). unfold on_grid. lra.
  - intros v Hv h. unfold h. rewrite (first_half_eq dt p' v (proj1 I)). cbn [pos v0 v2].
    destruct (half_bounds g dt s p' v Hg Ht Hs Hv I) as (A & B & _). unfold on_grid. lra.
Qed.
Print Assumptions C15_stays_in_domain_partial.

(** One step of a particle: pusher, then motion. *)
Definition particle_step (g : geom) (q m : R) (dt : R) (e h : vec3) (p : phase) : outcome phase :=
  bind (push BorisRelativistic dt q m e h (vel p)) (fun v => Ok (move g dt (set_vel v p))).

Fixpoint particle_run (g : geom) (q m dt : R) (fields : list (vec3 * vec3)) (p : phase) : outcome phase :=
  match fields with
  | [] => Ok p
  | (e, h) :: rest => bind (particle_step g q m dt e h p) (particle_run g q m dt rest)
  end.

(** C15 with the relativistic pusher: no assumption on velocities is left; any number of steps
    in any fields, if c dt is below the limit. *)
Theorem C15_relativistic_particle_partial : forall g q m dt fields p,
  geom_ok g -> (3 <= n_r g)%Z -> (3 <= n_z g)%Z -> 0 < dt ->
  LIGHT_SPEED * dt <= dr g * (1 - dr g / (4 * r_size g)) -> LIGHT_SPEED * dt < dz g ->
  subluminal (vel p) -> v1 (pos p) = 0 -> inside_domain g (v0 (pos p)) (v2 (pos p)) ->
  exists p', particle_run g q m dt fields p = Ok p' /\ subluminal (vel p') /\
    on_grid g (v0 (pos p')) (v2 (pos p')) /\ dr g / 2 <= v0 (pos p') /\
    dz g / 2 <= v2 (pos p') <= z_size g - dz g / 2.
Proof.
  intros g q m dt fields p Hg N1 N2 Ht L1 L2 Hv Y Hp.
  assert (S : 0 <= step_limit g <= step_limit g).
  { assert (A := limit_two_fifths g Hg N1). assert (D := dr_pos g Hg). lra. }
  assert (I0 := inside_nearly g (step_limit g) p Y Hg Hp). clear Y Hp.
  assert (L1' : LIGHT_SPEED * dt <= 2 * step_limit g) by (unfold step_limit; lra).
  revert p Hv I0. induction fields as [|[e h] rest IH]; intros p Hv I.
  - exists p. destruct (nearly_inside_upper g (step_limit g) p Hg S I).
    destruct I as (_ & R1 & _ & Z). unfold on_grid. repeat match goal with |- _ /\ _ => split end; try tauto; lra.
  - destruct (boris_rel_subluminal dt q m e h (vel p)) as (v & Pv & Sv); [unfold subluminal in Hv; lra|].
    cbn [particle_run]. unfold particle_step at 1. cbn [push]. rewrite Pv. cbn [bind].
    assert (Sl : slow g dt (step_limit g) v) by (unfold subluminal in Sv; apply speed_slow; lra).
    apply IH.
    + unfold subluminal. rewrite (move_speed g dt (step_limit g)) by auto. exact Sv.
    + apply (nearly_inside_pos g _ (second_half g dt (first_half dt (set_vel v p)))); [symmetry; apply move_pos|].
      now apply step_nearly_inside.
Qed.
Print Assumptions C15_relativistic_particle_partial.

(** A particle in the sample grid (dr = dz = 1, R = 8, Z = 16) near the outer wall. *)
Definition sample_particle : phase := Phase (V3 (187 / 25) 0 8) (V3 0 0 0) 0 0 0.

Lemma sample_particle_inside :
  v1 (pos sample_particle) = 0 /\ inside_domain sample_geom (v0 (pos sample_particle)) (v2 (pos sample_particle)).
Proof. unfold inside_domain. rewrite sample_dr, sample_dz. cbn. lra. Qed.

Example C15_hypotheses_met :
  geom_ok sample_geom /\ (3 <= n_r sample_geom)%Z /\ (3 <= n_z sample_geom)%Z /\
  0 <= 2 / 5 <= dr sample_geom / 2 * (1 - dr sample_geom / (4 * r_size sample_geom)) /\
  Forall (slow sample_geom 1 (2 / 5)) [V3 (1 / 2) (3 / 5) (9 / 10); V3 (- 3 / 5) (1 / 2) (- 1 / 2)] /\
  v1 (pos sample_particle) = 0 /\
  inside_domain sample_geom (v0 (pos sample_particle)) (v2 (pos sample_particle)).
Proof.
  assert (A := sample_particle_inside). split; [apply sample_geom_ok|]. rewrite sample_dr. cbn [r_size n_r n_z sample_geom].
  split; [lia|]. split; [lia|]. split; [lra|]. split; [|exact A].
  apply Forall_cons; [|apply Forall_cons; [|apply Forall_nil]]; unfold slow; rewrite sample_dz; cbn [v0 v1 v2];
  (split; [lra|unfold Rabs; destruct (Rcase_abs _); lra]).
Qed.

Example C15_relativistic_hypotheses_met : exists dt, 0 < dt /\
  LIGHT_SPEED * dt <= dr sample_geom * (1 - dr sample_geom / (4 * r_size sample_geom)) /\
  LIGHT_SPEED * dt < dz sample_geom /\ subluminal (vel sample_particle).
Proof.
  exists (9 / 10 / LIGHT_SPEED). rewrite sample_dr, sample_dz. unfold subluminal, norm2, LIGHT_SPEED. cbn [vel sample_particle v0 v1 v2 r_size sample_geom]. lra.
Qed.

(** C15 is false as stated: a particle that starts inside the domain and moves one cell in a
    step ends closer than half a cell to the outer wall ... *)
Lemma witness_step : pos (move sample_geom 1 (set_vel (V3 0 1 0) sample_particle)) =
  V3 (sqrt (564504 / 10000)) 0 8.
Proof.
  assert (Q : sqrt (562004 / 10000) * sqrt (562004 / 10000) = 562004 / 10000) by (apply sqrt_sqrt; lra).
  assert (Q0 := sqrt_pos (562004 / 10000)). set (r := sqrt (562004 / 10000)) in *.
  assert (r < 75 / 10) by nra. assert (7 < r) by nra.
  rewrite move_pos, (first_half_eq 1 sample_particle (V3 0 1 0) eq_refl).
  assert (HR : half_r 1 sample_particle (V3 0 1 0) = r).
  { unfold half_r, r. cbn [pos sample_particle v0 v1 v2]. f_equal. field. }
  rewrite HR. cbn [pos sample_particle v0 v1 v2].
  replace (8 + 0 * (1 / 2)) with 8 by field.
  unfold second_half. unfold half_step_pos at 1. cbn [pos vel v0 v1 v2 r_old z_old sin_theta].
  replace (r + 0 * (1 / 2)) with r by field. replace (0 + 1 * (1 / 2)) with (1 / 2) by field.
  replace (8 + 0 * (1 / 2)) with 8 by field.
  unfold reflection. rewrite sample_dr, sample_dz. cbn [pos vel v0 v1 v2 r_size z_size sample_geom].
  unfold reflect_above.
  destruct (Rlt_dec (8 - 1 / 2) r); [lra|]. destruct (Rlt_dec (16 - 1 / 2) 8); [lra|].
  unfold reflect_below.
  destruct (Rlt_dec r (1 / 2)); [lra|]. destruct (Rlt_dec 8 (1 / 2)); [lra|].
  unfold back_position_to_rz. cbn [pos v0 v1 v2]. f_equal. f_equal. lra.
Qed.

Theorem C15_refuted : exists g dt p v,
  geom_ok g /\ (3 <= n_r g)%Z /\ (3 <= n_z g)%Z /\ 0 < dt /\
  v1 (pos p) = 0 /\ inside_domain g (v0 (pos p)) (v2 (pos p)) /\
  norm2 v * (dt * dt) <= dr g * dr g /\ norm2 v * (dt * dt) <= dz g * dz g /\
  let p' := move g dt (set_vel v p) in ~ inside_domain g (v0 (pos p')) (v2 (pos p')).
Proof.
  exists sample_geom, 1, sample_particle, (V3 0 1 0). cbv zeta. rewrite witness_step. cbn [v0 v2].
  destruct sample_particle_inside as (A & B). split; [apply sample_geom_ok|]. unfold norm2, inside_domain in *. rewrite sample_dr, sample_dz in *.
  cbn in *. repeat match goal with |- _ /\ _ => split end; try lia; try lra.
  intros ((_ & H) & _). assert (Q : sqrt (564504 / 10000) * sqrt (564504 / 10000) = 564504 / 10000) by (apply sqrt_sqrt; lra).
  assert (Q0 := sqrt_pos (564504 / 10000)). nra.
Qed.
Print Assumptions C15_refuted.

(** ... and in the next step it leaves the grid altogether. *)
Theorem C15_leaves_grid_refuted : exists g dt p v1' v2',
  geom_ok g /\ (3 <= n_r g)%Z /\ (3 <= n_z g)%Z /\ 0 < dt /\
  v1 (pos p) = 0 /\ inside_domain g (v0 (pos p)) (v2 (pos p)) /\
  norm2 v1' * (dt * dt) <= dr g * dr g /\ norm2 v1' * (dt * dt) <= dz g * dz g /\
  norm2 v2' * (dt * dt) <= dr g * dr g /\ norm2 v2' * (dt * dt) <= dz g * dz g /\
  let h := first_half dt (set_vel v2' (move g dt (set_vel v1' p))) in
  r_size g < v0 (pos h) /\
  (* the azimuthal current of this particle is written outside the array *)
  forall q, ~ Forall (jinside g) (azimuthal_single g q (v1 v2') (v0 (pos h)) (v2 (pos h))).
Proof.
  exists sample_geom, 1, sample_particle, (V3 0 1 0), (V3 1 0 0).
  destruct sample_particle_inside as (A & B). split; [apply sample_geom_ok|].
  set (p1 := move sample_geom 1 (set_vel (V3 0 1 0) sample_particle)).
  assert (P : pos p1 = V3 (sqrt (564504 / 10000)) 0 8) by apply witness_step.
  assert (Q : sqrt (564504 / 10000) * sqrt (564504 / 10000) = 564504 / 10000) by (apply sqrt_sqrt; lra).
  assert (Q0 := sqrt_pos (564504 / 10000)). set (r := sqrt (564504 / 10000)) in *.
  assert (R1 : 75 / 10 < r) by nra. assert (R2 : r < 76 / 10) by nra.
  assert (H : pos (first_half 1 (set_vel (V3 1 0 0) p1)) = V3 (r + 1 / 2) 0 8).
  { unfold first_half, back_position_to_rz, half_step_pos, dump_position_to_old, set_vel. cbn [pos vel v0 v1 v2]. rewrite P. cbn [v0 v1 v2].
    replace ((r + 1 * (1 / 2)) * (r + 1 * (1 / 2)) + (0 + 0 * (1 / 2)) * (0 + 0 * (1 / 2))) with (Rsqr (r + 1 / 2)) by (unfold Rsqr; field).
    rewrite sqrt_Rsqr by lra. f_equal; field. }
  cbv zeta. rewrite H. cbn [v0 v1 v2]. unfold norm2, inside_domain in *. rewrite sample_dr, sample_dz in *.
  cbn [r_size z_size n_r n_z sample_geom v0 v1 v2] in *. repeat match goal with |- _ /\ _ => split end; try lia; try lra.
  intros q F. unfold azimuthal_single in F. rewrite sample_dr, sample_dz in F.
  rewrite (cell_unique (r + 1 / 2) 1 8) in F by (try lia; lra).
  rewrite (cell_unique 8 1 7) in F by (try lia; lra).
  cbv zeta in F. assert (K := proj1 (Forall_forall _ _) F _ (or_intror (or_introl eq_refl))).
  unfold jinside, inc_inside, inside in K. cbn in K. lia.
Qed.
Print Assumptions C15_leaves_grid_refuted.

(** C16. The array elements read by field interpolation for a particle in the domain exist and
    have been initialised. Partial: the full claim covers every position the mover can
    produce; see C16_interpolation_refuted for those slightly beyond the reflecting radius. *)
Theorem C16_interpolation_in_bounds_partial : forall g r z x,
  geom_ok g -> (3 <= n_r g)%Z -> (3 <= n_z g)%Z -> inside_domain g r z ->
  In x (interp_reads g r z) ->
  loc_inside g x /\ In x (writes_of (concat (concat (init_field_loops g)))).
Proof.
  intros g r z x Hg N1 N2 H Hx. assert (I := interp_initialised g r z x Hg N1 N2 H Hx).
  split; [now apply init_location_inside|now apply init_written].
Qed.
Print Assumptions C16_interpolation_in_bounds_partial.

(** All depositions of a step of a particle that moves at most 4/5 of a cell per step are inside
    the arrays, for every history. *)
Theorem C16_deposits_in_bounds : forall g dt s vs v p q,
  geom_ok g -> (3 <= n_r g)%Z -> (3 <= n_z g)%Z -> 0 < dt -> 0 <= s <= 2 / 5 * dr g ->
  Forall (slow g dt s) vs -> slow g dt s v ->
  v1 (pos p) = 0 -> inside_domain g (v0 (pos p)) (v2 (pos p)) ->
  let p' := motion_run g dt vs p in
  let h := first_half dt (set_vel v p') in
  let f := second_half g dt h in
  Forall (jinside g) (azimuthal_single g q (v1 v) (v0 (pos h)) (v2 (pos h))) /\
  Forall (jinside g) (current_single g dt q (v0 (pos f)) (v2 (pos f)) (r_old f) (z_old f)) /\
  Forall (inc_inside (n_r g) (n_z g)) (charge_weighting_single g q (v0 (pos f)) (v2 (pos f))).
Proof.
  intros g dt s vs v p q Hg N1 N2 Ht Hs Hvs Hv Y Hp p' h f.
  assert (L := limit_two_fifths g Hg N1).
  assert (Hs' : 0 <= s <= step_limit g) by lra.
  assert (I : nearly_inside g s p') by (apply run_nearly_inside; auto; now apply inside_nearly).
  assert (J : nearly_inside g s f) by (apply step_nearly_inside; auto).
  destruct (nearly_inside_upper g s p' Hg Hs' I) as (A1 & A2).
  destruct (nearly_inside_upper g s f Hg Hs' J) as (B1 & B2).
  destruct (second_half_spec g dt s p' v Hg N1 N2 Ht Hs' Hv I) as (x & y & z' & P & _ & RO & ZO & _ & _ & _ & _ & _ & _ & DZ).
  split; [|split].
  - unfold h. rewrite (first_half_eq dt p' v (proj1 I)). cbn [pos v0 v2].
    destruct (half_bounds g dt s p' v Hg Ht Hs' Hv I) as (HA & HB & _). apply azimuthal_inside; [exact Hg| |]; lra.
  - unfold f, h. rewrite RO, ZO. apply current_single_inside; auto.
    + apply (step_radius_change g dt s p' v); auto; lra.
    + rewrite P. cbn [v2]. exact DZ.
  - apply charge_weighting_inside; [exact Hg| |]; lra.
Qed.
Print Assumptions C16_deposits_in_bounds.

Example C16_hypotheses_met :
  inside_domain sample_geom (v0 (pos sample_particle)) (v2 (pos sample_particle)) /\
  In (HZH, 7, 8)%Z (interp_reads sample_geom (v0 (pos sample_particle)) (v2 (pos sample_particle))) /\
  slow sample_geom 1 (2 / 5) (V3 (1 / 2) (3 / 5) (9 / 10)) /\ 0 <= 2 / 5 <= 2 / 5 * dr sample_geom.
Proof.
  split; [apply sample_particle_inside|]. split.
  - unfold interp_reads, e_terms, h_terms, terms_half_r. rewrite sample_dr, sample_dz. cbn [sample_particle pos v0 v2].
    rewrite (cell_unique (187 / 25 - 1 / 2 * 1) 1 6) by (try lia; lra). rewrite (cell_unique 8 1 7) by (try lia; lra).
    cbn [concat app map fst corner_terms]. do 23 right. left. reflexivity.
  - rewrite sample_dr. unfold slow. rewrite sample_dz. cbn. split; [|lra]. split; [lra|]. unfold Rabs; destruct (Rcase_abs _); lra.
Qed.

(** A reachable particle for which interpolation reads past the end of the array of H_z. *)
Theorem C16_interpolation_refuted : exists g dt p v x,
  geom_ok g /\ (3 <= n_r g)%Z /\ (3 <= n_z g)%Z /\ 0 < dt /\
  v1 (pos p) = 0 /\ inside_domain g (v0 (pos p)) (v2 (pos p)) /\
  norm2 v * (dt * dt) <= dr g * dr g /\ norm2 v * (dt * dt) <= dz g * dz g /\
  let p' := move g dt (set_vel v p) in
  In x (interp_reads g (v0 (pos p')) (v2 (pos p'))) /\ ~ loc_inside g x.
Proof.
  exists sample_geom, 1, sample_particle, (V3 0 1 0), (HZH, 8, 8)%Z. cbv zeta. rewrite witness_step. cbn [v0 v2].
  destruct sample_particle_inside as (A & B). split; [apply sample_geom_ok|].
  assert (Q : sqrt (564504 / 10000) * sqrt (564504 / 10000) = 564504 / 10000) by (apply sqrt_sqrt; lra).
  assert (Q0 := sqrt_pos (564504 / 10000)). set (r := sqrt (564504 / 10000)) in *.
  assert (R1 : 75 / 10 < r) by nra. assert (R2 : r < 76 / 10) by nra.
  unfold norm2, inside_domain in *. rewrite sample_dr, sample_dz in *.
  cbn [r_size z_size n_r n_z sample_geom v0 v1 v2] in *. repeat match goal with |- _ /\ _ => split end; try lia; try lra.
  - unfold interp_reads, e_terms, h_terms, terms_half_r. rewrite sample_dr, sample_dz.
    rewrite (cell_unique (r - 1 / 2 * 1) 1 7) by (try lia; lra). rewrite (cell_unique 8 1 7) by (try lia; lra).
    cbn [concat app map fst corner_terms]. do 23 right. left. reflexivity.
  - cbn. lia.
Qed.
Print Assumptions C16_interpolation_refuted.

(** C17. Partial: the radius, z and speed are unchanged when the particle is turned back into
    the half-plane. Missing: the velocity is not that of the same particle, see below. *)
Theorem C17_radius_and_speed_partial : forall p,
  0 < v0 (pos p) * v0 (pos p) + v1 (pos p) * v1 (pos p) ->
  let p' := back_velocity_to_rz (back_position_to_rz p) in
  v1 (pos p') = 0 /\ 0 < v0 (pos p') /\
  v0 (pos p') * v0 (pos p') = v0 (pos p) * v0 (pos p) + v1 (pos p) * v1 (pos p) /\
  v2 (pos p') = v2 (pos p) /\ norm2 (vel p') = norm2 (vel p) /\ v2 (vel p') = v2 (vel p).
Proof.
  intros p H p'. assert (Q := hyp_sq (v0 (pos p)) (v1 (pos p))).
  assert (S : 0 < sqrt (v0 (pos p) * v0 (pos p) + v1 (pos p) * v1 (pos p))) by now apply sqrt_lt_R0.
  split; [reflexivity|]. split; [exact S|]. split; [exact Q|]. split; [reflexivity|]. split; [|reflexivity].
  unfold p'. rewrite back_velocity_speed; [reflexivity|]. cbn. now apply sin_bound.
Qed.
Print Assumptions C17_radius_and_speed_partial.

(** The velocity is rotated in the wrong direction: for a particle in front of the axis (x > 0)
    the angular momentum changes by exactly 2 y vx, so it is kept only when y vx = 0. *)
Theorem C17_angular_momentum_changed : forall p, 0 < v0 (pos p) ->
  let p' := back_velocity_to_rz (back_position_to_rz p) in
  angular_momentum (v0 (pos p')) (v1 (pos p')) (vel p') =
  angular_momentum (v0 (pos p)) (v1 (pos p)) (vel p) + 2 * v1 (pos p) * v0 (vel p).
Proof.
  intros p H p'. unfold p', back_velocity_to_rz, back_position_to_rz, angular_momentum; cbn.
  set (x := v0 (pos p)) in *. set (y := v1 (pos p)). set (a := v0 (vel p)). set (b := v1 (vel p)).
  assert (Q := hyp_sq x y). assert (S : 0 < sqrt (x * x + y * y)) by (apply sqrt_lt_R0; nra).
  set (f := sqrt (x * x + y * y)) in *.
  assert (C : sqrt (1 - y / f * (y / f)) = x / f).
  { replace (1 - y / f * (y / f)) with (Rsqr (x / f)); [apply sqrt_Rsqr; left; apply Rdiv_pos; lra|].
    unfold Rsqr. replace (x / f * (x / f)) with (x * x / (f * f)) by (field; lra).
    replace (y / f * (y / f)) with (y * y / (f * f)) by (field; lra).
    replace (x * x) with (f * f - y * y) by lra. field. lra. }
  rewrite C. field. lra.
Qed.
Print Assumptions C17_angular_momentum_changed.

(** A free particle, away from all walls, gains angular momentum in one step. *)
Theorem C17_angular_momentum_refuted : exists g dt p,
  geom_ok g /\ inside_domain g (v0 (pos p)) (v2 (pos p)) /\ v1 (pos p) = 0 /\ 0 < dt /\
  norm2 (vel p) * (dt * dt) <= dr g * dr g /\
  angular_momentum (v0 (pos p)) 0 (vel p) + 3 / 10 <
  angular_momentum (v0 (pos (move g dt p))) 0 (vel (move g dt p)).
Proof.
  exists sample_geom, 1, (Phase (V3 4 0 8) (V3 (1 / 2) (1 / 2) 0) 0 0 0).
  split; [apply sample_geom_ok|]. unfold inside_domain. rewrite sample_dr, sample_dz. cbn [pos vel v0 v1 v2 r_size z_size sample_geom].
  split; [lra|]. split; [reflexivity|]. split; [lra|]. split; [unfold norm2; cbn; lra|].
  set (p := Phase (V3 4 0 8) (V3 (1 / 2) (1 / 2) 0) 0 0 0).
  set (h := first_half 1 p). set (m := reflection sample_geom (half_step_pos 1 h)).
  assert (M : move sample_geom 1 p = back_velocity_to_rz (back_position_to_rz m)) by reflexivity.
  assert (Q : sqrt (18125 / 1000) * sqrt (18125 / 1000) = 18125 / 1000) by (apply sqrt_sqrt; lra).
  assert (Q0 := sqrt_pos (18125 / 1000)).
  assert (PM : pos m = V3 (sqrt (18125 / 1000) + 1 / 4) (1 / 4) 8 /\ vel m = V3 (1 / 2) (1 / 2) 0).
  { unfold m, h, first_half, back_position_to_rz, half_step_pos, dump_position_to_old, p, reflection, reflect_above, reflect_below.
    cbn [pos vel v0 v1 v2 r_size z_size sample_geom]. rewrite sample_dr, sample_dz.
    replace ((4 + 1 / 2 * (1 / 2)) * (4 + 1 / 2 * (1 / 2)) + (0 + 1 / 2 * (1 / 2)) * (0 + 1 / 2 * (1 / 2))) with (18125 / 1000) by field.
    set (r := sqrt (18125 / 1000)) in *. assert (4 < r) by nra. assert (r < 5) by nra.
    repeat (match goal with |- context [Rlt_dec ?a ?b] => destruct (Rlt_dec a b); [exfalso; lra|] end).
    cbn. split; f_equal; field. }
  destruct PM as (P1 & P2). set (r := sqrt (18125 / 1000)) in *.
  rewrite M. assert (A := C17_angular_momentum_changed m). cbv zeta in A.
  assert (E : v1 (pos (back_velocity_to_rz (back_position_to_rz m))) = 0) by reflexivity.
  rewrite E in A. rewrite A by (rewrite P1; cbn; lra). rewrite P1, P2. unfold angular_momentum; cbn. nra.
Qed.
Print Assumptions C17_angular_momentum_refuted.

Example C17_hypotheses_met : exists p, 0 < v0 (pos p) /\ 0 < v0 (pos p) * v0 (pos p) + v1 (pos p) * v1 (pos p) /\
  v1 (pos p) <> 0 /\ v0 (vel p) <> 0.
Proof. exists (Phase (V3 4 1 8) (V3 (1 / 2) (1 / 2) 0) 0 0 0). cbn. lra. Qed.

(** C18. Interpolation is linear in the grid values ... *)
Definition combine (a b : R) (m1 m2 : fmem) : fmem := fun x => a * m1 x + b * m2 x.

Theorem C18_linear : forall g a b m1 m2 r z,
  get_efield g (combine a b m1 m2) r z = vadd (vscale a (get_efield g m1 r z)) (vscale b (get_efield g m2 r z)) /\
  get_hfield g (combine a b m1 m2) r z = vadd (vscale a (get_hfield g m1 r z)) (vscale b (get_hfield g m2 r z)).
Proof.
  intros. unfold get_efield, get_hfield. change combine with lin. rewrite !weighted_sum_linear. split; reflexivity.
Qed.
Print Assumptions C18_linear.

(** ... a zero grid gives zero ... *)
Theorem C18_zero : forall g m r z, (forall x, m x = 0) ->
  get_efield g m r z = vzero /\ get_hfield g m r z = vzero.
Proof.
  intros g m r z H. unfold get_efield, get_hfield, vzero.
  rewrite !(weighted_sum_const m 0) by (intros; apply H). rewrite !Rmult_0_l. split; reflexivity.
Qed.
Print Assumptions C18_zero.

(** ... larger grid values give larger results (no weight is negative) ... *)
Theorem C18_monotone : forall g m1 m2 r z, geom_ok g -> inside_domain g r z ->
  (forall x, m1 x <= m2 x) ->
  let le v w := v0 v <= v0 w /\ v1 v <= v1 w /\ v2 v <= v2 w in
  le (get_efield g m1 r z) (get_efield g m2 r z) /\ le (get_hfield g m1 r z) (get_hfield g m2 r z).
Proof.
  intros g m1 m2 r z Hg H M le.
  assert (G : forall l, Forall (fun t : loc * R => 0 <= snd t) l -> weighted_sum m1 l <= weighted_sum m2 l).
  { intros l F. unfold weighted_sum.
    assert (K : forall s1 s2, s1 <= s2 -> fold_left (fun s t => s + m1 (fst t) * snd t) l s1 <= fold_left (fun s t => s + m2 (fst t) * snd t) l s2).
    { induction F as [|t l Ft _ IH]; intros s1 s2 S; [exact S|]. cbn [fold_left]. apply IH. specialize (M (fst t)). nra. }
    apply K. lra. }
  unfold le, get_efield, get_hfield; cbn [v0 v1 v2].
  repeat split; apply G, weights_nonneg; auto; unfold half_terms, whole_terms; tauto.
Qed.
Print Assumptions C18_monotone.

(** ... and a uniform grid gives a value whose error is at most 3 dr / (2 r - dr) of the field.
    Partial: the full claim is that the value is exact. *)
Definition uniform (m : fmem) (e h : vec3) : Prop := forall i k,
  m (ER, i, k) = v0 e /\ m (EPHI, i, k) = v1 e /\ m (EZ, i, k) = v2 e /\
  m (HRH, i, k) = v0 h /\ m (HPHIH, i, k) = v1 h /\ m (HZH, i, k) = v2 h.

Theorem C18_uniform_error_partial : forall g m e h r z, geom_ok g -> dr g < r -> uniform m e h ->
  let close x c := Rabs (x - c) <= Rabs c * (3 * dr g / (2 * r - dr g)) in
  let closev v w := close (v0 v) (v0 w) /\ close (v1 v) (v1 w) /\ close (v2 v) (v2 w) in
  closev (get_efield g m r z) e /\ closev (get_hfield g m r z) h.
Proof.
  intros g m e h r z Hg Hr U close closev.
  assert (G : forall t a c, half_terms t \/ whole_terms t -> (forall i k, m (a, i, k) = c) ->
    close (weighted_sum m (t a g r z)) c).
  { intros t a c Ht C. unfold close. rewrite (weighted_sum_const m c).
    - change (fold_left (fun s t => s + snd t) (t a g r z) 0) with (weight_total (t a g r z)).
      replace (c * weight_total (t a g r z) - c) with (c * (weight_total (t a g r z) - 1)) by ring.
      rewrite Rabs_mult. apply Rmult_le_compat_l; [apply Rabs_pos|]. now apply total_error.
    - intros x Hx. destruct Ht as [[-> | ->]|[-> | ->]]; unfold terms_half_r, terms_half_both, terms_half_z, terms_whole, corner_terms in Hx;
      cbn [In] in Hx; repeat (destruct Hx as [<-|Hx]; [apply C|]); destruct Hx. }
  unfold closev, get_efield, get_hfield; cbn [v0 v1 v2].
  repeat split; apply G; try (unfold half_terms, whole_terms; tauto); intros i k; apply (U i k).
Qed.
Print Assumptions C18_uniform_error_partial.

(** The value is wrong: a radial electric field is underestimated at every position, and a
    uniform axial field is halved one cell from the axis. *)
Theorem C18_uniform_refuted : forall g m e h r z, geom_ok g -> dr g / 2 <= r -> uniform m e h ->
  (0 < v0 e -> v0 (get_efield g m r z) < v0 e) /\
  (r = dr g -> v2 (get_efield g m r z) = v2 e / 2).
Proof.
  intros g m e h r z Hg Hr U.
  assert (G : forall t a c, half_terms t \/ whole_terms t -> (forall i k, m (a, i, k) = c) ->
    weighted_sum m (t a g r z) = c * weight_total (t a g r z)).
  { intros t a c Ht C. apply weighted_sum_const.
    intros x Hx. destruct Ht as [[-> | ->]|[-> | ->]]; unfold terms_half_r, terms_half_both, terms_half_z, terms_whole, corner_terms in Hx;
      cbn [In] in Hx; repeat (destruct Hx as [<-|Hx]; [apply C|]); destruct Hx. }
  assert (D := dr_pos g Hg). unfold get_efield; cbn [v0 v2]. split.
  - intro P. rewrite (G terms_half_r ER (v0 e)); [|unfold half_terms; tauto|intros; apply U].
    rewrite (total_half_eq terms_half_r ER g r z) by (auto; now left).
    assert (I : 0 <= IZR (cell (r - 1 / 2 * dr g) (dr g))) by (apply IZR_le, cell_nonneg).
    assert (B := total_half_bound _ _ I (half_position g r Hg Hr)). cbv zeta in *. nra.
  - intros ->. rewrite (G terms_half_z EZ (v2 e)); [|unfold whole_terms; tauto|intros; apply U].
    rewrite total_first_eq by (auto; try lra; now left). unfold total_first.
    replace (dr g / dr g) with 1 by (field; lra). field.
Qed.
Print Assumptions C18_uniform_refuted.

Definition sample_uniform : fmem := fun x => match x with
  | (ER, _, _) => 1 | (EPHI, _, _) => 2 | (EZ, _, _) => 3
  | (HRH, _, _) => 4 | (HPHIH, _, _) => 5 | (HZH, _, _) => 6 | _ => 0 end.

Example C18_hypotheses_met : geom_ok sample_geom /\ dr sample_geom < 3 /\ dr sample_geom / 2 <= 3 /\
  inside_domain sample_geom 3 5 /\ uniform sample_uniform (V3 1 2 3) (V3 4 5 6) /\
  (forall x, sample_uniform x <= 2 * sample_uniform x).
Proof.
  split; [apply sample_geom_ok|]. unfold inside_domain. rewrite sample_dr, sample_dz. cbn [r_size z_size sample_geom].
  repeat match goal with |- _ /\ _ => split end; try lra.
  - intros i k. cbn. tauto.
  - intros [[a i] k]. destruct a; cbn; lra.
Qed.
