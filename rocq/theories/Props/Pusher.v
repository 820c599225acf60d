(** Properties C12-C14, C40, C49: the particle pushers (src/particles.cpp lines 1025-1254). *)
From Coq Require Import Reals ZArith Lra Lia List.
From Verif.Lib Require Import RAux Outcome.
From Verif.Model Require Import Constants Pusher.
From Verif.Spec Require Import Dynamics.
From Verif.Proof Require Import PusherP VayP.
Import ListNotations.
Local Open Scope R_scope.

(** A fast particle: 80 % of the speed of light. *)
Definition sample_v : vec3 := V3 180000000 (-120000000) 106000000.

Lemma sample_v_subluminal : subluminal sample_v.
Proof. unfold subluminal, norm2, sample_v, LIGHT_SPEED; cbn. lra. Qed.

Lemma MNZL_lt_1 : MNZL < 1.
Proof.
  unfold MNZL. rewrite <- Rinv_1. apply Rinv_lt_contravar; [rewrite Rmult_1_l; apply pow_lt; lra|].
  cbn. lra.
Qed.

Lemma sample_v_not_tiny : not_tiny sample_v.
Proof.
  assert (M := MNZL_lt_1). unfold not_tiny, sample_v; cbn.
  repeat split; right; unfold Rabs; destruct (Rcase_abs _); lra.
Qed.

(** C12. The relativistic pushers never abort on a particle that is not faster than light and
    always leave it strictly slower than light, whatever the fields, charge, mass, step. *)
Theorem C12_subluminal : forall p dt q m e h v, p = BorisRelativistic \/ p = Vay ->
  norm2 v <= LIGHT_SPEED * LIGHT_SPEED ->
  exists v', push p dt q m e h v = Ok v' /\ norm2 v' < LIGHT_SPEED * LIGHT_SPEED.
Proof.
  intros p dt q m e h v [-> | ->] Hv; cbn [push]; [now apply boris_rel_subluminal|now apply vay_subluminal].
Qed.
Print Assumptions C12_subluminal.

(** C12, histories: any number of pushes with any fields. *)
Fixpoint push_run (p : pusher) (q m : R) (l : list (R * vec3 * vec3)) (v : vec3) : outcome vec3 :=
  match l with
  | [] => Ok v
  | (dt, e, h) :: rest => bind (push p dt q m e h v) (push_run p q m rest)
  end.

Theorem C12_subluminal_run : forall p q m l v, p = BorisRelativistic \/ p = Vay -> subluminal v ->
  exists v', push_run p q m l v = Ok v' /\ subluminal v'.
Proof.
  intros p q m l. induction l as [|[[dt e] h] l IH]; intros v Hp Hv; [exists v; now split|].
  destruct (C12_subluminal p dt q m e h v Hp) as (w & Hw & Sw); [unfold subluminal in Hv; lra|].
  cbn [push_run]. rewrite Hw. cbn [bind]. now apply IH.
Qed.
Print Assumptions C12_subluminal_run.

Example C12_hypotheses_met : subluminal sample_v /\ norm2 sample_v <= LIGHT_SPEED * LIGHT_SPEED.
Proof. assert (H := sample_v_subluminal). split; [exact H|unfold subluminal in H; lra]. Qed.

(** C12 fails for the default (adaptive) variant when the uninitialised flag happens to be
    false: a slow particle in a strong field becomes superluminal, and the next push aborts
    the program. *)
Theorem C12_adaptive_refuted : exists dt q m e h v v',
  subluminal v /\ 0 < dt /\ 0 < m /\
  push (BorisAdaptive false) dt q m e h v = Ok v' /\ ~ subluminal v' /\
  forall use_rel e' h', push (BorisAdaptive use_rel) dt q m e' h' v' = Exit 1.
Proof.
  exists 1, 1, 1, (V3 400000000 0 0), vzero, vzero, (V3 400000000 0 0).
  assert (Z : round_velocity vzero = vzero) by (apply round_velocity_id; repeat split; left; reflexivity).
  assert (T : not_tiny (V3 400000000 0 0)).
  { assert (M := MNZL_lt_1). unfold not_tiny; cbn. split; [|split; left; reflexivity].
    right. rewrite Rabs_right; lra. }
  repeat match goal with |- _ /\ _ => split end; try lra.
  - unfold subluminal, norm2, vzero, LIGHT_SPEED; cbn. lra.
  - cbn [push]. rewrite Z, squared_sum_norm2. unfold REL_LIMIT_POW_2, norm2 at 1; cbn [vzero v0 v1 v2].
    destruct (Rlt_dec _ _) as [L|_]; [lra|]. rewrite boris_electric_classic by lra. rewrite Z. f_equal.
    unfold vadd, vscale, vzero; cbn. f_equal; field.
  - unfold subluminal, norm2, LIGHT_SPEED; cbn. lra.
  - intros use_rel e' h'. cbn [push]. rewrite (round_velocity_id _ T), squared_sum_norm2.
    assert (N : norm2 (V3 400000000 0 0) = 400000000 * 400000000) by (unfold norm2; cbn; ring). rewrite N.
    unfold REL_LIMIT_POW_2. destruct (Rlt_dec _ _) as [_|L]; [|lra]. unfold boris_push.
    rewrite (round_velocity_id _ T), squared_sum_norm2, N, get_gamma_superluminal; [reflexivity|].
    unfold LIGHT_SPEED. lra.
Qed.
Print Assumptions C12_adaptive_refuted.

(** C12 for the adaptive variant when the relativistic branch is taken. *)
Theorem C12_adaptive_fast_partial : forall use_rel dt q m e h v,
  use_rel = true \/ REL_LIMIT_POW_2 < norm2 (round_velocity v) -> norm2 v <= LIGHT_SPEED * LIGHT_SPEED ->
  exists v', push (BorisAdaptive use_rel) dt q m e h v = Ok v' /\ subluminal v'.
Proof.
  intros use_rel dt q m e h v H Hv. cbn [push]. rewrite squared_sum_norm2.
  destruct (Rlt_dec REL_LIMIT_POW_2 (norm2 (round_velocity v))).
  - now apply boris_rel_subluminal.
  - destruct H as [-> | H]; [now apply boris_rel_subluminal|contradiction].
Qed.
Print Assumptions C12_adaptive_fast_partial.

(** C13. Without electric field the speed is unchanged (components below MNZL = 1e-15 are
    first rounded to zero; [not_tiny] says that there are none). *)
Theorem C13_magnetic_no_work : forall rel dt q m h v, (rel = true -> subluminal v) -> not_tiny v ->
  exists v', boris_push rel dt q m vzero h v = Ok v' /\ norm2 v' = norm2 v.
Proof.
  intros rel dt q m h v Hv T. destruct (boris_no_work rel dt q m h v Hv) as (v' & H & N).
  exists v'. rewrite round_velocity_id in N by assumption. now split.
Qed.
Print Assumptions C13_magnetic_no_work.

(** C13. Without fields the velocity is unchanged. *)
Theorem C13_no_fields_no_change : forall rel dt q m v, (rel = true -> subluminal v) -> not_tiny v ->
  boris_push rel dt q m vzero vzero v = Ok v.
Proof. intros. rewrite boris_free by assumption. now rewrite round_velocity_id. Qed.
Print Assumptions C13_no_fields_no_change.

(** C13 for every velocity, tiny components included: the speed never grows, and every
    component is changed by less than MNZL when there is no field. *)
Theorem C13_with_rounding : forall rel dt q m h v, (rel = true -> subluminal v) ->
  (exists v', boris_push rel dt q m vzero h v = Ok v' /\ norm2 v' <= norm2 v) /\
  (exists v', boris_push rel dt q m vzero vzero v = Ok v' /\
     Rabs (v0 v' - v0 v) < MNZL /\ Rabs (v1 v' - v1 v) < MNZL /\ Rabs (v2 v' - v2 v) < MNZL).
Proof.
  intros rel dt q m h v Hv. split.
  - destruct (boris_no_work rel dt q m h v Hv) as (v' & H & N). exists v'. split; [assumption|].
    rewrite N. apply round_velocity_norm2.
  - exists (round_velocity v). split; [now apply boris_free|]. cbn. repeat split; apply round_small_close.
Qed.
Print Assumptions C13_with_rounding.

Example C13_hypotheses_met : subluminal sample_v /\ not_tiny sample_v.
Proof. split; [apply sample_v_subluminal|apply sample_v_not_tiny]. Qed.

(** C14. Without magnetic field the momentum per mass (relativistic) or the velocity
    (classical) gains exactly q E dt / m. *)
Theorem C14_electric_relativistic : forall dt q m e v, subluminal v -> m <> 0 -> not_tiny v ->
  exists v', boris_push true dt q m e vzero v = Ok v' /\
    momentum v' = vadd (momentum v) (vscale (q * dt / m) e).
Proof.
  intros dt q m e v Hv Hm T. destruct (boris_electric_rel dt q m e v Hv Hm) as (v' & H & M).
  rewrite round_velocity_id in M by assumption. exists v'. now split.
Qed.
Print Assumptions C14_electric_relativistic.

Theorem C14_electric_classic : forall dt q m e v, m <> 0 -> not_tiny v ->
  boris_push false dt q m e vzero v = Ok (vadd v (vscale (q * dt / m) e)).
Proof. intros. rewrite boris_electric_classic by assumption. now rewrite round_velocity_id. Qed.
Print Assumptions C14_electric_classic.

(** C14. The opposite push restores the velocity. *)
Theorem C14_opposite_push_restores : forall dt q m e v v', subluminal v -> m <> 0 -> not_tiny v -> not_tiny v' ->
  boris_push true dt q m e vzero v = Ok v' ->
  boris_push true dt q m (vscale (-1) e) vzero v' = Ok v.
Proof. exact boris_reversible_rel. Qed.
Print Assumptions C14_opposite_push_restores.

(** C14 with a magnetic field: the push is the midpoint rule for the Lorentz equation
    du/dt = (q/m) (E + v x B) with B = mu0 H. *)
Theorem C14_lorentz_midpoint_relativistic : forall dt q m e h v, subluminal v -> m <> 0 -> not_tiny v ->
  exists v', boris_push true dt q m e h v = Ok v' /\
    let u := momentum v in
    let u' := momentum v' in
    let gamma := lorentz_factor (vadd u (vscale (q * dt / (2 * m)) e)) in
    vsub u' u =
    vscale (q * dt / m) (vadd e (cross (vscale (1 / (2 * gamma)) (vadd u u')) (vscale MAGN_CONST h))).
Proof.
  intros dt q m e h v Hv Hm T. destruct (boris_rel_lorentz dt q m e h v Hv Hm) as (v' & H & M).
  rewrite round_velocity_id in M by assumption. exists v'. now split.
Qed.
Print Assumptions C14_lorentz_midpoint_relativistic.

Theorem C14_lorentz_midpoint_classic : forall dt q m e h v, m <> 0 -> not_tiny v ->
  exists v', boris_push false dt q m e h v = Ok v' /\
    vsub v' v =
    vscale (q * dt / m) (vadd e (cross (vscale (1 / 2) (vadd v v')) (vscale MAGN_CONST h))).
Proof.
  intros dt q m e h v Hm T. destruct (boris_classic_lorentz dt q m e h v Hm) as (v' & H & M).
  rewrite round_velocity_id in M by assumption. exists v'. now split.
Qed.
Print Assumptions C14_lorentz_midpoint_classic.

Example C14_hypotheses_met : subluminal sample_v /\ not_tiny sample_v /\ EL_MASS <> 0.
Proof. split; [apply sample_v_subluminal|]. split; [apply sample_v_not_tiny|]. assert (H := EL_MASS_pos). lra. Qed.

(** C40. Lorentz factors: at least one, increasing with speed, inverse to each other, and the
    program aborts exactly for superluminal arguments. *)
Theorem C40_gamma : forall s, 0 <= s ->
  (s < LIGHT_SPEED * LIGHT_SPEED -> exists y, get_gamma s = Ok y /\ 1 <= y /\
     (forall s' y', s < s' < LIGHT_SPEED * LIGHT_SPEED -> get_gamma s' = Ok y' -> y < y')) /\
  (get_gamma s = Exit 1 <-> LIGHT_SPEED * LIGHT_SPEED < s) /\ get_gamma s <> UB.
Proof.
  intros s Hs. assert (P := c2_pos). set (C := LIGHT_SPEED * LIGHT_SPEED) in *.
  assert (S1 : forall x, x < C -> x / C < 1) by (intros; apply div_lt; lra).
  split; [|split].
  - intro H. exists (/ sqrt (1 - s / C)). split; [now apply get_gamma_subluminal|]. split.
    + assert (0 <= s / C) by (apply Rdiv_nonneg; lra). specialize (S1 s H).
      assert (0 < sqrt (1 - s / C)) by (apply sqrt_lt_R0; lra).
      assert (sqrt (1 - s / C) <= 1) by (apply Rle_trans with (sqrt 1); [apply sqrt_le_1_alt; lra|rewrite sqrt_1; lra]).
      rewrite <- Rinv_1 at 1. apply Rinv_le_contravar; lra.
    + intros s' y' [H1 H2] E. rewrite (get_gamma_subluminal s' H2) in E. injection E as <-.
      assert (A1 := S1 s H). assert (A2 := S1 s' H2).
      assert (D : s / C < s' / C) by (apply Rmult_lt_compat_r; [now apply Rinv_0_lt_compat|assumption]).
      fold C. apply Rinv_lt_contravar.
      * apply Rmult_lt_0_compat; apply sqrt_lt_R0; lra.
      * apply sqrt_lt_1_alt. lra.
  - split; [|apply get_gamma_superluminal]. intro E. destruct (Rle_lt_dec s C) as [L|L]; [|assumption].
    destruct (get_gamma_ok s L) as [y Hy]. rewrite Hy in E. discriminate.
  - destruct (Rle_lt_dec s C) as [L|L].
    + destruct (get_gamma_ok s L) as [y Hy]. rewrite Hy. discriminate.
    + rewrite get_gamma_superluminal by assumption. discriminate.
Qed.
Print Assumptions C40_gamma.

(** C40. Velocity to momentum and back is the identity, and conversely. *)
Theorem C40_round_trip : forall v, subluminal v ->
  exists y, get_gamma (tv_squared_sum v) = Ok y /\
    let u := tv_product v y in
    tv_product u (get_gamma_inv (tv_squared_sum u)) = v.
Proof.
  intros v Hv. rewrite squared_sum_norm2, get_gamma_subluminal by exact Hv. eexists. split; [reflexivity|].
  cbv zeta. rewrite !tv_product_scale, squared_sum_norm2. fold (momentum v).
  rewrite get_gamma_inv_factor. now apply normalised_momentum.
Qed.
Print Assumptions C40_round_trip.

Theorem C40_round_trip_momentum : forall u,
  let v := tv_product u (get_gamma_inv (tv_squared_sum u)) in
  exists y, get_gamma (tv_squared_sum v) = Ok y /\ tv_product v y = u.
Proof.
  intro u. cbv zeta. rewrite tv_product_scale, (squared_sum_norm2 u), get_gamma_inv_factor.
  rewrite squared_sum_norm2, get_gamma_subluminal by apply normalised_subluminal.
  eexists. split; [reflexivity|]. rewrite tv_product_scale. apply momentum_normalised.
Qed.
Print Assumptions C40_round_trip_momentum.

Example C40_hypotheses_met : subluminal sample_v /\ 0 <= norm2 sample_v < LIGHT_SPEED * LIGHT_SPEED.
Proof. assert (H := sample_v_subluminal). split; [exact H|]. split; [apply norm2_nonneg|exact H]. Qed.

(** C49. The electric part of the Vay pusher is exact (its result is subluminal by C12) ... *)
Theorem C49_vay_electric : forall dt q m e v, subluminal v -> m <> 0 -> not_tiny v ->
  exists v', vay_push dt q m e vzero v = Ok v' /\
    momentum v' = vadd (momentum v) (vscale (q * dt / m) e).
Proof.
  intros dt q m e v Hv Hm T. destruct (vay_electric dt q m e v Hv Hm) as (v' & H & M).
  rewrite round_velocity_id in M by assumption. exists v'. now split.
Qed.
Print Assumptions C49_vay_electric.

(** ... a perpendicular magnetic field does no work ... *)
Theorem C49_vay_perpendicular_no_work : forall dt q m a h, a * a < LIGHT_SPEED * LIGHT_SPEED ->
  a = 0 \/ MNZL <= Rabs a ->
  exists v', vay_push dt q m vzero (V3 0 0 h) (V3 a 0 0) = Ok v' /\ norm2 v' = a * a.
Proof.
  intros dt q m a h Ha Ta. rewrite vay_perpendicular by assumption. eexists. split; [reflexivity|].
  set (t := vay_tau q m a h dt). assert (0 < 1 + t * t) by nra. unfold norm2; cbn. field. lra.
Qed.
Print Assumptions C49_vay_perpendicular_no_work.

(** ... but the magnetic deflection is wrong: it is of third order in the time step, so the
    deflection per time tends to 0 instead of the Lorentz acceleration
    -(q / (gamma m)) a mu0 h. *)
Theorem C49_vay_magnetic_refuted : exists (q m a h : R) (f : R -> vec3),
  0 < m /\ subluminal (V3 a 0 0) /\
  (forall dt, vay_push dt q m vzero (V3 0 0 h) (V3 a 0 0) = Ok (f dt)) /\
  derivable_pt_lim (fun dt => v1 (f dt)) 0 0 /\
  v1 (vscale (q / (m * lorentz_factor (momentum (V3 a 0 0)))) (cross (V3 a 0 0) (vscale MAGN_CONST (V3 0 0 h)))) <> 0.
Proof.
  exists 1, 1, 1, 1. set (t := vay_tau 1 1 1 1).
  exists (fun dt => V3 (1 * (1 - t dt * t dt) / (1 + t dt * t dt)) (- (2 * 1 * t dt / (1 + t dt * t dt))) 0).
  assert (M := MNZL_lt_1).
  repeat match goal with |- _ /\ _ => split end; try lra.
  - unfold subluminal, norm2, LIGHT_SPEED; cbn. lra.
  - intro dt. apply vay_perpendicular; [unfold LIGHT_SPEED; lra|]. right. rewrite Rabs_R1. lra.
  - cbn [v1]. apply vay_deflection_limit.
  - assert (G := lorentz_factor_pos (momentum (V3 1 0 0))). set (y := lorentz_factor _) in *.
    unfold vscale, cross; cbn [v0 v1 v2]. assert (MC := MAGN_CONST_pos).
    assert (Q : 0 < 1 / (1 * y)) by (apply Rdiv_pos; lra). nra.
Qed.
Print Assumptions C49_vay_magnetic_refuted.

(** The Boris pusher deflects correctly in the same situation (instance of C14). *)
Example C49_hypotheses_met : subluminal sample_v /\ not_tiny sample_v /\ EL_MASS <> 0 /\
  1 * 1 < LIGHT_SPEED * LIGHT_SPEED /\ MNZL <= Rabs 1.
Proof.
  split; [apply sample_v_subluminal|]. split; [apply sample_v_not_tiny|].
  assert (H := EL_MASS_pos). assert (M := MNZL_lt_1). rewrite Rabs_R1. unfold LIGHT_SPEED. repeat split; lra.
Qed.
