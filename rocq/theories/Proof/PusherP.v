(** Proofs about the pushers. *)
From Coq Require Import Reals ZArith Lra Lia List.
From Verif.Lib Require Import RAux Outcome.
From Verif.Model Require Import Constants Pusher.
From Verif.Spec Require Import Dynamics.
Import ListNotations.
Local Open Scope R_scope.

Local Notation c2 := (LIGHT_SPEED * LIGHT_SPEED).

Lemma c2_pos : 0 < c2.
Proof. assert (H := LIGHT_SPEED_pos). nra. Qed.

Lemma squared_sum_norm2 : forall v, tv_squared_sum v = norm2 v.
Proof. intro v. unfold tv_squared_sum, tv_dot, norm2. ring. Qed.

Lemma norm2_nonneg : forall v, 0 <= norm2 v.
Proof. intros [a b c]. unfold norm2; cbn. nra. Qed.

Lemma tv_product_scale : forall v x, tv_product v x = vscale x v.
Proof. intros. unfold tv_product, vscale. f_equal; ring. Qed.

Lemma tv_add_vadd : forall a b, tv_add a b = vadd a b.
Proof. reflexivity. Qed.

Lemma norm2_scale : forall x v, norm2 (vscale x v) = x * x * norm2 v.
Proof. intros. unfold norm2, vscale; cbn. ring. Qed.

Lemma vscale_1 : forall v, vscale 1 v = v.
Proof. intros [a b c]. unfold vscale; cbn. f_equal; ring. Qed.

Lemma vscale_scale : forall x y v, vscale x (vscale y v) = vscale (x * y) v.
Proof. intros. unfold vscale; cbn. f_equal; ring. Qed.

Lemma div_lt : forall a b d, 0 < d -> a < b * d -> a / d < b.
Proof.
  intros a b d Hd H. apply Rmult_lt_reg_r with d; [assumption|].
  replace (a / d * d) with a by (field; lra). assumption.
Qed.

Lemma lt_div : forall a b d, 0 < d -> b * d < a -> b < a / d.
Proof.
  intros a b d Hd H. apply Rmult_lt_reg_r with d; [assumption|].
  replace (a / d * d) with a by (field; lra). assumption.
Qed.

(** ** Rounding of small velocities *)

Lemma round_small_id : forall x, x = 0 \/ MNZL <= Rabs x -> round_small x = x.
Proof. intros x H. unfold round_small. destruct (Rlt_dec (Rabs x) MNZL); [lra|reflexivity]. Qed.

Lemma round_velocity_id : forall v, not_tiny v -> round_velocity v = v.
Proof.
  intros [a b c] (H0 & H1 & H2). cbn in *. unfold round_velocity; cbn.
  rewrite !round_small_id by assumption. reflexivity.
Qed.

Lemma round_small_sq : forall x, round_small x * round_small x <= x * x.
Proof. intro x. unfold round_small. destruct (Rlt_dec (Rabs x) MNZL); nra. Qed.

Lemma round_velocity_norm2 : forall v, norm2 (round_velocity v) <= norm2 v.
Proof.
  intro v. unfold norm2, round_velocity; cbn.
  assert (H0 := round_small_sq (v0 v)). assert (H1 := round_small_sq (v1 v)). assert (H2 := round_small_sq (v2 v)). lra.
Qed.

Lemma round_small_close : forall x, Rabs (round_small x - x) < MNZL.
Proof.
  intro x. unfold round_small. assert (M := MNZL_pos). destruct (Rlt_dec (Rabs x) MNZL).
  - replace (0 - x) with (- x) by ring. now rewrite Rabs_Ropp.
  - replace (x - x) with 0 by ring. now rewrite Rabs_R0.
Qed.

Lemma not_tiny_round : forall v, not_tiny (round_velocity v).
Proof.
  intro v. unfold not_tiny, round_velocity; cbn. unfold round_small.
  repeat split; destruct (Rlt_dec _ _); lra.
Qed.

(** ** Lorentz factors *)

Lemma get_gamma_subluminal : forall s, s < c2 -> get_gamma s = Ok (/ sqrt (1 - s / c2)).
Proof.
  intros s H. unfold get_gamma. assert (P := c2_pos). unfold LIGHT_SPEED_POW_2.
  assert (B : s / c2 < 1) by (apply div_lt; lra).
  destruct (Rlt_dec 1 (s / c2)); [lra|]. destruct (Req_EM_T (s / c2) 1); [lra|].
  f_equal. unfold Rdiv. now rewrite Rmult_1_l.
Qed.

Lemma get_gamma_light : get_gamma c2 = Ok (10 ^ 100).
Proof.
  unfold get_gamma, LIGHT_SPEED_POW_2. assert (P := c2_pos).
  replace (c2 / c2) with 1 by (field; unfold LIGHT_SPEED; lra).
  destruct (Rlt_dec 1 1); [lra|]. destruct (Req_EM_T 1 1); [reflexivity|lra].
Qed.

Lemma get_gamma_superluminal : forall s, c2 < s -> get_gamma s = Exit 1.
Proof.
  intros s H. unfold get_gamma, LIGHT_SPEED_POW_2. assert (P := c2_pos).
  assert (B : 1 < s / c2) by (apply lt_div; lra).
  destruct (Rlt_dec 1 (s / c2)); [reflexivity|lra].
Qed.

Lemma get_gamma_ok : forall s, s <= c2 -> exists y, get_gamma s = Ok y.
Proof.
  intros s [H|H]; [eexists; now apply get_gamma_subluminal|].
  rewrite H. eexists. apply get_gamma_light.
Qed.

Lemma get_gamma_inv_factor : forall u, get_gamma_inv (norm2 u) = / lorentz_factor u.
Proof. intro u. unfold get_gamma_inv, lorentz_factor, LIGHT_SPEED_POW_2, Rdiv. now rewrite Rmult_1_l. Qed.

Lemma lorentz_factor_pos : forall u, 0 < lorentz_factor u.
Proof.
  intro u. unfold lorentz_factor. apply sqrt_lt_R0. assert (N := norm2_nonneg u). assert (P := c2_pos).
  assert (0 <= norm2 u / c2) by (apply Rmult_le_pos; [assumption|left; now apply Rinv_0_lt_compat]). lra.
Qed.

Lemma lorentz_factor_sq : forall u, lorentz_factor u * lorentz_factor u = 1 + norm2 u / c2.
Proof.
  intro u. unfold lorentz_factor. apply sqrt_sqrt. assert (N := norm2_nonneg u). assert (P := c2_pos).
  assert (0 <= norm2 u / c2) by (apply Rmult_le_pos; [assumption|left; now apply Rinv_0_lt_compat]). lra.
Qed.

(** Dividing a momentum by its Lorentz factor gives a subluminal velocity ... *)
Lemma normalised_subluminal : forall u, subluminal (vscale (/ lorentz_factor u) u).
Proof.
  intro u. unfold subluminal. rewrite norm2_scale. assert (G := lorentz_factor_pos u).
  assert (S := lorentz_factor_sq u). assert (P := c2_pos). assert (N := norm2_nonneg u).
  set (y := lorentz_factor u) in *.
  assert (E : / y * / y * norm2 u = norm2 u / (y * y)) by (field; lra). rewrite E, S.
  assert (Q : 0 < 1 + norm2 u / c2).
  { assert (0 <= norm2 u / c2) by (apply Rmult_le_pos; [assumption|left; now apply Rinv_0_lt_compat]). lra. }
  apply div_lt; [exact Q|]. replace (c2 * (1 + norm2 u / c2)) with (c2 + norm2 u) by (field; unfold LIGHT_SPEED; lra). lra.
Qed.

(** ... whose momentum is the one we started from ... *)
Lemma momentum_normalised : forall u, momentum (vscale (/ lorentz_factor u) u) = u.
Proof.
  intro u. unfold momentum. rewrite norm2_scale, vscale_scale.
  assert (G := lorentz_factor_pos u). assert (S := lorentz_factor_sq u). assert (P := c2_pos).
  set (y := lorentz_factor u) in *.
  assert (E : 1 - / y * / y * norm2 u / c2 = / y * / y).
  { replace (/ y * / y * norm2 u / c2) with (/ y * / y * (norm2 u / c2)) by (unfold Rdiv; ring).
    replace (norm2 u / c2) with (y * y - 1) by lra. field. lra. }
  rewrite E, sqrt_square by (left; now apply Rinv_0_lt_compat).
  replace (/ / y * / y) with 1 by (field; lra). apply vscale_1.
Qed.

(** ... and conversely. *)
Lemma momentum_lorentz : forall v, subluminal v ->
  lorentz_factor (momentum v) = / sqrt (1 - norm2 v / c2).
Proof.
  intros v H. unfold lorentz_factor, momentum. rewrite norm2_scale. assert (P := c2_pos).
  assert (B : norm2 v / c2 < 1) by (apply div_lt; unfold subluminal in H; lra).
  set (x := norm2 v / c2) in *. assert (Q : 0 < 1 - x) by lra.
  assert (Sp : 0 < sqrt (1 - x)) by now apply sqrt_lt_R0.
  assert (S2 : sqrt (1 - x) * sqrt (1 - x) = 1 - x) by (apply sqrt_sqrt; lra).
  replace (1 + / sqrt (1 - x) * / sqrt (1 - x) * norm2 v / c2) with (/ sqrt (1 - x) * / sqrt (1 - x)).
  - apply sqrt_square. left. now apply Rinv_0_lt_compat.
  - replace (/ sqrt (1 - x) * / sqrt (1 - x) * norm2 v / c2) with (/ (sqrt (1 - x) * sqrt (1 - x)) * x)
      by (unfold x, Rdiv; rewrite Rinv_mult; ring).
    rewrite <- Rinv_mult, S2. field. lra.
Qed.

Lemma normalised_momentum : forall v, subluminal v ->
  vscale (/ lorentz_factor (momentum v)) (momentum v) = v.
Proof.
  intros v H. rewrite momentum_lorentz by assumption. unfold momentum. rewrite vscale_scale.
  assert (P := c2_pos). assert (B : norm2 v / c2 < 1) by (apply div_lt; unfold subluminal in H; lra).
  assert (Sp : 0 < sqrt (1 - norm2 v / c2)) by (apply sqrt_lt_R0; lra).
  rewrite Rinv_inv, Rinv_r by lra. apply vscale_1.
Qed.

Lemma momentum_zero : momentum vzero = vzero.
Proof. unfold momentum, vzero, vscale; cbn. f_equal; ring. Qed.

(** ** The rotation *)

Lemma boris_rotation_midpoint : forall b v,
  vsub (boris_rotation b v) v = cross (vadd (boris_rotation b v) v) b.
Proof.
  intros [x y z] [p q r]. unfold boris_rotation, vsub, vadd, cross, tv_squared_sum, tv_dot; cbn.
  assert (D : 0 < 1 + (x * x + y * y + z * z)) by nra.
  f_equal; field; lra.
Qed.

Lemma midpoint_norm : forall w v b, vsub w v = cross (vadd w v) b -> norm2 w = norm2 v.
Proof.
  intros [x y z] [p q r] [b0 b1 b2]. unfold vsub, cross, vadd, norm2; cbn. intro H. injection H as H0 H1 H2.
  assert (E : (x - p) * (x + p) + (y - q) * (y + q) + (z - r) * (z + r) = 0) by (rewrite H0, H1, H2; ring). lra.
Qed.

Lemma boris_rotation_norm : forall b v, norm2 (boris_rotation b v) = norm2 v.
Proof. intros. eapply midpoint_norm. apply boris_rotation_midpoint. Qed.

Lemma boris_rotation_none : forall v, boris_rotation vzero v = v.
Proof. intros [x y z]. unfold boris_rotation, vzero, tv_squared_sum, tv_dot; cbn. f_equal; field. Qed.

(** ** The Boris pusher in closed form *)

(** The relativistic push: momentum in, momentum out. *)
Definition half_kick (dt q m : R) (e : vec3) : vec3 := vscale (q * dt / (2 * m)) e.

Definition boris_momentum (dt q m : R) (e h u : vec3) : vec3 :=
  let um := vadd u (half_kick dt q m e) in
  let b := vscale (MAGN_CONST * (q * dt / (2 * m)) / lorentz_factor um) h in
  vadd (boris_rotation b um) (half_kick dt q m e).

Lemma boris_rel_momentum : forall dt q m e h v, subluminal v ->
  let u' := boris_momentum dt q m e h (momentum (round_velocity v)) in
  boris_push true dt q m e h v = Ok (vscale (/ lorentz_factor u') u').
Proof.
  intros dt q m e h v Hv u'. unfold boris_push.
  assert (Hr : norm2 (round_velocity v) < c2)
    by (eapply Rle_lt_trans; [apply round_velocity_norm2|exact Hv]).
  rewrite !squared_sum_norm2, get_gamma_subluminal by exact Hr. cbn [bind].
  change tv_add with vadd.
  rewrite !tv_product_scale, !squared_sum_norm2, !get_gamma_inv_factor, !vscale_scale.
  fold (momentum (round_velocity v)). fold (half_kick dt q m e).
  set (um := vadd (momentum (round_velocity v)) (half_kick dt q m e)).
  replace (/ lorentz_factor um * (MAGN_CONST * (q * dt / (2 * m))))
    with (MAGN_CONST * (q * dt / (2 * m)) / lorentz_factor um) by (unfold Rdiv; ring).
  reflexivity.
Qed.

Lemma boris_classic_closed : forall dt q m e h v,
  boris_push false dt q m e h v =
  Ok (vadd (boris_rotation (vscale (MAGN_CONST * (q * dt / (2 * m))) h)
             (vadd (round_velocity v) (half_kick dt q m e))) (half_kick dt q m e)).
Proof. intros. unfold boris_push. cbn [bind]. change tv_add with vadd. now rewrite !tv_product_scale. Qed.

(** ** C12: subluminal *)

Lemma boris_rel_subluminal : forall dt q m e h v, norm2 v <= c2 ->
  exists v', boris_push true dt q m e h v = Ok v' /\ subluminal v'.
Proof.
  intros dt q m e h v Hv. unfold boris_push.
  assert (Hr : norm2 (round_velocity v) <= c2) by (eapply Rle_trans; [apply round_velocity_norm2|exact Hv]).
  destruct (get_gamma_ok _ Hr) as [y Hy]. rewrite !squared_sum_norm2, Hy. cbn [bind].
  eexists. split; [reflexivity|].
  rewrite !tv_product_scale, !squared_sum_norm2, !get_gamma_inv_factor. apply normalised_subluminal.
Qed.

Lemma vay_subluminal : forall dt q m e h v, norm2 v <= c2 ->
  exists v', vay_push dt q m e h v = Ok v' /\ subluminal v'.
Proof.
  intros dt q m e h v Hv. unfold vay_push.
  assert (Hr : norm2 (round_velocity v) <= c2) by (eapply Rle_trans; [apply round_velocity_norm2|exact Hv]).
  destruct (get_gamma_ok _ Hr) as [y Hy]. rewrite (squared_sum_norm2 (round_velocity v)), Hy. cbn [bind].
  eexists. split; [reflexivity|].
  set (w := V3 _ _ _). rewrite tv_product_scale, squared_sum_norm2, get_gamma_inv_factor. apply normalised_subluminal.
Qed.

(** ** C13, C14 *)

Lemma half_kick_zero : forall dt q m, half_kick dt q m vzero = vzero.
Proof. intros. unfold half_kick, vscale, vzero; cbn. f_equal; ring. Qed.

Lemma vadd_zero : forall v, vadd v vzero = v.
Proof. intros [x y z]. unfold vadd, vzero; cbn. f_equal; ring. Qed.

Lemma vscale_zero : forall x, vscale x vzero = vzero.
Proof. intros. unfold vscale, vzero; cbn. f_equal; ring. Qed.

Lemma norm2_same_factor : forall u w, norm2 u = norm2 w -> lorentz_factor u = lorentz_factor w.
Proof. intros u w H. unfold lorentz_factor. now rewrite H. Qed.

Lemma boris_no_work : forall rel dt q m h v, (rel = true -> subluminal v) ->
  exists v', boris_push rel dt q m vzero h v = Ok v' /\ norm2 v' = norm2 (round_velocity v).
Proof.
  intros [|] dt q m h v Hv.
  - specialize (Hv eq_refl). rewrite boris_rel_momentum by assumption. eexists. split; [reflexivity|].
    unfold boris_momentum. rewrite half_kick_zero, !vadd_zero.
    set (u := momentum (round_velocity v)). set (w := boris_rotation _ u).
    assert (E : norm2 w = norm2 u) by apply boris_rotation_norm.
    rewrite norm2_scale, E, (norm2_same_factor w u E).
    rewrite <- (norm2_scale (/ lorentz_factor u) u). unfold u. rewrite normalised_momentum; [reflexivity|].
    eapply Rle_lt_trans; [apply round_velocity_norm2|exact Hv].
  - rewrite boris_classic_closed, half_kick_zero, !vadd_zero. eexists. split; [reflexivity|].
    apply boris_rotation_norm.
Qed.

Lemma boris_free : forall rel dt q m v, (rel = true -> subluminal v) ->
  boris_push rel dt q m vzero vzero v = Ok (round_velocity v).
Proof.
  intros [|] dt q m v Hv.
  - specialize (Hv eq_refl). rewrite boris_rel_momentum by assumption. unfold boris_momentum.
    rewrite half_kick_zero, !vadd_zero, vscale_zero, boris_rotation_none, normalised_momentum; [reflexivity|].
    eapply Rle_lt_trans; [apply round_velocity_norm2|exact Hv].
  - now rewrite boris_classic_closed, half_kick_zero, !vadd_zero, vscale_zero, boris_rotation_none.
Qed.

Lemma boris_electric_rel : forall dt q m e v, subluminal v -> m <> 0 ->
  exists v', boris_push true dt q m e vzero v = Ok v' /\
    momentum v' = vadd (momentum (round_velocity v)) (vscale (q * dt / m) e).
Proof.
  intros dt q m e v Hv Hm. rewrite boris_rel_momentum by assumption. eexists. split; [reflexivity|].
  rewrite momentum_normalised. unfold boris_momentum. rewrite vscale_zero, boris_rotation_none.
  destruct (momentum (round_velocity v)) as [x y z]. unfold half_kick, vadd, vscale; cbn. f_equal; field; assumption.
Qed.

Lemma boris_electric_classic : forall dt q m e v, m <> 0 ->
  boris_push false dt q m e vzero v = Ok (vadd (round_velocity v) (vscale (q * dt / m) e)).
Proof.
  intros dt q m e v Hm. rewrite boris_classic_closed, vscale_zero, boris_rotation_none. f_equal.
  unfold half_kick, vadd, vscale; cbn. f_equal; field; assumption.
Qed.

(** The push satisfies the midpoint form of the Lorentz equation. *)
Lemma boris_rel_lorentz : forall dt q m e h v, subluminal v -> m <> 0 ->
  exists v', boris_push true dt q m e h v = Ok v' /\
    let u := momentum (round_velocity v) in
    let u' := momentum v' in
    let gamma := lorentz_factor (vadd u (vscale (q * dt / (2 * m)) e)) in
    vsub u' u =
    vscale (q * dt / m) (vadd e (cross (vscale (1 / (2 * gamma)) (vadd u u')) (vscale MAGN_CONST h))).
Proof.
  intros dt q m e h v Hv Hm. rewrite boris_rel_momentum by assumption. eexists. split; [reflexivity|].
  cbv zeta. rewrite momentum_normalised. unfold boris_momentum. fold (half_kick dt q m e).
  set (u := momentum (round_velocity v)). set (k := half_kick dt q m e). set (um := vadd u k).
  assert (G := lorentz_factor_pos um). set (y := lorentz_factor um) in *.
  set (b := vscale _ h). assert (M := boris_rotation_midpoint b um). set (w := boris_rotation b um) in *.
  destruct w as [w0 w1 w2], u as [a0 a1 a2], e as [e0 e1 e2], h as [h0 h1 h2].
  unfold um, k, half_kick, b, vsub, vadd, cross, vscale in *; cbn in *. injection M as M0 M1 M2.
  set (t := q * dt / (2 * m)) in *.
  assert (T : q * dt / m = 2 * t) by (unfold t; field; assumption). rewrite T.
  f_equal.
  - transitivity (w0 - (a0 + t * e0) + 2 * t * e0); [ring|]. rewrite M0. field. lra.
  - transitivity (w1 - (a1 + t * e1) + 2 * t * e1); [ring|]. rewrite M1. field. lra.
  - transitivity (w2 - (a2 + t * e2) + 2 * t * e2); [ring|]. rewrite M2. field. lra.
Qed.

Lemma boris_classic_lorentz : forall dt q m e h v, m <> 0 ->
  exists v', boris_push false dt q m e h v = Ok v' /\
    vsub v' (round_velocity v) =
    vscale (q * dt / m) (vadd e (cross (vscale (1 / 2) (vadd (round_velocity v) v')) (vscale MAGN_CONST h))).
Proof.
  intros dt q m e h v Hm. rewrite boris_classic_closed. eexists. split; [reflexivity|].
  set (u := round_velocity v). set (k := half_kick dt q m e). set (um := vadd u k).
  set (b := vscale _ h). assert (M := boris_rotation_midpoint b um). set (w := boris_rotation b um) in *.
  destruct w as [w0 w1 w2], u as [a0 a1 a2], e as [e0 e1 e2], h as [h0 h1 h2].
  unfold um, k, half_kick, b, vsub, vadd, cross, vscale in *; cbn in *. injection M as M0 M1 M2.
  set (t := q * dt / (2 * m)) in *.
  assert (T : q * dt / m = 2 * t) by (unfold t; field; assumption). rewrite T.
  f_equal.
  - transitivity (w0 - (a0 + t * e0) + 2 * t * e0); [ring|]. rewrite M0. field.
  - transitivity (w1 - (a1 + t * e1) + 2 * t * e1); [ring|]. rewrite M1. field.
  - transitivity (w2 - (a2 + t * e2) + 2 * t * e2); [ring|]. rewrite M2. field.
Qed.

(** Pushing with the opposite field undoes an electric push. *)
Lemma boris_reversible_rel : forall dt q m e v v', subluminal v -> m <> 0 -> not_tiny v -> not_tiny v' ->
  boris_push true dt q m e vzero v = Ok v' ->
  boris_push true dt q m (vscale (-1) e) vzero v' = Ok v.
Proof.
  intros dt q m e v v' Hv Hm T T' H.
  destruct (boris_electric_rel dt q m e v Hv Hm) as (w & Hw & Mw). rewrite H in Hw. injection Hw as <-.
  assert (Hv' : subluminal v').
  { destruct (boris_rel_subluminal dt q m e vzero v) as (x & Hx & Sx); [unfold subluminal in Hv; lra|].
    rewrite H in Hx. injection Hx as <-. exact Sx. }
  rewrite boris_rel_momentum by assumption. rewrite (round_velocity_id v') by assumption.
  unfold boris_momentum. rewrite vscale_zero, boris_rotation_none.
  rewrite Mw, (round_velocity_id v) by assumption.
  replace (vadd _ _) with (momentum v).
  - now rewrite normalised_momentum.
  - destruct (momentum v) as [x y z]. unfold half_kick, vadd, vscale; cbn. f_equal; field; assumption.
Qed.
