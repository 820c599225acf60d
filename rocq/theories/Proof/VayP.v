(** Proofs about the Vay pusher. *)
From Coq Require Import Reals ZArith Lra Lia.
From Verif.Lib Require Import RAux Outcome.
From Verif.Model Require Import Constants Pusher.
From Verif.Spec Require Import Dynamics.
From Verif.Proof Require Import PusherP.
Local Open Scope R_scope.

Local Notation c2 := (LIGHT_SPEED * LIGHT_SPEED).

Lemma V3_eq : forall a b c a' b' c', a = a' -> b = b' -> c = c' -> V3 a b c = V3 a' b' c'.
Proof. intros; subst; reflexivity. Qed.

(** Without magnetic field the momentum gains exactly q E dt / m. *)
Lemma vay_electric : forall dt q m e v, subluminal v -> m <> 0 ->
  exists v', vay_push dt q m e vzero v = Ok v' /\
    momentum v' = vadd (momentum (round_velocity v)) (vscale (q * dt / m) e).
Proof.
  intros dt q m e v Hv Hm. unfold vay_push.
  assert (Hr : norm2 (round_velocity v) < c2)
    by (eapply Rle_lt_trans; [apply round_velocity_norm2|exact Hv]).
  rewrite (squared_sum_norm2 (round_velocity v)), get_gamma_subluminal by exact Hr. cbn [bind].
  change tv_add with vadd. rewrite !tv_product_scale, !vscale_zero.
  fold (momentum (round_velocity v)). set (u := momentum (round_velocity v)).
  set (w := vadd u (vscale (2 * (q * dt / (2 * m))) e)).
  eexists. split; [reflexivity|].
  assert (W : w = vadd u (vscale (q * dt / m) e)).
  { unfold w. do 2 f_equal. field. assumption. }
  rewrite <- W. clearbody w. clear W.
  match goal with |- context [V3 (v0 w + ?a) (v1 w + ?b) (v2 w + ?c)] =>
    assert (EW : V3 (v0 w + a) (v1 w + b) (v2 w + c) = w) end.
  { destruct w as [x y z]. unfold vzero; cbn [v0 v1 v2]. apply V3_eq; ring. }
  rewrite EW.
  assert (Z0 : tv_squared_sum vzero = 0) by (unfold tv_squared_sum, tv_dot, vzero; cbn; ring).
  assert (Z1 : forall x, tv_dot x vzero = 0) by (intro; unfold tv_dot, vzero; cbn; ring).
  rewrite Z0, !Z1.
  assert (X : forall k, V3 (1 / (1 + 0) * (v0 w + 0 * v0 vzero + v2 vzero * v1 w - v1 vzero * v2 w))
     (1 / (1 + 0) * (v1 w + 0 * v1 vzero + v0 vzero * v2 w - v2 vzero * v0 w))
     (1 / (1 + 0) * (v2 w + 0 * v2 vzero + v1 vzero * v0 w - v0 vzero * v1 w)) = w \/ k = 0).
  { intro. left. destruct w as [x y z]. unfold vzero; cbn [v0 v1 v2]. apply V3_eq; field. }
  destruct (X 1) as [X'|X']; [|lra]. rewrite X', squared_sum_norm2, get_gamma_inv_factor.
  apply momentum_normalised.
Qed.

(** Velocity along the first axis, magnetic field along the third, no electric field: a
    rotation whose half-angle tangent tau is proportional to the cube of the time step. *)
Definition vay_tau (q m a h dt : R) : R :=
  h * (MAGN_CONST * (q * dt / (2 * m))) * (2 * (q * dt / (2 * m))) * (q * dt / (2 * m))
  * sqrt (1 - a * a / c2).

Lemma vay_perpendicular : forall dt q m a h, a * a < c2 -> a = 0 \/ MNZL <= Rabs a ->
  let t := vay_tau q m a h dt in
  vay_push dt q m vzero (V3 0 0 h) (V3 a 0 0) =
  Ok (V3 (a * (1 - t * t) / (1 + t * t)) (- (2 * a * t / (1 + t * t))) 0).
Proof.
  intros dt q m a h Ha Ta t. unfold vay_push.
  assert (P := c2_pos).
  assert (RV : round_velocity (V3 a 0 0) = V3 a 0 0).
  { apply round_velocity_id. unfold not_tiny; cbn. split; [assumption|]. split; left; reflexivity. }
  rewrite RV.
  assert (NA : tv_squared_sum (V3 a 0 0) = a * a) by (unfold tv_squared_sum, tv_dot; cbn; ring).
  rewrite NA, get_gamma_subluminal by assumption. cbn [bind].
  assert (B : a * a / c2 < 1) by (apply div_lt; lra).
  set (g := / sqrt (1 - a * a / c2)).
  assert (Sp : 0 < sqrt (1 - a * a / c2)) by (apply sqrt_lt_R0; lra).
  assert (Gp : 0 < g) by (unfold g; now apply Rinv_0_lt_compat).
  assert (S2 : sqrt (1 - a * a / c2) * sqrt (1 - a * a / c2) = 1 - a * a / c2) by (apply sqrt_sqrt; lra).
  assert (Sg : sqrt (1 - a * a / c2) = / g) by (unfold g; now rewrite Rinv_inv).
  assert (G2 : g * g * (1 - a * a / c2) = 1) by (rewrite <- S2, Sg; field; lra).
  assert (U2 : (a * g) * (a * g) / c2 = g * g - 1).
  { replace ((a * g) * (a * g) / c2) with (g * g * (a * a / c2)) by (field; unfold LIGHT_SPEED; lra). lra. }
  set (u := a * g) in *.
  set (t1 := q * dt / (2 * m)) in *.
  set (be := h * (MAGN_CONST * t1) * (2 * t1) * t1).
  assert (T : t = be / g). { unfold t, vay_tau. fold t1. fold be. now rewrite Sg. }
  (* b after the three products *)
  assert (EB : tv_product (tv_product (tv_product (V3 0 0 h) (MAGN_CONST * t1)) (2 * t1)) t1 = V3 0 0 be)
    by (unfold tv_product, be; cbn; apply V3_eq; ring).
  assert (EV : tv_product (V3 a 0 0) g = V3 u 0 0) by (unfold tv_product, u; cbn; apply V3_eq; ring).
  assert (EE : tv_add (V3 u 0 0) (tv_product vzero (2 * t1)) = V3 u 0 0)
    by (unfold tv_add, tv_product, vzero; cbn; apply V3_eq; ring).
  rewrite EB, EV, EE.
  assert (L1 : get_gamma_inv (tv_squared_sum (V3 u 0 0)) = / g).
  { rewrite squared_sum_norm2, get_gamma_inv_factor. f_equal. unfold lorentz_factor, norm2; cbn.
    replace (1 + (u * u + 0 * 0 + 0 * 0) / c2) with (g * g)
      by (replace ((u * u + 0 * 0 + 0 * 0) / c2) with (u * u / c2) by (field; unfold LIGHT_SPEED; lra); lra).
    apply sqrt_square. lra. }
  rewrite L1. cbn [v0 v1 v2].
  assert (EW : V3 (u + / g * (0 * be - 0 * 0)) (0 + / g * (0 * 0 - u * be)) (0 + / g * (u * 0 - 0 * 0)) =
               V3 u (- (u * t)) 0) by (rewrite T; apply V3_eq; field; lra).
  rewrite EW. cbn [v0 v1 v2].
  assert (NW : tv_squared_sum (V3 u (- (u * t)) 0) / c2 = (g * g - 1) * (1 + t * t)).
  { rewrite <- U2. unfold tv_squared_sum, tv_dot; cbn. field. unfold LIGHT_SPEED; lra. }
  assert (G1 : 1 <= g * g).
  { assert (0 <= u * u / c2) by (apply Rdiv_nonneg; [nra|lra]). lra. }
  assert (Wp : 0 < 1 + (g * g - 1) * (1 + t * t)) by nra.
  assert (GI : get_gamma_inv (tv_squared_sum (V3 u (- (u * t)) 0)) = / sqrt (1 + (g * g - 1) * (1 + t * t))).
  { unfold get_gamma_inv, LIGHT_SPEED_POW_2. rewrite NW. unfold Rdiv. now rewrite Rmult_1_l. }
  rewrite GI.
  assert (SW : 0 < sqrt (1 + (g * g - 1) * (1 + t * t))) by now apply sqrt_lt_R0.
  assert (AL : 1 / / sqrt (1 + (g * g - 1) * (1 + t * t)) / / sqrt (1 + (g * g - 1) * (1 + t * t)) =
               1 + (g * g - 1) * (1 + t * t)).
  { assert (Q : forall x, 0 < x -> 1 / / x / / x = x * x) by (intros; field; lra).
    rewrite Q by assumption. apply sqrt_sqrt. lra. }
  rewrite AL.
  assert (B2 : tv_squared_sum (V3 0 0 be) = g * g * (t * t)).
  { rewrite T. unfold tv_squared_sum, tv_dot; cbn. field. lra. }
  assert (US : tv_dot (V3 u (- (u * t)) 0) (V3 0 0 be) = 0) by (unfold tv_dot; cbn; ring).
  rewrite B2, US.
  assert (R1 : sqrt ((1 + (g * g - 1) * (1 + t * t) - g * g * (t * t)) * (1 + (g * g - 1) * (1 + t * t) - g * g * (t * t)) + 4 * (g * g * (t * t) + 0 * 0)) = g * g + t * t).
  { replace (_ + 4 * _) with ((g * g + t * t) * (g * g + t * t)) by ring. apply sqrt_square. nra. }
  rewrite R1.
  assert (R2 : sqrt (1 / 2 * (1 + (g * g - 1) * (1 + t * t) - g * g * (t * t) + (g * g + t * t))) = g).
  { replace (1 / 2 * _) with (g * g) by field. apply sqrt_square. lra. }
  rewrite R2.
  assert (EB2 : tv_product (V3 0 0 be) (1 / g) = V3 0 0 t)
    by (rewrite T; unfold tv_product; cbn; apply V3_eq; field; lra).
  rewrite EB2. cbn [v0 v1 v2].
  assert (SB : tv_squared_sum (V3 0 0 t) = t * t) by (unfold tv_squared_sum, tv_dot; cbn; ring).
  assert (DB : tv_dot (V3 u (- (u * t)) 0) (V3 0 0 t) = 0) by (unfold tv_dot; cbn; ring).
  rewrite SB, DB.
  assert (Tp : 0 < 1 + t * t) by nra.
  match goal with |- Ok (tv_product ?x _) = _ => set (w := x) end.
  assert (EWW : w = V3 (u * (1 - t * t) / (1 + t * t)) (- (2 * u * t / (1 + t * t))) 0)
    by (assert (BE : be = t * g) by (rewrite T; field; lra); unfold w; rewrite BE; apply V3_eq; field; lra).
  rewrite EWW.
  assert (NF : tv_squared_sum (V3 (u * (1 - t * t) / (1 + t * t)) (- (2 * u * t / (1 + t * t))) 0) = u * u)
    by (unfold tv_squared_sum, tv_dot; cbn; field; lra).
  assert (LF : get_gamma_inv (u * u) = / g).
  { rewrite <- L1. f_equal. unfold tv_squared_sum, tv_dot; cbn. ring. }
  rewrite NF, LF. f_equal. unfold tv_product; cbn. unfold u. apply V3_eq; field; lra.
Qed.

(** tau is K dt^3. *)
Lemma vay_tau_cubic : forall q m a h, exists K, forall dt, vay_tau q m a h dt = K * (dt * dt * dt).
Proof.
  intros q m a h.
  exists (h * (MAGN_CONST * (q / (2 * m))) * (2 * (q / (2 * m))) * (q / (2 * m)) * sqrt (1 - a * a / c2)).
  intro dt. unfold vay_tau, Rdiv. ring.
Qed.

(** The deflection per time step vanishes as dt -> 0. *)
Lemma vay_deflection_limit : forall q m a h,
  derivable_pt_lim (fun dt => let t := vay_tau q m a h dt in - (2 * a * t / (1 + t * t))) 0 0.
Proof.
  intros q m a h eps He. destruct (vay_tau_cubic q m a h) as [K HK].
  set (C := 2 * Rabs a * Rabs K + 1).
  assert (Cp : 0 < C) by (unfold C; assert (A1 := Rabs_pos a); assert (A2 := Rabs_pos K); nra).
  assert (Dp : 0 < Rmin 1 (eps / C)) by (apply Rmin_glb_lt; [lra|now apply Rdiv_pos]).
  exists (mkposreal _ Dp). intros x Hx Hd. cbn in Hd. rewrite Rplus_0_l.
  assert (D1 : Rabs x < 1) by (eapply Rlt_le_trans; [exact Hd|apply Rmin_l]).
  assert (D2 : Rabs x < eps / C) by (eapply Rlt_le_trans; [exact Hd|apply Rmin_r]).
  cbv zeta. rewrite !HK. set (t := K * (x * x * x)).
  assert (Tp : 0 < 1 + t * t) by nra.
  replace ((- (2 * a * t / (1 + t * t)) - - (2 * a * (K * (0 * 0 * 0)) / (1 + K * (0 * 0 * 0) * (K * (0 * 0 * 0))))) / x - 0)
    with (- (2 * a * K * (x * x)) * / (1 + t * t))
    by (unfold t; field; repeat split; try assumption; try lra; fold t; lra).
  rewrite Rabs_mult, Rabs_Ropp, (Rabs_right (/ (1 + t * t))) by (left; now apply Rinv_0_lt_compat).
  assert (I1 : / (1 + t * t) <= 1) by (rewrite <- Rinv_1; apply Rinv_le_contravar; nra).
  assert (I0 : 0 < / (1 + t * t)) by now apply Rinv_0_lt_compat.
  rewrite !Rabs_mult, (Rabs_right 2) by lra.
  assert (X0 := Rabs_pos x). assert (A1 := Rabs_pos a). assert (A2 := Rabs_pos K).
  assert (XX : Rabs x * Rabs x <= Rabs x) by nra.
  assert (EC : Rabs x * C < eps).
  { apply Rmult_lt_reg_r with (/ C); [now apply Rinv_0_lt_compat|].
    replace (Rabs x * C * / C) with (Rabs x) by (field; lra). exact D2. }
  assert (Q : 0 <= 2 * Rabs a * Rabs K) by (assert (0 <= Rabs a * Rabs K) by (apply Rmult_le_pos; assumption); lra).
  set (M := 2 * Rabs a * Rabs K) in *.
  apply Rle_lt_trans with (M * (Rabs x * Rabs x) * 1).
  - apply Rmult_le_compat_l; [apply Rmult_le_pos; [assumption|nra]|assumption].
  - apply Rle_lt_trans with (M * Rabs x); [rewrite Rmult_1_r; apply Rmult_le_compat_l; assumption|].
    apply Rle_lt_trans with (Rabs x * C); [unfold C; fold M; nra|assumption].
Qed.
