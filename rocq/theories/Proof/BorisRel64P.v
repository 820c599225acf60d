(** Relativistic pushes, one after the other. *)
From Coq Require Import Reals ZArith List Bool Lia Lra Psatz.
From Flocq Require Import Core IEEE754.BinarySingleNaN.
From Verif.Lib Require Import RAux Outcome.
From Verif.Model Require Import Binary64 Arith GenCode.
From Verif.Spec Require Import Double Momentum.
From Verif.Proof Require Import Binary64P FloatP Push64P Err64P MomentumR Boost64P Gentle64P BorisErr64P BorisRun64P.
From Verif.Spec Require Import Boris.
Import ListNotations.
Local Open Scope R_scope.

Lemma vlen_pos : forall a, 0 <= vlen a.
Proof. intro a. apply length_pos. Qed.
Lemma vlen_dot : forall a, vlen a * vlen a = dot a a.
Proof. intro a. unfold vlen. rewrite length_sq. reflexivity. Qed.
Lemma dot_cross : forall s w h, Rabs (dot s (cross w h)) <= vlen s * vlen w * vlen h.
Proof.
  intros s w h. assert (S := vlen_pos s). assert (W := vlen_pos w). assert (H := vlen_pos h). rewrite <- (Rabs_pos_eq (vlen s * vlen w * vlen h)) by (repeat apply Rmult_le_pos; assumption).
  apply Rsqr_le_abs_0. unfold Rsqr. replace (vlen s * vlen w * vlen h * (vlen s * vlen w * vlen h)) with ((vlen s * vlen s) * ((vlen w * vlen w) * (vlen h * vlen h))) by ring. rewrite !vlen_dot.
  destruct s as [s0 s1 s2], w as [w0 w1 w2], h as [h0 h1 h2]. unfold dot, cross. cbn [c0 c1 c2].
  set (x := w1 * h2 - w2 * h1). set (y := w2 * h0 - w0 * h2). set (z := w0 * h1 - w1 * h0).
  apply Rle_trans with ((s0 * s0 + s1 * s1 + s2 * s2) * (x * x + y * y + z * z)).
  - assert (Q1 := Rle_0_sqr (s0 * y - s1 * x)). assert (Q2 := Rle_0_sqr (s0 * z - s2 * x)). assert (Q3 := Rle_0_sqr (s1 * z - s2 * y)). unfold Rsqr in *. lra.
  - assert (A1 := Rle_0_sqr s0). assert (A2 := Rle_0_sqr s1). assert (A3 := Rle_0_sqr s2). unfold Rsqr in *. apply Rmult_le_compat_l; [lra|].
    assert (Q := Rle_0_sqr (w0 * h0 + w1 * h1 + w2 * h2)). unfold Rsqr in Q. unfold x, y, z. lra.
Qed.
Lemma turn_lip : forall a b h a' b' h', minus a b = cross (plus a b) h -> minus a' b' = cross (plus a' b') h' -> distance a a' <= distance b b' + 2 * vlen b' * distance h h'.
Proof.
  intros a b h a' b' h' T T'. rewrite !distance_minus. set (D := minus a a'). set (d := minus b b'). set (e := minus h h').
  assert (L' : vlen (plus a' b') <= 2 * vlen b') by (apply Rle_trans with (1 := vlen_plus _ _); rewrite (turn_len _ _ _ T'); lra).
  assert (E : minus D d = plus (cross (plus D d) h) (cross (plus a' b') e)).
  { unfold D, d, e. destruct a as [a0 a1 a2], b as [b0 b1 b2], h as [h0 h1 h2], a' as [a0' a1' a2'], b' as [b0' b1' b2'], h' as [h0' h1' h2']. unfold minus, cross, plus in *. cbn [c0 c1 c2] in *. injection T as T0 T1 T2. injection T' as T0' T1' T2'. f_equal; lra. }
  assert (K : vlen D * vlen D - vlen d * vlen d = dot (plus D d) (cross (plus a' b') e)).
  { rewrite !vlen_dot. set (r := cross (plus a' b') e) in *. clearbody r D d. destruct D as [D0 D1 D2], d as [d0 d1 d2], r as [r0 r1 r2], h as [h0 h1 h2]. unfold minus, cross, plus, dot in *. cbn [c0 c1 c2] in *. injection E as E0 E1 E2.
    replace (D0 * D0 + D1 * D1 + D2 * D2 - (d0 * d0 + d1 * d1 + d2 * d2)) with ((D0 + d0) * (D0 - d0) + (D1 + d1) * (D1 - d1) + (D2 + d2) * (D2 - d2)) by ring. rewrite E0, E1, E2. ring. }
  assert (C := dot_cross (plus D d) (plus a' b') e). apply Rabs_le_inv in C. rewrite <- K in C.
  assert (PD := vlen_pos D). assert (Pd := vlen_pos d). assert (Pe := vlen_pos e). assert (PS := vlen_plus D d). assert (P1 := vlen_pos (plus D d)). assert (P2 := vlen_pos (plus a' b')).
  assert (C2 : (vlen D - vlen d) * (vlen D + vlen d) <= (vlen D + vlen d) * (2 * vlen b' * vlen e)).
  { replace ((vlen D - vlen d) * (vlen D + vlen d)) with (vlen D * vlen D - vlen d * vlen d) by ring. apply Rle_trans with (1 := proj2 C). rewrite Rmult_assoc. apply Rmult_le_compat; try assumption; [apply Rmult_le_pos; assumption|]. apply Rmult_le_compat_r; assumption. }
  destruct (Req_dec (vlen D + vlen d) 0) as [Z|Z]; [assert (0 <= 2 * vlen b' * vlen e) by (apply Rmult_le_pos; [assert (X := vlen_pos b'); lra|assumption]); lra|].
  assert (X : vlen D - vlen d <= 2 * vlen b' * vlen e); [|lra]. apply Rmult_le_reg_r with (vlen D + vlen d); [lra|]. lra.
Qed.

Lemma gamma_p_sq : forall p, 1 <= gamma_p p /\ gamma_p p * gamma_p p = 1 + vlen p * vlen p / (light * light).
Proof.
  intro p. unfold gamma_p. rewrite <- vlen_dot. assert (P : 0 <= vlen p * vlen p / (light * light)) by (assert (Q := vlen_pos p); apply Rmult_le_pos; [apply Rmult_le_pos; exact Q|left; apply Rinv_0_lt_compat; unfold light; lra]).
  split; [|apply sqrt_sqrt; lra]. rewrite <- sqrt_1 at 1. apply sqrt_le_1_alt. lra.
Qed.
Lemma vlen_diff : forall p p', Rabs (vlen p - vlen p') <= distance p p'.
Proof.
  intros p p'. assert (H : forall a b, vlen a <= vlen b + distance a b).
  { intros a b. rewrite distance_minus. assert (X := vlen_plus b (minus a b)). assert (E : plus b (minus a b) = a) by (destruct a as [x y z], b as [x' y' z']; unfold plus, minus; cbn [c0 c1 c2]; f_equal; lra). rewrite E in X. exact X. }
  assert (A := H p p'). assert (B := H p' p). rewrite distance_sym in B. apply Rabs_le. lra.
Qed.
Lemma gamma_p_lip : forall p p', Rabs (/ gamma_p p - / gamma_p p') <= distance p p' / light.
Proof.
  intros p p'. destruct (gamma_p_sq p) as (G & S). destruct (gamma_p_sq p') as (G' & S'). set (g := gamma_p p) in *. set (g' := gamma_p p') in *.
  assert (V := vlen_diff p p'). assert (P := vlen_pos p). assert (P' := vlen_pos p'). set (l := vlen p) in *. set (l' := vlen p') in *. set (d := distance p p') in *.
  assert (LP : light = 300000000) by reflexivity. assert (D0 : 0 <= d) by apply length_pos.
  assert (B : forall x y, 0 <= x -> 1 <= y -> y * y = 1 + x * x / (light * light) -> x <= light * y).
  { intros x y X Y E. apply Rsqr_incr_0_var; [unfold Rsqr|rewrite LP; nra]. replace (light * y * (light * y)) with (light * light * (y * y)) by ring. rewrite E. rewrite LP. lra. }
  assert (B1 := B _ _ P G S). assert (B2 := B _ _ P' G' S').
  assert (Q : (g - g') * (g + g') = (l - l') * (l + l') / (light * light)) by (replace ((g - g') * (g + g')) with (g * g - g' * g') by ring; rewrite S, S'; rewrite LP; lra).
  assert (W : Rabs (g - g') <= d / light).
  { apply Rmult_le_reg_r with (g + g'); [lra|]. rewrite <- (Rabs_pos_eq (g + g')) at 1 by lra. rewrite <- Rabs_mult, Q. unfold Rdiv. rewrite !Rabs_mult, (Rabs_pos_eq (l + l')), (Rabs_pos_eq (/ (light * light))) by (rewrite ?LP; lra).
    apply Rle_trans with (d * (light * (g + g')) * / (light * light)); [|apply Req_le; field; rewrite LP; lra].
    apply Rmult_le_compat_r; [rewrite LP; lra|]. apply Rmult_le_compat; try lra. apply Rabs_pos. }
  replace (/ g - / g') with (- ((g - g') * / (g * g'))) by (field; lra). rewrite Rabs_Ropp, Rabs_mult. assert (GG : 1 <= g * g') by nra.
  apply Rle_trans with (Rabs (g - g') * 1); [|lra]. apply Rmult_le_compat_l; [apply Rabs_pos|]. rewrite Rabs_pos_eq by (left; apply Rinv_0_lt_compat; lra). rewrite <- Rinv_1. apply Rinv_le; lra.
Qed.

Lemma gamma_v_ok : forall v, vlen v < light -> 1 <= gamma_v v /\ gamma_v v * gamma_v v * (1 - vlen v * vlen v / (light * light)) = 1 /\
  gamma_v v * gamma_v v = 1 + vlen (mom v) * vlen (mom v) / (light * light).
Proof.
  intros v H. assert (P := vlen_pos v). assert (LP : light = 300000000) by reflexivity.
  assert (W : 0 < 1 - vlen v * vlen v / (light * light) <= 1) by (rewrite LP in *; split; [assert (vlen v * vlen v < 300000000 * 300000000) by nra; lra|nra]).
  assert (G : gamma_v v = / sqrt (1 - vlen v * vlen v / (light * light))) by (unfold gamma_v; rewrite <- vlen_dot; unfold Rdiv at 1; ring).
  assert (S := sqrt_lt_R0 _ (proj1 W)). assert (SS := sqrt_sqrt _ (Rlt_le _ _ (proj1 W))). assert (S1 : sqrt (1 - vlen v * vlen v / (light * light)) <= 1) by (rewrite <- sqrt_1 at 2; apply sqrt_le_1_alt; lra).
  set (r := sqrt _) in *. assert (G1 : 1 <= gamma_v v) by (rewrite G, <- Rinv_1; apply Rinv_le; lra).
  assert (E : gamma_v v * gamma_v v * (1 - vlen v * vlen v / (light * light)) = 1) by (rewrite <- SS, G; field; lra).
  split; [exact G1|]. split; [exact E|]. unfold mom. rewrite vlen_scale, Rabs_pos_eq by lra.
  replace (gamma_v v * vlen v * (gamma_v v * vlen v) / (light * light)) with (gamma_v v * gamma_v v * (vlen v * vlen v / (light * light))) by (field; rewrite LP; lra). lra.
Qed.
Lemma mom_lip : forall v w g, vlen v < light -> vlen w < light -> gamma_v v <= g -> gamma_v w <= g -> distance (mom v) (mom w) <= 2 * (g * g * g) * distance v w.
Proof.
  intros v w g Hv Hw Gv Gw. destruct (gamma_v_ok v Hv) as (A & E & _). destruct (gamma_v_ok w Hw) as (A' & E' & _). set (x := gamma_v v) in *. set (y := gamma_v w) in *.
  assert (D0 : 0 <= distance v w) by apply length_pos. set (d := distance v w) in *. assert (P := vlen_pos v). assert (P' := vlen_pos w). assert (V := vlen_diff v w). fold d in V. assert (LP : light = 300000000) by reflexivity.
  set (l := vlen v) in *. set (l' := vlen w) in *.
  assert (T : distance (mom v) (mom w) <= x * d + Rabs (x - y) * l').
  { rewrite distance_minus. assert (EM : minus (mom v) (mom w) = plus (scale x (minus v w)) (scale (x - y) w)) by (unfold mom; fold x y; unfold plus, minus, scale; cbn [c0 c1 c2]; f_equal; ring). rewrite EM.
    apply Rle_trans with (1 := vlen_plus _ _). rewrite !vlen_scale, (Rabs_pos_eq x) by lra. apply Rle_refl. }
  assert (Q : (x - y) * (x + y) = x * x * (y * y) * ((l - l') * (l + l') / (light * light))).
  { replace ((x - y) * (x + y)) with (x * x * 1 - y * y * 1) by ring. rewrite <- E' at 1. rewrite <- E at 2. field. rewrite LP. lra. }
  assert (G3 : 1 <= g * g) by nra.
  assert (XY : 0 <= x * y <= g * g) by (split; [nra|apply Rmult_le_compat; lra]).
  assert (W : Rabs (x - y) * l' <= g * g * g * d).
  { apply Rmult_le_reg_r with (x + y); [lra|]. replace (Rabs (x - y) * l' * (x + y)) with (Rabs ((x - y) * (x + y)) * l') by (rewrite Rabs_mult, (Rabs_pos_eq (x + y)) by lra; ring).
    rewrite Q. unfold Rdiv. rewrite !Rabs_mult, (Rabs_pos_eq x), (Rabs_pos_eq y), (Rabs_pos_eq (l + l')), (Rabs_pos_eq (/ (light * light))) by (rewrite ?LP; lra).
    apply Rle_trans with (x * y * (x * y) * (d * 2)).
    - replace (x * x * (y * y) * (Rabs (l - l') * (l + l') * / (light * light)) * l') with (x * y * (x * y) * (Rabs (l - l') * ((l + l') * l' * / (light * light)))) by ring.
      apply Rmult_le_compat_l; [nra|]. apply Rmult_le_compat; [apply Rabs_pos| |exact V|].
      + repeat apply Rmult_le_pos; rewrite ?LP; lra.
      + apply Rmult_le_reg_r with (light * light); [rewrite LP; lra|]. rewrite Rmult_assoc, Rinv_l, Rmult_1_r by (rewrite LP; lra). replace (2 * (light * light)) with ((2 * light) * light) by ring. apply Rmult_le_compat; lra.
    - assert (H2 : 2 * (x * y) <= g * (x + y)) by nra.
      replace (x * y * (x * y) * (d * 2)) with (x * y * (2 * (x * y)) * d) by ring. replace (g * g * g * d * (x + y)) with (g * g * (g * (x + y)) * d) by ring.
      apply Rmult_le_compat_r; [exact D0|]. apply Rmult_le_compat; try lra. }
  assert (XG : x * d <= g * g * g * d) by (apply Rmult_le_compat_r; [exact D0|nra]). lra.
Qed.

Lemma step_mom : forall q m dt e h v w, boris_step q m dt e h v w -> exists b a, b = plus (mom (quiet v)) (scale (q * dt / (2 * m)) e) /\
  minus a b = cross (plus a b) (scale (mu0 * (q * dt / (2 * m)) / gamma_p b) h) /\ vlen w < light /\ mom w = plus a (scale (q * dt / (2 * m)) e).
Proof.
  intros q m dt e h v w (b & a & Eb & T & Ep). exists b, a. split; [exact Eb|]. split; [exact T|]. cbv zeta in Ep. set (p := plus a (scale (q * dt / (2 * m)) e)) in *. assert (LP : light = 300000000) by reflexivity.
  destruct (gamma_p_sq p) as (G & S). assert (LW : vlen p = gamma_p p * vlen w) by (rewrite Ep at 1; rewrite vlen_scale, Rabs_pos_eq by lra; reflexivity). set (g := gamma_p p) in *. assert (P := vlen_pos w).
  assert (S2 : g * g * (1 - vlen w * vlen w / (light * light)) = 1) by (rewrite LW in S; rewrite LP in *; lra).
  assert (VL : vlen w < light).
  { destruct (Rlt_le_dec (vlen w) light) as [X|X]; [exact X|]. exfalso. assert (1 <= vlen w * vlen w / (light * light)) by (apply Rmult_le_reg_r with (light * light); [rewrite LP; lra|]; unfold Rdiv; rewrite Rmult_assoc, Rinv_l by (rewrite LP; lra); rewrite LP in *; nra).
    assert (0 <= g * g) by nra. nra. }
  split; [exact VL|]. destruct (gamma_v_ok w VL) as (A & E & _). assert (GE : gamma_v w = g).
  { assert (Y : 0 < 1 - vlen w * vlen w / (light * light)) by (destruct (Rle_lt_dec (1 - vlen w * vlen w / (light * light)) 0) as [Z|Z]; [assert (0 <= g * g) by nra; nra|exact Z]).
    assert (Q : gamma_v w * gamma_v w = g * g) by (apply Rmult_eq_reg_r with (1 - vlen w * vlen w / (light * light)); lra).
    apply Rsqr_inj; [lra|lra|exact Q]. }
  unfold mom. rewrite GE. symmetry. exact Ep.
Qed.
Lemma rel_lip : forall q m dt e h v w v' w' B theta, boris_step q m dt e h v w -> boris_step q m dt e h v' w' ->
  vlen (mom (quiet v')) + Rabs (q * dt / (2 * m)) * vlen e <= B -> Rabs (mu0 * (q * dt / (2 * m))) * vlen h <= theta -> distance (mom w) (mom w') <= shear theta B * distance (mom (quiet v)) (mom (quiet v')).
Proof.
  intros q m dt e h v w v' w' B theta H H' HB HT. destruct (step_mom _ _ _ _ _ _ _ H) as (b & a & Eb & T & _ & EW). destruct (step_mom _ _ _ _ _ _ _ H') as (b' & a' & Eb' & T' & _ & EW'). clear H H'.
  set (k := q * dt / (2 * m)) in *. assert (LP : light = 300000000) by reflexivity.
  assert (D : distance (mom w) (mom w') = distance a a') by (rewrite EW, EW'; unfold distance, plus; cbn [c0 c1 c2]; f_equal; ring).
  assert (d : distance b b' = distance (mom (quiet v)) (mom (quiet v'))) by (rewrite Eb, Eb'; unfold distance, plus; cbn [c0 c1 c2]; f_equal; ring).
  assert (LB : vlen b' <= B) by (rewrite Eb'; apply Rle_trans with (1 := vlen_plus _ _); rewrite vlen_scale; exact HB).
  assert (L := turn_lip _ _ _ _ _ _ T T'). assert (G := gamma_p_lip b b'). rewrite D, <- d. assert (D0 : 0 <= distance b b') by apply length_pos.
  assert (Dh : distance (scale (mu0 * k / gamma_p b) h) (scale (mu0 * k / gamma_p b') h) <= theta * (distance b b' / light)).
  { assert (E : distance (scale (mu0 * k / gamma_p b) h) (scale (mu0 * k / gamma_p b') h) = Rabs (mu0 * k) * vlen h * Rabs (/ gamma_p b - / gamma_p b')).
    { rewrite distance_minus. assert (X : minus (scale (mu0 * k / gamma_p b) h) (scale (mu0 * k / gamma_p b') h) = scale (mu0 * k * (/ gamma_p b - / gamma_p b')) h) by (unfold minus, scale, Rdiv; cbn [c0 c1 c2]; f_equal; ring).
      rewrite X, vlen_scale, Rabs_mult. ring. }
    rewrite E. apply Rmult_le_compat; [apply Rmult_le_pos; [apply Rabs_pos|apply vlen_pos]|apply Rabs_pos|exact HT|exact G]. }
  assert (T0 : 0 <= theta) by (apply Rle_trans with (2 := HT); apply Rmult_le_pos; [apply Rabs_pos|apply vlen_pos]).
  assert (K : 2 * vlen b' * distance (scale (mu0 * k / gamma_p b) h) (scale (mu0 * k / gamma_p b') h) <= 2 * B * (theta * (distance b b' / light))).
  { apply Rmult_le_compat; [assert (X := vlen_pos b'); lra|apply length_pos|lra|exact Dh]. }
  apply Rle_trans with (1 := L). apply Rle_trans with (distance b b' + 2 * B * (theta * (distance b b' / light))); [lra|]. apply Req_le. unfold shear. field. rewrite LP. lra.
Qed.
Lemma quiet_mom : forall v g, vlen v < light -> gamma_v v <= g -> distance (mom (quiet v)) (mom v) <= g * g * g * (4 / 1000000000000000) /\ vlen (mom (quiet v)) <= vlen (mom v).
Proof.
  intros v g H G. assert (Q := quiet_less v). assert (HQ : vlen (quiet v) < light) by lra. destruct (gamma_v_ok v H) as (A & E & _). destruct (gamma_v_ok (quiet v) HQ) as (A' & E' & _). assert (P := vlen_pos (quiet v)).
  assert (LP : light = 300000000) by reflexivity.
  assert (GQ : gamma_v (quiet v) <= gamma_v v).
  { set (x := gamma_v (quiet v)) in *. set (y := gamma_v v) in *. set (l := vlen v) in *. set (l' := vlen (quiet v)) in *.
    assert (Y : 0 < 1 - l * l / (light * light)) by (destruct (Rle_lt_dec (1 - l * l / (light * light)) 0) as [Z|Z]; [assert (0 <= y * y) by nra; nra|exact Z]).
    assert (X : 1 - l * l / (light * light) <= 1 - l' * l' / (light * light)) by (assert (l' * l' <= l * l) by nra; rewrite LP; lra).
    assert (F : x * x <= y * y); [|apply Rsqr_incr_0_var; [exact F|lra]]. apply Rmult_le_reg_r with (1 := Y). assert (XX : x * x * (1 - l * l / (light * light)) <= x * x * (1 - l' * l' / (light * light))) by (apply Rmult_le_compat_l; [nra|exact X]). lra. }
  split.
  - assert (L := mom_lip (quiet v) v g HQ H ltac:(lra) G). assert (N := quiet_near v). assert (G3 : 0 <= g * g * g) by (repeat apply Rmult_le_pos; lra).
    apply Rle_trans with (1 := L). apply Rle_trans with (2 * (g * g * g) * (2 / 1000000000000000)); [apply Rmult_le_compat_l; lra|lra].
  - unfold mom. rewrite !vlen_scale, !Rabs_pos_eq by lra. apply Rmult_le_compat; lra.
Qed.
Lemma step_grow : forall q m dt e h v w, vlen v < light -> boris_step q m dt e h v w -> vlen w < light /\ vlen (mom w) <= vlen (mom v) + 2 * (Rabs (q * dt / (2 * m)) * vlen e).
Proof.
  intros q m dt e h v w HV H. destruct (step_mom _ _ _ _ _ _ _ H) as (b & a & Eb & T & VW & ->). split; [exact VW|]. apply turn_len in T. destruct (quiet_mom v (gamma_v v) HV (Rle_refl _)) as (_ & Q).
  apply Rle_trans with (1 := vlen_plus _ _). rewrite T, Eb, vlen_scale. assert (P := vlen_plus (mom (quiet v)) (scale (q * dt / (2 * m)) e)). rewrite vlen_scale in P. lra.
Qed.
Lemma gamma_below : forall v b, vlen v < light -> vlen (mom v) <= b -> gamma_v v <= lorentz (b + 1).
Proof.
  intros v b HV HB. destruct (gamma_v_ok v HV) as (A & _ & E). rewrite lorentz_boost. assert (G := boost_ge (b + 1)). assert (S := boost_sq (b + 1)). assert (P := vlen_pos (mom v)). assert (C : cc = light * light) by (unfold cc, light; lra).
  apply Rsqr_incr_0_var; [unfold Rsqr|lra]. rewrite E, S, C. apply Rplus_le_compat_l, Rmult_le_compat_r; [left; apply Rinv_0_lt_compat; unfold light; lra|]. apply Rmult_le_compat; lra.
Qed.

Section Run.
Variables pw lg : b64 -> b64.
Notation A := (b64_arith pw lg).
Notation r3 := (real3 pw lg).
Variable a : R.
Hypothesis HA : 0 <= a <= 8192.
Hypothesis HP : close_pow pw a.

Lemma momentum_mom : forall v : gvec A, size3 pw lg v < 300000000 -> momentum pw lg v = vlen (mom (r3 v)).
Proof.
  intros v H. change (size3 pw lg v) with (vlen (r3 v)) in H. destruct (gamma_v_ok (r3 v) H) as (G & _). unfold mom. rewrite vlen_scale, Rabs_pos_eq by lra. unfold momentum, momentum_at, gamma_v. change (size3 pw lg v) with (vlen (r3 v)).
  rewrite <- vlen_dot. unfold Rdiv at 1 3. rewrite Rmult_1_l, Rmult_comm. reflexivity.
Qed.

Theorem boris_run : forall (dt q m : b64) fs (v : gvec A) b theta, sane q m -> is_finite dt = true -> 0 < B2R dt <= bpow radix2 (-18) ->
  Forall (fun f => (finite3 pw lg (fst f) /\ size3 pw lg (fst f) <= bpow radix2 251) /\ (finite3 pw lg (snd f) /\ size3 pw lg (snd f) <= bpow radix2 251) /\
    turns_little (B2R q) (B2R m) (B2R dt) (r3 (snd f)) /\ mu0 * (Rabs (B2R q) * B2R dt / (2 * B2R m)) * size3 pw lg (snd f) <= theta) fs ->
  0 <= b -> copes a b -> (let g := lorentz (b + 1) in (a + 100 * (g * g * g)) * u <= bp (-17)) -> 0 <= theta ->
  finite3 pw lg v -> size3 pw lg v < 300000000 -> momentum pw lg v + total_impulse pw lg q m dt fs + INR (length fs) * step_error a b <= b ->
  exists v', pushes pw lg dt q m fs v = Ok v' /\ finite3 pw lg v' /\ size3 pw lg v' < 300000000 /\
    forall x w, vlen x < light -> vlen (mom x) + total_impulse pw lg q m dt fs <= b ->
      boris_steps (B2R q) (B2R m) (B2R dt) (map (fun f => (r3 (fst f), r3 (snd f))) fs) x w ->
      distance (mom (r3 v')) (mom w) <= shear theta b ^ length fs * (distance (mom (r3 v)) (mom x) + INR (length fs) * boris_error a b).
Proof.
  intros dt q m fs v b theta HQ FD HD FS B0 HC HG TH0. revert v. cbv zeta in HG.
  assert (LP : light = 300000000) by reflexivity. assert (P := u_pos). assert (S58 := bpow_ge_0 radix2 (-58)).
  assert (G := boost_ge (b + 1)). rewrite <- lorentz_boost in G. set (g := lorentz (b + 1)) in *. assert (G3 : 1 <= g * g * g) by (assert (1 <= g * g) by nra; nra).
  assert (BE : boris_error a b = g * g * g * (8192 * (a + 100 * (g * g * g)) * u * (b + bp (-58)) + 8 / 1000000000000000)) by reflexivity.
  set (ep := 2048 * (a + 100 * (g * g * g)) * u * (b + bp (-58))) in *. assert (EP0 : 0 <= ep) by (unfold ep; repeat apply Rmult_le_pos; lra).
  replace (8192 * (a + 100 * (g * g * g)) * u * (b + bp (-58))) with (4 * ep) in BE by (unfold ep; ring).
  assert (BE0 : 0 <= boris_error a b) by (rewrite BE; apply Rmult_le_pos; lra).
  assert (SH1 : 1 <= shear theta b) by (unfold shear; assert (0 <= 2 * theta * b / light) by (apply Rmult_le_pos; [repeat apply Rmult_le_pos; lra|left; apply Rinv_0_lt_compat; rewrite LP; lra]); lra).
  set (la := shear theta b) in *.
  assert (E0 : 0 <= step_error a b).
  { unfold step_error. cbv zeta. fold g. change (bpow radix2 (-53)) with u. apply Rplus_le_le_0_compat; repeat apply Rmult_le_pos; lra. }
  assert (T0 : forall l, 0 <= total_impulse pw lg q m dt l).
  { induction l as [|(e' & h') l IHl]; cbn [total_impulse fst]; [lra|]. assert (0 <= impulse pw lg q m dt e') by (apply impulse_kick; [exact HQ|lra]). lra. }
  assert (M0 : 0 < B2R m) by (destruct HQ as (_ & _ & (ML & _) & _); apply Rlt_le_trans with (2 := ML); apply bpow_gt_0).
  assert (KA : Rabs (B2R q * B2R dt / (2 * B2R m)) = Rabs (B2R q) * B2R dt / (2 * B2R m)) by (unfold Rdiv; rewrite !Rabs_mult, (Rabs_pos_eq (B2R dt)), (Rabs_pos_eq (/ (2 * B2R m))) by (try (left; apply Rinv_0_lt_compat); lra); reflexivity).
  induction FS as [|(e & h) fs ((FE & SE) & (FH & SH) & HT & HTH) _ IH]; intros v FV SV HB.
  { exists v. split; [reflexivity|]. split; [exact FV|]. split; [exact SV|]. intros x w _ _ E. cbn in E. subst w. cbn [length INR pow]. lra. }
  cbn [pushes total_impulse fst snd map boris_steps] in *. cbn [length] in *. rewrite S_INR in *.
  assert (N0 := pos_INR (length fs)). assert (TF := T0 fs). destruct (impulse_kick pw lg q m dt e HQ (proj1 HD)) as (KK & I0).
  assert (NE : 0 <= INR (length fs) * step_error a b) by (apply Rmult_le_pos; lra).
  destruct (push_close pw lg a HA HP dt q m e h v b HQ FD HD FE SE FH SH FV SV ltac:(lra) HC) as (v1 & E1 & F1 & L1 & D1). apply Rabs_le_inv in D1.
  destruct (boris_step_near pw lg a HA HP dt q m e h v b HQ FD HD FE SE FH SH FV SV ltac:(lra) HT HG) as (v1' & E1' & _ & D1').
  rewrite E1 in E1'. injection E1' as <-. rewrite E1. cbn [bind]. fold g in D1'. fold ep in D1'.
  destruct (IH v1 F1 L1 ltac:(lra)) as (v' & E2 & F2 & L2 & D2). exists v'. split; [exact E2|]. split; [exact F2|]. split; [exact L2|].
  intros x w HX HXB (z & SZ & ST).
  assert (SX := step_grow _ _ _ _ _ _ _ HX SZ). assert (KE : 2 * (Rabs (B2R q * B2R dt / (2 * B2R m)) * vlen (r3 e)) = impulse pw lg q m dt e) by (rewrite <- KK, KA; reflexivity).
  rewrite KE in SX. destruct SX as (VZ & MZ). specialize (D2 z w VZ ltac:(lra) ST).
  set (y := scale (/ gamma_p (after (B2R q) (B2R m) (B2R dt) (r3 e) (r3 h) (r3 v))) (after (B2R q) (B2R m) (B2R dt) (r3 e) (r3 h) (r3 v))).
  assert (SY : boris_step (B2R q) (B2R m) (B2R dt) (r3 e) (r3 h) (r3 v) y) by (apply boris_step_is; reflexivity). clearbody y.
  assert (VV : vlen (r3 v) < light) by exact SV. assert (VV1 : vlen (r3 v1) < light) by exact L1.
  rewrite (momentum_mom v SV) in *. rewrite (momentum_mom v1 L1) in *.
  destruct (step_grow _ _ _ _ _ _ _ VV SY) as (VY & MY). rewrite KE in MY.
  assert (GV := gamma_below _ b VV ltac:(lra)). assert (GV1 := gamma_below _ b VV1 ltac:(lra)). assert (GY := gamma_below _ b VY ltac:(lra)). assert (GX := gamma_below _ b HX ltac:(lra)). fold g in GV, GV1, GY, GX.
  assert (A1 : distance (mom (r3 v1)) (mom y) <= g * g * g * (4 * ep)).
  { apply Rle_trans with (1 := mom_lip _ _ _ VV1 VY GV1 GY). destruct (D1' y SY) as (X0 & X1 & X2). assert (DL : distance (r3 v1) y <= 2 * ep) by (apply length_parts; assumption).
    apply Rle_trans with (2 * (g * g * g) * (2 * ep)); [apply Rmult_le_compat_l; lra|lra]. }
  destruct (quiet_mom _ _ VV GV) as (QV & QV'). destruct (quiet_mom _ _ HX GX) as (QX & _).
  assert (A2 : distance (mom z) (mom y) <= la * distance (mom (quiet x)) (mom (quiet (r3 v)))).
  { apply (rel_lip _ _ _ _ _ _ _ _ _ _ _ SZ SY); [rewrite <- KE in HB; assert (0 <= Rabs (B2R q * B2R dt / (2 * B2R m)) * vlen (r3 e)) by (apply Rmult_le_pos; [apply Rabs_pos|apply vlen_pos]); lra|].
    rewrite Rabs_mult, KA, (Rabs_pos_eq mu0) by (unfold mu0; lra). exact HTH. }
  assert (A3 : distance (mom (quiet x)) (mom (quiet (r3 v))) <= distance (mom (r3 v)) (mom x) + g * g * g * (8 / 1000000000000000)).
  { assert (X1 := distance_tri (mom (quiet x)) (mom x) (mom (quiet (r3 v)))). assert (X2 := distance_tri (mom x) (mom (r3 v)) (mom (quiet (r3 v)))).
    rewrite (distance_sym (mom x) (mom (r3 v))) in X2. rewrite (distance_sym (mom (r3 v)) (mom (quiet (r3 v)))) in X2. lra. }
  set (M := distance (mom (r3 v)) (mom x)) in *. assert (M00 : 0 <= M) by apply length_pos.
  assert (A4 : distance (mom (r3 v1)) (mom z) <= la * (M + boris_error a b)).
  { assert (X := distance_tri (mom (r3 v1)) (mom y) (mom z)). rewrite (distance_sym (mom y) (mom z)) in X.
    assert (Y : la * distance (mom (quiet x)) (mom (quiet (r3 v))) <= la * (M + g * g * g * (8 / 1000000000000000))) by (apply Rmult_le_compat_l; lra).
    assert (Z : g * g * g * (4 * ep) <= la * (g * g * g * (4 * ep))) by (rewrite <- (Rmult_1_l (g * g * g * (4 * ep))) at 1; apply Rmult_le_compat_r; [apply Rmult_le_pos; lra|exact SH1]).
    rewrite BE. lra. }
  cbn [pow]. assert (PL : 0 <= la ^ length fs) by (apply pow_le; lra). apply Rle_trans with (1 := D2).
  rewrite (Rmult_comm la), Rmult_assoc. apply Rmult_le_compat_l; [exact PL|].
  assert (NB : 0 <= INR (length fs) * boris_error a b) by (apply Rmult_le_pos; lra).
  assert (Z : INR (length fs) * boris_error a b <= la * (INR (length fs) * boris_error a b)) by (rewrite <- (Rmult_1_l (INR (length fs) * boris_error a b)) at 1; apply Rmult_le_compat_r; assumption).
  lra.
Qed.
End Run.
