(** Lengths of vectors; momentum as a function of the speed. *)
From Coq Require Import Reals ZArith Lia Lra Psatz.
From Flocq Require Import Core.
From Verif.Lib Require Import RAux.
From Verif.Model Require Import Binary64 Arith GenCode.
From Verif.Spec Require Import Momentum.
Local Open Scope R_scope.

Lemma sq_pos3 : forall x y z, 0 <= x * x + y * y + z * z.
Proof. intros x y z. assert (X := Rle_0_sqr x). assert (Y := Rle_0_sqr y). assert (Z := Rle_0_sqr z). unfold Rsqr in *. lra. Qed.
Lemma length_sq : forall x y z, length3 x y z * length3 x y z = x * x + y * y + z * z.
Proof. intros x y z. unfold length3. apply sqrt_sqrt, sq_pos3. Qed.
Lemma length_pos : forall x y z, 0 <= length3 x y z.
Proof. intros x y z. apply sqrt_pos. Qed.
Lemma length_le : forall x y z m, 0 <= m -> x * x + y * y + z * z <= m * m -> length3 x y z <= m.
Proof. intros x y z m M H. unfold length3. rewrite <- (sqrt_square m M). now apply sqrt_le_1_alt. Qed.
Lemma length_eq : forall x y z a b c, x * x + y * y + z * z = a * a + b * b + c * c -> length3 x y z = length3 a b c.
Proof. intros x y z a b c H. unfold length3. now rewrite H. Qed.
Lemma length_part : forall x y z, Rabs x <= length3 x y z /\ Rabs y <= length3 x y z /\ Rabs z <= length3 x y z.
Proof.
  intros x y z. unfold length3. assert (X := Rle_0_sqr x). assert (Y := Rle_0_sqr y). assert (Z := Rle_0_sqr z). unfold Rsqr in *.
  rewrite <- !sqrt_Rsqr_abs. unfold Rsqr. repeat split; apply sqrt_le_1_alt; lra.
Qed.
Lemma length_parts : forall x y z m, Rabs x <= m -> Rabs y <= m -> Rabs z <= m -> length3 x y z <= 2 * m.
Proof.
  intros x y z m X Y Z. assert (P := Rabs_pos x). apply length_le; [lra|].
  assert (S : forall a, Rabs a <= m -> a * a <= m * m). { intros a H. replace (a * a) with (Rabs a * Rabs a) by (unfold Rabs; destruct (Rcase_abs a); ring). apply Rmult_le_compat; auto using Rabs_pos. }
  assert (X2 := S x X). assert (Y2 := S y Y). assert (Z2 := S z Z). nra.
Qed.
Lemma length_opp : forall x y z, length3 (- x) (- y) (- z) = length3 x y z.
Proof. intros. apply length_eq. ring. Qed.
Lemma length_add : forall x y z a b c, length3 (x + a) (y + b) (z + c) <= length3 x y z + length3 a b c.
Proof.
  intros x y z a b c. assert (P := length_pos x y z). assert (Q := length_pos a b c). assert (E := length_sq x y z). assert (F := length_sq a b c).
  set (p := length3 x y z) in *. set (q := length3 a b c) in *. apply length_le; [lra|].
  assert (C : x * a + y * b + z * c <= p * q).
  { destruct (Rle_lt_dec (x * a + y * b + z * c) 0) as [N|N]; [apply Rle_trans with (1 := N); now apply Rmult_le_pos|].
    apply Rsqr_incr_0; [|lra|now apply Rmult_le_pos]. unfold Rsqr. replace (p * q * (p * q)) with (p * p * (q * q)) by ring. rewrite E, F.
    assert (X := Rle_0_sqr (x * b - y * a)). assert (Y := Rle_0_sqr (y * c - z * b)). assert (Z := Rle_0_sqr (z * a - x * c)). unfold Rsqr in *. lra. }
  replace ((p + q) * (p + q)) with (p * p + q * q + 2 * (p * q)) by ring. rewrite E, F. lra.
Qed.
Lemma length_near : forall x y z a b c m, Rabs (x - a) <= m -> Rabs (y - b) <= m -> Rabs (z - c) <= m -> Rabs (length3 x y z - length3 a b c) <= 2 * m.
Proof.
  intros x y z a b c m X Y Z. assert (L := length_parts _ _ _ _ X Y Z).
  assert (T1 := length_add a b c (x - a) (y - b) (z - c)). replace (a + (x - a)) with x in T1 by ring. replace (b + (y - b)) with y in T1 by ring. replace (c + (z - c)) with z in T1 by ring.
  assert (T2 := length_add x y z (- (x - a)) (- (y - b)) (- (z - c))). rewrite length_opp in T2.
  replace (x + - (x - a)) with a in T2 by ring. replace (y + - (y - b)) with b in T2 by ring. replace (z + - (z - c)) with c in T2 by ring. apply Rabs_le. lra.
Qed.

(** ** The Boris rotation keeps the length *)
Lemma rotation_length : forall x y z a b c, let k := 2 / (1 + (a * a + b * b + c * c)) in
  length3 (x + k * ((y - x * c + z * a) * c - (z + x * b - y * a) * b))
          (y + k * (- (x + y * c - z * b) * c + (z + x * b - y * a) * a))
          (z + k * ((x + y * c - z * b) * b - (y - x * c + z * a) * a)) = length3 x y z.
Proof. intros x y z a b c k. assert (P := sq_pos3 a b c). apply length_eq. unfold k. field. lra. Qed.

(** ** Momentum and speed *)
Definition cc : R := 300000000 * 300000000.
Lemma cc_pos : 0 < cc. Proof. unfold cc. lra. Qed.

(** slope *)
Lemma momentum_slope : forall a b g, 0 <= a -> 0 <= b -> 1 <= g -> 1 <= g * g * (1 - a * a / cc) -> 1 <= g * g * (1 - b * b / cc) ->
  Rabs (momentum_at a - momentum_at b) <= 2 * (g * g * g) * Rabs (a - b).
Proof.
  assert (K : forall a b g, 0 <= b <= a -> 1 <= g -> 1 <= g * g * (1 - a * a / cc) -> 1 <= g * g * (1 - b * b / cc) ->
    0 <= momentum_at a - momentum_at b <= 2 * (g * g * g) * (a - b)).
  { intros a b g (B0 & BA) G HA HB. unfold momentum_at. fold cc. assert (C := cc_pos). set (p := 1 - a * a / cc) in *. set (q := 1 - b * b / cc) in *.
    assert (GG : 0 < g * g) by nra. assert (PP : 0 < p) by nra. assert (PQ : p <= q).
    { unfold p, q. assert (b * b <= a * a) by (apply Rmult_le_compat; lra). assert (b * b / cc <= a * a / cc) by (apply Rmult_le_compat_r; [left; now apply Rinv_0_lt_compat|assumption]). lra. }
    assert (SP := sqrt_lt_R0 p PP). assert (SQ := sqrt_lt_R0 q ltac:(lra)). assert (EP := sqrt_sqrt p ltac:(lra)). assert (EQ := sqrt_sqrt q ltac:(lra)).
    assert (SPQ : sqrt p <= sqrt q) by (apply sqrt_le_1_alt; exact PQ).
    set (s := sqrt p) in *. set (t := sqrt q) in *.
    assert (GS : 1 <= g * s). { apply Rsqr_incr_0; [|lra|apply Rmult_le_pos; lra]. unfold Rsqr. replace (g * s * (g * s)) with (g * g * (s * s)) by ring. rewrite EP. lra. }
    assert (IS : 0 < / s <= g). { split; [now apply Rinv_0_lt_compat|]. apply Rmult_le_reg_r with s; [exact SP|]. rewrite Rinv_l by lra. lra. }
    assert (IT : 0 < / t <= / s) by (split; [now apply Rinv_0_lt_compat|apply Rinv_le; assumption]).
    assert (D : a / s - b / t = (a - b) / s + b * (/ s - / t)) by (field; lra).
    (* 1/s - 1/t = (q - p) / (s t (s + t)) *)
    assert (E1 : / s - / t = (q - p) * (/ s * / t * / (s + t))) by (rewrite <- EP, <- EQ; field; lra).
    assert (E2 : b * (q - p) <= 2 * (a - b)).
    { unfold q, p. replace (b * (1 - b * b / cc - (1 - a * a / cc))) with ((a - b) * (b * (a + b) / cc)) by (field; lra).
      rewrite (Rmult_comm 2). apply Rmult_le_compat_l; [lra|]. apply Rmult_le_reg_r with cc; [exact C|]. unfold Rdiv. rewrite Rmult_assoc, Rinv_l, Rmult_1_r by lra.
      assert (AA : a * a <= cc). { assert (a * a / cc <= 1) by (unfold p in PP; lra). apply Rmult_le_reg_r with (/ cc); [now apply Rinv_0_lt_compat|]. rewrite Rinv_r by lra. exact H. }
      nra. }
    assert (E0 : 0 <= b * (q - p)) by (apply Rmult_le_pos; lra).
    assert (IST : 0 < / (s + t) <= g / 2).
    { split; [apply Rinv_0_lt_compat; lra|]. apply Rmult_le_reg_r with (s + t); [lra|]. rewrite Rinv_l by lra. nra. }
    assert (W : 0 < / s * / t * / (s + t) <= g * g * (g / 2)).
    { split; [apply Rmult_lt_0_compat; [apply Rmult_lt_0_compat|]; apply IS || apply IT || apply IST|].
      apply Rmult_le_compat; [apply Rmult_le_pos; lra|lra| |lra]. apply Rmult_le_compat; lra. }
    rewrite D, E1. replace (b * ((q - p) * (/ s * / t * / (s + t)))) with (b * (q - p) * (/ s * / t * / (s + t))) by ring. split.
    - apply Rplus_le_le_0_compat; apply Rmult_le_pos; lra.
    - assert (T1 : (a - b) / s <= (a - b) * g) by (unfold Rdiv; apply Rmult_le_compat_l; lra).
      assert (T2 : b * (q - p) * (/ s * / t * / (s + t)) <= 2 * (a - b) * (g * g * (g / 2))) by (apply Rmult_le_compat; lra).
      assert (G3 : g <= g * g * g) by nra. assert ((a - b) * g <= (a - b) * (g * g * g)) by (apply Rmult_le_compat_l; lra). lra. }
  intros a b g HA HB G GA GB. destruct (Rle_lt_dec b a) as [L|L].
  - destruct (K a b g ltac:(lra) G GA GB). rewrite !Rabs_pos_eq; lra.
  - destruct (K b a g ltac:(lra) G GB GA). rewrite <- (Rabs_Ropp (momentum_at a - _)), <- (Rabs_Ropp (a - b)). rewrite !Rabs_pos_eq; lra.
Qed.

(** the speed of a momentum w *)
Definition boost (w : R) : R := sqrt (1 + w * w / cc).
Lemma boost_sq : forall w, boost w * boost w = 1 + w * w / cc.
Proof.
  intro w. apply sqrt_sqrt. assert (Q := Rle_0_sqr w). unfold Rsqr in Q. assert (0 <= w * w / cc) by (apply Rmult_le_pos; [exact Q|left; apply Rinv_0_lt_compat, cc_pos]). lra.
Qed.
Lemma boost_ge : forall w, 1 <= boost w.
Proof.
  intro w. unfold boost. rewrite <- sqrt_1 at 1. apply sqrt_le_1_alt. assert (Q := Rle_0_sqr w). unfold Rsqr in Q.
  assert (0 <= w * w / cc) by (apply Rmult_le_pos; [exact Q|left; apply Rinv_0_lt_compat, cc_pos]). lra.
Qed.
Lemma momentum_boost : forall w, 0 <= w -> momentum_at (w / boost w) = w /\ 1 - w / boost w * (w / boost w) / cc = / (boost w * boost w) /\ w / boost w < 300000000.
Proof.
  intros w W. assert (B := boost_ge w). assert (E := boost_sq w). assert (C := cc_pos). set (g := boost w) in *.
  assert (D : 1 - w / g * (w / g) / cc = / (g * g)).
  { apply Rmult_eq_reg_r with (g * g); [|nra]. rewrite Rinv_l by nra. replace ((1 - w / g * (w / g) / cc) * (g * g)) with (g * g - w * w / cc) by (field; split; lra). lra. }
  assert (I : 0 < / (g * g)) by (apply Rinv_0_lt_compat; nra).
  split; [|split].
  - unfold momentum_at. fold cc. rewrite D, sqrt_inv, sqrt_square by lra. field. lra.
  - exact D.
  - apply Rnot_le_lt. intro L. assert (cc <= w / g * (w / g)) by (unfold cc; apply Rmult_le_compat; lra).
    assert (1 <= w / g * (w / g) / cc) by (apply Rmult_le_reg_r with cc; [exact C|]; unfold Rdiv at 1; rewrite Rmult_assoc, Rinv_l; lra). lra.
Qed.
(** near it *)
Lemma momentum_close : forall w s g, 0 <= w -> 0 <= s -> boost w <= g -> Rabs (s - w / boost w) <= 300000000 / (32 * (g * g)) ->
  s < 300000000 /\ 1 <= 9 / 8 * g * (9 / 8 * g) * (1 - s * s / cc) /\ Rabs (momentum_at s - w) <= 3 * (g * g * g) * Rabs (s - w / boost w).
Proof.
  intros w s g W S HG D. assert (B := boost_ge w). destruct (momentum_boost w W) as (E & F & L). assert (C := cc_pos). set (t := w / boost w) in *.
  assert (T0 : 0 <= t) by (apply Rmult_le_pos; [exact W|left; apply Rinv_0_lt_compat; lra]).
  assert (G2 : 1 <= g * g) by nra. assert (IG : 0 < / (g * g) <= 1) by (split; [apply Rinv_0_lt_compat; lra|rewrite <- Rinv_1; apply Rinv_le; lra]).
  assert (DF : / (g * g) <= 1 - t * t / cc) by (rewrite F; apply Rinv_le; [nra|apply Rmult_le_compat; lra]).
  replace (300000000 / (32 * (g * g))) with (9375000 * / (g * g)) in D by (field; nra). set (i := / (g * g)) in *. assert (D' := Rabs_le_inv _ _ D).
  assert (SS : s * s / cc <= t * t / cc + i * (17 / 256)).
  { apply Rmult_le_reg_r with cc; [exact C|]. rewrite Rmult_plus_distr_r. unfold Rdiv at 1 2. rewrite !Rmult_assoc, !Rinv_l by lra. rewrite !Rmult_1_r.
    assert (s * s <= (t + 9375000 * i) * (t + 9375000 * i)) by (apply Rmult_le_compat; lra).
    assert (t * i <= 300000000 * i) by (apply Rmult_le_compat_r; lra). assert (i * i <= 1 * i) by (apply Rmult_le_compat_r; lra). unfold cc. nra. }
  assert (DS : i * (239 / 256) <= 1 - s * s / cc) by lra.
  assert (GI : g * g * i = 1) by (unfold i; field; nra).
  assert (Q : 1 <= 9 / 8 * g * (9 / 8 * g) * (1 - s * s / cc)).
  { apply Rle_trans with (9 / 8 * g * (9 / 8 * g) * (i * (239 / 256))); [|apply Rmult_le_compat_l; [nra|exact DS]].
    replace (9 / 8 * g * (9 / 8 * g) * (i * (239 / 256))) with (g * g * i * (81 / 64 * (239 / 256))) by field. rewrite GI. lra. }
  split; [|split].
  - apply Rnot_le_lt. intro N. assert (cc <= s * s) by (unfold cc; apply Rmult_le_compat; lra).
    assert (1 <= s * s / cc) by (apply Rmult_le_reg_r with cc; [exact C|]; unfold Rdiv at 1; rewrite Rmult_assoc, Rinv_l; lra). assert (0 < i * (239 / 256)) by (apply Rmult_lt_0_compat; lra). lra.
  - exact Q.
  - rewrite <- E at 1. apply Rle_trans with (2 * (9 / 8 * g * (9 / 8 * g) * (9 / 8 * g)) * Rabs (s - t)).
    + apply momentum_slope; try assumption; [lra|]. apply Rle_trans with (g * g * (1 - t * t / cc)); [|apply Rmult_le_compat_r; nra].
      rewrite <- GI. apply Rmult_le_compat_l; lra.
    + apply Rmult_le_compat_r; [apply Rabs_pos|]. assert (1 <= g * g * g) by nra. nra.
Qed.

Lemma momentum_mono : forall a b, 0 <= b <= a -> 0 < 1 - a * a / cc -> momentum_at b <= momentum_at a.
Proof.
  intros a b (B0 & BA) HA. unfold momentum_at. fold cc. assert (C := cc_pos).
  assert (b * b / cc <= a * a / cc) by (apply Rmult_le_compat_r; [left; now apply Rinv_0_lt_compat|apply Rmult_le_compat; lra]).
  assert (SP := sqrt_lt_R0 _ HA). unfold Rdiv at 1 3. apply Rmult_le_compat; [exact B0| |exact BA|].
  - left. apply Rinv_0_lt_compat, sqrt_lt_R0. lra.
  - apply Rinv_le; [exact SP|apply sqrt_le_1_alt; lra].
Qed.
Lemma momentum_pos : forall s, 0 <= s -> 0 < 1 - s * s / cc -> 0 <= momentum_at s.
Proof. intros s S H. unfold momentum_at. fold cc. apply Rmult_le_pos; [exact S|left; apply Rinv_0_lt_compat, sqrt_lt_R0, H]. Qed.
Lemma length_scale : forall k x y z, length3 (k * x) (k * y) (k * z) = Rabs k * length3 x y z.
Proof.
  intros k x y z. unfold length3. replace (k * x * (k * x) + k * y * (k * y) + k * z * (k * z)) with (k * k * (x * x + y * y + z * z)) by ring.
  rewrite sqrt_mult_alt by apply Rle_0_sqr. f_equal. apply sqrt_Rsqr_abs.
Qed.
Lemma length_add_low : forall x y z a b c, length3 x y z - length3 a b c <= length3 (x + a) (y + b) (z + c).
Proof.
  intros x y z a b c. assert (T := length_add (x + a) (y + b) (z + c) (- a) (- b) (- c)). rewrite length_opp in T.
  replace (x + a + - a) with x in T by ring. replace (y + b + - b) with y in T by ring. replace (z + c + - c) with z in T by ring. lra.
Qed.
