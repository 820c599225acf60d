(** The two half steps with rounding errors, as statements about real numbers: [d] is the cell length, [q] bounds one
    rounding error, [w] is the radius of the wall. The distances to the axis are [h] with h h = x x + y y. *)
From Coq Require Import Reals Lra Psatz.
From Flocq Require Import Core.
Local Open Scope R_scope.

Lemma sq_le_inv : forall a b, 0 <= b -> a * a <= b * b -> a <= b.
Proof. intros a b Hb H. destruct (Rle_dec a b); [assumption|]. nra. Qed.

Lemma sq_lt_inv : forall a b, 0 <= b -> a * a < b * b -> a < b.
Proof. intros a b Hb H. destruct (Rlt_dec a b); [assumption|]. nra. Qed.

(** |(x, y)| <= |c| + |(x - c, y)| *)
Lemma hyp_shift : forall x y c s h, 0 <= s -> 0 <= h -> h * h = x * x + y * y -> (x - c) * (x - c) + y * y <= s * s -> h <= Rabs c + s.
Proof.
  intros x y c s h Hs Hh E H. assert (A := Rabs_pos c). apply sq_le_inv; [lra|]. rewrite E.
  assert (C2 : Rabs c * Rabs c = c * c) by (unfold Rabs; destruct (Rcase_abs c); ring).
  assert (K : (x - c) * (x - c) <= s * s) by nra.
  assert (L : Rabs (x - c) <= s). { apply Rabs_le. split; [apply Ropp_le_cancel; rewrite Ropp_involutive|]; apply sq_le_inv; nra. }
  assert (M : c * (x - c) <= Rabs c * s).
  { apply Rle_trans with (1 := Rle_abs _). rewrite Rabs_mult. apply Rmult_le_compat_l; assumption. }
  nra.
Qed.

Section Radial.
Variables d q w : R.
Hypothesis Hd : 0 < d.
Hypothesis Hq : 0 <= q <= d / 1000000.
Hypothesis Hw : 3 / 2 * d <= w.

Definition disp (a y : R) : Prop := a * a + y * y <= 41 / 100 * d * (41 / 100 * d).
Definition at_home (r : R) : Prop := d / 2 - 8 * q <= r <= w + d / 16.

Lemma disp_abs : forall a y, disp a y -> - (41 / 100 * d) <= a <= 41 / 100 * d /\ - (41 / 100 * d) <= y <= 41 / 100 * d.
Proof.
  intros a y H. unfold disp in H. split; split.
  1,3: apply Ropp_le_cancel; rewrite Ropp_involutive. all: apply sq_le_inv; nra.
Qed.

Lemma first_half_R : forall r a y h0 h, at_home r -> disp a y -> 0 <= h0 -> h0 * h0 = (r + a) * (r + a) + y * y -> Rabs (h - h0) <= 4 * q ->
  8 / 100 * d <= h0 /\ 8 / 100 * d <= h <= w + 48 / 100 * d /\ Rabs (h - r) <= 42 / 100 * d.
Proof.
  intros r a y h0 h (R1 & R2) D H0 E N. apply Rabs_le_inv in N. destruct (disp_abs a y D) as (A & _).
  assert (U : h0 <= r + 41 / 100 * d).
  { replace r with (Rabs r) by (apply Rabs_pos_eq; lra). apply (hyp_shift (r + a) y r); try lra. unfold disp in D. nra. }
  assert (L : r + a <= h0) by (apply sq_le_inv; nra).
  split; [lra|]. split; [lra|]. apply Rabs_le. lra.
Qed.

(** The computed walls *)
Variables wf wx2 hd : R.
Hypothesis Hwf : Rabs (wf - w) <= 4 * q.
Hypothesis Hwx : Rabs (wx2 - 2 * w) <= 10 * q.
Hypothesis Hhd : Rabs (hd - d / 2) <= q.

(** [x1] reflected gives [x2] *)
Definition reflected (x1 x2 : R) : Prop :=
  (wf < x1 /\ Rabs (x2 - (wx2 - x1)) <= q) \/ (x1 <= wf /\ x1 < hd /\ Rabs (x2 - (d - x1)) <= q) \/ (x1 <= wf /\ hd <= x1 /\ x2 = x1).

Lemma second_half_R : forall r h a y x1 x2 h0 h2, at_home r -> 8 / 100 * d <= h <= w + 48 / 100 * d -> Rabs (h - r) <= 42 / 100 * d ->
  disp a y -> x1 = h + a -> reflected x1 x2 -> 0 <= h0 -> h0 * h0 = x2 * x2 + y * y -> Rabs (h2 - h0) <= 4 * q ->
  d / 2 - 4 * q <= x2 <= w + 20 * q /\ at_home h2 /\ 49 / 100 * d <= h0 /\ Rabs (h2 - r) <= 97 / 100 * d.
Proof.
  intros r h a y x1 x2 h0 h2 (R1 & R2) (A1 & A2) HR D E1 RF H0 E N. apply Rabs_le_inv in N, HR.
  destruct (disp_abs a y D) as (A & Y). apply Rabs_le_inv in Hwf, Hwx, Hhd.
  assert (X : d / 2 - 4 * q <= x2 <= w + 20 * q).
  { destruct RF as [(B & C)|[(B & B' & C)|(B & B' & C)]]; try apply Rabs_le_inv in C; lra. }
  split; [exact X|]. assert (L : x2 <= h0) by (apply sq_le_inv; nra).
  assert (YY : y * y <= 41 / 100 * d * (41 / 100 * d)) by (unfold disp in D; nra).
  assert (U : h0 <= w + 20 * q + 57 / 1000 * d). { apply sq_le_inv; [lra|]. rewrite E. nra. }
  split; [unfold at_home; lra|]. split; [lra|].
  apply Rabs_le. unfold disp in D. destruct RF as [(B & C)|[(B & B' & C)|(B & B' & C)]]; try apply Rabs_le_inv in C.
  - split; [lra|].
    (* x2 <= x1 + 20 q *)
    assert (h0 <= Rabs h + 42 / 100 * d).
    { set (t := x1 + 20 * q). assert (HX : x2 * x2 <= t * t) by (assert (0 <= x2 <= t) by (unfold t; lra); nra).
      assert (P := sqrt_pos (t * t + y * y)). assert (S : sqrt (t * t + y * y) * sqrt (t * t + y * y) = t * t + y * y) by (apply sqrt_sqrt; nra).
      apply Rle_trans with (sqrt (t * t + y * y)); [apply sq_le_inv; lra|].
      apply (hyp_shift t y h); try lra. unfold t. subst x1. replace (h + a + 20 * q - h) with (a + 20 * q) by ring.
      assert (Q1 : q * a <= d / 1000000 * (41 / 100 * d)).
      { apply Rle_trans with (q * (41 / 100 * d)); [apply Rmult_le_compat_l|apply Rmult_le_compat_r]; lra. }
      assert (Q2 : q * q <= d / 1000000 * (d / 1000000)) by (apply Rmult_le_compat; lra).
      assert (0 < d * d) by now apply Rmult_lt_0_compat. lra. }
    rewrite Rabs_pos_eq in H by lra. lra.
  - split; [lra|].
    assert (h0 <= Rabs (d - h) + 42 / 100 * d).
    { apply (hyp_shift x2 y); try lra.
      assert (K : - q - a <= x2 - (d - h) <= q - a) by lra.
      assert (KK : (x2 - (d - h)) * (x2 - (d - h)) <= (Rabs a + q) * (Rabs a + q)).
      { assert (M : Rabs (x2 - (d - h)) <= Rabs a + q).
        { apply Rabs_le. assert (Z1 := Rle_abs a). assert (Z2 := Rle_abs (- a)). rewrite Rabs_Ropp in Z2. lra. }
        assert (M0 := Rabs_pos (x2 - (d - h))).
        replace ((x2 - (d - h)) * (x2 - (d - h))) with (Rabs (x2 - (d - h)) * Rabs (x2 - (d - h))) by (unfold Rabs; destruct (Rcase_abs _); ring).
        apply Rmult_le_compat; lra. }
      assert (AA : Rabs a * Rabs a = a * a) by (unfold Rabs; destruct (Rcase_abs a); ring).
      assert (AB : 0 <= Rabs a <= 41 / 100 * d) by (split; [apply Rabs_pos|apply Rabs_le; lra]).
      assert (Q1 : q * Rabs a <= d / 1000000 * (41 / 100 * d)).
      { apply Rle_trans with (q * (41 / 100 * d)); [apply Rmult_le_compat_l|apply Rmult_le_compat_r]; lra. }
      assert (Q2 : q * q <= d / 1000000 * (d / 1000000)) by (apply Rmult_le_compat; lra).
      assert (0 < d * d) by now apply Rmult_lt_0_compat. lra. }
    unfold Rabs in H. destruct (Rcase_abs (d - h)); lra.
  - subst x2. split; [lra|].
    assert (h0 <= Rabs h + 41 / 100 * d) by (apply (hyp_shift x1 y h); try lra; subst x1; replace (h + a - h) with a by ring; lra).
    rewrite Rabs_pos_eq in H by lra. lra.
Qed.

End Radial.

(** Along the axis *)
Section Axial.
Variables d q w wf wx2 hd : R.
Hypothesis Hd : 0 < d.
Hypothesis Hq : 0 <= q <= d / 1000000.
Hypothesis Hw : 3 / 2 * d <= w.
Hypothesis Hwf : Rabs (wf - w) <= 4 * q.
Hypothesis Hwx : Rabs (wx2 - 2 * w) <= 10 * q.
Hypothesis Hhd : Rabs (hd - d / 2) <= q.

Definition at_home_z (z : R) : Prop := d / 2 - 8 * q <= z <= w + 20 * q.

Lemma axial_R : forall z a z1 b x1 x2, at_home_z z -> Rabs a <= 41 / 100 * d -> Rabs b <= 41 / 100 * d -> z1 = z + a ->
  x1 = z1 + b -> reflected d q wf wx2 hd x1 x2 ->
  8 / 100 * d <= z1 <= w + 42 / 100 * d /\ at_home_z x2 /\ Rabs (x2 - z) <= 83 / 100 * d.
Proof.
  intros z a z1 b x1 x2 (Z1 & Z2) A B -> -> RF. apply Rabs_le_inv in A, B, Hwf, Hwx, Hhd. split; [lra|].
  unfold at_home_z. destruct RF as [(X & C)|[(X & X' & C)|(X & X' & C)]]; try apply Rabs_le_inv in C;
    (split; [lra|apply Rabs_le; lra]).
Qed.
End Axial.
