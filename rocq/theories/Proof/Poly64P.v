(** The shares of a cell as polynomials: they agree with the shares of the cloud inside the cell, and up to the slack
    just outside. *)
From Coq Require Import Reals ZArith List Bool Lia Lra Psatz.
From Flocq Require Import Core.
From Verif.Lib Require Import RAux Grid.
From Verif.Model Require Import Constants.
From Verif.Spec Require Import Cloud.
From Verif.Proof Require Import GeometryP ChargeP.
Local Open Scope R_scope.

Definition PR (d : R) (c i : Z) (r : R) : R :=
  if (i =? c)%Z then (((IZR c + 1 / 2) * d) * ((IZR c + 1 / 2) * d) - (r - d / 2) * (r - d / 2)) / (2 * r * d)
  else if (i =? c + 1)%Z then ((r + d / 2) * (r + d / 2) - ((IZR c + 1 / 2) * d) * ((IZR c + 1 / 2) * d)) / (2 * r * d)
  else 0.
Definition PZ (d : R) (k j : Z) (z : R) : R :=
  if (j =? k)%Z then ((IZR k + 1) * d - z) / d else if (j =? k + 1)%Z then (z - IZR k * d) / d else 0.

Lemma share_r_poly : forall d c i r, 0 < d -> (0 <= c)%Z -> 2 / 5 * d <= r -> in_cell d c r -> share_r d i r = PR d c i r.
Proof.
  intros d c i r Hd Hc Hr HI. unfold PR. destruct (Rle_lt_dec (d / 2) r) as [L|L].
  - destruct (Z.eqb_spec i c) as [->|N]; [now apply share_r_at|]. destruct (Z.eqb_spec i (c + 1)) as [->|N']; [now apply share_r_next|]. now apply share_r_other with c.
  - destruct HI as (H1 & H2). assert (E : c = 0%Z).
    { destruct (Z.eq_dec c 0) as [|N]; [assumption|exfalso]. assert (1 <= IZR c) by (apply IZR_le; lia). nra. }
    subst c. unfold share_r. rewrite den_r. cbn [Z.add]. destruct (Z.eqb_spec i 0) as [->|N].
    + rewrite node_inner_zero, node_outer_nonneg by lia. rewrite overlap_upper; [reflexivity|nra|nra|nra].
    + destruct (Z.eqb_spec i 1) as [->|N1].
      * rewrite node_inner_pos, node_outer_nonneg by lia. replace (IZR 1 - 1 / 2) with (IZR 0 + 1 / 2) by lra. rewrite overlap_lower; [reflexivity|nra|nra|nra].
      * destruct (Z_lt_le_dec i 0) as [Hneg|Hpos].
        -- rewrite overlap_above; [unfold Rdiv; ring|]. unfold node_outer. destruct (Z.ltb_spec i 0); [|lia]. rewrite Rmult_0_l. apply sqr_nonneg.
        -- rewrite overlap_below; [unfold Rdiv; ring|]. rewrite node_inner_pos by lia. assert (2 <= IZR i) by (apply IZR_le; lia). apply sq_le; nra.
Qed.
Lemma share_z_poly : forall d k j z, 0 < d -> in_cell d k z -> share_z d j z = PZ d k j z.
Proof.
  intros d k j z Hd HI. unfold PZ. destruct (Z.eqb_spec j k) as [->|N]; [now apply share_z_at|]. destruct (Z.eqb_spec j (k + 1)) as [->|N']; [now apply share_z_next|]. now apply share_z_other with k.
Qed.

(** The first share of cell [c] in factors. *)
Lemma pr0_eq : forall d c r, 0 < d -> 0 < r ->
  (((IZR c + 1 / 2) * d) * ((IZR c + 1 / 2) * d) - (r - d / 2) * (r - d / 2)) / (2 * r * d) = (IZR c * d + r) * ((IZR c + 1) * d - r) / (2 * r * d).
Proof. intros d c r Hd Hr. f_equal. field. Qed.
Lemma pr1_eq : forall d c r, 0 < d -> 0 < r ->
  ((r + d / 2) * (r + d / 2) - ((IZR c + 1 / 2) * d) * ((IZR c + 1 / 2) * d)) / (2 * r * d) = 1 - (IZR c * d + r) * ((IZR c + 1) * d - r) / (2 * r * d).
Proof. intros d c r Hd Hr. field. lra. Qed.

Lemma quot_small : forall K d B r s, 0 < d -> 0 < r -> 0 <= B -> 0 <= s -> B <= K * (2 * r) -> forall x, Rabs x <= s * d -> Rabs (B * x / (2 * r * d)) <= K * s.
Proof.
  intros K d B r s Hd Hr HB Hs HBr x Hx. replace (B * x / (2 * r * d)) with (B / (2 * r) * (x / d)) by (field; lra). rewrite Rabs_mult.
  apply Rmult_le_compat; try apply Rabs_pos.
  - rewrite Rabs_pos_eq; [|unfold Rdiv; apply Rmult_le_pos; [lra|left; apply Rinv_0_lt_compat; lra]]. apply Rmult_le_reg_r with (2 * r); [lra|]. unfold Rdiv at 1. rewrite Rmult_assoc, Rinv_l by lra. lra.
  - unfold Rdiv. rewrite Rabs_mult, (Rabs_pos_eq (/ d)) by (left; now apply Rinv_0_lt_compat). apply Rmult_le_reg_r with d; [exact Hd|]. rewrite Rmult_assoc, Rinv_l by lra. lra.
Qed.

(** Two neighbouring cells near their common border. *)
Lemma PR_border : forall d c i r s, 0 < d -> (0 <= c)%Z -> 0 <= s <= 1 / 20 -> Rabs (r - (IZR c + 1) * d) <= s * d -> Rabs (PR d c i r - PR d (c + 1) i r) <= 3 * s.
Proof.
  intros d c i r s Hd Hc (S0 & S1) Hr. assert (C0 : 0 <= IZR c) by (apply IZR_le; exact Hc). assert (HX := Hr). apply Rabs_le_inv in Hr.
  assert (SD : s * d <= 1 / 20 * d) by (apply Rmult_le_compat_r; lra). assert (CD : 0 <= IZR c * d) by (apply Rmult_le_pos; lra).
  assert (Rp : 0 < r) by lra. assert (C1 : IZR (c + 1) = IZR c + 1) by (now rewrite plus_IZR).
  set (x := (IZR c + 1) * d - r) in *. assert (X : Rabs x <= s * d) by (unfold x; rewrite Rabs_minus_sym; exact HX).
  assert (T0 : Rabs ((IZR c * d + r) * x / (2 * r * d)) <= 11 / 10 * s) by (apply quot_small; try lra; unfold x in *; lra).
  assert (T1 : Rabs (((IZR c + 2) * d + r) * x / (2 * r * d)) <= 8 / 5 * s) by (apply quot_small; try lra; unfold x in *; lra).
  assert (E2 : (IZR (c + 1) * d + r) * ((IZR (c + 1) + 1) * d - r) / (2 * r * d) = 1 + ((IZR c + 2) * d + r) * x / (2 * r * d)).
  { rewrite C1. unfold x. field. lra. }
  unfold PR. rewrite !pr0_eq, !pr1_eq, E2 by assumption. fold x.
  apply Rabs_le_inv in T0. apply Rabs_le_inv in T1.
  destruct (Z.eqb_spec i c), (Z.eqb_spec i (c + 1)), (Z.eqb_spec i (c + 1 + 1)); try lia; apply Rabs_le; lra.
Qed.
Lemma PZ_border : forall d k j z s, 0 < d -> 0 <= s -> Rabs (z - (IZR k + 1) * d) <= s * d -> Rabs (PZ d k j z - PZ d (k + 1) j z) <= 2 * s.
Proof.
  intros d k j z s Hd S0 Hr. assert (C1 : IZR (k + 1) = IZR k + 1) by (now rewrite plus_IZR).
  assert (X : Rabs (((IZR k + 1) * d - z) / d) <= s).
  { unfold Rdiv. rewrite Rabs_mult, (Rabs_pos_eq (/ d)) by (left; now apply Rinv_0_lt_compat). apply Rmult_le_reg_r with d; [exact Hd|]. rewrite Rmult_assoc, Rinv_l, Rabs_minus_sym by lra. lra. }
  assert (E1 : (z - IZR k * d) / d = 1 - ((IZR k + 1) * d - z) / d) by (field; lra).
  assert (E2 : ((IZR (k + 1) + 1) * d - z) / d = 1 + ((IZR k + 1) * d - z) / d) by (rewrite C1; field; lra).
  assert (E3 : (z - IZR (k + 1) * d) / d = - (((IZR k + 1) * d - z) / d)) by (rewrite C1; field; lra).
  unfold PZ. rewrite E1, E2, E3. apply Rabs_le_inv in X.
  destruct (Z.eqb_spec j k), (Z.eqb_spec j (k + 1)), (Z.eqb_spec j (k + 1 + 1)); try lia; apply Rabs_le; lra.
Qed.

(** Sizes *)
Lemma PR_size : forall d c i r, 0 < d -> (0 <= c)%Z -> 2 / 5 * d <= r -> (IZR c - 1 / 10) * d <= r <= (IZR c + 1 + 1 / 10) * d -> Rabs (PR d c i r) <= 6 / 5.
Proof.
  intros d c i r Hd Hc Hr (H1 & H2). assert (C0 : 0 <= IZR c) by (apply IZR_le; exact Hc). assert (CD : 0 <= IZR c * d) by (apply Rmult_le_pos; lra). assert (Rp : 0 < r) by lra.
  assert (Q0 : - (6 / 50) <= (IZR c * d + r) * ((IZR c + 1) * d - r) / (2 * r * d) <= 6 / 5).
  { assert (E : (IZR c * d + r) * ((IZR c + 1) * d - r) / (2 * r * d) = (IZR c * d + r) / (2 * r) * (((IZR c + 1) * d - r) / d)) by (field; lra). rewrite E.
    assert (A1 : 0 <= (IZR c * d + r) / (2 * r)) by (unfold Rdiv; apply Rmult_le_pos; [lra|left; apply Rinv_0_lt_compat; lra]).
    assert (A2 : (IZR c * d + r) / (2 * r) <= 21 / 20 + 1 / 180).
    { apply Rmult_le_reg_r with (2 * r); [lra|]. unfold Rdiv at 1. rewrite Rmult_assoc, Rinv_l by lra. destruct (Z.eq_dec c 0) as [->|N]; [lra|]. assert (1 <= IZR c) by (apply IZR_le; lia). nra. }
    assert (B1 : - (1 / 10) <= ((IZR c + 1) * d - r) / d <= 11 / 10).
    { split; apply Rmult_le_reg_r with d; try exact Hd; unfold Rdiv at 1; try rewrite Rmult_assoc, Rinv_l by lra; try lra. unfold Rdiv. rewrite Rmult_assoc, Rinv_l by lra. lra. }
    set (P := (IZR c * d + r) / (2 * r)) in *. set (X := ((IZR c + 1) * d - r) / d) in *. split; nra. }
  unfold PR. rewrite pr0_eq, pr1_eq by assumption. destruct (Z.eqb_spec i c); [apply Rabs_le; lra|]. destruct (Z.eqb_spec i (c + 1)); apply Rabs_le; lra.
Qed.

Lemma PZ_size : forall d k j z, 0 < d -> (IZR k - 1 / 10) * d <= z <= (IZR k + 1 + 1 / 10) * d -> Rabs (PZ d k j z) <= 11 / 10.
Proof.
  intros d k j z Hd (H1 & H2). unfold PZ.
  assert (B : - (1 / 10) <= ((IZR k + 1) * d - z) / d <= 11 / 10).
  { split; apply Rmult_le_reg_r with d; try exact Hd; unfold Rdiv at 1; try rewrite Rmult_assoc, Rinv_l by lra; try lra. unfold Rdiv. rewrite Rmult_assoc, Rinv_l by lra. lra. }
  assert (E1 : (z - IZR k * d) / d = 1 - ((IZR k + 1) * d - z) / d) by (field; lra). rewrite E1.
  destruct (Z.eqb_spec j k); [apply Rabs_le; lra|]. destruct (Z.eqb_spec j (k + 1)); apply Rabs_le; lra.
Qed.

(** A point in a cell up to a small slack [s]. *)
Definition in_slack (d : R) (c : Z) (s p : R) : Prop := (IZR c - s) * d <= p <= (IZR c + 1 + s) * d.

Lemma PR_share : forall d c i r s, 0 < d -> (0 <= c)%Z -> 0 <= s <= 1 / 20 -> 2 / 5 * d <= r -> in_slack d c s r -> Rabs (PR d c i r - share_r d i r) <= 3 * s.
Proof.
  intros d c i r s Hd Hc HS Hr (H1 & H2). assert (C0 : 0 <= IZR c) by (apply IZR_le; exact Hc).
  assert (SD : s * d <= 1 / 20 * d) by (apply Rmult_le_compat_r; lra).
  destruct (Rlt_le_dec r (IZR c * d)) as [L|L].
  - assert (E : (1 <= c)%Z). { destruct (Z.eq_dec c 0) as [->|N]; [exfalso; lra|lia]. }
    assert (C1 : IZR (c - 1) = IZR c - 1) by (now rewrite minus_IZR).
    rewrite (share_r_poly d (c - 1)); try assumption; try lia; [|split; rewrite C1; lra].
    rewrite Rabs_minus_sym. replace (PR d c i r) with (PR d (c - 1 + 1) i r) by (f_equal; lia). apply PR_border; try assumption; try lia. rewrite C1. apply Rabs_le. lra.
  - destruct (Rle_lt_dec r ((IZR c + 1) * d)) as [U|U].
    + rewrite (share_r_poly d c); try assumption; [|split; assumption]. replace (PR d c i r - PR d c i r) with 0 by ring. rewrite Rabs_R0. lra.
    + rewrite (share_r_poly d (c + 1)); try assumption; try lia; [|split; rewrite plus_IZR; lra]. apply PR_border; try assumption. apply Rabs_le. lra.
Qed.
Lemma PZ_share : forall d k j z s, 0 < d -> 0 <= s <= 1 / 20 -> in_slack d k s z -> Rabs (PZ d k j z - share_z d j z) <= 2 * s.
Proof.
  intros d k j z s Hd HS (H1 & H2). assert (SD : s * d <= 1 / 20 * d) by (apply Rmult_le_compat_r; lra).
  destruct (Rlt_le_dec z (IZR k * d)) as [L|L].
  - assert (C1 : IZR (k - 1) = IZR k - 1) by (now rewrite minus_IZR).
    rewrite (share_z_poly d (k - 1)); try assumption; [|split; rewrite C1; lra].
    rewrite Rabs_minus_sym. replace (PZ d k j z) with (PZ d (k - 1 + 1) j z) by (f_equal; lia). apply PZ_border; try assumption; try lra. rewrite C1. apply Rabs_le. lra.
  - destruct (Rle_lt_dec z ((IZR k + 1) * d)) as [U|U].
    + rewrite (share_z_poly d k); try assumption; [|split; assumption]. replace (PZ d k j z - PZ d k j z) with 0 by ring. rewrite Rabs_R0. lra.
    + rewrite (share_z_poly d (k + 1)); try assumption; [|split; rewrite plus_IZR; lra]. apply PZ_border; try assumption; try lra. apply Rabs_le. lra.
Qed.
