(** Facts about the cell number and the grid steps. *)
From Coq Require Import Reals ZArith Lia Lra.
From Verif.Lib Require Import RAux.
From Verif.Model Require Import Constants Geometry.
Local Open Scope R_scope.

Lemma dr_pos : forall g, geom_ok g -> 0 < dr g.
Proof.
  intros g (H1 & _ & H3 & _). unfold dr. apply Rdiv_pos; [exact H3|]. apply IZR_lt. lia.
Qed.

Lemma dz_pos : forall g, geom_ok g -> 0 < dz g.
Proof.
  intros g (_ & H2 & _ & H4). unfold dz. apply Rdiv_pos; [exact H4|]. apply IZR_lt. lia.
Qed.

Lemma r_size_dr : forall g, geom_ok g -> r_size g = IZR (n_r g - 1) * dr g.
Proof.
  intros g (H1 & _). unfold dr. field. apply not_0_IZR. lia.
Qed.

Lemma z_size_dz : forall g, geom_ok g -> z_size g = IZR (n_z g - 1) * dz g.
Proof.
  intros g (_ & H2 & _). unfold dz. field. apply not_0_IZR. lia.
Qed.

Lemma cell_nonneg : forall p dx, (0 <= cell p dx)%Z.
Proof. intros. unfold cell. destruct (Z.ltb_spec (CELL_NUMBER p dx) 0); lia. Qed.

Lemma div_mult_cancel : forall p dx, 0 < dx -> p / dx * dx = p.
Proof. intros. field. lra. Qed.

Lemma cell_upper : forall p dx, 0 < dx -> 0 <= p -> p <= (IZR (cell p dx) + 1) * dx.
Proof.
  intros p dx Hd Hp. unfold cell, CELL_NUMBER.
  destruct (ceilZ_spec (p / dx)) as [_ H2].
  assert (A : p <= IZR (ceilZ (p / dx)) * dx).
  { rewrite <- (div_mult_cancel p dx Hd) at 1. apply Rmult_le_compat_r; lra. }
  destruct (Z.ltb_spec (ceilZ (p / dx) - 1) 0) as [H|H].
  - assert (B : IZR (ceilZ (p / dx)) <= 0) by (apply IZR_le; lia).
    assert (C : IZR (ceilZ (p / dx)) * dx <= 0) by nra. nra.
  - rewrite minus_IZR. lra.
Qed.

Lemma cell_lower : forall p dx, 0 < dx -> 0 < p -> IZR (cell p dx) * dx < p.
Proof.
  intros p dx Hd Hp. unfold cell, CELL_NUMBER.
  destruct (ceilZ_spec (p / dx)) as [H1 _].
  destruct (Z.ltb_spec (ceilZ (p / dx) - 1) 0) as [H|H].
  - lra.
  - rewrite minus_IZR. rewrite <- (div_mult_cancel p dx Hd) at 2.
    apply Rmult_lt_compat_r; lra.
Qed.

Lemma cell_lower_le : forall p dx, 0 < dx -> 0 <= p -> IZR (cell p dx) * dx <= p.
Proof.
  intros p dx Hd Hp. destruct (Rle_lt_or_eq_dec _ _ Hp) as [H|H].
  - left. now apply cell_lower.
  - subst p. unfold cell, CELL_NUMBER.
    replace (0 / dx) with (IZR 0) by (unfold Rdiv; ring).
    rewrite ceilZ_IZR. cbn. lra.
Qed.

Lemma cell_unique : forall p dx n, 0 < dx -> (0 <= n)%Z ->
  IZR n * dx < p <= (IZR n + 1) * dx -> cell p dx = n.
Proof.
  intros p dx n Hd Hn [H1 H2]. unfold cell, CELL_NUMBER.
  assert (E : ceilZ (p / dx) = (n + 1)%Z).
  { apply ceilZ_unique. rewrite plus_IZR. split.
    - apply Rmult_lt_reg_r with dx; [lra|]. rewrite div_mult_cancel by lra. lra.
    - apply Rmult_le_reg_r with dx; [lra|]. rewrite div_mult_cancel by lra. lra. }
  rewrite E. destruct (Z.ltb_spec (n + 1 - 1) 0); lia.
Qed.

(** A position not beyond [n] steps has its cell below [n]. *)
Lemma cell_lt : forall p dx n, 0 < dx -> (1 <= n)%Z -> p <= IZR n * dx -> (cell p dx < n)%Z.
Proof.
  intros p dx n Hd Hn Hp. unfold cell, CELL_NUMBER.
  assert (A : (ceilZ (p / dx) <= n)%Z).
  { apply ceilZ_le. apply Rmult_le_reg_r with dx; [lra|]. rewrite div_mult_cancel by lra. lra. }
  destruct (Z.ltb_spec (ceilZ (p / dx) - 1) 0); lia.
Qed.

Lemma cell_r_bound : forall g r, geom_ok g -> r <= r_size g -> (0 <= cell r (dr g) <= n_r g - 2)%Z.
Proof.
  intros g r Hg Hr. split; [apply cell_nonneg|].
  assert (A := cell_lt r (dr g) (n_r g - 1) (dr_pos g Hg)).
  rewrite <- (r_size_dr g Hg) in A. destruct Hg as (H1 & _). lapply A; [|lia].
  intro B. specialize (B Hr). lia.
Qed.

Lemma cell_z_bound : forall g z, geom_ok g -> z <= z_size g -> (0 <= cell z (dz g) <= n_z g - 2)%Z.
Proof.
  intros g z Hg Hz. split; [apply cell_nonneg|].
  assert (A := cell_lt z (dz g) (n_z g - 1) (dz_pos g Hg)).
  rewrite <- (z_size_dz g Hg) in A. destruct Hg as (_ & H1 & _). lapply A; [|lia].
  intro B. specialize (B Hz). lia.
Qed.

Lemma cell_zero : forall p dx, 0 < dx -> p <= dx -> cell p dx = 0%Z.
Proof.
  intros p dx Hd Hp. assert (A := cell_lt p dx 1 Hd ltac:(lia) ltac:(lra)).
  assert (B := cell_nonneg p dx). lia.
Qed.

Lemma cell_pos : forall p dx, 0 < dx -> dx < p -> (1 <= cell p dx)%Z.
Proof.
  intros p dx Hd Hp. unfold cell, CELL_NUMBER.
  assert (A : (2 <= ceilZ (p / dx))%Z).
  { apply ceilZ_ge. apply Rmult_lt_reg_r with dx; [lra|]. rewrite div_mult_cancel by lra. lra. }
  destruct (Z.ltb_spec (ceilZ (p / dx) - 1) 0); lia.
Qed.
