(** Charge deposition: locality, sign, lists of particles (C02, C03). *)
From Coq Require Import Reals ZArith Lia Lra List Bool Permutation.
From Verif.Lib Require Import RAux Grid Interleave.
From Verif.Model Require Import Constants Geometry ChargeDeposit.
From Verif.Spec Require Import Cloud.
From Verif.Proof Require Import GeometryP ChargeP.
Import ListNotations.
Local Open Scope R_scope.

Lemma node_volume_pos : forall d_r d_z i, 0 < d_r -> 0 < d_z -> (0 <= i)%Z ->
  0 < node_volume d_r d_z i.
Proof.
  intros d_r d_z i Hr Hz Hi. assert (HP := c_PI_pos).
  destruct (Z.eq_dec i 0) as [->|Hn].
  - rewrite node_volume_0. unfold CYL_VOL.
    apply Rdiv_pos; [|lra]. repeat apply Rmult_lt_0_compat; lra.
  - rewrite node_volume_pos_i by lia. assert (A := IZR_ge1 i ltac:(lia)). unfold CELL_VOLUME.
    repeat apply Rmult_lt_0_compat; lra.
Qed.

(** Every increment is the charge times a fraction between 0 and 1, over the node volume. *)
Lemma charge_weighting_fractions : forall g q r z, geom_ok g -> 0 <= r -> 0 <= z ->
  Forall (fun c => exists w, 0 <= w <= 1 /\ val c * node_volume (dr g) (dz g) (row c) = q * w)
         (charge_weighting_single g q r z).
Proof.
  intros g q r z Hg Hr Hz.
  assert (Hdr := dr_pos g Hg). assert (Hdz := dz_pos g Hg). assert (HP := c_PI_pos).
  assert (Ir1 : IZR (cell r (dr g)) * dr g <= r) by (apply cell_lower_le; lra).
  assert (Ir2 : r <= (IZR (cell r (dr g)) + 1) * dr g) by (apply cell_upper; lra).
  assert (Iz1 : IZR (cell z (dz g)) * dz g <= z) by (apply cell_lower_le; lra).
  assert (Iz2 : z <= (IZR (cell z (dz g)) + 1) * dz g) by (apply cell_upper; lra).
  assert (C0 := cell_nonneg r (dr g)). assert (C0R := IZR_nonneg _ C0).
  (* axial fractions *)
  set (k := cell z (dz g)) in *.
  set (f1 := ((IZR k + 1) * dz g - z) / dz g). set (f2 := (z - IZR k * dz g) / dz g).
  assert (F1 : 0 <= f1 <= 1).
  { unfold f1. split; [apply Rdiv_nonneg; lra|apply Rdiv_le_1; lra]. }
  assert (F2 : 0 <= f2 <= 1).
  { unfold f2. split; [apply Rdiv_nonneg; lra|apply Rdiv_le_1; lra]. }
  assert (PR : forall a b, 0 <= a <= 1 -> 0 <= b <= 1 -> 0 <= a * b <= 1).
  { intros a b A B. split; nra. }
  unfold charge_weighting_single.
  destruct (Rlt_dec (dr g) r) as [H|H]; [|destruct (Rle_dec r (dr g / 2)) as [H'|H']].
  - assert (C1 := cell_pos r (dr g) Hdr H). assert (C1R := IZR_ge1 _ C1).
    set (c := cell r (dr g)) in *. fold k.
    set (g1 := (((IZR c + 1/2) * dr g) * ((IZR c + 1/2) * dr g) - (r - dr g/2) * (r - dr g/2)) / (2 * r * dr g)).
    set (g2 := ((r + dr g/2) * (r + dr g/2) - ((IZR c + 1/2) * dr g) * ((IZR c + 1/2) * dr g)) / (2 * r * dr g)).
    assert (D : 0 < 2 * r * dr g) by nra.
    assert (G1 : 0 <= g1 <= 1).
    { unfold g1. split; [apply Rdiv_nonneg; [|lra]; nra|apply Rdiv_le_1; [lra|]]. nra. }
    assert (G2 : 0 <= g2 <= 1).
    { unfold g2. split; [apply Rdiv_nonneg; [|lra]; nra|apply Rdiv_le_1; [lra|]]. nra. }
    repeat apply Forall_cons; try apply Forall_nil; cbn [row val].
    + exists (g1 * f1). split; [now apply PR|]. rewrite node_volume_pos_i by lia.
      unfold g1, f1, CELL_VOLUME, CYL_RNG_VOL. field. repeat split; lra.
    + exists (g2 * f1). split; [now apply PR|]. rewrite node_volume_pos_i by lia.
      unfold g2, f1, CELL_VOLUME, CYL_RNG_VOL. rewrite plus_IZR. field. repeat split; lra.
    + exists (g1 * f2). split; [now apply PR|]. rewrite node_volume_pos_i by lia.
      unfold g1, f2, CELL_VOLUME, CYL_RNG_VOL. field. repeat split; lra.
    + exists (g2 * f2). split; [now apply PR|]. rewrite node_volume_pos_i by lia.
      unfold g2, f2, CELL_VOLUME, CYL_RNG_VOL. rewrite plus_IZR. field. repeat split; lra.
  - fold k.
    set (den := 2 * r * r + dr g * dr g / 2).
    assert (D : 0 < den) by (unfold den; nra).
    set (g1 := (dr g * dr g / 2 - r * dr g + r * r) / den).
    set (g2 := (r * r + r * dr g) / den).
    assert (G1 : 0 <= g1 <= 1).
    { unfold g1. split; [apply Rdiv_nonneg; [|lra]|apply Rdiv_le_1; [lra|]]; unfold den; nra. }
    assert (G2 : 0 <= g2 <= 1).
    { unfold g2. split; [apply Rdiv_nonneg; [|lra]|apply Rdiv_le_1; [lra|]]; unfold den; nra. }
    assert (D' : den <> 0) by lra.
    repeat apply Forall_cons; try apply Forall_nil; cbn [row val].
    + exists (g1 * f1). split; [now apply PR|]. rewrite node_volume_0.
      unfold g1, f1, CYL_VOL. fold den. field. repeat split; lra.
    + exists (g2 * f1). split; [now apply PR|]. rewrite node_volume_pos_i by lia.
      unfold g2, f1, CELL_VOLUME, CYL_RNG_VOL. rewrite plus_IZR. fold den. field. repeat split; lra.
    + exists (g1 * f2). split; [now apply PR|]. rewrite node_volume_0.
      unfold g1, f2, CYL_VOL. fold den. field. repeat split; lra.
    + exists (g2 * f2). split; [now apply PR|]. rewrite node_volume_pos_i by lia.
      unfold g2, f2, CELL_VOLUME, CYL_RNG_VOL. rewrite plus_IZR. fold den. field. repeat split; lra.
  - assert (Ec : cell r (dr g) = 0%Z) by (apply cell_zero; lra). rewrite Ec in *. fold k.
    set (g1 := ((1/2 * dr g) * (1/2 * dr g) - (r - dr g/2) * (r - dr g/2)) / (2 * r * dr g)).
    set (g2 := ((r + dr g/2) * (r + dr g/2) - (1/2 * dr g) * (1/2 * dr g)) / (2 * r * dr g)).
    assert (D : 0 < 2 * r * dr g) by nra.
    assert (G1 : 0 <= g1 <= 1).
    { unfold g1. split; [apply Rdiv_nonneg; [|lra]; nra|apply Rdiv_le_1; [lra|]]. nra. }
    assert (G2 : 0 <= g2 <= 1).
    { unfold g2. split; [apply Rdiv_nonneg; [|lra]; nra|apply Rdiv_le_1; [lra|]]. nra. }
    repeat apply Forall_cons; try apply Forall_nil; cbn [row val].
    + exists (g1 * f1). split; [now apply PR|]. rewrite node_volume_0.
      unfold g1, f1, CYL_VOL, CYL_RNG_VOL. field. repeat split; lra.
    + exists (g2 * f1). split; [now apply PR|]. rewrite node_volume_pos_i by lia.
      unfold g2, f1, CELL_VOLUME, CYL_RNG_VOL. rewrite plus_IZR. field. repeat split; lra.
    + exists (g1 * f2). split; [now apply PR|]. rewrite node_volume_0.
      unfold g1, f2, CYL_VOL, CYL_RNG_VOL. field. repeat split; lra.
    + exists (g2 * f2). split; [now apply PR|]. rewrite node_volume_pos_i by lia.
      unfold g2, f2, CELL_VOLUME, CYL_RNG_VOL. rewrite plus_IZR. field. repeat split; lra.
Qed.

(** Sign: an increment never has the sign opposite to the charge. *)
Lemma charge_weighting_sign : forall g q r z, geom_ok g -> 0 <= r -> 0 <= z ->
  Forall (fun c => 0 <= q * val c) (charge_weighting_single g q r z).
Proof.
  intros g q r z Hg Hr Hz.
  assert (A := charge_weighting_fractions g q r z Hg Hr Hz).
  destruct (charge_weighting_indices g q r z Hg) as [B _].
  rewrite Forall_forall in *. intros c Hc. destruct (A c Hc) as (w & [W0 _] & E).
  assert (Hrow : (0 <= row c)%Z).
  { assert (I : In (row c) (map row (charge_weighting_single g q r z))) by now apply in_map.
    rewrite B in I. assert (P := cell_nonneg r (dr g)). cbn in I. lia. }
  assert (V := node_volume_pos (dr g) (dz g) (row c) (dr_pos g Hg) (dz_pos g Hg) Hrow).
  assert (F : (q * val c) * node_volume (dr g) (dz g) (row c) = q * q * w).
  { transitivity (q * (val c * node_volume (dr g) (dz g) (row c))); [ring|]. rewrite E. ring. }
  assert (G : 0 <= q * q * w) by (apply Rmult_le_pos; [apply sqr_nonneg|lra]).
  rewrite <- F in G. destruct (Rle_lt_dec 0 (q * val c)) as [L|L]; [exact L|]. nra.
Qed.

(** Locality: a touched node is at most one step away in each direction. *)
Lemma charge_weighting_local : forall g q r z, geom_ok g -> 0 <= r -> 0 <= z ->
  Forall (fun c => Rabs (IZR (row c) * dr g - r) <= dr g /\ Rabs (IZR (col c) * dz g - z) <= dz g)
         (charge_weighting_single g q r z).
Proof.
  intros g q r z Hg Hr Hz.
  destruct (charge_weighting_indices g q r z Hg) as [B C].
  assert (Hdr := dr_pos g Hg). assert (Hdz := dz_pos g Hg).
  assert (Ir1 : IZR (cell r (dr g)) * dr g <= r) by (apply cell_lower_le; lra).
  assert (Ir2 : r <= (IZR (cell r (dr g)) + 1) * dr g) by (apply cell_upper; lra).
  assert (Iz1 : IZR (cell z (dz g)) * dz g <= z) by (apply cell_lower_le; lra).
  assert (Iz2 : z <= (IZR (cell z (dz g)) + 1) * dz g) by (apply cell_upper; lra).
  apply Forall_forall. intros c Hc. split.
  - assert (I : In (row c) (map row (charge_weighting_single g q r z))) by now apply in_map.
    rewrite B in I. apply Rabs_le.
    cbn in I. destruct I as [I|[I|[I|[I|[]]]]]; rewrite <- I, ?plus_IZR; lra.
  - assert (I : In (col c) (map col (charge_weighting_single g q r z))) by now apply in_map.
    rewrite C in I. apply Rabs_le.
    cbn in I. destruct I as [I|[I|[I|[I|[]]]]]; rewrite <- I, ?plus_IZR; lra.
Qed.

Lemma charge_weighting_four : forall g q r z, length (charge_weighting_single g q r z) = 4%nat.
Proof.
  intros. unfold charge_weighting_single.
  destruct (Rlt_dec (dr g) r); [reflexivity|]. destruct (Rle_dec r (dr g / 2)); reflexivity.
Qed.

(** ** Lists of particles *)

Lemma charge_weighting_incs : forall g ps rho,
  charge_weighting g rho ps = apply_incs rho (flat_map (charge_weighting_part g) ps).
Proof.
  intros g ps. unfold charge_weighting. induction ps as [|p ps IH]; intro rho; [reflexivity|].
  cbn [fold_left flat_map]. rewrite IH, apply_incs_app. reflexivity.
Qed.

Lemma charge_weighting_sum : forall g ps rho i k,
  charge_weighting g rho ps i k =
  rho i k + rsum (map (fun p => charge_weighting g zero_arr [p] i k) ps).
Proof.
  intros g ps rho i k. rewrite charge_weighting_incs, apply_incs_at. f_equal.
  induction ps as [|p ps IH]; [reflexivity|]. cbn [flat_map map rsum]. rewrite inc_at_app. f_equal.
  - rewrite charge_weighting_incs, apply_incs_at. cbn [flat_map]. rewrite app_nil_r.
    unfold zero_arr. lra.
  - exact IH.
Qed.

Lemma charge_weighting_perm : forall g ps ps' rho, Permutation ps ps' ->
  forall i k, charge_weighting g rho ps i k = charge_weighting g rho ps' i k.
Proof.
  intros g ps ps' rho H i k. rewrite !charge_weighting_incs, !apply_incs_at. f_equal.
  apply inc_at_perm. now apply Permutation_flat_map.
Qed.

Lemma concat_flat_map : forall {A B} (f : A -> list B) ls,
  concat (map (flat_map f) ls) = flat_map f (concat ls).
Proof.
  intros A B f ls. induction ls as [|l ls IH]; [reflexivity|].
  cbn. rewrite IH, flat_map_app. reflexivity.
Qed.

Lemma charge_weighting_threads : forall g rho ps parts tr,
  Permutation (concat parts) ps ->
  interleaves (map (flat_map (charge_weighting_part g)) parts) tr ->
  forall i k, apply_incs rho tr i k = charge_weighting g rho ps i k.
Proof.
  intros g rho ps parts tr Hp Hi i k.
  rewrite charge_weighting_incs, !apply_incs_at. f_equal. symmetry. apply inc_at_perm.
  apply interleaves_perm in Hi. rewrite concat_flat_map in Hi.
  apply Permutation_trans with (flat_map (charge_weighting_part g) (concat parts)); [|exact Hi].
  apply Permutation_flat_map. now apply Permutation_sym.
Qed.

Lemma charge_weighting_list_total : forall g ps rho,
  geom_ok g ->
  Forall (fun p => q_alive p = true -> 0 <= q_r p <= r_size g /\ 0 <= q_z p <= z_size g) ps ->
  grid_charge (n_r g) (n_z g) (dr g) (dz g) (charge_weighting g rho ps) =
  grid_charge (n_r g) (n_z g) (dr g) (dz g) rho +
    rsum (map (fun p => if q_alive p then q_charge p else 0) ps).
Proof.
  intros g ps rho Hg H. revert rho. induction H as [|p ps Hp _ IH]; intro rho.
  - cbn. lra.
  - cbn [map rsum]. unfold charge_weighting in *. cbn [fold_left]. rewrite IH.
    unfold charge_weighting_part. destruct (q_alive p) eqn:E.
    + destruct (Hp eq_refl) as [Hr Hz]. rewrite charge_weighting_total by assumption. lra.
    + cbn. lra.
Qed.
