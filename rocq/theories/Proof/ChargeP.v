(** Charge deposition: proofs for C01, C02, C03. *)
From Coq Require Import Reals ZArith Lia Lra List Bool Permutation.
From Verif.Lib Require Import RAux Grid.
From Verif.Model Require Import Constants Geometry ChargeDeposit.
From Verif.Spec Require Import Cloud.
From Verif.Proof Require Import GeometryP.
Import ListNotations.
Local Open Scope R_scope.

(** ** The overlap function *)

Lemma overlap_nonneg : forall a b c d, 0 <= overlap a b c d.
Proof. intros. unfold overlap. apply Rmax_l. Qed.

(** The cloud [a,b] reaches from inside [c,d] beyond its upper end. *)
Lemma overlap_upper : forall a b c d, c <= a -> a <= d -> d <= b -> overlap a b c d = d - a.
Proof.
  intros. unfold overlap. rewrite (Rmin_right b d) by lra. rewrite (Rmax_left a c) by lra.
  apply Rmax_right. lra.
Qed.

Lemma overlap_lower : forall a b c d, a <= c -> c <= b -> b <= d -> overlap a b c d = b - c.
Proof.
  intros. unfold overlap. rewrite (Rmin_left b d) by lra. rewrite (Rmax_right a c) by lra.
  apply Rmax_right. lra.
Qed.

Lemma overlap_above : forall a b c d, d <= a -> overlap a b c d = 0.
Proof.
  intros. unfold overlap. apply Rmax_left.
  assert (Rmin b d <= d) by apply Rmin_r. assert (a <= Rmax a c) by apply Rmax_l. lra.
Qed.

Lemma overlap_below : forall a b c d, b <= c -> overlap a b c d = 0.
Proof.
  intros. unfold overlap. apply Rmax_left.
  assert (Rmin b d <= b) by apply Rmin_l. assert (c <= Rmax a c) by apply Rmax_r. lra.
Qed.

(** ** Shares of a particle in cell [c] *)

Lemma sq_le : forall a b, 0 <= a -> a <= b -> a * a <= b * b.
Proof. intros. nra. Qed.

Definition in_cell (d : R) (c : Z) (p : R) : Prop := IZR c * d <= p <= (IZR c + 1) * d.

Lemma share_z_at : forall d k z, 0 < d -> in_cell d k z ->
  share_z d k z = ((IZR k + 1) * d - z) / d.
Proof.
  intros d k z Hd [H1 H2]. unfold share_z. rewrite overlap_upper by lra. f_equal. lra.
Qed.

Lemma share_z_next : forall d k z, 0 < d -> in_cell d k z ->
  share_z d (k + 1) z = (z - IZR k * d) / d.
Proof.
  intros d k z Hd [H1 H2]. unfold share_z. rewrite plus_IZR. rewrite overlap_lower by lra. f_equal. lra.
Qed.

Lemma IZR_le_pred : forall a b, (a < b)%Z -> IZR a + 1 <= IZR b.
Proof. intros. rewrite <- plus_IZR. apply IZR_le. lia. Qed.

Lemma share_z_other : forall d k z j, 0 < d -> in_cell d k z ->
  j <> k -> j <> (k + 1)%Z -> share_z d j z = 0.
Proof.
  intros d k z j Hd [H1 H2] Hj Hj1. unfold share_z.
  destruct (Z_lt_le_dec j k) as [H|H].
  - rewrite overlap_above; [unfold Rdiv; ring|].
    assert (A := IZR_le_pred j k H). nra.
  - assert (B : (k + 1 < j)%Z) by lia. assert (A := IZR_le_pred _ _ B). rewrite plus_IZR in A.
    rewrite overlap_below; [unfold Rdiv; ring|]. nra.
Qed.

Lemma den_r : forall d r, (r + d/2) * (r + d/2) - (r - d/2) * (r - d/2) = 2 * r * d.
Proof. intros. field. Qed.

Lemma node_outer_nonneg : forall d i, (0 <= i)%Z -> node_outer d i = (IZR i + 1/2) * d.
Proof. intros. unfold node_outer. destruct (Z.ltb_spec i 0); [lia|reflexivity]. Qed.

Lemma node_inner_pos : forall d i, (0 < i)%Z -> node_inner d i = (IZR i - 1/2) * d.
Proof. intros. unfold node_inner. destruct (Z.leb_spec i 0); [lia|reflexivity]. Qed.

Lemma node_inner_zero : forall d i, (i <= 0)%Z -> node_inner d i = 0.
Proof. intros. unfold node_inner. destruct (Z.leb_spec i 0); [reflexivity|lia]. Qed.

Lemma node_inner_outer_pred : forall d i, node_inner d i = node_outer d (i - 1).
Proof.
  intros. unfold node_inner, node_outer.
  destruct (Z.leb_spec i 0), (Z.ltb_spec (i - 1) 0); try lia; [reflexivity|].
  rewrite minus_IZR. lra.
Qed.

Lemma share_r_at : forall d c r, 0 < d -> (0 <= c)%Z -> d/2 <= r -> in_cell d c r ->
  share_r d c r = (((IZR c + 1/2) * d) * ((IZR c + 1/2) * d) - (r - d/2) * (r - d/2)) / (2 * r * d).
Proof.
  intros d c r Hd Hc Hr [H1 H2]. unfold share_r. rewrite den_r, node_outer_nonneg by lia.
  f_equal. assert (Z0 : 0 <= IZR c) by (apply IZR_le; lia).
  apply overlap_upper.
  - destruct (Z.eq_dec c 0) as [->|Hn].
    + rewrite node_inner_zero by lia. nra.
    + rewrite node_inner_pos by lia. assert (1 <= IZR c) by (apply IZR_le; lia). apply sq_le; nra.
  - apply sq_le; lra.
  - apply sq_le; nra.
Qed.

Lemma share_r_next : forall d c r, 0 < d -> (0 <= c)%Z -> d/2 <= r -> in_cell d c r ->
  share_r d (c + 1) r = ((r + d/2) * (r + d/2) - ((IZR c + 1/2) * d) * ((IZR c + 1/2) * d)) / (2 * r * d).
Proof.
  intros d c r Hd Hc Hr [H1 H2]. unfold share_r. rewrite den_r.
  f_equal. assert (Z0 : 0 <= IZR c) by (apply IZR_le; lia).
  rewrite node_inner_pos, node_outer_nonneg by lia. rewrite plus_IZR.
  replace (IZR c + 1 - 1/2) with (IZR c + 1/2) by lra.
  apply overlap_lower.
  - apply sq_le; lra.
  - apply sq_le; nra.
  - apply sq_le; lra.
Qed.

Lemma share_r_other : forall d c r j, 0 < d -> (0 <= c)%Z -> d/2 <= r -> in_cell d c r ->
  j <> c -> j <> (c + 1)%Z -> share_r d j r = 0.
Proof.
  intros d c r j Hd Hc Hr [H1 H2] Hj Hj1. unfold share_r. rewrite den_r.
  assert (Z0 : 0 <= IZR c) by (apply IZR_le; lia).
  destruct (Z_lt_le_dec j c) as [H|H].
  - rewrite overlap_above; [unfold Rdiv; ring|].
    destruct (Z_lt_le_dec j 0) as [Hneg|Hpos].
    + unfold node_outer. destruct (Z.ltb_spec j 0); [|lia]. rewrite Rmult_0_l. apply sqr_nonneg.
    + rewrite node_outer_nonneg by lia. assert (A := IZR_le_pred j c H).
      assert (0 <= IZR j) by (apply IZR_le; lia). apply sq_le; nra.
  - assert (B : (c + 1 < j)%Z) by lia. assert (A := IZR_le_pred _ _ B). rewrite plus_IZR in A.
    rewrite overlap_below; [unfold Rdiv; ring|].
    rewrite node_inner_pos by lia. apply sq_le; nra.
Qed.

(** ** Node volumes *)

Lemma node_area_0 : forall d, node_area d 0 = c_PI * d * d / 4.
Proof. intro d. unfold node_area, node_outer, node_inner. cbn. field. Qed.

Lemma node_area_pos_i : forall d i, (1 <= i)%Z -> node_area d i = 2 * c_PI * IZR i * d * d.
Proof.
  intros d i Hi. unfold node_area. rewrite node_outer_nonneg, node_inner_pos by lia. field.
Qed.

Lemma node_volume_0 : forall d_r d_z, node_volume d_r d_z 0 = CYL_VOL d_z d_r.
Proof. intros. unfold node_volume, CYL_VOL. rewrite node_area_0. field. Qed.

Lemma node_volume_pos_i : forall d_r d_z i, (1 <= i)%Z ->
  node_volume d_r d_z i = CELL_VOLUME (IZR i) d_r d_z.
Proof. intros. unfold node_volume, CELL_VOLUME. rewrite node_area_pos_i by lia. ring. Qed.

(** ** Indices used by a deposit *)

Lemma charge_weighting_indices : forall g q r z,
  geom_ok g ->
  map row (charge_weighting_single g q r z) =
    [cell r (dr g); (cell r (dr g) + 1)%Z; cell r (dr g); (cell r (dr g) + 1)%Z] /\
  map col (charge_weighting_single g q r z) =
    [cell z (dz g); cell z (dz g); (cell z (dz g) + 1)%Z; (cell z (dz g) + 1)%Z].
Proof.
  intros g q r z Hg. assert (Hd := dr_pos g Hg). unfold charge_weighting_single.
  destruct (Rlt_dec (dr g) r) as [H|H]; [cbn; auto|].
  destruct (Rle_dec r (dr g / 2)) as [H'|H']; [|cbn; auto].
  rewrite (cell_zero r (dr g)) by lra. cbn. auto.
Qed.

Lemma charge_weighting_inside : forall g q r z,
  geom_ok g -> r <= r_size g -> z <= z_size g ->
  Forall (inc_inside (n_r g) (n_z g)) (charge_weighting_single g q r z).
Proof.
  intros g q r z Hg Hr Hz.
  assert (A := cell_r_bound g r Hg Hr). assert (B := cell_z_bound g z Hg Hz).
  assert (Hd := dr_pos g Hg). unfold charge_weighting_single.
  assert (C : forall l, Forall (inc_inside (n_r g) (n_z g)) l <->
              (forall c, In c l -> inside (n_r g) (n_z g) (row c) (col c))).
  { intro l. apply Forall_forall. }
  destruct (Rlt_dec (dr g) r) as [H|H];
    [|destruct (Rle_dec r (dr g / 2)) as [H'|H']];
    repeat (apply Forall_cons; [split; cbn [row col]; lia|]); apply Forall_nil.
Qed.

(** ** Density at a node times its volume: the cloud share *)

Lemma inc_at4 : forall i0 k0 v00 v10 v01 v11 i k,
  inc_at [Inc i0 k0 v00; Inc (i0 + 1) k0 v10; Inc i0 (k0 + 1) v01; Inc (i0 + 1) (k0 + 1) v11] i k =
  (if (i =? i0)%Z then (if (k =? k0)%Z then v00 else if (k =? k0 + 1)%Z then v01 else 0)
   else if (i =? i0 + 1)%Z then (if (k =? k0)%Z then v10 else if (k =? k0 + 1)%Z then v11 else 0)
   else 0).
Proof.
  intros. unfold inc_at. cbn [map rsum row col val].
  destruct (Z.eqb_spec i i0), (Z.eqb_spec i (i0 + 1)), (Z.eqb_spec k k0), (Z.eqb_spec k (k0 + 1));
    cbn; try lia; lra.
Qed.

(** Generic step: if the four products value*volume are the products of the shares of row
    and column, the deposit is the share everywhere. *)
Lemma four_nodes_share : forall d_r d_z q r z c k v00 v10 v01 v11,
  0 < d_r -> 0 < d_z -> (0 <= c)%Z -> d_r/2 <= r -> in_cell d_r c r -> in_cell d_z k z ->
  v00 * node_volume d_r d_z c = q * (share_r d_r c r * share_z d_z k z) ->
  v10 * node_volume d_r d_z (c + 1) = q * (share_r d_r (c + 1) r * share_z d_z k z) ->
  v01 * node_volume d_r d_z c = q * (share_r d_r c r * share_z d_z (k + 1) z) ->
  v11 * node_volume d_r d_z (c + 1) = q * (share_r d_r (c + 1) r * share_z d_z (k + 1) z) ->
  forall i j,
  inc_at [Inc c k v00; Inc (c + 1) k v10; Inc c (k + 1) v01; Inc (c + 1) (k + 1) v11] i j
    * node_volume d_r d_z i = q * share d_r d_z i j r z.
Proof.
  intros d_r d_z q r z c k v00 v10 v01 v11 Hr Hz Hc Hrr Hir Hiz E00 E10 E01 E11 i j.
  rewrite inc_at4. unfold share.
  destruct (Z.eqb_spec i c) as [->|Hi].
  - destruct (Z.eqb_spec j k) as [->|Hj]; [exact E00|].
    destruct (Z.eqb_spec j (k + 1)) as [->|Hj1]; [exact E01|].
    rewrite (share_z_other d_z k z j) by assumption. ring.
  - destruct (Z.eqb_spec i (c + 1)) as [->|Hi1].
    + destruct (Z.eqb_spec j k) as [->|Hj]; [exact E10|].
      destruct (Z.eqb_spec j (k + 1)) as [->|Hj1]; [exact E11|].
      rewrite (share_z_other d_z k z j) by assumption. ring.
    + rewrite (share_r_other d_r c r i) by assumption. ring.
Qed.

Lemma charge_weighting_share : forall g q r z, geom_ok g -> dr g / 2 <= r -> 0 <= z ->
  forall i k, inc_at (charge_weighting_single g q r z) i k * node_volume (dr g) (dz g) i =
              q * share (dr g) (dz g) i k r z.
Proof.
  intros g q r z Hg Hr Hz.
  assert (Hdr := dr_pos g Hg). assert (Hdz := dz_pos g Hg).
  assert (HP := c_PI_pos).
  assert (Ir : in_cell (dr g) (cell r (dr g)) r).
  { split; [apply cell_lower_le; lra|apply cell_upper; lra]. }
  assert (Iz : in_cell (dz g) (cell z (dz g)) z).
  { split; [apply cell_lower_le; lra|apply cell_upper; lra]. }
  assert (C0 := cell_nonneg r (dr g)). assert (C0R := IZR_nonneg _ C0).
  unfold charge_weighting_single.
  destruct (Rlt_dec (dr g) r) as [H|H]; [|destruct (Rle_dec r (dr g / 2)) as [H'|H']].
  - assert (C1 := cell_pos r (dr g) Hdr H). assert (C1R := IZR_ge1 _ C1).
    set (c := cell r (dr g)) in *. set (k := cell z (dz g)) in *.
    apply four_nodes_share; auto;
      rewrite ?share_r_at, ?share_r_next, ?share_z_at, ?share_z_next by assumption;
      rewrite node_volume_pos_i by lia; unfold CELL_VOLUME, CYL_RNG_VOL; rewrite ?plus_IZR;
      field; repeat split; lra.
  - assert (E : r = dr g / 2) by lra.
    assert (Ec : cell r (dr g) = 0%Z) by (apply cell_zero; lra). rewrite Ec in Ir.
    set (k := cell z (dz g)) in *.
    apply four_nodes_share; auto; try lia;
      rewrite ?share_r_at, ?share_r_next, ?share_z_at, ?share_z_next by (assumption || lia);
      rewrite ?node_volume_0; rewrite ?node_volume_pos_i by lia;
      unfold CYL_VOL, CELL_VOLUME, CYL_RNG_VOL; rewrite ?plus_IZR, E;
      field; repeat split; try lra; apply Rgt_not_eq; nra.
  - assert (Ec : cell r (dr g) = 0%Z) by (apply cell_zero; lra). rewrite Ec in *.
    set (k := cell z (dz g)) in *.
    apply four_nodes_share; auto; try lia;
      rewrite ?share_r_at, ?share_r_next, ?share_z_at, ?share_z_next by (assumption || lia);
      rewrite ?node_volume_0; rewrite ?node_volume_pos_i by lia;
      unfold CYL_VOL, CELL_VOLUME, CYL_RNG_VOL; rewrite ?plus_IZR;
      field; repeat split; lra.
Qed.

(** ** Total charge *)

Lemma charge_weighting_total : forall g q r z rho,
  geom_ok g -> 0 <= r <= r_size g -> 0 <= z <= z_size g ->
  grid_charge (n_r g) (n_z g) (dr g) (dz g) (apply_incs rho (charge_weighting_single g q r z)) =
  grid_charge (n_r g) (n_z g) (dr g) (dz g) rho + q.
Proof.
  intros g q r z rho Hg [Hr0 Hr] [Hz0 Hz]. unfold grid_charge.
  rewrite total_apply_incs by (apply charge_weighting_inside; assumption). f_equal.
  assert (Hdr := dr_pos g Hg). assert (Hdz := dz_pos g Hg). assert (HP := c_PI_pos).
  unfold charge_weighting_single.
  destruct (Rlt_dec (dr g) r) as [H|H]; [|destruct (Rle_dec r (dr g / 2)) as [H'|H']].
  - assert (C1 := cell_pos r (dr g) Hdr H). assert (C1R := IZR_ge1 _ C1).
    cbn [map rsum row val]. rewrite !node_volume_pos_i by lia.
    unfold CELL_VOLUME, CYL_RNG_VOL. rewrite plus_IZR. field. repeat split; lra.
  - cbn [map rsum row val]. rewrite node_volume_0, node_volume_pos_i by lia.
    unfold CYL_VOL, CELL_VOLUME, CYL_RNG_VOL. rewrite plus_IZR. field. repeat split; try lra; apply Rgt_not_eq; nra.
  - rewrite (cell_zero r (dr g)) by lra.
    cbn [map rsum row val]. rewrite node_volume_0, node_volume_pos_i by lia.
    unfold CYL_VOL, CELL_VOLUME, CYL_RNG_VOL. rewrite plus_IZR. field. repeat split; lra.
Qed.
