(** Proofs about field interpolation: C16 and C18. *)
From Coq Require Import Reals ZArith Lra Lia List Psatz.
From Verif.Lib Require Import RAux Grid Outcome Par.
From Verif.Model Require Import Constants Geometry ChargeDeposit CurrentDeposit Fields Pusher Motion Interp.
From Verif.Spec Require Import Dynamics Domain.
From Verif.Proof Require Import GeometryP ChargeP FieldsP FieldsP2 MaxwellP.
Import ListNotations.
Local Open Scope R_scope.

(** ** Array elements *)

Lemma half_cell_r : forall g r, geom_ok g -> (3 <= n_r g)%Z -> r <= r_size g - dr g / 2 ->
  (0 <= cell (r - 1 / 2 * dr g) (dr g) <= n_r g - 3)%Z.
Proof.
  intros g r Hg N H. split; [apply cell_nonneg|]. assert (D := dr_pos g Hg).
  assert (A : (cell (r - 1 / 2 * dr g) (dr g) < n_r g - 2)%Z); [|lia].
  apply cell_lt; [exact D|lia|]. rewrite (r_size_dr g Hg), minus_IZR in H. rewrite minus_IZR. lra.
Qed.

Lemma half_cell_z : forall g z, geom_ok g -> (3 <= n_z g)%Z -> z <= z_size g - dz g / 2 ->
  (0 <= cell (z - 1 / 2 * dz g) (dz g) <= n_z g - 3)%Z.
Proof.
  intros g z Hg N H. split; [apply cell_nonneg|]. assert (D := dz_pos g Hg).
  assert (A : (cell (z - 1 / 2 * dz g) (dz g) < n_z g - 2)%Z); [|lia].
  apply cell_lt; [exact D|lia|]. rewrite (z_size_dz g Hg), minus_IZR in H. rewrite minus_IZR. lra.
Qed.

Lemma interp_reads_list : forall g r z x, In x (interp_reads g r z) ->
  exists a i k, x = (a, i, k) /\
  match a with
  | ER | HZH => (cell (r - 1 / 2 * dr g) (dr g) <= i <= cell (r - 1 / 2 * dr g) (dr g) + 1)%Z /\
                (cell z (dz g) <= k <= cell z (dz g) + 1)%Z
  | EPHI => (cell r (dr g) <= i <= cell r (dr g) + 1)%Z /\ (cell z (dz g) <= k <= cell z (dz g) + 1)%Z
  | EZ | HRH => (cell r (dr g) <= i <= cell r (dr g) + 1)%Z /\
                (cell (z - 1 / 2 * dz g) (dz g) <= k <= cell (z - 1 / 2 * dz g) (dz g) + 1)%Z
  | HPHIH => (cell (r - 1 / 2 * dr g) (dr g) <= i <= cell (r - 1 / 2 * dr g) (dr g) + 1)%Z /\
             (cell (z - 1 / 2 * dz g) (dz g) <= k <= cell (z - 1 / 2 * dz g) (dz g) + 1)%Z
  | _ => False
  end.
Proof.
  intros g r z x H. unfold interp_reads, e_terms, h_terms, terms_half_r, terms_whole, terms_half_z, terms_half_both, corner_terms in H.
  cbn [concat app map fst In] in H.
  repeat (destruct H as [<-|H]; [eexists _, _, _; split; [reflexivity|cbn; lia]|]). destruct H.
Qed.

Lemma interp_initialised : forall g r z x, geom_ok g -> (3 <= n_r g)%Z -> (3 <= n_z g)%Z ->
  inside_domain g r z -> In x (interp_reads g r z) -> init_location g x.
Proof.
  intros g r z x Hg N1 N2 ((R1 & R2) & Z1 & Z2) H.
  assert (D := dr_pos g Hg). assert (Dz := dz_pos g Hg).
  assert (A := half_cell_r g r Hg N1 R2). assert (B := half_cell_z g z Hg N2 Z2).
  assert (A' := cell_r_bound g r Hg ltac:(lra)). assert (B' := cell_z_bound g z Hg ltac:(lra)).
  destruct (interp_reads_list g r z x H) as (a & i & k & -> & K).
  destruct a; cbn; try contradiction; lia.
Qed.

Lemma init_location_inside : forall g x, init_location g x -> loc_inside g x.
Proof. intros g [[a i] k] H. destruct a; cbn in *; try contradiction; lia. Qed.

(** ** Linearity *)

Lemma weighted_sum_corner : forall m a i k dz1 dz2 r1 r2 r3 vol_1 vol_2,
  weighted_sum m (corner_terms a i k dz1 dz2 r1 r2 r3 vol_1 vol_2) =
  m (a, i, k) * (CYL_RNG_VOL dz1 r1 r2 / vol_1) +
  m (a, (i + 1)%Z, k) * (CYL_RNG_VOL dz1 r2 r3 / vol_2) +
  m (a, i, (k + 1)%Z) * (CYL_RNG_VOL dz2 r1 r2 / vol_1) +
  m (a, (i + 1)%Z, (k + 1)%Z) * (CYL_RNG_VOL dz2 r2 r3 / vol_2).
Proof. intros. unfold weighted_sum, corner_terms. cbn [fold_left fst snd]. ring. Qed.

Definition lin (a b : R) (m1 m2 : fmem) : fmem := fun x => a * m1 x + b * m2 x.

Lemma weighted_sum_linear : forall a b m1 m2 l,
  weighted_sum (lin a b m1 m2) l = a * weighted_sum m1 l + b * weighted_sum m2 l.
Proof.
  intros a b m1 m2 l. unfold weighted_sum.
  assert (G : forall s1 s2, fold_left (fun s t => s + lin a b m1 m2 (fst t) * snd t) l (a * s1 + b * s2) =
    a * fold_left (fun s t => s + m1 (fst t) * snd t) l s1 + b * fold_left (fun s t => s + m2 (fst t) * snd t) l s2).
  { induction l as [|t l IH]; intros s1 s2; [reflexivity|]. cbn [fold_left]. rewrite <- IH. f_equal. unfold lin. ring. }
  specialize (G 0 0). rewrite !Rmult_0_r, Rplus_0_l in G. exact G.
Qed.

Lemma weighted_sum_const : forall m c l, (forall t, In t l -> m (fst t) = c) ->
  weighted_sum m l = c * fold_left (fun s t => s + snd t) l 0.
Proof.
  intros m c l H. unfold weighted_sum.
  assert (G : forall s, fold_left (fun s t => s + m (fst t) * snd t) l (c * s) =
    c * fold_left (fun (s : R) (t : loc * R) => s + snd t) l s).
  { induction l as [|t l IH]; intro s; [reflexivity|]. cbn [fold_left].
    rewrite <- IH by (intros; apply H; now right). f_equal. rewrite (H t) by now left. ring. }
  specialize (G 0). now rewrite Rmult_0_r in G.
Qed.

(** ** Sum of the weights *)

Definition weight_total (l : list (loc * R)) : R := fold_left (fun s t => s + snd t) l 0.

Lemma weight_total_corner : forall a i k dz1 dz2 r1 r2 r3 vol_1 vol_2, vol_1 <> 0 -> vol_2 <> 0 ->
  weight_total (corner_terms a i k dz1 dz2 r1 r2 r3 vol_1 vol_2) =
  CYL_RNG_VOL (dz1 + dz2) r1 r2 / vol_1 + CYL_RNG_VOL (dz1 + dz2) r2 r3 / vol_2.
Proof.
  intros. unfold weight_total, corner_terms. cbn [fold_left snd]. unfold CYL_RNG_VOL. field. now split.
Qed.

(** In units of the cell size: r = (i + 1/2 + f) dr. *)
Definition total_half (i f : R) : R :=
  (1 - f) * (2 * i + 1 + f) / (2 * i + 2) + f * (2 * i + 2 + f) / (2 * i + 6).
(** r = (i + f) dr, beyond the first cell *)
Definition total_whole (i f : R) : R :=
  (1 - f) * (2 * i + f) / (2 * i) + f * (2 * i + 1 + f) / (2 * i + 4).
(** in the first cell *)
Definition total_first (f : R) : R := 4 * (1 - f) * f + f * (1 + f) / 4.

Definition half_terms (t : farr -> geom -> R -> R -> list (loc * R)) := t = terms_half_r \/ t = terms_half_both.
Definition whole_terms (t : farr -> geom -> R -> R -> list (loc * R)) := t = terms_half_z \/ t = terms_whole.

Lemma total_half_eq : forall t a g r z, half_terms t -> geom_ok g ->
  let i := IZR (cell (r - 1 / 2 * dr g) (dr g)) in
  weight_total (t a g r z) = total_half i (r / dr g - 1 / 2 - i).
Proof.
  intros t a g r z Ht Hg i. assert (D := dr_pos g Hg). assert (Dz := dz_pos g Hg). assert (P := c_PI_pos).
  assert (I : 0 <= i) by (apply IZR_le, cell_nonneg).
  destruct Ht as [-> | ->]; [unfold terms_half_r|unfold terms_half_both]; fold i;
  (rewrite weight_total_corner; [|unfold CELL_VOLUME; apply Rgt_not_eq; pos_mul; lra|unfold CELL_VOLUME; apply Rgt_not_eq; pos_mul; lra];
   unfold total_half, CYL_RNG_VOL, CELL_VOLUME; field; repeat split; try lra; apply Rgt_not_eq; lra).
Qed.

Lemma total_whole_eq : forall t a g r z, whole_terms t -> geom_ok g -> dr g < r ->
  let i := IZR (cell r (dr g)) in
  weight_total (t a g r z) = total_whole i (r / dr g - i).
Proof.
  intros t a g r z Ht Hg Hr i. assert (D := dr_pos g Hg). assert (Dz := dz_pos g Hg). assert (P := c_PI_pos).
  assert (I : 1 <= i) by (apply IZR_le, cell_pos; lra).
  destruct Ht as [-> | ->]; [unfold terms_half_z|unfold terms_whole]; fold i; unfold vol_inner;
  (destruct (Rlt_dec (dr g) r); [|lra];
   rewrite weight_total_corner; [|unfold CELL_VOLUME; apply Rgt_not_eq; pos_mul; fold i; lra|unfold CELL_VOLUME; apply Rgt_not_eq; pos_mul; lra];
   unfold total_whole, CYL_RNG_VOL, CELL_VOLUME; fold i; field; repeat split; try lra; apply Rgt_not_eq; lra).
Qed.

Lemma total_first_eq : forall t a g r z, whole_terms t -> geom_ok g -> r <= dr g ->
  weight_total (t a g r z) = total_first (r / dr g).
Proof.
  intros t a g r z Ht Hg Hr. assert (D := dr_pos g Hg). assert (Dz := dz_pos g Hg). assert (P := c_PI_pos).
  destruct Ht as [-> | ->]; [unfold terms_half_z|unfold terms_whole]; unfold vol_inner;
  (destruct (Rlt_dec (dr g) r); [lra|];
   rewrite (cell_zero r (dr g)) by lra;
   rewrite weight_total_corner; [|unfold CYL_VOL; apply Rgt_not_eq; apply Rdiv_pos; [pos_mul|]; lra|unfold CELL_VOLUME; apply Rgt_not_eq; pos_mul; lra];
   unfold total_first, CYL_RNG_VOL, CELL_VOLUME, CYL_VOL; field; repeat split; try lra; apply Rgt_not_eq; lra).
Qed.

Lemma total_half_bound : forall i f, 0 <= i -> 0 <= f <= 1 ->
  - (3 / (2 * i + 2)) <= total_half i f - 1 < 0.
Proof.
  intros i f Hi [F0 F1].
  assert (E : total_half i f - 1 = - (((1 - f) * (1 - f)) / (2 * i + 2) + f * (4 - f) / (2 * i + 6))).
  { unfold total_half. field. split; lra. }
  rewrite E.
  assert (A : 0 <= f * (4 - f) / (2 * i + 6) <= f * (4 - f) / (2 * i + 2)).
  { assert (X : 0 <= f * (4 - f)) by nra. assert (Y : / (2 * i + 6) <= / (2 * i + 2)) by (apply Rinv_le_contravar; lra).
    assert (Y0 : 0 < / (2 * i + 6)) by (apply Rinv_0_lt_compat; lra). unfold Rdiv. split; nra. }
  assert (I0 : 0 < / (2 * i + 2)) by (apply Rinv_0_lt_compat; lra).
  assert (J0 : 0 < / (2 * i + 6)) by (apply Rinv_0_lt_compat; lra).
  split.
  - apply Ropp_le_contravar. apply Rle_trans with ((1 - f) * (1 - f) / (2 * i + 2) + f * (4 - f) / (2 * i + 2)); [lra|].
    unfold Rdiv. rewrite <- Rmult_plus_distr_r. apply Rmult_le_compat_r; nra.
  - unfold Rdiv. destruct (Rle_lt_or_eq_dec _ _ F0) as [F|<-].
    + assert (0 < f * (4 - f)) by nra. assert (0 < f * (4 - f) * / (2 * i + 6)) by nra.
      assert (0 <= (1 - f) * (1 - f)) by nra. assert (0 <= (1 - f) * (1 - f) * / (2 * i + 2)) by (apply Rmult_le_pos; lra). lra.
    + rewrite Rminus_0_r, Rmult_0_l. lra.
Qed.

Lemma total_whole_bound : forall i f, 1 <= i -> 0 <= f <= 1 ->
  Rabs (total_whole i f - 1) <= 3 / (2 * i + 2).
Proof.
  intros i f Hi [F0 F1].
  assert (E : total_whole i f - 1 = (1 - f) * f / (2 * i) - f * (3 - f) / (2 * i + 4)).
  { unfold total_whole. field. split; lra. }
  rewrite E.
  assert (I0 : 0 < / (2 * i + 2)) by (apply Rinv_0_lt_compat; lra).
  assert (I1 : / (2 * i) <= 2 * / (2 * i + 2)).
  { rewrite <- (Rinv_inv 2) at 2. rewrite <- Rinv_mult. apply Rinv_le_contravar; lra. }
  assert (I2 : 0 < / (2 * i)) by (apply Rinv_0_lt_compat; lra).
  assert (I3 : / (2 * i + 4) <= / (2 * i + 2)) by (apply Rinv_le_contravar; lra).
  assert (I4 : 0 < / (2 * i + 4)) by (apply Rinv_0_lt_compat; lra).
  assert (X : 0 <= (1 - f) * f <= 1) by nra. assert (Y : 0 <= f * (3 - f) <= 2) by nra.
  unfold Rdiv. apply Rabs_le. split; nra.
Qed.

Lemma half_position : forall g r, geom_ok g -> dr g / 2 <= r ->
  let i := IZR (cell (r - 1 / 2 * dr g) (dr g)) in 0 <= r / dr g - 1 / 2 - i <= 1.
Proof.
  intros g r Hg Hr i. assert (D := dr_pos g Hg).
  assert (A := cell_lower_le (r - 1 / 2 * dr g) (dr g) D ltac:(lra)).
  assert (B := cell_upper (r - 1 / 2 * dr g) (dr g) D ltac:(lra)). fold i in A, B.
  assert (E : r = r / dr g * dr g) by (field; lra). set (q := r / dr g) in *. split; nra.
Qed.

Lemma whole_position : forall g r, geom_ok g -> 0 <= r ->
  let i := IZR (cell r (dr g)) in 0 <= r / dr g - i <= 1.
Proof.
  intros g r Hg Hr i. assert (D := dr_pos g Hg).
  assert (A := cell_lower_le r (dr g) D Hr). assert (B := cell_upper r (dr g) D Hr). fold i in A, B.
  assert (E : r = r / dr g * dr g) by (field; lra). set (q := r / dr g) in *. split; nra.
Qed.

(** The relative error is at most 3 dr / (2 r - dr). *)
Lemma total_error : forall t a g r z, half_terms t \/ whole_terms t -> geom_ok g -> dr g < r ->
  Rabs (weight_total (t a g r z) - 1) <= 3 * dr g / (2 * r - dr g).
Proof.
  intros t a g r z Ht Hg Hr. assert (D := dr_pos g Hg).
  assert (G : forall i, 0 <= i -> r <= (i + 3 / 2) * dr g -> 3 / (2 * i + 2) <= 3 * dr g / (2 * r - dr g)).
  { intros i Hi Hq. unfold Rdiv. apply Rmult_le_reg_r with (2 * i + 2); [lra|].
    rewrite Rmult_assoc, Rinv_l, Rmult_1_r by lra.
    apply Rmult_le_reg_r with (2 * r - dr g); [lra|].
    replace (3 * dr g * / (2 * r - dr g) * (2 * i + 2) * (2 * r - dr g)) with (3 * dr g * (2 * i + 2)) by (field; lra).
    lra. }
  destruct Ht as [Ht|Ht].
  - assert (F := half_position g r Hg ltac:(lra)). rewrite (total_half_eq t a g r z Ht Hg).
    set (i := IZR (cell (r - 1 / 2 * dr g) (dr g))) in *. cbv zeta in *.
    assert (I : 0 <= i) by (apply IZR_le, cell_nonneg).
    destruct (total_half_bound i (r / dr g - 1 / 2 - i) I F) as [A B].
    assert (Q : r <= (i + 3 / 2) * dr g). { assert (E : r = r / dr g * dr g) by (field; lra). set (q := r / dr g) in *. nra. }
    specialize (G i I Q). apply Rabs_le. lra.
  - assert (F := whole_position g r Hg ltac:(lra)). rewrite (total_whole_eq t a g r z Ht Hg Hr).
    assert (I : 1 <= IZR (cell r (dr g))) by (apply IZR_le, cell_pos; lra).
    set (i := IZR (cell r (dr g))) in *. cbv zeta in *.
    assert (A := total_whole_bound i (r / dr g - i) I F).
    assert (Q : r <= (i + 3 / 2) * dr g). { assert (E : r = r / dr g * dr g) by (field; lra). set (q := r / dr g) in *. nra. }
    specialize (G i ltac:(lra) Q). lra.
Qed.

(** ** Weights are never negative inside the domain *)

Lemma corner_weights_nonneg : forall a i k dz1 dz2 r1 r2 r3 vol_1 vol_2,
  0 <= dz1 -> 0 <= dz2 -> 0 <= r1 <= r2 -> r2 <= r3 -> 0 < vol_1 -> 0 < vol_2 ->
  Forall (fun t => 0 <= snd t) (corner_terms a i k dz1 dz2 r1 r2 r3 vol_1 vol_2).
Proof.
  intros a i k dz1 dz2 r1 r2 r3 vol_1 vol_2 H1 H2 [H3 H4] H5 H6 H7.
  assert (G : forall d x y v, 0 <= d -> 0 <= x <= y -> 0 < v -> 0 <= CYL_RNG_VOL d x y / v).
  { intros d x y v Hd [Hx Hy] Hv. unfold CYL_RNG_VOL, Rdiv. assert (P := c_PI_pos).
    assert (0 < / v) by now apply Rinv_0_lt_compat. assert (0 <= y * y - x * x) by nra.
    repeat apply Rmult_le_pos; lra. }
  unfold corner_terms. repeat (apply Forall_cons; [cbn; apply G; lra|]). apply Forall_nil.
Qed.

Lemma weights_nonneg : forall t a g r z, half_terms t \/ whole_terms t -> geom_ok g ->
  inside_domain g r z -> Forall (fun t => 0 <= snd t) (t a g r z).
Proof.
  intros t a g r z Ht Hg ((R1 & _) & Z1 & _).
  assert (D := dr_pos g Hg). assert (Dz := dz_pos g Hg). assert (P := c_PI_pos).
  assert (A1 := cell_lower_le z (dz g) Dz ltac:(lra)). assert (A2 := cell_upper z (dz g) Dz ltac:(lra)).
  assert (B1 := cell_lower_le (z - 1/2 * dz g) (dz g) Dz ltac:(lra)). assert (B2 := cell_upper (z - 1/2 * dz g) (dz g) Dz ltac:(lra)).
  assert (C1 := cell_lower_le r (dr g) D ltac:(lra)). assert (C2 := cell_upper r (dr g) D ltac:(lra)).
  assert (E1 := cell_lower_le (r - 1/2 * dr g) (dr g) D ltac:(lra)). assert (E2 := cell_upper (r - 1/2 * dr g) (dr g) D ltac:(lra)).
  assert (I := IZR_le _ _ (cell_nonneg (r - 1/2 * dr g) (dr g))). assert (I' := IZR_le _ _ (cell_nonneg r (dr g))).
  assert (V : 0 < vol_inner (dr g) (dz g) r (cell r (dr g))).
  { unfold vol_inner. destruct (Rlt_dec (dr g) r) as [H|H].
    - assert (1 <= IZR (cell r (dr g))) by (apply IZR_le, cell_pos; lra). unfold CELL_VOLUME. pos_mul; lra.
    - unfold CYL_VOL. apply Rdiv_pos; [pos_mul|]; lra. }
  destruct Ht as [[-> | ->]|[-> | ->]]; unfold terms_half_r, terms_half_both, terms_half_z, terms_whole;
  apply corner_weights_nonneg; try lra; try exact V; unfold CELL_VOLUME; pos_mul; lra.
Qed.
