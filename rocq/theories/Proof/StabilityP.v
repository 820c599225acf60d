(** Boundedness of the source-free fields under a time-step condition. *)
From Coq Require Import Reals ZArith Lia Lra List Bool Psatz.
From Verif.Lib Require Import RAux Grid Par.
From Verif.Model Require Import Constants Geometry Fields.
From Verif.Spec Require Import Cloud Continuity Maxwell.
From Verif.Proof Require Import GeometryP ChargeP ChargeP2 CurrentP FieldsP MaxwellP EnergyP.
Import ListNotations.
Local Open Scope R_scope.

Lemma nat_ind_from1 : forall (P : Z -> Prop), P 1%Z ->
  (forall n, (1 <= n)%Z -> P n -> P (n + 1)%Z) -> forall N, (1 <= N)%Z -> P N.
Proof.
  intros P P1 PS N HN. replace N with (1 + Z.of_nat (Z.to_nat (N - 1)))%Z by lia.
  induction (Z.to_nat (N - 1)) as [|n IH]; [exact P1|].
  replace (1 + Z.of_nat (S n))%Z with (1 + Z.of_nat n + 1)%Z by lia. apply PS; [lia|exact IH].
Qed.

(** Differences of a sequence. *)
Lemma diff_bound_gen : forall (a : Z -> R) N, (1 <= N)%Z -> a 0%Z = 0 ->
  zsum (fun k => (a (k + 1)%Z - a k) * (a (k + 1)%Z - a k)) 0 N <=
  4 * zsum (fun k => a k * a k) 1 N + 2 * (a N * a N).
Proof.
  intros a N HN H0. pattern N. apply nat_ind_from1; auto.
  - rewrite zsum_first, !zsum_empty by lia. rewrite H0. cbn. nra.
  - intros n Hn IH. rewrite !zsum_last by lia.
    assert (0 <= (a (n + 1)%Z + a n) * (a (n + 1)%Z + a n)) by apply sqr_nonneg. nra.
Qed.

Lemma diff_bound : forall (a : Z -> R) N, (1 <= N)%Z -> a 0%Z = 0 -> a N = 0 ->
  zsum (fun k => (a (k + 1)%Z - a k) * (a (k + 1)%Z - a k)) 0 N <= 4 * zsum (fun k => a k * a k) 1 N.
Proof. intros a N HN H0 H1. assert (G := diff_bound_gen a N HN H0). rewrite H1 in G. lra. Qed.

(** Radial differences of E_z, with the small weight of the axis. *)
Lemma radial_bound_gen : forall (a : Z -> R) N, (1 <= N)%Z ->
  zsum (fun i => (IZR i + 1/2) * ((a (i + 1)%Z - a i) * (a (i + 1)%Z - a i))) 0 N <=
  16/3 * (a 0%Z * a 0%Z / 8 + zsum (fun i => IZR i * (a i * a i)) 1 N) + 2 * IZR N * (a N * a N).
Proof.
  intros a N HN. pattern N. apply nat_ind_from1; auto.
  - rewrite zsum_first, !zsum_empty by lia. cbn.
    assert (0 <= (3 * a 1%Z + a 0%Z) * (3 * a 1%Z + a 0%Z)) by apply sqr_nonneg. nra.
  - intros n Hn IH. rewrite !zsum_last by lia. assert (1 <= IZR n) by (apply IZR_ge1; lia).
    rewrite plus_IZR.
    assert (Q : 0 <= (a (n + 1)%Z + a n) * (a (n + 1)%Z + a n)) by apply sqr_nonneg.
    assert (Q1 := sqr_nonneg (a n)). assert (Q2 := sqr_nonneg (a (n + 1)%Z)).
    assert (B : (IZR n + 1/2) * ((a (n + 1)%Z - a n) * (a (n + 1)%Z - a n)) <=
                (IZR n + 1/2) * (2 * (a (n + 1)%Z * a (n + 1)%Z) + 2 * (a n * a n))).
    { apply Rmult_le_compat_l; [lra|]. nra. }
    assert (C : (4 * IZR n + 1) * (a n * a n) <= 16/3 * IZR n * (a n * a n)).
    { apply Rmult_le_compat_r; [exact Q1|lra]. }
    nra.
Qed.

Lemma radial_bound : forall (a : Z -> R) N, (1 <= N)%Z -> a N = 0 ->
  zsum (fun i => (IZR i + 1/2) * ((a (i + 1)%Z - a i) * (a (i + 1)%Z - a i))) 0 N <=
  16/3 * (a 0%Z * a 0%Z / 8 + zsum (fun i => IZR i * (a i * a i)) 1 N).
Proof. intros a N HN H0. assert (G := radial_bound_gen a N HN). rewrite H0 in G. lra. Qed.

(** Differences of r E_phi. *)
Lemma azim_bound : forall (a : Z -> R) N, (1 <= N)%Z -> a N = 0 ->
  zsum (fun i => (IZR (i + 1) * a (i + 1)%Z - IZR i * a i) * (IZR (i + 1) * a (i + 1)%Z - IZR i * a i)
                 / (IZR i + 1/2)) 0 N <=
  4 * zsum (fun i => IZR i * (a i * a i)) 1 N.
Proof.
  intros a N HN H0.
  assert (G : zsum (fun i => (IZR (i + 1) * a (i + 1)%Z - IZR i * a i) * (IZR (i + 1) * a (i + 1)%Z - IZR i * a i)
                 / (IZR i + 1/2)) 0 N <=
          4 * zsum (fun i => IZR i * (a i * a i)) 1 N + 2 * IZR N * (a N * a N)).
  { clear H0.
    assert (S : forall i, (0 <= i)%Z ->
      (IZR (i + 1) * a (i + 1)%Z - IZR i * a i) * (IZR (i + 1) * a (i + 1)%Z - IZR i * a i) / (IZR i + 1/2) <=
      2 * (IZR (i + 1) * (a (i + 1)%Z * a (i + 1)%Z)) + 2 * (IZR i * (a i * a i))).
    { intros i Hi. assert (0 <= IZR i) by (apply IZR_nonneg; lia). rewrite plus_IZR.
      apply Rmult_le_reg_r with (IZR i + 1/2); [lra|]. unfold Rdiv. rewrite Rmult_assoc, Rinv_l by lra.
      assert (Q : 0 <= IZR i * (IZR i + 1) * ((a (i + 1)%Z + a i) * (a (i + 1)%Z + a i))).
      { apply Rmult_le_pos; [apply Rmult_le_pos; lra|apply sqr_nonneg]. }
      nra. }
    pattern N. apply nat_ind_from1; auto.
    - rewrite zsum_first, !zsum_empty by lia. assert (S0 := S 0%Z ltac:(lia)). cbn in *. lra.
    - intros n Hn IH. rewrite !zsum_last by lia. assert (Sn := S n ltac:(lia)). lra. }
  rewrite H0 in G. lra.
Qed.

(** ** The curl of E *)

Section Curl.
Variables (g : geom) (F : fmem).
Hypothesis Hg : geom_ok g.
Hypothesis HF : conducting g F.

Let N1 := (n_r g - 1)%Z.
Let N2 := (n_z g - 1)%Z.
Let nv := node_volume (dr g) (dz g).
Let hv := half_volume (dr g) (dz g).

(** The three sums of squares. *)
Definition sq_er : R := sum2 0 N1 1 N2 (fun i k => hv i * (F (ER, i, k) * F (ER, i, k))).
Definition sq_ephi : R := sum2 1 N1 1 N2 (fun i k => nv i * (F (EPHI, i, k) * F (EPHI, i, k))).
Definition sq_ez : R := sum2 0 N1 0 N2 (fun i k => nv i * (F (EZ, i, k) * F (EZ, i, k))).

Lemma st_nr : (1 <= N1)%Z. Proof. destruct Hg as (A & _). unfold N1. lia. Qed.
Lemma st_nz : (1 <= N2)%Z. Proof. destruct Hg as (_ & A & _). unfold N2. lia. Qed.

Lemma hv_nonneg : forall i, (0 <= i)%Z -> 0 <= hv i.
Proof.
  intros i Hi. unfold hv. rewrite half_volume_eq. assert (0 <= IZR i) by (apply IZR_nonneg; lia).
  assert (P := c_PI_pos). assert (Hdr := dr_pos g Hg). assert (Hdz := dz_pos g Hg).
  left. pos_mul; lra.
Qed.

Lemma nv_nonneg : forall i, (0 <= i)%Z -> 0 <= nv i.
Proof. intros i Hi. left. apply node_volume_pos; auto using dr_pos, dz_pos. Qed.

Lemma sq_er_nonneg : 0 <= sq_er.
Proof. apply sum2_nonneg. intros i k Hi Hk. apply Rmult_le_pos; [apply hv_nonneg; lia|apply sqr_nonneg]. Qed.
Lemma sq_ephi_nonneg : 0 <= sq_ephi.
Proof. apply sum2_nonneg. intros i k Hi Hk. apply Rmult_le_pos; [apply nv_nonneg; lia|apply sqr_nonneg]. Qed.
Lemma sq_ez_nonneg : 0 <= sq_ez.
Proof. apply sum2_nonneg. intros i k Hi Hk. apply Rmult_le_pos; [apply nv_nonneg; lia|apply sqr_nonneg]. Qed.

Lemma curl_r_bound :
  sum2 0 N1 0 N2 (fun i k => nv i * ((F (EPHI, i, (k + 1)%Z) - F (EPHI, i, k)) / dz g
                                   * ((F (EPHI, i, (k + 1)%Z) - F (EPHI, i, k)) / dz g))) <=
  4 / (dz g * dz g) * sq_ephi.
Proof.
  assert (A1 := st_nr). assert (A2 := st_nz). assert (Hdz := dz_pos g Hg).
  unfold sum2. rewrite (zsum_first _ 0 N1) by lia. rewrite (zsum_zero_ext _ 0 N2).
  2:{ intros k Hk. rewrite (HF (EPHI, 0%Z, k)), (HF (EPHI, 0%Z, (k + 1)%Z)).
      - unfold Rdiv. ring.
      - cbn. unfold N2 in *. lia.
      - cbn. unfold N2 in *. lia. }
  rewrite Rplus_0_l. unfold sq_ephi, sum2. rewrite <- zsum_scal. apply zsum_le. intros i Hi.
  assert (B := diff_bound (fun k => F (EPHI, i, k)) N2 A2
     (HF (EPHI, i, 0%Z) ltac:(cbn; unfold N1, N2 in *; lia)) (HF (EPHI, i, N2) ltac:(cbn; unfold N1, N2 in *; lia))).
  cbv beta in B.
  rewrite (zsum_ext _ (fun k => nv i / (dz g * dz g) * ((F (EPHI, i, (k + 1)%Z) - F (EPHI, i, k)) * (F (EPHI, i, (k + 1)%Z) - F (EPHI, i, k)))))
    by (intros; field; lra).
  rewrite !zsum_scal.
  replace (4 / (dz g * dz g) * (nv i * zsum (fun k => F (EPHI, i, k) * F (EPHI, i, k)) 1 N2)) with
    (nv i / (dz g * dz g) * (4 * zsum (fun k => F (EPHI, i, k) * F (EPHI, i, k)) 1 N2)) by (field; lra).
  apply Rmult_le_compat_l; [|exact B].
  apply Rdiv_nonneg; [apply nv_nonneg; lia|nra].
Qed.

Lemma curl_phi_r_bound :
  sum2 0 N1 0 N2 (fun i k => hv i * ((F (ER, i, (k + 1)%Z) - F (ER, i, k)) / dz g
                                   * ((F (ER, i, (k + 1)%Z) - F (ER, i, k)) / dz g))) <=
  4 / (dz g * dz g) * sq_er.
Proof.
  assert (A1 := st_nr). assert (A2 := st_nz). assert (Hdz := dz_pos g Hg).
  unfold sq_er, sum2. rewrite <- zsum_scal. apply zsum_le. intros i Hi.
  assert (B := diff_bound (fun k => F (ER, i, k)) N2 A2
     (HF (ER, i, 0%Z) ltac:(cbn; unfold N1, N2 in *; lia)) (HF (ER, i, N2) ltac:(cbn; unfold N1, N2 in *; lia))).
  cbv beta in B.
  rewrite (zsum_ext _ (fun k => hv i / (dz g * dz g) * ((F (ER, i, (k + 1)%Z) - F (ER, i, k)) * (F (ER, i, (k + 1)%Z) - F (ER, i, k)))))
    by (intros; field; lra).
  rewrite !zsum_scal.
  replace (4 / (dz g * dz g) * (hv i * zsum (fun k => F (ER, i, k) * F (ER, i, k)) 1 N2)) with
    (hv i / (dz g * dz g) * (4 * zsum (fun k => F (ER, i, k) * F (ER, i, k)) 1 N2)) by (field; lra).
  apply Rmult_le_compat_l; [|exact B].
  apply Rdiv_nonneg; [apply hv_nonneg; lia|nra].
Qed.

Lemma curl_phi_z_bound :
  sum2 0 N1 0 N2 (fun i k => hv i * ((F (EZ, (i + 1)%Z, k) - F (EZ, i, k)) / dr g
                                   * ((F (EZ, (i + 1)%Z, k) - F (EZ, i, k)) / dr g))) <=
  16 / 3 / (dr g * dr g) * sq_ez.
Proof.
  assert (A1 := st_nr). assert (A2 := st_nz). assert (Hdr := dr_pos g Hg). assert (Hdz := dz_pos g Hg).
  assert (P := c_PI_pos).
  unfold sq_ez, sum2. rewrite zsum_swap, (zsum_swap (fun i k => nv i * _)), <- zsum_scal.
  apply zsum_le. intros k Hk. set (c := 2 * c_PI * dz g).
  assert (Hc : 0 <= c) by (unfold c; nra).
  assert (B := radial_bound (fun i => F (EZ, i, k)) N1 A1 (HF (EZ, N1, k) ltac:(cbn; unfold N1, N2 in *; lia))).
  cbv beta in B.
  rewrite (zsum_ext (fun i => hv i * _) (fun i => c * ((IZR i + 1/2) * ((F (EZ, (i + 1)%Z, k) - F (EZ, i, k)) * (F (EZ, (i + 1)%Z, k) - F (EZ, i, k)))))).
  2:{ intros i Hi. unfold hv, c. rewrite half_volume_eq. field. lra. }
  rewrite (zsum_first _ 0 N1 ltac:(lia)) in B.
  rewrite (zsum_first (fun i => nv i * _) 0 N1) by lia. cbn [Z.add] in *.
  rewrite (zsum_ext (fun i => nv i * _) (fun i => c * (dr g * dr g) * (IZR i * (F (EZ, i, k) * F (EZ, i, k))))).
  2:{ intros i Hi. unfold nv, c. rewrite node_volume_pos_i by lia. unfold CELL_VOLUME. field. }
  replace (nv 0%Z * (F (EZ, 0%Z, k) * F (EZ, 0%Z, k))) with (c * (dr g * dr g) * (F (EZ, 0%Z, k) * F (EZ, 0%Z, k) / 8)).
  2:{ unfold nv, c. rewrite node_volume_0. unfold CYL_VOL. field. }
  rewrite zsum_scal, zsum_scal.
  replace (16 / 3 / (dr g * dr g) * (c * (dr g * dr g) * (F (EZ, 0%Z, k) * F (EZ, 0%Z, k) / 8)
     + c * (dr g * dr g) * zsum (fun i => IZR i * (F (EZ, i, k) * F (EZ, i, k))) 1 N1)) with
    (c * (16 / 3 * (F (EZ, 0%Z, k) * F (EZ, 0%Z, k) / 8 + zsum (fun i => IZR i * (F (EZ, i, k) * F (EZ, i, k))) 1 N1)))
    by (field; lra).
  apply Rmult_le_compat_l; [exact Hc|]. rewrite (zsum_first _ 0 N1) by lia. exact B.
Qed.

Definition curl_e_z (i k : Z) : R :=
  (F (EPHI, (i + 1)%Z, k) + F (EPHI, i, k)) / (2 * dr g * (IZR i + 1/2))
       + (F (EPHI, (i + 1)%Z, k) - F (EPHI, i, k)) / dr g.

Lemma curl_z_bound :
  sum2 0 N1 1 N2 (fun i k => hv i * (curl_e_z i k * curl_e_z i k)) <= 4 / (dr g * dr g) * sq_ephi.
Proof.
  assert (A1 := st_nr). assert (A2 := st_nz). assert (Hdr := dr_pos g Hg). assert (Hdz := dz_pos g Hg).
  assert (P := c_PI_pos).
  unfold sq_ephi, sum2. rewrite zsum_swap, (zsum_swap (fun i k => nv i * _)), <- zsum_scal.
  apply zsum_le. intros k Hk. set (c := 2 * c_PI * dz g).
  assert (Hc : 0 <= c) by (unfold c; nra).
  assert (B := azim_bound (fun i => F (EPHI, i, k)) N1 A1 (HF (EPHI, N1, k) ltac:(cbn; unfold N1, N2 in *; lia))).
  cbv beta in B.
  rewrite (zsum_ext (fun i => hv i * _) (fun i => c * ((IZR (i + 1) * F (EPHI, (i + 1)%Z, k) - IZR i * F (EPHI, i, k))
     * (IZR (i + 1) * F (EPHI, (i + 1)%Z, k) - IZR i * F (EPHI, i, k)) / (IZR i + 1/2)))).
  2:{ intros i Hi. assert (0 <= IZR i) by (apply IZR_nonneg; lia).
      unfold hv, c, curl_e_z. rewrite half_volume_eq, plus_IZR. field. lra. }
  rewrite (zsum_ext (fun i => nv i * _) (fun i => c * (dr g * dr g) * (IZR i * (F (EPHI, i, k) * F (EPHI, i, k))))).
  2:{ intros i Hi. unfold nv, c. rewrite node_volume_pos_i by lia. unfold CELL_VOLUME. field. }
  rewrite !zsum_scal.
  replace (4 / (dr g * dr g) * (c * (dr g * dr g) * zsum (fun i => IZR i * (F (EPHI, i, k) * F (EPHI, i, k))) 1 N1))
    with (c * (4 * zsum (fun i => IZR i * (F (EPHI, i, k) * F (EPHI, i, k))) 1 N1)) by (field; lra).
  apply Rmult_le_compat_l; assumption.
Qed.

(** The bound of the squared curl. *)
Definition cfl_const : R := 16 / 3 / (dr g * dr g) + 4 / (dz g * dz g).

Definition curl_phi (i k : Z) : R :=
  (F (EZ, (i + 1)%Z, k) - F (EZ, i, k)) / dr g - (F (ER, i, (k + 1)%Z) - F (ER, i, k)) / dz g.

Lemma curl_phi_bound :
  sum2 0 N1 0 N2 (fun i k => hv i * (curl_phi i k * curl_phi i k)) <= cfl_const * (sq_er + sq_ez).
Proof.
  assert (Hdr := dr_pos g Hg). assert (Hdz := dz_pos g Hg).
  assert (Ha : 0 < 16 / 3 / (dr g * dr g)) by (apply Rdiv_pos; nra).
  assert (Hb : 0 < 4 / (dz g * dz g)) by (apply Rdiv_pos; nra).
  set (a := 16 / 3 / (dr g * dr g)) in *. set (b := 4 / (dz g * dz g)) in *.
  assert (B1 := curl_phi_z_bound). assert (B2 := curl_phi_r_bound). fold a in B1. fold b in B2.
  set (p := fun i k => (F (EZ, (i + 1)%Z, k) - F (EZ, i, k)) / dr g) in *.
  set (q := fun i k => (F (ER, i, (k + 1)%Z) - F (ER, i, k)) / dz g) in *.
  change (sum2 0 N1 0 N2 (fun i k => hv i * (p i k * p i k)) <= a * sq_ez) in B1.
  change (sum2 0 N1 0 N2 (fun i k => hv i * (q i k * q i k)) <= b * sq_er) in B2.
  apply Rle_trans with ((1 + b / a) * sum2 0 N1 0 N2 (fun i k => hv i * (p i k * p i k))
                        + (1 + a / b) * sum2 0 N1 0 N2 (fun i k => hv i * (q i k * q i k))).
  - rewrite <- !sum2_scal, <- sum2_plus. apply sum2_le. intros i k Hi Hk.
    change (curl_phi i k) with (p i k - q i k).
    assert (Hh := hv_nonneg i ltac:(lia)).
    replace ((1 + b / a) * (hv i * (p i k * p i k)) + (1 + a / b) * (hv i * (q i k * q i k))) with
      (hv i * ((1 + b / a) * (p i k * p i k) + (1 + a / b) * (q i k * q i k))) by ring.
    apply Rmult_le_compat_l; [exact Hh|].
    assert (Q := sqr_nonneg (b * p i k + a * q i k)).
    apply Rmult_le_reg_l with (a * b); [nra|].
    replace (a * b * ((1 + b / a) * (p i k * p i k) + (1 + a / b) * (q i k * q i k))) with
      ((a * b + b * b) * (p i k * p i k) + (a * b + a * a) * (q i k * q i k)) by (field; lra).
    nra.
  - apply Rle_trans with ((1 + b / a) * (a * sq_ez) + (1 + a / b) * (b * sq_er)).
    + assert (0 < b / a) by (apply Rdiv_pos; lra). assert (0 < a / b) by (apply Rdiv_pos; lra).
      apply Rplus_le_compat; apply Rmult_le_compat_l; lra.
    + unfold cfl_const. fold a b. right. field. lra.
Qed.

Lemma curl_te_bound :
  sum2 0 N1 0 N2 (fun i k => nv i * ((F (EPHI, i, (k + 1)%Z) - F (EPHI, i, k)) / dz g
                                   * ((F (EPHI, i, (k + 1)%Z) - F (EPHI, i, k)) / dz g)))
  + sum2 0 N1 1 N2 (fun i k => hv i * (curl_e_z i k * curl_e_z i k)) <= cfl_const * sq_ephi.
Proof.
  assert (Hdr := dr_pos g Hg). assert (B1 := curl_r_bound). assert (B2 := curl_z_bound).
  assert (S := sq_ephi_nonneg).
  assert (4 / (dr g * dr g) * sq_ephi <= 16 / 3 / (dr g * dr g) * sq_ephi).
  { apply Rmult_le_compat_r; [exact S|]. unfold Rdiv. apply Rmult_le_compat_r; [|lra].
    left. apply Rinv_0_lt_compat. nra. }
  unfold cfl_const. lra.
Qed.

End Curl.

(** Magnetic energy of the half-time fields (what the particles see, with the electric
    field of the same time). *)
Definition half_time_energy (g : geom) (m : fmem) : R :=
  MAGN_CONST / 2 *
  (sum2 0 (n_r g - 1) 0 (n_z g - 1)
     (fun i k => node_volume (dr g) (dz g) i * (m (HRH, i, k) * m (HRH, i, k)))
   + sum2 0 (n_r g - 1) 0 (n_z g - 1)
     (fun i k => half_volume (dr g) (dz g) i * (m (HPHIH, i, k) * m (HPHIH, i, k)))
   + sum2 0 (n_r g - 1) 1 (n_z g - 1)
     (fun i k => half_volume (dr g) (dz g) i * (m (HZH, i, k) * m (HZH, i, k)))).

Lemma form_split : forall g dt m, geom_ok g ->
  magnetic_form g m (calc_hfield g dt m) =
  half_time_energy g (calc_hfield g dt m)
  - dt * dt / (8 * MAGN_CONST) *
    (sum2 0 (n_r g - 1) 0 (n_z g - 1) (fun i k => node_volume (dr g) (dz g) i *
        ((m (EPHI, i, (k + 1)%Z) - m (EPHI, i, k)) / dz g * ((m (EPHI, i, (k + 1)%Z) - m (EPHI, i, k)) / dz g)))
     + sum2 0 (n_r g - 1) 0 (n_z g - 1) (fun i k => half_volume (dr g) (dz g) i * (curl_phi g m i k * curl_phi g m i k))
     + sum2 0 (n_r g - 1) 1 (n_z g - 1) (fun i k => half_volume (dr g) (dz g) i * (curl_e_z g m i k * curl_e_z g m i k))).
Proof.
  intros g dt m Hg. assert (Hdr := dr_pos g Hg). assert (Hdz := dz_pos g Hg). assert (HM := MAGN_CONST_pos).
  destruct Hg as (G1 & G2 & _). set (c := dt * dt / (4 * (MAGN_CONST * MAGN_CONST))).
  unfold magnetic_form, half_time_energy.
  rewrite (sum2_ext 0 (n_r g - 1) 0 (n_z g - 1) (fun i k => node_volume (dr g) (dz g) i * (m (HR, i, k) * calc_hfield g dt m (HR, i, k)))
    (fun i k => node_volume (dr g) (dz g) i * (calc_hfield g dt m (HRH, i, k) * calc_hfield g dt m (HRH, i, k))
       - c * (node_volume (dr g) (dz g) i * ((m (EPHI, i, (k + 1)%Z) - m (EPHI, i, k)) / dz g * ((m (EPHI, i, (k + 1)%Z) - m (EPHI, i, k)) / dz g))))).
  2:{ intros i k Hi Hk. rewrite calc_hfield_hr, calc_hfield_hr_half by lia. rect; [|lia].
      unfold c, alpha_r. field. lra. }
  rewrite (sum2_ext 0 (n_r g - 1) 0 (n_z g - 1) (fun i k => half_volume (dr g) (dz g) i * (m (HPHI, i, k) * calc_hfield g dt m (HPHI, i, k)))
    (fun i k => half_volume (dr g) (dz g) i * (calc_hfield g dt m (HPHIH, i, k) * calc_hfield g dt m (HPHIH, i, k))
       - c * (half_volume (dr g) (dz g) i * (curl_phi g m i k * curl_phi g m i k)))).
  2:{ intros i k Hi Hk. rewrite calc_hfield_hphi, calc_hfield_hphi_half. rect; [|lia].
      unfold c, alpha_phi, curl_phi. field. lra. }
  rewrite (sum2_ext 0 (n_r g - 1) 1 (n_z g - 1) (fun i k => half_volume (dr g) (dz g) i * (m (HZ, i, k) * calc_hfield g dt m (HZ, i, k)))
    (fun i k => half_volume (dr g) (dz g) i * (calc_hfield g dt m (HZH, i, k) * calc_hfield g dt m (HZH, i, k))
       - c * (half_volume (dr g) (dz g) i * (curl_e_z g m i k * curl_e_z g m i k)))).
  2:{ intros i k Hi Hk. assert (0 <= IZR i) by (apply IZR_nonneg; lia).
      rewrite calc_hfield_hz, calc_hfield_hz_half. rect; [|lia].
      unfold c, alpha_z, curl_e_z. field. lra. }
  rewrite !sum2_minus, !sum2_scal. unfold c. field. lra.
Qed.

(** Lower bound of the conserved energy. *)
Lemma energy_lower : forall g eps dt theta m, geom_ok g -> conducting g m ->
  (forall i k, (0 <= i < n_r g)%Z -> (0 <= k < n_z g)%Z -> 1 <= eps i k) ->
  0 <= theta <= 1 -> dt * dt * (4 / 3 / (dr g * dr g) + 1 / (dz g * dz g)) <= (1 - theta) * (EPSILON0 * MAGN_CONST) ->
  theta * electric_energy g eps m + half_time_energy g (calc_hfield g dt m) <= scheme_energy g eps dt m.
Proof.
  intros g eps dt theta m Hg Hm He Ht Hc. assert (Hdr := dr_pos g Hg). assert (Hdz := dz_pos g Hg).
  assert (HM := MAGN_CONST_pos). assert (HE := EPSILON0_pos).
  unfold scheme_energy, leapfrog_energy. rewrite form_split by exact Hg.
  assert (B1 := curl_phi_bound g m Hg Hm). assert (B2 := curl_te_bound g m Hg Hm).
  set (X := sum2 0 (n_r g - 1) 0 (n_z g - 1) (fun i k => node_volume (dr g) (dz g) i *
        ((m (EPHI, i, (k + 1)%Z) - m (EPHI, i, k)) / dz g * ((m (EPHI, i, (k + 1)%Z) - m (EPHI, i, k)) / dz g)))) in *.
  set (Y := sum2 0 (n_r g - 1) 0 (n_z g - 1) (fun i k => half_volume (dr g) (dz g) i * (curl_phi g m i k * curl_phi g m i k))) in *.
  set (W := sum2 0 (n_r g - 1) 1 (n_z g - 1) (fun i k => half_volume (dr g) (dz g) i * (curl_e_z g m i k * curl_e_z g m i k))) in *.
  assert (L : EPSILON0 / 2 * (sq_er g m + sq_ephi g m + sq_ez g m) <= electric_energy g eps m).
  { unfold electric_energy, electric_form. apply Rmult_le_compat_l; [lra|].
    destruct Hg as (G1 & G2 & G3).
    apply Rplus_le_compat; [apply Rplus_le_compat|]; apply sum2_le; intros i k Hi Hk.
    - assert (V := hv_nonneg g (conj G1 (conj G2 G3)) i ltac:(lia)). apply Rmult_le_compat_l; [exact V|].
      assert (E1 := He i k ltac:(lia) ltac:(lia)). assert (S := sqr_nonneg (m (ER, i, k))). nra.
    - assert (V := nv_nonneg g (conj G1 (conj G2 G3)) i ltac:(lia)). apply Rmult_le_compat_l; [exact V|].
      assert (E1 := He i k ltac:(lia) ltac:(lia)). assert (S := sqr_nonneg (m (EPHI, i, k))). nra.
    - assert (V := nv_nonneg g (conj G1 (conj G2 G3)) i ltac:(lia)). apply Rmult_le_compat_l; [exact V|].
      assert (E1 := He i k ltac:(lia) ltac:(lia)). assert (S := sqr_nonneg (m (EZ, i, k))). nra. }
  assert (S1 := sq_er_nonneg g m Hg). assert (S2 := sq_ephi_nonneg g m Hg). assert (S3 := sq_ez_nonneg g m Hg).
  set (S := sq_er g m + sq_ephi g m + sq_ez g m) in *.
  assert (K : X + Y + W <= cfl_const g * S) by (unfold S; lra).
  assert (D : 0 <= dt * dt) by apply sqr_nonneg.
  assert (D8 : 0 <= dt * dt / (8 * MAGN_CONST)) by (apply Rdiv_nonneg; lra).
  assert (T : dt * dt / (8 * MAGN_CONST) * (X + Y + W) <= (1 - theta) * (EPSILON0 / 2 * S)).
  { apply Rle_trans with (dt * dt / (8 * MAGN_CONST) * (cfl_const g * S)).
    - now apply Rmult_le_compat_l.
    - replace (dt * dt / (8 * MAGN_CONST) * (cfl_const g * S)) with
        (dt * dt * (4 / 3 / (dr g * dr g) + 1 / (dz g * dz g)) * (S / (2 * MAGN_CONST))).
      2:{ unfold cfl_const. field. lra. }
      replace ((1 - theta) * (EPSILON0 / 2 * S)) with ((1 - theta) * (EPSILON0 * MAGN_CONST) * (S / (2 * MAGN_CONST)))
        by (field; lra).
      apply Rmult_le_compat_r; [|exact Hc]. apply Rdiv_nonneg; [unfold S|]; lra. }
  assert (T2 : (1 - theta) * (EPSILON0 / 2 * S) <= (1 - theta) * electric_energy g eps m).
  { apply Rmult_le_compat_l; lra. }
  nra.
Qed.
