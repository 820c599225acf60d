(** Energy of the source-free leap-frog scheme. *)
From Coq Require Import Reals ZArith Lia Lra List Bool.
From Verif.Lib Require Import RAux Grid Par.
From Verif.Model Require Import Constants Geometry Fields.
From Verif.Spec Require Import Cloud Continuity Maxwell.
From Verif.Proof Require Import GeometryP ChargeP ChargeP2 CurrentP FieldsP MaxwellP.
Import ListNotations.
Local Open Scope R_scope.

(** ** Summation by parts *)

Lemma parts : forall (a h : Z -> R) N, (1 <= N)%Z ->
  zsum (fun k => a k * (h k - h (k - 1)%Z)) 1 N + zsum (fun k => h k * (a (k + 1)%Z - a k)) 0 N =
  a N * h (N - 1)%Z - a 0%Z * h 0%Z.
Proof.
  intros a h N HN. replace N with (1 + Z.of_nat (Z.to_nat (N - 1)))%Z by lia.
  induction (Z.to_nat (N - 1)) as [|n IH].
  - rewrite zsum_empty by lia. rewrite zsum_first, zsum_empty by lia. cbn. ring.
  - replace (1 + Z.of_nat (S n))%Z with (1 + Z.of_nat n + 1)%Z by lia.
    rewrite !zsum_last by lia. replace (1 + Z.of_nat n + 1 - 1)%Z with (1 + Z.of_nat n)%Z by lia. lra.
Qed.

(** The form used below: [a] vanishes at N; the term at 0 is written separately. *)
Lemma parts0 : forall (a h : Z -> R) N, (1 <= N)%Z -> a N = 0 ->
  a 0%Z * h 0%Z + zsum (fun k => a k * (h k - h (k - 1)%Z)) 1 N = - zsum (fun k => h k * (a (k + 1)%Z - a k)) 0 N.
Proof. intros a h N HN H. assert (P := parts a h N HN). rewrite H in P. lra. Qed.

(** ** Double sums *)

Lemma sum2_ext : forall a b c d f f', (forall i k, (a <= i < b)%Z -> (c <= k < d)%Z -> f i k = f' i k) ->
  sum2 a b c d f = sum2 a b c d f'.
Proof. intros a b c d f f' H. unfold sum2. apply zsum_ext. intros i Hi. apply zsum_ext. intros k Hk. now apply H. Qed.

Lemma sum2_plus : forall a b c d f f', sum2 a b c d (fun i k => f i k + f' i k) = sum2 a b c d f + sum2 a b c d f'.
Proof.
  intros. unfold sum2. rewrite <- zsum_plus. apply zsum_ext. intros i _. now rewrite zsum_plus.
Qed.

Lemma sum2_scal : forall a b c d x f, sum2 a b c d (fun i k => x * f i k) = x * sum2 a b c d f.
Proof.
  intros. unfold sum2. rewrite <- zsum_scal. apply zsum_ext. intros i _. now rewrite zsum_scal.
Qed.

Lemma sum2_minus : forall a b c d f f', sum2 a b c d (fun i k => f i k - f' i k) = sum2 a b c d f - sum2 a b c d f'.
Proof.
  intros. unfold sum2. rewrite <- zsum_minus. apply zsum_ext. intros i _. now rewrite zsum_minus.
Qed.

Lemma sum2_le : forall a b c d f f', (forall i k, (a <= i < b)%Z -> (c <= k < d)%Z -> f i k <= f' i k) ->
  sum2 a b c d f <= sum2 a b c d f'.
Proof. intros a b c d f f' H. unfold sum2. apply zsum_le. intros i Hi. apply zsum_le. intros k Hk. now apply H. Qed.

Lemma sum2_nonneg : forall a b c d f, (forall i k, (a <= i < b)%Z -> (c <= k < d)%Z -> 0 <= f i k) ->
  0 <= sum2 a b c d f.
Proof. intros a b c d f H. unfold sum2. apply zsum_nonneg. intros i Hi. apply zsum_nonneg. intros k Hk. now apply H. Qed.

Lemma half_volume_eq : forall d_r d_z i, half_volume d_r d_z i = 2 * c_PI * d_r * d_r * d_z * (IZR i + 1/2).
Proof. intros. unfold half_volume. field. Qed.

(** ** The discrete curls are adjoint *)

Section Adjoint.
Variables (g : geom) (F H : fmem).
Hypothesis Hg : geom_ok g.
Hypothesis HF : conducting g F.

Let N1 := (n_r g - 1)%Z.
Let N2 := (n_z g - 1)%Z.
Let nv := node_volume (dr g) (dz g).
Let hv := half_volume (dr g) (dz g).

Lemma adj_nr : (1 <= N1)%Z. Proof. destruct Hg as (A & _). unfold N1. lia. Qed.
Lemma adj_nz : (1 <= N2)%Z. Proof. destruct Hg as (_ & A & _). unfold N2. lia. Qed.

(** E_r with H_phi *)
Lemma adj_er_hphi :
  sum2 0 N1 1 N2 (fun i k => hv i * (F (ER, i, k) * ((H (HPHI, i, k) - H (HPHI, i, (k - 1)%Z)) / dz g))) =
  - sum2 0 N1 0 N2 (fun i k => hv i * (H (HPHI, i, k) * ((F (ER, i, (k + 1)%Z) - F (ER, i, k)) / dz g))).
Proof.
  unfold sum2. rewrite <- zsum_opp. apply zsum_ext. intros i Hi.
  assert (P := parts0 (fun k => F (ER, i, k)) (fun k => H (HPHI, i, k)) N2 adj_nz). cbv beta in P.
  rewrite (HF (ER, i, N2)), (HF (ER, i, 0%Z)) in P by (cbn; unfold N1, N2 in *; lia).
  specialize (P eq_refl).
  rewrite (zsum_ext _ (fun k => hv i / dz g * (F (ER, i, k) * (H (HPHI, i, k) - H (HPHI, i, (k - 1)%Z)))))
    by (intros; unfold Rdiv; ring).
  rewrite (zsum_ext (fun k => hv i * (H (HPHI, i, k) * ((F (ER, i, (k + 1)%Z) - F (ER, i, k)) / dz g)))
            (fun k => hv i / dz g * (H (HPHI, i, k) * (F (ER, i, (k + 1)%Z) - F (ER, i, k)))))
    by (intros; unfold Rdiv; ring).
  rewrite !zsum_scal. nra.
Qed.

(** E_phi with H_r *)
Lemma adj_ephi_hr :
  sum2 1 N1 1 N2 (fun i k => nv i * (F (EPHI, i, k) * ((H (HR, i, k) - H (HR, i, (k - 1)%Z)) / dz g))) =
  - sum2 0 N1 0 N2 (fun i k => nv i * (H (HR, i, k) * ((F (EPHI, i, (k + 1)%Z) - F (EPHI, i, k)) / dz g))).
Proof.
  assert (A1 := adj_nr). assert (A2 := adj_nz). unfold sum2. rewrite (zsum_first _ 0 N1) by lia.
  rewrite (zsum_zero_ext _ 0 N2).
  2:{ intros k Hk. rewrite (HF (EPHI, 0%Z, k)), (HF (EPHI, 0%Z, (k + 1)%Z)).
      - unfold Rdiv. ring.
      - cbn. unfold N2 in *. lia.
      - cbn. unfold N2 in *. lia. }
  rewrite Rplus_0_l, <- zsum_opp. apply zsum_ext. intros i Hi.
  assert (P := parts0 (fun k => F (EPHI, i, k)) (fun k => H (HR, i, k)) N2 adj_nz). cbv beta in P.
  rewrite (HF (EPHI, i, N2)), (HF (EPHI, i, 0%Z)) in P by (cbn; unfold N1, N2 in *; lia).
  specialize (P eq_refl).
  rewrite (zsum_ext _ (fun k => nv i / dz g * (F (EPHI, i, k) * (H (HR, i, k) - H (HR, i, (k - 1)%Z)))))
    by (intros; unfold Rdiv; ring).
  rewrite (zsum_ext (fun k => nv i * (H (HR, i, k) * ((F (EPHI, i, (k + 1)%Z) - F (EPHI, i, k)) / dz g)))
            (fun k => nv i / dz g * (H (HR, i, k) * (F (EPHI, i, (k + 1)%Z) - F (EPHI, i, k)))))
    by (intros; unfold Rdiv; ring).
  rewrite !zsum_scal. nra.
Qed.

(** curl of H, axial component; the axis is separate *)
Definition curl_z (i k : Z) : R :=
  if (i =? 0)%Z then 4 / dr g * H (HPHI, 0%Z, k)
  else (H (HPHI, i, k) - H (HPHI, (i - 1)%Z, k)) / dr g
       + (H (HPHI, i, k) + H (HPHI, (i - 1)%Z, k)) / (2 * dr g * IZR i).

(** E_z with H_phi *)
Lemma adj_ez_hphi :
  sum2 0 N1 0 N2 (fun i k => nv i * (F (EZ, i, k) * curl_z i k)) =
  - sum2 0 N1 0 N2 (fun i k => hv i * (H (HPHI, i, k) * ((F (EZ, (i + 1)%Z, k) - F (EZ, i, k)) / dr g))).
Proof.
  assert (A1 := adj_nr). assert (A2 := adj_nz). assert (Hdr := dr_pos g Hg). assert (Hdz := dz_pos g Hg).
  unfold sum2. rewrite zsum_swap, (zsum_swap (fun i k => hv i * _)), <- zsum_opp.
  apply zsum_ext. intros k Hk.
  set (c := 2 * c_PI * dr g * dz g).
  assert (P := parts0 (fun i => F (EZ, i, k)) (fun i => (IZR i + 1/2) * H (HPHI, i, k)) N1 A1). cbv beta in P.
  specialize (P (HF (EZ, N1, k) ltac:(cbn; unfold N1, N2 in *; lia))).
  rewrite (zsum_first _ 0 N1) by lia. cbn [Z.add].
  rewrite (zsum_ext (fun i => nv i * (F (EZ, i, k) * curl_z i k))
            (fun i => c * (F (EZ, i, k) * ((IZR i + 1/2) * H (HPHI, i, k) - (IZR (i - 1) + 1/2) * H (HPHI, (i - 1)%Z, k))))).
  2:{ intros i Hi. assert (1 <= IZR i) by (apply IZR_ge1; lia). unfold nv, curl_z, c.
      destruct (Z.eqb_spec i 0); [lia|].
      rewrite node_volume_pos_i by lia. unfold CELL_VOLUME. rewrite minus_IZR. field. split; lra. }
  replace (nv 0%Z * (F (EZ, 0%Z, k) * curl_z 0 k)) with (c * (F (EZ, 0%Z, k) * ((IZR 0 + 1/2) * H (HPHI, 0%Z, k)))).
  2:{ unfold nv, curl_z, c. cbn [Z.eqb]. rewrite node_volume_0. unfold CYL_VOL. cbn. field. lra. }
  rewrite (zsum_ext (fun i => hv i * _)
            (fun i => c * ((IZR i + 1/2) * H (HPHI, i, k) * (F (EZ, (i + 1)%Z, k) - F (EZ, i, k))))).
  2:{ intros i Hi. unfold hv, c. rewrite half_volume_eq. field. lra. }
  rewrite !zsum_scal. rewrite <- Rmult_plus_distr_l, P. ring.
Qed.

(** E_phi with H_z *)
Lemma adj_ephi_hz :
  sum2 1 N1 1 N2 (fun i k => nv i * (F (EPHI, i, k) * ((H (HZ, i, k) - H (HZ, (i - 1)%Z, k)) / dr g))) =
  - sum2 0 N1 1 N2 (fun i k => hv i * (H (HZ, i, k) *
      ((F (EPHI, (i + 1)%Z, k) + F (EPHI, i, k)) / (2 * dr g * (IZR i + 1/2))
       + (F (EPHI, (i + 1)%Z, k) - F (EPHI, i, k)) / dr g))).
Proof.
  assert (A1 := adj_nr). assert (A2 := adj_nz). assert (Hdr := dr_pos g Hg). assert (Hdz := dz_pos g Hg).
  unfold sum2. rewrite zsum_swap, (zsum_swap (fun i k => hv i * _)), <- zsum_opp.
  apply zsum_ext. intros k Hk.
  set (c := 2 * c_PI * dr g * dz g).
  assert (P := parts0 (fun i => IZR i * F (EPHI, i, k)) (fun i => H (HZ, i, k)) N1 A1). cbv beta in P.
  rewrite (HF (EPHI, N1, k)) in P by (cbn; unfold N1, N2 in *; lia).
  specialize (P (Rmult_0_r _)). rewrite !Rmult_0_l, Rplus_0_l in P.
  rewrite (zsum_ext (fun i => nv i * _)
            (fun i => c * (IZR i * F (EPHI, i, k) * (H (HZ, i, k) - H (HZ, (i - 1)%Z, k))))).
  2:{ intros i Hi. assert (1 <= IZR i) by (apply IZR_ge1; lia). unfold nv, c.
      rewrite node_volume_pos_i by lia. unfold CELL_VOLUME. field. lra. }
  rewrite (zsum_ext (fun i => hv i * _)
            (fun i => c * (H (HZ, i, k) * (IZR (i + 1) * F (EPHI, (i + 1)%Z, k) - IZR i * F (EPHI, i, k))))).
  2:{ intros i Hi. assert (0 <= IZR i) by (apply IZR_nonneg; lia). unfold hv, c.
      rewrite half_volume_eq, plus_IZR. field. split; lra. }
  rewrite !zsum_scal, P. ring.
Qed.

End Adjoint.

(** ** One step *)

(** The two memories between which the H fields of one energy are taken: before and after
    the magnetic update. *)
Definition scheme_energy (g : geom) (eps : arr) (dt : R) (m : fmem) : R :=
  leapfrog_energy g eps m (calc_hfield g dt m).

Section Step.
Variables (g : geom) (md : medium) (dt : R) (m : fmem).
Hypothesis Hg : geom_ok g.
Hypothesis Hmd : insulating g md.
Hypothesis Hm : conducting g m.

Let N1 := (n_r g - 1)%Z.
Let N2 := (n_z g - 1)%Z.
Let nv := node_volume (dr g) (dz g).
Let hv := half_volume (dr g) (dz g).
Let h := calc_hfield g dt m.                       (* the new magnetic field *)
Let m1 := field_step g md dt no_current m.         (* the state after the step *)
Let F : fmem := fun x => m1 x + m x.

Lemma m1_h : forall a i k, is_h a = true -> m1 (a, i, k) = h (a, i, k).
Proof.
  intros a i k Ha. unfold m1, field_step, h. rewrite calc_efield_other by (intros ->; discriminate).
  destruct a; try discriminate; reflexivity.
Qed.

Lemma F_conducting : conducting g F.
Proof.
  intros x Hx. unfold F, m1. rewrite field_step_wall by assumption. rewrite (Hm x Hx). ring.
Qed.

(** eps (E1^2 - E^2) summed is the work of the curl. *)
Lemma delta_er : forall i k, (0 <= i < N1)%Z -> (1 <= k < N2)%Z ->
  epsilon md i k * m1 (ER, i, k) * m1 (ER, i, k) - epsilon md i k * m (ER, i, k) * m (ER, i, k) =
  - (dt / EPSILON0) * (F (ER, i, k) * ((h (HPHI, i, k) - h (HPHI, i, (k - 1)%Z)) / dz g)).
Proof.
  intros i k Hi Hk.
  assert (E := eps_er g md dt (set_current zero_arr zero_arr zero_arr h) i k Hg Hmd Hi Hk).
  cbn [set_current] in E. unfold zero_arr in E. unfold h in E. rewrite !(calc_hfield_e _ _ _ ER) in E by reflexivity.
  fold h in E. change (calc_efield g md dt _ (ER, i, k)) with (m1 (ER, i, k)) in E.
  transitivity ((epsilon md i k * m1 (ER, i, k) - epsilon md i k * m (ER, i, k)) * F (ER, i, k)); [unfold F; ring|].
  rewrite E. ring.
Qed.

Lemma delta_ephi : forall i k, (1 <= i < N1)%Z -> (1 <= k < N2)%Z ->
  epsilon md i k * m1 (EPHI, i, k) * m1 (EPHI, i, k) - epsilon md i k * m (EPHI, i, k) * m (EPHI, i, k) =
  (dt / EPSILON0) * (F (EPHI, i, k) * ((h (HR, i, k) - h (HR, i, (k - 1)%Z)) / dz g)
     - F (EPHI, i, k) * ((h (HZ, i, k) - h (HZ, (i - 1)%Z, k)) / dr g)).
Proof.
  intros i k Hi Hk.
  assert (E := eps_ephi g md dt (set_current zero_arr zero_arr zero_arr h) i k Hg Hmd Hi Hk).
  cbn [set_current] in E. unfold zero_arr in E. unfold h in E. rewrite !(calc_hfield_e _ _ _ EPHI) in E by reflexivity.
  fold h in E. change (calc_efield g md dt _ (EPHI, i, k)) with (m1 (EPHI, i, k)) in E.
  transitivity ((epsilon md i k * m1 (EPHI, i, k) - epsilon md i k * m (EPHI, i, k)) * F (EPHI, i, k)); [unfold F; ring|].
  rewrite E. ring.
Qed.

Lemma delta_ez : forall i k, (0 <= i < N1)%Z -> (0 <= k < N2)%Z ->
  epsilon md i k * m1 (EZ, i, k) * m1 (EZ, i, k) - epsilon md i k * m (EZ, i, k) * m (EZ, i, k) =
  (dt / EPSILON0) * (F (EZ, i, k) * curl_z g h i k).
Proof.
  intros i k Hi Hk.
  transitivity ((epsilon md i k * m1 (EZ, i, k) - epsilon md i k * m (EZ, i, k)) * F (EZ, i, k)); [unfold F; ring|].
  unfold curl_z. destruct (Z.eqb_spec i 0) as [->|Ni].
  - assert (E := eps_ez_axis g md dt (set_current zero_arr zero_arr zero_arr h) k Hg Hmd Hk).
    cbn [set_current] in E. unfold zero_arr in E. unfold h in E. rewrite !(calc_hfield_e _ _ _ EZ) in E by reflexivity.
    fold h in E. change (calc_efield g md dt _ (EZ, 0%Z, k)) with (m1 (EZ, 0%Z, k)) in E. rewrite E. ring.
  - assert (E := eps_ez g md dt (set_current zero_arr zero_arr zero_arr h) i k Hg Hmd ltac:(lia) Hk).
    cbn [set_current] in E. unfold zero_arr in E. unfold h in E. rewrite !(calc_hfield_e _ _ _ EZ) in E by reflexivity.
    fold h in E. change (calc_efield g md dt _ (EZ, i, k)) with (m1 (EZ, i, k)) in E. rewrite E. ring.
Qed.

Lemma electric_gain :
  electric_energy g (epsilon md) m1 - electric_energy g (epsilon md) m =
  dt / 2 *
  (- sum2 0 N1 1 N2 (fun i k => hv i * (F (ER, i, k) * ((h (HPHI, i, k) - h (HPHI, i, (k - 1)%Z)) / dz g)))
   + sum2 1 N1 1 N2 (fun i k => nv i * (F (EPHI, i, k) * ((h (HR, i, k) - h (HR, i, (k - 1)%Z)) / dz g)))
   - sum2 1 N1 1 N2 (fun i k => nv i * (F (EPHI, i, k) * ((h (HZ, i, k) - h (HZ, (i - 1)%Z, k)) / dr g)))
   + sum2 0 N1 0 N2 (fun i k => nv i * (F (EZ, i, k) * curl_z g h i k))).
Proof.
  assert (HE := EPSILON0_pos).
  assert (T1 : sum2 0 N1 1 N2 (fun i k => hv i * (epsilon md i k * m1 (ER, i, k) * m1 (ER, i, k)))
             = sum2 0 N1 1 N2 (fun i k => hv i * (epsilon md i k * m (ER, i, k) * m (ER, i, k)))
             - dt / EPSILON0 * sum2 0 N1 1 N2 (fun i k => hv i * (F (ER, i, k) * ((h (HPHI, i, k) - h (HPHI, i, (k - 1)%Z)) / dz g)))).
  { rewrite <- sum2_scal, <- sum2_minus. apply sum2_ext. intros i k Hi Hk.
    assert (D := delta_er i k Hi Hk).
    replace (epsilon md i k * m1 (ER, i, k) * m1 (ER, i, k)) with
      (epsilon md i k * m (ER, i, k) * m (ER, i, k) +
       - (dt / EPSILON0) * (F (ER, i, k) * ((h (HPHI, i, k) - h (HPHI, i, (k - 1)%Z)) / dz g))) by lra. ring. }
  assert (T2 : sum2 1 N1 1 N2 (fun i k => nv i * (epsilon md i k * m1 (EPHI, i, k) * m1 (EPHI, i, k)))
             = sum2 1 N1 1 N2 (fun i k => nv i * (epsilon md i k * m (EPHI, i, k) * m (EPHI, i, k)))
             + dt / EPSILON0 * (sum2 1 N1 1 N2 (fun i k => nv i * (F (EPHI, i, k) * ((h (HR, i, k) - h (HR, i, (k - 1)%Z)) / dz g)))
               - sum2 1 N1 1 N2 (fun i k => nv i * (F (EPHI, i, k) * ((h (HZ, i, k) - h (HZ, (i - 1)%Z, k)) / dr g))))).
  { rewrite <- sum2_minus, <- sum2_scal, <- sum2_plus. apply sum2_ext. intros i k Hi Hk.
    assert (D := delta_ephi i k Hi Hk).
    replace (epsilon md i k * m1 (EPHI, i, k) * m1 (EPHI, i, k)) with
      (epsilon md i k * m (EPHI, i, k) * m (EPHI, i, k) +
       (dt / EPSILON0) * (F (EPHI, i, k) * ((h (HR, i, k) - h (HR, i, (k - 1)%Z)) / dz g)
     - F (EPHI, i, k) * ((h (HZ, i, k) - h (HZ, (i - 1)%Z, k)) / dr g))) by lra. ring. }
  assert (T3 : sum2 0 N1 0 N2 (fun i k => nv i * (epsilon md i k * m1 (EZ, i, k) * m1 (EZ, i, k)))
             = sum2 0 N1 0 N2 (fun i k => nv i * (epsilon md i k * m (EZ, i, k) * m (EZ, i, k)))
             + dt / EPSILON0 * sum2 0 N1 0 N2 (fun i k => nv i * (F (EZ, i, k) * curl_z g h i k))).
  { rewrite <- sum2_scal, <- sum2_plus. apply sum2_ext. intros i k Hi Hk.
    assert (D := delta_ez i k Hi Hk).
    replace (epsilon md i k * m1 (EZ, i, k) * m1 (EZ, i, k)) with
      (epsilon md i k * m (EZ, i, k) * m (EZ, i, k) +
       (dt / EPSILON0) * (F (EZ, i, k) * curl_z g h i k)) by lra. ring. }
  unfold electric_energy, electric_form. fold N1 N2 nv hv. rewrite T1, T2, T3. field. lra.
Qed.

(** The magnetic part: H' (H' + dt/mu C E1) - H (H + dt/mu C E), with H' = H + dt/mu C E. *)
Lemma magnetic_gain :
  magnetic_form g m1 (calc_hfield g dt m1) - magnetic_form g m h =
  dt / 2 *
  (sum2 0 N1 0 N2 (fun i k => nv i * (h (HR, i, k) * ((F (EPHI, i, (k + 1)%Z) - F (EPHI, i, k)) / dz g)))
   + sum2 0 N1 0 N2 (fun i k => hv i * (h (HPHI, i, k) * ((F (EZ, (i + 1)%Z, k) - F (EZ, i, k)) / dr g)))
   - sum2 0 N1 0 N2 (fun i k => hv i * (h (HPHI, i, k) * ((F (ER, i, (k + 1)%Z) - F (ER, i, k)) / dz g)))
   - sum2 0 N1 1 N2 (fun i k => hv i * (h (HZ, i, k) *
      ((F (EPHI, (i + 1)%Z, k) + F (EPHI, i, k)) / (2 * dr g * (IZR i + 1/2))
       + (F (EPHI, (i + 1)%Z, k) - F (EPHI, i, k)) / dr g)))).
Proof.
  assert (HM := MAGN_CONST_pos). assert (Hdr := dr_pos g Hg). assert (Hdz := dz_pos g Hg).
  destruct Hg as (G1 & G2 & _).
  assert (T1 : sum2 0 N1 0 N2 (fun i k => nv i * (m1 (HR, i, k) * calc_hfield g dt m1 (HR, i, k)))
    = sum2 0 N1 0 N2 (fun i k => nv i * (m (HR, i, k) * h (HR, i, k)))
    + dt / MAGN_CONST * sum2 0 N1 0 N2 (fun i k => nv i * (h (HR, i, k) * ((F (EPHI, i, (k + 1)%Z) - F (EPHI, i, k)) / dz g)))).
  { rewrite <- sum2_scal, <- sum2_plus. apply sum2_ext. intros i k Hi Hk.
    rewrite calc_hfield_hr by lia. rewrite m1_h by reflexivity.
    assert (E : h (HR, i, k) = m (HR, i, k) + alpha_r g dt (m (EPHI, i, (k + 1)%Z)) (m (EPHI, i, k))).
    { unfold h. rewrite calc_hfield_hr by lia. rect; [reflexivity|unfold N1, N2 in *; lia]. }
    rect; [|unfold N1, N2 in *; lia].
    replace (m (HR, i, k)) with (h (HR, i, k) - alpha_r g dt (m (EPHI, i, (k + 1)%Z)) (m (EPHI, i, k))) by lra.
    unfold alpha_r, F. field. lra. }
  assert (T2 : sum2 0 N1 0 N2 (fun i k => hv i * (m1 (HPHI, i, k) * calc_hfield g dt m1 (HPHI, i, k)))
    = sum2 0 N1 0 N2 (fun i k => hv i * (m (HPHI, i, k) * h (HPHI, i, k)))
    + dt / MAGN_CONST * (sum2 0 N1 0 N2 (fun i k => hv i * (h (HPHI, i, k) * ((F (EZ, (i + 1)%Z, k) - F (EZ, i, k)) / dr g)))
      - sum2 0 N1 0 N2 (fun i k => hv i * (h (HPHI, i, k) * ((F (ER, i, (k + 1)%Z) - F (ER, i, k)) / dz g))))).
  { rewrite <- sum2_minus, <- sum2_scal, <- sum2_plus. apply sum2_ext. intros i k Hi Hk.
    rewrite calc_hfield_hphi. rewrite m1_h by reflexivity.
    assert (E : h (HPHI, i, k) = m (HPHI, i, k)
       + alpha_phi g dt (m (EZ, (i + 1)%Z, k)) (m (EZ, i, k)) (m (ER, i, (k + 1)%Z)) (m (ER, i, k))).
    { unfold h. rewrite calc_hfield_hphi. rect; [reflexivity|unfold N1, N2 in *; lia]. }
    rect; [|unfold N1, N2 in *; lia].
    replace (m (HPHI, i, k)) with (h (HPHI, i, k)
       - alpha_phi g dt (m (EZ, (i + 1)%Z, k)) (m (EZ, i, k)) (m (ER, i, (k + 1)%Z)) (m (ER, i, k))) by lra.
    unfold alpha_phi, F. field. lra. }
  assert (T3 : sum2 0 N1 1 N2 (fun i k => hv i * (m1 (HZ, i, k) * calc_hfield g dt m1 (HZ, i, k)))
    = sum2 0 N1 1 N2 (fun i k => hv i * (m (HZ, i, k) * h (HZ, i, k)))
    - dt / MAGN_CONST * sum2 0 N1 1 N2 (fun i k => hv i * (h (HZ, i, k) *
      ((F (EPHI, (i + 1)%Z, k) + F (EPHI, i, k)) / (2 * dr g * (IZR i + 1/2))
       + (F (EPHI, (i + 1)%Z, k) - F (EPHI, i, k)) / dr g)))).
  { rewrite <- sum2_scal, <- sum2_minus. apply sum2_ext. intros i k Hi Hk.
    assert (0 <= IZR i) by (apply IZR_nonneg; lia).
    rewrite calc_hfield_hz. rewrite m1_h by reflexivity.
    assert (E : h (HZ, i, k) = m (HZ, i, k) - alpha_z g dt i (m (EPHI, (i + 1)%Z, k)) (m (EPHI, i, k))).
    { unfold h. rewrite calc_hfield_hz. rect; [reflexivity|unfold N1, N2 in *; lia]. }
    rect; [|unfold N1, N2 in *; lia].
    replace (m (HZ, i, k)) with (h (HZ, i, k) + alpha_z g dt i (m (EPHI, (i + 1)%Z, k)) (m (EPHI, i, k))) by lra.
    unfold alpha_z, F. field. lra. }
  unfold magnetic_form. fold N1 N2 nv hv. rewrite T1, T2, T3. field. lra.
Qed.

Lemma energy_step : scheme_energy g (epsilon md) dt m1 = scheme_energy g (epsilon md) dt m.
Proof.
  assert (E := electric_gain). assert (M := magnetic_gain). unfold scheme_energy, leapfrog_energy. fold h.
  assert (A1 := adj_er_hphi g F h Hg F_conducting). assert (A2 := adj_ephi_hr g F h Hg F_conducting).
  assert (A3 := adj_ez_hphi g F h Hg F_conducting). assert (A4 := adj_ephi_hz g F h Hg F_conducting).
  fold N1 N2 in A1, A2, A3, A4. fold nv hv in A1, A2, A3, A4. rewrite A1, A2, A3, A4 in E.
  clear A1 A2 A3 A4. nra.
Qed.

End Step.

Lemma energy_run : forall g md dt n m, geom_ok g -> insulating g md -> conducting g m ->
  scheme_energy g (epsilon md) dt (field_run g md dt (repeat no_current n) m) =
  scheme_energy g (epsilon md) dt m.
Proof.
  intros g md dt n. induction n as [|n IH]; intros m Hg Hmd Hm; [reflexivity|].
  unfold field_run in *. cbn [repeat fold_left]. rewrite IH; auto using conducting_step.
  now apply energy_step.
Qed.
