(** The energy balance for the field solver of Model/Fields.v. *)
From Coq Require Import Reals ZArith Lia Lra List Bool.
From Verif.Lib Require Import RAux Grid Par.
From Verif.Model Require Import Constants Geometry Fields.
From Verif.Spec Require Import Cloud Continuity Maxwell Poynting.
From Verif.Proof Require Import GeometryP ChargeP ChargeP2 CurrentP FieldsP MaxwellP EnergyP StabilityP PoyntingP.
Import ListNotations.
Local Open Scope R_scope.

Section Step.
Variables (g : geom) (md : medium) (dt : R).
Hypothesis Hg : geom_ok g.

Lemma h_step : forall m a i k, h_at g a i k -> calc_hfield g dt m (a, i, k) = m (a, i, k) + dt / MAGN_CONST * ce g m a i k.
Proof.
  intros m a i k Ha. assert (HM := MAGN_CONST_pos). assert (Hdr := dr_pos g Hg). assert (Hdz := dz_pos g Hg). destruct Hg as (G1 & G2 & _).
  destruct a; cbn in Ha; try contradiction; unfold ce.
  - rewrite calc_hfield_hr by lia. rect; [|lia]. unfold alpha_r. field. lra.
  - rewrite calc_hfield_hphi. rect; [|lia]. unfold alpha_phi, curl_phi, Rdiv. ring.
  - rewrite calc_hfield_hz. rect; [|lia]. unfold alpha_z, curl_e_z, Rdiv. ring.
Qed.
Lemma ce_e : forall m m', (forall a i k, (a = ER \/ a = EPHI \/ a = EZ) -> m (a, i, k) = m' (a, i, k)) -> forall a i k, ce g m a i k = ce g m' a i k.
Proof. intros m m' H a i k. destruct a; try reflexivity; unfold ce, curl_phi, curl_e_z; rewrite !H by tauto; reflexivity. Qed.

Section One.
Variables (j : currents3) (m : fmem).
Let h := calc_hfield g dt m.
Let m1 := field_step g md dt j m.
Lemma step_h : forall a i k, (a = HR \/ a = HPHI \/ a = HZ) -> m1 (a, i, k) = h (a, i, k).
Proof. intros a i k Ha. unfold m1, field_step. rewrite calc_efield_other by (intro E; subst a; intuition discriminate). destruct a; try reflexivity; intuition discriminate. Qed.
Lemma h_keeps_e : forall a i k, (a = ER \/ a = EPHI \/ a = EZ) -> h (a, i, k) = m (a, i, k).
Proof. intros a i k Ha. unfold h. apply calc_hfield_other. destruct Ha as [->|[->| ->]]; reflexivity. Qed.
Lemma e_step : forall a i k, e_at g a i k ->
  m1 (a, i, k) = m (a, i, k) * koef_e md dt i k - (density j a i k - ch g h a i k) * koef_h md dt i k.
Proof.
  intros a i k Ha. destruct Hg as (G1 & G2 & _). unfold m1, field_step. destruct a; cbn in Ha; try contradiction; unfold ch, density.
  - rewrite calc_efield_er by lia. rect; [|lia]. cbn [set_current]. fold h. rewrite h_keeps_e by tauto. ring.
  - rewrite calc_efield_ephi. rect; [|lia]. cbn [set_current]. fold h. rewrite h_keeps_e by tauto. ring.
  - unfold curl_z. destruct (Z.eqb_spec i 0) as [->|N].
    + rewrite calc_efield_ez_axis. rect; [|lia]. cbn [set_current]. fold h. rewrite h_keeps_e by tauto. ring.
    + rewrite calc_efield_ez by lia. rect; [|lia]. cbn [set_current]. fold h. rewrite h_keeps_e by tauto. ring.
Qed.
Hypothesis Hr : regular g md dt.
Lemma e_equation : forall a i k, e_at g a i k ->
  epsilonx2 md i k * (m1 (a, i, k) - m (a, i, k)) = - sigma_t md dt i k * (m (a, i, k) + m1 (a, i, k)) - 2 * dt * (density j a i k - ch g h a i k).
Proof.
  intros a i k Ha. rewrite (e_step a i k Ha). unfold koef_e, koef_h, epsilonx2, sigma_t.
  assert (R : 2 * epsilon md i k * EPSILON0 + sigma md i k * dt <> 0) by (apply Hr; destruct a; cbn in Ha; lia).
  field. exact R.
Qed.
End One.

Lemma after_leapfrog : forall m h, (forall a i k, (a = HR \/ a = HPHI \/ a = HZ) -> m (a, i, k) = h (a, i, k)) -> after g md dt m h = leapfrog_energy g (epsilon md) m (calc_hfield g dt m).
Proof.
  intros m h Hh. unfold after, leapfrog_energy. f_equal. unfold magnetic_form. f_equal. fold (h_sum g (fun a i k => m (a, i, k) * calc_hfield g dt m (a, i, k))).
  apply h_sum_ext. intros a i k Ha. rewrite (h_step m a i k Ha), Hh; [reflexivity|]. destruct a; cbn in Ha; tauto.
Qed.
Lemma before_leapfrog : forall m, before g md dt m (calc_hfield g dt m) = leapfrog_energy g (epsilon md) m (calc_hfield g dt m).
Proof.
  intros m. unfold before, leapfrog_energy. f_equal. unfold magnetic_form. f_equal. fold (h_sum g (fun a i k => m (a, i, k) * calc_hfield g dt m (a, i, k))).
  apply h_sum_ext. intros a i k Ha. rewrite (h_step m a i k Ha). ring.
Qed.

Lemma poynting : regular g md dt -> forall j m, conducting g m ->
  let m' := field_step g md dt j m in
  leapfrog_energy g (epsilon md) m' (calc_hfield g dt m') = leapfrog_energy g (epsilon md) m (calc_hfield g dt m) - heat g md dt m m' - work g dt j m m'.
Proof.
  intros Hr j m Hm m'. assert (B := balance g Hg md dt m (calc_hfield g dt m) m' (density j) Hm (conducting_step g md dt j m Hg Hm) (e_equation j m Hr)).
  rewrite (after_leapfrog m' (calc_hfield g dt m) (step_h j m)), before_leapfrog in B. exact B.
Qed.
Lemma poynting_run : regular g md dt -> forall js m, conducting g m ->
  let m' := field_run g md dt js m in
  leapfrog_energy g (epsilon md) m' (calc_hfield g dt m') = leapfrog_energy g (epsilon md) m (calc_hfield g dt m) - spent g md dt js m.
Proof.
  intros Hr js. induction js as [|j js IH]; intros m Hm; unfold field_run in *; cbn [fold_left spent]; [cbv zeta; lra|].
  cbv zeta in *. rewrite (IH (field_step g md dt j m) (conducting_step g md dt j m Hg Hm)). assert (P := poynting Hr j m Hm). cbv zeta in P. lra.
Qed.

Lemma heat_nonneg : passive g md -> 0 <= dt -> forall m m', 0 <= heat g md dt m m'.
Proof.
  intros Hp Hdt m m'. unfold heat. apply Rmult_le_pos; [exact Hdt|]. apply e_sum_nonneg; [exact Hg|]. intros a i k Ha. apply Rmult_le_pos; [|apply sqr_nonneg].
  destruct (Hp i k) as (_ & P); [destruct a; cbn in Ha; lia|destruct a; cbn in Ha; lia|exact P].
Qed.
Lemma passive_regular : passive g md -> 0 <= dt -> regular g md dt.
Proof.
  intros Hp Hdt i k Hi Hk. destruct (Hp i k Hi Hk) as (P1 & P2). assert (HE := EPSILON0_pos). assert (0 <= sigma md i k * dt) by (now apply Rmult_le_pos). assert (0 < 2 * epsilon md i k * EPSILON0) by (apply Rmult_lt_0_compat; lra). lra.
Qed.
Lemma absorbing : passive g md -> 0 <= dt -> forall n m, conducting g m ->
  let m' := field_run g md dt (repeat no_current n) m in
  leapfrog_energy g (epsilon md) m' (calc_hfield g dt m') <= leapfrog_energy g (epsilon md) m (calc_hfield g dt m).
Proof.
  intros Hp Hdt n m Hm m'. unfold m'. rewrite (poynting_run (passive_regular Hp Hdt)) by exact Hm. clear m'.
  assert (S : 0 <= spent g md dt (repeat no_current n) m); [|lra].
  revert m Hm. induction n as [|n IH]; intros m Hm; cbn [repeat spent]; [lra|]. cbv zeta. assert (H := heat_nonneg Hp Hdt m (field_step g md dt no_current m)).
  assert (W : work g dt no_current m (field_step g md dt no_current m) = 0).
  { unfold work. rewrite (e_sum_ext g _ (fun _ _ _ => 0)), e_sum_zero; [ring|]. intros a i k _. destruct a; cbn; unfold zero_arr; ring. }
  assert (I := IH _ (conducting_step g md dt no_current m Hg Hm)). lra.
Qed.

Section Driven.
Variable theta : R.
Hypothesis Ht : 0 < theta <= 1.
Hypothesis Hp : passive g md.
Hypothesis Hc : dt * dt * (4 / 3 / (dr g * dr g) + 1 / (dz g * dz g)) <= (1 - theta) * (EPSILON0 * MAGN_CONST).
Hypothesis Hdt : 0 <= dt.
Lemma driven_one : forall j m, conducting g m -> let m' := field_step g md dt j m in
  sqrt (leapfrog_energy g (epsilon md) m' (calc_hfield g dt m')) <= sqrt (leapfrog_energy g (epsilon md) m (calc_hfield g dt m)) + dt / sqrt (2 * theta * EPSILON0) * current_size g j.
Proof.
  intros j m Hm m'. assert (B := driven_step g Hg md dt theta Ht Hp Hc Hdt m (calc_hfield g dt m) m' (density j) Hm (conducting_step g md dt j m Hg Hm) (e_equation j m (passive_regular Hp Hdt))).
  rewrite (after_leapfrog m' (calc_hfield g dt m) (step_h j m)), before_leapfrog in B. exact B.
Qed.
Lemma driven_run : forall js m, conducting g m -> let m' := field_run g md dt js m in
  sqrt (leapfrog_energy g (epsilon md) m' (calc_hfield g dt m')) <= sqrt (leapfrog_energy g (epsilon md) m (calc_hfield g dt m)) + dt / sqrt (2 * theta * EPSILON0) * total_size g js.
Proof.
  intro js. induction js as [|j js IH]; intros m Hm; unfold field_run in *; cbn [fold_left total_size fold_right]; cbv zeta in *; [lra|].
  apply Rle_trans with (1 := IH (field_step g md dt j m) (conducting_step g md dt j m Hg Hm)). assert (D := driven_one j m Hm). cbv zeta in D. fold (total_size g js). lra.
Qed.
Lemma energy_below : forall m, conducting g m -> theta * electric_energy g (epsilon md) m + half_time_energy g (calc_hfield g dt m) <= leapfrog_energy g (epsilon md) m (calc_hfield g dt m).
Proof. intros m Hm. apply energy_lower; try assumption; [intros i k Hi Hk; destruct (Hp i k Hi Hk); assumption|lra]. Qed.
End Driven.
End Step.
