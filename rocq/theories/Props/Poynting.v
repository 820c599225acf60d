(** Property C76: Poynting's theorem for the field solver with currents and conductivity
    (src/eField.cpp, src/hField.cpp, src/loadInitParam.cpp lines 487-528). *)
From Coq Require Import Reals ZArith Lia Lra List Bool.
From Verif.Lib Require Import RAux Grid Par.
From Verif.Model Require Import Constants Geometry Fields Pml.
From Verif.Spec Require Import Cloud Continuity Maxwell Sample.
From Verif.Proof Require Import GeometryP ChargeP ChargeP2 CurrentP CurrentEx FieldsP MaxwellP EnergyP StabilityP PmlP PoyntingP Poynting2P.
From Verif.Props Require Import Current Fields Pml.
From Verif.Spec Require Import Poynting.
Import ListNotations.
Local Open Scope R_scope.

(** C76. One step, any currents, any medium the update does not divide by zero in: the energy of the scheme falls by
    exactly the heat and the work on the currents. *)
Theorem C76_poynting : forall g md dt j m, geom_ok g -> regular g md dt -> conducting g m ->
  let m' := field_step g md dt j m in
  leapfrog_energy g (epsilon md) m' (calc_hfield g dt m') =
  leapfrog_energy g (epsilon md) m (calc_hfield g dt m) - heat g md dt m m' - work g dt j m m'.
Proof. intros g md dt j m Hg Hr Hm. exact (poynting g md dt Hg Hr j m Hm). Qed.
Print Assumptions C76_poynting.

(** C76. The same for a run of any length with any currents. *)
Theorem C76_run : forall g md dt js m, geom_ok g -> regular g md dt -> conducting g m ->
  let m' := field_run g md dt js m in
  leapfrog_energy g (epsilon md) m' (calc_hfield g dt m') =
  leapfrog_energy g (epsilon md) m (calc_hfield g dt m) - spent g md dt js m.
Proof. intros g md dt js m Hg Hr Hm. exact (poynting_run g md dt Hg Hr js m Hm). Qed.
Print Assumptions C76_run.

(** C76. Without currents a passive medium only takes energy, however conducting it is and however long the step. *)
Theorem C76_absorbing : forall g md dt n m, geom_ok g -> passive g md -> 0 <= dt -> conducting g m ->
  let m' := field_run g md dt (repeat no_current n) m in
  leapfrog_energy g (epsilon md) m' (calc_hfield g dt m') <= leapfrog_energy g (epsilon md) m (calc_hfield g dt m).
Proof. intros g md dt n m Hg Hp Hdt Hm. exact (absorbing g md dt Hg Hp Hdt n m Hm). Qed.
Print Assumptions C76_absorbing.

(** C76. Below the stability limit the fields are bounded by what they started with and the currents fed in: the root
    of the energy grows by at most dt / sqrt (2 theta eps0) times the sizes of the currents. *)
Theorem C76_driven : forall g md dt theta js m, geom_ok g -> passive g md -> 0 <= dt -> 0 < theta <= 1 ->
  dt * dt * (4 / 3 / (dr g * dr g) + 1 / (dz g * dz g)) <= (1 - theta) * (EPSILON0 * MAGN_CONST) -> conducting g m ->
  let m' := field_run g md dt js m in
  sqrt (theta * electric_energy g (epsilon md) m' + half_time_energy g (calc_hfield g dt m')) <=
  sqrt (leapfrog_energy g (epsilon md) m (calc_hfield g dt m)) + dt / sqrt (2 * theta * EPSILON0) * total_size g js.
Proof.
  intros g md dt theta js m Hg Hp Hdt Ht Hc Hm m'. apply Rle_trans with (2 := driven_run g md dt Hg theta Ht Hp Hc Hdt js m Hm).
  apply sqrt_le_1_alt. apply (energy_below g md dt Hg theta Ht Hp Hc). now apply conducting_run.
Qed.
Print Assumptions C76_driven.

(** C76. The absorbing layers of the code, absent or at least a cell thick, are such a medium. *)
Theorem C76_layers : forall g s1 s2 l1 l2 l3 dt n m, geom_ok g -> 0 <= s1 <= s2 ->
  (l2 <= 0 \/ 1 <= IZR (n_z g) * l2) -> (l3 <= 0 \/ 1 <= IZR (n_r g) * l3) -> 0 <= dt -> conducting g m ->
  let md := layered (conductivity g l1 l2 l3 s1 s2) in
  (forall i k, (0 <= i < n_r g)%Z -> (0 <= k < n_z g)%Z -> conductivity g l1 l2 l3 s1 s2 i k = Fin (sigma md i k)) /\
  let m' := field_run g md dt (repeat no_current n) m in
  leapfrog_energy g (epsilon md) m' (calc_hfield g dt m') <= leapfrog_energy g (epsilon md) m (calc_hfield g dt m).
Proof.
  intros g s1 s2 l1 l2 l3 dt n m Hg Hs H2 H3 Hdt Hm md.
  assert (F : forall i k, (0 <= i < n_r g)%Z -> (0 <= k < n_z g)%Z -> conductivity g l1 l2 l3 s1 s2 i k = Fin (sigma md i k) /\ 0 <= sigma md i k).
  { intros i k Hi Hk. destruct (C44_bounds_partial g s1 s2 l1 l2 l3 i k 1 Hg Hs ltac:(lia) ltac:(lia) ltac:(lia) H2 H3) as (x & E & B). unfold md, layered. cbn [sigma]. rewrite E. split; [reflexivity|]. lra. }
  split; [intros i k Hi Hk; now apply F|]. apply C76_absorbing; try assumption. intros i k Hi Hk. split; [cbn; lra|now apply F].
Qed.
Print Assumptions C76_layers.

(** The limit is needed: on a grid of one cell a step of sqrt (9/8) dr / c doubles the field in every step. *)
Definition one_cell : geom := Geom 2 2 1 1.
Definition long_step : R := sqrt (9 / 8 * (EPSILON0 * MAGN_CONST)).
Definition growing : fmem := fun x => match x with (EZ, 0%Z, 0%Z) => 1 | (HPHI, 0%Z, 0%Z) => 3 / 8 * (EPSILON0 / long_step) | _ => 0 end.
Lemma one_cell_ok : geom_ok one_cell. Proof. unfold geom_ok, one_cell; cbn. repeat split; try lia; lra. Qed.
Lemma long_step_sqr : long_step * long_step = 9 / 8 * (EPSILON0 * MAGN_CONST).
Proof. apply sqrt_sqrt. assert (A := EPSILON0_pos). assert (B := MAGN_CONST_pos). assert (0 < EPSILON0 * MAGN_CONST) by now apply Rmult_lt_0_compat. lra. Qed.
Lemma long_step_pos : 0 < long_step.
Proof. apply sqrt_lt_R0. assert (A := EPSILON0_pos). assert (B := MAGN_CONST_pos). assert (0 < EPSILON0 * MAGN_CONST) by now apply Rmult_lt_0_compat. lra. Qed.
Lemma growing_step : forall m e, conducting one_cell m -> m (EZ, 0%Z, 0%Z) = e -> m (HPHI, 0%Z, 0%Z) = 3 / 8 * (EPSILON0 / long_step) * e ->
  let m' := field_step one_cell vacuum long_step no_current m in
  m' (EZ, 0%Z, 0%Z) = -2 * e /\ m' (HPHI, 0%Z, 0%Z) = 3 / 8 * (EPSILON0 / long_step) * (-2 * e).
Proof.
  intros m e Hm E H m'. assert (HD := long_step_pos). assert (HS := long_step_sqr). assert (HE := EPSILON0_pos). assert (HM := MAGN_CONST_pos).
  assert (D1 : dr one_cell = 1) by (unfold dr, one_cell; cbn; field). assert (D2 : dz one_cell = 1) by (unfold dz, one_cell; cbn; field).
  assert (P : calc_hfield one_cell long_step m (HPHI, 0%Z, 0%Z) = 3 / 8 * (EPSILON0 / long_step) * (-2 * e)).
  { rewrite (h_step one_cell long_step one_cell_ok) by (cbn; lia). unfold ce, curl_phi. change (0 + 1)%Z with 1%Z. rewrite D1, D2, E, H.
    rewrite (Hm (EZ, 1%Z, 0%Z)), (Hm (ER, 0%Z, 0%Z)), (Hm (ER, 0%Z, 1%Z)) by (cbn; lia).
    apply Rmult_eq_reg_r with (long_step * MAGN_CONST); [|apply Rgt_not_eq; now apply Rmult_lt_0_compat].
    replace ((3 / 8 * (EPSILON0 / long_step) * e + long_step / MAGN_CONST * ((0 - e) / 1 - (0 - 0) / 1)) * (long_step * MAGN_CONST))
      with (3 / 8 * EPSILON0 * MAGN_CONST * e - long_step * long_step * e) by (field; lra). rewrite HS. field. lra. }
  split.
  - unfold m'. rewrite (e_step one_cell vacuum long_step one_cell_ok) by (cbn; lia). unfold ch, curl_z. rewrite Z.eqb_refl, P, D1, E.
    unfold density, no_current, koef_e, koef_h, epsilonx2, sigma_t, vacuum, cur_z, zero_arr. cbn [epsilon sigma]. field. lra.
  - unfold m'. rewrite (step_h one_cell vacuum long_step) by tauto. exact P.
Qed.
Theorem C76_limit_refuted : geom_ok one_cell /\ conducting one_cell growing /\ 0 < long_step /\
  forall n, field_run one_cell vacuum long_step (repeat no_current n) growing (EZ, 0%Z, 0%Z) = (-2) ^ n.
Proof.
  assert (C : conducting one_cell growing).
  { intros [[a i] k] H. destruct a; cbn in H; try contradiction; try reflexivity. destruct H as (-> & H). destruct k; reflexivity. }
  split; [apply one_cell_ok|]. split; [exact C|]. split; [apply long_step_pos|]. intro n.
  assert (G : forall n m e, conducting one_cell m -> m (EZ, 0%Z, 0%Z) = e -> m (HPHI, 0%Z, 0%Z) = 3 / 8 * (EPSILON0 / long_step) * e ->
    field_run one_cell vacuum long_step (repeat no_current n) m (EZ, 0%Z, 0%Z) = (-2) ^ n * e).
  { clear n. induction n as [|n IH]; intros m e Hm E H; unfold field_run in *; cbn [repeat fold_left pow]; [rewrite E; ring|].
    destruct (growing_step m e Hm E H) as (E' & H'). rewrite (IH _ (-2 * e) (conducting_step one_cell vacuum long_step no_current m one_cell_ok Hm) E' H'). ring. }
  rewrite (G n growing 1 C); [ring|reflexivity|cbn; ring].
Qed.
Print Assumptions C76_limit_refuted.

(** A step with currents and a conducting half of the cavity that changes the energy. *)
Definition lossy : medium := Medium (fun _ _ => 2) (fun i _ => if (i <=? 4)%Z then 1 / 100 else 0).
Definition some_current : currents3 := Cur3 (fun _ _ => 1) zero_arr (fun i k => IZR i - IZR k).
Example C76_hypotheses_met : let g := sample_geom in let dt := 2 / 1000000000 in
  geom_ok g /\ regular g lossy dt /\ passive g lossy /\ 0 <= dt /\ 0 < 1/20 <= 1 /\
  dt * dt * (4 / 3 / (dr g * dr g) + 1 / (dz g * dz g)) <= (1 - 1/20) * (EPSILON0 * MAGN_CONST) /\
  conducting g sample_fields /\ density some_current EZ 3%Z 5%Z <> 0 /\ sigma lossy 3%Z 5%Z <> 0 /\
  (0 <= 1 <= 2 /\ 1 <= IZR (n_z g) * (1/5) /\ conductivity g 0 (1/5) 0 1 2 3%Z 16%Z <> Fin 0).
Proof.
  cbv zeta. assert (P : passive sample_geom lossy) by (intros i k _ _; cbn; destruct (i <=? 4)%Z; lra).
  split; [apply sample_geom_ok|]. split; [apply passive_regular; [exact P|lra]|]. split; [exact P|]. split; [lra|]. split; [lra|].
  split; [rewrite sample_dr, sample_dz; unfold EPSILON0, MAGN_CONST; lra|]. split; [apply sample_fields_conducting|]. split.
  - cbn. lra.
  - split; [cbn; lra|]. split; [lra|]. split; [cbn; lra|]. destruct (C44_maximum_refuted sample_geom (1/5) 1 2 3%Z sample_geom_ok) as (x & E & B); [cbn; lra|lra|]. cbn [n_z sample_geom] in E.
    change (17 - 1)%Z with 16%Z in E. rewrite E. intro Q. injection Q. lra.
Qed.
