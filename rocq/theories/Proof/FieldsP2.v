(** Memory bounds and initialisation of the field arrays; thread schedules; polarisations. *)
From Coq Require Import Reals ZArith Lia Lra List Bool.
From Verif.Lib Require Import RAux Grid Par.
From Verif.Model Require Import Constants Geometry ChargeDeposit CurrentDeposit Fields.
From Verif.Spec Require Import Cloud Continuity Maxwell.
From Verif.Proof Require Import GeometryP ChargeP ChargeP2 CurrentP FieldsP MaxwellP.
Import ListNotations.
Local Open Scope R_scope.

(** All assignments of a list of loops satisfy P. *)
Lemma loops_forall : forall (P : @asg loc R -> Prop) (loops : list (list (list (@asg loc R)))),
  Forall (Forall (Forall P)) loops -> forall a, In a (concat (concat loops)) -> P a.
Proof.
  intros P loops H a Ha. apply in_concat in Ha. destruct Ha as (b & Hb & Ha).
  apply in_concat in Hb. destruct Hb as (lp & Hl & Hb).
  rewrite Forall_forall in H. specialize (H lp Hl). rewrite Forall_forall in H. specialize (H b Hb).
  rewrite Forall_forall in H. now apply H.
Qed.

Ltac loops_solve :=
  repeat constructor; rewrite Forall_map; apply Forall_forall;
  let c := fresh "c" in let Hc := fresh "Hc" in
  intros c Hc; try (destruct c as [? ?]; apply cells_in in Hc; cbn [fst snd] in *);
  try apply zrange_in in Hc; repeat constructor; cbn; lia.

Lemma efield_in_bounds : forall g md dt a, geom_ok g ->
  In a (concat (concat (efield_loops g md dt))) ->
  loc_inside g (tgt a) /\ Forall (loc_inside g) (reads a).
Proof.
  intros g md dt a (H1 & H2 & _) Ha.
  apply (loops_forall (fun a => loc_inside g (tgt a) /\ Forall (loc_inside g) (reads a)) (efield_loops g md dt)); auto.
  unfold efield_loops. loops_solve.
Qed.

Lemma hfield_in_bounds : forall g dt a, geom_ok g ->
  In a (concat (concat (hfield_loops g dt))) ->
  loc_inside g (tgt a) /\ Forall (loc_inside g) (reads a).
Proof.
  intros g dt a (H1 & H2 & _) Ha.
  apply (loops_forall (fun a => loc_inside g (tgt a) /\ Forall (loc_inside g) (reads a)) (hfield_loops g dt)); auto.
  unfold hfield_loops. loops_solve.
Qed.

Lemma init_in_bounds : forall g a, geom_ok g ->
  In a (concat (concat (init_field_loops g))) -> loc_inside g (tgt a).
Proof.
  intros g a (H1 & H2 & _) Ha.
  apply (loops_forall (fun a => loc_inside g (tgt a)) (init_field_loops g)); auto.
  unfold init_field_loops, boundary_loops, homogeneous_e_loops, homogeneous_h_loops, fi_on_z_loops.
  cbn [app]. loops_solve.
Qed.

Lemma specify_in_bounds : forall g u l r a, geom_ok g ->
  In a (concat (concat (specify_initial_loops g u l r))) -> loc_inside g (tgt a).
Proof.
  intros g u l r a (H1 & H2 & _) Ha.
  apply (loops_forall (fun a => loc_inside g (tgt a)) (specify_initial_loops g u l r)); auto.
  unfold specify_initial_loops. loops_solve.
Qed.

(** Current arrays: reset_j (src/current.cpp lines 125-136) assigns all of n_r x n_z. *)
Definition current_location (g : geom) (x : loc) : Prop :=
  match x with
  | (JR, i, k) | (JPHI, i, k) | (JZ, i, k) => (0 <= i < n_r g)%Z /\ (0 <= k < n_z g)%Z
  | _ => False
  end.

Lemma efield_reads_init : forall g md dt a, geom_ok g ->
  In a (concat (concat (efield_loops g md dt))) ->
  Forall (fun x => init_location g x \/ current_location g x) (reads a).
Proof.
  intros g md dt a (H1 & H2 & _) Ha.
  apply (loops_forall (fun a => Forall (fun x => init_location g x \/ current_location g x) (reads a)) (efield_loops g md dt)); auto.
  unfold efield_loops. loops_solve.
Qed.

Lemma hfield_reads_init : forall g dt a, geom_ok g ->
  In a (concat (concat (hfield_loops g dt))) -> Forall (init_location g) (reads a).
Proof.
  intros g dt a (H1 & H2 & _) Ha.
  apply (loops_forall (fun a => Forall (init_location g) (reads a)) (hfield_loops g dt)); auto.
  unfold hfield_loops. loops_solve.
Qed.

(** ** Schedules of the initialisation loops *)

Ltac loops_indep :=
  repeat constructor; apply loop_independent; try apply zrange_nodup; try apply cells_nodup;
  intros a b _ _ N; try destruct a as [? ?]; try destruct b as [? ?]; cbn [fst snd] in *;
  unfold independent, writes_of, reads_of; cbn; split; intros x Hx; split; intro Hy; split_in; congruence.

Lemma init_loops_independent : forall g, Forall (ForallOrdPairs independent) (init_field_loops g).
Proof.
  intro g. unfold init_field_loops, boundary_loops, homogeneous_e_loops, homogeneous_h_loops, fi_on_z_loops.
  cbn [app]. loops_indep.
Qed.

Lemma specify_loops_independent : forall g u l r, Forall (ForallOrdPairs independent) (specify_initial_loops g u l r).
Proof. intros. unfold specify_initial_loops. loops_indep. Qed.

Lemma efield_schedule : forall g md dt m m',
  omp_region loc_eqb (efield_loops g md dt) m m' -> m' = calc_efield g md dt m.
Proof.
  intros g md dt m m' H. apply (omp_region_serial loc_eqb loc_eqb_spec) in H; [exact H|].
  apply efield_loops_independent.
Qed.

Lemma hfield_schedule : forall g dt m m',
  omp_region loc_eqb (hfield_loops g dt) m m' -> m' = calc_hfield g dt m.
Proof.
  intros g dt m m' H. apply (omp_region_serial loc_eqb loc_eqb_spec) in H; [exact H|].
  apply hfield_loops_independent.
Qed.

Lemma init_schedule : forall g m m',
  omp_region loc_eqb (init_field_loops g) m m' -> m' = init_fields g m.
Proof.
  intros g m m' H. apply (omp_region_serial loc_eqb loc_eqb_spec) in H; [exact H|].
  apply init_loops_independent.
Qed.

(** ** One polarisation zero *)

Definition zero_on (P : farr -> Prop) (m : fmem) : Prop := forall a i k, P a -> m (a, i, k) = 0.

Lemma te_zero_step : forall g md dt j m, geom_ok g -> zero_on te_field m ->
  (forall i k, cur_phi j i k = 0) -> zero_on te_field (field_step g md dt j m).
Proof.
  intros g md dt j m (N1 & N2 & _) Hm Hj.
  assert (HH : forall a i k, te_field a -> calc_hfield g dt m (a, i, k) = 0).
  { intros a i k Ha. destruct a; cbn in Ha; try contradiction.
    - rewrite calc_hfield_e by reflexivity; now apply Hm.
    - rewrite calc_hfield_hr by lia. rewrite !(Hm HR), !(Hm EPHI) by exact I.
      unfold alpha_r, Rdiv. rect; ring.
    - rewrite calc_hfield_hz. rewrite !(Hm HZ), !(Hm EPHI) by exact I. unfold alpha_z, Rdiv. rect; ring. }
  intros a i k Ha. unfold field_step.
  destruct a; cbn in Ha; try contradiction.
  - rewrite calc_efield_ephi. cbn [set_current]. rewrite !HH, Hj by exact I. unfold Rdiv. rect; ring.
  - rewrite calc_efield_other by discriminate. cbn [set_current]. now apply HH.
  - rewrite calc_efield_other by discriminate. cbn [set_current]. now apply HH.
Qed.

Lemma tm_zero_step : forall g md dt j m, geom_ok g -> zero_on tm_field m ->
  (forall i k, cur_r j i k = 0 /\ cur_z j i k = 0) -> zero_on tm_field (field_step g md dt j m).
Proof.
  intros g md dt j m (N1 & N2 & _) Hm Hj.
  assert (HH : forall a i k, tm_field a -> calc_hfield g dt m (a, i, k) = 0).
  { intros a i k Ha. destruct a; cbn in Ha; try contradiction;
      try (rewrite calc_hfield_e by reflexivity; now apply Hm).
    rewrite calc_hfield_hphi. rewrite !(Hm HPHI), !(Hm EZ), !(Hm ER) by exact I.
    unfold alpha_phi, Rdiv. rect; ring. }
  intros a i k Ha. unfold field_step. destruct (Hj i k) as [J1 J2].
  destruct a; cbn in Ha; try contradiction.
  - rewrite calc_efield_er by lia. cbn [set_current]. rewrite !HH, J1 by exact I. unfold Rdiv. rect; ring.
  - destruct (Z.eq_dec i 0) as [->|Ni].
    + rewrite calc_efield_ez_axis. cbn [set_current]. rewrite !HH, J2 by exact I. unfold Rdiv. rect; ring.
    + rewrite calc_efield_ez by lia. cbn [set_current]. rewrite !HH, J2 by exact I. unfold Rdiv. rect; ring.
  - rewrite calc_efield_other by discriminate. cbn [set_current]. now apply HH.
Qed.

Lemma te_zero_run : forall g md dt js m, geom_ok g -> zero_on te_field m ->
  Forall (fun j => forall i k, cur_phi j i k = 0) js -> zero_on te_field (field_run g md dt js m).
Proof.
  intros g md dt js m Hg Hm H. revert m Hm. induction H as [|j js Hj _ IH]; intros m Hm; [exact Hm|].
  unfold field_run in *. cbn [fold_left]. apply IH. now apply te_zero_step.
Qed.

Lemma tm_zero_run : forall g md dt js m, geom_ok g -> zero_on tm_field m ->
  Forall (fun j => forall i k, cur_r j i k = 0 /\ cur_z j i k = 0) js -> zero_on tm_field (field_run g md dt js m).
Proof.
  intros g md dt js m Hg Hm H. revert m Hm. induction H as [|j js Hj _ IH]; intros m Hm; [exact Hm|].
  unfold field_run in *. cbn [fold_left]. apply IH. now apply tm_zero_step.
Qed.

(** ** Runs *)

Lemma flux_step : forall g md dt j m i k, geom_ok g -> conducting g m ->
  (0 <= i < n_r g - 1)%Z -> (0 <= k < n_z g - 1)%Z ->
  magnetic_flux (dr g) (dz g) (comp (field_step g md dt j m) HR) (comp (field_step g md dt j m) HZ) i k =
  magnetic_flux (dr g) (dz g) (comp m HR) (comp m HZ) i k.
Proof.
  intros g md dt j m i k Hg Hm Hi Hk. rewrite <- (flux_update g dt m i k) by
    (auto; intros; apply Hm; cbn; destruct Hg as (? & ? & _); lia).
  unfold magnetic_flux, comp, field_step. rewrite !calc_efield_other by discriminate. reflexivity.
Qed.

Lemma flux_run : forall g md dt js m i k, geom_ok g -> conducting g m ->
  (0 <= i < n_r g - 1)%Z -> (0 <= k < n_z g - 1)%Z ->
  magnetic_flux (dr g) (dz g) (comp (field_run g md dt js m) HR) (comp (field_run g md dt js m) HZ) i k =
  magnetic_flux (dr g) (dz g) (comp m HR) (comp m HZ) i k.
Proof.
  intros g md dt js. induction js as [|j js IH]; intros m i k Hg Hm Hi Hk; [reflexivity|].
  unfold field_run in *. cbn [fold_left]. rewrite IH; auto using conducting_step. now apply flux_step.
Qed.

(** A run with its charge densities: every step's current balances the change of density. *)
Fixpoint balanced (g : geom) (dt : R) (i k : Z) (rho : arr) (steps : list (currents3 * arr)) : Prop :=
  match steps with
  | [] => True
  | (j, rho') :: rest =>
      balance_at (dr g) (dz g) dt rho' rho (cur_r j) (cur_z j) i k /\ balanced g dt i k rho' rest
  end.

Lemma gauss_run : forall g md dt steps m rho i k,
  geom_ok g -> insulating g md -> free_node g i k -> balanced g dt i k rho steps ->
  let m' := field_run g md dt (map fst steps) m in
  gauss_residual (dr g) (dz g) (epsilon md) (comp m' ER) (comp m' EZ) (last (map snd steps) rho) i k =
  gauss_residual (dr g) (dz g) (epsilon md) (comp m ER) (comp m EZ) rho i k.
Proof.
  intros g md dt steps. induction steps as [|[j rho'] steps IH]; intros m rho i k Hg Hmd Hf B; [reflexivity|].
  destruct B as [B1 B2]. cbv zeta in *. cbn [map fst snd]. unfold field_run in *. cbn [fold_left].
  assert (E : last (rho' :: map snd steps) rho = last (map snd steps) rho').
  { destruct (map snd steps) eqn:EE; [reflexivity|]. clear.
    revert a. induction l as [|x l IHl]; intro a; [reflexivity|]. exact (IHl x). }
  rewrite E, (IH _ rho') by assumption. now apply gauss_step.
Qed.
