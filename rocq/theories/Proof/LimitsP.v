(** Proofs about the start-up checks; growth of the fields for an accepted time step. *)
From Coq Require Import Reals ZArith Lia Lra Psatz String List Bool.
From Verif.Lib Require Import RAux Outcome Grid Par.
From Verif.Model Require Import Constants Geometry Fields Limits.
From Verif.Spec Require Import Maxwell Plasma.
From Verif.Proof Require Import FieldsP MaxwellP.
Import ListNotations.
Local Open Scope R_scope.

Lemma electron_name_spec : forall p, electron_name (sp_name p) = true <-> is_electron p.
Proof.
  intro p. unfold electron_name, is_electron. rewrite !orb_true_iff, !String.eqb_eq. tauto.
Qed.

Lemma scan_total : forall l s, fst (fst (fold_left scan l s)) = fst (fst s) + rsum (map sp_macro l).
Proof.
  induction l as [|p l IH]; intros [[nm n] t]; cbn [fold_left map rsum fst]; [lra|].
  rewrite IH. unfold scan. destruct (electron_name (sp_name p)); cbn [fst]; lra.
Qed.

Lemma scan_none : forall l s, Forall (fun q => ~ is_electron q) l ->
  snd (fst (fold_left scan l s)) = snd (fst s) /\ snd (fold_left scan l s) = snd s.
Proof.
  induction l as [|p l IH]; intros [[nm n] t] H; cbn [fold_left]; [now split|].
  inversion H as [|x y Hp Hl]; subst. rewrite <- electron_name_spec in Hp.
  unfold scan at 2 4. destruct (electron_name (sp_name p)); [congruence|].
  destruct (IH (nm + sp_macro p, n, t) Hl) as [A B]. split; assumption.
Qed.

Lemma electron_cases : forall l, Forall (fun q => ~ is_electron q) l \/ exists p, last_electron l p.
Proof.
  induction l as [|p l IH]; [left; constructor|]. destruct IH as [IH|(q & l1 & l2 & -> & Q)].
  - destruct (electron_name (sp_name p)) eqn:E.
    + right. exists p, [], l. split; [reflexivity|]. split; [now apply electron_name_spec|exact IH].
    + left. constructor; [|exact IH]. rewrite <- electron_name_spec. congruence.
  - right. exists q, (p :: l1), l2. split; [reflexivity|exact Q].
Qed.

Lemma scan_last : forall l p s, last_electron l p ->
  snd (fst (fold_left scan l s)) = mean_density p /\ snd (fold_left scan l s) = sp_temperature p.
Proof.
  intros l p s (l1 & l2 & -> & E & F). rewrite fold_left_app. cbn [fold_left].
  destruct (fold_left scan l1 s) as [[nm n] t]. unfold scan at 2 4.
  apply electron_name_spec in E. rewrite E.
  destruct (scan_none l2 (nm + sp_macro p, (sp_left p + sp_right p) / 2, sp_temperature p) F) as [A B].
  split; assumption.
Qed.

Lemma gt_num : forall x y, gt (Num x) (Num y) = true <-> y < x.
Proof. intros x y. cbn. destruct (Rlt_dec y x); split; intro; try lra; congruence. Qed.

Lemma gt_num_false : forall x y, gt (Num x) (Num y) = false <-> x <= y.
Proof. intros x y. cbn. destruct (Rlt_dec y x); split; intro; try lra; congruence. Qed.

Lemma num_min_num : forall x y, num_min (Num x) (Num y) = Num (Rmin x y).
Proof.
  intros x y. unfold num_min, lt. cbn. unfold Rmin. destruct (Rlt_dec y x), (Rle_dec x y); try reflexivity; lra.
Qed.

Lemma new_checker_ok : forall nm0 l p, last_electron l p -> 0 < mean_density p -> 0 < sp_temperature p ->
  new_checker nm0 l = Ok (Checker (Num (plasma_frequency (mean_density p)))
                            (Num (debye (mean_density p) (sp_temperature p))) (nm0 + rsum (map sp_macro l))).
Proof.
  intros nm0 l p H Hn Ht. unfold new_checker. assert (A := scan_last l p (nm0, 0, 0) H).
  assert (B := scan_total l (nm0, 0, 0)). destruct (fold_left scan l (nm0, 0, 0)) as [[nm n] t].
  cbn [fst snd] in *. destruct A as [-> ->]. rewrite B.
  destruct (Req_EM_T (mean_density p) 0); [lra|]. destruct (Req_EM_T (sp_temperature p) 0); [lra|].
  assert (Q := EL_CHARGE_pos). assert (M := EL_MASS_pos). assert (E := EPSILON0_pos).
  unfold num_sqrt.
  assert (P1 : 0 <= mean_density p * EL_CHARGE * EL_CHARGE / (EL_MASS * EPSILON0)).
  { apply Rdiv_nonneg; [|nra]. apply Rmult_le_pos; [|lra]. nra. }
  assert (P2 : 0 <= sp_temperature p / mean_density p) by (apply Rdiv_nonneg; lra).
  destruct (Rlt_dec (mean_density p * EL_CHARGE * EL_CHARGE / (EL_MASS * EPSILON0)) 0); [lra|].
  destruct (Rlt_dec (sp_temperature p / mean_density p) 0); [lra|]. reflexivity.
Qed.

Lemma plasma_frequency_pos : forall n, 0 < n -> 0 < plasma_frequency n.
Proof.
  intros n Hn. unfold plasma_frequency. apply sqrt_lt_R0.
  assert (Q := EL_CHARGE_pos). assert (M := EL_MASS_pos). assert (E := EPSILON0_pos).
  apply Rdiv_pos; [|nra]. apply Rmult_lt_0_compat; [|lra]. nra.
Qed.

(** The checks as a set of inequalities, for positive density and temperature. *)
Lemma init_checks_iff : forall nm0 c p, last_electron (cf_species c) p ->
  0 < mean_density p -> 0 < sp_temperature p ->
  let g := cf_geom c in
  let l := debye (mean_density p) (sp_temperature p) in
  let nm := nm0 + rsum (map sp_macro (cf_species c)) in
  (exists b, init_checks nm0 c = Ok b) <->
  (cf_dt c <= dr g / LIGHT_SPEED /\ cf_dt c <= dz g / LIGHT_SPEED /\
   cf_dt c <= 2 / plasma_frequency (mean_density p) / 100 /\
   dr g <= l * 50 /\ l * 100 <= r_size g <= l * nm * 100 /\ l * 100 <= z_size g <= l * nm * 100).
Proof.
  intros nm0 c p H Hn Ht g l nm. unfold init_checks. rewrite (new_checker_ok nm0 _ p H Hn Ht), bind_ok.
  unfold check_velocity_time_step. cbn [plasma_freq lift1]. fold g. rewrite !num_min_num.
  unfold check_grid_size, check_system_size, lt. cbn [debye_length number_macro lift1]. fold g l nm.
  destruct (gt (Num (cf_dt c)) _) eqn:E1.
  { apply gt_num in E1. cbn [bind]. split; [intros (b & X); discriminate|].
    intros (A & B & C & _). exfalso. apply (Rlt_not_le _ _ E1). now repeat apply Rmin_glb. }
  apply gt_num_false in E1. cbn [bind].
  assert (T : cf_dt c <= dr g / LIGHT_SPEED /\ cf_dt c <= dz g / LIGHT_SPEED /\
              cf_dt c <= 2 / plasma_frequency (mean_density p) / 100).
  { match type of E1 with _ <= Rmin (Rmin ?a ?b) ?w =>
      assert (X1 := Rmin_l (Rmin a b) w); assert (X2 := Rmin_r (Rmin a b) w);
      assert (X3 := Rmin_l a b); assert (X4 := Rmin_r a b) end. lra. }
  rewrite orb_diag. destruct (gt (Num (dr g)) _) eqn:E2.
  { apply gt_num in E2. cbn [bind]. split; [intros (b & X); discriminate|]. intros (_ & _ & _ & D & _). lra. }
  apply gt_num_false in E2. cbn [bind].
  destruct (gt (Num (l * 100)) (Num (r_size g))) eqn:E3; cbn [orb bind].
  { apply gt_num in E3. split; [intros (b & X); discriminate|]. lra. }
  apply gt_num_false in E3. destruct (gt (Num (l * 100)) (Num (z_size g))) eqn:E4; cbn [orb bind].
  { apply gt_num in E4. split; [intros (b & X); discriminate|]. lra. }
  apply gt_num_false in E4. destruct (gt (Num (r_size g)) _) eqn:E5; cbn [orb bind].
  { apply gt_num in E5. split; [intros (b & X); discriminate|]. lra. }
  apply gt_num_false in E5. destruct (gt (Num (z_size g)) _) eqn:E6; cbn [orb bind].
  { apply gt_num in E6. split; [intros (b & X); discriminate|]. lra. }
  apply gt_num_false in E6. split; [|intros _; eexists; reflexivity].
  intros _. lra.
Qed.

(** Without electrons the program stops. *)
Lemma no_electrons : forall nm0 c, Forall (fun q => ~ is_electron q) (cf_species c) -> init_checks nm0 c = Exit 1.
Proof.
  intros nm0 c H. unfold init_checks, new_checker. destruct (scan_none (cf_species c) (nm0, 0, 0) H) as [A B].
  destruct (fold_left scan (cf_species c) (nm0, 0, 0)) as [[nm n] t]. cbn [fst snd] in *. subst.
  destruct (Req_EM_T 0 0); [reflexivity|lra].
Qed.

(** ** Growth of the azimuthal electric field on a grid with one inner node *)

Definition empty_space : medium := Medium (fun _ _ => 1) (fun _ _ => 0).

Section Growth.
Variables (g : geom) (h dt : R).
Hypotheses (Hok : geom_ok g) (Hnr : n_r g = 3%Z) (Hnz : n_z g = 3%Z) (gr_dr : dr g = h) (gr_dz : dz g = h)
           (Hh : 0 < h) (Hdt : 0 < dt).

Definition gr_x (m : fmem) : R :=
  (m (HR, 1%Z, 1%Z) - m (HR, 1%Z, 0%Z)) / h - (m (HZ, 1%Z, 1%Z) - m (HZ, 0%Z, 1%Z)) / h.
Definition gr_e (m : fmem) : R := m (EPHI, 1%Z, 1%Z).
Definition gr_lam : R := dt * dt * (14 / 3) / (h * h) / (EPSILON0 * MAGN_CONST).

Lemma gr_step : forall m, conducting g m ->
  let m' := field_step g empty_space dt no_current m in
  dt / EPSILON0 * gr_x m' = dt / EPSILON0 * gr_x m - gr_lam * gr_e m /\
  gr_e m' = gr_e m + dt / EPSILON0 * gr_x m'.
Proof.
  intros m Hm m'. assert (Pe := EPSILON0_pos). assert (Pm := MAGN_CONST_pos).
  assert (W : forall i k, (0 <= i <= 2 /\ (k = 0 \/ k = 2) \/ 0 <= k <= 2 /\ (i = 0 \/ i = 2))%Z -> m (EPHI, i, k) = 0).
  { intros i k H. apply Hm. cbn. rewrite Hnr, Hnz. lia. }
  assert (X : gr_x m' = gr_x m - dt * (14 / 3) / (h * h) / MAGN_CONST * gr_e m).
  { unfold gr_x, m', field_step. rewrite !calc_efield_other by discriminate. cbn [set_current].
    rewrite !calc_hfield_hr by (rewrite Hnr; lia). rewrite !calc_hfield_hz. rewrite Hnr, Hnz.
    unfold in_rect. cbn [Z.leb Z.ltb Z.compare Z.sub Z.add Z.opp Z.pos_sub Pos.compare Pos.compare_cont andb Pos.add Pos.sub Pos.pred_double Pos.succ].
    unfold alpha_r, alpha_z. rewrite gr_dr, gr_dz. unfold gr_e.
    rewrite (W 1%Z 2%Z), (W 1%Z 0%Z), (W 2%Z 1%Z), (W 0%Z 1%Z) by lia. field. lra. }
  split.
  - rewrite X. unfold gr_lam. field. lra.
  - unfold gr_e, m', field_step at 1. rewrite calc_efield_ephi. rewrite Hnr, Hnz.
    change (in_rect 1 (3 - 1) 1 (3 - 1) 1 1) with true. cbv iota. cbn [set_current no_current cur_phi].
    unfold gr_x, field_step. rewrite !calc_efield_other by discriminate. cbn [set_current].
    rewrite gr_dr, gr_dz. change (1 - 1)%Z with 0%Z. rewrite (calc_hfield_other g dt m EPHI) by reflexivity.
    unfold koef_e, koef_h, epsilonx2, sigma_t, zero_arr. cbn [epsilon sigma empty_space].
    repeat match goal with |- context [calc_hfield ?a ?b ?c ?x] => generalize (calc_hfield a b c x); intro end.
    generalize (m (EPHI, 1%Z, 1%Z)). intro. clear - Pe Hh Hdt. revert Pe. generalize EPSILON0. intros. field. lra.
Qed.

Lemma gr_run : 46 / 10 <= gr_lam -> forall n m, conducting g m -> gr_e m = 1 -> gr_x m = 0 ->
  exists s, (s = 1 \/ s = -1) /\
    let m' := field_run g empty_space dt (repeat no_current n) m in
    2 ^ n <= s * gr_e m' /\ 0 <= s * (dt / EPSILON0 * gr_x m') <= 3 / 2 * (s * gr_e m') /\ conducting g m'.
Proof.
  intros Hl n m Hm He Hx. induction n as [|n IH].
  - exists 1. split; [now left|]. cbv zeta. unfold field_run. cbn [repeat fold_left pow]. rewrite He, Hx. repeat match goal with |- _ /\ _ => split end; try lra. exact Hm.
  - destruct IH as (s & Hs & A & B & C). exists (- s). split; [lra|]. cbv zeta.
    assert (E : repeat no_current (S n) = repeat no_current n ++ [no_current]).
    { clear. induction n as [|n IH]; [reflexivity|]. cbn [repeat app] in *. now rewrite <- IH. }
    unfold field_run in *. rewrite E, fold_left_app. cbn [fold_left].
    set (m1 := fold_left (fun m j => field_step g empty_space dt j m) (repeat no_current n) m) in *.
    destruct (gr_step m1 C) as [S1 S2]. set (m2 := field_step g empty_space dt no_current m1) in *.
    rewrite S2, S1. set (e := gr_e m1) in *. set (y := dt / EPSILON0 * gr_x m1) in *.
    cbn [pow]. assert (P : 0 < 2 ^ n) by (apply pow_lt; lra).
    assert (P2 : 46 / 10 * (s * e) <= gr_lam * (s * e)) by (apply Rmult_le_compat_r; lra).
    repeat match goal with |- _ /\ _ => split end.
    + replace (- s * (e + (y - gr_lam * e))) with (gr_lam * (s * e) - s * e - s * y) by ring. lra.
    + replace (- s * (y - gr_lam * e)) with (gr_lam * (s * e) - s * y) by ring. lra.
    + replace (- s * (y - gr_lam * e)) with (gr_lam * (s * e) - s * y) by ring.
      replace (- s * (e + (y - gr_lam * e))) with (gr_lam * (s * e) - s * e - s * y) by ring. lra.
    + apply conducting_step; [exact Hok|exact C].
Qed.
End Growth.
