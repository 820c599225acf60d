(** With the arithmetic of the real numbers the definitions of Model/GenCode.v are those of the other model files. *)
From Coq Require Import Reals ZArith List Bool Lia Lra FunctionalExtensionality.
From Verif.Lib Require Import RAux Outcome Grid Par.
From Verif.Model Require Import Constants Geometry ChargeDeposit CurrentDeposit Fields Interp Pusher Motion Sim
  Arith GenCode.
Import ListNotations.
Local Open Scope R_scope.

Local Notation RA := real_arith.

Definition to_ggeom (g : geom) : ggeom RA := @GGeom RA (n_r g) (n_z g) (r_size g) (z_size g).
Definition to_gmedium (md : medium) : gmedium RA := @GMedium RA (epsilon md) (sigma md).
Definition to_gvec (v : vec3) : gvec RA := @GV RA (v0 v) (v1 v) (v2 v).
Definition to_gphase (p : phase) : gphase RA :=
  @GPhase RA (to_gvec (pos p)) (to_gvec (vel p)) (r_old p) (z_old p) (sin_theta p).
Definition to_gparticle (p : particle) : gparticle RA :=
  @GParticle RA (p_alive p) (p_charge p) (p_mass p) (to_gphase (p_phase p)).
Definition to_ginc (c : inc) : ginc RA := @GInc RA (row c) (col c) (val c).
Definition to_gjinc (c : jinc) : gjinc RA := @GJInc RA (j_comp c) (to_ginc (j_inc c)).

Definition omap {X Y : Type} (f : X -> Y) (o : outcome X) : outcome Y :=
  match o with Ok x => Ok (f x) | Exit c => Exit c | UB => UB end.

Lemma gPI_real : gPI RA = c_PI.
Proof. unfold gPI, c_PI. cbn [lit real_arith]. lra. Qed.
Lemma gMNZL_real : gMNZL RA = MNZL.
Proof. unfold gMNZL, MNZL. cbn [lit real_arith]. lra. Qed.
Lemma ghalf_real : ghalf RA = 1 / 2. Proof. reflexivity. Qed.
Lemma gquarter_real : gquarter RA = 1 / 4. Proof. reflexivity. Qed.
Lemma g3half_real : g3half RA = 3 / 2. Proof. reflexivity. Qed.
Lemma gEPSILON0_real : gEPSILON0 RA = EPSILON0. Proof. reflexivity. Qed.
Lemma gMAGN_CONST_real : gMAGN_CONST RA = MAGN_CONST. Proof. reflexivity. Qed.
Lemma gdr_real : forall g, gdr RA (to_ggeom g) = dr g. Proof. reflexivity. Qed.
Lemma gdz_real : forall g, gdz RA (to_ggeom g) = dz g. Proof. reflexivity. Qed.
Lemma gcell_real : forall x d, gcell RA x d = cell x d. Proof. reflexivity. Qed.

Ltac ar := cbn [num add sub mul div opp absv root of_int lit ltb leb eqb ceil_int trunc_int finite inf_quot pow_mhalf log_of real_arith] in *.

Lemma gCELL_VOLUME_real : forall i a b, gCELL_VOLUME RA i a b = CELL_VOLUME (IZR i) a b.
Proof. intros. unfold gCELL_VOLUME. rewrite gPI_real. reflexivity. Qed.
Lemma gCYL_VOL_real : forall z r, gCYL_VOL RA z r = CYL_VOL z r.
Proof. intros. unfold gCYL_VOL. rewrite gPI_real. reflexivity. Qed.
Lemma gRNG_real : forall x z a b v, gRNG RA x z a b v = x * CYL_RNG_VOL z a b / v.
Proof. intros. unfold gRNG, CYL_RNG_VOL. rewrite gPI_real. ar. unfold Rdiv. ring. Qed.

(** ** Fields *)

Lemma gefield_loops_real : forall g md dt, gefield_loops RA (to_ggeom g) (to_gmedium md) dt = efield_loops g md dt.
Proof. reflexivity. Qed.
Lemma ghfield_loops_real : forall g dt, ghfield_loops RA (to_ggeom g) dt = hfield_loops g dt.
Proof. reflexivity. Qed.

Theorem gcalc_efield_real : forall g md dt m,
  gcalc_efield RA (to_ggeom g) (to_gmedium md) dt m = calc_efield g md dt m.
Proof. reflexivity. Qed.
Theorem gcalc_hfield_real : forall g dt m, gcalc_hfield RA (to_ggeom g) dt m = calc_hfield g dt m.
Proof. reflexivity. Qed.

(** ** Interpolation *)

Definition term_ok (t : gterm RA) (u : loc * R) : Prop :=
  t_at _ t = fst u /\ forall s x, gterm_add RA s t x = s + x * snd u.

Lemma weighted_sum_real : forall m lt lu, Forall2 term_ok lt lu -> gweighted_sum RA m lt = weighted_sum m lu.
Proof.
  intros m lt lu H. unfold gweighted_sum, weighted_sum. ar.
  generalize 0 as s. induction H as [|t u lt lu [E T] H IH]; intro s; [reflexivity|].
  cbn [fold_left]. rewrite T, E. apply IH.
Qed.

Lemma gvol_inner_real : forall a b r i, gvol_inner RA a b r i = vol_inner a b r i.
Proof.
  intros. unfold gvol_inner, vol_inner. rewrite gCELL_VOLUME_real, gCYL_VOL_real. ar.
  now destruct (Rlt_dec a r).
Qed.

Ltac term_tac :=
  unfold gcorner_terms, corner_terms;
  repeat constructor; cbn [fst snd t_at]; intros; unfold gterm_add; cbn [t_z t_r1 t_r2 t_v];
  rewrite gRNG_real; ar; rewrite ?gCELL_VOLUME_real, ?gCYL_VOL_real, ?plus_IZR; change (gcell RA) with cell; rewrite ?gvol_inner_real; change (g3half RA) with (3 / 2); change (ghalf RA) with (1 / 2); unfold Rdiv; try ring.

Lemma terms_half_r_real : forall a g r z,
  Forall2 term_ok (gterms_half_r RA a (to_ggeom g) r z) (terms_half_r a g r z).
Proof. intros. unfold gterms_half_r, terms_half_r. cbv zeta. rewrite gdr_real, gdz_real, ghalf_real. term_tac. Qed.

Lemma terms_half_z_real : forall a g r z,
  Forall2 term_ok (gterms_half_z RA a (to_ggeom g) r z) (terms_half_z a g r z).
Proof.
  intros. unfold gterms_half_z, terms_half_z. cbv zeta.
  rewrite gvol_inner_real, gdr_real, gdz_real, ghalf_real. term_tac.
Qed.
Lemma terms_whole_real : forall a g r z,
  Forall2 term_ok (gterms_whole RA a (to_ggeom g) r z) (terms_whole a g r z).
Proof.
  intros. unfold gterms_whole, terms_whole. cbv zeta.
  rewrite gvol_inner_real, gdr_real, gdz_real, ghalf_real. term_tac.
Qed.
Lemma terms_half_both_real : forall a g r z,
  Forall2 term_ok (gterms_half_both RA a (to_ggeom g) r z) (terms_half_both a g r z).
Proof. intros. unfold gterms_half_both, terms_half_both. cbv zeta. rewrite gdr_real, gdz_real, ghalf_real. term_tac. Qed.

Theorem gget_efield_real : forall g m r z, gget_efield RA (to_ggeom g) m r z = to_gvec (get_efield g m r z).
Proof.
  intros. unfold gget_efield, get_efield, to_gvec. cbn [v0 v1 v2].
  rewrite (weighted_sum_real m _ _ (terms_half_r_real ER g r z)),
    (weighted_sum_real m _ _ (terms_whole_real EPHI g r z)),
    (weighted_sum_real m _ _ (terms_half_z_real EZ g r z)). reflexivity.
Qed.
Theorem gget_hfield_real : forall g m r z, gget_hfield RA (to_ggeom g) m r z = to_gvec (get_hfield g m r z).
Proof.
  intros. unfold gget_hfield, get_hfield, to_gvec. cbn [v0 v1 v2].
  rewrite (weighted_sum_real m _ _ (terms_half_z_real HRH g r z)),
    (weighted_sum_real m _ _ (terms_half_both_real HPHIH g r z)),
    (weighted_sum_real m _ _ (terms_half_r_real HZH g r z)). reflexivity.
Qed.

(** ** Pushers *)

Lemma ground_small_real : forall x, ground_small RA x = round_small x.
Proof. intro x. unfold ground_small, round_small. rewrite gMNZL_real. ar. now destruct (Rlt_dec (Rabs x) MNZL). Qed.
Lemma ground_velocity_real : forall v, ground_velocity RA (to_gvec v) = to_gvec (round_velocity v).
Proof. intro v. unfold ground_velocity, round_velocity, to_gvec. cbn [v0 v1 v2 g0 g1 g2]. now rewrite !ground_small_real. Qed.

Lemma gget_gamma_real : forall s, gget_gamma RA s = get_gamma s.
Proof.
  intro s. unfold gget_gamma, get_gamma. cbv zeta.
  change (gLIGHT_SPEED_POW_2 RA) with LIGHT_SPEED_POW_2. ar.
  set (b := s / LIGHT_SPEED_POW_2). destruct (Rlt_dec 1 b) as [L|L]; cbn [of_dec]; [reflexivity|].
  destruct (Req_EM_T (sqrt (1 - b)) 0) as [E|E]; cbn [of_dec]; destruct (Req_EM_T b 1) as [F|F].
  - f_equal. rewrite pow_IZR. f_equal.
  - apply sqrt_eq_0 in E; lra.
  - exfalso. apply E. rewrite F. replace (1 - 1) with 0 by ring. apply sqrt_0.
  - reflexivity.
Qed.

Lemma gget_gamma_inv_real : forall s, gget_gamma_inv RA s = get_gamma_inv s.
Proof. reflexivity. Qed.

Lemma gboris_push_real : forall rel dt q m e h v,
  gboris_push RA rel dt q m (to_gvec e) (to_gvec h) (to_gvec v) = omap to_gvec (boris_push rel dt q m e h v).
Proof.
  intros. unfold gboris_push, boris_push. rewrite ground_velocity_real. cbv zeta.
  destruct rel; [|reflexivity].
  change (gtv_squared_sum RA (to_gvec (round_velocity v))) with (tv_squared_sum (round_velocity v)).
  rewrite gget_gamma_real. destruct (get_gamma (tv_squared_sum (round_velocity v))); reflexivity.
Qed.

Lemma gvay_push_real : forall dt q m e h v,
  gvay_push RA dt q m (to_gvec e) (to_gvec h) (to_gvec v) = omap to_gvec (vay_push dt q m e h v).
Proof.
  intros. unfold gvay_push, vay_push. rewrite ground_velocity_real. cbv zeta.
  change (gtv_squared_sum RA (to_gvec (round_velocity v))) with (tv_squared_sum (round_velocity v)).
  rewrite gget_gamma_real. destruct (get_gamma (tv_squared_sum (round_velocity v))); reflexivity.
Qed.

Theorem gpush_real : forall p dt q m e h v,
  gpush RA p dt q m (to_gvec e) (to_gvec h) (to_gvec v) = omap to_gvec (push p dt q m e h v).
Proof.
  intros. destruct p as [| |u|]; cbn [gpush push]; try apply gboris_push_real; try apply gvay_push_real.
  cbv zeta. rewrite ground_velocity_real. change (gREL_LIMIT_POW_2 RA) with REL_LIMIT_POW_2.
  set (w := round_velocity v).
  match goal with |- context [ltb RA _ ?x] => replace x with (tv_squared_sum w) end.
  2:{ unfold tv_squared_sum, tv_dot, to_gvec. cbn [g0 g1 g2]. ar. ring. }
  ar.
  destruct (Rlt_dec REL_LIMIT_POW_2 (tv_squared_sum w)); cbn [of_dec]; apply gboris_push_real.
Qed.

(** ** Motion *)

Lemma ghalf_step_pos_real : forall dt p, ghalf_step_pos RA dt (to_gphase p) = Ok (to_gphase (half_step_pos dt p)).
Proof. reflexivity. Qed.

Lemma greflection_real : forall g p, greflection RA (to_ggeom g) (to_gphase p) = to_gphase (reflection g p).
Proof.
  intros g p. unfold greflection, reflection, reflect_above, reflect_below, to_gphase, to_gvec.
  rewrite gdr_real, gdz_real. cbn [gpos gvel gr_old gz_old gsin g0 g1 g2 gr_size gz_size to_ggeom pos vel v0 v1 v2]. ar.
  repeat match goal with |- context [Rlt_dec ?a ?b] => destruct (Rlt_dec a b); cbn [of_dec] end;
    cbn [pos vel v0 v1 v2 r_old z_old sin_theta]; unfold to_gvec; f_equal; f_equal; lra.
Qed.

Lemma gbunch_reflection_real : forall g p, p_alive p = true ->
  (let '(a, f) := gbunch_reflection RA (to_ggeom g) (to_gphase (p_phase p)) in
   @GParticle RA a (p_charge p) (p_mass p) f) = to_gparticle (bunch_reflection g p).
Proof.
  intros g [al q m p] H. cbn in H. subst al.
  unfold gbunch_reflection, bunch_reflection, reflect_below, to_gparticle, to_gphase, to_gvec.
  cbn [p_phase p_alive p_charge p_mass].
  rewrite gdr_real, gdz_real. cbn [gpos gvel gr_old gz_old gsin g0 g1 g2 gr_size gz_size to_ggeom pos vel v0 v1 v2]. ar.
  repeat match goal with |- context [Rlt_dec ?a ?b] => destruct (Rlt_dec a b); cbn [of_dec] end;
    cbn [orb negb p_alive p_phase p_charge p_mass pos vel v0 v1 v2 r_old z_old sin_theta]; unfold to_gvec;
    f_equal; f_equal; f_equal; lra.
Qed.

Theorem gstep_v_one_real : forall su m p, strict su = false ->
  gstep_v_one RA (su_pusher su) (to_ggeom (su_geom su)) (su_dt su) m (to_gparticle p)
  = omap to_gparticle (step_v_one su m p).
Proof.
  intros su m p S. unfold gstep_v_one, step_v_one. rewrite S. cbn [andb]. cbn [galive to_gparticle].
  destruct (p_alive p) eqn:A; [|reflexivity].
  cbv zeta. change (g0 RA (gpos RA (gph RA (to_gparticle p)))) with (p_r p).
  change (g2 RA (gpos RA (gph RA (to_gparticle p)))) with (p_z p).
  ar. cbn [andb]. rewrite gget_efield_real, gget_hfield_real.
  change (gvel RA (gph RA (to_gparticle p))) with (to_gvec (vel (p_phase p))).
  change (gcharge RA (to_gparticle p)) with (p_charge p). change (gmass RA (to_gparticle p)) with (p_mass p).
  rewrite gpush_real.
  destruct (push (su_pusher su) (su_dt su) (p_charge p) (p_mass p) (get_efield (su_geom su) m (p_r p) (p_z p))
              (get_hfield (su_geom su) m (p_r p) (p_z p)) (vel (p_phase p))) as [v| |]; cbn [omap bind]; try reflexivity.
  destruct p as [al q mm f]. cbn in A. subst al. reflexivity.
Qed.

Theorem ghalf_reflect_real : forall g dt b p,
  ghalf_reflect RA (to_ggeom g) dt b (to_gparticle p) = Ok (to_gparticle (half_reflect g dt b p)).
Proof.
  intros g dt b p. unfold ghalf_reflect, half_reflect. cbn [galive to_gparticle gph].
  destruct (p_alive p) eqn:A; [|reflexivity].
  rewrite ghalf_step_pos_real. cbn [bind]. destruct b.
  - set (p1 := with_phase p (half_step_pos dt (p_phase p))).
    assert (A1 : p_alive p1 = true) by exact A.
    pose proof (gbunch_reflection_real g p1 A1) as H.
    change (p_phase p1) with (half_step_pos dt (p_phase p)) in H.
    destruct (gbunch_reflection RA (to_ggeom g) (to_gphase (half_step_pos dt (p_phase p)))) as [a f].
    destruct (bunch_reflection g p1) as [a' q' m' f']. unfold to_gparticle in H. injection H as -> E1 E2 ->. cbn in E1, E2. subst q' m'. reflexivity.
  - rewrite greflection_real. reflexivity.
Qed.

Theorem gvelocity_back_real : forall p, gvelocity_back RA (to_gparticle p) = to_gparticle (velocity_back p).
Proof. intros [a q m f]. unfold gvelocity_back, velocity_back. cbn. destruct a; reflexivity. Qed.

(** ** Deposition *)

Theorem gcharge_weighting_single_real : forall g q r z,
  gcharge_weighting_single RA (to_ggeom g) q r z = map to_ginc (charge_weighting_single g q r z).
Proof.
  intros. unfold gcharge_weighting_single, charge_weighting_single. cbv zeta.
  change (gcell RA) with cell. rewrite gdr_real, gdz_real, ghalf_real. ar.
  destruct (Rlt_dec (dr g) r); cbn [of_dec]; [|destruct (Rle_dec r (dr g / 2)); cbn [of_dec]];
    cbn [map to_ginc]; unfold to_ginc; cbn [row col val];
    rewrite !gRNG_real, ?gCELL_VOLUME_real, ?gCYL_VOL_real, ?plus_IZR, gPI_real; reflexivity.
Qed.

Theorem gazimuthal_single_real : forall g q v r z,
  gazimuthal_single RA (to_ggeom g) q v r z = map to_gjinc (azimuthal_single g q v r z).
Proof.
  intros. unfold gazimuthal_single, azimuthal_single. cbv zeta.
  change (gcell RA) with cell. rewrite gdr_real, gdz_real, ghalf_real. ar.
  rewrite !gRNG_real, !gCELL_VOLUME_real, gCYL_VOL_real, plus_IZR, gPI_real.
  destruct (Rlt_dec (dr g) r); reflexivity.
Qed.

Lemma gsimple_current_real : forall g dt q rn zn ro zo i k,
  gsimple_current RA (to_ggeom g) dt q rn zn ro zo i k = map to_gjinc (simple_current g dt q rn zn ro zo i k).
Proof.
  intros. unfold gsimple_current, simple_current. cbv zeta.
  rewrite gdr_real, gdz_real, ghalf_real, gquarter_real, gMNZL_real. unfold gDENSITY_R, gDENSITY_Z.
  rewrite gPI_real. ar. rewrite !plus_IZR.
  destruct (Rlt_dec (Rabs (rn - ro)) MNZL); cbn [of_dec]; [reflexivity|].
  destruct (Rlt_dec (Rabs (zn - zo)) MNZL); cbn [of_dec]; [reflexivity|].
  destruct (1 <=? i)%Z; reflexivity.
Qed.

Lemma gstrict_axial_real : forall g dt q rn zn zo i k ko,
  gstrict_axial RA (to_ggeom g) dt q rn zn zo i k ko = map to_gjinc (strict_axial g dt q rn zn zo i k ko).
Proof.
  intros. unfold gstrict_axial, strict_axial. cbv zeta. rewrite gdr_real, gdz_real, ghalf_real, gPI_real.
  ar. rewrite !plus_IZR.
  destruct (k - ko =? 0)%Z; [reflexivity|]. destruct (k - ko =? 1)%Z; [reflexivity|].
  destruct (k - ko =? -1)%Z; reflexivity.
Qed.

Lemma gstrict_radial_real : forall g dt q rn zn ro i k io,
  gstrict_radial RA (to_ggeom g) dt q rn zn ro i k io = map to_gjinc (strict_radial g dt q rn zn ro i k io).
Proof.
  intros. unfold gstrict_radial, strict_radial, gstrict_radial_leg, gstrict_radial_leg2, strict_radial_leg,
    strict_radial_leg2, gDENSITY_STRICT, DENSITY_STRICT. cbv zeta.
  rewrite gdr_real, gdz_real, ghalf_real, g3half_real, gPI_real. ar. rewrite !plus_IZR.
  destruct (i - io =? 0)%Z; [reflexivity|]. destruct (i - io =? 1)%Z; [reflexivity|].
  destruct (i - io =? -1)%Z; reflexivity.
Qed.

Lemma gstrict_motion_real : forall g dt q rn zn ro zo,
  gstrict_motion RA (to_ggeom g) dt q rn zn ro zo = map to_gjinc (strict_motion g dt q rn zn ro zo).
Proof.
  intros. unfold gstrict_motion, strict_motion. cbv zeta.
  change (gcell RA) with cell. rewrite gMNZL_real, gdr_real, gdz_real, gstrict_axial_real, gstrict_radial_real. ar.
  destruct (Rlt_dec (Rabs (rn - ro)) MNZL); cbn [of_dec];
  destruct (Rlt_dec (Rabs (zn - zo)) MNZL); reflexivity.
Qed.

Lemma gtie_cells_real : forall d a b, gtie_cells RA d a b = tie_cells d a b.
Proof.
  intros. unfold gtie_cells, tie_cells. cbv zeta. change (gcell RA) with cell. ar. rewrite !plus_IZR.
  destruct (Req_EM_T b ((IZR (cell b d) + 1) * d)); cbn [of_dec];
  destruct (Req_EM_T a ((IZR (cell a d) + 1) * d)); reflexivity.
Qed.

Lemma gcurrent_one_border_real : forall g dt q rn zn ro zo i k io ko,
  gcurrent_one_border RA (to_ggeom g) dt q rn zn ro zo i k io ko
  = map to_gjinc (current_one_border g dt q rn zn ro zo i k io ko).
Proof.
  intros. unfold gcurrent_one_border, current_one_border. cbv zeta. rewrite gdr_real, gdz_real.
  ar. rewrite !plus_IZR.
  destruct (negb (i =? io)%Z && (k =? ko)%Z);
    [destruct (Rlt_dec ((IZR i + 1) * dr g) ro)
    |destruct ((i =? io)%Z && negb (k =? ko)%Z); [destruct (Rlt_dec zo (IZR k * dz g))|reflexivity]];
    cbn [of_dec]; rewrite map_app; f_equal; apply gsimple_current_real.
Qed.

Lemma gcurrent_two_borders_real : forall g dt q rn zn ro zo i k io ko,
  gcurrent_two_borders RA (to_ggeom g) dt q rn zn ro zo i k io ko
  = map to_gjinc (current_two_borders g dt q rn zn ro zo i k io ko).
Proof.
  intros. unfold gcurrent_two_borders, current_two_borders. cbv zeta. rewrite gdr_real, gdz_real.
  ar. rewrite !plus_IZR.
  repeat match goal with
  | |- context [(?x <? ?y)%Z] => destruct (x <? y)%Z
  | |- context [Rlt_dec ?x ?y] => destruct (Rlt_dec x y)
  end; cbn [of_dec]; try reflexivity; rewrite !map_app; repeat f_equal; apply gsimple_current_real.
Qed.

Theorem gcurrent_single_real : forall g dt q rn zn ro zo,
  gcurrent_single RA (to_ggeom g) dt q rn zn ro zo = map to_gjinc (current_single g dt q rn zn ro zo).
Proof.
  intros. unfold gcurrent_single, current_single. rewrite gdr_real, gdz_real, !gtie_cells_real.
  destruct (tie_cells (dr g) rn ro) as [i io]. destruct (tie_cells (dz g) zn zo) as [k ko].
  rewrite gMNZL_real, gstrict_motion_real, gsimple_current_real, gcurrent_one_border_real, gcurrent_two_borders_real. ar.
  destruct (Rlt_dec (Rabs (rn - ro)) MNZL); cbn [of_dec]; [reflexivity|].
  destruct (Rlt_dec (Rabs (zn - zo)) MNZL); cbn [of_dec]; [reflexivity|].
  destruct (Z.abs (i - io) + Z.abs (k - ko) =? 0)%Z; [reflexivity|].
  destruct (Z.abs (i - io) + Z.abs (k - ko) =? 1)%Z; [reflexivity|].
  destruct (Z.abs (i - io) + Z.abs (k - ko) =? 2)%Z; reflexivity.
Qed.
