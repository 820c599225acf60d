(** Proofs about the field solver: walls, magnetic flux, Gauss's law, causality, polarisations. *)
From Coq Require Import Reals ZArith Lia Lra List Bool.
From Verif.Lib Require Import RAux Grid Par.
From Verif.Model Require Import Constants Geometry Fields.
From Verif.Spec Require Import Cloud Continuity Maxwell.
From Verif.Proof Require Import GeometryP ChargeP ChargeP2 CurrentP FieldsP.
Import ListNotations.
Local Open Scope R_scope.

Ltac rect := match goal with
  | |- context [in_rect ?a ?b ?c ?d ?i ?k] => destruct (in_rect_spec a b c d i k)
  end.

(** ** Walls *)

Lemma calc_efield_wall : forall g md dt m x, geom_ok g -> wall_location g x ->
  calc_efield g md dt m x = m x.
Proof.
  intros g md dt m [[a i] k] (H1 & H2 & _) Hx. destruct a; cbn in Hx; try contradiction.
  - rewrite calc_efield_er by lia. rect; [lia|reflexivity].
  - rewrite calc_efield_ephi. rect; [lia|reflexivity].
  - rewrite calc_efield_ez by lia. rect; [lia|reflexivity].
Qed.

Lemma calc_hfield_wall : forall g dt m x, wall_location g x -> calc_hfield g dt m x = m x.
Proof.
  intros g dt m [[a i] k] Hx. destruct a; cbn in Hx; try contradiction; now apply calc_hfield_other.
Qed.

Lemma field_step_wall : forall g md dt j m x, geom_ok g -> wall_location g x ->
  field_step g md dt j m x = m x.
Proof.
  intros g md dt j m x Hg Hx. unfold field_step. rewrite calc_efield_wall by assumption.
  destruct x as [[a i] k]. destruct a; cbn in Hx; try contradiction; cbn [set_current];
    now rewrite calc_hfield_wall.
Qed.

Lemma field_run_wall : forall g md dt js m x, geom_ok g -> wall_location g x ->
  field_run g md dt js m x = m x.
Proof.
  intros g md dt js. induction js as [|j js IH]; intros m x Hg Hx; [reflexivity|].
  unfold field_run in *. cbn [fold_left]. rewrite IH by assumption. now apply field_step_wall.
Qed.

Lemma conducting_step : forall g md dt j m, geom_ok g -> conducting g m ->
  conducting g (field_step g md dt j m).
Proof. intros g md dt j m Hg Hm x Hx. rewrite field_step_wall by assumption. now apply Hm. Qed.

Lemma conducting_run : forall g md dt js m, geom_ok g -> conducting g m ->
  conducting g (field_run g md dt js m).
Proof. intros g md dt js m Hg Hm x Hx. rewrite field_run_wall by assumption. now apply Hm. Qed.

(** A field is decided by its last assignment; all assignments of init_fields are zeros. *)
Definition assigns_zero (l : list (@asg loc R)) : Prop :=
  Forall (fun a => forall v, rhs a v = 0) l.

Lemma exec_zero : forall l m x, assigns_zero l -> In x (writes_of l) -> execf l m x = 0.
Proof.
  assert (K : forall l m x, assigns_zero l -> m x = 0 -> execf l m x = 0).
  { induction l as [|a l IH]; intros m x Hz H0; [exact H0|]. inversion Hz as [|y z Hy Hl]; subst.
    unfold exec in *. cbn [fold_left]. apply IH; auto. unfold exec_asg, store.
    destruct (loc_eqb x (tgt a)); [apply Hy|exact H0]. }
  induction l as [|a l IH]; intros m x Hz Hx; [destruct Hx|]. inversion Hz as [|y z Hy Hl]; subst.
  destruct Hx as [<-|Hx].
  - unfold exec. cbn [fold_left]. apply K; auto. unfold exec_asg.
    rewrite (store_same loc_eqb loc_eqb_spec). apply Hy.
  - unfold exec in *. cbn [fold_left]. now apply IH.
Qed.

Lemma assigns_zero_app : forall a b, assigns_zero a -> assigns_zero b -> assigns_zero (a ++ b).
Proof. intros. now apply Forall_app. Qed.

Lemma concat_app2 : forall {A} (a b : list (list (list A))),
  concat (concat (a ++ b)) = concat (concat a) ++ concat (concat b).
Proof. intros. now rewrite concat_app, concat_app. Qed.

Lemma init_zero : forall g, assigns_zero (concat (concat (init_field_loops g))).
Proof.
  intro g. unfold assigns_zero. apply Forall_forall. intros a Ha v.
  apply in_concat in Ha. destruct Ha as (b & Hb & Ha). apply in_concat in Hb. destruct Hb as (lp & Hl & Hb).
  unfold init_field_loops, boundary_loops, homogeneous_e_loops, homogeneous_h_loops, fi_on_z_loops in Hl.
  cbn [app] in Hl. cbn [In] in Hl.
  repeat (destruct Hl as [Hl|Hl]; [subst lp; apply in_map_iff in Hb; destruct Hb as (c & <- & _);
    cbn in Ha; split_in; subst a; reflexivity|]). destruct Hl.
Qed.

(** Locations assigned by init_fields. *)
Definition init_location (g : geom) (x : loc) : Prop :=
  match x with
  | (ER, i, k) => (0 <= i < n_r g - 1)%Z /\ (0 <= k < n_z g)%Z
  | (EPHI, i, k) => (0 <= i < n_r g)%Z /\ (0 <= k < n_z g)%Z
  | (EZ, i, k) => (0 <= i < n_r g)%Z /\ (0 <= k < n_z g - 1)%Z
  | (HR, i, k) | (HRH, i, k) => (0 <= i < n_r g)%Z /\ (0 <= k < n_z g - 1)%Z
  | (HPHI, i, k) | (HPHIH, i, k) => (0 <= i < n_r g - 1)%Z /\ (0 <= k < n_z g - 1)%Z
  | (HZ, i, k) | (HZH, i, k) => (0 <= i < n_r g - 1)%Z /\ (0 <= k < n_z g)%Z
  | _ => False
  end.

Lemma in_loops : forall (loops : list (list (list (@asg loc R)))) lp (b : list (@asg loc R)) a,
  In lp loops -> In b lp -> In a b -> In (tgt a) (writes_of (concat (concat loops))).
Proof.
  intros loops lp b a H1 H2 H3. unfold writes_of. apply in_map.
  apply in_concat. exists b. split; [|exact H3]. apply in_concat. now exists lp.
Qed.

Lemma init_written : forall g x, geom_ok g -> init_location g x ->
  In x (writes_of (concat (concat (init_field_loops g)))).
Proof.
  intros g [[a i] k] (Hr & Hz & _) Hx.
  assert (W : forall n (f : Z * Z -> list (@asg loc R)) lo1 hi1 lo2 hi2 c (b : @asg loc R),
    nth_error (init_field_loops g) n = Some (map f (cells lo1 hi1 lo2 hi2)) ->
    In c (cells lo1 hi1 lo2 hi2) -> In b (f c) -> tgt b = (a, i, k) ->
    In (a, i, k) (writes_of (concat (concat (init_field_loops g))))).
  { intros n f lo1 hi1 lo2 hi2 c b E Hc Hb <-. eapply in_loops; [eapply nth_error_In; exact E| |exact Hb].
    now apply in_map. }
  assert (W1 : forall n (f : Z -> list (@asg loc R)) lo hi c (b : @asg loc R),
    nth_error (init_field_loops g) n = Some (map f (zrange lo hi)) ->
    In c (zrange lo hi) -> In b (f c) -> tgt b = (a, i, k) ->
    In (a, i, k) (writes_of (concat (concat (init_field_loops g))))).
  { intros n f lo hi c b E Hc Hb <-. eapply in_loops; [eapply nth_error_In; exact E| |exact Hb].
    now apply in_map. }
  destruct a; cbn in Hx; try contradiction.
  - destruct (Z.eq_dec k (n_z g - 1)) as [->|N].
    + eapply (W1 0%nat); [reflexivity|apply (zrange_in _ _ i); lia|right; left; reflexivity|reflexivity].
    + eapply (W 4%nat); [reflexivity|apply (cells_in _ _ _ _ i k); lia|left; reflexivity|reflexivity].
  - destruct (Z.eq_dec k (n_z g - 1)) as [->|N].
    { eapply (W1 2%nat); [reflexivity|apply (zrange_in _ _ i); lia|right; left; reflexivity|reflexivity]. }
    destruct (Z.eq_dec i (n_r g - 1)) as [->|N'].
    { eapply (W1 1%nat); [reflexivity|apply (zrange_in _ _ k); lia|right; left; reflexivity|reflexivity]. }
    eapply (W 4%nat); [reflexivity|apply (cells_in _ _ _ _ i k); lia|right; left; reflexivity|reflexivity].
  - destruct (Z.eq_dec i (n_r g - 1)) as [->|N'].
    { eapply (W1 3%nat); [reflexivity|apply (zrange_in _ _ k); lia|right; left; reflexivity|reflexivity]. }
    eapply (W 4%nat); [reflexivity|apply (cells_in _ _ _ _ i k); lia|right; right; left; reflexivity|reflexivity].
  - eapply (W 5%nat); [reflexivity|apply (cells_in _ _ _ _ i k); lia|left; reflexivity|reflexivity].
  - eapply (W 6%nat); [reflexivity|apply (cells_in _ _ _ _ i k); lia|left; reflexivity|reflexivity].
  - eapply (W 7%nat); [reflexivity|apply (cells_in _ _ _ _ i k); lia|left; reflexivity|reflexivity].
  - eapply (W 5%nat); [reflexivity|apply (cells_in _ _ _ _ i k); lia|right; left; reflexivity|reflexivity].
  - eapply (W 6%nat); [reflexivity|apply (cells_in _ _ _ _ i k); lia|right; left; reflexivity|reflexivity].
  - eapply (W 7%nat); [reflexivity|apply (cells_in _ _ _ _ i k); lia|right; left; reflexivity|reflexivity].
Qed.

Lemma init_fields_zero : forall g m x, geom_ok g -> init_location g x -> init_fields g m x = 0.
Proof. intros g m x Hg Hx. apply exec_zero; [apply init_zero|now apply init_written]. Qed.

Lemma wall_init : forall g x, geom_ok g -> wall_location g x -> init_location g x.
Proof. intros g [[a i] k] (H1 & H2 & _) H. destruct a; cbn in *; try contradiction; lia. Qed.

Lemma init_conducting : forall g m, geom_ok g -> conducting g (init_fields g m).
Proof. intros g m Hg x Hx. apply init_fields_zero; auto. now apply wall_init. Qed.

(** ** Magnetic flux *)

Lemma flux_update : forall g dt m i k, geom_ok g ->
  (0 <= i < n_r g - 1)%Z -> (0 <= k < n_z g - 1)%Z ->
  (forall i', (0 <= i' < n_r g)%Z -> m (EPHI, i', (n_z g - 1)%Z) = 0) ->
  magnetic_flux (dr g) (dz g) (comp (calc_hfield g dt m) HR) (comp (calc_hfield g dt m) HZ) i k =
  magnetic_flux (dr g) (dz g) (comp m HR) (comp m HZ) i k.
Proof.
  intros g dt m i k Hg Hi Hk Hw. assert (Hdr := dr_pos g Hg). assert (Hdz := dz_pos g Hg).
  assert (HM := MAGN_CONST_pos). destruct Hg as (N1 & N2 & _).
  assert (Hi0 : 0 <= IZR i) by (apply IZR_nonneg; lia).
  unfold magnetic_flux, comp. rewrite !calc_hfield_hr by lia. rewrite !calc_hfield_hz.
  destruct (in_rect_spec 0 (n_r g) 0 (n_z g - 1) (i + 1) k) as [_|X]; [|exfalso; apply X; lia].
  destruct (in_rect_spec 0 (n_r g) 0 (n_z g - 1) i k) as [_|X]; [|exfalso; apply X; lia].
  destruct (in_rect_spec 0 (n_r g - 1) 0 (n_z g - 1) i k) as [_|X]; [|exfalso; apply X; lia].
  unfold alpha_r, alpha_z.
  destruct (in_rect_spec 0 (n_r g - 1) 0 (n_z g - 1) i (k + 1)) as [_|X].
  - field. repeat split; lra.
  - assert (E : (k + 1 = n_z g - 1)%Z) by lia. rewrite E. rewrite !Hw by lia. field. repeat split; lra.
Qed.

(** ** Gauss's law *)

(** An insulating medium: positive permittivity, no conductivity. *)
Definition insulating (g : geom) (md : medium) : Prop :=
  forall i k, (0 <= i < n_r g)%Z -> (0 <= k < n_z g)%Z -> 0 < epsilon md i k /\ sigma md i k = 0.

Lemma koef_insulating : forall md dt i k, 0 < epsilon md i k -> sigma md i k = 0 ->
  koef_e md dt i k = 1 /\ epsilon md i k * koef_h md dt i k = dt / EPSILON0.
Proof.
  intros md dt i k He Hs. assert (P := EPSILON0_pos). unfold koef_e, koef_h, epsilonx2, sigma_t. rewrite Hs.
  split; field; repeat split; try lra; apply Rgt_not_eq; nra.
Qed.

(** eps E after an update. *)
Lemma eps_er : forall g md dt m i k, geom_ok g -> insulating g md ->
  (0 <= i < n_r g - 1)%Z -> (1 <= k < n_z g - 1)%Z ->
  epsilon md i k * calc_efield g md dt m (ER, i, k) =
  epsilon md i k * m (ER, i, k)
  - (m (JR, i, k) + (m (HPHI, i, k) - m (HPHI, i, (k - 1)%Z)) / dz g) * (dt / EPSILON0).
Proof.
  intros g md dt m i k (N1 & N2 & _) Hm Hi Hk. destruct (Hm i k) as [He Hs]; try lia.
  destruct (koef_insulating md dt i k He Hs) as [K1 K2].
  rewrite calc_efield_er by lia. rect; [|lia]. rewrite K1, <- K2. ring.
Qed.

Lemma eps_ephi : forall g md dt m i k, geom_ok g -> insulating g md ->
  (1 <= i < n_r g - 1)%Z -> (1 <= k < n_z g - 1)%Z ->
  epsilon md i k * calc_efield g md dt m (EPHI, i, k) =
  epsilon md i k * m (EPHI, i, k)
  - (m (JPHI, i, k) - (m (HR, i, k) - m (HR, i, (k - 1)%Z)) / dz g
          + (m (HZ, i, k) - m (HZ, (i - 1)%Z, k)) / dr g) * (dt / EPSILON0).
Proof.
  intros g md dt m i k (N1 & N2 & _) Hm Hi Hk. destruct (Hm i k) as [He Hs]; try lia.
  destruct (koef_insulating md dt i k He Hs) as [K1 K2].
  rewrite calc_efield_ephi. rect; [|lia]. rewrite K1, <- K2. ring.
Qed.

Lemma eps_ez_axis : forall g md dt m k, geom_ok g -> insulating g md -> (0 <= k < n_z g - 1)%Z ->
  epsilon md 0%Z k * calc_efield g md dt m (EZ, 0%Z, k) =
  epsilon md 0%Z k * m (EZ, 0%Z, k)
  - (m (JZ, 0%Z, k) - 4 / dr g * m (HPHI, 0%Z, k)) * (dt / EPSILON0).
Proof.
  intros g md dt m k (N1 & N2 & _) Hm Hk. destruct (Hm 0%Z k) as [He Hs]; try lia.
  destruct (koef_insulating md dt 0 k He Hs) as [K1 K2].
  rewrite calc_efield_ez_axis. rect; [|lia]. rewrite K1, <- K2. ring.
Qed.

Lemma eps_ez : forall g md dt m i k, geom_ok g -> insulating g md ->
  (1 <= i < n_r g - 1)%Z -> (0 <= k < n_z g - 1)%Z ->
  epsilon md i k * calc_efield g md dt m (EZ, i, k) =
  epsilon md i k * m (EZ, i, k)
  - (m (JZ, i, k) - (m (HPHI, i, k) - m (HPHI, (i - 1)%Z, k)) / dr g
          - (m (HPHI, i, k) + m (HPHI, (i - 1)%Z, k)) / (2 * dr g * IZR i)) * (dt / EPSILON0).
Proof.
  intros g md dt m i k (N1 & N2 & _) Hm Hi Hk. destruct (Hm i k) as [He Hs]; try lia.
  destruct (koef_insulating md dt i k He Hs) as [K1 K2].
  rewrite calc_efield_ez by lia. rect; [|lia]. rewrite K1, <- K2. ring.
Qed.

Lemma gauss_update : forall g md dt m rho_old rho_new i k,
  geom_ok g -> insulating g md -> free_node g i k ->
  balance_at (dr g) (dz g) dt rho_new rho_old (comp m JR) (comp m JZ) i k ->
  gauss_residual (dr g) (dz g) (epsilon md) (comp (calc_efield g md dt m) ER)
    (comp (calc_efield g md dt m) EZ) rho_new i k =
  gauss_residual (dr g) (dz g) (epsilon md) (comp m ER) (comp m EZ) rho_old i k.
Proof.
  intros g md dt m rho rho' i k Hg Hm [Hi Hk] B. assert (Hdr := dr_pos g Hg). assert (Hdz := dz_pos g Hg).
  assert (HE := EPSILON0_pos).
  unfold balance_at, outflow, comp in *. unfold gauss_residual, comp.
  assert (B' : rho' i k * node_volume (dr g) (dz g) i = rho i k * node_volume (dr g) (dz g) i
    - dt * (node_area (dr g) i * (m (JZ, i, k) - m (JZ, i, (k - 1)%Z))
         + node_side (dr g) (dz g) i * m (JR, i, k)
         - node_side (dr g) (dz g) (i - 1) * m (JR, (i - 1)%Z, k))) by lra.
  rewrite B'. clear B B'.
  destruct (Z.eq_dec i 0) as [->|Ni].
  - rewrite !eps_ez_axis, eps_er by (auto; lia).
    change (0 - 1)%Z with (-1)%Z. replace (node_side (dr g) (dz g) (-1)) with 0 by (unfold node_side; cbn; ring).
    rewrite node_area_0, node_side_nonneg by lia. field. repeat split; lra.
  - assert (Hi1 : 1 <= IZR i) by (apply IZR_ge1; lia).
    rewrite !eps_ez, !eps_er by (auto; lia).
    rewrite node_area_pos_i, !node_side_nonneg, minus_IZR by lia. field. repeat split; lra.
Qed.

(** The magnetic update does not touch E. *)
Lemma calc_hfield_e : forall g dt m a i k, is_h a = false ->
  calc_hfield g dt m (a, i, k) = m (a, i, k).
Proof. intros. now apply calc_hfield_other. Qed.

Lemma gauss_step : forall g md dt j m rho_old rho_new i k,
  geom_ok g -> insulating g md -> free_node g i k ->
  balance_at (dr g) (dz g) dt rho_new rho_old (cur_r j) (cur_z j) i k ->
  gauss_residual (dr g) (dz g) (epsilon md) (comp (field_step g md dt j m) ER)
    (comp (field_step g md dt j m) EZ) rho_new i k =
  gauss_residual (dr g) (dz g) (epsilon md) (comp m ER) (comp m EZ) rho_old i k.
Proof.
  intros g md dt j m rho rho' i k Hg Hm Hf B. unfold field_step.
  rewrite (gauss_update g md dt _ rho rho' i k) by assumption.
  unfold gauss_residual, comp, set_current. now rewrite !calc_hfield_e.
Qed.

(** ** Causality *)

Lemma near_weaken : forall P n n' i k i' k' m m',
  agree_near P n i k m m' -> (Z.abs (i' - i) + n' <= n)%Z -> (Z.abs (k' - k) + n' <= n)%Z ->
  agree_near P n' i' k' m m'.
Proof. intros P n n' i k i' k' m m' H Hi Hk a x y Pa Hx Hy. apply H; auto; lia. Qed.

(** One step: the value at (i, k) needs the fields within one cell and the current at (i, k). *)
Lemma hstep_near : forall g dt m m' i k a, geom_ok g -> is_field a ->
  m (a, i, k) = m' (a, i, k) ->
  (forall b i' k', (b = ER \/ b = EPHI \/ b = EZ) -> (i' = i \/ i' = i + 1)%Z -> (k' = k \/ k' = k + 1)%Z ->
     m (b, i', k') = m' (b, i', k')) ->
  calc_hfield g dt m (a, i, k) = calc_hfield g dt m' (a, i, k).
Proof.
  intros g dt m m' i k a (N1 & N2 & _) Ha H0 HE.
  destruct a; cbn in Ha; try contradiction; try (rewrite !calc_hfield_e by reflexivity; exact H0).
  - rewrite !calc_hfield_hr by lia. rewrite H0, !(HE EPHI) by auto. reflexivity.
  - rewrite !calc_hfield_hphi. rewrite H0, !(HE EZ), !(HE ER) by auto. reflexivity.
  - rewrite !calc_hfield_hz. rewrite H0, !(HE EPHI) by auto. reflexivity.
Qed.

Lemma estep_near : forall g md dt m m' i k a, geom_ok g -> is_field a ->
  (forall b, is_field b \/ b = JR \/ b = JPHI \/ b = JZ -> m (b, i, k) = m' (b, i, k)) ->
  (forall b, b = HR \/ b = HPHI \/ b = HZ ->
     m (b, (i - 1)%Z, k) = m' (b, (i - 1)%Z, k) /\ m (b, i, (k - 1)%Z) = m' (b, i, (k - 1)%Z)) ->
  calc_efield g md dt m (a, i, k) = calc_efield g md dt m' (a, i, k).
Proof.
  intros g md dt m m' i k a (N1 & N2 & _) Ha H0 HH.
  assert (F : forall b, is_field b -> m (b, i, k) = m' (b, i, k)) by (intros; apply H0; now left).
  destruct a; cbn in Ha; try contradiction;
    try (rewrite !calc_efield_other by discriminate; now apply F).
  - rewrite !calc_efield_er by lia.
    rewrite (F ER I), (F HPHI I), (H0 JR) by auto.
    destruct (HH HPHI) as [_ ->]; auto.
  - rewrite !calc_efield_ephi.
    rewrite (F EPHI I), (F HR I), (F HZ I), (H0 JPHI) by auto.
    destruct (HH HR) as [_ ->]; auto. destruct (HH HZ) as [-> _]; auto.
  - destruct (Z.eq_dec i 0) as [->|Ni].
    + rewrite !calc_efield_ez_axis. rewrite (F EZ I), (F HPHI I), (H0 JZ) by auto. reflexivity.
    + rewrite !calc_efield_ez by lia. rewrite (F EZ I), (F HPHI I), (H0 JZ) by auto.
      destruct (HH HPHI) as [-> _]; auto.
Qed.

Lemma step_near : forall g md dt j j' m m' i k n, geom_ok g -> (0 <= n)%Z ->
  agree_near is_field (n + 1) i k m m' ->
  (forall i' k', (Z.abs (i' - i) <= n)%Z -> (Z.abs (k' - k) <= n)%Z ->
     cur_r j i' k' = cur_r j' i' k' /\ cur_phi j i' k' = cur_phi j' i' k' /\ cur_z j i' k' = cur_z j' i' k') ->
  agree_near is_field n i k (field_step g md dt j m) (field_step g md dt j' m').
Proof.
  intros g md dt j j' m m' i k n Hg Hn Hm Hj a x y Ha Hx Hy. unfold field_step.
  assert (HF : forall b x' y', is_field b ->
    (Z.abs (x' - i) <= n + 1)%Z -> (Z.abs (y' - k) <= n + 1)%Z ->
    m (b, x', y') = m' (b, x', y')) by (intros; apply Hm; auto).
  assert (HC : forall b x' y', is_field b -> (x' = x /\ y' = y \/ x' = x - 1 /\ y' = y \/ x' = x /\ y' = y - 1)%Z ->
    is_h b = true -> calc_hfield g dt m (b, x', y') = calc_hfield g dt m' (b, x', y')).
  { intros b x' y' Hb Hxy _. apply hstep_near; auto.
    - apply HF; auto; lia.
    - intros c x2 y2 Hc Hx2 Hy2. apply HF; [destruct Hc as [->|[->| ->]]; exact I| |]; lia. }
  destruct (Hj x y Hx Hy) as (J1 & J2 & J3).
  apply estep_near; auto.
  - intros b [Hb|[->|[->| ->]]]; cbn [set_current]; auto.
    destruct b; cbn in Hb; try contradiction; cbn [set_current];
      try (rewrite !calc_hfield_e by reflexivity; apply HF; cbn; auto; lia);
      apply HC; cbn; auto; lia.
  - intros b [->|[->| ->]]; cbn [set_current]; split; apply HC; cbn; auto; lia.
Qed.

Lemma run_near_gen : forall g md dt js js' m m' i k N, geom_ok g ->
  (Z.of_nat (length js) <= N)%Z ->
  agree_near is_field (Z.of_nat (length js)) i k m m' ->
  Forall2 (fun j j' => forall i' k',
     (Z.abs (i' - i) <= N)%Z -> (Z.abs (k' - k) <= N)%Z ->
     cur_r j i' k' = cur_r j' i' k' /\ cur_phi j i' k' = cur_phi j' i' k' /\ cur_z j i' k' = cur_z j' i' k') js js' ->
  forall a, is_field a -> field_run g md dt js m (a, i, k) = field_run g md dt js' m' (a, i, k).
Proof.
  intros g md dt js js' m m' i k N Hg HN Hm Hj a Ha.
  revert m m' Hm HN. induction Hj as [|j j' l l' Hjj Hll IH]; intros m m' Hm HN.
  - apply Hm; auto; cbn; lia.
  - unfold field_run in *. cbn [fold_left length] in *. apply IH; [|lia].
    apply step_near; auto; try lia.
    + replace (Z.of_nat (length l) + 1)%Z with (Z.of_nat (S (length l))) by lia. exact Hm.
    + intros x y Hx Hy. apply Hjj; lia.
Qed.

(** ** Polarisations *)

Definition same_on (P : farr -> Prop) (m m' : fmem) : Prop := forall a i k, P a -> m (a, i, k) = m' (a, i, k).

Lemma tm_step : forall g md dt j j' m m', geom_ok g -> same_on tm_field m m' ->
  (forall i k, cur_r j i k = cur_r j' i k /\ cur_z j i k = cur_z j' i k) ->
  same_on tm_field (field_step g md dt j m) (field_step g md dt j' m').
Proof.
  intros g md dt j j' m m' (N1 & N2 & _) Hm Hj.
  assert (HH : forall a i k, tm_field a -> calc_hfield g dt m (a, i, k) = calc_hfield g dt m' (a, i, k)).
  { intros a i k Ha. destruct a; cbn in Ha; try contradiction;
      try (rewrite !calc_hfield_e by reflexivity; now apply Hm).
    rewrite !calc_hfield_hphi. rewrite !(Hm HPHI), !(Hm EZ), !(Hm ER) by exact I. reflexivity. }
  intros a i k Ha. unfold field_step. destruct (Hj i k) as [J1 J2].
  destruct a; cbn in Ha; try contradiction.
  - rewrite !calc_efield_er by lia. cbn [set_current]. now rewrite !HH, J1 by exact I.
  - destruct (Z.eq_dec i 0) as [->|Ni].
    + rewrite !calc_efield_ez_axis. cbn [set_current]. now rewrite !HH, J2 by exact I.
    + rewrite !calc_efield_ez by lia. cbn [set_current]. now rewrite !HH, J2 by exact I.
  - rewrite !calc_efield_other by discriminate. cbn [set_current]. now apply HH.
Qed.

Lemma te_step : forall g md dt j j' m m', geom_ok g -> same_on te_field m m' ->
  (forall i k, cur_phi j i k = cur_phi j' i k) ->
  same_on te_field (field_step g md dt j m) (field_step g md dt j' m').
Proof.
  intros g md dt j j' m m' (N1 & N2 & _) Hm Hj.
  assert (HH : forall a i k, te_field a -> calc_hfield g dt m (a, i, k) = calc_hfield g dt m' (a, i, k)).
  { intros a i k Ha. destruct a; cbn in Ha; try contradiction.
    - rewrite !calc_hfield_e by reflexivity; now apply Hm.
    - rewrite !calc_hfield_hr by lia. now rewrite !(Hm HR), !(Hm EPHI) by exact I.
    - rewrite !calc_hfield_hz. now rewrite !(Hm HZ), !(Hm EPHI) by exact I. }
  intros a i k Ha. unfold field_step.
  destruct a; cbn in Ha; try contradiction.
  - rewrite !calc_efield_ephi. cbn [set_current]. now rewrite !HH, Hj by exact I.
  - rewrite !calc_efield_other by discriminate. cbn [set_current]. now apply HH.
  - rewrite !calc_efield_other by discriminate. cbn [set_current]. now apply HH.
Qed.

Lemma tm_run : forall g md dt js js' m m', geom_ok g -> same_on tm_field m m' ->
  Forall2 (fun j j' => forall i k, cur_r j i k = cur_r j' i k /\ cur_z j i k = cur_z j' i k) js js' ->
  same_on tm_field (field_run g md dt js m) (field_run g md dt js' m').
Proof.
  intros g md dt js js' m m' Hg Hm H. revert m m' Hm.
  induction H as [|j j' l l' Hj _ IH]; intros m m' Hm; [exact Hm|].
  unfold field_run in *. cbn [fold_left]. apply IH. now apply tm_step.
Qed.

Lemma te_run : forall g md dt js js' m m', geom_ok g -> same_on te_field m m' ->
  Forall2 (fun j j' => forall i k, cur_phi j i k = cur_phi j' i k) js js' ->
  same_on te_field (field_run g md dt js m) (field_run g md dt js' m').
Proof.
  intros g md dt js js' m m' Hg Hm H. revert m m' Hm.
  induction H as [|j j' l l' Hj _ IH]; intros m m' Hm; [exact Hm|].
  unfold field_run in *. cbn [fold_left]. apply IH. now apply te_step.
Qed.
