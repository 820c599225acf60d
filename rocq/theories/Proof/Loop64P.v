(** Whole runs in binary64 (C79): the particles keep the fields bounded, and the fields keep the particles in place. *)
From Coq Require Import ZArith Reals Lra Lia Psatz Bool List FunctionalExtensionality.
From Flocq Require Import Core IEEE754.BinarySingleNaN.
From Verif.Lib Require Import RAux Grid Outcome Par.
From Verif.Model Require Sim.
From Verif.Model Require Import Constants Binary64 Temperature64 Arith Geometry Fields Pusher GenCode GenRun GenSim GenFields.
From Verif.Spec Require Import Maxwell Poynting Field64 Deposit64 Short Double Loop64.
From Verif.Proof Require Import MaxwellP EnergyP StabilityP PoyntingP PerturbP Binary64P FloatP Axis64P Motion64P Push64P Err64P Limit64P Cell64P Solver64P Half64P Run64P Glide64P Sum64P Crowd64P.
Import ListNotations.
Local Open Scope R_scope.

Section Loop.
Variables pw lg : b64 -> b64.
Notation A := (b64_arith pw lg).
Hypothesis HP : good_pow pw.
Hypothesis HLOG : accurate_log lg.
Variable c : config A.
Notation g := (c_geom A c).
Notation dt := (c_dt A c).
Notation md := (c_medium A c).
Variables (theta K Q : R).
Hypothesis HF : fine pw lg g dt.
Hypothesis HU : c_pusher A c = BorisRelativistic \/ c_pusher A c = BorisAdaptive true.
Hypothesis HCR : clear_axis pw lg (gn_r A g) (gdr A g).
Hypothesis HCZ : clear_axis pw lg (gn_z A g) (gdz A g).
Notation dr := (Motion64P.dr pw lg g).
Notation dz := (Motion64P.dz pw lg g).
Hypothesis LR : 300000000 * B2R dt <= B2R dr / 40.
Hypothesis LZ : 300000000 * B2R dt <= B2R dz / 40.
Hypothesis HD : B2R dr <= 1.
Hypothesis HS : steady pw lg g md dt theta K.
Hypothesis HQ : rg Q (-200) 200.
Notation slimq := (slimq pw lg c Q).
Notation charged := (charged pw lg Q).
Hypothesis HBUN : forall k, (0 <= k < c_bunches A c)%Z -> Forall charged (c_bunch A c k).
Notation J := (jmax dt Q).
Notation G := (real_geom pw lg g).
Notation all P gs := (Forall (fun x => Forall P (snd x)) gs).
Notation pop := (pop pw lg).
Let HT : bp (-80) <= B2R dt := proj1 (fs_dt _ _ _ _ _ _ _ HS).

(** ** The currents of one step *)
Definition drawn (f : gmem A) : gcurrents A := GCur A (fun i k => f (JR, i, k)) (fun i k => f (JPHI, i, k)) (fun i k => f (JZ, i, k)).
Lemma drawn_set : forall f m, outside_j pw lg (greset_j A g m) f -> f = gset_current A (drawn f) m.
Proof.
  intros f m H. apply functional_extensionality. intros ((a & i) & k). destruct a; cbn [gset_current drawn gcur_r gcur_phi gcur_z]; try reflexivity; (eapply eq_trans; [apply H; intros [X|[X|X]]; discriminate X|reflexivity]).
Qed.
Lemma reset_filled : forall m, filled pw lg g J 0 (greset_j A g m).
Proof.
  intros m a i j JA IN. assert (E : greset_j A g m (a, i, j) = b64_of_Z 0) by (unfold greset_j; destruct JA as [-> |[-> | ->]]; rewrite IN; reflexivity). rewrite E.
  split; [reflexivity|]. cbn [INR]. replace (B2R (b64_of_Z 0)) with 0 by reflexivity. rewrite Rabs_R0. lra.
Qed.
Lemma drawn_finite : forall k f, filled pw lg g J k f -> finite_currents pw lg g (drawn f).
Proof.
  intros n f H i k Hi Hk. assert (IN : GenRun.inside A g i k = true) by (unfold GenRun.inside; rewrite !andb_true_iff, !Z.leb_le, !Z.ltb_lt; lia).
  cbn [drawn gcur_r gcur_phi gcur_z]. split; [|split]; apply (H _ i k); try exact IN; unfold jarr; tauto.
Qed.
Lemma drawn_size : forall k f, filled pw lg g J k f -> B2R dt / sqrt (2 * theta * EPSILON0) * current_size G (real_currents pw lg (drawn f)) <= bp 139 * (INR k * Q).
Proof.
  intros n f H. assert (JR := jmax_rg pw lg g dt HF Q HQ LR HT). assert (JP := rg_pos _ _ _ JR). assert (N0 := pos_INR n).
  assert (P : 0 < B2R dt) by (assert (X := bpow_gt_0 radix2 (-80)); lra). set (w := 2 * INR n * J).
  assert (W0 : 0 <= w) by (unfold w; apply Rmult_le_pos; lra).
  assert (S : current_size G (real_currents pw lg (drawn f)) <= w * bp 48).
  { unfold current_size. change (sqrt (e_sum G (fun a i k => density (real_currents pw lg (drawn f)) a i k * density (real_currents pw lg (drawn f)) a i k))) with (en G (density (real_currents pw lg (drawn f)))).
    apply Rle_trans with (en G (fun a i k => w * 1)).
    - apply en_le; [exact (G_ok _ _ _ _ _ _ _ HS)|]. intros a i k Ha. rewrite Rmult_1_r.
      assert (IN : GenRun.inside A g i k = true) by (unfold GenRun.inside; rewrite !andb_true_iff, !Z.leb_le, !Z.ltb_lt; destruct a; cbn in Ha; try contradiction; cbn [num b64_arith]; lia).
      destruct a; cbn in Ha; try contradiction; cbn [density real_currents drawn cur_r cur_phi cur_z gcur_r gcur_phi gcur_z]; apply (H _ i k); try exact IN; unfold jarr; tauto.
    - rewrite (en_scal G w (fun _ _ _ => 1)) by exact W0. apply Rmult_le_compat_l; [exact W0|]. exact (e_one_bound _ _ _ _ _ _ _ HS). }
  assert (R1 := rate_lower _ _ _ _ _ _ _ HS). unfold rate in R1. assert (R0 := bpow_gt_0 radix2 (-23)).
  assert (RI : 0 < / sqrt (2 * theta * EPSILON0) <= bp 23) by (split; [apply Rinv_0_lt_compat; lra|]; change 23%Z with (- -23)%Z; rewrite bpow_opp; apply Rinv_le_contravar; lra).
  assert (S0 : 0 <= current_size G (real_currents pw lg (drawn f))) by apply sqrt_pos.
  apply Rle_trans with (B2R dt * bp 23 * (w * bp 48)).
  - apply Rmult_le_compat; [|exact S0| |exact S]; [left; apply Rdiv_lt_0_compat; lra|]. apply Rmult_le_compat_l; lra.
  - right. unfold w, jmax. change 139%Z with (1 + 23 + 48 + 67)%Z. rewrite !bpow_plus. change (bp 1) with 2. field. lra.
Qed.

(** ** The invariant of a run *)
Variables (M : nat) (a : R).
Hypothesis HM : INR M <= bp 46.
Hypothesis HMQ : INR M * Q <= bp 30.
Hypothesis HA : bp 143 * (INR M * Q) + bp (-300) <= a.
Notation gam := (growth theta K).
Definition halves (m : gmem A) : Prop := forall a i k, In a [HRH; HPHIH; HZH; JR; JPHI; JZ] -> GenRun.inside A g i k = true -> lim (m (a, i, k)) (bp 251).
Definition settled (x : R) (m : gmem A) : Prop := sound pw lg g m /\ sqrt (energy pw lg g md dt m) <= x /\ rests pw lg g m /\ halves m.
Definition linv (n : nat) (t : b64) (x : R) (s : gsim A) : Prop :=
  inv pw lg c (fun _ => True) n t s /\ all slimq (gs_groups A s) /\ (pop (gs_groups A s) + coming pw lg c (gs_bunches A s) <= M)%nat /\ settled x (gs_fields A s).

Lemma settled_bound : forall x m, settled x m -> x <= bp 177 -> forall l, free G l -> lim (m l) (bp 247).
Proof.
  intros x m ((F & W) & E & R & _) L l Hl. split; [exact (F l Hl)|]. apply Rle_trans with (bp 70 * bp 177); [|rewrite <- bpow_plus; right; reflexivity].
  exact (run64_bound pw lg g md dt theta K HS m (bp 177) (conj F W) (Rle_trans _ _ _ E L) l Hl).
Qed.
Lemma settled_calm : forall x m, settled x m -> x <= bp 177 -> calm pw lg g (gcalc_hfield A g dt m).
Proof.
  intros x m ST L. apply (half_calm pw lg g md dt theta K HS LR LZ); [apply ST|exact (settled_bound x m ST L)|apply ST].
Qed.
Lemma settled_mild : forall x m, settled x m -> x <= bp 177 -> mild pw lg (bp 251) g m.
Proof.
  intros x m ST L b i k IB IN. change (lim (m (b, i, k)) (bp 251)). assert (D : In b [ER; EPHI; EZ; HR; HPHI; HZ] \/ In b [HRH; HPHIH; HZH; JR; JPHI; JZ]) by (unfold field_array in IB; cbn [In] in *; tauto). destruct D as [D|D].
  - apply up, (whole_lim pw lg g m (proj2 (proj1 ST)) (settled_bound x m ST L) (proj1 (proj2 (proj2 ST))) _ _ _ D). now apply inside_range.
  - apply ST; assumption.
Qed.
Lemma both : forall (P R : gparticle A -> Prop) (gs : list (bool * list (gparticle A))), all P gs -> all R gs -> all (fun p => P p /\ R p) gs.
Proof.
  intros P R gs H K'. rewrite Forall_forall in *. intros x IN. specialize (H x IN). specialize (K' x IN). rewrite Forall_forall in *. intros p I'. split; [apply H|apply K']; exact I'.
Qed.

Lemma loop_step : forall n t x s s', linv (S n) t x s -> x <= bp 177 -> giteration A c t s = Ok s' -> linv n (add A t dt) (growth theta K * (x + a)) s'.
Proof.
  intros n t x s s' (IV & SL & PO & ST) XB E. assert (CM := settled_calm _ _ ST XB).
  assert (IV' : inv pw lg c (fun _ => True) n (add A t dt) s').
  { destruct (iteration_safe pw lg HP c HF (border pw lg c HF HCZ) HU n t s IV CM) as [X|(s2 & X & I2)]; [congruence|]. rewrite E in X. injection X as <-. exact I2. }
  split; [exact IV'|]. revert E. unfold giteration. destruct (beam_step pw lg c HF n t s IV) as (s1 & EB & EF & NB & PL & _). rewrite EB. cbn [bind]. cbv zeta. rewrite EF.
  destruct (beam_slim pw lg c HF Q HBUN n t s s1 IV SL EB) as (SL1 & PO1).
  set (h := gcalc_hfield A g dt (gs_fields A s)) in *. set (f := greset_j A g h). assert (CF : calm pw lg g f) by (exact (calm_reset pw lg c HU h CM)).
  destruct (Sim.traverse (gstep_v_group A c f) (gs_groups A s1)) as [gs| |] eqn:ET; cbn [bind]; intro E; try discriminate E.
  destruct (step_v_groups pw lg HP c HF HU LR LZ Q f _ gs CF (both _ _ _ PL SL1) ET) as (MD & PO2).
  destruct (gfull_current A c gs f) as [r| |] eqn:EC; cbn [bind] in E; try discriminate E.
  destruct (full_groups pw lg HLOG c HF HCR HCZ LR LZ HD HT Q HQ gs f r MD EC) as (FI & SL2 & PO3).
  destruct (ofold _ (gbunches_of A (snd r)) _) as [rho| |]; cbn [bind] in E; try discriminate E. injection E as <-. cbn [gs_groups gs_bunches gs_fields].
  split; [exact SL2|]. assert (PT : (pop gs + coming pw lg c (gs_bunches A s1) <= M)%nat) by (exact (eq_ind_r (fun z => (z + _ <= M)%nat) (eq_ind_r (fun z => (z <= M)%nat) PO PO1) PO2)).
  assert (PM : (pop gs <= M)%nat) by (apply Nat.le_trans with (2 := PT); apply Nat.le_add_r). split; [exact (eq_ind_r (fun z => (z + _ <= M)%nat) PT PO3)|].
  destruct (FI 0%nat) as (FL & OJ); [| |clear FI].
  { rewrite plus_O_n, mult_INR. change 50%Z with (4 + 46)%Z. rewrite bpow_plus. change (bp 4) with 16. replace (INR 16) with 16 by (cbn; lra). apply le_INR in PM. lra. }
  { apply reset_filled. }
  assert (EFI : gcalc_efield A g md dt (fst r) = gfield_step A g md dt (drawn (fst r)) (gs_fields A s)) by exact (f_equal (gcalc_efield A g md dt) (drawn_set (fst r) h OJ)).
  refine (eq_ind_r (settled (gam * (x + a))) _ EFI). clear EFI.
  rewrite Nat.add_0_l in FL. assert (DS := drawn_size _ _ FL). assert (QP := rg_pos _ _ _ HQ).
  assert (DS' : B2R dt / sqrt (2 * theta * EPSILON0) * current_size G (real_currents pw lg (drawn (fst r))) <= bp 143 * (INR M * Q)).
  { apply Rle_trans with (1 := DS). change 143%Z with (139 + 4)%Z. rewrite bpow_plus, Rmult_assoc. apply Rmult_le_compat_l; [apply bpow_ge_0|]. rewrite mult_INR. replace (INR 16) with (bp 4) by (cbn; lra). rewrite Rmult_assoc.
    apply Rmult_le_compat_l; [apply bpow_ge_0|]. apply Rmult_le_compat_r; [lra|]. now apply le_INR. }
  assert (BIG : bp 143 * (INR M * Q) <= bp 300).
  { apply Rle_trans with (bp 143 * bp 30); [|rewrite <- !bpow_plus; apply bpow_le; lia]. apply Rmult_le_compat_l; [apply bpow_ge_0|exact HMQ]. }
  destruct ST as (SO & EN & RE & _).
  destruct (step64 pw lg g md dt theta K HS (drawn (fst r)) (gs_fields A s) SO (drawn_finite _ _ FL)) as (SO' & EN').
  - apply Rle_trans with (1 := EN), Rle_trans with (1 := XB). apply bpow_le. lia.
  - apply Rle_trans with (1 := DS'). exact BIG.
  - split; [exact SO'|]. split.
    + apply Rle_trans with (1 := EN'). apply Rmult_le_compat_l; [assert (X := growth_1 _ _ _ _ _ _ _ HS); lra|]. lra.
    + split; [apply (idle_step pw lg g md dt theta K HS); [apply SO|exact RE]|]. intros b i k IB IN.
      assert (EO : gfield_step A g md dt (drawn (fst r)) (gs_fields A s) (b, i, k) = gset_current A (drawn (fst r)) h (b, i, k)) by (apply GenFieldsP.gcalc_efield_other; intros ->; cbn [In] in IB; intuition discriminate).
      rewrite EO. cbn [In] in IB.
      assert (JB : 2 * INR (16 * pop gs) * J <= bp 251).
      { unfold jmax. assert (TI : / B2R dt <= bp 80) by (change 80%Z with (- -80)%Z; rewrite bpow_opp; apply Rinv_le_contravar; [apply bpow_gt_0|exact HT]). assert (T0 : 0 < / B2R dt) by (apply Rinv_0_lt_compat; assert (X := bpow_gt_0 radix2 (-80)); lra).
        rewrite mult_INR. replace (INR 16) with (bp 4) by (cbn; lra). apply Rle_trans with (bp 1 * bp 4 * bp 67 * (INR M * Q) * bp 80).
        - change (bp 1) with 2. replace (2 * (bp 4 * INR (pop gs)) * (bp 67 * Q / B2R dt)) with (2 * bp 4 * bp 67 * (INR (pop gs) * Q) * / B2R dt) by (unfold Rdiv; ring). assert (PI0 := pos_INR (pop gs)). apply Rmult_le_compat; [|lra| |exact TI].
          + apply Rmult_le_pos; [|apply Rmult_le_pos; lra]. assert (B4 := bpow_ge_0 radix2 4). assert (B7 := bpow_ge_0 radix2 67). repeat apply Rmult_le_pos; lra.
          + apply Rmult_le_compat_l; [assert (B4 := bpow_ge_0 radix2 4); assert (B7 := bpow_ge_0 radix2 67); repeat apply Rmult_le_pos; lra|]. apply Rmult_le_compat_r; [lra|now apply le_INR].
        - apply Rle_trans with (bp 1 * bp 4 * bp 67 * bp 30 * bp 80); [|rewrite <- !bpow_plus; apply bpow_le; lia]. apply Rmult_le_compat_r; [apply bpow_ge_0|]. apply Rmult_le_compat_l; [|exact HMQ]. rewrite <- !bpow_plus. apply bpow_ge_0. }
      destruct IB as [<-|[<-|[<-|[<-|[<-|[<-|[]]]]]]]; cbn [gset_current drawn gcur_r gcur_phi gcur_z].
      * apply CM; [cbn; tauto|exact IN].
      * apply CM; [cbn; tauto|exact IN].
      * apply CM; [cbn; tauto|exact IN].
      * apply (lim_weaken _ _ _ (FL JR i k (or_introl eq_refl) IN) JB).
      * apply (lim_weaken _ _ _ (FL JPHI i k (or_intror (or_introl eq_refl)) IN) JB).
      * apply (lim_weaken _ _ _ (FL JZ i k (or_intror (or_intror eq_refl)) IN) JB).
Qed.

(** ** The run *)
Fixpoint bound (n : nat) (x : R) : R := match n with O => x | S n' => bound n' (gam * (x + a)) end.
Lemma a_pos : 0 <= a.
Proof. assert (QP := rg_pos _ _ _ HQ). assert (0 <= bp 143 * (INR M * Q)) by (apply Rmult_le_pos; [apply bpow_ge_0|apply Rmult_le_pos; [apply pos_INR|lra]]). assert (X := bpow_ge_0 radix2 (-300)). lra. Qed.
Lemma bound_le : forall n x, 0 <= x -> bound n x <= gam ^ n * (x + INR n * a).
Proof.
  assert (G1 := growth_1 _ _ _ _ _ _ _ HS : 1 <= gam). assert (A0 := a_pos). induction n as [|n IH]; intros x X0; [cbn [bound pow INR]; lra|].
  cbn [bound]. assert (Y0 : 0 <= gam * (x + a)) by (apply Rmult_le_pos; lra). apply Rle_trans with (1 := IH _ Y0). cbn [pow]. rewrite S_INR. assert (P : 0 <= gam ^ n) by (apply pow_le; lra). assert (N0 := pos_INR n).
  replace (gam * gam ^ n * (x + (INR n + 1) * a)) with (gam ^ n * (gam * (x + a) + gam * (INR n * a))) by ring. apply Rmult_le_compat_l; [exact P|]. apply Rplus_le_compat_l. assert (0 <= INR n * a) by (apply Rmult_le_pos; lra). rewrite <- (Rmult_1_l (INR n * a)) at 1. apply Rmult_le_compat_r; lra.
Qed.
Lemma bound_mono : forall n x, 0 <= x -> x <= bound n x.
Proof.
  assert (G1 := growth_1 _ _ _ _ _ _ _ HS : 1 <= gam). assert (A0 := a_pos). induction n as [|n IH]; intros x X0; [apply Rle_refl|]. cbn [bound].
  assert (1 * (x + a) <= gam * (x + a)) by (apply Rmult_le_compat_r; lra). apply Rle_trans with (gam * (x + a)); [lra|apply IH; lra].
Qed.
Lemma loop_run : forall n m t e x s s', linv (n + m) t x s -> 0 <= x -> bound n x <= bp 177 -> gsim_run A c n t e s = Ok s' ->
  exists i t', linv (i + m) t' (bound n x) s'.
Proof.
  assert (G1 := growth_1 _ _ _ _ _ _ _ HS : 1 <= gam). assert (A0 := a_pos).
  assert (UP : forall n t x y s, linv n t x s -> x <= y -> linv n t y s) by (intros n t x y s (I1 & I2 & I3 & I4 & I5 & I6) L; split; [exact I1|split; [exact I2|split; [exact I3|split; [exact I4|split; [lra|exact I6]]]]]).
  induction n as [|n IH]; intros m t e x s s' LI X0 XB E.
  - cbn [gsim_run] in E. injection E as <-. exists 0%nat, t. exact LI.
  - cbn [gsim_run] in E. assert (BM := bound_mono (S n) x X0). destruct (ltb A t e).
    + destruct (giteration A c t s) as [s1| |] eqn:EI; try discriminate E. cbn [bind] in E.
      refine (IH m _ e _ s1 s' (loop_step _ t x s s1 LI (Rle_trans _ _ _ BM XB) EI) _ XB E). apply Rmult_le_pos; lra.
    + injection E as <-. exists (S n), t. exact (UP _ _ _ _ _ LI BM).
Qed.

(** ** The start *)
Section Start.
Variables (m : gmem A) (Y : R).
Hypothesis HY : 0 <= Y.
Hypothesis HI : mild pw lg Y g m.
Lemma mild_at : forall b i k, field_array b -> (0 <= i < gn_r A g)%Z -> (0 <= k < gn_z A g)%Z -> Rabs (real_fields pw lg m (b, i, k)) <= Y.
Proof.
  intros b i k Hb Hi Hk. assert (IN : GenRun.inside A g i k = true) by (unfold GenRun.inside; rewrite !andb_true_iff, !Z.leb_le, !Z.ltb_lt; lia). exact (proj2 (HI b i k Hb IN)).
Qed.
Let MP := MAGN_CONST_pos.
Notation DT := (B2R dt).
Notation DR := (@B2R prec64 emax64 (gdr A g)).
Notation DZ := (@B2R prec64 emax64 (gdz A g)).
Lemma curl_mild : forall b i k, h_at G b i k -> Rabs (DT / MAGN_CONST * ce G (real_fields pw lg m) b i k) <= Y.
Proof.
  intros b i k Hb. assert (PR : 0 < DR) by exact (DR_pos _ _ _ _ _ _ _ HS). assert (PZ : 0 < DZ) by exact (DZ_pos _ _ _ _ _ _ _ HS). assert (PT : 0 < DT) by exact (DT_pos _ _ _ _ _ _ _ HS).
  assert (NR := fs_nr _ _ _ _ _ _ _ HS). assert (NZ := fs_nz _ _ _ _ _ _ _ HS).
  assert (R1 : 0 < DT / (DR * MAGN_CONST) <= / 8) by (split; [apply Rdiv_lt_0_compat; [lra|apply Rmult_lt_0_compat; lra]|exact (rate_r pw lg g md dt theta K HS LR)]).
  assert (R2 : 0 < DT / (DZ * MAGN_CONST) <= / 8) by (split; [apply Rdiv_lt_0_compat; [lra|apply Rmult_lt_0_compat; lra]|exact (rate_z pw lg g md dt theta K HS LZ)]).
  assert (TWO : forall c x y, 0 < c <= / 8 -> Rabs x <= Y -> Rabs y <= Y -> Rabs (c * (x - y)) <= Y / 4).
  { intros c' x y C X X'. rewrite Rabs_mult, (Rabs_pos_eq c') by lra. apply Rle_trans with (/ 8 * (Y + Y)); [|lra]. apply Rmult_le_compat; [lra|apply Rabs_pos|lra|]. unfold Rminus. apply Rle_trans with (1 := Rabs_triang _ _). rewrite Rabs_Ropp. lra. }
  assert (OK : forall b i k, field_array b -> (0 <= i < gn_r A g)%Z -> (0 <= k < gn_z A g)%Z -> Rabs (real_fields pw lg m (b, i, k)) <= Y) by exact mild_at.
  destruct b; cbn in Hb; try contradiction; cbn [ce]; unfold curl_phi, curl_e_z; rewrite ?(G_dr _ _ _ _ _ _ _ HS), ?(G_dz _ _ _ _ _ _ _ HS).
  - assert (X1 := OK EPHI i (k + 1)%Z ltac:(unfold field_array; cbn; tauto) ltac:(lia) ltac:(lia)). assert (X2 := OK EPHI i k ltac:(unfold field_array; cbn; tauto) ltac:(lia) ltac:(lia)).
    match goal with |- Rabs ?x <= _ => replace x with (DT / (DZ * MAGN_CONST) * (real_fields pw lg m (EPHI, i, (k + 1)%Z) - real_fields pw lg m (EPHI, i, k))) by (field; repeat split; lra) end.
    assert (T := TWO _ _ _ R2 X1 X2). lra.
  - assert (X1 := OK EZ (i + 1)%Z k ltac:(unfold field_array; cbn; tauto) ltac:(lia) ltac:(lia)). assert (X2 := OK EZ i k ltac:(unfold field_array; cbn; tauto) ltac:(lia) ltac:(lia)).
    assert (X3 := OK ER i (k + 1)%Z ltac:(unfold field_array; cbn; tauto) ltac:(lia) ltac:(lia)). assert (X4 := OK ER i k ltac:(unfold field_array; cbn; tauto) ltac:(lia) ltac:(lia)).
    assert (T1 := TWO _ _ _ R1 X1 X2). assert (T2 := TWO _ _ _ R2 X3 X4). apply Rabs_le_inv in T1, T2.
    match goal with |- Rabs ?x <= _ => replace x with (DT / (DR * MAGN_CONST) * (real_fields pw lg m (EZ, (i + 1)%Z, k) - real_fields pw lg m (EZ, i, k)) - DT / (DZ * MAGN_CONST) * (real_fields pw lg m (ER, i, (k + 1)%Z) - real_fields pw lg m (ER, i, k))) by (field; repeat split; lra) end.
    apply Rabs_le. lra.
  - assert (X1 := OK EPHI (i + 1)%Z k ltac:(unfold field_array; cbn; tauto) ltac:(lia) ltac:(lia)). assert (X2 := OK EPHI i k ltac:(unfold field_array; cbn; tauto) ltac:(lia) ltac:(lia)). assert (I0 : 0 <= IZR i) by (apply IZR_le; lia).
    assert (T1 := TWO _ _ _ R1 X1 X2).
    assert (Q1 : 0 < / (2 * (IZR i + 1 / 2)) <= 1) by (split; [apply Rinv_0_lt_compat; lra|]; rewrite <- Rinv_1; apply Rinv_le_contravar; lra).
    assert (R3 : 0 < DT / (DR * MAGN_CONST) * / (2 * (IZR i + 1 / 2)) <= / 8) by (split; [apply Rmult_lt_0_compat; lra|]; rewrite <- (Rmult_1_r (/ 8)); apply Rmult_le_compat; lra).
    rewrite <- Rabs_Ropp in X2. assert (T2 := TWO _ _ _ R3 X1 X2). apply Rabs_le_inv in T1, T2.
    match goal with |- Rabs ?x <= _ => replace x with (- (DT / (DR * MAGN_CONST) * (real_fields pw lg m (EPHI, (i + 1)%Z, k) - real_fields pw lg m (EPHI, i, k)) + DT / (DR * MAGN_CONST) * / (2 * (IZR i + 1 / 2)) * (real_fields pw lg m (EPHI, (i + 1)%Z, k) - - real_fields pw lg m (EPHI, i, k)))) by (field; repeat split; lra) end.
    apply Rabs_le. lra.
Qed.
Lemma square_le : forall x y, Rabs x <= Y -> Rabs y <= 2 * Y -> x * y <= 2 * (Y * Y).
Proof.
  intros x y X1 X2. apply Rle_trans with (1 := Rle_abs _). rewrite Rabs_mult. replace (2 * (Y * Y)) with (Y * (2 * Y)) by ring. apply Rmult_le_compat; auto using Rabs_pos.
Qed.
Lemma one_square : forall s, 0 <= s -> sqrt s <= bp 48 -> s <= bp 96.
Proof. intros s S0 H. rewrite <- (sqrt_sqrt s S0). replace (bp 96) with (bp 48 * bp 48) by (rewrite <- bpow_plus; reflexivity). apply Rmult_le_compat; auto using sqrt_pos. Qed.
Lemma start_energy : sqrt (energy pw lg g md dt m) <= bp 59 * Y.
Proof.
  assert (GO := G_ok _ _ _ _ _ _ _ HS). rewrite (energy_after _ _ _ _ _ _ _ HS). unfold after. rewrite energy_e_sum. assert (EP := EPSILON0_pos). assert (Y2 : 0 <= Y * Y) by (apply Rmult_le_pos; lra).
  assert (E1 : e_sum G (fun a i k => 1 * 1) <= bp 96) by (apply one_square; [apply e_sum_nonneg; [exact GO|intros; lra]|exact (e_one_bound _ _ _ _ _ _ _ HS)]).
  assert (H1 : h_sum G (fun a i k => 1 * 1) <= bp 96) by (apply one_square; [apply h_sum_nonneg; [exact GO|intros; lra]|exact (h_one_bound _ _ _ _ _ _ _ HS)]).
  assert (E2 : e_sum G (fun a i k => epsilon (real_medium pw lg md) i k * real_fields pw lg m (a, i, k) * real_fields pw lg m (a, i, k)) <= bp 21 * (Y * Y) * bp 96).
  { apply Rle_trans with (e_sum G (fun a i k => bp 21 * (Y * Y) * (1 * 1))).
    - apply e_sum_le; [exact GO|]. intros b i k Hb. assert (RI : (0 <= i < gn_r A g)%Z /\ (0 <= k < gn_z A g)%Z) by (destruct b; cbn in Hb; try contradiction; lia).
      destruct (fs_medium _ _ _ _ _ _ _ HS i k (proj1 RI) (proj2 RI)) as (_ & ME & _). cbn [epsilon real_medium].
      assert (X : Rabs (real_fields pw lg m (b, i, k)) <= Y) by (apply mild_at; [unfold field_array; destruct b; cbn in Hb; try contradiction; cbn; tauto|apply RI|apply RI]).
      rewrite Rmult_assoc. assert (X' : Rabs (real_fields pw lg m (b, i, k)) <= 2 * Y) by lra. assert (SQ := square_le _ _ X X'). assert (SN : 0 <= real_fields pw lg m (b, i, k) * real_fields pw lg m (b, i, k)) by apply Rle_0_sqr.
      rewrite Rmult_1_l, Rmult_1_r. change 21%Z with (20 + 1)%Z. rewrite bpow_plus. change (bp 1) with 2. rewrite Rmult_assoc. apply Rmult_le_compat; lra.
    - rewrite e_sum_scal. apply Rmult_le_compat_l; [|exact E1]. apply Rmult_le_pos; [apply bpow_ge_0|exact Y2]. }
  assert (H2 : h_sum G (fun a i k => real_fields pw lg m (a, i, k) * (real_fields pw lg m (a, i, k) + B2R dt / MAGN_CONST * ce G (real_fields pw lg m) a i k)) <= 2 * (Y * Y) * bp 96).
  { apply Rle_trans with (h_sum G (fun a i k => 2 * (Y * Y) * (1 * 1))).
    - apply h_sum_le; [exact GO|]. intros b i k Hb. assert (RI : (0 <= i < gn_r A g)%Z /\ (0 <= k < gn_z A g)%Z) by (destruct b; cbn in Hb; try contradiction; lia).
      assert (X : Rabs (real_fields pw lg m (b, i, k)) <= Y) by (apply mild_at; [unfold field_array; destruct b; cbn in Hb; try contradiction; cbn; tauto|apply RI|apply RI]).
      rewrite !Rmult_1_r. apply square_le; [exact X|]. apply Rle_trans with (1 := Rabs_triang _ _). assert (CU := curl_mild b i k Hb). lra.
    - rewrite h_sum_scal. apply Rmult_le_compat_l; [lra|exact H1]. }
  apply Rle_trans with (sqrt (bp 59 * Y * (bp 59 * Y))); [|right; apply sqrt_square, Rmult_le_pos; [apply bpow_ge_0|exact HY]]. apply sqrt_le_1_alt.
  replace (bp 59 * Y * (bp 59 * Y)) with (bp 21 * (Y * Y) * bp 96 + bp 21 * (Y * Y) * bp 96) by (replace (bp 21 * (Y * Y) * bp 96 + bp 21 * (Y * Y) * bp 96) with (bp 1 * bp 21 * bp 96 * (Y * Y)) by (change (bp 1) with 2; ring); rewrite <- !bpow_plus; replace (bp 59 * Y * (bp 59 * Y)) with (bp 59 * bp 59 * (Y * Y)) by ring; rewrite <- bpow_plus; reflexivity).
  assert (Z1 : 0 <= bp 21 * (Y * Y) * bp 96) by (apply Rmult_le_pos; [apply Rmult_le_pos; [apply bpow_ge_0|exact Y2]|apply bpow_ge_0]).
  assert (Z2 : 0 <= 2 * (Y * Y) * bp 96) by (apply Rmult_le_pos; [lra|apply bpow_ge_0]).
  assert (Z3 : 2 * (Y * Y) * bp 96 <= bp 21 * (Y * Y) * bp 96) by (apply Rmult_le_compat_r; [apply bpow_ge_0|]; apply Rmult_le_compat_r; [exact Y2|]; change 2 with (bp 1); apply bpow_le; lia).
  apply Rplus_le_compat.
  - apply Rle_trans with (EPSILON0 / 2 * (bp 21 * (Y * Y) * bp 96)); [apply Rmult_le_compat_l; lra|]. rewrite <- (Rmult_1_l (bp 21 * (Y * Y) * bp 96)) at 2. apply Rmult_le_compat_r; [exact Z1|]. unfold EPSILON0. lra.
  - apply Rle_trans with (MAGN_CONST / 2 * (2 * (Y * Y) * bp 96)); [apply Rmult_le_compat_l; lra|]. apply Rle_trans with (2 := Z3). rewrite <- (Rmult_1_l (2 * (Y * Y) * bp 96)) at 2. apply Rmult_le_compat_r; [exact Z2|]. unfold MAGN_CONST. lra.
Qed.
End Start.
End Loop.

(** ** Runs *)
Section Whole.
Variables pw lg : b64 -> b64.
Notation A := (b64_arith pw lg).
Hypothesis HP : good_pow pw.
Hypothesis HLOG : accurate_log lg.
Variables (c : config A) (n : nat) (t e : b64) (s : gsim A) (theta K Q : R).
Hypothesis HC : contained pw lg c n s theta K Q.
Hypothesis HST : starts pw lg c s.
Hypothesis HBO : (0 < c_bunches A c)%Z -> beam_ok pw lg c n t.
Notation g := (c_geom A c).
Notation dt := (c_dt A c).
Let HF := ct_fine _ _ _ _ _ _ _ _ HC.
Let HU := ct_pusher _ _ _ _ _ _ _ _ HC.
Let HS := ct_steady _ _ _ _ _ _ _ _ HC.
Let HR := ct_step_r _ _ _ _ _ _ _ _ HC.
Let HZ := ct_step_z _ _ _ _ _ _ _ _ HC.
Let HCR := ct_clear_r _ _ _ _ _ _ _ _ HC.
Let HCZ := ct_clear_z _ _ _ _ _ _ _ _ HC.
Let HD := ct_metre _ _ _ _ _ _ _ _ HC.
Let M := length (crowd pw lg c s).
Let a : R := bp 143 * (INR M * Q) + bp (-300).
Lemma HQ : rg Q (-200) 200. Proof. exact (ct_Q _ _ _ _ _ _ _ _ HC). Qed.
Lemma bunches_charged : forall k, (0 <= k < c_bunches A c)%Z -> Forall (charged pw lg Q) (c_bunch A c k).
Proof.
  intros k Hk. rewrite Forall_forall. intros p IN. apply (ct_laden _ _ _ _ _ _ _ _ HC). unfold crowd. apply in_or_app. right. apply in_flat_map. exists k. split; [|exact IN].
  unfold zrange. apply in_map_iff. exists (Z.to_nat k). split; [lia|]. apply in_seq. lia.
Qed.
Lemma steps_one : INR n <= bp 42.
Proof.
  assert (H := ct_steps _ _ _ _ _ _ _ _ HC). assert (T := fs_theta _ _ _ _ _ _ _ HS). assert (K1 := fs_K1 _ _ _ _ _ _ _ HS). assert (TP := theta_pos _ _ _ _ _ _ _ HS).
  assert (1 <= K / theta) by (apply Rmult_le_reg_r with theta; [lra|]; unfold Rdiv; rewrite Rmult_assoc, Rinv_l by lra; lra). assert (N0 := pos_INR n).
  apply Rle_trans with (2 := H). rewrite <- (Rmult_1_r (INR n)) at 1. now apply Rmult_le_compat_l.
Qed.
Lemma bound_ok : forall i, (i <= n)%nat -> bound theta K a i (bp 159) <= bp 177.
Proof.
  intros i Li. assert (IN : INR i <= INR n) by (now apply le_INR). assert (I0 := pos_INR i). assert (N1 := steps_one). assert (TP := theta_pos _ _ _ _ _ _ _ HS). assert (K1 := fs_K1 _ _ _ _ _ _ _ HS).
  assert (KT : 0 < K / theta) by (apply Rdiv_lt_0_compat; lra). assert (QP := rg_pos _ _ _ HQ).
  apply Rle_trans with (1 := bound_le pw lg c theta K Q HS HQ M a (Rle_refl _) i (bp 159) (bpow_ge_0 _ _)).
  assert (GR : growth theta K ^ i <= 2).
  { unfold growth. set (x := K / theta * bp (-43)). assert (X0 : 0 <= x) by (unfold x; apply Rmult_le_pos; [lra|apply bpow_ge_0]).
    assert (X1 : INR i * x <= / 2).
    { unfold x. rewrite <- Rmult_assoc. apply Rle_trans with (bp 42 * bp (-43)); [|rewrite <- bpow_plus; cbn; lra]. apply Rmult_le_compat_r; [apply bpow_ge_0|]. apply Rle_trans with (2 := ct_steps _ _ _ _ _ _ _ _ HC). apply Rmult_le_compat_r; lra. }
    apply Rle_trans with (1 := growth_n x i X0 X1). lra. }
  assert (G0 : 0 <= growth theta K ^ i) by (apply pow_le; assert (G1 := growth_1 _ _ _ _ _ _ _ HS); lra).
  assert (IA : INR i * a <= bp 173 + 1).
  { unfold a. rewrite Rmult_plus_distr_l. apply Rplus_le_compat.
    - replace (INR i * (bp 143 * (INR M * Q))) with (bp 143 * (INR i * (INR M * Q))) by ring. apply Rle_trans with (bp 143 * bp 30); [|rewrite <- bpow_plus; right; reflexivity]. apply Rmult_le_compat_l; [apply bpow_ge_0|].
      apply Rle_trans with (2 := ct_charge _ _ _ _ _ _ _ _ HC). apply Rmult_le_compat_r; [apply Rmult_le_pos; [apply pos_INR|lra]|exact IN].
    - apply Rle_trans with (bp 42 * bp (-300)); [apply Rmult_le_compat_r; [apply bpow_ge_0|lra]|]. rewrite <- bpow_plus. change 1 with (bp 0). apply bpow_le. lia. }
  assert (AI : 0 <= INR i * a).
  { apply Rmult_le_pos; [exact I0|]. exact (a_pos Q HQ M a (Rle_refl _)). }
  apply Rle_trans with (2 * (bp 159 + (bp 173 + 1))).
  - apply Rmult_le_compat; [exact G0| |exact GR|lra]. assert (X := bpow_ge_0 radix2 159). lra.
  - assert (bp 159 <= bp 173) by (apply bpow_le; lia). assert (1 <= bp 173) by (change 1 with (bp 0); apply bpow_le; lia). change 177%Z with (4 + 173)%Z. rewrite bpow_plus. change (bp 4) with 16. lra.
Qed.
Lemma weak : forall x y : b64, forall B, lim x B -> B <= bp 100 -> lim x (bp 247).
Proof. intros x y B H L. apply (lim_weaken _ _ _ H). apply Rle_trans with (1 := L). apply bpow_le. lia. Qed.
Lemma start_inv : linv pw lg c Q M n t (bp 159) s.
Proof.
  assert (MI := ct_mild _ _ _ _ _ _ _ _ HC). assert (NR := fs_nr _ _ _ _ _ _ _ HS). assert (NZ := fs_nz _ _ _ _ _ _ _ HS).
  assert (AT : forall b i k, field_array b -> (0 <= i < gn_r A g)%Z -> (0 <= k < gn_z A g)%Z -> lim (gs_fields A s (b, i, k)) (bp 100)).
  { intros b i k Hb Hi Hk. assert (IN : GenRun.inside A g i k = true) by (unfold GenRun.inside; rewrite !andb_true_iff, !Z.leb_le, !Z.ltb_lt; lia). exact (MI b i k Hb IN). }
  split; [exact (starts_inv pw lg c n t s HST HBO)|]. split; [|split; [|split; [|split; [|split]]]].
  - rewrite Forall_forall. intros x IX. rewrite Forall_forall. intros p IP. assert (PP : In p (Double.parts pw lg s)) by (unfold Double.parts; apply in_flat_map; exists x; split; assumption).
    split; [exact (ct_laden _ _ _ _ _ _ _ _ HC p (in_or_app _ _ _ (or_introl PP)))|]. intro AL. exact (ct_off_wall _ _ _ _ _ _ _ _ HC p PP AL).
  - destruct HST as (NB & _). rewrite NB. unfold M, crowd, pop, coming, Double.parts. rewrite app_length. apply Nat.le_refl.
  - split; [|exact (ct_walled _ _ _ _ _ _ _ _ HC)]. intros ((b & i) & k) FR. apply (AT b i k); [unfold field_array|..]; destruct b; cbn in FR; try contradiction; try lia; cbn; tauto.
  - apply Rle_trans with (bp 59 * bp 100); [|rewrite <- bpow_plus; right; reflexivity]. exact (start_energy pw lg c theta K HU HR HZ HS _ _ (bpow_ge_0 _ _) MI).
  - intros ((b & i) & k) ID. apply (lim_weaken _ (bp 100)); [|apply bpow_le; lia]. apply AT; [unfold field_array|..]; destruct b; cbn in ID; try contradiction; try lia; cbn; tauto.
  - intros b i k IB IN. apply inside_range in IN. apply (lim_weaken _ (bp 100)); [|apply bpow_le; lia]. apply AT; [|apply IN|apply IN]. unfold field_array. cbn [In] in *. tauto.
Qed.
Lemma reached : forall i s', (i <= n)%nat -> (0 < n)%nat -> gsim_run A c i t e s = Ok s' -> exists x, settled pw lg c x (gs_fields A s') /\ x <= bp 177 /\ Forall (in_place pw lg g) (Double.parts pw lg s').
Proof.
  intros i s' Li N1 E. assert (LI := start_inv). replace n with (i + (n - i))%nat in LI by lia.
  assert (MQ : INR M * Q <= bp 30).
  { apply Rle_trans with (2 := ct_charge _ _ _ _ _ _ _ _ HC). assert (1 <= INR n) by (change 1 with (INR 1); apply le_INR; lia). assert (QP := rg_pos _ _ _ HQ). rewrite <- (Rmult_1_l (INR M * Q)) at 1. apply Rmult_le_compat_r; [apply Rmult_le_pos; [apply pos_INR|lra]|assumption]. }
  destruct (loop_run pw lg HP HLOG c theta K Q HF HU HCR HCZ HR HZ HD HS HQ bunches_charged M a (ct_many _ _ _ _ _ _ _ _ HC) MQ (Rle_refl _) i (n - i) t e (bp 159) s s' LI (bpow_ge_0 _ _) (bound_ok i Li) E) as (j & t' & (_ & PL & _) & _ & _ & ST).
  exists (bound theta K a i (bp 159)). split; [exact ST|]. split; [exact (bound_ok i Li)|exact (places_parts pw lg c s' PL)].
Qed.
Theorem loop_calm : stays_calm pw lg c n t e s.
Proof. intros i s' Li E. destruct (reached i s') as (x & ST & X & _); [lia|lia|exact E|]. exact (settled_calm pw lg c theta K HR HZ HS x _ ST X). Qed.
Theorem loop_mild : forall i s', (i <= n)%nat -> gsim_run A c i t e s = Ok s' -> mild pw lg (bp 251) g (gs_fields A s').
Proof.
  intros i s' Li E. destruct i as [|i].
  - cbn [gsim_run] in E. injection E as <-. intros b j k Hb IN. destruct (ct_mild _ _ _ _ _ _ _ _ HC b j k Hb IN) as (F & B). split; [exact F|]. apply Rle_trans with (1 := B). apply bpow_le. lia.
  - destruct (reached (S i) s') as (x & ST & X & _); [lia|lia|exact E|]. exact (settled_mild pw lg c theta K HU HS x _ ST X).
Qed.
Theorem loop_in_place : forall i s', (i <= n)%nat -> gsim_run A c i t e s = Ok s' -> Forall (in_place pw lg g) (Double.parts pw lg s').
Proof.
  intros i s' Li E. destruct i as [|i].
  - cbn [gsim_run] in E. injection E as <-. apply HST.
  - destruct (reached (S i) s') as (x & _ & _ & H); [lia|lia|exact E|]. exact H.
Qed.
Theorem loop_safe : gsim_run A c n t e s = Exit 1 \/ exists s', gsim_run A c n t e s = Ok s'.
Proof.
  destruct (run_safe64 pw lg HP c HF (Crowd64P.border pw lg c HF HCZ) HU n t e s HST HBO loop_calm) as ([E|(s' & E & _)] & _); [now left|right; now exists s'].
Qed.
End Whole.
