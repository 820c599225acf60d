(** All the particles of a step in binary64 (C79): each moves by a small part of a cell, and together they make bounded currents. *)
From Coq Require Import ZArith Reals Lra Lia Psatz Bool List.
From Flocq Require Import Core IEEE754.BinarySingleNaN.
From Verif.Lib Require Import RAux Outcome Par.
From Verif.Model Require Sim.
From Verif.Model Require Import Binary64 Temperature64 Arith Geometry CurrentDeposit Fields Pusher GenCode GenRun GenSim.
From Verif.Spec Require Import Double Deposit64 Short.
From Verif.Proof Require SimP SimP2 BunchP GenSimP GenSimP2 ShortAll64P ClearAxisP.
From Verif.Proof Require Import Binary64P FloatP Axis64P Motion64R Motion64P Cells64P Push64P Err64P Limit64P Field64P Run64P Glide64P Sum64P.
Import ListNotations.
Local Open Scope R_scope.

Section Crowd.
Variables pw lg : b64 -> b64.
Notation A := (b64_arith pw lg).
Hypothesis HP : good_pow pw.
Hypothesis HLOG : accurate_log lg.
Variable c : config A.
Notation g := (c_geom A c).
Notation dt := (c_dt A c).
Hypothesis HF : fine pw lg g dt.
Hypothesis HU : c_pusher A c = BorisRelativistic \/ c_pusher A c = BorisAdaptive true.
Hypothesis HCR : clear_axis pw lg (gn_r A g) (gdr A g).
Hypothesis HCZ : clear_axis pw lg (gn_z A g) (gdz A g).
Notation dr := (dr pw lg g).
Notation dz := (dz pw lg g).
Hypothesis HR : 300000000 * B2R dt <= B2R dr / 40.
Hypothesis HZ : 300000000 * B2R dt <= B2R dz / 40.
Hypothesis HD : B2R dr <= 1.
Hypothesis HT : bp (-80) <= B2R dt.
Variable Q : R.
Hypothesis HQ : rg Q (-200) 200.
Notation slim := (slim pw lg g).
Notation ok := (ok pw lg c).
Notation mid := (mid pw lg c).
Notation moved := (moved pw lg c).
Notation J := (jmax dt Q).

Lemma border : border_clear pw lg g.
Proof. unfold border_clear. destruct (HCZ (gn_z A g - 2)%Z) as (_ & H); [destruct HF; lia|]. exact H. Qed.

(** ** One particle *)
Definition charged (p : gparticle A) : Prop := fin (gcharge A p : b64) /\ bp (-200) <= Rabs (B2R (gcharge A p : b64)) <= Q.
Definition slimq (p : gparticle A) : Prop := charged p /\ (galive A p = true -> slim (g0 A (gpos A (gph A p)))).
Definition midq (p : gparticle A) : Prop := charged p /\ (galive A p = true -> let f := gph A p in
  Rabs (B2R (g0 A (gpos A f) : b64) - B2R (gr_old A f : b64)) <= 1267 / 100000 * B2R dr /\ Rabs (B2R (g2 A (gpos A f) : b64) - B2R (gz_old A f : b64)) <= B2R dz / 79 /\ slim (gr_old A f)).
Definition movedq (p : gparticle A) : Prop := charged p /\ (galive A p = true -> let f := gph A p in
  Rabs (B2R (g0 A (gpos A f) : b64) - B2R (gr_old A f : b64)) <= B2R dr / 32 /\ Rabs (B2R (g2 A (gpos A f) : b64) - B2R (gz_old A f : b64)) <= B2R dz / 32 /\ slim (g0 A (gpos A f))).

Lemma step_v_glide : forall m p p', calm pw lg g m -> ok p -> slimq p -> gstep_v_one A (c_pusher A c) g dt m p = Ok p' -> midq p'.
Proof.
  intros m p p' CM OK (CH & SL) E. unfold gstep_v_one in E. destruct (galive A p) eqn:AL.
  2: { injection E as <-. split; [exact CH|]. intro X. congruence. }
  destruct (OK AL) as (R & Z & F1 & Y0 & V0 & V1 & V2 & SN). assert (HM := fits_home pw lg c _ _ R Z).
  cbv zeta in E. change (finite A) with (@is_finite prec64 emax64) in E. destruct R as (FR & R). destruct Z as (FZ & Z). cbn [num b64_arith] in *. rewrite FR, FZ in E. cbn [andb] in E. revert E.
  assert (PU : gpush A (c_pusher A c) dt (gcharge A p) (gmass A p) (gget_efield A g m (g0 A (gpos A (gph A p))) (g2 A (gpos A (gph A p))))
                 (gget_hfield A g m (g0 A (gpos A (gph A p))) (g2 A (gpos A (gph A p)))) (gvel A (gph A p)) =
               gboris_push A true dt (gcharge A p) (gmass A p) (gget_efield A g m (g0 A (gpos A (gph A p))) (g2 A (gpos A (gph A p))))
                 (gget_hfield A g m (g0 A (gpos A (gph A p))) (g2 A (gpos A (gph A p)))) (gvel A (gph A p))).
  { destruct HU as [-> | ->]; [reflexivity|]. unfold gpush. cbv zeta. destruct (ltb A _ _); reflexivity. }
  rewrite PU. clear PU. destruct (felt pw lg g dt HF m _ _ HM CM) as (E & H). destruct (dt_small pw lg c HF) as (FD & DD).
  destruct (boris_ok pw lg HP dt (gcharge A p) (gmass A p) _ _ (gvel A (gph A p)) SN FD DD E H (conj V0 (conj V1 V2))) as [-> | (v' & -> & LV)]; [intro X; discriminate X|]. cbn [bind].
  destruct (first_half64 pw lg g dt HF (gph A p) v' HM F1 Y0 LV) as (f' & E' & O1 & _). destruct (glide_first64 pw lg g dt HF HR HZ (gph A p) f' v' HM F1 Y0 LV E') as (G1 & G2).
  rewrite E'. cbn [bind]. intro X. injection X as <-. split; [exact CH|]. intros _. cbn [gwith_phase gph]. cbv zeta. split; [exact G1|]. split; [exact G2|]. rewrite O1. exact (SL eq_refl).
Qed.

Lemma half_glide : forall b p p', mid p -> midq p -> ghalf_reflect A g dt b p = Ok p' -> movedq p'.
Proof.
  intros b p p' M (CH & G) E. unfold ghalf_reflect in E. destruct (galive A p) eqn:AL.
  2: { injection E as <-. split; [exact CH|]. intro X. congruence. }
  destruct (M AL) as (MW & Y0 & LV & SN). destruct (G eq_refl) as (G1 & G2 & G3). clear G.
  destruct (ghalf_step_pos A dt (gph A p)) as [f1| |] eqn:E1; try discriminate E. cbn [bind] in E.
  assert (K : forall f' a, returned pw lg g f1 f' -> movedq (GParticle A a (gcharge A p) (gmass A p) f')).
  { intros f' a RT. split; [exact CH|]. intros _. cbn [gph]. cbv zeta. destruct (second_half64 pw lg g dt HF (gph A p) f1 f' MW Y0 LV E1 RT) as (_ & _ & -> & -> & _).
    exact (glide_second64 pw lg g dt HF HR HZ (gph A p) f1 f' MW Y0 LV G1 G2 G3 E1 RT). }
  destruct b.
  - assert (BR := bunch_returned pw lg g f1). destruct (gbunch_reflection A g f1) as (a & f). cbn [fst snd] in BR. injection E as <-.
    destruct a; [apply K; now apply BR|]. split; [exact CH|]. intro X. discriminate X.
  - injection E as <-. unfold gwith_phase. apply K. apply reflection_returned.
Qed.
Lemma back_glide : forall p, movedq p -> slimq (gvelocity_back A p).
Proof.
  intros p (CH & G). unfold gvelocity_back. destruct (galive A p) eqn:AL; [|split; [exact CH|intro X; congruence]].
  split; [exact CH|]. intros _. cbn [gwith_phase gph gback_velocity_to_rz gpos]. exact (proj2 (proj2 (G eq_refl))).
Qed.

Lemma J_rg : rg J (-400) 400.
Proof. exact (rg_weaken _ _ _ (-400) 400 (jmax_rg pw lg g dt HF Q HQ HR HT) ltac:(lia) ltac:(lia)). Qed.
Lemma azimuthal_fills : forall p f f', mid p /\ midq p -> gazimuthal_one A g p f = Ok f' -> fills pw lg g J 4 f f'.
Proof.
  intros p f f' (M & (FQ & BQ) & _) E. unfold gazimuthal_one in E. destruct (galive A p) eqn:AL; [|injection E as <-; apply (fills_mono pw lg g J J_rg 0 4); [lia|apply fills_nil]].
  destruct (M AL) as (MW & _ & LV & _). refine (ofold_fills pw lg g J J_rg _ _ _ (azimuthal_jmax pw lg g dt HF Q HQ HR HT _ _ _ _ _ _ MW (conj FQ (proj2 BQ)) _) E).
  split; [apply LV|apply (limited_comp pw lg _ LV)].
Qed.
Lemma current_fills : forall p f f', moved p /\ movedq p -> gcurrent_one A g dt p f = Ok f' -> fills pw lg g J 12 f f'.
Proof.
  intros p f f' (M & (FQ & BQ) & G) E. unfold gcurrent_one in E. destruct (galive A p) eqn:AL; [|injection E as <-; apply (fills_mono pw lg g J J_rg 0 12); [lia|apply fills_nil]].
  destruct (M AL) as (HO & HM & _). destruct (G eq_refl) as (G1 & G2 & _). destruct (home_fits pw lg c _ _ HO) as (RO & ZO). destruct (home_fits pw lg c _ _ HM) as (RN & ZN).
  assert (SM : short_move pw lg g dt (gcharge A p) (g0 A (gpos A (gph A p))) (g2 A (gpos A (gph A p))) (gr_old A (gph A p)) (gz_old A (gph A p))).
  { split; try assumption.
    - apply Rle_trans with (2 := HT). apply bpow_le. lia.
    - split; [exact FQ|]. split; [apply BQ|]. apply Rle_trans with (1 := proj2 BQ). apply HQ. }
  assert (MO := ShortAll64P.short_modest pw lg g dt _ _ _ _ _ HLOG HF SM (ClearAxisP.clear_well_placed pw lg g dt _ _ _ _ _ HF HCR HCZ SM)).
  assert (FI := ofold_fills pw lg g J J_rg _ _ _ (modest_jmax pw lg g dt HF Q HQ HT _ _ (proj2 BQ) MO) E). exact (fills_mono pw lg g J J_rg _ 12 _ _ (current_count _ _ _ _ _ _ _ _) FI).
Qed.

(** ** Groups *)
Definition pop (gs : list (bool * list (gparticle A))) : nat := length (flat_map snd gs).
Notation all P gs := (Forall (fun x => Forall P (snd x)) gs).
Lemma traverse_part : forall {X Y : Type} (f : X -> outcome Y) (P : X -> Prop) (R : Y -> Prop), (forall x y, P x -> f x = Ok y -> R y) ->
  forall l l', Forall P l -> Sim.traverse f l = Ok l' -> Forall R l' /\ length l' = length l.
Proof.
  intros X Y f P R H l l' F E. split; [|exact (GenSimP.traverse_length _ _ _ E)]. assert (T := SimP2.traverse_inv _ _ _ E). clear E. revert F.
  induction T as [|x y l l' E _ IH]; intro F; [constructor|]. inversion F; subst. constructor; [exact (H x y ltac:(assumption) E)|now apply IH].
Qed.
Lemma safe_part : forall {X : Type} (o : outcome X) P x, safe o P -> o = Ok x -> P x.
Proof. intros X o P x [E|(y & E & H)] K; congruence. Qed.

Lemma step_v_groups : forall m gs gs', calm pw lg g m -> all (fun p => ok p /\ slimq p) gs -> Sim.traverse (gstep_v_group A c m) gs = Ok gs' ->
  all (fun p => mid p /\ midq p) gs' /\ pop gs' = pop gs.
Proof.
  intros m gs gs' CM F E. assert (T := SimP2.traverse_inv _ _ _ E). clear E. revert F. induction T as [|x y gs gs' E _ IH]; intro F; [split; [constructor|reflexivity]|].
  inversion F as [|? ? F1 F2]; subst. destruct (IH F2) as (I1 & I2). unfold gstep_v_group in E. destruct (Sim.traverse _ (snd x)) as [ps| |] eqn:E1; try discriminate E. injection E as <-.
  destruct (traverse_part _ (fun p => ok p /\ slimq p) (fun p => mid p /\ midq p) (fun p p' H K => conj (proj1 (safe_part _ _ _ (step_v_safe pw lg HP c HF HU m p CM (proj1 H)) K)) (step_v_glide m p p' CM (proj1 H) (proj2 H) K)) _ _ F1 E1) as (O1 & O2).
  split; [constructor; [exact O1|exact I1]|]. unfold pop in *. cbn [flat_map snd]. rewrite !app_length. congruence.
Qed.
Lemma full_group : forall x f y, Forall (fun p => mid p /\ midq p) (snd x) -> gfull_current_group A c x f = Ok y ->
  fills pw lg g J (16 * length (snd x)) f (fst y) /\ Forall slimq (snd (snd y)) /\ length (snd (snd y)) = length (snd x).
Proof.
  intros x f y F E. unfold gfull_current_group in E. cbv zeta in E. destruct (ofold _ _ f) as [f1| |] eqn:E1; try discriminate E. cbn [bind] in E.
  destruct (Sim.traverse _ _) as [ps| |] eqn:E2; try discriminate E. cbn [bind] in E. destruct (ofold _ ps f1) as [f2| |] eqn:E3; try discriminate E. injection E as <-. cbn [fst snd].
  assert (FI1 := particles_fill pw lg g J _ 4 _ azimuthal_fills _ _ _ F E1).
  destruct (traverse_part _ (fun p => mid p /\ midq p) (fun p => moved p /\ movedq p) (fun p p' H K => conj (proj1 (safe_part _ _ _ (half_reflect_safe pw lg c HF (fst x) p (proj1 H)) K)) (half_glide (fst x) p p' (proj1 H) (proj2 H) K)) _ _ F E2) as (O1 & O2).
  assert (FI2 := particles_fill pw lg g J _ 12 _ current_fills _ _ _ O1 E3). rewrite O2 in FI2. split; [|split].
  - replace (16 * length (snd x))%nat with (4 * length (snd x) + 12 * length (snd x))%nat by lia. exact (fills_app pw lg g J _ _ _ _ _ FI1 FI2).
  - rewrite Forall_map. refine (Forall_impl _ _ O1). intros p (_ & MQ). now apply back_glide.
  - rewrite map_length. exact O2.
Qed.
Lemma full_groups : forall gs f r, all (fun p => mid p /\ midq p) gs -> gfull_current A c gs f = Ok r ->
  fills pw lg g J (16 * pop gs) f (fst r) /\ all slimq (snd r) /\ pop (snd r) = pop gs.
Proof.
  intros gs f r F. revert f r. induction F as [|x gs F1 _ IH]; intros f r E.
  - cbn [gfull_current] in E. injection E as <-. cbn [fst snd]. split; [apply fills_nil|]. split; [constructor|reflexivity].
  - cbn [gfull_current] in E. destruct (gfull_current_group A c x f) as [y| |] eqn:E1; try discriminate E. cbn [bind] in E. destruct (gfull_current A c gs (fst y)) as [r'| |] eqn:E2; try discriminate E. injection E as <-. cbn [fst snd].
    destruct (full_group x f y F1 E1) as (A1 & A2 & A3). destruct (IH (fst y) r' E2) as (B1 & B2 & B3). unfold pop in *. cbn [flat_map]. rewrite !app_length. split; [|split].
    + rewrite Nat.mul_add_distr_l. exact (fills_app pw lg g J _ _ _ _ _ A1 B1).
    + constructor; assumption.
    + exact (f_equal2 Nat.add A3 B3).
Qed.

(** ** Injection *)
Section Beam.
Hypothesis HBUN : forall k, (0 <= k < c_bunches A c)%Z -> Forall charged (c_bunch A c k).
Definition coming (nb : Z) : nat := length (flat_map (c_bunch A c) (zrange nb (c_bunches A c))).

Lemma deep_slim : forall p, deep pw lg g p -> slim (g0 A (gpos A (gph A p))).
Proof.
  intros p (_ & D). unfold Glide64P.slim. assert (L := len_pos _ _ _ (axr pw lg g dt HF)). cbv zeta in D. unfold wr, wall, top, len in *. change (gdr A g) with dr in D. cbn [num b64_arith] in *. lra.
Qed.
Lemma fold_len : forall {X Y : Type} (F : list X -> Y -> list X), (forall ps i, length (F ps i) = length ps) -> forall l ps, length (fold_left F l ps) = length ps.
Proof. intros X Y F H l. induction l as [|j l IH]; intro ps; [reflexivity|]. cbn [fold_left]. rewrite IH. apply H. Qed.
Lemma inject_slim : forall n t k ps ps', beam_ok pw lg c (S n) t -> (0 <= k < c_bunches A c)%Z -> Forall slimq ps -> still pw lg c (fun _ => True) (S n) t k ps -> ginject A c t k ps = Ok ps' ->
  Forall slimq ps' /\ length ps' = length ps.
Proof.
  intros n t k ps ps' BO KB SL ST E. split.
  - destruct (inject_safe pw lg c HF (S n) t BO t k ps) as [X|(qs & E' & H)]; [congruence|]. rewrite E in E'. injection E' as <-.
    rewrite Forall_forall in *. intros y IN. destruct (In_nth_error _ _ IN) as (i & N). destruct (H i y N) as (p & NP & [-> |(Jn & z & v & _ & _ & ->)]).
    + apply SL. now apply nth_error_In in NP.
    + destruct (SL p (nth_error_In _ _ NP)) as (CH & SP). split; [exact CH|]. intros _. cbn [ginject_one gph gpos g0].
      destruct (ST i p NP) as [(_ & W)|(AL & _)]; [exists 0%nat; split; [lia|exact Jn]| |exact (SP AL)].
      assert (DP := bo_deep pw lg c (S n) t BO k KB). rewrite Forall_forall in DP. exact (deep_slim p (DP p W)).
  - clear SL ST. unfold ginject in E. cbv zeta in E. destruct (_ =? 0)%Z; [discriminate E|]. destruct (_ && _); injection E as <-; [|reflexivity].
    apply fold_len. intros qs j. destruct (_ && _); [|reflexivity]. destruct (c_rand A c); [apply GenSimP2.update_nth_len|reflexivity].
Qed.
Lemma inject_groups_slim : forall n t gs gs' k, ((0 < c_bunches A c)%Z -> beam_ok pw lg c (S n) t) -> all slimq gs -> stills pw lg c (fun _ => True) (S n) t k gs -> ginject_groups A c t k gs = Ok gs' ->
  all slimq gs' /\ pop gs' = pop gs.
Proof.
  intros n t gs. induction gs as [|(b & ps) gs IH]; intros gs' k BO SL ST E; [injection E as <-; split; [constructor|reflexivity]|].
  inversion SL as [|? ? P1 P2]; subst. cbn [snd] in P1. destruct b; cbn [ginject_groups stills] in *.
  - destruct ST as (KB & S1 & S2). destruct (ginject A c t k ps) as [ps'| |] eqn:EI; try discriminate E. cbn [bind] in E.
    destruct (ginject_groups A c t (k + 1) gs) as [rs| |] eqn:EG; try discriminate E. injection E as <-.
    destruct (inject_slim n t k ps ps' (BO ltac:(lia)) KB P1 S1 EI) as (O1 & O2). destruct (IH rs (k + 1)%Z BO P2 S2 EG) as (O3 & O4). split; [constructor; assumption|].
    unfold pop in *. cbn [flat_map snd]. rewrite !app_length. congruence.
  - destruct (ginject_groups A c t k gs) as [rs| |] eqn:EG; try discriminate E. injection E as <-. destruct (IH rs k BO P2 ST EG) as (O3 & O4). split; [constructor; assumption|].
    unfold pop in *. cbn [flat_map snd]. rewrite !app_length. congruence.
Qed.
Lemma beam_slim : forall n t s s', inv pw lg c (fun _ => True) (S n) t s -> all slimq (gs_groups A s) -> gbeam A c t s = Ok s' ->
  all slimq (gs_groups A s') /\ (pop (gs_groups A s') + coming (gs_bunches A s') = pop (gs_groups A s) + coming (gs_bunches A s))%nat.
Proof.
  intros n t s s' (NB & PL & ST & BO) SL E. unfold gbeam in E. cbv zeta in E. destruct (erase_reached A c t (gs_bunches A s)); [discriminate E|].
  assert (NN := count_nonneg pw lg (gs_groups A s)).
  assert (CR : creates A c t (gs_bunches A s) = true -> (gs_bunches A s < c_bunches A c)%Z) by (unfold creates; rewrite andb_true_iff; intros (_ & K); now apply Z.ltb_lt).
  destruct (ginject_groups A c t 0 _) as [gs'| |] eqn:EG; try discriminate E. injection E as <-. cbn [gs_groups gs_bunches].
  destruct (creates A c t (gs_bunches A s)).
  - specialize (CR eq_refl). assert (W := bo_waiting pw lg c (S n) t (BO ltac:(lia)) (gs_bunches A s) ltac:(lia)). assert (CH := HBUN (gs_bunches A s) ltac:(lia)).
    assert (S1 : all slimq (gs_groups A s ++ [(true, c_bunch A c (gs_bunches A s))])).
    { apply Forall_app. split; [exact SL|]. constructor; [|constructor]. cbn [snd]. rewrite Forall_forall in *. intros p IP. split; [now apply CH|]. intro AL. destruct (W p IP) as (DE & _). congruence. }
    assert (S2 : stills pw lg c (fun _ => True) (S n) t 0 (gs_groups A s ++ [(true, c_bunch A c (gs_bunches A s))])) by (apply stills_app; try assumption; try lia; f_equal; lia).
    destruct (inject_groups_slim n t _ gs' 0%Z BO S1 S2 EG) as (O1 & O2).
    split; [exact O1|]. rewrite O2. unfold pop, coming. rewrite flat_map_app, app_length. cbn [flat_map snd]. rewrite app_nil_r. rewrite (BunchP.zrange_cons (gs_bunches A s)) by lia. cbn [flat_map]. rewrite app_length. lia.
  - destruct (inject_groups_slim n t _ gs' 0%Z BO SL ST EG) as (O1 & O2). split; [exact O1|]. now rewrite O2.
Qed.
End Beam.
End Crowd.
