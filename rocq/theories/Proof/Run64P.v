(** Whole runs in binary64. *)
From Coq Require Import ZArith Reals Lra Lia Psatz Bool List.
From Flocq Require Import Core IEEE754.BinarySingleNaN.
From Verif.Lib Require Import RAux Outcome Par.
From Verif.Model Require Sim.
From Verif.Model Require Import Binary64 Temperature64 Arith Geometry Fields Pusher GenCode GenRun GenSim.
From Verif.Spec Require Import Double.
From Verif.Proof Require SimP Clock64P.
From Verif.Proof Require Import Binary64P FloatP Axis64P Motion64R Motion64P Cells64P Push64P Field64P GenIndexP.
Import ListNotations.
Local Open Scope R_scope.

(** Normal return with [P], or exit(1). *)
Definition safe {X : Type} (o : outcome X) (P : X -> Prop) : Prop := o = Exit 1 \/ exists x, o = Ok x /\ P x.

Lemma safe_bind : forall {X Y : Type} (o : outcome X) (f : X -> outcome Y) P Q, safe o P -> (forall x, P x -> safe (f x) Q) -> safe (bind o f) Q.
Proof. intros X Y o f P Q [->|(x & -> & H)] K; [now left|]. cbn [bind]. now apply K. Qed.

Lemma safe_weaken : forall {X : Type} (o : outcome X) (P Q : X -> Prop), safe o P -> (forall x, P x -> Q x) -> safe o Q.
Proof. intros X o P Q [->|(x & -> & H)] K; [now left|right; eauto]. Qed.

Lemma safe_ok : forall {X : Type} (x : X) (P : X -> Prop), P x -> safe (Ok x) P.
Proof. intros X x P H. right. eauto. Qed.

Lemma traverse_safe : forall {X Y : Type} (f : X -> outcome Y) (P : X -> Prop) (Q : X -> Y -> Prop),
  (forall x, P x -> safe (f x) (Q x)) -> forall l, Forall P l -> safe (Sim.traverse f l) (Forall2 Q l).
Proof.
  intros X Y f P Q H l F. induction F as [|x l Hx _ IH]; [apply safe_ok; constructor|]. cbn [Sim.traverse].
  apply safe_bind with (1 := H x Hx). intros y Hy. apply safe_bind with (1 := IH). intros ys Hys. apply safe_ok. now constructor.
Qed.

Lemma ofold_safe : forall {X S : Type} (f : X -> S -> outcome S) (P : X -> Prop), (forall x s, P x -> safe (f x s) (fun _ => True)) ->
  forall l s, Forall P l -> safe (ofold f l s) (fun _ => True).
Proof.
  intros X S f P H l s F. revert s. induction F as [|x l Hx _ IH]; intro s; [now apply safe_ok|]. cbn [ofold].
  apply safe_bind with (1 := H x s Hx). intros s' _. apply IH.
Qed.

Section Run.
Variables pw lg : b64 -> b64.
Notation A := (b64_arith pw lg).
Hypothesis HP : good_pow pw.
Variable c : config A.
Notation g := (c_geom A c).
Notation dt := (c_dt A c).
Hypothesis HF : fine pw lg g dt.
Hypothesis HB : border_clear pw lg g.
Hypothesis HU : c_pusher A c = BorisRelativistic \/ c_pusher A c = BorisAdaptive true.
Notation dr := (dr pw lg g).
Notation dz := (dz pw lg g).
Notation home := (home pw lg g).

(** ** One particle *)

Lemma fits_home : forall r z, radius_fits pw lg g r -> z_fits pw lg g z -> home r z.
Proof. intros r z (FR & R) (FZ & Z). split; [exact FR|]. split; [exact R|]. split; [exact FZ|exact Z]. Qed.
Lemma home_fits : forall r z, home r z -> radius_fits pw lg g r /\ z_fits pw lg g z.
Proof. intros r z (FR & R & FZ & Z). repeat split; try assumption; try apply R; try apply Z. Qed.

Definition ok := in_place pw lg g.
Definition mid (p : gparticle A) : Prop :=
  galive A p = true -> let f := gph A p in
  midway pw lg g (gr_old A f) (gz_old A f) (g0 A (gpos A f)) (g2 A (gpos A f)) /\ g1 A (gpos A f) = b64_of_Z 0 /\
  limited pw lg (gvel A f) /\ sane (gcharge A p) (gmass A p).
Definition moved (p : gparticle A) : Prop :=
  galive A p = true -> let f := gph A p in
  home (gr_old A f) (gz_old A f) /\ home (g0 A (gpos A f)) (g2 A (gpos A f)) /\ g1 A (gpos A f) = b64_of_Z 0 /\
  Rabs (B2R (g0 A (gpos A f) : b64) - B2R (gr_old A f : b64)) <= 97 / 100 * B2R dr /\
  Rabs (B2R (g2 A (gpos A f) : b64) - B2R (gz_old A f : b64)) <= 83 / 100 * B2R dz /\
  fin (gsin A f : b64) /\ Rabs (B2R (gsin A f : b64)) <= 85 / 100 /\ mgv pw lg (gvel A f) 29 /\ sane (gcharge A p) (gmass A p).

(** A particle that will not leave within this step *)
Definition roomy (p : gparticle A) : Prop :=
  B2R (g0 A (gpos A (gph A p)) : b64) <= wr pw lg g - B2R dr /\ B2R (g2 A (gpos A (gph A p)) : b64) <= wz pw lg g - 9 / 10 * B2R dz.
Definition roomy_old (p : gparticle A) : Prop :=
  B2R (gr_old A (gph A p) : b64) <= wr pw lg g - B2R dr /\ B2R (gz_old A (gph A p) : b64) <= wz pw lg g - 9 / 10 * B2R dz.

(** The dead stay as they are; who has room ([P]) lives on ([Q]). *)
Definition kept_as (P Q : gparticle A -> Prop) (p p' : gparticle A) : Prop :=
  (galive A p = false -> p' = p) /\ (galive A p = true -> P p -> galive A p' = true /\ Q p').

Lemma dt_small : fin dt /\ 0 < B2R dt <= bp (-18).
Proof.
  destruct HF. destruct fine_dt as (F & P). split; [exact F|]. split; [exact P|]. destruct fine_dr as (_ & U). change (bp 10) with 1024 in U.
  replace (bp (-18)) with (/ 262144) by (cbn; lra). cbn [num b64_arith] in *. lra.
Qed.

Lemma step_v_safe : forall m p, calm pw lg g m -> ok p -> safe (gstep_v_one A (c_pusher A c) g dt m p) (fun p' => mid p' /\ kept_as roomy roomy_old p p').
Proof.
  intros m p CM OK. unfold gstep_v_one. destruct (galive A p) eqn:AL.
  2: { apply safe_ok. split; [intro X; congruence|split; [intros _; reflexivity|intro X; congruence]]. }
  destruct (OK AL) as (R & Z & F1 & Y0 & V0 & V1 & V2 & SN). assert (HM := fits_home _ _ R Z).
  cbv zeta. change (finite A) with (@is_finite prec64 emax64). destruct R as (FR & R). destruct Z as (FZ & Z). cbn [num b64_arith] in *. rewrite FR, FZ. cbn [andb].
  assert (PU : gpush A (c_pusher A c) dt (gcharge A p) (gmass A p) (gget_efield A g m (g0 A (gpos A (gph A p))) (g2 A (gpos A (gph A p))))
                 (gget_hfield A g m (g0 A (gpos A (gph A p))) (g2 A (gpos A (gph A p)))) (gvel A (gph A p)) =
               gboris_push A true dt (gcharge A p) (gmass A p) (gget_efield A g m (g0 A (gpos A (gph A p))) (g2 A (gpos A (gph A p))))
                 (gget_hfield A g m (g0 A (gpos A (gph A p))) (g2 A (gpos A (gph A p)))) (gvel A (gph A p))).
  { destruct HU as [-> | ->]; [reflexivity|]. unfold gpush. cbv zeta. destruct (ltb A _ _); reflexivity. }
  rewrite PU. clear PU. destruct (felt pw lg g dt HF m _ _ HM CM) as (E & H). destruct dt_small as (FD & DD).
  destruct (boris_ok pw lg HP dt (gcharge A p) (gmass A p) _ _ (gvel A (gph A p)) SN FD DD E H (conj V0 (conj V1 V2))) as [-> | (v' & -> & LV)]; [now left|]. cbn [bind].
  destruct (first_half64 pw lg g dt HF (gph A p) v' HM F1 Y0 LV) as (f' & -> & O1 & O2 & O3 & O4 & O5). cbn [bind]. apply safe_ok.
  split; [|split; [intro X; congruence|]; intros _ RM; split; [exact AL|]; unfold roomy_old; cbn [gwith_phase gph]; rewrite O1, O2; exact RM].
  intros _. cbn [gwith_phase gph gcharge gmass]. cbv zeta. rewrite O3. split; [exact O5|]. split; [exact O4|]. split; [exact LV|exact SN].
Qed.

Lemma limited_mg : forall v, limited pw lg v -> mgv pw lg v 29.
Proof.
  intros v L. destruct (limited_comp pw lg v L) as (V0 & V1 & V2). destruct L as (F0 & F1 & F2 & _).
  assert (K : 300000001 <= bp 29) by (change (bp 29) with 536870912; lra).
  split; [|split]; (split; [assumption|eapply Rle_trans; [eassumption|exact K]]).
Qed.

Lemma half_reflect_safe : forall b p, mid p -> safe (ghalf_reflect A g dt b p) (fun p' => moved p' /\ kept_as (fun x => roomy_old x) (fun _ => True) p p').
Proof.
  intros b p M. unfold ghalf_reflect. destruct (galive A p) eqn:AL.
  2: { apply safe_ok. split; [intro X; congruence|split; [intros _; reflexivity|intro X; congruence]]. }
  destruct (M AL) as (MW & Y0 & LV & SN). assert (MW' := MW). destruct MW' as (HO & FR & _ & _ & FZ & _).
  assert (E : exists f1, ghalf_step_pos A dt (gph A p) = Ok f1 /\ gvel A f1 = gvel A (gph A p)).
  { unfold ghalf_step_pos. cbv zeta. change (finite A) with (@is_finite prec64 emax64). cbn [num b64_arith] in *. rewrite FR, FZ. cbn [andb]. eexists. split; reflexivity. }
  destruct E as (f1 & E & EV). rewrite E. cbn [bind].
  assert (K : forall f' a, returned pw lg g f1 f' -> moved (GParticle A a (gcharge A p) (gmass A p) f')).
  { intros f' a RT. destruct (second_half64 pw lg g dt HF (gph A p) f1 f' MW Y0 LV E RT) as (H1 & H2 & H3 & H4 & H5 & H6 & H7 & H8).
    intros _. cbn [gph gcharge gmass]. cbv zeta. rewrite H3, H4. destruct (limited_mg _ LV) as (M0 & M1 & M2).
    split; [exact HO|]. split; [exact H1|]. split; [exact H2|]. split; [exact H5|]. split; [exact H6|]. split; [exact H7|]. split; [exact H8|]. split; [|exact SN].
    destruct RT as (_ & _ & _ & _ & _ & _ & W0 & W1 & W2). rewrite EV in W0, W1, W2.
    split; [destruct W0 as [-> |[-> | ->]]; [exact M0|now apply mg_opp|now apply mg_opp, mg_opp]|]. split; [rewrite W1; exact M1|].
    destruct W2 as [-> |[-> | ->]]; [exact M2|now apply mg_opp|now apply mg_opp, mg_opp]. }
  destruct b.
  - assert (SA := second_alive pw lg g dt HF (gph A p) f1 MW Y0 LV E).
    destruct (gbunch_reflection A g f1) as (a & f) eqn:BR. apply safe_ok. split; [|split; [intro X; congruence|intros _ (R1 & R2); split; [exact (SA R1 R2)|exact I]]].
    destruct a; [|intro X; discriminate X]. assert (RT := bunch_returned pw lg g f1). rewrite BR in RT. apply K. now apply RT.
  - apply safe_ok. split; [|split; [intro X; congruence|intros _ _; split; [exact AL|exact I]]]. unfold gwith_phase. apply K. apply reflection_returned.
Qed.

Lemma velocity_back_ok : forall p, moved p -> ok (gvelocity_back A p) /\ (galive A p = false -> gvelocity_back A p = p) /\ galive A (gvelocity_back A p) = galive A p.
Proof.
  intros p M. unfold gvelocity_back. destruct (galive A p) eqn:AL; [|split; [intro X; congruence|split; [intros _; reflexivity|exact AL]]].
  split; [|split; [intro X; congruence|exact AL]]. destruct (M AL) as (_ & HM & Y0 & _ & _ & FS & SB & (M0 & M1 & M2) & SN).
  destruct (home_fits _ _ HM) as (RF & ZF). intros _. cbn [gwith_phase gph gcharge gmass gback_velocity_to_rz gpos gvel g0 g1 g2]. cbv zeta. cbn [g0 g1 g2].
  split; [exact RF|]. split; [exact ZF|]. rewrite Y0. destruct zero_ok as (F0 & E0). split; [exact F0|]. split; [exact E0|].
  change (add A) with b64_add. change (sub A) with b64_sub. change (mul A) with b64_mul. change (root A) with b64_sqrt. change (of_int A) with b64_of_Z.
  set (s := gsin A (gph A p) : b64) in *. cbn [num b64_arith] in *.
  assert (MS : mg s 0) by (split; [exact FS|change (bp 0) with 1; lra]).
  assert (MC : mg (b64_sqrt (b64_sub (b64_of_Z 1) (b64_mul s s))) 0).
  { destruct (of_Z_exact 1 eq_refl) as (FO & EO).
    assert (SS : 0 <= B2R s * B2R s <= 73 / 100).
    { assert (Q := Rle_0_sqr (B2R s)). unfold Rsqr in Q. apply Rabs_le_inv in SB. split; [exact Q|]. nra. }
    destruct (mul_ok s s FS FS) as (FM & EM); [rewrite Rabs_pos_eq by lra; apply Rle_trans with (bp 0); [change (bp 0) with 1; lra|apply bpow_le; lia]|].
    assert (S2 : 0 <= B2R (b64_mul s s) <= 1).
    { rewrite EM. split; [apply rnd_nonneg; lra|]. rewrite <- (rnd_exact_Z 1) by reflexivity. apply rnd_mono. lra. }
    destruct (sub_ok (b64_of_Z 1) (b64_mul s s) FO FM) as (FD & ED).
    { rewrite EO, Rabs_pos_eq by lra. apply Rle_trans with (bp 0); [change (bp 0) with 1; lra|apply bpow_le; lia]. }
    rewrite EO in ED. assert (DB : 0 <= B2R (b64_sub (b64_of_Z 1) (b64_mul s s)) <= 1).
    { rewrite ED. split; [apply rnd_nonneg; lra|]. rewrite <- (rnd_exact_Z 1) at 2 by reflexivity. apply rnd_mono. lra. }
    destruct (sqrt_ok _ FD (proj1 DB)) as (FQ & EQ). split; [exact FQ|]. rewrite EQ. apply rnd_abs_le; [lia|].
    rewrite Rabs_pos_eq by apply sqrt_pos. change (bp 0) with 1. rewrite <- sqrt_1. apply sqrt_le_1_alt. lra. }
  split; [apply (mg_sub2 _ _ 29 29); [apply (mg_mul2 _ _ 0 29); try assumption; lia|apply (mg_mul2 _ _ 0 29); try assumption; lia|lia..]|].
  split; [apply (mg_add2 _ _ 29 29); [apply (mg_mul2 _ _ 0 29); try assumption; lia|apply (mg_mul2 _ _ 0 29); try assumption; lia|lia..]|].
  split; [apply (mg_weaken _ _ _ M2); lia|exact SN].
Qed.

Lemma azimuthal_safe : forall p f, mid p -> safe (gazimuthal_one A g p f) (fun _ => True).
Proof.
  intros p f M. unfold gazimuthal_one. destruct (galive A p) eqn:AL; [|now apply safe_ok]. destruct (M AL) as (MW & _).
  destruct (gadd_j_ok A g _ f (midway_azimuthal pw lg g dt HF _ _ _ _ (gcharge A p) (g1 A (gvel A (gph A p))) MW)) as (f' & ->). now apply safe_ok.
Qed.
Lemma current_safe : forall p f, moved p -> safe (gcurrent_one A g dt p f) (fun _ => True).
Proof.
  intros p f M. unfold gcurrent_one. destruct (galive A p) eqn:AL; [|now apply safe_ok]. destruct (M AL) as (HO & HM & _ & NR & NZ & _).
  destruct (gadd_j_ok A g _ f (home_current pw lg g dt HF (gcharge A p) _ _ _ _ HB HO HM NR NZ)) as (f' & ->). now apply safe_ok.
Qed.
Lemma charge_safe : forall p rho, ok p -> safe (gcharge_one A g p rho) (fun _ => True).
Proof.
  intros p rho OK. unfold gcharge_one. destruct (galive A p) eqn:AL; [|now apply safe_ok]. destruct (OK AL) as (R & Z & _).
  cbv zeta. change (finite A) with (@is_finite prec64 emax64). assert (HM := fits_home _ _ R Z). destruct R as (FR & _). destruct Z as (FZ & _). cbn [num b64_arith] in *. rewrite FR, FZ. cbn [andb].
  destruct (gadd_rho_ok A g _ rho (home_charge pw lg g dt HF (gcharge A p) _ _ HM)) as (f' & E). right. exists f'. split; [exact E|exact I].
Qed.

(** ** Groups *)

Lemma Forall2_trans : forall {X Y Z : Type} (P : X -> Y -> Prop) (Q : Y -> Z -> Prop) l1 l2 l3, Forall2 P l1 l2 -> Forall2 Q l2 l3 -> Forall2 (fun x z => exists y, P x y /\ Q y z) l1 l3.
Proof. intros X Y Z P Q l1 l2 l3 H. revert l3. induction H; intros l3 K; inversion K; subst; constructor; eauto. Qed.
Lemma Forall2_map_r : forall {X Y Z : Type} (P : X -> Z -> Prop) (f : Y -> Z) l1 l2, Forall2 (fun x y => P x (f y)) l1 l2 -> Forall2 P l1 (map f l2).
Proof. intros X Y Z P f l1 l2 H. induction H; constructor; auto. Qed.

Definition gkept (P R Q : gparticle A -> Prop) (x y : bool * list (gparticle A)) : Prop :=
  fst y = fst x /\ Forall2 (fun p p' => P p' /\ kept_as R Q p p') (snd x) (snd y).

Lemma step_v_group_safe : forall m x, calm pw lg g m -> Forall ok (snd x) -> safe (gstep_v_group A c m x) (gkept mid roomy roomy_old x).
Proof.
  intros m x CM F. unfold gstep_v_group. apply safe_bind with (1 := traverse_safe _ ok _ (fun p H => step_v_safe m p CM H) _ F).
  intros ps H. apply safe_ok. split; [reflexivity|exact H].
Qed.

Lemma full_current_group_safe : forall x f, Forall mid (snd x) -> safe (gfull_current_group A c x f) (fun y => gkept ok roomy_old (fun _ => True) x (snd y)).
Proof.
  intros x f F. unfold gfull_current_group. cbv zeta.
  apply safe_bind with (1 := ofold_safe _ mid (fun p s H => azimuthal_safe p s H) _ f F). intros f1 _.
  apply safe_bind with (1 := traverse_safe _ mid _ (fun p H => half_reflect_safe (fst x) p H) _ F). intros ps H.
  assert (MV : Forall moved ps) by (refine (SimP.Forall2_right _ moved _ _ _ H); intros a b K; apply K).
  apply safe_bind with (1 := ofold_safe _ moved (fun p s K => current_safe p s K) _ f1 MV). intros f2 _. apply safe_ok. cbn [snd]. split; [reflexivity|].
  cbn [snd]. apply Forall2_map_r. refine (SimP.Forall2_weaken _ _ _ _ _ H). intros a b (M & KD & KA).
  destruct (velocity_back_ok b M) as (V1 & V2 & V3). split; [exact V1|]. split.
  - intro AL. rewrite V2; [exact (KD AL)|]. now rewrite (KD AL).
  - intros AL RM. destruct (KA AL RM) as (AB & _). split; [congruence|exact I].
Qed.

Lemma full_current_safe : forall gs f, Forall (fun x => Forall mid (snd x)) gs -> safe (gfull_current A c gs f) (fun r => Forall2 (gkept ok roomy_old (fun _ => True)) gs (snd r)).
Proof.
  intros gs f F. revert f. induction F as [|x gs Hx _ IH]; intro f; [apply safe_ok; constructor|]. cbn [gfull_current].
  apply safe_bind with (1 := full_current_group_safe x f Hx). intros y Hy. apply safe_bind with (1 := IH (fst y)). intros r Hr. apply safe_ok. cbn [snd]. now constructor.
Qed.

(** ** Injection *)

Lemma injected_z : forall v f : b64, fin v -> 0 <= B2R v <= 300000000 -> fin f -> 0 <= B2R f <= 1 ->
  z_fits pw lg g (b64_add (b64_mul (b64_mul v dt) f) (b64_div dz (b64_of_Z 2))) /\
  B2R (b64_add (b64_mul (b64_mul v dt) f) (b64_div dz (b64_of_Z 2))) <= 132 / 100 * B2R dz.
Proof.
  intros v f FV HV FF Hf. assert (AZ := axz pw lg g dt HF). assert (L := len_pos _ _ _ AZ). assert (QB := q_bounds _ _ _ AZ). assert (W := wall_lo _ _ _ AZ). assert (T := top_hi _ _ _ AZ).
  destruct (hd_ok _ _ _ AZ) as (FH & H). destruct HF. destruct fine_dt as (FD & PD). unfold len in *. cbn [num b64_arith] in *. change (gdz A g) with dz in *.
  assert (VD : 0 <= B2R v * B2R dt <= 4 / 5 * B2R dz).
  { split; [apply Rmult_le_pos; lra|]. apply Rle_trans with (300000000 * B2R dt); [apply Rmult_le_compat_r; lra|exact fine_cz]. }
  destruct (mul_q _ _ _ AZ v dt FV FD) as (F1 & E1); [unfold len; rewrite Rabs_pos_eq; lra|]. apply Rabs_le_inv in E1.
  destruct (mul_ok v dt FV FD) as (_ & E1'); [apply (small_fits _ _ _ AZ); unfold len; rewrite Rabs_pos_eq; lra|].
  assert (P1 : 0 <= B2R (b64_mul v dt)) by (rewrite E1'; apply rnd_nonneg; lra).
  assert (PF : 0 <= B2R (b64_mul v dt) * B2R f <= B2R (b64_mul v dt)).
  { split; [apply Rmult_le_pos; lra|]. rewrite <- (Rmult_1_r (B2R (b64_mul v dt))) at 2. apply Rmult_le_compat_l; lra. }
  destruct (mul_ok (b64_mul v dt) f F1 FF) as (F2 & E2); [apply (small_fits _ _ _ AZ); unfold len; rewrite Rabs_pos_eq; lra|].
  assert (P2 : 0 <= B2R (b64_mul (b64_mul v dt) f) <= B2R (b64_mul v dt)).
  { rewrite E2. split; [apply rnd_nonneg; lra|]. rewrite <- (rnd_B2R (b64_mul v dt)) at 2. apply rnd_mono. lra. }
  change (b64_div dz (b64_of_Z 2)) with (hd dz). apply Rabs_le_inv in H.
  destruct (add_q _ _ _ AZ _ _ F2 FH) as (F3 & E3); [unfold len; rewrite Rabs_pos_eq; lra|]. apply Rabs_le_inv in E3.
  split; [|unfold q, len in *; cbn [num b64_arith] in *; lra]. split; [exact F3|]. cbv zeta. change (gdz A g) with dz. unfold wall, top, q, len in *. cbn [num b64_arith] in *. lra.
Qed.

Section Beam.
Variables (n : nat) (t0 : b64).
Hypothesis HBO : beam_ok pw lg c n t0.

Lemma inject_safe : forall t k ps,
  safe (ginject A c t k ps) (fun ps' => forall i y, nth_error ps' i = Some y -> exists p, nth_error ps i = Some p /\
     (y = p \/ (injected pw lg c t k (Z.of_nat i) /\ exists z v, (z_fits pw lg g z /\ B2R z <= 132 / 100 * B2R dz) /\ (moderate v /\ v = c_velocity A c) /\ y = ginject_one A z v p))).
Proof.
  intros t k ps. destruct HBO as [(FV & HV) ST _ _ _ _ _ _ (f & RF & HFf) _ _ _]. unfold ginject. cbv zeta.
  destruct (Z.eqb_spec (ceil_int A (div A (c_duration A c) dt)) 0) as [E|_]; [contradiction|].
  set (begin := add A (mul A (c_duration A c) (of_int A k)) (mul A (c_hole A c) (of_int A k))).
  set (per := (c_macro A c / ceil_int A (div A (c_duration A c) dt))%Z).
  set (first := trunc_int A (mul A (div A (sub A t begin) dt) (of_int A per))).
  destruct (leb A begin t && ltb A t (add A begin (c_duration A c))) eqn:W.
  2: { apply safe_ok. intros i y H. exists y. auto. }
  apply andb_true_iff in W. destruct W as (W1 & W2). apply safe_ok. rewrite RF.
  set (zf := fun x => add A (mul A (mul A (c_velocity A c) dt) (f x)) (div A (gdz A g) (of_int A 2))).
  assert (ZF : forall x, z_fits pw lg g (zf x) /\ B2R (zf x : b64) <= 132 / 100 * B2R dz) by (intro x; apply injected_z; [exact FV|exact HV|apply HFf|apply HFf]).
  assert (MV : moderate (c_velocity A c)).
  { split; [exact FV|]. cbn [num b64_arith] in *. rewrite Rabs_pos_eq by lra. change (bp 31) with 2147483648. lra. }
  assert (K : forall l qs, incl l (zrange 0 per) -> (forall i y, nth_error qs i = Some y -> exists p, nth_error ps i = Some p /\
      (y = p \/ (injected pw lg c t k (Z.of_nat i) /\ exists z v, (z_fits pw lg g z /\ B2R z <= 132 / 100 * B2R dz) /\ (moderate v /\ v = c_velocity A c) /\ y = ginject_one A z v p))) ->
    forall i y, nth_error (fold_left (fun ps i => let x := (i + first)%Z in if ((0 <=? x) && (x <? c_macro A c))%Z
       then Sim.update_nth (Z.to_nat x) (ginject_one A (zf x) (c_velocity A c)) ps else ps) l qs) i = Some y -> exists p, nth_error ps i = Some p /\
      (y = p \/ (injected pw lg c t k (Z.of_nat i) /\ exists z v, (z_fits pw lg g z /\ B2R z <= 132 / 100 * B2R dz) /\ (moderate v /\ v = c_velocity A c) /\ y = ginject_one A z v p))).
  { induction l as [|j l IH]; intros qs IN Q i y H; [now apply Q|]. cbn [fold_left] in H. revert H. cbv zeta. apply IH; [intros a Ha; apply IN; now right|].
    clear i y. intros i y H. destruct ((0 <=? j + first) && (j + first <? c_macro A c))%Z eqn:B; [|now apply Q].
    apply andb_true_iff in B. destruct B as (B1 & B2). apply Z.leb_le in B1. apply Z.ltb_lt in B2.
    destruct (SimP.update_nth_nth _ _ _ _ _ H) as (x & Hx & ->). destruct (Q i x Hx) as (p & Hp & D). exists p. split; [exact Hp|].
    destruct (Nat.eqb_spec i (Z.to_nat (j + first))) as [EI|_]; [|exact D]. right. split.
    - assert (J := IN j (or_introl eq_refl)). apply zrange_in in J. subst i. rewrite Z2Nat.id by lia. unfold injected. cbv zeta. fold begin per first.
      split; [exact W1|]. split; [exact W2|]. split; lia.
    - exists (zf (j + first)%Z), (c_velocity A c). split; [apply ZF|]. split; [split; [exact MV|reflexivity]|].
      destruct D as [-> |(_ & z & v & _ & _ & ->)]; [reflexivity|]. unfold ginject_one. cbn [gph gpos gvel g0 g1 g2 gcharge gmass gr_old gz_old gsin]. reflexivity. }
  apply K; [apply incl_refl|]. intros i y H. exists y. auto.
Qed.
End Beam.

(** Particle number [x] of bunch number [k] is injected later on, [j] steps from time [t]. *)
Definition future (n : nat) (t : b64) (k x : Z) (j : nat) : Prop := (j < n)%nat /\ injected pw lg c (time pw lg c j t) k x.

(** [ps] is bunch number [k], with [n] steps to go from time [t]: who is to be injected waits as created, or is alive with [P]
    and was injected in the step before. *)
Definition still (P : gparticle A -> Prop) (n : nat) (t : b64) (k : Z) (ps : list (gparticle A)) : Prop :=
  forall i p, nth_error ps i = Some p -> (exists j, future n t k (Z.of_nat i) j) ->
  (waiting pw lg g p /\ In p (c_bunch A c k)) \/
  (galive A p = true /\ P p /\ forall j, future n t k (Z.of_nat i) j -> j = 0%nat).
Fixpoint stills (P : gparticle A -> Prop) (n : nat) (t : b64) (k : Z) (gs : list (bool * list (gparticle A))) : Prop :=
  match gs with
  | [] => True
  | (false, _) :: rest => stills P n t k rest
  | (true, ps) :: rest => (0 <= k < c_bunches A c)%Z /\ still P n t k ps /\ stills P n t (k + 1) rest
  end.
Definition places (gs : list (bool * list (gparticle A))) : Prop := Forall (fun x => Forall ok (snd x)) gs.
Fixpoint count (gs : list (bool * list (gparticle A))) : Z :=
  match gs with [] => 0 | (false, _) :: rest => count rest | (true, _) :: rest => count rest + 1 end.

Definition inv (P : gparticle A -> Prop) (n : nat) (t : b64) (s : gsim A) : Prop :=
  (count (gs_groups A s) = gs_bunches A s)%Z /\
  places (gs_groups A s) /\ stills P n t 0 (gs_groups A s) /\ ((0 < c_bunches A c)%Z -> beam_ok pw lg c n t).

Lemma count_nonneg : forall gs, (0 <= count gs)%Z.
Proof. induction gs as [|([|] & ps) gs IH]; cbn [count]; lia. Qed.
Lemma stills_count : forall P n t gs k, stills P n t k gs -> (0 < count gs)%Z -> (k + count gs <= c_bunches A c)%Z.
Proof.
  intros P n t gs. induction gs as [|([|] & ps) gs IH]; intros k S L; cbn [count stills] in *; [lia| |now apply IH].
  destruct S as (K & _ & S). destruct (Z_lt_le_dec 0 (count gs)) as [L'|L']; [assert (X := IH (k + 1)%Z S L'); lia|]. assert (X := count_nonneg gs). lia.
Qed.

Lemma still_kept : forall P (R Q : gparticle A -> Prop) n t gs gs' k, Forall2 (gkept P R Q) gs gs' -> stills R n t k gs -> stills Q n t k gs'.
Proof.
  intros P R Q n t gs gs' k H. revert k. induction H as [|(b & ps) (b' & ps') gs gs' (E & F) _ IH]; intros k S; [exact I|].
  cbn [fst snd] in E, F. subst b'. destruct b; cbn [stills] in *; [|now apply IH]. destruct S as (KB & S & T). split; [exact KB|]. split; [|now apply IH].
  intros i p' N J. destruct (SimP.Forall2_nth _ _ _ _ _ F N) as (p & NP & _ & KD & KA). destruct (S i p NP J) as [(W & IW)|(AL & RP & JJ)].
  - left. rewrite (KD (proj1 W)). auto.
  - right. destruct (KA AL RP) as (AL' & QP). auto.
Qed.
Lemma kept_groups : forall P R Q gs gs', Forall2 (gkept P R Q) gs gs' -> Forall (fun x => Forall P (snd x)) gs'.
Proof.
  intros P R Q gs gs' H. induction H as [|x y gs gs' (_ & F) _ IH]; constructor; [|exact IH].
  refine (SimP.Forall2_right _ P _ _ _ F). intros a b K. apply K.
Qed.
Lemma kept_count : forall P R Q gs gs', Forall2 (gkept P R Q) gs gs' -> count gs' = count gs.
Proof. intros P R Q gs gs' H. induction H as [|(b & ps) (b' & ps') gs gs' (E & _) _ IH]; [reflexivity|]. cbn [fst] in E. subst b'. destruct b; cbn [count]; lia. Qed.

Lemma later : forall n t, beam_ok pw lg c (S n) t -> beam_ok pw lg c n (add A t dt).
Proof.
  intros n t []. split; try assumption.
  - intros i L. apply (bo_clock (S i)). lia.
  - intros i nb L. apply (bo_erase (S i)). lia.
Qed.

Lemma again : forall n t, beam_ok pw lg c n t -> forall i j k x, (0 <= k < c_bunches A c)%Z -> (i < j < n)%nat ->
  injected pw lg c (time pw lg c i t) k x -> injected pw lg c (time pw lg c j t) k x -> j = S i.
Proof.
  intros n t [] i j k x K L I J. destruct dt_small as (FD & DD). refine (Clock64P.injected_again pw lg c FD _ n t k x i j bo_clock bo_duration bo_hole bo_steps bo_macro _ L I J); [|lia].
  split; [exact bo_short|]. apply Rle_trans with (1 := proj2 DD). apply Rle_trans with (bp 0); [apply bpow_le; lia|cbn; lra].
Qed.

Lemma waiting_ok : forall p, waiting pw lg g p -> ok p.
Proof. intros p (D & _) AL. congruence. Qed.

Lemma injected_ok : forall p z v, waiting pw lg g p -> z_fits pw lg g z -> moderate v -> ok (ginject_one A z v p).
Proof.
  intros p z v (_ & R & F1 & Y & M0 & M1 & SN) Z V _. unfold ginject_one. cbn [gph gpos gvel g0 g1 g2 gcharge gmass].
  split; [exact R|]. split; [exact Z|]. split; [exact F1|]. split; [exact Y|]. split; [exact M0|]. split; [exact M1|]. split; [exact V|exact SN].
Qed.
Lemma again_ok : forall p z v, galive A p = true -> ok p -> z_fits pw lg g z -> moderate v -> ok (ginject_one A z v p).
Proof.
  intros p z v AL OK Z V _. destruct (OK AL) as (R & _ & F1 & Y & M0 & M1 & _ & SN). unfold ginject_one. cbn [gph gpos gvel g0 g1 g2 gcharge gmass].
  split; [exact R|]. split; [exact Z|]. split; [exact F1|]. split; [exact Y|]. split; [exact M0|]. split; [exact M1|]. split; [exact V|exact SN].
Qed.

Lemma deep_roomy : forall p z v, deep pw lg g p -> B2R z <= 132 / 100 * B2R dz -> roomy (ginject_one A z v p).
Proof.
  intros p z v (N & D) Z. unfold roomy, ginject_one. cbn [gph gpos g0 g2]. cbv zeta in D.
  assert (L := len_pos _ _ _ (axz pw lg g dt HF)). unfold wr, wz, wall, top, len in *. change (gdr A g) with dr in D. cbn [num b64_arith] in *.
  assert (N' : 3 <= IZR (gn_z A g - 1)) by (apply IZR_le; lia).
  assert (X : 3 * B2R dz <= IZR (gn_z A g - 1) * B2R dz) by (apply Rmult_le_compat_r; lra). split; lra.
Qed.

Lemma inject_group : forall n t k ps, beam_ok pw lg c (S n) t -> (0 <= k < c_bunches A c)%Z -> Forall ok ps -> still (fun _ => True) (S n) t k ps ->
  exists ps', ginject A c t k ps = Ok ps' /\ Forall ok ps' /\ still roomy n (add A t dt) k ps'.
Proof.
  intros n t k ps BO KB OK ST.
  assert (Q : forall ps', (forall i y, nth_error ps' i = Some y -> exists p, nth_error ps i = Some p /\
     (y = p \/ (injected pw lg c t k (Z.of_nat i) /\ exists z v, (z_fits pw lg g z /\ B2R z <= 132 / 100 * B2R dz) /\ (moderate v /\ v = c_velocity A c) /\ y = ginject_one A z v p))) ->
     Forall ok ps' /\ still roomy n (add A t dt) k ps').
  { intros ps' H. split.
    - rewrite Forall_forall. intros y I. destruct (In_nth_error _ _ I) as (i & N). destruct (H i y N) as (p & NP & [-> |(J & z & v & (Z & _) & (V & _) & ->)]).
      + rewrite Forall_forall in OK. apply OK. now apply nth_error_In in NP.
      + destruct (ST i p NP) as [(W & _)|(AL & _)]; [exists 0%nat; split; [lia|exact J]|now apply injected_ok|].
        apply again_ok; try assumption. rewrite Forall_forall in OK. apply OK. now apply nth_error_In in NP.
    - intros i y N (j & L & J). assert (FJ : future (S n) t k (Z.of_nat i) (S j)) by (split; [lia|exact J]).
      destruct (H i y N) as (p & NP & D). destruct (ST i p NP (ex_intro _ _ FJ)) as [(W & IW)|(_ & _ & JJ)]; [|discriminate (JJ _ FJ)].
      destruct D as [-> |(J0 & z & v & (Z & ZB) & (V & _) & ->)]; [now left|]. right.
      assert (DP := bo_deep pw lg c (S n) t BO k KB). rewrite Forall_forall in DP. assert (DD := DP p IW).
      split; [reflexivity|]. split; [now apply deep_roomy|].
      intros j' (Lj & Jj). assert (L2 : (0 < S j' < S n)%nat) by lia. assert (E := again (S n) t BO 0%nat (S j') k (Z.of_nat i) KB L2 J0 Jj). lia. }
  destruct (inject_safe (S n) t BO t k ps) as [E|(ps' & E & H)]; [|exists ps'; split; [exact E|now apply Q]].
  exfalso. revert E. unfold ginject. cbv zeta. destruct (_ =? 0)%Z; [discriminate|]. destruct (_ && _); discriminate.
Qed.

Lemma inject_groups_ok : forall n t gs k, ((0 < c_bunches A c)%Z -> beam_ok pw lg c (S n) t) ->
  places gs -> stills (fun _ => True) (S n) t k gs ->
  exists gs', ginject_groups A c t k gs = Ok gs' /\ places gs' /\ stills roomy n (add A t dt) k gs' /\ count gs' = count gs.
Proof.
  intros n t gs k BO. revert k. induction gs as [|(b & ps) gs IH]; intros k PL ST.
  - exists []. repeat split; auto; try constructor.
  - inversion PL as [|? ? P1 P2]; subst. cbn [snd] in P1.
    destruct b; cbn [ginject_groups stills] in *.
    + destruct ST as (KB & S1 & S2).
      destruct (inject_group n t k ps (BO ltac:(lia)) KB P1 S1) as (ps' & -> & O1 & O2). destruct (IH (k + 1)%Z P2 S2) as (gs' & -> & O3 & O4 & O5).
      exists ((true, ps') :: gs'). split; [reflexivity|]. split; [now constructor|]. split; [split; [|split]; assumption|]. cbn [count]. lia.
    + destruct (IH k P2 ST) as (gs' & -> & O3 & O4 & O5). exists ((false, ps) :: gs'). split; [reflexivity|]. split; [now constructor|]. split; [exact O4|exact O5].
Qed.

Lemma stills_app : forall P n t gs ps k, (0 <= k + count gs < c_bunches A c)%Z -> (0 <= k)%Z -> Forall (waiting pw lg g) ps -> ps = c_bunch A c (k + count gs)%Z ->
  stills P n t k gs -> stills P n t k (gs ++ [(true, ps)]).
Proof.
  intros P n t gs ps k KB K0 W. revert k KB K0. induction gs as [|(b & qs) gs IH]; intros k KB K0 E S; cbn [app stills count] in *.
  - split; [lia|]. split; [|exact I]. intros i p N _. left. rewrite Forall_forall in W. rewrite Z.add_0_r in E. rewrite <- E. split; [apply W|]; now apply nth_error_In in N.
  - destruct b; [|now apply IH]. destruct S as (K & S1 & S2). split; [exact K|]. split; [exact S1|]. apply IH; [lia|lia| |exact S2]. rewrite E. f_equal. lia.
Qed.
Lemma count_app : forall gs ps, count (gs ++ [(true, ps)]) = (count gs + 1)%Z.
Proof. induction gs as [|([|] & qs) gs IH]; intro ps; cbn [app count]; [reflexivity|rewrite IH; lia|apply IH]. Qed.

Lemma beam_step : forall n t s, inv (fun _ => True) (S n) t s -> exists s', gbeam A c t s = Ok s' /\ gs_fields A s' = gs_fields A s /\ inv roomy n (add A t dt) s'.
Proof.
  intros n t s (NB & PL & ST & BO). unfold gbeam. cbv zeta. assert (NN := count_nonneg (gs_groups A s)). assert (SC := stills_count _ _ _ _ _ ST).
  assert (ER : erase_reached A c t (gs_bunches A s) = false).
  { destruct (Z_lt_le_dec 0 (c_bunches A c)) as [L|L].
    - destruct (Z_lt_le_dec 0 (count (gs_groups A s))) as [L'|L']; [assert (X := SC L')|]; apply (bo_erase pw lg c (S n) t (BO L) 0%nat (gs_bunches A s)); lia.
    - unfold erase_reached. cbv zeta. destruct (Z.ltb_spec 1 (gs_bunches A s)); [|reflexivity]. assert (X := SC ltac:(lia)). lia. }
  rewrite ER. set (cr := creates A c t (gs_bunches A s)).
  assert (CR : cr = true -> (gs_bunches A s < c_bunches A c)%Z) by (unfold cr, creates; rewrite andb_true_iff; intros (_ & K); now apply Z.ltb_lt).
  clearbody cr. set (gs := if cr then gs_groups A s ++ _ else _).
  assert (G : places gs /\ stills (fun _ => True) (S n) t 0 gs /\ count gs = (if cr then gs_bunches A s + 1 else gs_bunches A s)%Z).
  { unfold gs. destruct cr; [|auto]. specialize (CR eq_refl). assert (W := bo_waiting pw lg c (S n) t (BO ltac:(lia)) (gs_bunches A s) ltac:(lia)).
    split; [|split; [apply stills_app; try assumption; try lia; f_equal; lia|rewrite count_app; lia]]. apply Forall_app. split; [exact PL|]. constructor; [|constructor]. cbn [snd].
    revert W. apply Forall_impl. exact waiting_ok. }
  clearbody gs. destruct G as (G2 & G3 & G4).
  destruct (inject_groups_ok n t gs 0 BO G2 G3) as (gs' & -> & O1 & O2 & O3). cbn [bind]. eexists. split; [reflexivity|]. cbn [gs_fields]. split; [reflexivity|].
  split; [cbn [gs_bunches gs_groups]; congruence|]. split; [exact O1|]. split; [exact O2|].
  intro L. apply later. now apply BO.
Qed.

Lemma calm_reset : forall f, calm pw lg g f -> calm pw lg g (greset_j A g f).
Proof. intros f H a i k IA IN. assert (K := H a i k IA IN). destruct a; try exact K; exfalso; cbn in IA; intuition discriminate. Qed.

Lemma bunches_charge : forall gs rho, places gs -> safe (ofold (fun ps rho => ofold (gcharge_one A g) ps rho) (gbunches_of A gs) rho) (fun _ => True).
Proof.
  intros gs rho PL. apply ofold_safe with (P := fun ps => Forall ok ps).
  - intros ps r F. apply ofold_safe with (P := ok); [|exact F]. intros p r' OK. now apply charge_safe.
  - induction PL as [|(b & ps) gs H _ IH]; [constructor|]. unfold gbunches_of. cbn [flat_map fst snd]. destruct b; [constructor; assumption|exact IH].
Qed.

Lemma iteration_safe : forall n t s, inv (fun _ => True) (S n) t s -> calm pw lg g (gcalc_hfield A g dt (gs_fields A s)) ->
  safe (giteration A c t s) (inv (fun _ => True) n (add A t dt)).
Proof.
  intros n t s IV CM. unfold giteration. destruct (beam_step n t s IV) as (s1 & -> & EF & NB & PL & ST & BO). cbn [bind]. cbv zeta. rewrite EF.
  set (f := greset_j A g _). assert (CF : calm pw lg g f) by (apply calm_reset; exact CM). clearbody f. set (rho := greset_rho A g _). clearbody rho.
  apply safe_bind with (1 := traverse_safe _ (fun x => Forall ok (snd x)) _ (fun x H => step_v_group_safe f x CF H) _ PL). intros gs H1.
  apply safe_bind with (1 := full_current_safe gs f (kept_groups _ _ _ _ _ H1)). intros r H2. assert (PL2 := kept_groups _ _ _ _ _ H2).
  apply safe_bind with (1 := bunches_charge (snd r) rho PL2). intros rho' _. apply safe_ok.
  split; [cbn [gs_groups gs_bunches]; rewrite (kept_count _ _ _ _ _ H2), (kept_count _ _ _ _ _ H1); exact NB|]. split; [exact PL2|].
  split; [apply (still_kept _ _ _ _ _ _ _ _ H2), (still_kept _ _ _ _ _ _ _ _ H1), ST|exact BO].
Qed.

Lemma run_inv : forall n t e s m, inv (fun _ => True) (n + m) t s -> stays_calm pw lg c n t e s ->
  safe (gsim_run A c n t e s) (fun s' => exists i, (i <= n)%nat /\ inv (fun _ => True) (i + m) (time pw lg c (n - i) t) s' /\
    ((forall j, (j < n)%nat -> ltb A (time pw lg c j t) e = true) -> i = 0%nat)).
Proof.
  induction n as [|n IH]; intros t e s m IV SC; [apply safe_ok; exists 0%nat; split; [lia|]; split; [exact IV|reflexivity]|].
  cbn [gsim_run]. destruct (ltb A t e) eqn:LT.
  2: { apply safe_ok. exists (S n). rewrite Nat.sub_diag. split; [lia|]. split; [exact IV|]. intro H. assert (K := H 0%nat ltac:(lia)). cbn [time] in K. congruence. }
  assert (CM : calm pw lg g (gcalc_hfield A g dt (gs_fields A s))) by (apply (SC 0%nat s); [lia|reflexivity]).
  destruct (iteration_safe (n + m) t s IV CM) as [E|(s1 & E & IV1)]; [left; now rewrite E|]. rewrite E. cbn [bind].
  refine (safe_weaken _ _ _ (IH (add A t dt) e s1 m IV1 _) _).
  - intros i s' L R. apply (SC (S i) s'); [lia|]. cbn [gsim_run]. rewrite LT, E. exact R.
  - intros s' (i & L & IV' & ST). exists i. split; [lia|]. split.
    + replace (S n - i)%nat with (S (n - i)) by lia. exact IV'.
    + intro H. apply ST. intros j Lj. apply (H (S j)). lia.
Qed.

Lemma starts_inv : forall n t s, starts pw lg c s -> ((0 < c_bunches A c)%Z -> beam_ok pw lg c n t) -> inv (fun _ => True) n t s.
Proof.
  intros n t s (NB & KI & PL) BO. split; [|split].
  - rewrite NB. clear - KI. induction KI as [|(b & ps) gs E _ IH]; [reflexivity|]. cbn [fst] in E. subst b. exact IH.
  - unfold parts in PL. clear - PL. unfold places. induction (gs_groups A s) as [|x gs IH]; [constructor|]. cbn [flat_map] in PL. apply Forall_app in PL. constructor; [apply PL|apply IH; apply PL].
  - split; [|exact BO]. clear - KI. induction KI as [|(b & ps) gs E _ IH]; [exact I|]. cbn [fst] in E. subst b. exact IH.
Qed.

Lemma places_parts : forall s, places (gs_groups A s) -> Forall ok (parts pw lg s).
Proof. intros s H. unfold parts. induction H as [|x gs Hx _ IH]; [constructor|]. cbn [flat_map]. apply Forall_app. auto. Qed.

Lemma feels : forall E r z, Forall (fun x => E (fst (fst x)) (snd (fst x)) (snd x)) (interpolation_reads A g r z) -> felt_from pw lg E g r z.
Proof.
  intros E r z RD m m' EQ. rewrite Forall_forall in RD.
  assert (W : forall l, incl (map (t_at A) l) (interpolation_reads A g r z) -> gweighted_sum A m l = gweighted_sum A m' l).
  { intros l IN. unfold gweighted_sum. generalize (of_int A 0). induction l as [|t l IH]; intro s; [reflexivity|]. cbn [fold_left].
    assert (X := RD (t_at A t) (IN _ (or_introl eq_refl))). assert (Y : m (t_at A t) = m' (t_at A t)) by (destruct (t_at A t) as ((a & i) & k); apply EQ, X).
    rewrite Y. apply IH. intros x I. apply IN. now right. }
  unfold interpolation_reads in W. rewrite !map_app in W. unfold gget_efield, gget_hfield.
  split; f_equal; apply W; intros x I; rewrite !in_app_iff; auto 10.
Qed.
Lemma feels_frame : forall r z, home r z -> felt_from pw lg (framed pw lg g) g r z.
Proof.
  intros r z H. apply feels. refine (Forall_impl _ _ (home_reads pw lg g dt HF r z H)). intros x K. unfold inside in K. rewrite !andb_true_iff, !Z.leb_le, !Z.ltb_lt in K. unfold framed. lia.
Qed.
Lemma feels_allocated : forall r z, home r z -> apart pw lg g r z -> felt_from pw lg (allocated pw lg g) g r z.
Proof. intros r z H AP. apply feels. exact (apart_reads pw lg g dt HF r z H AP). Qed.

Theorem run_safe64 : forall n t e s, starts pw lg c s -> ((0 < c_bunches A c)%Z -> beam_ok pw lg c n t) -> stays_calm pw lg c n t e s ->
  (gsim_run A c n t e s = Exit 1 \/ exists s', gsim_run A c n t e s = Ok s' /\ Forall (in_place pw lg g) (parts pw lg s')) /\
  forall i s', (i < n)%nat -> (forall j, (j <= i)%nat -> ltb A (time pw lg c j t) e = true) -> gsim_run A c i t e s = Ok s' ->
    exists s'', gbeam A c (time pw lg c i t) s' = Ok s'' /\
    forall p, In p (parts pw lg s'') -> galive A p = true -> let r := g0 A (gpos A (gph A p)) in let z := g2 A (gpos A (gph A p)) in
      felt_from pw lg (framed pw lg g) g r z /\ (apart pw lg g r z -> felt_from pw lg (allocated pw lg g) g r z).
Proof.
  intros n t e s ST BO SC. split.
  - assert (IV := starts_inv n t s ST BO). rewrite (plus_n_O n) in IV. destruct (run_inv n t e s 0 IV SC) as [E|(s' & E & i & _ & (_ & PL & _) & _)]; [now left|].
    right. exists s'. split; [exact E|now apply places_parts].
  - intros i s' L LT R. assert (IV := starts_inv n t s ST BO). replace n with (i + (n - i))%nat in IV by lia.
    assert (SC' : stays_calm pw lg c i t e s) by (intros j x Lj; apply SC; lia).
    destruct (run_inv i t e s (n - i) IV SC') as [E|(s1 & E & k & Lk & IV1 & K)]; [congruence|]. rewrite R in E. injection E as <-.
    assert (k = 0)%nat by (apply K; intros j Lj; apply LT; lia). subst k. rewrite Nat.sub_0_r in IV1. cbn [Nat.add] in IV1.
    destruct (n - i)%nat as [|m] eqn:EM; [lia|]. destruct (beam_step m _ s' IV1) as (s2 & E2 & _ & _ & PL & _). exists s2. split; [exact E2|].
    intros p I AL. assert (OK := places_parts s2 PL). rewrite Forall_forall in OK. destruct (OK p I AL) as (RF & ZF & _). assert (HM := fits_home _ _ RF ZF). split; [now apply feels_frame|intro AP; now apply feels_allocated].
Qed.

End Run.

(** ** The injection does what [injected] says *)
Lemma update_nth_at : forall {X : Type} (f : X -> X) l n i x, nth_error l i = Some x -> nth_error (Sim.update_nth n f l) i = Some (if Nat.eqb i n then f x else x).
Proof.
  intros X f l. induction l as [|y l IH]; intros n i x H; [destruct i; discriminate|]. destruct n as [|n]; destruct i as [|i]; cbn in *; try (injection H as ->; reflexivity); try exact H. now apply IH.
Qed.

Theorem injects : forall pw lg (c : config (b64_arith pw lg)) f t k ps ps' i p, c_rand _ c = Reverse _ f ->
  ginject _ c t k ps = Ok ps' -> nth_error ps i = Some p ->
  (injected pw lg c t k (Z.of_nat i) -> exists p', nth_error ps' i = Some p' /\ galive _ p' = true) /\
  (~ injected pw lg c t k (Z.of_nat i) -> nth_error ps' i = Some p).
Proof.
  intros pw lg c f t k ps ps' i p RF E N. set (A := b64_arith pw lg) in *. unfold ginject in E. cbv zeta in E. unfold injected. cbv zeta. fold A.
  destruct (Z.eqb_spec (ceil_int A (div A (c_duration A c) (c_dt A c))) 0) as [_|_]; [discriminate E|].
  set (begin := add A (mul A (c_duration A c) (of_int A k)) (mul A (c_hole A c) (of_int A k))) in *.
  set (per := (c_macro A c / ceil_int A (div A (c_duration A c) (c_dt A c)))%Z) in *.
  set (first := trunc_int A (mul A (div A (sub A t begin) (c_dt A c)) (of_int A per))) in *.
  destruct (leb A begin t && ltb A t (add A begin (c_duration A c))) eqn:W; injection E as <-.
  2: { split; [|intros _; exact N]. intros (W1 & W2 & _). rewrite W1, W2 in W. discriminate W. }
  apply andb_true_iff in W. destruct W as (W1 & W2). rewrite RF.
  set (body := fun qs x0 => _).
  assert (K : forall l qs q, nth_error qs i = Some q -> exists q', nth_error (fold_left body l qs) i = Some q' /\
    ((exists j, In j l /\ (j + first = Z.of_nat i /\ Z.of_nat i < c_macro A c)%Z) -> galive A q' = true) /\ (galive A q = true -> galive A q' = true) /\
    (~ (exists j, In j l /\ (j + first = Z.of_nat i /\ Z.of_nat i < c_macro A c)%Z) -> q' = q)).
  { induction l as [|j l IH]; intros qs q NQ.
    - exists q. split; [exact NQ|]. split; [intros (j & [] & _)|]. split; [auto|reflexivity].
    - cbn [fold_left].
      assert (B : nth_error (body qs j) i = Some (if ((0 <=? j + first) && (j + first <? c_macro A c) && (Z.of_nat i =? j + first))%Z
                    then ginject_one A (add A (mul A (mul A (c_velocity A c) (c_dt A c)) (f (j + first)%Z)) (div A (gdz A (c_geom A c)) (of_int A 2))) (c_velocity A c) q else q)).
      { unfold body. destruct ((0 <=? j + first) && (j + first <? c_macro A c))%Z eqn:R; cbn [andb]; [|exact NQ].
        apply andb_true_iff in R. destruct R as (R1 & R2). apply Z.leb_le in R1. rewrite (update_nth_at _ _ _ _ _ NQ).
        destruct (Nat.eqb_spec i (Z.to_nat (j + first))) as [EI|EI]; destruct (Z.eqb_spec (Z.of_nat i) (j + first)) as [EJ|EJ]; try reflexivity; exfalso; lia. }
      destruct (IH _ _ B) as (q' & N' & H1 & H2 & H3). exists q'. split; [exact N'|]. split; [|split].
      + intros (j' & [-> |IJ] & EJ & LJ); [|apply H1; eauto]. apply H2.
        replace ((0 <=? j' + first) && (j' + first <? c_macro A c) && (Z.of_nat i =? j' + first))%Z with true; [reflexivity|].
        symmetry. rewrite !andb_true_iff, Z.leb_le, Z.ltb_lt, Z.eqb_eq. lia.
      + intro AL. apply H2. destruct (_ && _ && _); [reflexivity|exact AL].
      + intro NO. rewrite H3.
        * destruct ((0 <=? j + first) && (j + first <? c_macro A c) && (Z.of_nat i =? j + first))%Z eqn:R; [|reflexivity]. exfalso. apply NO. exists j.
          rewrite !andb_true_iff, Z.leb_le, Z.ltb_lt, Z.eqb_eq in R. split; [now left|lia].
        * intros (j' & IJ & X). apply NO. exists j'. split; [now right|exact X]. }
  destruct (K (zrange 0 per) ps p N) as (q' & N' & H1 & _ & H3). split.
  - intros (_ & _ & R1 & R2). exists q'. split; [exact N'|]. apply H1. exists (Z.of_nat i - first)%Z. split; [apply zrange_in; lia|lia].
  - intro NO. rewrite N'. f_equal. apply H3. intros (j & IJ & EJ & LJ). apply zrange_in in IJ. apply NO. split; [exact W1|]. split; [exact W2|]. lia.
Qed.
