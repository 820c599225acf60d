(** Proofs about whole runs: matter at rest without fields. *)
From Coq Require Import Reals ZArith Lra Lia Psatz List Bool FunctionalExtensionality.
From Verif.Lib Require Import RAux Grid Outcome Par.
From Verif.Model Require Import Constants Geometry ChargeDeposit CurrentDeposit Fields Interp Pusher Motion Loading
  Bunch Dump MainLoop Sim.
From Verif.Spec Require Import Dynamics Domain Steps Whole Maxwell Cloud.
From Verif.Proof Require Import GeometryP ChargeP ChargeP2 CurrentP CurrentP4 FieldsP MaxwellP PusherP VayP MotionP InterpP BunchP MainLoopP
  SimP SimP2.
Import ListNotations.
Local Open Scope R_scope.

(** ** Zero fields stay zero without current *)

Definition zero_mem (m : fmem) : Prop := forall x, m x = 0.

Lemma exec_zero_mem : forall l m, zero_mem m -> Forall (fun a => forall m, zero_mem m -> rhs a (map m (reads a)) = 0) l ->
  zero_mem (execf l m).
Proof.
  induction l as [|a l IH]; intros m Hm F; [exact Hm|]. inversion F as [|? ? F1 F2]; subst.
  change (execf (a :: l) m) with (execf l (exec_asg loc_eqb m a)). apply IH; [|exact F2].
  intro x. unfold exec_asg, store. destruct (loc_eqb x (tgt a)); [now apply F1|apply Hm].
Qed.

Ltac zero_asg := intros m0 Hm0; cbn [rhs reads map asg_er asg_ez_axis asg_ephi asg_ez asg_hr_half asg_hr asg_hphi_half asg_hphi asg_hz_half asg_hz];
  unfold zero_mem in Hm0; rewrite !Hm0; unfold alpha_r, alpha_phi, alpha_z, Rdiv; ring.

Lemma Forall_concat_map : forall {A B : Type} (P : B -> Prop) (f : A -> list B) l, (forall x, Forall P (f x)) -> Forall P (concat (map f l)).
Proof. intros A B P f l H. induction l; [constructor|]. cbn. apply Forall_app. now split. Qed.

Lemma calc_hfield_zero : forall g dt m, zero_mem m -> zero_mem (calc_hfield g dt m).
Proof.
  intros g dt m Hm. apply exec_zero_mem; [exact Hm|]. unfold hfield_loops. cbn [concat].
  rewrite !concat_app, !app_nil_r. cbn [concat]. repeat (apply Forall_app; split); try apply Forall_concat_map;
  try (intro c; repeat (constructor; [zero_asg|])); constructor.
Qed.

Lemma calc_efield_zero : forall g md dt m, zero_mem m -> zero_mem (calc_efield g md dt m).
Proof.
  intros g md dt m Hm. apply exec_zero_mem; [exact Hm|]. unfold efield_loops. cbn [concat].
  rewrite !concat_app, !app_nil_r. cbn [concat]. repeat (apply Forall_app; split); try apply Forall_concat_map;
  try (intro c; repeat (constructor; [zero_asg|])); constructor.
Qed.

Lemma init_fields_zero_mem : forall g m, zero_mem m -> zero_mem (init_fields g m).
Proof.
  intros g m Hm. apply exec_zero_mem; [exact Hm|]. unfold init_field_loops, boundary_loops, homogeneous_e_loops, homogeneous_h_loops, fi_on_z_loops.
  cbn [concat app]. rewrite !concat_app, !app_nil_r. cbn [concat]. repeat (apply Forall_app; split); try apply Forall_concat_map;
  try (intro c; repeat (constructor; [intros; reflexivity|])); constructor.
Qed.

Lemma weighted_sum_zero : forall m l, zero_mem m -> weighted_sum m l = 0.
Proof.
  intros m l Hm. unfold weighted_sum. assert (K : forall s, fold_left (fun s t => s + m (fst t) * snd t) l s = s); [|apply K].
  induction l as [|t l IH]; intro s; [reflexivity|]. cbn [fold_left]. rewrite IH, Hm. ring.
Qed.

Lemma get_efield_zero : forall g m r z, zero_mem m -> get_efield g m r z = vzero.
Proof. intros. unfold get_efield, vzero. now rewrite !weighted_sum_zero. Qed.
Lemma get_hfield_zero : forall g m r z, zero_mem m -> get_hfield g m r z = vzero.
Proof. intros. unfold get_hfield, vzero. now rewrite !weighted_sum_zero. Qed.

(** ** Particles without fields *)

Lemma subluminal_zero : subluminal vzero.
Proof. unfold subluminal, norm2, vzero. cbn. assert (P := LIGHT_SPEED_pos). nra. Qed.

Lemma push_rest : forall p dt q m, push p dt q m vzero vzero vzero = Ok vzero.
Proof.
  assert (N : not_tiny vzero) by (unfold not_tiny, vzero; cbn; auto).
  assert (B : forall rel dt q m, boris_push rel dt q m vzero vzero vzero = Ok vzero).
  { intros. rewrite boris_free by (intros _; apply subluminal_zero). now rewrite round_velocity_id. }
  intros p dt q m. destruct p; cbn [push]; try apply B.
  change vzero with (V3 0 0 0) at 2 3. rewrite vay_perpendicular; [|assert (P := LIGHT_SPEED_pos); nra|now left].
  unfold vzero. f_equal. unfold vay_tau, Rdiv. f_equal; ring.
Qed.

Lemma first_half_rest : forall dt f, v1 (pos f) = 0 -> 0 <= v0 (pos f) ->
  first_half dt (set_vel vzero f) = Phase (V3 (v0 (pos f)) 0 (v2 (pos f))) vzero (v0 (pos f)) (v2 (pos f)) 0.
Proof.
  intros dt f Y R. unfold first_half, back_position_to_rz, half_step_pos, dump_position_to_old, set_vel. cbn [pos vel r_old z_old sin_theta v0 v1 v2 vzero].
  rewrite Y, !Rmult_0_l, !Rplus_0_r, !Rmult_0_l, Rplus_0_r, sqrt_square by exact R. unfold Rdiv. now rewrite Rmult_0_l.
Qed.

Lemma second_half_rest : forall g dt f, inside_domain g (v0 (pos f)) (v2 (pos f)) -> 0 <= v0 (pos f) -> v1 (pos f) = 0 -> vel f = vzero ->
  second_half g dt f = Phase (V3 (v0 (pos f)) 0 (v2 (pos f))) vzero (r_old f) (z_old f) 0.
Proof.
  intros g dt f (R1 & Z1) R Y V. unfold second_half, back_position_to_rz, reflection, half_step_pos. cbn [pos vel r_old z_old sin_theta].
  rewrite V. cbn [v0 v1 v2 vzero]. rewrite Y, !Rmult_0_l, !Rplus_0_r. unfold reflect_above, reflect_below.
  destruct (Rlt_dec (r_size g - dr g / 2) (v0 (pos f))) as [X|_]; [lra|].
  destruct (Rlt_dec (z_size g - dz g / 2) (v2 (pos f))) as [X|_]; [lra|].
  destruct (Rlt_dec (v0 (pos f)) (dr g / 2)) as [X|_]; [lra|].
  destruct (Rlt_dec (v2 (pos f)) (dz g / 2)) as [X|_]; [lra|]. cbn [pos vel r_old z_old sin_theta v0 v1 v2].
  rewrite Rmult_0_l, Rplus_0_r, sqrt_square by exact R. unfold Rdiv. now rewrite Rmult_0_l.
Qed.

(** A particle at rest somewhere inside the domain. *)
Definition resting (g : geom) (p : particle) : Prop :=
  p_alive p = true /\ vel (p_phase p) = vzero /\ v1 (pos (p_phase p)) = 0 /\ inside_domain g (p_r p) (p_z p).
Definition stays (p p' : particle) : Prop :=
  p_alive p' = p_alive p /\ p_r p' = p_r p /\ p_z p' = p_z p /\ vel (p_phase p') = vel (p_phase p) /\ v1 (pos (p_phase p')) = v1 (pos (p_phase p)).

Lemma step_v_rest : forall su m p p', geom_ok (su_geom su) -> zero_mem m -> resting (su_geom su) p -> step_v_one su m p = Ok p' ->
  p' = with_phase p (Phase (V3 (p_r p) 0 (p_z p)) vzero (p_r p) (p_z p) 0).
Proof.
  intros su m p p' Hg Hm (A & V & Y & I) H. unfold step_v_one in H. rewrite A in H. destruct (_ && _); [discriminate|].
  rewrite (get_efield_zero _ _ _ _ Hm), (get_hfield_zero _ _ _ _ Hm), V, push_rest in H. cbn [bind] in H. injection H as <-.
  unfold with_phase. rewrite A. f_equal. apply first_half_rest; [exact Y|]. destruct I as (I & _). assert (D := dr_pos _ Hg). unfold p_r in I. lra.
Qed.

Lemma moved_rest : forall g dt p, geom_ok g -> p_alive p = true -> inside_domain g (p_r p) (p_z p) ->
  velocity_back (half_reflect g dt false (with_phase p (Phase (V3 (p_r p) 0 (p_z p)) vzero (p_r p) (p_z p) 0))) =
  with_phase p (Phase (V3 (p_r p) 0 (p_z p)) vzero (p_r p) (p_z p) 0) /\
  half_reflect g dt false (with_phase p (Phase (V3 (p_r p) 0 (p_z p)) vzero (p_r p) (p_z p) 0)) =
  with_phase p (Phase (V3 (p_r p) 0 (p_z p)) vzero (p_r p) (p_z p) 0).
Proof.
  intros g dt p Hg A I. assert (D := dr_pos _ Hg). destruct (I) as (I1 & _).
  assert (E : half_reflect g dt false (with_phase p (Phase (V3 (p_r p) 0 (p_z p)) vzero (p_r p) (p_z p) 0)) =
    with_phase p (Phase (V3 (p_r p) 0 (p_z p)) vzero (p_r p) (p_z p) 0)).
  { unfold half_reflect. cbn [with_phase p_alive p_phase]. rewrite A. rewrite second_half_rest; cbn [pos vel v0 v1 v2]; auto; lra. }
  split; [|exact E]. rewrite E. unfold velocity_back. cbn [with_phase p_alive]. rewrite A. unfold with_phase. cbn [p_alive p_charge p_mass p_phase].
  f_equal. unfold back_velocity_to_rz. cbn [pos vel r_old z_old sin_theta v0 v1 v2 vzero]. f_equal. unfold vzero. f_equal; ring.
Qed.

(** No current. *)
Lemma current_rest : forall g dt q r z, current_single g dt q r z r z = [].
Proof.
  intros g dt q r z. unfold current_single. destruct (tie_cells (dr g) r r) as [a b]. destruct (tie_cells (dz g) z z) as [c d].
  assert (Z0 : forall x, Rabs (x - x) < MNZL). { intro x. replace (x - x) with 0 by ring. rewrite Rabs_R0. apply MNZL_pos. }
  destruct (Rlt_dec (Rabs (r - r)) MNZL) as [_|X]; [|destruct (X (Z0 r))]. unfold strict_motion.
  destruct (Rlt_dec (Rabs (r - r)) MNZL) as [_|X]; [|destruct (X (Z0 r))].
  destruct (Rlt_dec (Rabs (z - z)) MNZL) as [_|X]; [reflexivity|destruct (X (Z0 z))].
Qed.

Definition zero_cur (j : currents) : Prop := forall c i k, j c i k = 0.

Lemma apply_zero_jincs : forall l j, zero_cur j -> Forall (fun x => val (j_inc x) = 0) l -> zero_cur (apply_jincs j l).
Proof.
  induction l as [|x l IH]; intros j Hj F; [exact Hj|]. inversion F as [|? ? F1 F2]; subst. cbn [apply_jincs fold_left]. apply IH; [|exact F2].
  intros c i k. unfold apply_jinc. destruct (jcomp_eqb c (j_comp x)); [|apply Hj]. unfold apply_inc, upd.
  destruct (_ && _); [rewrite Hj, F1; ring|apply Hj].
Qed.

Lemma azimuthal_rest : forall g q r z, Forall (fun x => val (j_inc x) = 0) (azimuthal_single g q 0 r z).
Proof. intros. unfold azimuthal_single, inc_j_phi. repeat constructor; cbn [j_inc val]; ring. Qed.

(** ** One iteration *)

Definition settle (p : particle) : particle := with_phase p (Phase (V3 (p_r p) 0 (p_z p)) vzero (p_r p) (p_z p) 0).
Definition settle_group (x : group) : group := Group (g_bunch x) (map settle (g_parts x)).

Lemma exec_beam_none : forall su t s s1, (number_bunches (su_beam su) <= 0)%Z -> s_bunch_number s = 0%Z ->
  Forall (fun x => g_bunch x = None) (s_groups s) -> exec_beam su t s = Ok s1 ->
  s1 = Sim (s_fields s) (s_current s) (s_rho_bunch s) (s_groups s) 0 (s_probes s).
Proof.
  intros su t s s1 N B F H. unfold exec_beam in H. apply bind_inv in H. destruct H as (af & E & H). unfold init_beam in E.
  destruct (erase_reached _ _ _); [discriminate|]. injection E as <-.
  assert (C : create_bunch (su_beam su) t (BeamState (s_bunch_number s) (bunch_numbers (s_groups s))) = BeamState (s_bunch_number s) (bunch_numbers (s_groups s))).
  { unfold create_bunch. cbn [current_bunch_number c_bunches]. rewrite B. destruct (Rle_dec _ _); [|reflexivity].
    destruct (Z.ltb_spec 0 (number_bunches (su_beam su))); [lia|reflexivity]. }
  rewrite C in H. cbn [current_bunch_number] in H. rewrite Z.eqb_refl in H. apply bind_inv in H. destruct H as (gs' & E & H). injection H as <-.
  rewrite B. f_equal. apply traverse_inv in E. clear - E F. induction E as [|x y l l' H E IH]; [reflexivity|].
  inversion F as [|? ? F1 F2]; subst. unfold inject_group in H. rewrite F1 in H. injection H as ->. f_equal. now apply IH.
Qed.

Lemma step_v_groups_rest : forall su m gs gs', geom_ok (su_geom su) -> zero_mem m -> Forall (resting (su_geom su)) (flat_map g_parts gs) ->
  traverse (step_v_group su m) gs = Ok gs' -> gs' = map settle_group gs.
Proof.
  intros su m gs gs' Hg Hm F H. apply traverse_inv in H. induction H as [|x y l l' H F2 IH]; [reflexivity|].
  cbn [flat_map] in F. apply Forall_app in F. destruct F as (Fx & Fl). cbn [map]. rewrite <- (IH Fl). f_equal.
  unfold step_v_group in H. apply bind_inv in H. destruct H as (ps & E & H). injection H as <-. unfold settle_group. f_equal.
  apply traverse_inv in E. clear - E Fx Hg Hm. induction E as [|p p' ps ps' H E IH]; [reflexivity|]. inversion Fx as [|? ? F1 F2]; subst.
  cbn [map]. f_equal; [|now apply IH]. unfold settle. now apply step_v_rest with (su := su) (m := m).
Qed.

Lemma settle_idem : forall p, settle (settle p) = settle p.
Proof. intro p. reflexivity. Qed.

Lemma full_current_rest : forall su gs j j' gs', geom_ok (su_geom su) -> zero_cur j ->
  Forall (fun x => g_bunch x = None) gs ->
  Forall (resting (su_geom su)) (flat_map g_parts gs) ->
  full_current su j (map settle_group gs) = Ok (j', gs') -> zero_cur j' /\ gs' = map settle_group gs.
Proof.
  intros su. induction gs as [|x gs IH]; intros j j' gs' Hg Hj FB F H; cbn [map full_current] in H.
  - injection H as <- <-. now split.
  - cbn [flat_map] in F. apply Forall_app in F. destruct F as (Fx & Fl). inversion FB as [|? ? B1 B2]; subst.
    apply bind_inv in H. destruct H as (y & E & H). apply bind_inv in H. destruct H as (r & E' & H). injection H as <- <-.
    unfold full_current_group in E. cbv zeta in E. destruct (_ && _); [|discriminate]. injection E as <-. cbn [fst snd] in *.
    assert (M : moved su (settle_group x) = map settle (g_parts x) /\ map velocity_back (moved su (settle_group x)) = map settle (g_parts x)).
    { unfold moved. cbn [settle_group g_bunch g_parts]. rewrite B1, !map_map. split; apply map_ext_in; intros p Hp; rewrite Forall_forall in Fx;
      destruct (Fx p Hp) as (A & V & Y & I); apply (moved_rest (su_geom su) (su_dt su) p Hg A I). }
    destruct M as (M1 & M2). rewrite M2. rewrite M1 in E'. destruct r as [j2 gs2].
    assert (ZJ : zero_cur (apply_jincs (apply_jincs j (azimuthal_incs (su_geom su) (map settle (g_parts x))))
        (current_incs (su_geom su) (su_dt su) (map settle (g_parts x))))).
    { apply apply_zero_jincs; [apply apply_zero_jincs; [exact Hj|]|].
      * unfold azimuthal_incs. cbn [settle_group g_parts]. apply Forall_flat_map. apply Forall_map. eapply Forall_impl; [|exact Fx].
        intros p (A & _). cbn [settle with_phase p_alive p_phase vel v1 vzero]. rewrite A. apply azimuthal_rest.
      * unfold current_incs. apply Forall_flat_map. apply Forall_map. eapply Forall_impl; [|exact Fx].
        intros p (A & _). unfold current_part, c_of, settle, with_phase, p_r, p_z. cbn [c_alive c_charge c_r c_z c_r_old c_z_old p_alive p_charge p_phase pos v0 v2 r_old z_old].
        rewrite A, current_rest. constructor. }
    destruct (IH _ _ _ Hg ZJ B2 Fl E') as (Z1 & ->). split; [exact Z1|reflexivity].
Qed.

Lemma dump_data_probes : forall g frames t dt arrays bs ps rho rho' ps', dump_data g frames t dt arrays bs rho ps = Ok (rho', ps') ->
  map (fun x => schedule (fst x)) ps' = map (fun x => schedule (fst x)) ps.
Proof.
  intros g frames t dt arrays bs. induction ps as [|[p f] ps IH]; intros rho rho' ps' H; cbn [dump_data] in H; [injection H as _ <-; reflexivity|].
  apply bind_inv in H. destruct H as (now & _ & H). destruct now.
  - apply bind_inv in H. destruct H as (fn & _ & H). apply bind_inv in H. destruct H as ([rho2 ps2] & E & H). injection H as <- <-.
    apply IH in E. cbn [map fst snd]. now rewrite E.
  - apply bind_inv in H. destruct H as ([rho2 ps2] & E & H). injection H as <- <-.
    apply IH in E. cbn [map fst snd]. now rewrite E.
Qed.

Lemma reset_j_zero : forall g j, zero_cur j -> zero_cur (reset_j g j).
Proof. intros g j H c i k. unfold reset_j. destruct (_ && _)%bool; [reflexivity|apply H]. Qed.

Lemma set_current_zero : forall jr jp jz m, (forall i k, jr i k = 0) -> (forall i k, jp i k = 0) -> (forall i k, jz i k = 0) ->
  zero_mem m -> zero_mem (set_current jr jp jz m).
Proof. intros jr jp jz m A B C D [[[] i] k]; cbn; auto. Qed.

Lemma rest_step : forall su t s, sound su -> (number_bunches (su_beam su) <= 0)%Z -> begins (su_geom su) s -> at_rest s ->
  exists s', one_step su t s = Ok s' /\ begins (su_geom su) s' /\ at_rest s' /\ s_groups s' = map settle_group (s_groups s).
Proof.
  intros su t s HS N B (RF & RJ & RP). assert (Hg : geom_ok (su_geom su)) by apply HS.
  destruct (step_ok su HS t t (t + 1) s) as (s' & E & J); [left; lia|lra|lra| |].
  { apply begins_inv; auto. intros _. destruct B as (_ & _ & B & _). replace (t - t) with 0 by ring. rewrite Rmult_0_r, Rminus_0_r. split.
    - eapply Forall_impl; [|exact B]. intros p (_ & (I & _) & _). lra.
    - destruct HS as (_ & _ & _ & _ & _ & _ & _ & _ & _ & _ & _ & _ & RA & _). lra. }
  exists s'. split; [exact E|]. destruct B as (B1 & B2 & B3 & B4).
  destruct (one_step_inv su t s s' E) as (s1 & gs2 & j3 & rho & E1 & E2 & E3 & EJ & EF & EN & _ & ED).
  apply exec_beam_none in E1; auto. subst s1. cbn [s_fields s_current s_rho_bunch s_groups s_bunch_number s_probes] in *.
  assert (FR : Forall (resting (su_geom su)) (flat_map g_parts (s_groups s))).
  { unfold all_particles in *. rewrite Forall_forall in *. intros p Hp. destruct (RP p Hp) as (A & V). destruct (B3 p Hp) as (Y & I & _). exact (conj A (conj V (conj Y I))). }
  assert (Hm : zero_mem (calc_hfield (su_geom su) (su_dt su) (s_fields s))) by now apply calc_hfield_zero.
  apply step_v_groups_rest in E2; auto. subst gs2.
  apply full_current_rest in E3; auto; [|now apply reset_j_zero]. destruct E3 as (ZJ & EG).
  assert (AP : all_particles s' = map settle (all_particles s)).
  { unfold all_particles. rewrite EG. clear. induction (s_groups s) as [|x l IH]; [reflexivity|]. cbn. now rewrite map_app, IH. }
  repeat split.
  - rewrite EG. apply Forall_map. exact B1.
  - exact EN.
  - rewrite AP. apply Forall_map. eapply Forall_impl; [|exact B3]. intros p (Y & I & _). unfold may_start, settle, with_phase. cbn [p_phase pos vel v1].
    split; [reflexivity|]. split; [exact I|apply subluminal_zero].
  - apply dump_data_probes in ED. assert (X : Forall (fun z => z <> 0%Z) (map (fun x => schedule (fst x)) (s_probes s'))); [|now rewrite Forall_map in X].
    rewrite ED. now apply Forall_map.
  - rewrite EF. apply calc_efield_zero. apply set_current_zero; auto.
  - rewrite EJ. exact ZJ.
  - rewrite AP. apply Forall_map. eapply Forall_impl; [|exact RP]. intros p (A & _). now split.
  - exact EG.
Qed.

Lemma settle_groups_idem : forall gs, map settle_group (map settle_group gs) = map settle_group gs.
Proof.
  intro gs. rewrite map_map. apply map_ext. intro x. unfold settle_group. cbn [g_bunch g_parts]. f_equal. rewrite map_map. apply map_ext. apply settle_idem.
Qed.

Lemma rest_run : forall su n t s, sound su -> (number_bunches (su_beam su) <= 0)%Z -> begins (su_geom su) s -> at_rest s ->
  exists s', iterations su n t s = Ok s' /\ at_rest s' /\ (s_groups s' = s_groups s \/ s_groups s' = map settle_group (s_groups s)).
Proof.
  intros su n. induction n as [|n IH]; intros t s HS N B A; [exists s; cbn; auto|].
  destruct (rest_step su t s HS N B A) as (s1 & E & B1 & A1 & G1).
  destruct (IH (t + su_dt su) s1 HS N B1 A1) as (s2 & E2 & A2 & G2). exists s2. cbn [iterations]. rewrite E. cbn [bind].
  split; [exact E2|]. split; [exact A2|]. right. destruct G2 as [->| ->]; rewrite G1; [reflexivity|]. apply settle_groups_idem.
Qed.

Lemma settle_places : forall s s', Forall (fun p => p_alive p = true /\ vel (p_phase p) = vzero) (all_particles s) ->
  s_groups s' = s_groups s \/ s_groups s' = map settle_group (s_groups s) ->
  places s' = places s /\ map q_of (all_particles s') = map q_of (all_particles s).
Proof.
  intros s s' F [E|E]; unfold places, all_particles in *; rewrite E; [now split|]. clear E.
  induction (s_groups s) as [|x l IH]; [now split|]. cbn [flat_map] in F. apply Forall_app in F. destruct F as (Fx & Fl).
  destruct (IH Fl) as (I1 & I2). cbn [map flat_map]. rewrite I1, map_app, I2, map_app. split; f_equal.
  - cbn [settle_group g_parts]. rewrite map_map. apply map_ext_in. intros p Hp. rewrite Forall_forall in Fx. destruct (Fx p Hp) as (_ & V).
    unfold settle, with_phase, p_r, p_z. cbn [p_phase pos vel v0 v2]. now rewrite V.
  - cbn [settle_group g_parts]. rewrite map_map. reflexivity.
Qed.
