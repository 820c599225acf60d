(** Proofs about whole runs: Gauss's law, and the charge of the beam on the grid. *)
From Coq Require Import Reals ZArith Lra Lia Psatz List Bool FunctionalExtensionality.
From Verif.Lib Require Import RAux Grid Outcome Par.
From Verif.Model Require Import Constants Geometry ChargeDeposit CurrentDeposit Fields Interp Pusher Motion Loading
  Bunch Dump MainLoop Sim.
From Verif.Spec Require Import Dynamics Domain Steps Whole Maxwell Cloud Continuity.
From Verif.Proof Require Import GeometryP ChargeP ChargeP2 CurrentP CurrentP2 CurrentP3 CurrentP4 FieldsP MaxwellP PusherP MotionP InterpP BunchP MainLoopP
  SimP SimP2 SimP3.
Import ListNotations.
Local Open Scope R_scope.

(** ** Currents of a step *)

Lemma dep_azimuthal : forall c g ps i k, c <> J_PHI -> dep c (azimuthal_incs g ps) i k = 0.
Proof.
  intros c g ps i k N. unfold azimuthal_incs. induction ps as [|p ps IH]; [reflexivity|]. cbn [flat_map]. rewrite dep_app, IH, Rplus_0_r.
  destruct (p_alive p); [|reflexivity]. unfold azimuthal_single, inc_j_phi, dep, comp_incs. cbn [filter j_comp]. destruct c; try reflexivity. congruence.
Qed.

Lemma velocity_back_c_of : forall p, c_of (velocity_back p) = c_of p.
Proof. intro p. unfold velocity_back. destruct (p_alive p) eqn:A; [|reflexivity]. unfold c_of, with_phase, p_r, p_z. reflexivity. Qed.

Lemma full_current_dep : forall su gs j j' gs' c i k, c <> J_PHI -> full_current su j gs = Ok (j', gs') ->
  j' c i k = j c i k + dep c (flat_map (current_part (su_geom su) (su_dt su)) (map c_of (flat_map g_parts gs'))) i k.
Proof.
  intros su. induction gs as [|x gs IH]; intros j j' gs' c i k N H; cbn [full_current] in H.
  - injection H as <- <-. cbn. unfold dep, inc_at, comp_incs. cbn. ring.
  - apply bind_inv in H. destruct H as (y & E & H). apply bind_inv in H. destruct H as ([j2 gs2] & E' & H). injection H as <- <-.
    unfold full_current_group in E. cbv zeta in E. destruct (_ && _); [|discriminate]. injection E as <-. cbn [fst snd] in *.
    rewrite (IH _ _ _ c i k N E'). rewrite !apply_jincs_at, dep_azimuthal by exact N. cbn [flat_map g_parts].
    rewrite map_app, flat_map_app, dep_app.
    replace (map c_of (map velocity_back (moved su x))) with (map c_of (moved su x)).
    2:{ rewrite map_map. apply map_ext. intro p. symmetry. apply velocity_back_c_of. }
    unfold current_incs. rewrite (flat_map_concat_map (current_part _ _) (map c_of (moved su x))), map_map, <- flat_map_concat_map. ring.
Qed.

(** ** Old positions *)

Definition came_from (p p' : particle) : Prop :=
  p_alive p' = p_alive p /\ p_charge p' = p_charge p /\ (p_alive p = true -> r_old (p_phase p') = p_r p /\ z_old (p_phase p') = p_z p).

Lemma step_v_one_old : forall su m p p', step_v_one su m p = Ok p' -> came_from p p'.
Proof.
  intros su m p p' H. unfold step_v_one in H. destruct (p_alive p) eqn:A; [|injection H as <-; repeat split; congruence].
  destruct (_ && _); [discriminate|]. apply bind_inv in H. destruct H as (v & _ & H). injection H as <-. repeat split. now rewrite A.
Qed.

Lemma half_reflect_old : forall g dt p, p_alive (velocity_back (half_reflect g dt false p)) = p_alive p /\
  p_charge (velocity_back (half_reflect g dt false p)) = p_charge p /\
  r_old (p_phase (velocity_back (half_reflect g dt false p))) = r_old (p_phase p) /\ z_old (p_phase (velocity_back (half_reflect g dt false p))) = z_old (p_phase p).
Proof.
  intros g dt p. destruct (half_reflect_nature g dt false p) as (N & A & D). destruct (p_alive p) eqn:E.
  - split; [now apply A|]. split; [unfold nature in N; congruence|]. unfold half_reflect. rewrite E. unfold velocity_back. cbn [with_phase p_alive]. rewrite E.
    cbn [with_phase p_phase]. unfold back_velocity_to_rz, second_half, back_position_to_rz, reflection, half_step_pos.
    cbn [pos vel r_old z_old sin_theta]. repeat (destruct (reflect_above _ _ _)). repeat (destruct (reflect_below _ _ _)). now split.
  - rewrite (D eq_refl). auto.
Qed.

Lemma full_current_old : forall su gs j j' gs', Forall (fun x => g_bunch x = None) gs -> full_current su j gs = Ok (j', gs') ->
  Forall2 (fun p p' => p_alive p' = p_alive p /\ p_charge p' = p_charge p /\ r_old (p_phase p') = r_old (p_phase p) /\ z_old (p_phase p') = z_old (p_phase p))
    (flat_map g_parts gs) (flat_map g_parts gs').
Proof.
  intros su. induction gs as [|x gs IH]; intros j j' gs' B H; cbn [full_current] in H; [injection H as _ <-; constructor|].
  inversion B as [|? ? B1 B2]; subst. apply bind_inv in H. destruct H as (y & E & H). apply bind_inv in H. destruct H as ([j2 gs2] & E' & H). injection H as _ <-.
  unfold full_current_group in E. cbv zeta in E. destruct (_ && _); [|discriminate]. injection E as <-. cbn [fst snd] in *.
  cbn [flat_map g_parts]. apply Forall2_app; [|now apply IH in E'].
  unfold moved. rewrite B1, map_map. apply Forall2_map_r. intro p. apply half_reflect_old.
Qed.

Lemma traverse_flat : forall (f : particle -> outcome particle) (Q : particle -> particle -> Prop) (F : group -> outcome group),
  (forall p p', f p = Ok p' -> Q p p') ->
  (forall x y, F x = Ok y -> exists ps, traverse f (g_parts x) = Ok ps /\ y = Group (g_bunch x) ps) ->
  forall gs gs', traverse F gs = Ok gs' -> Forall2 Q (flat_map g_parts gs) (flat_map g_parts gs') /\ map g_bunch gs' = map g_bunch gs.
Proof.
  intros f Q F Hf HF gs gs' H. apply traverse_inv in H. induction H as [|x y gs gs' H F2 IH]; [split; constructor|].
  destruct (HF x y H) as (ps & E & ->). destruct IH as (I1 & I2). cbn [flat_map map g_parts g_bunch]. rewrite I2. split; [|reflexivity].
  apply Forall2_app; [|exact I1]. apply traverse_inv in E. eapply Forall2_weaken; [|exact E]. exact Hf.
Qed.

Lemma step_species : forall su t s s', species_only su s -> one_step su t s = Ok s' ->
  species_only su s' /\ Forall2 came_from (all_particles s) (all_particles s').
Proof.
  intros su t s s' (N & B & G & A) H.
  destruct (one_step_inv su t s s' H) as (s1 & gs2 & j3 & rho & E1 & E2 & E3 & _ & _ & EN & _).
  apply exec_beam_none in E1; auto. subst s1. cbn [s_fields s_current s_groups s_bunch_number] in *.
  destruct (traverse_flat (step_v_one su (calc_hfield (su_geom su) (su_dt su) (s_fields s))) came_from
    (step_v_group su (calc_hfield (su_geom su) (su_dt su) (s_fields s)))) with (gs := s_groups s) (gs' := gs2) as (F & GB); auto.
  { intros p p'. apply step_v_one_old. }
  { intros x y K. unfold step_v_group in K. apply bind_inv in K. destruct K as (ps & K1 & K2). injection K2 as <-. eauto. }
  assert (G2 : Forall (fun x => g_bunch x = None) gs2).
  { clear - GB G. assert (X : Forall (fun z => z = None) (map g_bunch gs2)); [|now rewrite Forall_map in X]. rewrite GB. now apply Forall_map. }
  assert (G3 := full_current_rel su gs2 _ _ _ E3). assert (F3 := full_current_old su gs2 _ _ _ G2 E3).
  assert (FF : Forall2 came_from (all_particles s) (all_particles s')).
  { unfold all_particles in *. clear - F F3. revert F3. generalize (flat_map g_parts (s_groups s')).
    induction F as [|p p' l l' K F IH]; intros l3 F3; inversion F3 as [|? p3 ? l4 K3 F4]; subst; constructor; [|now apply IH].
    destruct K as (K1 & K2 & K4), K3 as (J1 & J2 & J3 & J4). split; [congruence|]. split; [congruence|]. intro A. destruct (K4 A). split; congruence. }
  split; [|exact FF]. split; [exact N|]. split; [exact EN|]. split.
  - clear - G2 G3. induction G3 as [|x y l l' (K & _) G3 IH]; [constructor|]. inversion G2; subst. constructor; [congruence|auto].
  - clear - FF A. induction FF as [|p p' l l' (K & _) FF IH]; [constructor|]. inversion A; subst. constructor; [congruence|auto].
Qed.

Lemma step_density : forall su t s s' i k, geom_ok (su_geom su) -> 0 < su_dt su -> species_only su s -> one_step su t s = Ok s' ->
  Forall (moved_well (su_geom su)) (all_particles s') -> free_node (su_geom su) i k ->
  balance_at (dr (su_geom su)) (dz (su_geom su)) (su_dt su) (charge_density (su_geom su) s') (charge_density (su_geom su) s)
    (s_current s' J_R) (s_current s' J_Z) i k.
Proof.
  intros su t s s' i k Hg Hdt SO H W Hf. destruct (step_species su t s s' SO H) as ((_ & _ & _ & A') & FF).
  destruct (one_step_inv su t s s' H) as (s1 & gs2 & j3 & rho & E1 & E2 & E3 & EJ & _). set (g := su_geom su) in *. set (dt := su_dt su) in *.
  set (cs := map c_of (all_particles s')).
  assert (LB := list_balance g dt cs zero_arr (fun _ => zero_arr)).
  lapply LB; clear LB.
  2:{ intros p Hp AL. unfold cs in Hp. apply in_map_iff in Hp. destruct Hp as (x & <- & Hx). rewrite Forall_forall in W. specialize (W x Hx).
      destruct W as (W1 & W2 & W3 & W4 & W5). cbn [c_alive c_of] in AL.
      set (rn := p_r x) in *. set (zn := p_z x) in *. set (ro := r_old (p_phase x)) in *. set (zo := z_old (p_phase x)) in *.
      assert (C : cont g dt (p_charge x) (current_single g dt (p_charge x) rn zn ro zo) rn zn ro zo).
      { destruct W5 as [(E & E')|[(E & M)|[(E & M & C)|(M1 & M2 & L1 & L2)]]].
        - rewrite <- E, <- E', current_rest. intros a b. unfold outflow, dep, comp_incs, inc_at. cbn. ring.
        - rewrite <- E. apply axial_move_continuity; auto.
        - rewrite <- E. apply radial_move_in_cell_continuity; auto.
        - now apply current_single_continuity. }
      unfold current_part, q_new, q_old, c_of. cbn [c_alive c_charge c_r c_z c_r_old c_z_old]. rewrite AL. fold rn zn ro zo.
      apply (proj1 (cont_balance g dt (p_charge x) _ rn zn ro zo zero_arr (fun _ => zero_arr) Hg W1 W2 (Rlt_le _ _ W3) (Rlt_le _ _ W4))) in C.
      intros a b. rewrite C. f_equal. apply outflow_ext; intros; apply added_dep. }
  intro LB. specialize (LB i k). unfold balance_at.
  assert (Q1 : map q_new cs = map q_of (all_particles s')) by (unfold cs; rewrite map_map; reflexivity).
  assert (Q2 : map q_old cs = map q_of (all_particles s)).
  { unfold cs. rewrite map_map. clear - FF A'. induction FF as [|p p' l l' (K1 & K2 & K3) FF IH]; [reflexivity|]. inversion A' as [|? ? A1 A2]; subst.
    cbn [map]. rewrite (IH A2). f_equal. unfold q_old, c_of, q_of. cbn [c_alive c_charge c_r_old c_z_old]. destruct K3 as (-> & ->); [congruence|]. now rewrite K1, K2. }
  rewrite Q1, Q2 in LB. unfold charge_density. rewrite LB. f_equal.
  assert (JV : forall c a b, c <> J_PHI -> (0 <= a < n_r g)%Z -> (0 <= b < n_z g)%Z ->
     s_current s' c a b = current_distribution g dt (fun _ => zero_arr) cs c a b).
  { intros c a b Nc Ha Hb. rewrite EJ, (full_current_dep su _ _ _ _ c a b Nc E3), current_distribution_incs, apply_jincs_at. fold g dt. unfold cs, all_particles.
    f_equal. unfold reset_j, zero_arr. destruct (Z.leb_spec 0 a), (Z.ltb_spec a (n_r g)), (Z.leb_spec 0 b), (Z.ltb_spec b (n_z g)); cbn; lia || reflexivity. }
  destruct Hf as (Hi & Hk). unfold outflow. rewrite !(JV J_Z), (JV J_R i k) by (try discriminate; lia). unfold zero_arr at 1 3 4.
  destruct (Z.eq_dec i 0) as [->|Ni].
  - change (0 - 1)%Z with (-1)%Z. replace (node_side (dr g) (dz g) (-1)) with 0 by (unfold node_side; cbn; ring). unfold zero_arr. ring.
  - rewrite (JV J_R (i - 1)%Z k) by (try discriminate; lia). unfold zero_arr. ring.
Qed.

Lemma gauss_iterations : forall su n t s s' i k, geom_ok (su_geom su) -> 0 < su_dt su -> insulating (su_geom su) (su_medium su) ->
  free_node (su_geom su) i k -> species_only su s -> iterations su n t s = Ok s' ->
  (forall m sm, (1 <= m <= n)%nat -> iterations su m t s = Ok sm -> Forall (moved_well (su_geom su)) (all_particles sm)) ->
  gauss_defect su s' i k = gauss_defect su s i k.
Proof.
  intros su. induction n as [|n IH]; intros t s s' i k Hg Hdt Hmd Hf SO H W; [injection H as ->; reflexivity|].
  cbn [iterations] in H. apply bind_inv in H. destruct H as (s1 & E & H).
  rewrite (IH (t + su_dt su) s1 s' i k Hg Hdt Hmd Hf); [|apply (step_species su t s s1 SO E)|exact H|].
  - unfold gauss_defect. rewrite (one_step_fields su t s s1 E). apply gauss_step; auto. cbn [cur_r cur_z].
    apply (step_density su t s s1); auto. apply (W 1%nat); [lia|]. cbn [iterations]. rewrite E. reflexivity.
  - intros m sm Hm Em. apply (W (S m)); [lia|]. cbn [iterations]. rewrite E. exact Em.
Qed.
