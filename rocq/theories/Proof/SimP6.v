(** Proofs about whole runs: absorbed particles, the beam on the grid. *)
From Coq Require Import Reals ZArith Lra Lia Psatz List Bool.
From Verif.Lib Require Import RAux Grid Outcome Par.
From Verif.Model Require Import Constants Geometry ChargeDeposit CurrentDeposit Fields Interp Pusher Motion Loading
  Bunch Dump MainLoop Sim.
From Verif.Spec Require Import Dynamics Domain Steps Whole Maxwell Cloud Continuity.
From Verif.Proof Require Import GeometryP ChargeP ChargeP2 CurrentP CurrentP4 FieldsP MaxwellP PusherP MotionP InterpP BunchP MainLoopP
  SimP SimP2.
Import ListNotations.
Local Open Scope R_scope.

(** ** Tolerating outside reads changes nothing in a run that succeeds *)

Lemma traverse_mono : forall {A B : Type} (f f' : A -> outcome B), (forall x y, f x = Ok y -> f' x = Ok y) ->
  forall l l', traverse f l = Ok l' -> traverse f' l = Ok l'.
Proof.
  intros A B f f' H. induction l as [|x l IH]; intros l' E; cbn [traverse] in *; [exact E|].
  apply bind_inv in E. destruct E as (y & E1 & E). apply bind_inv in E. destruct E as (ys & E2 & E). now rewrite (H _ _ E1), (IH _ E2).
Qed.

Lemma step_v_one_tolerant : forall su m p p', step_v_one su m p = Ok p' -> step_v_one (tolerant su) m p = Ok p'.
Proof.
  intros su m p p' H. unfold step_v_one in *. destruct (p_alive p); [|exact H]. destruct (strict su && _); [discriminate|].
  cbn [strict tolerant andb]. exact H.
Qed.

Lemma full_current_tolerant : forall su gs j, full_current (tolerant su) j gs = full_current su j gs.
Proof.
  intros su. induction gs as [|x gs IH]; intro j; [reflexivity|]. cbn [full_current].
  change (full_current_group (tolerant su) j x) with (full_current_group su j x). destruct (full_current_group su j x) as [y| |]; try reflexivity.
  cbn [bind]. now rewrite IH.
Qed.

Lemma one_step_tolerant : forall su t s s', one_step su t s = Ok s' -> one_step (tolerant su) t s = Ok s'.
Proof.
  intros su t s s' H. unfold one_step, iteration in *. cbn [map exec_all] in *.
  apply bind_inv in H. destruct H as (s1 & E1 & H). cbn [exec] in E1, H. change (exec (tolerant su) InjectBeam t s) with (exec_beam su t s). rewrite E1. cbn [bind] in *.
  cbn [s_fields s_current s_rho_bunch s_groups s_bunch_number s_probes exec bind] in *.
  apply bind_inv in H. destruct H as (s2 & E2 & H). apply bind_inv in E2. destruct E2 as (gs2 & E2 & X). injection X as <-.
  change (su_geom (tolerant su)) with (su_geom su). change (su_dt (tolerant su)) with (su_dt su).
  rewrite (traverse_mono (step_v_group su (calc_hfield (su_geom su) (su_dt su) (s_fields s1)))
    (step_v_group (tolerant su) (calc_hfield (su_geom su) (su_dt su) (s_fields s1)))) with (2 := E2).
  2:{ intros x y K. unfold step_v_group in *. apply bind_inv in K. destruct K as (ps & K1 & K2).
      rewrite (traverse_mono _ _ (step_v_one_tolerant su _) _ _ K1). exact K2. }
  cbn [bind]. rewrite full_current_tolerant. exact H.
Qed.

Lemma iterations_tolerant : forall su n t s s', iterations su n t s = Ok s' -> iterations (tolerant su) n t s = Ok s'.
Proof.
  intros su. induction n as [|n IH]; intros t s s' H; [exact H|]. cbn [iterations] in *. apply bind_inv in H. destruct H as (s1 & E & H).
  rewrite (one_step_tolerant su t s s1 E). cbn [bind]. now apply IH.
Qed.

Lemma tolerant_sound : forall su, sound su -> sound (tolerant su).
Proof. intros su H. exact H. Qed.

(** ** The invariant along iterations *)

Lemma iterations_inv : forall su T e n t s s', sound su -> no_removal (su_beam su) e -> t + INR n * su_dt su <= e -> e <= T ->
  Inv su T t s -> iterations su n t s = Ok s' -> Inv su T (t + INR n * su_dt su) s'.
Proof.
  intros su T e. induction n as [|n IH]; intros t s s' HS NR HE HT J H.
  - injection H as ->. cbn [INR] in *. now replace (t + 0 * su_dt su) with t by ring.
  - cbn [iterations] in H. apply bind_inv in H. destruct H as (s1 & E & H). rewrite S_INR in *. assert (D : 0 < su_dt su) by apply HS.
    assert (P := pos_INR n).
    destruct (step_ok su HS T t e s) as (s1' & E' & J1); auto; try nra. assert (X : s1' = s1) by congruence. subst s1'.
    replace (t + (INR n + 1) * su_dt su) with (t + su_dt su + INR n * su_dt su) by ring. apply IH with s1; auto; nra.
Qed.

(** ** An absorbed particle stays as it is *)

Lemma Forall2_nth_l : forall {A B : Type} (Q : A -> B -> Prop) l l' i x, Forall2 Q l l' -> nth_error l i = Some x ->
  exists y, nth_error l' i = Some y /\ Q x y.
Proof.
  intros A B Q l l' i x F. revert i. induction F as [|a b l l' H F IH]; intros [|i] E; cbn in *; try discriminate; [injection E as <-; eauto|eauto].
Qed.

Lemma inject_group_spent : forall su t x y n i p, sound su -> inject_group su t x = Ok y -> g_bunch x = Some n ->
  nth_error (g_parts x) i = Some p -> (Z.of_nat i < first_fresh su n t)%Z -> nth_error (g_parts y) i = Some p.
Proof.
  intros su t x y n i p HS H EB Ei Hi. unfold inject_group in H. rewrite EB in H. apply bind_inv in H. destruct H as (l & E & H). injection H as <-.
  cbn [g_parts]. destruct (Forall2_nth_l _ _ _ _ _ (inject_all_rel l (g_parts x)) Ei) as (q & Eq & _). rewrite Eq. f_equal.
  destruct (inject_all_nth l (g_parts x) i q Eq) as (p' & Ep & [(-> & _)|(x0 & Hx & HI & _)]); [congruence|]. exfalso.
  destruct (beam_facts su HS) as (V & D & _ & M).
  destruct (inject_ok (su_geom su) (bnch su n) (su_dt su) (SimP.Hdt su HS) D M t (su_rand_z su n t)) as (l' & E' & IN & OUT & VAL).
  unfold bnch in E'. rewrite E in E'. injection E' as <-. destruct (VAL x0 Hx) as (W & _).
  assert (I0 := in_map in_index l x0 Hx). rewrite (IN W) in I0. unfold zrange in I0. apply in_map_iff in I0. destruct I0 as (k & EK & HK). apply in_seq in HK.
  unfold first_fresh in Hi. fold (bnch su n) in *. assert (ST := start_nonneg (bnch su n) (su_dt su) (SimP.Hdt su HS) D M t (proj1 W)).
  destruct (Rlt_dec t (tb (bnch su n))) as [X|_]; [lra|]. lia.
Qed.

Lemma one_step_spent : forall su t s s' gi x n i p, sound su -> one_step su t s = Ok s' -> nth_error (s_groups s) gi = Some x -> g_bunch x = Some n ->
  nth_error (g_parts x) i = Some p -> p_alive p = false -> (Z.of_nat i < first_fresh su n t)%Z ->
  exists x', nth_error (s_groups s') gi = Some x' /\ g_bunch x' = Some n /\ nth_error (g_parts x') i = Some p.
Proof.
  intros su t s s' gi x n i p HS H Ex EB Ei D Hi.
  destruct (one_step_inv su t s s' H) as (s1 & gs2 & j3 & rho & E1 & E2 & E3 & _).
  destruct (exec_beam_inv su t s s1 E1) as (_ & _ & _ & _ & gs & K & F1).
  assert (Ex0 : nth_error gs gi = Some x).
  { destruct K as [(-> & _)|(-> & _)]; [exact Ex|]. rewrite nth_error_app1; [exact Ex|]. apply nth_error_Some. congruence. }
  destruct (Forall2_nth_l _ _ _ _ _ F1 Ex0) as (x1 & Ex1 & I1).
  assert (B1 := proj1 (inject_group_rel su t x x1 I1)). assert (P1 := inject_group_spent su t x x1 n i p HS I1 EB Ei Hi).
  apply traverse_inv in E2. destruct (Forall2_nth_l _ _ _ _ _ E2 Ex1) as (x2 & Ex2 & I2).
  assert (B2 := proj1 (step_v_group_rel su _ x1 x2 I2)).
  assert (P2 : nth_error (g_parts x2) i = Some p).
  { unfold step_v_group in I2. apply bind_inv in I2. destruct I2 as (ps & Y & I2). injection I2 as <-. cbn [g_parts]. apply traverse_inv in Y.
    destruct (Forall2_nth_l _ _ _ _ _ Y P1) as (q & Eq & Y1). unfold step_v_one in Y1. rewrite D in Y1. congruence. }
  assert (Y : exists x3, nth_error (s_groups s') gi = Some x3 /\ g_bunch x3 = g_bunch x2 /\ g_parts x3 = map velocity_back (moved su x2)).
  { clear - E3 Ex2. revert gi Ex2 E3. generalize (reset_j (su_geom su) (s_current s1)). generalize (s_groups s'). intros gs3 j. revert gs3 j j3.
    induction gs2 as [|y gs2 IH]; intros gs3 j j3 gi Ex2 E3; [destruct gi; discriminate|]. cbn [full_current] in E3.
    apply bind_inv in E3. destruct E3 as (r & E & E3). apply bind_inv in E3. destruct E3 as ([j5 gs5] & E' & E3). injection E3 as _ <-.
    unfold full_current_group in E. cbv zeta in E. destruct (_ && _); [|discriminate]. injection E as <-. cbn [fst snd] in *.
    destruct gi as [|gi]; cbn [nth_error] in *; [injection Ex2 as ->; eexists; split; [reflexivity|]; now split|]. eapply IH; eassumption. }
  destruct Y as (x3 & Ex3 & B3 & P3). exists x3. split; [exact Ex3|]. split; [congruence|]. rewrite P3. unfold moved. rewrite map_map.
  rewrite (map_nth_error _ i (g_parts x2) P2). f_equal. apply half_reflect_nature. exact D.
Qed.

Lemma first_fresh_run : forall su n t k, sound su -> (first_fresh su n t <= first_fresh su n (t + INR k * su_dt su))%Z.
Proof.
  intros su n t k HS. induction k as [|k IH]; [cbn [INR]; replace (t + 0 * su_dt su) with t by ring; lia|].
  rewrite S_INR. replace (t + (INR k + 1) * su_dt su) with (t + INR k * su_dt su + su_dt su) by ring.
  assert (M := first_fresh_mono su HS n (t + INR k * su_dt su)). lia.
Qed.

Lemma iterations_spent : forall su k t s s' gi x n i p, sound su -> iterations su k t s = Ok s' -> nth_error (s_groups s) gi = Some x -> g_bunch x = Some n ->
  nth_error (g_parts x) i = Some p -> p_alive p = false -> (Z.of_nat i < first_fresh su n t)%Z ->
  exists x', nth_error (s_groups s') gi = Some x' /\ g_bunch x' = Some n /\ nth_error (g_parts x') i = Some p.
Proof.
  intros su. induction k as [|k IH]; intros t s s' gi x n i p HS H Ex EB Ei D Hi; [injection H as <-; eauto|].
  cbn [iterations] in H. apply bind_inv in H. destruct H as (s1 & E & H).
  destruct (one_step_spent su t s s1 gi x n i p HS E Ex EB Ei D Hi) as (x1 & Ex1 & B1 & P1).
  apply (IH (t + su_dt su) s1 s' gi x1 n i p); auto. assert (M := first_fresh_mono su HS n t). lia.
Qed.

Lemma iterations_group : forall su k t s s' gi x, iterations su k t s = Ok s' -> nth_error (s_groups s) gi = Some x ->
  exists x', nth_error (s_groups s') gi = Some x' /\ g_bunch x' = g_bunch x.
Proof.
  intros su k t s s' gi x H Ex. destruct (iterations_groups su k t s s' H) as (_ & F).
  destruct (Forall2_nth_l _ _ _ gi x F) as (x' & Ex' & (B & _)); [|eauto]. rewrite nth_error_app1; [exact Ex|]. apply nth_error_Some. congruence.
Qed.

(** Once dead after having been alive: never changed again. *)
Lemma absorbed_stays : forall su t0 e s0 a b c sa sb sc gi i pa pb, sound su -> begins (su_geom su) s0 -> no_removal (su_beam su) e ->
  t0 + INR a * su_dt su <= e ->
  iterations su a t0 s0 = Ok sa -> iterations su b (t0 + INR a * su_dt su) sa = Ok sb ->
  iterations su c (t0 + INR a * su_dt su + INR b * su_dt su) sb = Ok sc ->
  particle_at sa gi i = Some pa -> p_alive pa = true -> particle_at sb gi i = Some pb -> p_alive pb = false ->
  particle_at sc gi i = Some pb.
Proof.
  intros su t0 e s0 a b c sa sb sc gi i pa pb HS HB NR HE Ea Eb Ec Pa Aa Pb Ab.
  assert (J : Inv (tolerant su) e (t0 + INR a * su_dt su) sa).
  { apply (iterations_inv (tolerant su) e e a t0 s0 sa); auto; [lra| |now apply iterations_tolerant]. apply begins_inv; auto. discriminate. }
  unfold particle_at in *. destruct (nth_error (s_groups sa) gi) as [x|] eqn:Ex; [|discriminate].
  destruct (iterations_group su b _ sa sb gi x Eb Ex) as (y & Ey & By). rewrite Ey in Pb.
  destruct (g_bunch x) as [n|] eqn:EB.
  - assert (G := inv_groups _ _ _ _ J). rewrite Forall_forall in G. destruct (G x (nth_error_In _ _ Ex)) as (_ & G2). rewrite EB in G2. destruct G2 as (_ & TF).
    assert (Hi : (Z.of_nat i < first_fresh su n (t0 + INR a * su_dt su))%Z).
    { destruct (Z.lt_ge_cases (Z.of_nat i) (first_fresh su n (t0 + INR a * su_dt su))) as [L|L]; [exact L|]. destruct (TF i pa Pa L) as (X & _). congruence. }
    assert (M := first_fresh_run su n (t0 + INR a * su_dt su) b HS).
    destruct (iterations_spent su c _ sb sc gi y n i pb HS Ec Ey By Pb Ab) as (z & Ez & _ & Pz); [lia|]. now rewrite Ez.
  - (* species: the particle is still alive *) exfalso.
    destruct (iterations_groups su b _ sa sb Eb) as (_ & F).
    destruct (Forall2_nth_l _ _ _ gi x F) as (x' & Ex' & (_ & _ & AL)); [rewrite nth_error_app1; [exact Ex|apply nth_error_Some; congruence]|].
    specialize (AL EB). assert (X : x' = y) by congruence. subst x'. destruct (Forall2_nth_l _ _ _ _ _ AL Pa) as (q & Eq & (_ & Q)). congruence.
Qed.

(** ** The beam on the grid *)

Lemma dump_data_rho : forall g frames t dt arrays bs ps rho rho' ps', dump_data g frames t dt arrays bs rho ps = Ok (rho', ps') ->
  Forall (fun x => pr_component (fst x) <> CRhoBeam) ps -> rho' = rho /\ Forall (fun x => pr_component (fst x) <> CRhoBeam) ps'.
Proof.
  intros g frames t dt arrays bs. induction ps as [|[p f] ps IH]; intros rho rho' ps' H F; cbn [dump_data] in H; [injection H as <- <-; now split|].
  inversion F as [|? ? F1 F2]; subst. cbn [fst] in F1.
  apply bind_inv in H. destruct H as (now & _ & H). destruct now.
  - apply bind_inv in H. destruct H as (fn & _ & H). apply bind_inv in H. destruct H as ([rho2 ps2] & E & H). injection H as <- <-.
    destruct (pr_component p) eqn:C; try congruence; apply IH in E; auto; destruct E as (-> & E); (split; [reflexivity|]); constructor; auto; cbn; rewrite C; discriminate.
  - apply bind_inv in H. destruct H as ([rho2 ps2] & E & H). injection H as <- <-. apply IH in E; auto. destruct E as (-> & E). split; [reflexivity|]. now constructor.
Qed.

Lemma charge_weighting_app : forall g rho a b, charge_weighting g rho (a ++ b) = charge_weighting g (charge_weighting g rho a) b.
Proof. intros. unfold charge_weighting. apply fold_left_app. Qed.

Lemma weight_all : forall g bs rho, fold_left (charge_weighting g) bs rho = charge_weighting g rho (concat bs).
Proof. intros g. induction bs as [|b bs IH]; intro rho; [reflexivity|]. cbn [fold_left concat]. now rewrite IH, charge_weighting_app. Qed.

Lemma bunches_concat : forall s, concat (bunches_of (s_groups s)) = map q_of (beam_particles s).
Proof.
  intro s. unfold bunches_of, beam_particles. induction (s_groups s) as [|x l IH]; [reflexivity|]. cbn [flat_map]. rewrite concat_app, IH, map_app. f_equal.
  destruct (g_bunch x); [|reflexivity]. cbn. now rewrite app_nil_r.
Qed.

Lemma beam_density_step : forall su t s s' i k, one_step su t s = Ok s' ->
  Forall (fun x => pr_component (fst x) <> CRhoBeam) (s_probes s) -> inside (n_r (su_geom su)) (n_z (su_geom su)) i k ->
  s_rho_bunch s' i k = charge_weighting (su_geom su) zero_arr (map q_of (beam_particles s')) i k.
Proof.
  intros su t s s' i k H F (Hi & Hk). destruct (one_step_inv su t s s' H) as (s1 & gs2 & j3 & rho & E1 & _ & _ & _ & _ & _ & EW & ED).
  destruct (exec_beam_inv su t s s1 E1) as (_ & _ & _ & EP & _). rewrite EP in ED. apply dump_data_rho in ED; [|exact F]. destruct ED as (-> & _).
  unfold weight_bunches in EW. destruct (forallb _ _); [|discriminate]. injection EW as <-. rewrite weight_all, bunches_concat.
  rewrite !charge_weighting_incs, !apply_incs_at. f_equal. unfold reset_rho, zero_arr.
  destruct (Z.leb_spec 0 i), (Z.ltb_spec i (n_r (su_geom su))), (Z.leb_spec 0 k), (Z.ltb_spec k (n_z (su_geom su))); cbn; lia || reflexivity.
Qed.

Lemma one_step_probes : forall su t s s', one_step su t s = Ok s' ->
  Forall (fun x => pr_component (fst x) <> CRhoBeam) (s_probes s) -> Forall (fun x => pr_component (fst x) <> CRhoBeam) (s_probes s').
Proof.
  intros su t s s' H F. destruct (one_step_inv su t s s' H) as (s1 & gs2 & j3 & rho & E1 & _ & _ & _ & _ & _ & EW & ED).
  destruct (exec_beam_inv su t s s1 E1) as (_ & _ & _ & EP & _). rewrite EP in ED. apply dump_data_rho in ED; [|exact F]. apply ED.
Qed.

Lemma beam_density_run : forall su n t s s' i k, iterations su (S n) t s = Ok s' ->
  Forall (fun x => pr_component (fst x) <> CRhoBeam) (s_probes s) -> inside (n_r (su_geom su)) (n_z (su_geom su)) i k ->
  s_rho_bunch s' i k = charge_weighting (su_geom su) zero_arr (map q_of (beam_particles s')) i k.
Proof.
  intros su. induction n as [|n IH]; intros t s s' i k H F I; cbn [iterations] in H; apply bind_inv in H; destruct H as (s1 & E & H).
  - injection H as <-. now apply beam_density_step with t s.
  - apply (IH (t + su_dt su) s1); auto. now apply one_step_probes with su t s.
Qed.

Lemma beam_charge_run : forall su n t s s', iterations su (S n) t s = Ok s' -> geom_ok (su_geom su) ->
  Forall (fun x => pr_component (fst x) <> CRhoBeam) (s_probes s) -> Forall (in_order (su_geom su)) (all_particles s') ->
  grid_charge (n_r (su_geom su)) (n_z (su_geom su)) (dr (su_geom su)) (dz (su_geom su)) (s_rho_bunch s') =
  rsum (map (fun p => if p_alive p then p_charge p else 0) (beam_particles s')).
Proof.
  intros su n t s s' H Hg F O. unfold grid_charge. rewrite (total_ext _ _ _ _ (charge_weighting (su_geom su) zero_arr (map q_of (beam_particles s')))).
  2:{ intros i k HI. now apply (beam_density_run su n t s s' i k H F). }
  change (total ?a ?b (node_volume ?c ?d) ?r) with (grid_charge a b c d r). rewrite charge_weighting_list_total; auto.
  - assert (Z : grid_charge (n_r (su_geom su)) (n_z (su_geom su)) (dr (su_geom su)) (dz (su_geom su)) zero_arr = 0).
    { unfold grid_charge, total. rewrite (zsum_ext _ (fun _ => 0)); [apply zsum_zero|]. intros i _. rewrite (zsum_ext _ (fun _ => 0)); [apply zsum_zero|]. intros k _. unfold zero_arr. ring. }
    rewrite Z, Rplus_0_l, map_map. reflexivity.
  - apply Forall_map. apply Forall_forall. intros p Hp A. cbn [q_alive q_of q_r q_z] in *.
    assert (I : In p (all_particles s')).
    { unfold beam_particles, all_particles in *. apply in_flat_map in Hp. destruct Hp as (x & Hx & Hp). apply in_flat_map. exists x. split; [exact Hx|].
      destruct (g_bunch x); [exact Hp|destruct Hp]. }
    rewrite Forall_forall in O. destruct (O p I A) as (G & _). exact G.
Qed.
