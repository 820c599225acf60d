(** With real numbers Model/GenSim.v is Model/Sim.v. *)
From Coq Require Import Reals ZArith List Bool Lia Lra FunctionalExtensionality.
From Verif.Lib Require Import RAux Outcome Grid Par ParProg.
From Verif.Model Require Bunch.
From Verif.Model Require Import Constants Geometry ChargeDeposit CurrentDeposit Fields Interp Pusher Motion Loading MainLoop Dump Sim
  Arith GenCode GenRun GenSim.
From Verif.Spec Require Import Memory.
From Verif.Proof Require Import GenRealP GenSimP GenSimP2.
Import ListNotations.
Local Open Scope R_scope.

Local Notation RA := real_arith.

Definition to_group (x : group) : bool * list (gparticle RA) :=
  (match g_bunch x with Some _ => true | None => false end, map to_gparticle (g_parts x)).

(** The configuration of Model/GenRun.v for a set-up of Model/Sim.v; [f] is random_reverse(_, 11). *)
Definition to_config (su : setup) (species : list Z) (f : Z -> R) : config RA :=
  Config RA (to_ggeom (su_geom su)) (to_gmedium (su_medium su)) (su_dt su) (su_pusher su) species
    (Bunch.bunch_length (su_beam su)) (Bunch.bunches_distance (su_beam su)) (Bunch.initial_velocity (su_beam su))
    (Bunch.number_bunches (su_beam su)) (Bunch.number_macro (su_beam su))
    (fun k => map to_gparticle (g_parts (new_bunch su k))) (Reverse RA f).

Record fit_setup (su : setup) (f : Z -> R) : Prop := FitSetup {
  tm_rand : testmode su f;
  tm_z : Bunch.beam_z_size (su_beam su) = z_size (su_geom su);
  tm_dt : 0 < su_dt su;
  tm_macro : (0 <= Bunch.number_macro (su_beam su))%Z }.

(** The same state. *)
Record same_state (s : sim) (gs : gsim RA) : Prop := SameState {
  ss_fields : forall a i k, is_j a = false -> gs_fields RA gs (a, i, k) = s_fields s (a, i, k);
  ss_jr : forall i k, gs_fields RA gs (JR, i, k) = s_current s J_R i k;
  ss_jphi : forall i k, gs_fields RA gs (JPHI, i, k) = s_current s J_PHI i k;
  ss_jz : forall i k, gs_fields RA gs (JZ, i, k) = s_current s J_Z i k;
  ss_groups : gs_groups RA gs = map to_group (s_groups s);
  ss_number : gs_bunches RA gs = s_bunch_number s;
  ss_positive : (0 <= s_bunch_number s)%Z;
  ss_bunches : bunch_numbers (s_groups s) = zrange 0 (s_bunch_number s) }.

(** ** Fields *)
Definition agree (f m : fmem) : Prop := forall a i k, is_j a = false -> f (a, i, k) = m (a, i, k).
Definition j_is (f : loc -> R) (j : currents) : Prop :=
  (forall i k, f (JR, i, k) = j J_R i k) /\ (forall i k, f (JPHI, i, k) = j J_PHI i k) /\ (forall i k, f (JZ, i, k) = j J_Z i k).

Definition arr_of (x : loc) : farr := match x with (a, _, _) => a end.

Lemma exec_agree : forall (l : list (@Par.asg loc R)) f m,
  Forall (fun a => is_j (arr_of (tgt a)) = false /\ Forall (fun x => is_j (arr_of x) = false) (Par.reads a)) l ->
  agree f m -> agree (Par.exec loc_eqb l f) (Par.exec loc_eqb l m).
Proof.
  induction l as [|a l IH]; intros f m H Hm; [exact Hm|]. inversion H as [|a' l' [Ht Hr] Hl]; subst.
  apply (IH (exec_asg loc_eqb f a) (exec_asg loc_eqb m a) Hl). intros b i k Hb. unfold exec_asg, store.
  destruct (loc_eqb (b, i, k) (tgt a)); [|now apply Hm]. f_equal. apply map_ext_in. intros [[c u] v] Hx.
  rewrite Forall_forall in Hr. apply Hm. exact (Hr _ Hx).
Qed.

Lemma exec_keeps : forall (P : loc -> Prop) (l : list (@Par.asg loc R)) m x, Forall (fun a => P (tgt a)) l -> ~ P x ->
  Par.exec loc_eqb l m x = m x.
Proof.
  intros P l. induction l as [|a l IH]; intros m x H Hx; [reflexivity|]. inversion H; subst.
  change (Par.exec loc_eqb (a :: l) m) with (Par.exec loc_eqb l (exec_asg loc_eqb m a)). rewrite IH by assumption.
  unfold exec_asg, store. destruct (loc_eqb_spec x (tgt a)) as [->|]; [contradiction|reflexivity].
Qed.

Ltac in_loops H :=
  repeat match type of H with
  | In _ (concat _) => apply in_concat in H; let L := fresh "L" in let H1 := fresh "H1" in destruct H as (L & H1 & H); in_loops H1
  | In _ (_ :: _) => destruct H as [<-|H]
  | In _ [] => destruct H
  | In _ (map _ _) => apply in_map_iff in H; let y := fresh "y" in destruct H as (y & <- & H)
  end.

Lemma hfield_no_j : forall g dt,
  Forall (fun a => is_j (arr_of (tgt a)) = false /\ Forall (fun x => is_j (arr_of x) = false) (Par.reads a))
    (concat (concat (hfield_loops g dt))).
Proof.
  intros g dt. apply Forall_forall. intros a Ha. apply in_concat in Ha. destruct Ha as (l & Hl & Ha).
  apply in_concat in Hl. destruct Hl as (L & HL & Hl). unfold hfield_loops in HL.
  repeat (destruct HL as [<-|HL]; [apply in_map_iff in Hl; destruct Hl as (y & <- & _);
    repeat (destruct Ha as [<-|Ha]; [split; [reflexivity|repeat constructor]|]); destruct Ha|]). destruct HL.
Qed.

Lemma efield_no_j : forall g md dt, Forall (fun a => is_j (arr_of (tgt a)) = false) (concat (concat (efield_loops g md dt))).
Proof.
  intros g md dt. apply Forall_forall. intros a Ha. apply in_concat in Ha. destruct Ha as (l & Hl & Ha).
  apply in_concat in Hl. destruct Hl as (L & HL & Hl). unfold efield_loops in HL.
  repeat (destruct HL as [<-|HL]; [apply in_map_iff in Hl; destruct Hl as (y & <- & _);
    repeat (destruct Ha as [<-|Ha]; [reflexivity|]); destruct Ha|]). destruct HL.
Qed.

Lemma hfield_agree : forall g dt f m, agree f m -> agree (gcalc_hfield RA (to_ggeom g) dt f) (calc_hfield g dt m).
Proof. intros g dt f m H. rewrite gcalc_hfield_real. apply exec_agree; [apply hfield_no_j|exact H]. Qed.

Lemma hfield_keeps_j : forall g dt f a i k, is_j a = true -> gcalc_hfield RA (to_ggeom g) dt f (a, i, k) = f (a, i, k).
Proof.
  intros g dt f a i k Ha. rewrite gcalc_hfield_real. apply (exec_keeps (fun x => is_j (arr_of x) = false)).
  - eapply Forall_impl; [|apply (hfield_no_j g dt)]. cbn. tauto.
  - cbn. congruence.
Qed.

Lemma efield_keeps_j : forall g md dt f a i k, is_j a = true -> calc_efield g md dt f (a, i, k) = f (a, i, k).
Proof.
  intros g md dt f a i k Ha. apply (exec_keeps (fun x => is_j (arr_of x) = false)); [apply efield_no_j|]. cbn. congruence.
Qed.

(** ** Fields at a particle *)
Lemma weighted_agree : forall f m l, agree f m -> Forall (fun t => is_j (arr_of (fst t)) = false) l -> weighted_sum f l = weighted_sum m l.
Proof.
  intros f m l H Hl. unfold weighted_sum. generalize 0. induction Hl as [|[[[a i] k] w] l Ht Hl IH]; intro s; cbn [fold_left]; [reflexivity|].
  cbn [fst] in *. rewrite H by exact Ht. apply IH.
Qed.

Lemma step_v_agree : forall su f m p, agree f m -> step_v_one su f p = step_v_one su m p.
Proof.
  intros su f m p H. unfold step_v_one. destruct (p_alive p); [|reflexivity]. destruct (strict su && _); [reflexivity|].
  assert (E : get_efield (su_geom su) f (p_r p) (p_z p) = get_efield (su_geom su) m (p_r p) (p_z p)).
  { unfold get_efield. rewrite !(weighted_agree f m) by (first [exact H | repeat constructor]). reflexivity. }
  assert (E' : get_hfield (su_geom su) f (p_r p) (p_z p) = get_hfield (su_geom su) m (p_r p) (p_z p)).
  { unfold get_hfield. rewrite !(weighted_agree f m) by (first [exact H | repeat constructor]). reflexivity. }
  now rewrite E, E'.
Qed.

Definition relaxed (su : setup) : setup :=
  Setup (su_geom su) (su_medium su) (su_dt su) (su_pusher su) (su_frames su) (su_beam su) (su_charge su) (su_mass su)
    (su_radius su) (su_density su) (su_rand_r su) (su_rand_z su) false.

Lemma step_v_relaxed : forall su m p p', step_v_one su m p = Ok p' -> step_v_one (relaxed su) m p = Ok p'.
Proof.
  intros su m p p' E. unfold step_v_one in *. destruct (p_alive p); [|exact E].
  destruct (strict su && _); [discriminate|]. exact E.
Qed.

Lemma traverse_step_v : forall su f m ps ps', agree f m -> traverse (step_v_one su m) ps = Ok ps' ->
  traverse (gstep_v_one RA (su_pusher su) (to_ggeom (su_geom su)) (su_dt su) f) (map to_gparticle ps) = Ok (map to_gparticle ps').
Proof.
  intros su f m ps ps' H. revert ps'. induction ps as [|p ps IH]; intros ps' E; cbn in E |- *.
  - injection E as <-. reflexivity.
  - destruct (step_v_one su m p) as [p'|e|] eqn:E1; cbn in E; try discriminate.
    destruct (traverse (step_v_one su m) ps) as [ps1|e|]; cbn in E; try discriminate. injection E as <-.
    assert (R := gstep_v_one_real (relaxed su) f p eq_refl). cbn [su_pusher su_geom su_dt relaxed] in R.
    rewrite R, (step_v_agree (relaxed su) f m p H), (step_v_relaxed _ _ _ _ E1).
    cbn [GenRealP.omap bind]. rewrite (IH ps1 eq_refl). reflexivity.
Qed.

(** ** Deposition *)
Lemma j_is_reset : forall g f j, j_is f j -> j_is (greset_j RA (to_ggeom g) f) (reset_j g j).
Proof.
  intros g f j (H1 & H2 & H3). unfold greset_j, reset_j. repeat split; intros i k;
    change (inside RA (to_ggeom g) i k) with ((0 <=? i)%Z && (i <? n_r g)%Z && (0 <=? k)%Z && (k <? n_z g)%Z);
    destruct ((0 <=? i)%Z && (i <? n_r g)%Z && (0 <=? k)%Z && (k <? n_z g)%Z); auto.
Qed.

Lemma add_j_link : forall g c f j, j_is f j -> incs_in_array g [j_inc c] = true ->
  exists f', gadd_j RA (to_ggeom g) (to_gjinc c) f = Ok f' /\ j_is f' (apply_jinc j c) /\ agree f' f.
Proof.
  intros g [c [r k v]] f j (H1 & H2 & H3) E. unfold incs_in_array in E. cbn in E. rewrite andb_true_r in E.
  unfold gadd_j. cbn [gj_inc grow gcol gval to_gjinc to_ginc].
  change (inside RA (to_ggeom g) (row (j_inc (JInc c (Inc r k v)))) (col (j_inc (JInc c (Inc r k v))))) with (in_array (n_r g) (n_z g) r k).
  rewrite E. eexists. split; [reflexivity|]. unfold apply_jinc, apply_inc, upd, gj_loc. cbn.
  split; [|intros a i l Ha; unfold loc_eqb; cbn; destruct c, a; cbn; try reflexivity; discriminate].
  repeat split; intros i l; destruct c; cbn; rewrite ?H1, ?H2, ?H3;
    destruct (i =? r)%Z, (l =? k)%Z; reflexivity.
Qed.

Lemma agree_trans : forall f m k, agree f m -> agree m k -> agree f k.
Proof. intros f m k H1 H2 a i l Ha. now rewrite H1, H2. Qed.
Lemma agree_refl : forall f, agree f f.
Proof. intros f a i k _. reflexivity. Qed.

Lemma add_js_link : forall g l f j, j_is f j -> jincs_in_array g l = true ->
  exists f', ofold (gadd_j RA (to_ggeom g)) (map to_gjinc l) f = Ok f' /\ j_is f' (apply_jincs j l) /\ agree f' f.
Proof.
  intros g l. induction l as [|c l IH]; intros f j Hj E.
  - exists f. split; [reflexivity|]. split; [exact Hj|apply agree_refl].
  - unfold jincs_in_array, incs_in_array in E. cbn [map forallb] in E. apply andb_true_iff in E. destruct E as [E1 E2].
    destruct (add_j_link g c f j Hj) as (f1 & A1 & J1 & G1). { unfold incs_in_array. cbn [forallb]. now rewrite E1. }
    destruct (IH f1 (apply_jinc j c) J1 E2) as (f2 & A2 & J2 & G2).
    exists f2. cbn [map ofold]. rewrite A1. cbn [bind]. split; [exact A2|]. split; [exact J2|]. now apply (agree_trans f2 f1 f).
Qed.

Lemma jincs_app : forall g a b, jincs_in_array g (a ++ b) = jincs_in_array g a && jincs_in_array g b.
Proof. intros. unfold jincs_in_array, incs_in_array. now rewrite map_app, forallb_app. Qed.
Lemma apply_jincs_app : forall j a b, apply_jincs j (a ++ b) = apply_jincs (apply_jincs j a) b.
Proof. intros. unfold apply_jincs. apply fold_left_app. Qed.

Lemma deposit_link : forall g (F : gparticle RA -> (loc -> R) -> outcome (loc -> R)) (incs : particle -> list jinc),
  (forall p f, F (to_gparticle p) f = ofold (gadd_j RA (to_ggeom g)) (map to_gjinc (incs p)) f) ->
  forall ps f j, j_is f j -> jincs_in_array g (flat_map incs ps) = true ->
  exists f', ofold F (map to_gparticle ps) f = Ok f' /\ j_is f' (apply_jincs j (flat_map incs ps)) /\ agree f' f.
Proof.
  intros g F incs HF. induction ps as [|p ps IH]; intros f j Hj E.
  - exists f. split; [reflexivity|]. split; [exact Hj|apply agree_refl].
  - cbn [flat_map] in *. rewrite jincs_app in E. apply andb_true_iff in E. destruct E as [E1 E2].
    destruct (add_js_link g (incs p) f j Hj E1) as (f1 & A1 & J1 & G1).
    destruct (IH f1 _ J1 E2) as (f2 & A2 & J2 & G2).
    exists f2. cbn [map ofold]. rewrite HF, A1. cbn [bind]. split; [exact A2|]. rewrite apply_jincs_app. split; [exact J2|].
    now apply (agree_trans f2 f1 f).
Qed.

Lemma azimuthal_real : forall g p f, gazimuthal_one RA (to_ggeom g) (to_gparticle p) f =
  ofold (gadd_j RA (to_ggeom g)) (map to_gjinc
    (if p_alive p then azimuthal_single g (p_charge p) (v1 (vel (p_phase p))) (p_r p) (p_z p) else [])) f.
Proof.
  intros g p f. unfold gazimuthal_one. cbn [galive to_gparticle]. destruct (p_alive p); [|reflexivity].
  now rewrite <- gazimuthal_single_real.
Qed.
Lemma current_real : forall g dt p f, gcurrent_one RA (to_ggeom g) dt (to_gparticle p) f =
  ofold (gadd_j RA (to_ggeom g)) (map to_gjinc (current_part g dt (c_of p))) f.
Proof.
  intros g dt p f. unfold gcurrent_one, current_part. cbn [galive to_gparticle c_of c_alive]. destruct (p_alive p); [|reflexivity].
  cbn [c_charge c_r c_z c_r_old c_z_old]. now rewrite <- gcurrent_single_real.
Qed.

Lemma traverse_half : forall g dt b ps,
  traverse (ghalf_reflect RA (to_ggeom g) dt b) (map to_gparticle ps) = Ok (map to_gparticle (map (half_reflect g dt b) ps)).
Proof.
  intros g dt b ps. induction ps as [|p ps IH]; [reflexivity|]. cbn [map traverse]. now rewrite ghalf_reflect_real, IH.
Qed.

Section Setup.
Variables (su : setup) (species : list Z) (rf : Z -> R).
Hypothesis TM : fit_setup su rf.
Notation c := (to_config su species rf).
Notation g := (su_geom su).

Lemma full_current_group_link : forall x f j j' x', j_is f j -> full_current_group su j x = Ok (j', x') ->
  exists f', gfull_current_group RA c (to_group x) f = Ok (f', to_group x') /\ j_is f' j' /\ agree f' f.
Proof.
  intros x f j j' x' Hj E. unfold full_current_group in E.
  destruct (jincs_in_array g (azimuthal_incs g (g_parts x))) eqn:E1; cbn [andb] in E; [|discriminate].
  destruct (jincs_in_array g (current_incs g (su_dt su) (moved su x))) eqn:E2; [|discriminate]. injection E as <- <-.
  unfold gfull_current_group. cbv zeta. cbn [fst snd to_group c_geom c_dt to_config].
  destruct (deposit_link g _ _ (azimuthal_real g) (g_parts x) f j Hj E1) as (f1 & A1 & J1 & G1).
  change (num RA) with R. rewrite A1. cbn [bind]. rewrite traverse_half. cbn [bind].
  destruct (deposit_link g _ _ (current_real g (su_dt su)) (moved su x) f1 _ J1 E2) as (f2 & A2 & J2 & G2).
  unfold moved in A2. rewrite A2. cbn [bind]. exists f2. split.
  - unfold to_group. cbn [g_bunch g_parts]. f_equal. f_equal. f_equal. unfold moved. rewrite !map_map. apply map_ext. intro p. apply gvelocity_back_real.
  - split; [exact J2|]. now apply (agree_trans f2 f1 f).
Qed.

Lemma full_current_link : forall gs f j j' gs', j_is f j -> full_current su j gs = Ok (j', gs') ->
  exists f', gfull_current RA c (map to_group gs) f = Ok (f', map to_group gs') /\ j_is f' j' /\ agree f' f.
Proof.
  induction gs as [|x gs IH]; intros f j j' gs' Hj E; cbn [full_current gfull_current map] in *.
  - injection E as <- <-. exists f. split; [reflexivity|]. split; [exact Hj|apply agree_refl].
  - destruct (full_current_group su j x) as [[j1 x1]|e|] eqn:E1; cbn [bind fst snd] in E; try discriminate.
    destruct (full_current su j1 gs) as [[j2 gs2]|e|] eqn:E2; cbn [bind fst snd] in E; try discriminate. injection E as <- <-.
    destruct (full_current_group_link x f j j1 x1 Hj E1) as (f1 & A1 & J1 & G1).
    destruct (IH f1 j1 j2 gs2 J1 E2) as (f2 & A2 & J2 & G2).
    rewrite A1. cbn [bind fst snd]. rewrite A2. cbn [bind fst snd]. exists f2. split; [reflexivity|]. split; [exact J2|].
    now apply (agree_trans f2 f1 f).
Qed.

Lemma step_v_link_real : forall gs gs' f m, agree f m -> traverse (step_v_group su m) gs = Ok gs' ->
  traverse (gstep_v_group RA c f) (map to_group gs) = Ok (map to_group gs').
Proof.
  intros gs gs' f m H. revert gs'. induction gs as [|x gs IH]; intros gs' E; cbn [traverse map] in *.
  - injection E as <-. reflexivity.
  - unfold step_v_group at 1 in E. destruct (traverse (step_v_one su m) (g_parts x)) as [ps|e|] eqn:E1; cbn [bind] in E; try discriminate.
    destruct (traverse (step_v_group su m) gs) as [gs1|e|]; cbn [bind] in E; try discriminate. injection E as <-.
    unfold gstep_v_group at 1. cbn [fst snd to_group c_pusher c_geom c_dt to_config].
    rewrite (traverse_step_v su f m (g_parts x) ps H E1). cbn [bind]. rewrite (IH gs1 eq_refl). reflexivity.
Qed.

(** ** Beam density *)
Lemma add_rho_ok : forall l rho, incs_in_array g l = true -> exists rho', ofold (gadd_rho RA (to_ggeom g)) (map to_ginc l) rho = Ok rho'.
Proof.
  induction l as [|[r k v] l IH]; intros rho E; [now exists rho|]. unfold incs_in_array in E. cbn [forallb] in E.
  apply andb_true_iff in E. destruct E as [E1 E2]. cbn [map ofold]. unfold gadd_rho at 1. cbn [grow gcol to_ginc row col].
  change (inside RA (to_ggeom g) r k) with (in_array (n_r g) (n_z g) r k). cbn [row col] in E1. rewrite E1. cbn [bind]. now apply IH.
Qed.

Lemma incs_app : forall a b, incs_in_array g (a ++ b) = incs_in_array g a && incs_in_array g b.
Proof. intros. unfold incs_in_array. now rewrite forallb_app. Qed.

Lemma charge_ok : forall ps rho, incs_in_array g (flat_map (charge_weighting_part g) (map q_of ps)) = true ->
  exists rho', ofold (gcharge_one RA (to_ggeom g)) (map to_gparticle ps) rho = Ok rho'.
Proof.
  induction ps as [|p ps IH]; intros rho E; [now exists rho|]. cbn [map flat_map] in E. rewrite incs_app in E.
  apply andb_true_iff in E. destruct E as [E1 E2]. cbn [map ofold]. unfold gcharge_one at 1. cbn [galive to_gparticle].
  unfold charge_weighting_part in E1. cbn [q_alive q_of] in E1. destruct (p_alive p); [|cbn [bind]; now apply IH].
  destruct (add_rho_ok _ rho E1) as (rho1 & A1). cbn [q_charge q_r q_z q_of] in A1. rewrite <- gcharge_weighting_single_real in A1.
  match goal with |- exists _, bind ?X _ = _ => assert (X = Ok rho1) as -> by exact A1 end. cbn [bind]. now apply IH.
Qed.

Lemma weight_ok : forall gs rho rho0, (exists rho', weight_bunches g rho (bunches_of gs) = Ok rho') ->
  exists rho', ofold (fun ps rho => ofold (gcharge_one RA (to_ggeom g)) ps rho) (gbunches_of RA (map to_group gs)) rho0 = Ok rho'.
Proof.
  intros gs rho rho0 (r & E). unfold weight_bunches in E. destruct (forallb _ (bunches_of gs)) eqn:E1; [|discriminate]. clear E.
  revert rho0. induction gs as [|x gs IH]; intro rho0; [now exists rho0|].
  unfold bunches_of in E1. cbn [flat_map] in E1. unfold gbunches_of. cbn [map flat_map to_group fst snd].
  destruct (g_bunch x); cbn [app] in *; [|now apply IH].
  cbn [forallb] in E1. apply andb_true_iff in E1. destruct E1 as [E1 E2]. cbn [ofold].
  destruct (charge_ok (g_parts x) rho0 E1) as (rho1 & ->). cbn [bind]. now apply IH.
Qed.

(** ** Beam *)
Lemma erase_real : forall t nb, (0 <= nb)%Z ->
  erase_reached RA c t nb = Bunch.erase_reached (su_beam su) t (Bunch.BeamState nb (zrange 0 nb)).
Proof.
  intros t nb H. unfold erase_reached, Bunch.erase_reached. cbn [Bunch.c_bunches].
  replace (Z.of_nat (length (zrange 0 nb))) with nb by (unfold zrange; rewrite map_length, seq_length; lia).
  rewrite (tm_z su rf TM). reflexivity.
Qed.

Lemma creates_real : forall t nb l,
  Bunch.create_bunch (su_beam su) t (Bunch.BeamState nb l) =
  if creates RA c t nb then Bunch.BeamState (nb + 1) (l ++ [nb]) else Bunch.BeamState nb l.
Proof.
  intros t nb l. unfold Bunch.create_bunch, creates. cbn [Bunch.current_bunch_number Bunch.c_bunches leb mul of_int add real_arith c_bunches to_config].
  change (c_duration RA c) with (Bunch.duration_of (su_beam su)). change (c_hole RA c) with (Bunch.hole_of (su_beam su)).
  destruct (Rle_dec (IZR nb * (Bunch.duration_of (su_beam su) + Bunch.hole_of (su_beam su))) t); cbn [of_dec andb]; [|reflexivity].
  destruct (nb <? Bunch.number_bunches (su_beam su))%Z; reflexivity.
Qed.

Lemma update_map : forall n f h l, (forall p, h (to_gparticle p) = to_gparticle (f p)) ->
  update_nth n h (map to_gparticle l) = map to_gparticle (update_nth n f l).
Proof.
  intros n f h l H. revert n. induction l as [|p l IH]; intros [|n]; cbn; [reflexivity|reflexivity|now rewrite H|now rewrite IH].
Qed.

Lemma floorZ_nonneg : forall x, 0 <= x -> (0 <= floorZ x)%Z.
Proof. intros x H. destruct (floorZ_spec x) as [_ H1]. apply Z.lt_succ_r, lt_IZR. rewrite succ_IZR. lra. Qed.

Lemma inject_real : forall t n ps l,
  Bunch.bunch_inject g (Bunch.bunch_of (su_beam su) n) (su_dt su) t (su_rand_z su n t) = Ok l ->
  ginject RA c t n (map to_gparticle ps) = Ok (map to_gparticle (inject_all l ps)).
Proof.
  intros t n ps l E. unfold Bunch.bunch_inject in E. cbn [Bunch.b_duration Bunch.b_bunch_number Bunch.b_hole Bunch.b_velocity Bunch.b_number Bunch.bunch_of] in E.
  cbv zeta in E. unfold ginject. cbv zeta.
  cbn [add sub mul div of_int ceil_int trunc_int leb ltb real_arith c_velocity c_dt c_macro c_geom c_rand to_config].
  change (c_duration RA c) with (Bunch.duration_of (su_beam su)). change (c_hole RA c) with (Bunch.hole_of (su_beam su)).
  set (D := Bunch.duration_of (su_beam su)) in *. set (H := Bunch.hole_of (su_beam su)) in *.
  destruct (ceilZ (D / su_dt su) =? 0)%Z eqn:E0; [discriminate|].
  destruct (Rle_dec (D * IZR n + H * IZR n) t) as [Hb|Hb]; cbn [of_dec andb]; [|injection E as <-; reflexivity].
  destruct (Rlt_dec t (D * IZR n + H * IZR n + D)) as [He|He]; cbn [of_dec]; [|injection E as <-; reflexivity].
  set (P := (Bunch.number_macro (su_beam su) / ceilZ (D / su_dt su))%Z) in *.
  set (s := Bunch.truncZ ((t - (D * IZR n + H * IZR n)) / su_dt su * IZR P)) in *.
  change (if Rle_dec 0 ((t - (D * IZR n + H * IZR n)) / su_dt su * IZR P)
          then floorZ ((t - (D * IZR n + H * IZR n)) / su_dt su * IZR P)
          else ceilZ ((t - (D * IZR n + H * IZR n)) / su_dt su * IZR P)) with s.
  assert (Hs : (0 <= P -> 0 <= s)%Z).
  { intro HP. unfold s, Bunch.truncZ. assert (0 <= (t - (D * IZR n + H * IZR n)) / su_dt su * IZR P).
    { apply Rmult_le_pos; [|now apply IZR_le]. apply Rmult_le_pos; [lra|]. left. apply Rinv_0_lt_compat. apply (tm_dt su rf TM). }
    destruct (Rle_dec 0 _); [now apply floorZ_nonneg|contradiction]. }
  assert (HX : forall i, su_rand_z su n t i = rf (i + s)%Z).
  { intro i. rewrite (tm_rand su rf TM). reflexivity. }
  injection E as <-. f_equal.
  assert (Hi : forall i, In i (zrange 0 P) -> (0 <= i + s)%Z).
  { intros i Hi. apply zrange_in in Hi. assert (0 <= s)%Z by (apply Hs; lia). lia. }
  revert ps Hi. generalize (zrange 0 P). induction l as [|i l IH]; intros ps Hi; [reflexivity|].
  cbn [fold_left flat_map]. replace (0 <=? i + s)%Z with true by (symmetry; apply Z.leb_le; apply Hi; now left). cbn [andb].
  assert (Hi' : forall j, In j l -> (0 <= j + s)%Z) by (intros j Hj; apply Hi; now right).
  destruct (i + s <? Bunch.number_macro (su_beam su))%Z; cbn [app]; [|now apply IH].
  cbn [inject_all fold_left]. rewrite (update_map _ (inject_one (Bunch.Inject (i + s)
    (Bunch.initial_velocity (su_beam su) * su_dt su * su_rand_z su n t i + dz g / 2) (Bunch.initial_velocity (su_beam su))))).
  - cbn [Bunch.in_index]. now apply IH.
  - intro p. rewrite HX. reflexivity.
Qed.

Lemma inject_groups_real : forall t gs gs' lo, traverse (inject_group su t) gs = Ok gs' ->
  bunch_numbers gs = zrange lo (lo + Z.of_nat (length (bunch_numbers gs))) ->
  ginject_groups RA c t lo (map to_group gs) = Ok (map to_group gs') /\ bunch_numbers gs' = bunch_numbers gs.
Proof.
  intros t gs. induction gs as [|x gs IH]; intros gs' lo E HB; cbn [traverse] in E.
  - injection E as <-. split; reflexivity.
  - unfold inject_group at 1 in E. unfold bunch_numbers in HB. cbn [flat_map] in HB. fold (bunch_numbers gs) in HB.
    unfold bunch_numbers at 2. cbn [map flat_map]. unfold to_group at 1. fold (bunch_numbers gs).
    destruct (g_bunch x) as [n|] eqn:EN; cbn [app ginject_groups] in *.
    + cbn [length] in HB. rewrite zrange_cons in HB. injection HB as Hn HB.
      destruct (Bunch.bunch_inject g (Bunch.bunch_of (su_beam su) n) (su_dt su) t (su_rand_z su n t)) as [l|e|] eqn:EI; cbn [bind] in E; try discriminate.
      destruct (traverse (inject_group su t) gs) as [gs1|e|] eqn:ET; cbn [bind] in E; try discriminate. injection E as <-.
      subst n. rewrite (inject_real t lo (g_parts x) l EI). cbn [bind].
      destruct (IH gs1 (lo + 1)%Z eq_refl HB) as [I1 I2]. rewrite I1. cbn [bind]. split; [reflexivity|].
      unfold bunch_numbers. cbn [flat_map g_bunch app]. f_equal. exact I2.
    + destruct (traverse (inject_group su t) gs) as [gs1|e|] eqn:ET; cbn [bind] in E; try discriminate. injection E as <-.
      destruct (IH gs1 lo eq_refl HB) as [I1 I2]. rewrite I1. cbn [bind]. split; [cbn [map]; unfold to_group at 2; now rewrite EN|].
      unfold bunch_numbers. cbn [flat_map]. rewrite EN. exact I2.
Qed.

Lemma zrange_len : forall lo hi, length (zrange lo hi) = Z.to_nat (hi - lo).
Proof. intros. unfold zrange. now rewrite map_length, seq_length. Qed.

Lemma beam_real : forall t s gs s', same_state s gs -> exec_beam su t s = Ok s' ->
  exists gs', gbeam RA c t gs = Ok gs' /\ same_state s' gs'.
Proof.
  intros t s gs s' [S1 S2 S3 S4 S5 S6 S7 S8] E. unfold exec_beam, Bunch.init_beam in E. rewrite S8 in E.
  unfold gbeam. rewrite S6, erase_real by exact S7.
  destruct (Bunch.erase_reached (su_beam su) t _); cbn [bind] in E; [discriminate|].
  rewrite creates_real in E. rewrite S5.
  destruct (creates RA c t (s_bunch_number s)); cbn [Bunch.current_bunch_number] in E.
  - replace (s_bunch_number s + 1 =? s_bunch_number s)%Z with false in E by (symmetry; apply Z.eqb_neq; lia).
    destruct (traverse _ _) as [gs1|e|] eqn:ET; cbn [bind] in E; try discriminate. injection E as <-.
    assert (HB : bunch_numbers (s_groups s ++ [new_bunch su (s_bunch_number s)]) = zrange 0 (s_bunch_number s + 1)).
    { unfold bunch_numbers. rewrite flat_map_app. fold (bunch_numbers (s_groups s)). rewrite S8. cbn.
      replace (s_bunch_number s + 1)%Z with (Z.of_nat (S (Z.to_nat (s_bunch_number s)))) by lia.
      rewrite zrange_snoc, Z2Nat.id by exact S7. reflexivity. }
    destruct (inject_groups_real t _ _ 0 ET) as [I1 I2].
    { rewrite HB at 1. rewrite HB, zrange_len. f_equal. lia. }
    rewrite map_app in I1. change (map to_group [new_bunch su (s_bunch_number s)]) with [(true, c_bunch RA c (s_bunch_number s))] in I1.
    rewrite I1. cbn [bind]. eexists. split; [reflexivity|]. constructor; cbn [s_fields s_current s_groups s_bunch_number gs_fields gs_groups gs_bunches]; auto; [lia|]. now rewrite I2.
  - rewrite Z.eqb_refl in E.
    destruct (traverse _ _) as [gs1|e|] eqn:ET; cbn [bind] in E; try discriminate. injection E as <-.
    destruct (inject_groups_real t _ _ 0 ET) as [I1 I2].
    { rewrite S8 at 1. rewrite S8, zrange_len. f_equal. lia. }
    rewrite I1. cbn [bind]. eexists. split; [reflexivity|]. constructor; cbn [s_fields s_current s_groups s_bunch_number gs_fields gs_groups gs_bunches]; auto. now rewrite I2.
Qed.

(** ** One iteration *)
Lemma numbers_map : forall (F : group -> outcome group) gs gs', (forall x y, F x = Ok y -> g_bunch y = g_bunch x) ->
  traverse F gs = Ok gs' -> bunch_numbers gs' = bunch_numbers gs.
Proof.
  intros F gs. induction gs as [|x gs IH]; intros gs' HF E; cbn [traverse] in E; [now injection E as <-|].
  destruct (F x) as [y|e|] eqn:EF; cbn [bind] in E; try discriminate.
  destruct (traverse F gs) as [gs1|e|]; cbn [bind] in E; try discriminate. injection E as <-.
  unfold bunch_numbers. cbn [flat_map]. rewrite (HF x y EF). f_equal. now apply IH.
Qed.

Lemma numbers_current : forall gs j r, full_current su j gs = Ok r -> bunch_numbers (snd r) = bunch_numbers gs.
Proof.
  induction gs as [|x gs IH]; intros j r E; cbn [full_current] in E; [now injection E as <-|].
  destruct (full_current_group su j x) as [[j1 x1]|e|] eqn:E1; cbn [bind fst snd] in E; try discriminate.
  destruct (full_current su j1 gs) as [[j2 gs2]|e|] eqn:E2; cbn [bind fst snd] in E; try discriminate. injection E as <-.
  cbn [snd]. unfold full_current_group in E1. destruct (_ && _); [|discriminate]. injection E1 as _ <-.
  unfold bunch_numbers. cbn [flat_map g_bunch]. f_equal. exact (IH _ _ E2).
Qed.

Lemma iteration_real : forall t s gs s', same_state s gs -> one_step su t s = Ok s' ->
  exists gs', giteration RA c t gs = Ok gs' /\ same_state s' gs'.
Proof.
  intros t s gs s' HS E. unfold one_step, iteration in E. cbn [map exec_all Sim.exec] in E.
  destruct (exec_beam su t s) as [s1|e|] eqn:E1; cbn [bind] in E; try discriminate.
  destruct (beam_real t s gs s1 HS E1) as (gs1 & G1 & [S1 S2 S3 S4 S5 S6 S7 S8]). clear E1 HS.
  destruct s1 as [m1 j1 rho1 grp1 nb1 pr1]. destruct gs1 as [f1 r1 gg1 b1].
  cbn [s_fields s_current s_rho_bunch s_groups s_bunch_number s_probes gs_fields gs_rho gs_groups gs_bunches] in *. subst gg1 b1.
  unfold giteration. rewrite G1. cbn [bind]. cbv zeta. cbn [bind gs_fields gs_rho gs_groups gs_bunches c_geom c_dt c_medium to_config].
  set (m2 := calc_hfield g (su_dt su) m1) in *. set (f2 := greset_j RA (to_ggeom g) (gcalc_hfield RA (to_ggeom g) (su_dt su) f1)).
  assert (A2 : agree f2 m2).
  { intros a i k Ha. unfold f2, greset_j. assert (K := hfield_agree g (su_dt su) f1 m1 S1 a i k Ha). destruct a; try discriminate; exact K. }
  assert (J2 : j_is f2 (reset_j g j1)).
  { apply j_is_reset. repeat split; intros i k; rewrite hfield_keeps_j by reflexivity; auto. }
  destruct (traverse (step_v_group su m2) grp1) as [grp3|e|] eqn:E3; cbn [bind] in E; try discriminate.
  rewrite (step_v_link_real grp1 grp3 f2 m2 A2 E3). cbn [bind].
  cbn [s_fields s_current s_rho_bunch s_groups s_bunch_number s_probes] in E.
  destruct (full_current su (reset_j g j1) grp3) as [[j4 grp4]|e|] eqn:E4; cbn [bind fst snd] in E; try discriminate.
  destruct (full_current_link grp3 f2 _ _ _ J2 E4) as (f4 & G4 & J4 & A4). rewrite G4. cbn [bind fst snd].
  cbn [s_fields s_current s_rho_bunch s_groups s_bunch_number s_probes] in E.
  destruct (weight_bunches g (reset_rho g rho1) (bunches_of grp4)) as [rho5|e|] eqn:E5; cbn [bind] in E; try discriminate.
  destruct (weight_ok grp4 _ (greset_rho RA (to_ggeom g) r1) (ex_intro _ rho5 E5)) as (rho6 & ->). cbn [bind].
  eexists. split; [reflexivity|].
  match type of E with context [dump_data ?a ?b ?c ?d ?e ?f ?g ?h] => destruct (dump_data a b c d e f g h) as [[rho7 pr7]|x|] eqn:E7 end; cbn [bind] in E; try discriminate.
  cbn [fst snd s_fields s_current s_groups s_bunch_number] in E. injection E as <-.
  assert (FE : f4 = set_current (j4 J_R) (j4 J_PHI) (j4 J_Z) m2).
  { apply functional_extensionality. intros [[a i] k]. destruct J4 as (Ja & Jb & Jc). assert (K : is_j a = false -> f4 (a, i, k) = m2 (a, i, k)).
    { intro Ha. now rewrite A4, A2. }
    destruct a; cbn [set_current]; auto. }
  constructor; cbn [s_fields s_current s_groups s_bunch_number gs_fields gs_groups gs_bunches]; auto.
  - intros a i k _. rewrite gcalc_efield_real, FE. reflexivity.
  - intros i k. rewrite gcalc_efield_real, efield_keeps_j by reflexivity. apply J4.
  - intros i k. rewrite gcalc_efield_real, efield_keeps_j by reflexivity. apply J4.
  - intros i k. rewrite gcalc_efield_real, efield_keeps_j by reflexivity. apply J4.
  - rewrite (numbers_current _ _ _ E4 : bunch_numbers grp4 = _).
    rewrite (numbers_map (step_v_group su m2) grp1 grp3); [exact S8| |exact E3].
    intros x y Hy. unfold step_v_group in Hy. destruct (traverse (step_v_one su m2) (g_parts x)) as [ps|e|]; cbn [bind] in Hy; try discriminate. injection Hy as <-. reflexivity.
Qed.

Theorem run_real : forall fuel t te s gs s', same_state s gs -> run su fuel t te s = Some (Ok s') ->
  exists gs', gsim_run RA c fuel t te gs = Ok gs' /\ same_state s' gs'.
Proof.
  unfold run. induction fuel as [|fuel IH]; intros t te s gs s' HS E; cbn [run_loop gsim_run] in *.
  - destruct (Rlt_dec t te); [discriminate|]. injection E as <-. eauto.
  - cbn [ltb real_arith]. destruct (Rlt_dec t te); cbn [of_dec]; [|injection E as <-; eauto].
    destruct (exec_all (Sim.exec su) (map (fun a => (a, t)) iteration) s) as [s1|e|] eqn:E1; try discriminate.
    destruct (iteration_real t s gs s1 HS E1) as (gs1 & -> & HS1). cbn [bind]. exact (IH _ _ _ _ _ HS1 E).
Qed.

End Setup.
