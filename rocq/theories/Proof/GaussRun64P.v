(** Gauss's law over whole runs in binary64 (C81). *)
From Coq Require Import ZArith Reals Lra Lia Psatz Bool List FunctionalExtensionality.
From Flocq Require Import Core IEEE754.BinarySingleNaN.
From Verif.Lib Require Import RAux Grid Outcome Par.
From Verif.Model Require Sim.
From Verif.Model Require Import Constants Binary64 Temperature64 Arith Geometry CurrentDeposit Fields Pusher GenCode GenRun GenSim GenFields.
From Verif.Spec Require Import Cloud Continuity Maxwell Poynting Field64 Deposit64 Short Charge64 Gauss64 Double GaussRun64.
From Verif.Proof Require SimP2 Loop64P ShortAll64P MaxwellP Solver64P.
From Verif.Proof Require Import ChargeP ChargeP2 CurrentP Binary64P FloatP Axis64P Flow64P Route64P Species64P Err64P Cell64P Sum64P PoisonP Gauss64P.
Import ListNotations.
Local Open Scope R_scope.

Lemma Forall2_map_r' : forall {X Y Z : Type} (R : X -> Z -> Prop) (f : Y -> Z) l l', Forall2 (fun x y => R x (f y)) l l' -> Forall2 R l (map f l').
Proof. intros X Y Z R f l l' H. induction H; constructor; assumption. Qed.
Lemma Forall2_trans' : forall {X : Type} (P Q R : X -> X -> Prop) l1 l2 l3, (forall a b c, P a b -> Q b c -> R a c) -> Forall2 P l1 l2 -> Forall2 Q l2 l3 -> Forall2 R l1 l3.
Proof. intros X P Q R l1 l2 l3 H F. revert l3. induction F as [|a b l1 l2 HP F IH]; intros l3 G; inversion G; subst; constructor; [now apply (H a b)|now apply IH]. Qed.
Lemma Forall2_impl' : forall {X Y : Type} (P Q : X -> Y -> Prop) l l', (forall a b, P a b -> Q a b) -> Forall2 P l l' -> Forall2 Q l l'.
Proof. intros X Y P Q l l' H F. induction F; constructor; auto. Qed.

Section GaussRun.
Variables pw lg : b64 -> b64.
Notation A := (b64_arith pw lg).
Notation hand := (handed pw lg).
Notation hit := (hits pw lg).
Notation traf := (traffic pw lg).

(** ** Additions *)
Definition jf (a : jcomp) : farr := match a with J_R => JR | J_PHI => JPHI | J_Z => JZ end.
Lemma hits_app : forall a l l' i k, hit a (l ++ l') i k = (hit a l i k + hit a l' i k)%nat.
Proof. intros. unfold hits. rewrite filter_app, app_length. reflexivity. Qed.
Lemma traffic_app : forall a l l' i k, traf a (l ++ l') i k = traf a l i k + traf a l' i k.
Proof. intros a l l' i k. induction l as [|x l IH]; unfold traffic in *; cbn [app fold_right]; [ring|]. rewrite IH. ring. Qed.
Lemma traffic_pos : forall a l i k, 0 <= traf a l i k.
Proof.
  intros a l i k. induction l as [|x l IH]; unfold traffic in *; cbn [fold_right]; [lra|]. destruct (meant pw lg a i k x); [|lra]. assert (P := Rabs_pos (@B2R prec64 emax64 (gval A (gj_inc A x)))). lra.
Qed.
(** The element (i, k) of one component of the current gets what the calls hand to it. *)
Definition sums (l : list (gjinc A)) (f f' : gmem A) : Prop := outside_j pw lg f f' /\
  forall a i k s n M, a <> J_PHI -> close (f (jf a, i, k)) s n M -> many (n + hit a l i k) -> M + traf a l i k <= bp 990 ->
    close (f' (jf a, i, k)) (s + hand a l i k) (n + hit a l i k) (M + traf a l i k).
Lemma sums_nil : forall f, sums [] f f.
Proof. intro f. split; [apply outside_refl|]. intros a i k s n M _ H _ _. cbn [hits filter length handed traffic fold_right]. rewrite Nat.add_0_r, !Rplus_0_r. exact H. Qed.
Lemma sums_app : forall l l' f f1 f2, sums l f f1 -> sums l' f1 f2 -> sums (l ++ l') f f2.
Proof.
  intros l l' f f1 f2 (O1 & H1) (O2 & H2). split; [exact (outside_trans _ _ _ _ _ O1 O2)|]. intros a i k s n M N H HN HM. rewrite hits_app, traffic_app, hand_app in *.
  rewrite Nat.add_assoc in *. rewrite <- !Rplus_assoc in *. apply H2; [exact N| |exact HN|exact HM]. apply H1; [exact N|exact H| |].
  - unfold many in *. apply Rle_trans with (2 := HN). apply le_INR. lia.
  - assert (P := traffic_pos a l' i k). lra.
Qed.
Lemma jcomp_eqb_iff : forall a b, jcomp_eqb a b = true <-> a = b.
Proof. intros [] []; cbn; split; congruence. Qed.
Lemma sums_one : forall g x f f', fin (gval A (gj_inc A x) : b64) -> gadd_j A g x f = Ok f' -> sums [x] f f'.
Proof.
  intros g x f f' FX E. unfold gadd_j in E. destruct (GenRun.inside A g _ _); [|discriminate E]. injection E as <-. split.
  - intros a i j NJ. cbv beta. destruct (loc_eqb_spec (a, i, j) (gj_loc A x)) as [EQ|NE]; [|reflexivity]. exfalso. apply NJ. unfold gj_loc in EQ. injection EQ as -> _ _. unfold jarr. destruct (gj_comp A x); auto.
  - intros a i k s n M N H HN HM. cbv beta.
    assert (HE : hand a [x] i k = if meant pw lg a i k x then B2R (gval A (gj_inc A x) : b64) else 0) by (unfold handed, meant; cbn [fold_right]; apply Rplus_0_r).
    assert (HH : hit a [x] i k = if meant pw lg a i k x then 1%nat else 0%nat) by (unfold hits; cbn [filter]; destruct (meant pw lg a i k x); reflexivity).
    assert (HT : traf a [x] i k = if meant pw lg a i k x then Rabs (B2R (gval A (gj_inc A x) : b64)) else 0) by (unfold traffic; cbn [fold_right]; apply Rplus_0_r).
    rewrite HE, HH, HT in *. clear HE HH HT.
    destruct (loc_eqb_spec (jf a, i, k) (gj_loc A x)) as [EQ|NE].
    + assert (ME : meant pw lg a i k x = true).
      { unfold gj_loc in EQ. injection EQ as E1 -> ->. unfold meant. rewrite !Z.eqb_refl, !andb_true_r. apply jcomp_eqb_iff. destruct a, (gj_comp A x); cbn in E1; congruence. }
      rewrite ME in *. rewrite <- EQ. change (add A) with b64_add. rewrite Nat.add_1_r in *. apply close_add; assumption.
    + assert (ME : meant pw lg a i k x = false).
      { destruct (meant pw lg a i k x) eqn:Q; [|reflexivity]. exfalso. apply NE. unfold meant in Q. rewrite !andb_true_iff, !Z.eqb_eq in Q. destruct Q as ((Q1 & <-) & <-). apply jcomp_eqb_iff in Q1. subst a. reflexivity. }
      rewrite ME in *. rewrite Nat.add_0_r, !Rplus_0_r. exact H.
Qed.
Lemma sums_list : forall g l f f', all_finite pw lg l -> ofold (gadd_j A g) l f = Ok f' -> sums l f f'.
Proof.
  intros g l f f' F. revert f. induction F as [|x l Hx _ IH]; intros f E; [injection E as <-; apply sums_nil|]. cbn [ofold] in E.
  destruct (gadd_j A g x f) as [f1| |] eqn:E1; try discriminate E. cbn [bind] in E. apply (sums_app [x] l _ f1); [exact (sums_one g x f f1 Hx E1)|exact (IH f1 E)].
Qed.
(** The azimuthal currents go to an array of their own. *)
Lemma sums_other : forall g l f f', Forall (fun x => gj_comp A x = J_PHI) l -> ofold (gadd_j A g) l f = Ok f' -> sums [] f f'.
Proof.
  intros g l f f' F. revert f. induction F as [|x l Hx _ IH]; intros f E; [injection E as <-; apply sums_nil|]. cbn [ofold] in E.
  destruct (gadd_j A g x f) as [f1| |] eqn:E1; try discriminate E. cbn [bind] in E. apply (sums_app [] [] _ f1); [|exact (IH f1 E)]. clear E IH.
  unfold gadd_j in E1. destruct (GenRun.inside A g _ _); [|discriminate E1]. injection E1 as <-. unfold gj_loc. rewrite Hx. split.
  - intros a i j NJ. cbv beta. match goal with |- context [loc_eqb ?p ?q] => destruct (loc_eqb_spec p q) as [EQ|NE] end; [|reflexivity]. exfalso. apply NJ. injection EQ as -> _ _. unfold jarr. auto.
  - intros a i k s n M N H HN HM. cbn [hits filter length handed traffic fold_right]. rewrite Nat.add_0_r, !Rplus_0_r. cbv beta. match goal with |- context [loc_eqb ?p ?q] => destruct (loc_eqb_spec p q) as [EQ|NE] end; [|exact H].
    exfalso. apply N. destruct a; cbn in EQ; congruence.
Qed.
Lemma azimuthal_comp : forall g q v r z, Forall (fun x => gj_comp A x = J_PHI) (gazimuthal_single A g q v r z).
Proof. intros. unfold gazimuthal_single. cbv zeta. repeat (apply Forall_cons; [reflexivity|]). apply Forall_nil. Qed.

Section Config.
Variable c : config A.
Notation g := (c_geom A c).
Notation dt := (c_dt A c).
Notation md := (c_medium A c).
Notation incs p := (gcurrent_single A g dt (gcharge A p) (g0 A (gpos A (gph A p))) (g2 A (gpos A (gph A p))) (gr_old A (gph A p)) (gz_old A (gph A p))).
Definition sends (p : gparticle A) : Prop := galive A p = true -> all_finite pw lg (incs p).

Lemma azimuthal_sums : forall ps f f', ofold (gazimuthal_one A g) ps f = Ok f' -> sums [] f f'.
Proof.
  intros ps f f'. revert f. induction ps as [|p ps IH]; intros f E; [injection E as <-; apply sums_nil|]. cbn [ofold] in E.
  destruct (gazimuthal_one A g p f) as [f1| |] eqn:E1; try discriminate E. cbn [bind] in E. apply (sums_app [] [] _ f1); [|exact (IH f1 E)]. unfold gazimuthal_one in E1.
  destruct (galive A p); [exact (sums_other g _ _ _ (azimuthal_comp _ _ _ _ _) E1)|injection E1 as <-; apply sums_nil].
Qed.
Lemma current_sums : forall ps f f', Forall sends ps -> ofold (gcurrent_one A g dt) ps f = Ok f' -> sums (calls pw lg c ps) f f'.
Proof.
  intros ps f f' F. revert f. induction F as [|p ps Hp _ IH]; intros f E; [injection E as <-; apply sums_nil|]. cbn [ofold] in E.
  destruct (gcurrent_one A g dt p f) as [f1| |] eqn:E1; try discriminate E. cbn [bind] in E. unfold calls. cbn [flat_map]. apply (sums_app _ _ _ f1); [|exact (IH f1 E)]. unfold gcurrent_one in E1.
  destruct (galive A p) eqn:AL; [exact (sums_list g _ _ _ (Hp AL) E1)|injection E1 as <-; apply sums_nil].
Qed.

(** ** The particles after an iteration and before it *)
Definition came (p p' : gparticle A) : Prop := galive A p' = galive A p /\ gcharge A p' = gcharge A p /\
  (galive A p = true -> gr_old A (gph A p') = g0 A (gpos A (gph A p)) /\ gz_old A (gph A p') = g2 A (gpos A (gph A p))).
Definition kept (p p' : gparticle A) : Prop := galive A p' = galive A p /\ gcharge A p' = gcharge A p /\ gr_old A (gph A p') = gr_old A (gph A p) /\ gz_old A (gph A p') = gz_old A (gph A p).
Lemma step_came : forall m p p', gstep_v_one A (c_pusher A c) g dt m p = Ok p' -> came p p'.
Proof.
  intros m p p' E. unfold gstep_v_one in E. destruct (galive A p) eqn:AL; [|injection E as <-; repeat split; congruence].
  cbv zeta in E. destruct (_ && _); [|discriminate E]. destruct (gpush A _ _ _ _ _ _ _) as [v| |]; try discriminate E. cbn [bind] in E. unfold ghalf_step_pos in E. destruct (_ && _); [|discriminate E]. cbn [bind] in E. injection E as <-.
  repeat split; cbn [gwith_phase galive]; congruence.
Qed.
Lemma half_kept : forall p p', ghalf_reflect A g dt false p = Ok p' -> kept p p'.
Proof.
  intros p p' E. unfold ghalf_reflect in E. destruct (galive A p) eqn:AL; [|injection E as <-; repeat split; congruence].
  unfold ghalf_step_pos in E. cbv zeta in E. destruct (_ && _); [|discriminate E]. cbn [bind] in E. injection E as <-. unfold kept, gwith_phase, gback_position_to_rz, greflection. cbv zeta. cbn [galive gcharge gph gr_old gz_old gpos gvel g0 g1 g2].
  repeat match goal with |- context [if ?b then (_, _) else (_, _)] => destruct b end; cbn [gr_old gz_old]; auto.
Qed.
Lemma back_kept : forall p, kept p (gvelocity_back A p).
Proof. intro p. unfold gvelocity_back. destruct (galive A p) eqn:AL; repeat split; congruence. Qed.
Lemma back_incs : forall p, galive A (gvelocity_back A p) = galive A p /\ incs (gvelocity_back A p) = incs p.
Proof. intro p. unfold gvelocity_back. destruct (galive A p) eqn:AL; (split; [cbn; congruence|reflexivity]). Qed.
Lemma back_calls : forall ps, calls pw lg c (map (gvelocity_back A) ps) = calls pw lg c ps.
Proof.
  intro ps. unfold calls. induction ps as [|p ps IH]; [reflexivity|]. cbn [map flat_map]. rewrite IH. destruct (back_incs p) as (E1 & E2). f_equal. rewrite E1. destruct (galive A p); [exact E2|reflexivity].
Qed.
Lemma back_sends : forall ps, Forall sends (map (gvelocity_back A) ps) -> Forall sends ps.
Proof.
  intros ps F. rewrite Forall_map in F. refine (Forall_impl _ _ F). intros p H AL. destruct (back_incs p) as (E1 & E2). rewrite <- E2. apply H. now rewrite E1.
Qed.
Lemma calls_app : forall a b, calls pw lg c (a ++ b) = calls pw lg c a ++ calls pw lg c b.
Proof. intros. unfold calls. apply flat_map_app. Qed.

Lemma full_sums : forall gs f r, Forall (fun x => fst x = false) gs -> gfull_current A c gs f = Ok r ->
  Forall (fun x => fst x = false) (snd r) /\ Forall2 kept (flat_map snd gs) (flat_map snd (snd r)) /\
  (Forall sends (flat_map snd (snd r)) -> sums (calls pw lg c (flat_map snd (snd r))) f (fst r)).
Proof.
  intros gs. induction gs as [|(b & ps) gs IH]; intros f r F E; cbn [gfull_current] in E.
  - injection E as <-. cbn [fst snd]. split; [constructor|]. split; [constructor|]. intros _. apply sums_nil.
  - inversion F as [|? ? F1 F2]; subst. cbn [fst] in F1. subst b. destruct (gfull_current_group A c (false, ps) f) as [y| |] eqn:E1; try discriminate E. cbn [bind] in E.
    destruct (gfull_current A c gs (fst y)) as [r'| |] eqn:E2; try discriminate E. injection E as <-. cbn [fst snd]. destruct (IH (fst y) r' F2 E2) as (I1 & I2 & I3). clear IH E2.
    unfold gfull_current_group in E1. cbv zeta in E1. cbn [fst snd] in E1. destruct (ofold _ ps f) as [f1| |] eqn:E2; try discriminate E1. cbn [bind] in E1.
    destruct (Sim.traverse _ _) as [qs| |] eqn:E3; try discriminate E1. cbn [bind] in E1. destruct (ofold _ qs f1) as [f2| |] eqn:E4; try discriminate E1. injection E1 as <-. cbn [fst snd flat_map] in *.
    split; [constructor; [reflexivity|exact I1]|]. split.
    + apply Forall2_app; [|exact I2]. apply Forall2_map_r'. apply SimP2.traverse_inv in E3. refine (Forall2_impl' _ _ _ _ _ E3). intros p q H. apply half_kept in H. destruct H as (H1 & H2 & H3 & H4). destruct (back_kept q) as (B1 & B2 & B3 & B4).
      cbv beta. split; [congruence|]. split; [congruence|]. split; congruence.
    + intro S. apply Forall_app in S. destruct S as (S1 & S2). rewrite calls_app, back_calls. apply (sums_app _ _ _ f2); [|exact (I3 S2)].
      change (calls pw lg c qs) with ([] ++ calls pw lg c qs). apply (sums_app _ _ _ f1); [exact (azimuthal_sums ps _ _ E2)|]. exact (current_sums qs _ _ (back_sends qs S1) E4).
Qed.
Lemma step_groups : forall m gs gs', Sim.traverse (gstep_v_group A c m) gs = Ok gs' -> map fst gs' = map fst gs /\ Forall2 came (flat_map snd gs) (flat_map snd gs').
Proof.
  intros m gs gs' E. apply SimP2.traverse_inv in E. induction E as [|x y gs gs' E _ IH]; [split; constructor|]. destruct IH as (I1 & I2).
  unfold gstep_v_group in E. destruct (Sim.traverse _ (snd x)) as [ps| |] eqn:E1; try discriminate E. injection E as <-. cbn [map flat_map fst snd]. split; [now rewrite I1|]. apply Forall2_app; [|exact I2].
  apply SimP2.traverse_inv in E1. refine (Forall2_impl' _ _ _ _ _ E1). intros p q. apply step_came.
Qed.
Lemma beam_none : forall t s s1, no_beam pw lg c s -> gbeam A c t s = Ok s1 -> s1 = s.
Proof.
  intros t s s1 (NB & F) E. unfold gbeam in E. cbv zeta in E. destruct (erase_reached A c t _); [discriminate E|].
  assert (CR : creates A c t (gs_bunches A s) = false) by (unfold creates; apply andb_false_intro2, Z.ltb_ge; exact NB). rewrite CR in E.
  assert (IG : forall gs k, Forall (fun x : bool * list (gparticle A) => fst x = false) gs -> ginject_groups A c t k gs = Ok gs).
  { clear. intros gs. induction gs as [|(b & ps) gs IH]; intros k F; [reflexivity|]. inversion F as [|? ? F1 F2]; subst. cbn [fst] in F1. subst b. cbn [ginject_groups]. rewrite (IH k F2). reflexivity. }
  rewrite (IG _ 0%Z F) in E. cbn [bind] in E. injection E as <-. destruct s; reflexivity.
Qed.

(** One iteration: what the particles did, and what became of the fields. *)
Lemma iteration_parts : forall t s s', no_beam pw lg c s -> giteration A c t s = Ok s' ->
  no_beam pw lg c s' /\ Forall2 came (parts pw lg s) (parts pw lg s') /\
  (Forall sends (parts pw lg s') -> exists f, sums (calls pw lg c (parts pw lg s')) (greset_j A g (gcalc_hfield A g dt (gs_fields A s))) f /\
     gs_fields A s' = gfield_step A g md dt (Loop64P.drawn pw lg f) (gs_fields A s)).
Proof.
  intros t s s' NB E. unfold giteration in E. destruct (gbeam A c t s) as [s1| |] eqn:EB; cbn [bind] in E; try discriminate E. apply (beam_none t s s1 NB) in EB. subst s1.
  set (f := greset_j A g (gcalc_hfield A g dt (gs_fields A s))) in *. cbv zeta in E. destruct (Sim.traverse _ _) as [gs| |] eqn:ET; cbn [bind] in E; try discriminate E.
  destruct (gfull_current A c gs f) as [r| |] eqn:EC; cbn [bind] in E; try discriminate E. destruct (ofold _ (gbunches_of A (snd r)) _) as [rho| |]; cbn [bind] in E; try discriminate E. injection E as <-.
  destruct NB as (NB & FB). destruct (step_groups _ _ _ ET) as (MF & CA).
  assert (FG : Forall (fun x : bool * list (gparticle A) => fst x = false) gs).
  { assert (X : Forall (fun b => b = false) (map fst gs)) by (rewrite MF; now apply Forall_map). now rewrite Forall_map in X. }
  destruct (full_sums gs f r FG EC) as (F1 & F2 & F3). unfold parts, no_beam in *. cbn [gs_groups gs_bunches gs_fields].
  split; [split; [exact NB|exact F1]|]. split.
  - refine (Forall2_trans' _ _ _ _ _ _ _ CA F2). intros p q p' (K1 & K2 & K3) (L1 & L2 & L3 & L4). split; [congruence|]. split; [congruence|]. intro AL. destruct (K3 AL). split; congruence.
  - intro S. specialize (F3 S). exists (fst r). split; [exact F3|].
    exact (f_equal (gcalc_efield A g md dt) (Loop64P.drawn_set pw lg c (fst r) _ (proj1 F3))).
Qed.

(** ** Charges *)
Notation DR := (B2R (gdr A g : b64)). Notation DZ := (B2R (gdz A g : b64)). Notation DT := (B2R (dt : b64)).
Definition left (ps : list (gparticle A)) (i k : Z) : R :=
  sum_living pw lg (fun p => B2R (gcharge A p : b64) * share DR DZ i k (B2R (gr_old A (gph A p) : b64)) (B2R (gz_old A (gph A p) : b64))) ps.
Lemma left_came : forall ps ps' i k, Forall2 came ps ps' -> left ps' i k = charge_in pw lg g ps i k.
Proof.
  intros ps ps' i k F. unfold left, charge_in. induction F as [|p p' ps ps' (K1 & K2 & K3) _ IH]; [reflexivity|]. cbn [sum_living fold_right] in *. unfold sum_living in IH. rewrite IH, K1. f_equal.
  destruct (galive A p); [|reflexivity]. destruct (K3 eq_refl) as (-> & ->). now rewrite K2.
Qed.
Hypothesis HLOG : accurate_log lg.
Hypothesis HF : fine pw lg g dt.
Lemma clean_sends : forall l p, moved_clean pw lg l c p -> sends p.
Proof. intros l p H AL. exact (proj2 (current64 pw lg l g dt _ _ _ _ _ HLOG HF (H AL))). Qed.
Lemma moves_balance : forall l ps i k, Forall (moved_clean pw lg l c) ps ->
  Rabs (charge_in pw lg g ps i k - left ps i k + outflow DR DZ DT (hand J_R (calls pw lg c ps)) (hand J_Z (calls pw lg c ps)) i k) <= move_slack pw lg c ps.
Proof.
  intros l ps i k F. induction F as [|p ps Hp _ IH].
  - unfold charge_in, left, move_slack, outflow, handed. cbn [sum_living fold_right calls flat_map]. replace (0 - 0 + _) with 0 by ring. rewrite Rabs_R0. lra.
  - unfold charge_in, left, move_slack in *. cbn [sum_living fold_right] in *. unfold sum_living in IH. unfold calls in *. cbn [flat_map]. fold (calls pw lg c ps) in *.
    destruct (galive A p) eqn:AL; [|cbn [app]; rewrite !Rplus_0_l; exact IH].
    assert (K := proj1 (current64 pw lg l g dt _ _ _ _ _ HLOG HF (Hp AL)) i k). change (ddr pw lg g) with (gdr A g) in K. change (ddz pw lg g) with (gdz A g) in K. unfold outflow in *. rewrite !hand_app. cbn [num b64_arith] in *.
    apply Rabs_le_inv in IH. apply Rabs_le_inv in K. apply Rabs_le. lra.
Qed.

(** ** One iteration *)
Variables (theta K BE BH BJ l : R).
Hypothesis HS : steady pw lg g md dt theta K.
Hypothesis HM : nonconducting pw lg g md.
Hypothesis ME : Gauss64.moderate BE.
Hypothesis MH : Gauss64.moderate BH.
Hypothesis MJ : Gauss64.moderate BJ.
Let PDT : 0 < DT := DT_pos _ _ _ _ _ _ _ HS.
Let PDR : 0 < DR := DR_pos _ _ _ _ _ _ _ HS.
Let PDZ : 0 < DZ := DZ_pos _ _ _ _ _ _ _ HS.

Lemma zero_close : close (b64_of_Z 0) 0 0 0.
Proof. destruct (of_Z_exact 0 eq_refl) as (F & E0). split; [exact F|]. rewrite Rabs_R0. split; [lra|]. change (IZR 0) with 0 in E0. rewrite E0, Rminus_0_r, Rabs_R0. cbn [INR]. lra. Qed.
Lemma element_close : forall s f ps a i k, (forall a i k, INR (hit a (calls pw lg c ps) i k) <= bpow radix2 45) -> (forall a i k, traf a (calls pw lg c ps) i k <= BJ / 2) ->
  sums (calls pw lg c ps) (greset_j A g (gcalc_hfield A g dt s)) f -> a <> J_PHI -> (0 <= i < gn_r A g)%Z -> (0 <= k < gn_z A g)%Z ->
  fin (f (jf a, i, k) : b64) /\ Rabs (B2R (f (jf a, i, k) : b64)) <= BJ /\ Rabs (B2R (f (jf a, i, k) : b64) - hand a (calls pw lg c ps) i k) <= sum_error pw lg a (calls pw lg c ps) i k.
Proof.
  intros s f ps a i k HH HT (_ & H) N Hi Hk. assert (IN : GenRun.inside A g i k = true) by (unfold GenRun.inside; rewrite !andb_true_iff, !Z.leb_le, !Z.ltb_lt; lia).
  specialize (H a i k 0 0%nat 0 N). assert (Z : greset_j A g (gcalc_hfield A g dt s) (jf a, i, k) = b64_of_Z 0) by (unfold greset_j; destruct a; cbn [jf]; rewrite IN; reflexivity).
  rewrite Z in H. specialize (H zero_close). cbn [Nat.add] in H. rewrite !Rplus_0_l in H. specialize (HH a i k). specialize (HT a i k).
  assert (BB : BJ <= bp 499) by apply MJ. assert (B5 : bp 499 <= bp 990) by (apply bpow_le; lia). assert (TP := traffic_pos a (calls pw lg c ps) i k).
  destruct H as (F & S & D); [exact HH|lra|]. assert (EE : 2 * INR (hit a (calls pw lg c ps) i k) * u * traf a (calls pw lg c ps) i k = sum_error pw lg a (calls pw lg c ps) i k).
  { unfold sum_error. replace (bpow radix2 (-52)) with (2 * u) by (rewrite u_val; cbn; lra). ring. }
  split; [exact F|]. split; [|rewrite <- EE; exact D]. assert (U := u_pos). assert (H0 := pos_INR (hit a (calls pw lg c ps) i k)).
  assert (NU : 2 * INR (hit a (calls pw lg c ps) i k) * u <= / 16) by (rewrite u_val; change (bpow radix2 45) with 35184372088832 in HH; lra).
  assert (M1 : 2 * INR (hit a (calls pw lg c ps) i k) * u * traf a (calls pw lg c ps) i k <= / 16 * traf a (calls pw lg c ps) i k) by (apply Rmult_le_compat_r; lra).
  assert (T := Rabs_triang_inv (B2R (f (jf a, i, k) : b64)) (hand a (calls pw lg c ps) i k)). lra.
Qed.
Lemma side_axis : node_side DR DZ (-1) = 0. Proof. unfold node_side. cbn. ring. Qed.
Lemma side_pos : forall i, (-1 <= i)%Z -> 0 <= node_side DR DZ i.
Proof. intros i Hi. destruct (Z.eq_dec i (-1)) as [-> |]; [rewrite side_axis; lra|]. rewrite node_side_nonneg by lia. assert (0 <= IZR i) by (apply IZR_le; lia). assert (CP : 0 < c_PI) by (unfold c_PI; lra). assert (P1 : 0 < DR) by exact PDR. assert (P2 : 0 < DZ) by exact PDZ. repeat apply Rmult_le_pos; lra. Qed.
Lemma area_pos : forall i, (0 <= i)%Z -> 0 < node_area DR i.
Proof. intros i Hi. assert (V := node_volume_pos DR DZ i PDR PDZ Hi). unfold node_volume in V. apply Rmult_lt_reg_r with DZ; [exact PDZ|]. lra. Qed.

Lemma gauss_iteration : forall t s s' i k, no_beam pw lg c s -> giteration A c t s = Ok s' -> fields_within pw lg BE BH g (gs_fields A s) -> orderly pw lg l BE BH BJ c s' ->
  (0 <= i < gn_r A g - 1)%Z -> (1 <= k < gn_z A g - 1)%Z ->
  Rabs (gauss_defect pw lg c s' i k - gauss_defect pw lg c s i k) <= step_slack pw lg c K BE BH BJ s' i k.
Proof.
  intros t s s' i k NB E FW [FW1 MV HH HT] Hi Hk. destruct (iteration_parts t s s' NB E) as (_ & CA & X).
  destruct X as (f & SU & EF); [refine (Forall_impl _ _ MV); intros p; apply clean_sends|].
  assert (EL := fun a i k => element_close (gs_fields A s) f (parts pw lg s') a i k HH HT SU). set (L := calls pw lg c (parts pw lg s')) in *.
  unfold gauss_defect. rewrite EF. set (j := Loop64P.drawn pw lg f) in *. unfold step_slack.
  apply (gauss_step pw lg g md dt theta K HS BE BH BJ ME MH MJ (gs_fields A s) j HM FW); [rewrite <- EF; exact FW1| |exact Hi|exact Hk|].
  - intros a b Ha Hb. destruct (EL J_R a b ltac:(discriminate) Ha Hb) as (F1 & F2 & _). destruct (EL J_Z a b ltac:(discriminate) Ha Hb) as (G1 & G2 & _). split; [exact F1|]. split; [exact F2|]. split; [exact G1|exact G2].
  - unfold balance_upto. assert (VP := node_volume_pos DR DZ i PDR PDZ (proj1 Hi)).
    assert (RD : (density pw lg c s' i k - density pw lg c s i k) * node_volume DR DZ i = charge_in pw lg g (parts pw lg s') i k - left (parts pw lg s') i k).
    { rewrite (left_came _ _ i k CA). unfold density. field. cbn [num b64_arith] in *. lra. }
    cbn [num b64_arith] in *. rewrite RD. assert (MB := moves_balance l (parts pw lg s') i k MV). fold L in MB. cbn [num b64_arith] in MB.
    assert (OD : Rabs (outflow DR DZ DT (cur_r (real_currents pw lg j)) (cur_z (real_currents pw lg j)) i k - outflow DR DZ DT (hand J_R L) (hand J_Z L) i k) <= sum_slack pw lg c (parts pw lg s') i k).
    { unfold sum_slack. cbv zeta. fold L. unfold outflow. destruct (EL J_Z i k ltac:(discriminate) ltac:(lia) ltac:(lia)) as (_ & _ & Z1). destruct (EL J_Z i (k - 1)%Z ltac:(discriminate) ltac:(lia) ltac:(lia)) as (_ & _ & Z2). destruct (EL J_R i k ltac:(discriminate) ltac:(lia) ltac:(lia)) as (_ & _ & Z3).
      assert (SE : forall a i k, 0 <= sum_error pw lg a L i k) by (intros; unfold sum_error; apply Rmult_le_pos; [apply Rmult_le_pos; [apply bpow_ge_0|apply pos_INR]|apply traffic_pos]).
      assert (Z4 : Rabs (node_side DR DZ (i - 1) * (cur_r (real_currents pw lg j) (i - 1)%Z k - hand J_R L (i - 1)%Z k)) <= node_side DR DZ (i - 1) * sum_error pw lg J_R L (i - 1)%Z k).
      { destruct (Z.eq_dec i 0) as [-> |NI].
        - change (0 - 1)%Z with (-1)%Z. rewrite side_axis, !Rmult_0_l, Rabs_R0. lra.
        - destruct (EL J_R (i - 1)%Z k ltac:(discriminate) ltac:(lia) ltac:(lia)) as (_ & _ & Z4). rewrite Rabs_mult, Rabs_pos_eq by (apply side_pos; lia). apply Rmult_le_compat_l; [apply side_pos; lia|exact Z4]. }
      change (B2R (f (jf J_Z, i, k) : b64)) with (cur_z (real_currents pw lg j) i k) in Z1. change (B2R (f (jf J_Z, i, (k - 1)%Z) : b64)) with (cur_z (real_currents pw lg j) i (k - 1)%Z) in Z2. change (B2R (f (jf J_R, i, k) : b64)) with (cur_r (real_currents pw lg j) i k) in Z3.
      assert (AP := area_pos i (proj1 Hi)). assert (SP := side_pos i ltac:(lia)). cbn [num b64_arith] in *.
      set (a := node_area DR i) in *. set (b := node_side DR DZ i) in *. set (b' := node_side DR DZ (i - 1)) in *.
      set (x1 := cur_z _ i k) in *. set (x2 := cur_z _ i (k - 1)%Z) in *. set (x3 := cur_r _ i k) in *. set (x4 := cur_r _ (i - 1)%Z k) in *.
      set (y1 := hand J_Z L i k) in *. set (y2 := hand J_Z L i (k - 1)%Z) in *. set (y3 := hand J_R L i k) in *. set (y4 := hand J_R L (i - 1)%Z k) in *.
      set (e1 := sum_error pw lg J_Z L i k) in *. set (e2 := sum_error pw lg J_Z L i (k - 1)) in *. set (e3 := sum_error pw lg J_R L i k) in *. set (e4 := b' * sum_error pw lg J_R L (i - 1) k) in *.
      replace (DT * (a * (x1 - x2) + b * x3 - b' * x4) - DT * (a * (y1 - y2) + b * y3 - b' * y4)) with (DT * (a * ((x1 - y1) - (x2 - y2)) + b * (x3 - y3) - b' * (x4 - y4))) by ring.
      rewrite Rabs_mult, (Rabs_pos_eq DT) by lra. apply Rmult_le_compat_l; [lra|].
      assert (A1 : Rabs (a * ((x1 - y1) - (x2 - y2))) <= a * (e1 + e2)).
      { rewrite Rabs_mult, (Rabs_pos_eq a) by lra. apply Rmult_le_compat_l; [lra|]. apply Rabs_le_inv in Z1. apply Rabs_le_inv in Z2. apply Rabs_le. lra. }
      assert (A2 : Rabs (b * (x3 - y3)) <= b * e3) by (rewrite Rabs_mult, (Rabs_pos_eq b) by lra; apply Rmult_le_compat_l; lra).
      apply Rabs_le_inv in A1. apply Rabs_le_inv in A2. apply Rabs_le_inv in Z4. apply Rabs_le. lra. }
    apply Rabs_le_inv in MB. apply Rabs_le_inv in OD. apply Rabs_le. set (o1 := outflow _ _ _ (cur_r _) _ i k) in *. set (o2 := outflow _ _ _ _ _ i k) in *. lra.
Qed.

Theorem gauss_sim : forall n t e s s' i k, no_beam pw lg c s -> fields_within pw lg BE BH g (gs_fields A s) -> orderly_run pw lg l BE BH BJ c n t e s -> gsim_run A c n t e s = Ok s' ->
  (0 <= i < gn_r A g - 1)%Z -> (1 <= k < gn_z A g - 1)%Z ->
  Rabs (gauss_defect pw lg c s' i k - gauss_defect pw lg c s i k) <= run_slack pw lg K BE BH BJ c n t e s i k.
Proof.
  intros n. induction n as [|n IH]; intros t e s s' i k NB FW OR E Hi Hk; cbn [gsim_run orderly_run run_slack] in *.
  - injection E as <-. rewrite Rminus_diag_eq, Rabs_R0 by reflexivity. lra.
  - destruct (ltb A t e); [|injection E as <-; rewrite Rminus_diag_eq, Rabs_R0 by reflexivity; lra].
    destruct (giteration A c t s) as [s1| |] eqn:E1; cbn [bind] in E; try discriminate E. destruct OR as (O1 & O2).
    assert (G1 := gauss_iteration t s s1 i k NB E1 FW O1 Hi Hk). destruct (iteration_parts t s s1 NB E1) as (NB1 & _).
    assert (G2 := IH _ e s1 s' i k NB1 (or_fields _ _ _ _ _ _ _ _ O1) O2 E Hi Hk). apply Rabs_le_inv in G1. apply Rabs_le_inv in G2. apply Rabs_le. lra.
Qed.

(** ** The magnetic law *)
Lemma iteration_faces : forall t s s', giteration A c t s = Ok s' -> exists f, gs_fields A s' = gfield_step A g md dt (Loop64P.drawn pw lg f) (gs_fields A s).
Proof.
  intros t s s' E. destruct (iteration_fields pw lg c t s s' E) as (s1 & gs & r & _ & _ & X). cbv zeta in X. destruct X as (_ & R & EF). exists (fst r). rewrite EF.
  set (f0 := greset_j A g (gcalc_hfield A g dt (gs_fields A s))) in *.
  assert (O : outside_j pw lg f0 (fst r)).
  { refine (keep_full pw lg (outside_j pw lg f0) c _ gs f0 r (outside_refl pw lg f0) R). intros L f f' O EO. apply (outside_trans pw lg f0 f f' O). clear - EO. revert f EO.
    induction L as [|x L IH]; intros f EO; [injection EO as <-; apply outside_refl|]. cbn [ofold] in EO. destruct (gadd_j A g x f) as [f1| |] eqn:E1; try discriminate EO. cbn [bind] in EO.
    apply (outside_trans pw lg f f1 f'); [|exact (IH f1 EO)]. unfold gadd_j in E1. destruct (GenRun.inside A g _ _); [|discriminate E1]. injection E1 as <-.
    intros a i j NJ. cbv beta. destruct (loc_eqb_spec (a, i, j) (gj_loc A x)) as [EQ|NE]; [|reflexivity]. exfalso. apply NJ. unfold gj_loc in EQ. injection EQ as -> _ _. unfold jarr. destruct (gj_comp A x); auto. }
  exact (f_equal (gcalc_efield A g md dt) (Loop64P.drawn_set pw lg c (fst r) _ O)).
Qed.
Theorem flux_sim : forall n t e s s' i k, walled pw lg g (gs_fields A s) -> finite_faces pw lg g (gs_fields A s) -> within_run pw lg BE BH c n t e s -> gsim_run A c n t e s = Ok s' ->
  (0 <= i < gn_r A g - 1)%Z -> (0 <= k < gn_z A g - 1)%Z ->
  Rabs (flux pw lg g (gs_fields A s') i k - flux pw lg g (gs_fields A s) i k) <= INR n * flux_slack pw lg g BE BH i.
Proof.
  assert (SL : forall i, (0 <= i)%Z -> 0 <= flux_slack pw lg g BE BH i).
  { intros i Hi. unfold flux_slack. assert (P1 : 0 < DR) by exact PDR. assert (P2 : 0 < DZ) by exact PDZ. assert (I0 : 0 <= IZR i) by (apply IZR_le; exact Hi). assert (PP := PI_RGT_0). cbn [num b64_arith] in *.
    assert (RS : 0 <= ring_surface pw lg g i).
    { unfold ring_surface. cbv zeta. cbn [num b64_arith]. set (a := IZR i) in *. set (p := PI) in *. clearbody p a.
      assert (0 <= 2 * p * ((a + 1) * DR) * DZ) by (apply Rmult_le_pos; [apply Rmult_le_pos; [lra|apply Rmult_le_pos; lra]|lra]). assert (0 <= 2 * p * (a * DR) * DZ) by (apply Rmult_le_pos; [apply Rmult_le_pos; [lra|apply Rmult_le_pos; lra]|lra]).
      assert (0 <= p * ((a + 1) * DR * ((a + 1) * DR) - a * DR * (a * DR))).
      { apply Rmult_le_pos; [lra|]. replace ((a + 1) * DR * ((a + 1) * DR) - a * DR * (a * DR)) with ((2 * a + 1) * (DR * DR)) by ring. apply Rmult_le_pos; [lra|apply Rmult_le_pos; lra]. }
      lra. }
    assert (S0 := slow_pos pw lg g md dt theta K HS). assert (E0 := proj1 (phi_small BE (proj1 ME))). assert (H0 := proj1 (phi_small BH (proj1 MH))). assert (M0 : 0 < slowness / MAGN_CONST) by (apply Rdiv_lt_0_compat; [exact S0|unfold MAGN_CONST; lra]).
    assert (U := bpow_ge_0 radix2 (-53)). apply Rmult_le_pos; [apply Rmult_le_pos; lra|]. assert (0 <= 4 * (slowness / MAGN_CONST) * BE) by (apply Rmult_le_pos; lra). lra. }
  intros n. induction n as [|n IH]; intros t e s s' i k HW HX WR E Hi Hk; cbn [gsim_run within_run] in *.
  - injection E as <-. rewrite Rminus_diag_eq, Rabs_R0 by reflexivity. cbn. lra.
  - destruct WR as (FW & WR). specialize (SL i (proj1 Hi)). assert (N0 := pos_INR n). rewrite S_INR. assert (NS : 0 <= INR n * flux_slack pw lg g BE BH i) by (now apply Rmult_le_pos). destruct (ltb A t e); [|injection E as <-; rewrite Rminus_diag_eq, Rabs_R0 by reflexivity; lra].
    destruct (giteration A c t s) as [s1| |] eqn:E1; cbn [bind] in E; try discriminate E. destruct (iteration_faces t s s1 E1) as (f & EF). set (j := Loop64P.drawn pw lg f) in *.
    assert (S := flux_step pw lg g md dt theta K HS BE BH BJ ME MH MJ (gs_fields A s) FW HW HX j i k Hi Hk). rewrite <- EF in S.
    assert (I := IH (add A t dt) e s1 s' i k). rewrite EF in I.
    lapply I; [clear I; intro I|intros x Hx; rewrite (Solver64P.step_wall pw lg g md dt theta K HS) by exact Hx; now apply HW].
    lapply I; [clear I; intro I|exact (faces_step pw lg g md dt theta K HS BE BH BJ ME MH MJ (gs_fields A s) FW HW HX j)].
    rewrite <- EF in I. specialize (I WR E Hi Hk). apply Rabs_le_inv in S, I. apply Rabs_le. lra.
Qed.

(** ** Short moves *)
Notation mshort := (moved_short pw lg c).
Notation total := (total_charge pw lg).
Lemma modest_traffic : forall (q : b64) L, modest pw lg 8 g dt q L -> forall i k,
  DT * DR * DZ * traf J_R L i k <= INR (length L) * (8 * Rabs (B2R q)) /\ DT * DR * DR * traf J_Z L i k <= INR (length L) * (8 * Rabs (B2R q)) /\ traf J_PHI L i k = 0.
Proof.
  intros q L F i k. assert (QP := Rabs_pos (B2R q)). induction F as [|x L (Fx & Hx) _ (I1 & I2 & I3)].
  - unfold traffic. cbn. rewrite !Rmult_0_r. lra.
  - assert (TC : forall a, traf a (x :: L) i k = (if meant pw lg a i k x then Rabs (real (gval A (gj_inc A x))) else 0) + traf a L i k) by reflexivity. rewrite !TC. clear TC. cbn [length]. rewrite S_INR.
    set (t1 := traf J_R L i k) in *. set (t2 := traf J_Z L i k) in *. set (t3 := traf J_PHI L i k) in *. set (n := INR (length L)) in *. clearbody t1 t2 t3 n. unfold meant. cbn [num b64_arith] in *. set (v := Rabs (real (gval A (gj_inc A x)))) in *. clearbody v.
    destruct ((grow A (gj_inc A x) =? i)%Z) eqn:Q1; destruct ((gcol A (gj_inc A x) =? k)%Z) eqn:Q2; rewrite ?andb_false_r, ?andb_true_r; destruct (gj_comp A x); cbn [jcomp_eqb andb]; try contradiction; rewrite ?Rplus_0_l, ?Rmult_plus_distr_l, ?Rmult_plus_distr_r, ?Rmult_1_l; repeat split; lra.
Qed.
Lemma short_traffic : forall ps i k, Forall mshort ps ->
  DT * DR * DZ * traf J_R (calls pw lg c ps) i k <= 96 * total ps /\ DT * DR * DR * traf J_Z (calls pw lg c ps) i k <= 96 * total ps /\ traf J_PHI (calls pw lg c ps) i k = 0.
Proof.
  intros ps i k F. unfold total_charge. induction F as [|p ps Hp _ (I1 & I2 & I3)].
  - unfold traffic, calls. cbn. lra.
  - unfold calls in *. cbn [flat_map sum_living fold_right]. fold (calls pw lg c ps) in *. unfold sum_living in *. rewrite !traffic_app. destruct (galive A p) eqn:AL.
    + destruct (Hp AL) as (SM & WP). destruct (modest_traffic _ _ (ShortAll64P.short_modest pw lg g dt _ _ _ _ _ HLOG HF SM WP) i k) as (M1 & M2 & M3).
      assert (CN := le_INR _ _ (current_count A g dt (gcharge A p) (g0 A (gpos A (gph A p))) (g2 A (gpos A (gph A p))) (gr_old A (gph A p)) (gz_old A (gph A p)))). replace (INR 12) with 12 in CN by (cbn; lra).
      set (L := gcurrent_single A g dt _ _ _ _ _) in *. cbn [num b64_arith] in *. assert (QP := Rabs_pos (B2R (gcharge A p : b64))). set (aq := Rabs (B2R (gcharge A p : b64))) in *.
      assert (M4 : INR (length L) * (8 * aq) <= 12 * (8 * aq)) by (apply Rmult_le_compat_r; lra). rewrite !Rmult_plus_distr_l. set (S := fold_right _ 0 ps) in *. lra.
    + unfold traffic at 1 3 5. cbn [fold_right]. rewrite !Rplus_0_l. auto.
Qed.
Lemma short_hits : forall ps a i k, INR (hit a (calls pw lg c ps) i k) <= 12 * INR (length ps).
Proof.
  intros ps a i k. induction ps as [|p ps IH]; [unfold hits, calls; cbn; lra|]. unfold calls in *. cbn [flat_map length]. fold (calls pw lg c ps) in *. rewrite hits_app, plus_INR, S_INR.
  assert (X : INR (hit a (if galive A p then incs p else []) i k) <= 12).
  { destruct (galive A p); [|unfold hits; cbn; lra]. replace 12 with (INR 12) by (cbn; lra). apply le_INR. apply Nat.le_trans with (2 := current_count A g dt (gcharge A p) (g0 A (gpos A (gph A p))) (g2 A (gpos A (gph A p))) (gr_old A (gph A p)) (gz_old A (gph A p))). unfold hits.
    generalize (incs p). intro L. induction L as [|x L IHL]; [apply le_n|]. cbn [filter]. destruct (meant pw lg a i k x); cbn [length]; lia. }
  lra.
Qed.
Lemma total_pos : forall ps, 0 <= total ps.
Proof. intro ps. unfold total_charge. induction ps as [|p ps IH]; cbn [sum_living fold_right]; [lra|]. unfold sum_living in IH. destruct (galive A p); [assert (P := Rabs_pos (B2R (gcharge A p : b64)))|]; lra. Qed.
Lemma short_slack : forall ps i k, Forall mshort ps -> (0 <= i)%Z -> sum_slack pw lg c ps i k <= bpow radix2 (-37) * (IZR i + 1) * INR (length ps) * total ps.
Proof.
  intros ps i k F Hi. set (L := calls pw lg c ps). set (N := INR (length ps)). set (Q := total ps). assert (N0 : 0 <= N) by apply pos_INR. assert (Q0 : 0 <= Q) by apply total_pos. assert (I0 : 0 <= IZR i) by (apply IZR_le; exact Hi).
  assert (P1 : 0 < DR) by exact PDR. assert (P2 : 0 < DZ) by exact PDZ. assert (P3 : 0 < DT) by exact PDT. assert (PI1 : 0 < c_PI < 315 / 100) by (unfold c_PI; lra). assert (B52 := bpow_gt_0 radix2 (-52)).
  set (b := bpow radix2 (-52)) in *. set (M := b * (12 * N) * (96 * Q)).
  assert (M0 : 0 <= M) by (unfold M; apply Rmult_le_pos; [apply Rmult_le_pos; lra|lra]).
  assert (EZ : forall i k, DT * DR * DR * sum_error pw lg J_Z L i k <= M).
  { intros i' k'. destruct (short_traffic ps i' k' F) as (_ & T & _). fold L Q in T. assert (H := short_hits ps J_Z i' k'). fold L N in H. unfold sum_error, M. fold b. assert (TP := traffic_pos J_Z L i' k'). assert (HP := pos_INR (hit J_Z L i' k')). cbn [num b64_arith] in *.
    replace (DT * DR * DR * (b * INR (hit J_Z L i' k') * traf J_Z L i' k')) with (b * INR (hit J_Z L i' k') * (DT * DR * DR * traf J_Z L i' k')) by ring.
    apply Rmult_le_compat; [apply Rmult_le_pos; lra|apply Rmult_le_pos; [apply Rmult_le_pos; [apply Rmult_le_pos; lra|lra]|exact TP]|apply Rmult_le_compat_l; lra|exact T]. }
  assert (ER : forall i k, DT * DR * DZ * sum_error pw lg J_R L i k <= M).
  { intros i' k'. destruct (short_traffic ps i' k' F) as (T & _ & _). fold L Q in T. assert (H := short_hits ps J_R i' k'). fold L N in H. unfold sum_error, M. fold b. assert (TP := traffic_pos J_R L i' k'). assert (HP := pos_INR (hit J_R L i' k')). cbn [num b64_arith] in *.
    replace (DT * DR * DZ * (b * INR (hit J_R L i' k') * traf J_R L i' k')) with (b * INR (hit J_R L i' k') * (DT * DR * DZ * traf J_R L i' k')) by ring.
    apply Rmult_le_compat; [apply Rmult_le_pos; lra|apply Rmult_le_pos; [apply Rmult_le_pos; [apply Rmult_le_pos; lra|lra]|exact TP]|apply Rmult_le_compat_l; lra|exact T]. }
  unfold sum_slack. cbv zeta. fold L.
  assert (A1 : forall x, 0 <= x -> DT * (node_area DR i * x) <= 2 * c_PI * (IZR i + 1) * (DT * DR * DR * x)).
  { intros x X0. assert (W : 0 <= DT * DR * DR * x) by (apply Rmult_le_pos; [apply Rmult_le_pos; [apply Rmult_le_pos; lra|lra]|exact X0]). destruct (Z.eq_dec i 0) as [-> |NI].
    - rewrite node_area_0. replace (DT * (c_PI * DR * DR / 4 * x)) with (c_PI / 4 * (DT * DR * DR * x)) by field. apply Rmult_le_compat_r; [exact W|]. lra.
    - rewrite node_area_pos_i by lia. replace (DT * (2 * c_PI * IZR i * DR * DR * x)) with (2 * c_PI * IZR i * (DT * DR * DR * x)) by ring. apply Rmult_le_compat_r; [exact W|]. apply Rmult_le_compat_l; lra. }
  assert (A2 : forall j x, (-1 <= j <= i)%Z -> 0 <= x -> DT * (node_side DR DZ j * x) <= 2 * c_PI * (IZR i + 1) * (DT * DR * DZ * x)).
  { intros j x Hj X0. assert (W : 0 <= DT * DR * DZ * x) by (apply Rmult_le_pos; [apply Rmult_le_pos; [apply Rmult_le_pos; lra|lra]|exact X0]). destruct (Z.eq_dec j (-1)) as [-> |NI].
    - rewrite side_axis, Rmult_0_l, Rmult_0_r. apply Rmult_le_pos; [apply Rmult_le_pos; lra|exact W].
    - rewrite node_side_nonneg by lia. assert (J1 : IZR j <= IZR i) by (apply IZR_le; lia). replace (DT * (2 * c_PI * ((IZR j + 1 / 2) * DR) * DZ * x)) with (2 * c_PI * (IZR j + 1 / 2) * (DT * DR * DZ * x)) by ring. apply Rmult_le_compat_r; [exact W|]. apply Rmult_le_compat_l; lra. }
  assert (SE : forall a i k, 0 <= sum_error pw lg a L i k) by (intros; unfold sum_error; apply Rmult_le_pos; [apply Rmult_le_pos; [apply bpow_ge_0|apply pos_INR]|apply traffic_pos]).
  assert (S1 := A1 _ (SE J_Z i k)). assert (S2 := A1 _ (SE J_Z i (k - 1)%Z)). assert (S3 := A2 i _ ltac:(lia) (SE J_R i k)). assert (S4 := A2 (i - 1)%Z _ ltac:(lia) (SE J_R (i - 1)%Z k)).
  assert (C0 : 0 <= 2 * c_PI * (IZR i + 1)) by (apply Rmult_le_pos; lra).
  assert (T1 := Rmult_le_compat_l _ _ _ C0 (EZ i k)). assert (T2 := Rmult_le_compat_l _ _ _ C0 (EZ i (k - 1)%Z)). assert (T3 := Rmult_le_compat_l _ _ _ C0 (ER i k)). assert (T4 := Rmult_le_compat_l _ _ _ C0 (ER (i - 1)%Z k)).
  cbn [num b64_arith] in *. apply Rle_trans with (4 * (2 * c_PI * (IZR i + 1) * M)).
  - rewrite !Rmult_plus_distr_l. lra.
  - unfold M. assert (NQ : 0 <= N * Q) by (now apply Rmult_le_pos). assert (IQ : 0 <= (IZR i + 1) * (N * Q)) by (apply Rmult_le_pos; lra).
    replace (4 * (2 * c_PI * (IZR i + 1) * (b * (12 * N) * (96 * Q)))) with (9216 * c_PI * b * ((IZR i + 1) * (N * Q))) by ring. replace (bpow radix2 (-37) * (IZR i + 1) * N * Q) with (32768 * b * ((IZR i + 1) * (N * Q))) by (unfold b; change (bpow radix2 (-37)) with (bpow radix2 (15 + -52)); rewrite bpow_plus; change (bpow radix2 15) with 32768; ring).
    apply Rmult_le_compat_r; [exact IQ|]. apply Rmult_le_compat_r; lra.
Qed.
Lemma clean_slack : forall ps, Forall (moved_clean pw lg l c) ps -> move_slack pw lg c ps <= bpow radix2 (-41) * (IZR (gn_r A g) + IZR (gn_z A g) + 4) * total ps.
Proof.
  intros ps F. assert (B := bpow_gt_0 radix2 (-41)). unfold move_slack, total_charge. induction F as [|p ps Hp _ IH]; cbn [sum_living fold_right]; [lra|]. unfold sum_living in IH. match goal with |- _ <= ?M * (?x + ?y) => rewrite (Rmult_plus_distr_l M x y) end. apply Rplus_le_compat; [|exact IH].
  destruct (galive A p) eqn:AL; [|lra]. apply Rmult_le_compat_r; [apply Rabs_pos|]. apply Rmult_le_compat_l; [lra|]. destruct (cm_ro_in _ _ _ _ _ _ _ _ _ _ (Hp AL)) as (_ & R1). destruct (cm_zo_in _ _ _ _ _ _ _ _ _ _ (Hp AL)) as (_ & Z1).
  rewrite minus_IZR in R1, Z1. assert (P1 : 0 < DR) by exact PDR. assert (P2 : 0 < DZ) by exact PDZ. cbn [num b64_arith] in *.
  assert (X1 : B2R (gr_old A (gph A p) : b64) / DR <= IZR (gn_r A g)). { apply Rmult_le_reg_r with DR; [exact P1|]. unfold Rdiv. rewrite Rmult_assoc, Rinv_l by lra. lra. }
  assert (X2 : B2R (gz_old A (gph A p) : b64) / DZ <= IZR (gn_z A g)). { apply Rmult_le_reg_r with DZ; [exact P2|]. unfold Rdiv. rewrite Rmult_assoc, Rinv_l by lra. lra. }
  lra.
Qed.
Lemma came_total : forall ps ps', Forall2 came ps ps' -> total ps' = total ps /\ length ps' = length ps.
Proof.
  intros ps ps' F. unfold total_charge. induction F as [|p p' ps ps' (K1 & K2 & _) _ (I1 & I2)]; [split; reflexivity|]. cbn [sum_living fold_right length]. unfold sum_living in I1. rewrite I1, I2, K1, K2. split; reflexivity.
Qed.
Lemma gauss_slack_pos : forall i, (0 <= i)%Z -> 0 <= gauss_slack pw lg g dt K BE BH BJ i.
Proof.
  intros i Hi. unfold gauss_slack, node_surface. cbv zeta. assert (A0 := area_pos i Hi). assert (S0 := side_pos i ltac:(lia)). assert (S1 := side_pos (i - 1)%Z ltac:(lia)). assert (U := bpow_ge_0 radix2 (-53)). assert (EP : 0 < EPSILON0) by (unfold EPSILON0; lra).
  assert (SP := slow_pos pw lg g md dt theta K HS). assert (E0 := proj1 (phi_small BE (proj1 ME))). assert (H0 := proj1 (phi_small BH (proj1 MH))). assert (J0 := proj1 (phi_small BJ (proj1 MJ))). assert (P3 : 0 < DT) by exact PDT.
  assert (K0 : 0 <= K) by (destruct (eps_at pw lg g md dt theta K HS HM 0 0) as (X & _); [destruct (fs_nr _ _ _ _ _ _ _ HS); lia|destruct (fs_nz _ _ _ _ _ _ _ HS); lia|lra]).
  cbn [num b64_arith] in *. apply Rmult_le_pos; [apply Rmult_le_pos; lra|].
  assert (0 <= 2 * EPSILON0 * K * BE) by (apply Rmult_le_pos; [apply Rmult_le_pos; lra|lra]). assert (0 <= DT * BJ) by (apply Rmult_le_pos; lra). assert (0 <= 4 * slowness * BH) by (apply Rmult_le_pos; lra). lra.
Qed.
Lemma short_orderly : forall s, Forall (fun p => moved_clean pw lg l c p /\ mshort p) (parts pw lg s) -> fields_within pw lg BE BH g (gs_fields A s) -> INR (length (parts pw lg s)) <= bpow radix2 40 ->
  192 * total (parts pw lg s) <= BJ * (DT * DR * DR) -> 192 * total (parts pw lg s) <= BJ * (DT * DR * DZ) -> orderly pw lg l BE BH BJ c s.
Proof.
  intros s F FW HN Q1 Q2. assert (F1 : Forall (moved_clean pw lg l c) (parts pw lg s)) by (refine (Forall_impl _ _ F); intros p H; apply H). assert (F2 : Forall mshort (parts pw lg s)) by (refine (Forall_impl _ _ F); intros p H; apply H).
  assert (P1 : 0 < DR) by exact PDR. assert (P2 : 0 < DZ) by exact PDZ. assert (P3 : 0 < DT) by exact PDT. assert (J0 := proj1 (phi_small BJ (proj1 MJ))).
  split; [exact FW|exact F1| |].
  - intros a i k. apply Rle_trans with (1 := short_hits _ a i k). change (bpow radix2 45) with 35184372088832. change (bpow radix2 40) with 1099511627776 in HN. lra.
  - intros a i k. destruct (short_traffic _ i k F2) as (T1 & T2 & T3). cbn [num b64_arith] in *. destruct a.
    + apply Rmult_le_reg_l with (DT * DR * DZ); [apply Rmult_lt_0_compat; [now apply Rmult_lt_0_compat|exact P2]|]. lra.
    + rewrite T3. lra.
    + apply Rmult_le_reg_l with (DT * DR * DR); [apply Rmult_lt_0_compat; [now apply Rmult_lt_0_compat|exact P1]|]. lra.
Qed.
Theorem gauss_short : forall n t e s s' i k, no_beam pw lg c s -> within_run pw lg BE BH c n t e s -> gliding_run pw lg l c n t e s -> INR (length (parts pw lg s)) <= bpow radix2 40 ->
  192 * total (parts pw lg s) <= BJ * (DT * DR * DR) -> 192 * total (parts pw lg s) <= BJ * (DT * DR * DZ) -> gsim_run A c n t e s = Ok s' -> (0 <= i < gn_r A g - 1)%Z -> (1 <= k < gn_z A g - 1)%Z ->
  Rabs (gauss_defect pw lg c s' i k - gauss_defect pw lg c s i k) <=
  INR n * ((bpow radix2 (-41) * (IZR (gn_r A g) + IZR (gn_z A g) + 4) + bpow radix2 (-37) * (IZR i + 1) * INR (length (parts pw lg s))) * total (parts pw lg s) + gauss_slack pw lg g dt K BE BH BJ i).
Proof.
  intros n. induction n as [|n IH]; intros t e s s' i k NB WR GR HN Q1 Q2 E Hi Hk; cbn [gsim_run within_run gliding_run] in *.
  - injection E as <-. rewrite Rminus_diag_eq, Rabs_R0 by reflexivity. cbn. lra.
  - destruct WR as (FW & WR). set (S := (_ + _) * total (parts pw lg s) + _) in *.
    assert (S0 : 0 <= S).
    { unfold S. assert (G0 := gauss_slack_pos i (proj1 Hi)). assert (T0 := total_pos (parts pw lg s)). assert (N0 := pos_INR (length (parts pw lg s))). assert (I0 : 0 <= IZR i) by (apply IZR_le; lia). assert (B1 := bpow_ge_0 radix2 (-41)). assert (B2 := bpow_ge_0 radix2 (-37)).
      assert (R0 : 0 <= IZR (gn_r A g)) by (apply IZR_le; destruct (fs_nr _ _ _ _ _ _ _ HS); lia). assert (Z0 : 0 <= IZR (gn_z A g)) by (apply IZR_le; destruct (fs_nz _ _ _ _ _ _ _ HS); lia).
      assert (0 <= bpow radix2 (-41) * (IZR (gn_r A g) + IZR (gn_z A g) + 4)) by (apply Rmult_le_pos; lra). assert (0 <= bpow radix2 (-37) * (IZR i + 1) * INR (length (parts pw lg s))) by (apply Rmult_le_pos; [apply Rmult_le_pos; lra|exact N0]).
      assert (0 <= (bpow radix2 (-41) * (IZR (gn_r A g) + IZR (gn_z A g) + 4) + bpow radix2 (-37) * (IZR i + 1) * INR (length (parts pw lg s))) * total (parts pw lg s)) by (apply Rmult_le_pos; [lra|exact T0]). lra. }
    assert (NN := pos_INR n). rewrite S_INR. assert (NS : 0 <= INR n * S) by (now apply Rmult_le_pos).
    destruct (ltb A t e); [|injection E as <-; rewrite Rminus_diag_eq, Rabs_R0 by reflexivity; lra].
    destruct (giteration A c t s) as [s1| |] eqn:E1; cbn [bind] in E; try discriminate E. destruct GR as (G1 & G2).
    destruct (iteration_parts t s s1 NB E1) as (NB1 & CA & _). destruct (came_total _ _ CA) as (TE & LE).
    assert (FW1 : fields_within pw lg BE BH g (gs_fields A s1)) by (destruct n; apply WR).
    assert (OR : orderly pw lg l BE BH BJ c s1) by (apply short_orderly; rewrite ?TE, ?LE; assumption).
    assert (B1 := gauss_iteration t s s1 i k NB E1 FW OR Hi Hk).
    assert (B2 := IH (add A t dt) e s1 s' i k NB1 WR G2). rewrite TE, LE in B2. fold S in B2. specialize (B2 HN Q1 Q2 E Hi Hk).
    assert (B3 : step_slack pw lg c K BE BH BJ s1 i k <= S).
    { unfold step_slack, S. assert (F1 : Forall (moved_clean pw lg l c) (parts pw lg s1)) by apply OR. assert (F2 : Forall mshort (parts pw lg s1)) by (refine (Forall_impl _ _ G1); intros p H; apply H).
      assert (X1 := clean_slack _ F1). assert (X2 := short_slack _ i k F2 (proj1 Hi)). rewrite TE in X1, X2. rewrite LE in X2. cbn [num b64_arith] in *. lra. }
    apply Rabs_le_inv in B1. apply Rabs_le_inv in B2. apply Rabs_le. lra.
Qed.

(** ** Where the particles go *)
Definition fly (s : gsim A) : outcome (list (gparticle A)) :=
  (do gs <- Sim.traverse (gstep_v_group A c (greset_j A g (gcalc_hfield A g dt (gs_fields A s)))) (gs_groups A s);
   do pss <- Sim.traverse (fun x => Sim.traverse (ghalf_reflect A g dt false) (snd x)) gs; Ok (map (gvelocity_back A) (concat pss)))%outcome.
Lemma adds_go : forall L f, (exists f', ofold (gadd_j A g) L f = Ok f') \/ ofold (gadd_j A g) L f = UB.
Proof.
  induction L as [|x L IH]; intro f; [left; now exists f|]. cbn [ofold]. unfold gadd_j at 1 3. destruct (GenRun.inside A g _ _); cbn [bind]; [apply IH|now right].
Qed.
Lemma full_fly : forall gs f, Forall (fun x => fst x = false) gs ->
  match gfull_current A c gs f with
  | Ok r => exists pss, Sim.traverse (fun x => Sim.traverse (ghalf_reflect A g dt false) (snd x)) gs = Ok pss /\ flat_map snd (snd r) = map (gvelocity_back A) (concat pss)
  | Exit e => Sim.traverse (fun x => Sim.traverse (ghalf_reflect A g dt false) (snd x)) gs = Exit e
  | UB => True
  end.
Proof.
  intros gs. induction gs as [|(b & ps) gs IH]; intros f F; cbn [gfull_current].
  - exists []. split; reflexivity.
  - inversion F as [|? ? F1 F2]; subst. cbn [fst] in F1. subst b. cbn [Sim.traverse snd]. unfold gfull_current_group. cbv zeta. cbn [fst snd].
    assert (AZ : forall ps f, (exists f', ofold (gazimuthal_one A g) ps f = Ok f') \/ ofold (gazimuthal_one A g) ps f = UB).
    { clear. induction ps as [|p ps IHp]; intro f; [left; now exists f|]. cbn [ofold]. unfold gazimuthal_one at 1 3. destruct (galive A p); [|cbn [bind]; apply IHp]. match goal with |- context [ofold (gadd_j A g) ?L f] => destruct (adds_go L f) as [(f' & ->)| ->] end; cbn [bind]; [apply IHp|now right]. }
    assert (CU : forall ps f, (exists f', ofold (gcurrent_one A g dt) ps f = Ok f') \/ ofold (gcurrent_one A g dt) ps f = UB).
    { clear. induction ps as [|p ps IHp]; intro f; [left; now exists f|]. cbn [ofold]. unfold gcurrent_one at 1 3. destruct (galive A p); [|cbn [bind]; apply IHp]. match goal with |- context [ofold (gadd_j A g) ?L f] => destruct (adds_go L f) as [(f' & ->)| ->] end; cbn [bind]; [apply IHp|now right]. }
    destruct (AZ ps f) as [(f1 & ->)| ->]; cbn [bind]; [|exact I]. destruct (Sim.traverse (ghalf_reflect A g dt false) ps) as [qs|e|]; cbn [bind]; [|reflexivity|exact I].
    destruct (CU qs f1) as [(f2 & ->)| ->]; cbn [bind]; [|exact I]. cbn [fst snd]. specialize (IH f2 F2). destruct (gfull_current A c gs f2) as [r|e|]; cbn [bind]; [| |exact I].
    + destruct IH as (pss & E1 & E2). rewrite E1. cbn [bind]. exists (qs :: pss). split; [reflexivity|]. cbn [fst snd flat_map concat]. rewrite map_app, E2. reflexivity.
    + now rewrite IH.
Qed.
Lemma no_bunches : forall gs, Forall (fun x : bool * list (gparticle A) => fst x = false) gs -> gbunches_of A gs = [].
Proof. intros gs F. induction F as [|x gs Hx _ IH]; [reflexivity|]. unfold gbunches_of in *. cbn [flat_map]. rewrite Hx, IH. reflexivity. Qed.
Lemma fly_ok : forall t s ps, no_beam pw lg c s -> fly s = Ok ps -> giteration A c t s = UB \/ exists s', giteration A c t s = Ok s' /\ parts pw lg s' = ps.
Proof.
  intros t s ps NB E. unfold giteration. destruct (gbeam A c t s) as [s1|e|] eqn:EB; cbn [bind].
  3: { now left. }
  2: { exfalso. destruct NB as (NB & F). unfold gbeam in EB. cbv zeta in EB. destruct (erase_reached A c t _); [discriminate EB|].
       assert (CR : creates A c t (gs_bunches A s) = false) by (unfold creates; apply andb_false_intro2, Z.ltb_ge; exact NB). rewrite CR in EB.
       assert (IG : forall gs k, Forall (fun x : bool * list (gparticle A) => fst x = false) gs -> ginject_groups A c t k gs = Ok gs).
       { clear. intros gs. induction gs as [|(b & qs) gs IH]; intros k F; [reflexivity|]. inversion F as [|? ? F1 F2]; subst. cbn [fst] in F1. subst b. cbn [ginject_groups]. rewrite (IH k F2). reflexivity. }
       rewrite (IG _ 0%Z F) in EB. cbn [bind] in EB. discriminate EB. }
  apply (beam_none t s s1 NB) in EB. subst s1. cbv zeta. unfold fly in E. destruct (Sim.traverse (gstep_v_group A c _) _) as [gs| |] eqn:ET; cbn [bind] in *; try discriminate E.
  destruct NB as (NB & FB). destruct (step_groups _ _ _ ET) as (MF & _).
  assert (FG : Forall (fun x : bool * list (gparticle A) => fst x = false) gs).
  { assert (X : Forall (fun b => b = false) (map fst gs)) by (rewrite MF; now apply Forall_map). now rewrite Forall_map in X. }
  match goal with |- context [gfull_current A c gs ?f] => assert (FF := full_fly gs f FG); destruct (gfull_current A c gs f) as [r|e|] eqn:EC end; cbn [bind]; [| |now left].
  - destruct FF as (pss & E1 & E2). rewrite E1 in E. cbn [bind] in E. injection E as <-. destruct (full_sums gs _ r FG EC) as (F1 & _). rewrite (no_bunches _ F1). cbn [ofold bind]. right. eexists. split; [reflexivity|]. unfold parts. cbn [gs_groups]. exact E2.
  - rewrite FF in E. discriminate E.
Qed.
End Config.
End GaussRun.
