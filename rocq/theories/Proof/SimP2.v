(** Proofs about whole runs: fields, particles, charge. *)
From Coq Require Import Reals ZArith Lra Lia Psatz List Bool.
From Verif.Lib Require Import RAux Grid Outcome Par.
From Verif.Model Require Import Constants Geometry ChargeDeposit CurrentDeposit Fields Interp Pusher Motion Loading
  Bunch Dump MainLoop Sim.
From Verif.Spec Require Import Dynamics Domain Steps Whole Maxwell Cloud.
From Verif.Proof Require Import GeometryP ChargeP ChargeP2 CurrentP CurrentP4 FieldsP MaxwellP PusherP MotionP InterpP BunchP MainLoopP SimP.
Import ListNotations.
Local Open Scope R_scope.

Lemma bind_inv : forall {A B : Type} (x : outcome A) (f : A -> outcome B) b, bind x f = Ok b -> exists a, x = Ok a /\ f a = Ok b.
Proof. intros A B x f b H. destruct x; try discriminate. eauto. Qed.

Lemma traverse_inv : forall {A B : Type} (f : A -> outcome B) l l', traverse f l = Ok l' -> Forall2 (fun x y => f x = Ok y) l l'.
Proof.
  intros A B f. induction l as [|x l IH]; intros l' H; cbn [traverse] in H; [injection H as <-; constructor|].
  apply bind_inv in H. destruct H as (y & E & H). apply bind_inv in H. destruct H as (ys & E' & H). injection H as <-.
  constructor; auto.
Qed.

(** The parts of one iteration. *)
Lemma one_step_inv : forall su t s s', one_step su t s = Ok s' ->
  let g := su_geom su in let dt := su_dt su in
  exists s1 gs2 j3 rho,
    exec_beam su t s = Ok s1 /\
    traverse (step_v_group su (calc_hfield g dt (s_fields s1))) (s_groups s1) = Ok gs2 /\
    full_current su (reset_j g (s_current s1)) gs2 = Ok (j3, s_groups s') /\
    s_current s' = j3 /\
    s_fields s' = calc_efield g (su_medium su) dt (set_current (j3 J_R) (j3 J_PHI) (j3 J_Z) (calc_hfield g dt (s_fields s1))) /\
    s_bunch_number s' = s_bunch_number s1 /\
    weight_bunches g (reset_rho g (s_rho_bunch s1)) (bunches_of (s_groups s')) = Ok rho /\
    dump_data g (su_frames su) t dt (shown s') (bunches_of (s_groups s')) rho (s_probes s1) = Ok (s_rho_bunch s', s_probes s').
Proof.
  intros su t s s' H g dt. unfold one_step, iteration in H. cbn [map exec_all] in H.
  apply bind_inv in H. destruct H as (s1 & E1 & H). cbn [exec] in E1, H. cbn [bind] in H.
  cbn [s_fields s_current s_rho_bunch s_groups s_bunch_number s_probes] in H. fold g dt in H.
  apply bind_inv in H. destruct H as (s2 & E2 & H). apply bind_inv in E2. destruct E2 as (gs2 & E2 & X). injection X as <-.
  cbn [s_fields s_current s_rho_bunch s_groups s_bunch_number s_probes bind] in H.
  apply bind_inv in H. destruct H as (s3 & E3 & H). apply bind_inv in E3. destruct E3 as ((j3 & gs3) & E3 & X). injection X as <-.
  cbn [s_fields s_current s_rho_bunch s_groups s_bunch_number s_probes bind fst snd] in H.
  apply bind_inv in H. destruct H as (s4 & E4 & H). apply bind_inv in E4. destruct E4 as (rho & E4 & X). injection X as <-.
  cbn [s_fields s_current s_rho_bunch s_groups s_bunch_number s_probes bind fst snd] in H.
  apply bind_inv in H. destruct H as (s5 & E5 & H). injection H as ->. apply bind_inv in E5. destruct E5 as ((rho' & ps') & E5 & X). injection X as <-.
  cbn [s_fields s_current s_rho_bunch s_groups s_bunch_number s_probes fst snd].
  exists s1, gs2, j3, rho. repeat split; auto.
Qed.

Lemma exec_beam_inv : forall su t s s1, exec_beam su t s = Ok s1 ->
  s_fields s1 = s_fields s /\ s_current s1 = s_current s /\ s_rho_bunch s1 = s_rho_bunch s /\ s_probes s1 = s_probes s /\
  exists gs, (gs = s_groups s /\ s_bunch_number s1 = s_bunch_number s \/
              gs = s_groups s ++ [new_bunch su (s_bunch_number s)] /\ s_bunch_number s1 = (s_bunch_number s + 1)%Z) /\
    Forall2 (fun x y => inject_group su t x = Ok y) gs (s_groups s1).
Proof.
  intros su t s s1 H. unfold exec_beam in H. apply bind_inv in H. destruct H as (af & E & H). unfold init_beam in E.
  destruct (erase_reached _ _ _); [discriminate|]. injection E as <-. apply bind_inv in H. destruct H as (gs' & E & X).
  injection X as <-. cbn [s_fields s_current s_rho_bunch s_groups s_bunch_number s_probes]. repeat split.
  eexists. split; [|apply traverse_inv; exact E]. unfold create_bunch. cbn [current_bunch_number].
  destruct (Rle_dec _ _); [|rewrite Z.eqb_refl; now left].
  destruct (_ <? _)%Z; cbn [current_bunch_number]; [|rewrite Z.eqb_refl; now left].
  destruct (Z.eqb_spec (s_bunch_number s + 1) (s_bunch_number s)) as [X|_]; [lia|]. now right.
Qed.

(** ** Fields *)

Lemma one_step_fields : forall su t s s', one_step su t s = Ok s' ->
  s_fields s' = field_step (su_geom su) (su_medium su) (su_dt su)
    (Cur3 (s_current s' J_R) (s_current s' J_PHI) (s_current s' J_Z)) (s_fields s).
Proof.
  intros su t s s' H. destruct (one_step_inv su t s s' H) as (s1 & gs2 & j3 & rho & E1 & _ & _ & EJ & EF & _).
  destruct (exec_beam_inv su t s s1 E1) as (F1 & _). rewrite EF, EJ, F1. reflexivity.
Qed.

Lemma iterations_fields : forall su n t s s', iterations su n t s = Ok s' ->
  exists js, length js = n /\ s_fields s' = field_run (su_geom su) (su_medium su) (su_dt su) js (s_fields s).
Proof.
  intros su. induction n as [|n IH]; intros t s s' H.
  - injection H as ->. exists []. now split.
  - cbn [iterations] in H. apply bind_inv in H. destruct H as (s1 & E & H). destruct (IH _ _ _ H) as (js & L & F).
    eexists (_ :: js). split; [cbn; now rewrite L|]. rewrite F, (one_step_fields su t s s1 E). reflexivity.
Qed.

(** A run is some number of iterations. *)
Lemma run_iterations : forall su fuel t e s s', run su fuel t e s = Some (Ok s') ->
  exists n, iterations su n t s = Ok s'.
Proof.
  intros su. induction fuel as [|fuel IH]; intros t e s s' H; unfold run in *; cbn [run_loop] in H.
  - destruct (Rlt_dec t e); [discriminate|]. injection H as ->. now exists O.
  - destruct (Rlt_dec t e); [|injection H as ->; now exists O].
    destruct (exec_all _ _ s) as [s1| |] eqn:E; try discriminate. destruct (IH _ _ _ _ H) as (n & K). exists (S n).
    cbn [iterations]. unfold one_step. rewrite E. exact K.
Qed.

(** ** Particles *)

Lemma step_v_one_nature : forall su m p p', step_v_one su m p = Ok p' -> nature p' = nature p /\ p_alive p' = p_alive p.
Proof.
  intros su m p p' H. unfold step_v_one in H. destruct (p_alive p) eqn:A; [|injection H as <-; now split].
  destruct (_ && _); [discriminate|]. apply bind_inv in H. destruct H as (v & _ & H). injection H as <-. now split.
Qed.

Lemma half_reflect_nature : forall g dt b p, nature (velocity_back (half_reflect g dt b p)) = nature p /\
  (b = false -> p_alive (velocity_back (half_reflect g dt b p)) = p_alive p) /\
  (p_alive p = false -> velocity_back (half_reflect g dt b p) = p).
Proof.
  intros g dt b p. destruct (half_reflect_const g dt b p) as (C & M).
  assert (V : nature (velocity_back (half_reflect g dt b p)) = nature (half_reflect g dt b p) /\
              p_alive (velocity_back (half_reflect g dt b p)) = p_alive (half_reflect g dt b p)).
  { unfold velocity_back. destruct (p_alive (half_reflect g dt b p)) eqn:E; [now split|]. now rewrite E. }
  destruct V as (V1 & V2). rewrite V1, V2. unfold nature at 1. rewrite C, M. split; [reflexivity|]. split.
  - intros ->. unfold half_reflect. destruct (p_alive p) eqn:E; [exact E|exact E].
  - intro D. rewrite half_reflect_dead by exact D. unfold velocity_back. now rewrite D.
Qed.

Definition same_nature (p p' : particle) : Prop := nature p' = nature p.
Definition alive_same (p p' : particle) : Prop := nature p' = nature p /\ p_alive p' = p_alive p.

Lemma Forall2_refl' : forall {A : Type} (Q : A -> A -> Prop) l, (forall x, Q x x) -> Forall2 Q l l.
Proof. intros A Q l H. induction l; constructor; auto. Qed.

Lemma Forall2_trans' : forall {A : Type} (Q : A -> A -> Prop), (forall x y z, Q x y -> Q y z -> Q x z) ->
  forall l1 l2 l3, Forall2 Q l1 l2 -> Forall2 Q l2 l3 -> Forall2 Q l1 l3.
Proof.
  intros A Q T l1 l2 l3 F. revert l3. induction F as [|a b l1 l2 H F IH]; intros l3 G; inversion G; subst; constructor; eauto.
Qed.

Lemma inject_all_rel : forall l ps, Forall2 same_nature ps (inject_all l ps).
Proof.
  assert (U : forall n x ps, Forall2 same_nature ps (update_nth n (inject_one x) ps)).
  { intros n x ps. revert n. induction ps as [|p ps IH]; intro n; [destruct n; constructor|].
    destruct n; cbn; constructor; try reflexivity; [|apply IH]. apply Forall2_refl'. reflexivity. }
  unfold inject_all. induction l as [|x l IH]; intro ps; cbn [fold_left]; [apply Forall2_refl'; reflexivity|].
  eapply Forall2_trans'; [|apply U|apply IH]. unfold same_nature. intros; congruence.
Qed.

(** How a group develops: species keep all particles alive, bunches keep their particles. *)
Definition group_rel (x y : group) : Prop :=
  g_bunch y = g_bunch x /\ Forall2 same_nature (g_parts x) (g_parts y) /\
  (g_bunch x = None -> Forall2 alive_same (g_parts x) (g_parts y)).

Lemma group_rel_refl : forall x, group_rel x x.
Proof. intro x. split; [reflexivity|]. split; [|intros _]; apply Forall2_refl'; intro p; [reflexivity|now split]. Qed.

Lemma group_rel_trans : forall x y z, group_rel x y -> group_rel y z -> group_rel x z.
Proof.
  intros x y z (A1 & A2 & A3) (B1 & B2 & B3). split; [congruence|]. split.
  - apply (Forall2_trans' same_nature) with (g_parts y); auto. unfold same_nature. intros; congruence.
  - intro E. apply (Forall2_trans' alive_same) with (g_parts y); [|now apply A3|apply B3; congruence].
    unfold alive_same. intros a b c (? & ?) (? & ?). split; congruence.
Qed.

Lemma inject_group_rel : forall su t x y, inject_group su t x = Ok y -> group_rel x y.
Proof.
  intros su t x y H. unfold inject_group in H. destruct (g_bunch x) as [n|] eqn:E; [|injection H as <-; apply group_rel_refl].
  apply bind_inv in H. destruct H as (l & _ & H). injection H as <-. unfold group_rel. cbn [g_bunch g_parts]. rewrite E.
  split; [reflexivity|]. split; [apply inject_all_rel|discriminate].
Qed.

Lemma step_v_group_rel : forall su m x y, step_v_group su m x = Ok y -> group_rel x y.
Proof.
  intros su m x y H. unfold step_v_group in H. apply bind_inv in H. destruct H as (l & E & H). injection H as <-.
  apply traverse_inv in E. unfold group_rel. cbn [g_bunch g_parts]. split; [reflexivity|]. split; [|intros _];
  (eapply Forall2_weaken; [|exact E]); intros p p' K; apply step_v_one_nature in K; [apply K|exact K].
Qed.

Lemma Forall2_map_r : forall {A B : Type} (f : A -> B) (Q : A -> B -> Prop) l, (forall x, Q x (f x)) -> Forall2 Q l (map f l).
Proof. intros A B f Q l H. induction l; constructor; auto. Qed.

Lemma full_current_rel : forall su gs j j' gs', full_current su j gs = Ok (j', gs') -> Forall2 group_rel gs gs'.
Proof.
  intros su. induction gs as [|x gs IH]; intros j j' gs' H; cbn [full_current] in H; [injection H as _ <-; constructor|].
  apply bind_inv in H. destruct H as (y & E & H). apply bind_inv in H. destruct H as (r & E' & H). injection H as _ <-.
  constructor; [|destruct r as [j2 gs2]; now apply IH in E'].
  unfold full_current_group in E. cbv zeta in E. destruct (_ && _); [|discriminate]. injection E as <-. cbn [snd].
  unfold group_rel. cbn [g_bunch g_parts]. split; [reflexivity|]. unfold moved. rewrite map_map. split; [|intro EB];
  apply Forall2_map_r; intro p; destruct (half_reflect_nature (su_geom su) (su_dt su) (match g_bunch x with Some _ => true | None => false end) p) as (N & A & _).
  - exact N.
  - split; [exact N|]. apply A. now rewrite EB.
Qed.

Lemma one_step_groups : forall su t s s', one_step su t s = Ok s' ->
  exists gs, (gs = s_groups s /\ s_bunch_number s' = s_bunch_number s \/
              gs = s_groups s ++ [new_bunch su (s_bunch_number s)] /\ s_bunch_number s' = (s_bunch_number s + 1)%Z) /\
    Forall2 group_rel gs (s_groups s').
Proof.
  intros su t s s' H. destruct (one_step_inv su t s s' H) as (s1 & gs2 & j3 & rho & E1 & E2 & E3 & _ & _ & EN & _).
  destruct (exec_beam_inv su t s s1 E1) as (_ & _ & _ & _ & gs & K & F1). exists gs. split; [rewrite EN; exact K|].
  assert (T := @Forall2_trans' group group_rel group_rel_trans).
  apply T with gs2; [apply T with (s_groups s1)|].
  - eapply Forall2_weaken; [|exact F1]. apply inject_group_rel.
  - apply traverse_inv in E2. eapply Forall2_weaken; [|exact E2]. apply step_v_group_rel.
  - now apply full_current_rel in E3.
Qed.

(** After any number of iterations: the groups of the beginning, followed by the bunches created since then in order. *)
Lemma iterations_groups : forall su n t s s', iterations su n t s = Ok s' ->
  (s_bunch_number s <= s_bunch_number s')%Z /\
  Forall2 group_rel (s_groups s ++ map (new_bunch su) (zrange (s_bunch_number s) (s_bunch_number s'))) (s_groups s').
Proof.
  intros su. induction n as [|n IH]; intros t s s' H.
  - injection H as ->. split; [lia|]. rewrite zrange_empty by lia. cbn. rewrite app_nil_r. apply Forall2_refl'. apply group_rel_refl.
  - cbn [iterations] in H. apply bind_inv in H. destruct H as (s1 & E & H). destruct (IH _ _ _ H) as (L & F).
    destruct (one_step_groups su t s s1 E) as (gs & [(-> & EN)|(-> & EN)] & F1).
    + rewrite EN in *. split; [exact L|]. apply (@Forall2_trans' group group_rel group_rel_trans) with (2 := F).
      apply Forall2_app; [exact F1|]. apply Forall2_refl'. apply group_rel_refl.
    + rewrite EN in *. split; [lia|]. rewrite (zrange_cons (s_bunch_number s)) by lia. cbn [map].
      apply (@Forall2_trans' group group_rel group_rel_trans) with (2 := F).
      change (new_bunch su (s_bunch_number s) :: ?l) with ([new_bunch su (s_bunch_number s)] ++ l). rewrite app_assoc.
      apply Forall2_app; [exact F1|]. apply Forall2_refl'. apply group_rel_refl.
Qed.

(** ** Safety of whole runs *)

Lemma begins_inv : forall su T t s, sound su -> begins (su_geom su) s ->
  (strict su = true ->
     Forall (fun p => p_r p <= r_size (su_geom su) - dr (su_geom su) / 2 - LIGHT_SPEED * (T - t)) (all_particles s) /\
     su_radius su - dr (su_geom su) / 2 <= r_size (su_geom su) - dr (su_geom su) / 2 - LIGHT_SPEED * (T - t)) ->
  Inv su T t s.
Proof.
  intros su T t s HS (B1 & B2 & B3 & B4) HT. split.
  - rewrite Forall_forall in B1 |- *. intros x Hx. split; [|now rewrite (B1 x Hx)].
    apply Forall_forall. intros p Hp A.
    assert (I : In p (all_particles s)) by (unfold all_particles; apply in_flat_map; eauto).
    rewrite Forall_forall in B3. destruct (B3 p I) as (Y & (R1 & Z1) & V). split; [|split; [exact V|]].
    + unfold p_r, p_z in *. split; [exact Y|]. split; [lra|]. split; [|exact Z1].
      assert (D := dr_pos (su_geom su) (proj1 HS)). nra.
    + intro X. destruct (HT X) as (F & _). rewrite Forall_forall in F. apply (F p I).
  - rewrite B2, zrange_empty by lia. unfold bunch_numbers. clear - B1. induction B1 as [|x l H B IH]; [reflexivity|]. cbn. now rewrite H.
  - rewrite B2. lia.
  - exact B4.
  - intro X. apply (HT X).
Qed.

Lemma inv_in_order : forall su T t s, sound su -> Inv su T t s -> Forall (in_order (su_geom su)) (all_particles s).
Proof.
  intros su T t s HS J. apply Forall_forall. intros p Hp A. unfold all_particles in Hp. apply in_flat_map in Hp.
  destruct Hp as (x & Hx & Hp). assert (G := inv_groups su T t s J). rewrite Forall_forall in G. destruct (G x Hx) as (F & _).
  rewrite Forall_forall in F. destruct (F p Hp A) as (N & V & _).
  destruct (nearly_inside_upper _ _ _ (SimP.Hg su HS) (SimP.Hsp su HS) N) as (U1 & U2). destruct N as (_ & N1 & _ & N2).
  unfold on_grid, p_r, p_z. repeat split; try lra; try exact V.
Qed.

Lemma run_safe : forall su t0 e n s, sound su -> begins (su_geom su) s -> no_removal (su_beam su) e ->
  least_steps t0 e (su_dt su) n ->
  (strict su = true ->
     Forall (fun p => p_r p + LIGHT_SPEED * (INR n * su_dt su) <= r_size (su_geom su) - dr (su_geom su) / 2) (all_particles s) /\
     su_radius su + LIGHT_SPEED * (INR n * su_dt su) <= r_size (su_geom su)) ->
  exists s', (forall fuel, (n <= fuel)%nat -> run su fuel t0 e s = Some (Ok s')) /\
    Inv su (t0 + INR n * su_dt su) (t0 + INR n * su_dt su) s'.
Proof.
  intros su t0 e n s HS HB HN HL HT. assert (D : 0 < su_dt su) by apply HS.
  set (T := t0 + INR n * su_dt su).
  assert (J : Inv su T t0 s).
  { apply begins_inv; auto. intro X. destruct (HT X) as (F & Rd). replace (T - t0) with (INR n * su_dt su) by (unfold T; ring).
    split; [|lra]. eapply Forall_impl; [|exact F]. cbn. intros p Hp. lra. }
  unfold run. destruct (run_invariant (exec su) (fun t s => Inv su T t s) e (su_dt su) D) with (n := n) (t := t0) (s := s) as (s' & R1 & R2); auto.
  - intros t s0 Ht J0. apply (step_ok su HS T t e s0); auto. unfold T. destruct HL as (L & _). lra.
  - exists s'. split; [exact R1|exact R2].
Qed.
