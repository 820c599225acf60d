(** C70: threads. *)
From Coq Require Import Reals ZArith List Bool Lia Lra Permutation Relations.
From Flocq Require Import IEEE754.BinarySingleNaN.
From Verif.Lib Require Import RAux Outcome Grid Par ParProg.
From Verif.Model Require Bunch.
From Verif.Model Require Import Constants Binary64 Geometry ChargeDeposit CurrentDeposit Fields Interp Pusher Motion MainLoop Sim
  Arith GenCode GenRun GenSim.
From Verif.Spec Require Import Dynamics Domain Steps Whole Sample Memory.
From Verif.Proof Require Import GenRealP GenRunP GenSimP GenSimP2 GenSimRealP GenMemP SimP2 SimP3 SimP4.
Import ListNotations.
Local Open Scope R_scope.

(** * C70: the schedule does not matter *)

(** [l] ends in the same memory, or stops early, in both cases. *)
Definition same_result {A : arith} (o1 o2 : outcome (place -> value A)) : Prop :=
  match o1, o2 with
  | Ok m1, Ok m2 => forall x, m1 x = m2 x
  | Ok _, _ | _, Ok _ => False
  | _, _ => True
  end.

(** Whatever the arithmetic (double included, so bit for bit), the configuration, the number of iterations, the times and
    the memory at the beginning: any two executions of the program built with TESTMODE end alike. *)
Theorem C70_schedule : forall (A : arith) (c : config A) f fuel t0 e nb m o1 o2, c_rand A c = Reverse A f ->
  pieces_run A (run_pieces A c fuel t0 e nb) m o1 -> pieces_run A (run_pieces A c fuel t0 e nb) m o2 -> same_result o1 o2.
Proof.
  intros A c f fuel t0 e nb m o1 o2 Hf H1 H2.
  assert (S1 := run_schedule A c fuel t0 e nb m o1 (ex_intro _ f Hf) H1).
  assert (S2 := run_schedule A c fuel t0 e nb m o2 (ex_intro _ f Hf) H2).
  assert (S : same_end o1 o2) by (eapply same_end_trans; [exact S1|apply same_end_sym; exact S2]).
  destruct o1 as [m1|c1|], o2 as [m2|c2|]; cbn in *; auto. now subst.
Qed.
Print Assumptions C70_schedule.

(** Executions exist; and every execution ends as the functions of Model/GenSim.v say, in the memory they
    say. *)
Theorem C70_function : forall (A : arith) (c : config A) f, c_rand A c = Reverse A f ->
  (forall k, Z.of_nat (length (c_bunch A c k)) = c_macro A c) ->
  forall fuel t0 e m s, repr A c m s ->
  (exists o, pieces_run A (run_pieces A c fuel t0 e (gs_bunches A s)) m o) /\
  forall o, pieces_run A (run_pieces A c fuel t0 e (gs_bunches A s)) m o ->
  match gsim_run A c fuel t0 e s with
  | Ok s' => exists m', o = Ok m' /\ repr A c m' s'
  | _ => forall m', o <> Ok m'
  end.
Proof.
  intros A c f Hf HB fuel t0 e m s HR. split; [eexists; apply pieces_run_exists|]. intros o Ho.
  assert (S := run_schedule A c fuel t0 e (gs_bunches A s) m o (ex_intro _ f Hf) Ho).
  assert (L := run_link A c f Hf HB fuel t0 e m s HR).
  destruct (gsim_run A c fuel t0 e s) as [s'|x|]; cbn in L.
  - destruct L as (m' & E & R'). rewrite E in S. destruct o; cbn in S; try contradiction. subst. eauto.
  - rewrite L in S. intros m' ->. exact S.
  - rewrite L in S. intros m' ->. exact S.
Qed.
Print Assumptions C70_function.

(** With real numbers: every execution ends in the state of Model/Sim.v, about which C59-C63 speak. *)
Theorem C70_simulation : forall su f fuel t0 e s s' m o, sound su -> testmode su f ->
  Bunch.beam_z_size (su_beam su) = z_size (su_geom su) -> begins (su_geom su) s -> in_memory m s ->
  run su fuel t0 e s = Some (Ok s') ->
  pieces_run real_arith (run_pieces real_arith (to_config su (counts s) f) fuel t0 e 0) m o ->
  exists m', o = Ok m' /\ in_memory m' s'.
Proof. exact executions_real. Qed.
Print Assumptions C70_simulation.

(** For example C59: with any number of threads the run ends normally with every particle inside and slower than light. *)
Theorem C70_safe : forall su f t0 e n fuel s m o, sound su -> testmode su f ->
  Bunch.beam_z_size (su_beam su) = z_size (su_geom su) -> strict su = false -> begins (su_geom su) s -> in_memory m s ->
  no_removal (su_beam su) e -> least_steps t0 e (su_dt su) n -> (n <= fuel)%nat ->
  pieces_run real_arith (run_pieces real_arith (to_config su (counts s) f) fuel t0 e 0) m o ->
  exists m' s', o = Ok m' /\ in_memory m' s' /\ Forall (in_order (su_geom su)) (all_particles s').
Proof.
  intros su f t0 e n fuel s m o HS HT HZ X HB HM HN HL Hn Ho.
  destruct (run_safe su t0 e n s HS HB HN HL) as (s' & R & J); [congruence|].
  destruct (executions_real su f fuel t0 e s s' m o HS HT HZ HB HM (R fuel Hn) Ho) as (m' & E & M').
  exists m', s'. split; [exact E|]. split; [exact M'|]. now apply inv_in_order in J.
Qed.
Print Assumptions C70_safe.

(** A state on the sample grid with three bunches of four particles to come. *)
Definition C70_particle : particle := Particle true (-1) 1 (Phase (V3 3 0 8) (V3 (LIGHT_SPEED / 3) (LIGHT_SPEED / 4) 0) 0 0 0).
Definition C70_state : sim := Sim (fun _ => 0) (fun _ _ _ => 0) (fun _ _ => 0) [Group None [C70_particle]] 0 [].

Example C70_hypotheses_met : let su := sample_setup 3 false in
  sound su /\ testmode su (fun _ => 1 / 2) /\ Bunch.beam_z_size (su_beam su) = z_size (su_geom su) /\ strict su = false /\
  begins (su_geom su) C70_state /\ in_memory (memory_of C70_state) C70_state /\ no_removal (su_beam su) (3 * su_dt su) /\
  least_steps 0 (3 * su_dt su) (su_dt su) 3.
Proof.
  cbv zeta. assert (D : 0 < sample_dt) by (unfold sample_dt, LIGHT_SPEED; lra). cbn [su_dt su_geom su_beam su_radius sample_setup] in *.
  split; [apply sample_sound|]. split; [intros n t i; reflexivity|]. split; [reflexivity|]. split; [reflexivity|]. split.
  { unfold begins, C70_state, all_particles. cbn [s_groups s_bunch_number s_probes flat_map g_parts app]. repeat split; auto.
    constructor; [|constructor]. unfold may_start, inside_domain, p_r, p_z, subluminal, norm2. cbn [C70_particle p_phase pos vel v0 v1 v2].
    rewrite sample_dr, sample_dz. cbn [r_size z_size sample_geom]. unfold LIGHT_SPEED. repeat match goal with |- _ /\ _ => split end; lra. }
  split; [apply memory_of_shows|]. split.
  { right. cbn [Bunch.beam_z_size Bunch.initial_velocity Bunch.bunch_length]. unfold sample_dt, LIGHT_SPEED. lra. }
  split; [cbn [INR]; lra|]. intros k Hk. apply INR_le. cbn [INR]. apply Rmult_le_reg_r with sample_dt; [exact D|]. lra.
Qed.

(** ** Without TESTMODE *)

Lemma alone_steps : forall {L V} (eqb : L -> L -> bool) p m m' pre post, prun eqb p m = Ok m' ->
  clos_refl_trans_1n _ (pstep (V := V) eqb) (m, pre ++ p :: post) (m', pre ++ Done :: post).
Proof.
  intros L V eqb p. induction p as [|c|l k IH|l v p IH]; intros m m' pre post E; cbn in E.
  - injection E as <-. constructor.
  - now destruct c.
  - eapply Relation_Operators.rt1n_trans; [apply pstep_ld|]. now apply IH.
  - eapply Relation_Operators.rt1n_trans; [apply pstep_st|]. now apply IH.
Qed.

(** The configuration: one bunch of two particles, injected in the first step. With doubles. *)
Notation B64 := (b64_arith (fun x => x) (fun x => x)).
Definition z64 (n : Z) : num B64 := b64_of_Z n.
Definition C70_geom : ggeom B64 := GGeom B64 3 3 (z64 2) (z64 2).
Definition C70_bunch : gparticle B64 :=
  GParticle B64 false (z64 1) (z64 1) (GPhase B64 (GV B64 (z64 1) (z64 0) (z64 0)) (GV B64 (z64 0) (z64 0) (z64 0)) (z64 0) (z64 0) (z64 0)).
Definition C70_config (gen : generator B64) : config B64 :=
  Config B64 C70_geom (GMedium B64 (fun _ _ => z64 1) (fun _ _ => z64 0)) (z64 1) BorisClassic [] (z64 1) (z64 0) (z64 1) 1 2
    (fun _ => [C70_bunch; C70_bunch]) gen.
Definition C70_uniform : generator B64 := Uniform B64 (fun s => (s + 1)%Z) (fun s => if (s =? 0)%Z then z64 0 else b64_div (z64 1) (z64 2)).
Definition C70_zero : place -> value B64 := fun x =>
  match x with PT _ _ ALIVE => VB B64 false | GEN => VG B64 0 | _ => VN B64 (z64 0) end.

(** The two iterations of the injection loop run one after the other, the first one first or the second one first. *)
Notation C70_cfg := (C70_config C70_uniform).
Definition C70_create : piece B64 :=
  Serial B64 (pconcat (map (fun x => create_code B64 (bunch_pos B64 C70_cfg 0) (fst x) (snd x)) [(0%Z, C70_bunch); (1%Z, C70_bunch)])).
Definition C70_body (i : Z) : @prog place (value B64) :=
  ld_rand B64 C70_uniform i (fun rand_z =>
    inject_code B64 0 i (add B64 (mul B64 (mul B64 (z64 1) (z64 1)) rand_z) (div B64 (gdz B64 C70_geom) (of_int B64 2))) (z64 1)).
Definition C70_order (first second : Z) : outcome (place -> value B64) :=
  (do m <- piece_alone B64 C70_create C70_zero; do m <- prun place_eqb (pseq (C70_body first) Done) m;
   do m <- prun place_eqb (pseq (C70_body second) Done) m;
   pieces_alone B64 (iteration_pieces B64 C70_cfg 1) m)%outcome.
Definition C70_place (o : outcome (place -> value B64)) (x : num B64) : bool :=
  match o with Ok m => match m (PT 0 0 POS2) with VN _ y => Beqb x y | _ => false end | _ => false end.

Lemma C70_pieces : exists body, run_pieces B64 C70_cfg 1 (z64 0) (z64 1) 0 =
    C70_create :: Parallel B64 [0%Z; 1%Z] body :: iteration_pieces B64 C70_cfg 1 ++ [] /\
  body 0%Z = C70_body 0 /\ body 1%Z = C70_body 1.
Proof.
  assert (E1 : ltb B64 (z64 0) (z64 1) = true) by (vm_compute; reflexivity).
  assert (E2 : erase_reached B64 C70_cfg (z64 0) 0 = false) by (vm_compute; reflexivity).
  assert (E3 : creates B64 C70_cfg (z64 0) 0 = true) by (vm_compute; reflexivity).
  assert (EI : exists body, inject_piece B64 C70_cfg (z64 0) 0 = Parallel B64 [0%Z; 1%Z] body /\ body 0%Z = C70_body 0 /\ body 1%Z = C70_body 1).
  { unfold inject_piece. cbv zeta.
    match goal with |- context [(?a =? 0)%Z] => assert (S1 : a = 1%Z) by (vm_compute; reflexivity); rewrite !S1 end.
    change (1 =? 0)%Z with false. cbv iota.
    match goal with |- context [if ?b then _ else _] => assert (S2 : b = true) by (vm_compute; reflexivity); rewrite S2 end.
    change (zrange 0 (c_macro B64 C70_cfg / 1)) with [0%Z; 1%Z].
    match goal with |- context [trunc_int B64 ?a] => assert (S3 : trunc_int B64 a = 0%Z) by (vm_compute; reflexivity); rewrite S3 end.
    eexists. split; [reflexivity|]. split; reflexivity. }
  destruct EI as (body & EI & B0 & B1). exists body. split; [|now split].
  cbn [run_pieces]. rewrite E1. unfold beam_pieces. rewrite E2, E3. change (zrange 0 (0 + 1)) with [0%Z]. cbn [map]. rewrite EI. reflexivity.
Qed.

Lemma C70_execution : forall (i j : Z), (i = 0 /\ j = 1 \/ i = 1 /\ j = 0)%Z -> forall m, C70_order i j = Ok m ->
  pieces_run B64 (run_pieces B64 C70_cfg 1 (z64 0) (z64 1) 0) C70_zero (Ok m).
Proof.
  intros i j H m E. destruct C70_pieces as (body & -> & B0 & B1). unfold C70_order in E.
  destruct (piece_alone B64 C70_create C70_zero) as [m0|x|] eqn:E0; cbn [bind] in E; try discriminate.
  destruct (prun place_eqb (pseq (C70_body i) Done) m0) as [m1|x|] eqn:E1; cbn [bind] in E; try discriminate.
  destruct (prun place_eqb (pseq (C70_body j) Done) m1) as [m2|x|] eqn:E2; cbn [bind] in E; try discriminate.
  cbn [pieces_run]. exists (Ok m0). split; [now rewrite <- E0|]. exists (Ok m2). split.
  - exists [[0%Z]; [1%Z]]. split; [reflexivity|]. cbn [map pconcat fold_right]. rewrite B0, B1.
    exists m2, [Done; Done]. split; [|left; split; [repeat constructor|reflexivity]].
    apply clos_rt_rt1n. destruct H as [[-> ->]|[-> ->]].
    + eapply rt_trans; apply clos_rt1n_rt.
      * exact (alone_steps place_eqb _ _ _ [] [_] E1).
      * exact (alone_steps place_eqb _ _ _ [Done] [] E2).
    + eapply rt_trans; apply clos_rt1n_rt.
      * exact (alone_steps place_eqb _ _ _ [_] [] E1).
      * exact (alone_steps place_eqb _ _ _ [] [Done] E2).
  - rewrite app_nil_r, <- E. apply pieces_run_exists.
Qed.

Definition C70_ok (o : outcome (place -> value B64)) : bool := match o with Ok _ => true | _ => false end.
Lemma C70_differ : forall o1 o2 x, C70_place o1 x = true -> C70_ok o2 = true -> C70_place o2 x = false ->
  exists m1 m2, o1 = Ok m1 /\ o2 = Ok m2 /\ m1 (PT 0 0 POS2) <> m2 (PT 0 0 POS2).
Proof.
  intros [m1|c|] [m2|c'|] x H1 H2 H3; try discriminate. exists m1, m2. split; [reflexivity|]. split; [reflexivity|].
  cbn [C70_place] in *. intro E. rewrite E in H1. destruct (m2 (PT 0 0 POS2)); congruence.
Qed.
Lemma C70_first : C70_place (C70_order 0 1) (b64_div (z64 3) (z64 2)) = true.
Proof. vm_cast_no_check (eq_refl true). Qed.
Lemma C70_second : C70_place (C70_order 1 0) (b64_div (z64 3) (z64 2)) = false.
Proof. vm_cast_no_check (eq_refl false). Qed.
Lemma C70_second_ends : C70_ok (C70_order 1 0) = true.
Proof. vm_cast_no_check (eq_refl true). Qed.

(** C70 without TESTMODE is false: two executions of the same run, with doubles and the same state of the generator, leave
    the same particle in different places. *)
Theorem C70_uniform_refuted : exists (c : config B64) next out (m m1 m2 : place -> value B64), c_rand B64 c = Uniform B64 next out /\
  pieces_run B64 (run_pieces B64 c 1 (z64 0) (z64 1) 0) m (Ok m1) /\
  pieces_run B64 (run_pieces B64 c 1 (z64 0) (z64 1) 0) m (Ok m2) /\ m1 (PT 0 0 POS2) <> m2 (PT 0 0 POS2).
Proof.
  destruct (C70_differ (C70_order 0 1) (C70_order 1 0) _ C70_first C70_second_ends C70_second) as (m1 & m2 & E1 & E2 & N).
  exists C70_cfg, (fun s => (s + 1)%Z), (fun s => if (s =? 0)%Z then z64 0 else b64_div (z64 1) (z64 2)), C70_zero, m1, m2.
  split; [reflexivity|]. split; [exact (C70_execution 0 1 (or_introl (conj eq_refl eq_refl)) m1 E1)|].
  split; [exact (C70_execution 1 0 (or_intror (conj eq_refl eq_refl)) m2 E2)|exact N].
Qed.
Print Assumptions C70_uniform_refuted.

Lemma C70_reverse_ends :
  C70_ok (pieces_alone B64 (run_pieces B64 (C70_config (Reverse B64 (fun _ => z64 0))) 1 (z64 0) (z64 1) 0) C70_zero) = true.
Proof. vm_cast_no_check (eq_refl true). Qed.

(** The same program built with TESTMODE meets the hypotheses of C70_schedule and C70_function. *)
Example C70_hypotheses_met_double : let c := C70_config (Reverse B64 (fun _ => z64 0)) in
  (forall k, Z.of_nat (length (c_bunch B64 c k)) = c_macro B64 c) /\
  repr B64 c C70_zero (GSim B64 (fun _ => z64 0) (fun _ _ => z64 0) [] 0) /\
  exists m, pieces_run B64 (run_pieces B64 c 1 (z64 0) (z64 1) 0) C70_zero (Ok m).
Proof.
  cbv zeta. split; [reflexivity|]. split.
  - split; [intro x; reflexivity|]. split; [intros i k; reflexivity|]. split; [constructor|cbn; lia].
  - assert (P := pieces_run_exists B64 (run_pieces B64 (C70_config (Reverse B64 (fun _ => z64 0))) 1 (z64 0) (z64 1) 0) C70_zero).
    assert (K := C70_reverse_ends). revert P K. generalize (pieces_alone B64 (run_pieces B64 (C70_config (Reverse B64 (fun _ => z64 0))) 1 (z64 0) (z64 1) 0) C70_zero).
    intros [m|x|] P K; try discriminate. now exists m.
Qed.
