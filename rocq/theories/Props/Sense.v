(** C86: no sense of rotation is preferred. *)
From Coq Require Import Reals ZArith Lra List.
From Verif.Lib Require Import RAux Outcome Grid.
From Verif.Model Require Import Constants Geometry ChargeDeposit CurrentDeposit Fields Pusher Motion Dump MainLoop Sim.
From Verif.Spec Require Import Sense.
From Verif.Proof Require Import SenseP.
Import ListNotations.
Local Open Scope R_scope.

(** * C86: the mirror image of a run is a run *)

(** The push: for each pusher the image of particle and fields gives the image of the new velocity; the program stops on the one if and only if on the other. *)
Theorem C86_push : forall k dt q m e h v,
  match push k dt q m e h v, push k dt q m (image_v e) (image_axial h) (image_v v) with
  | Ok w, Ok w' => w' = image_v w | Exit c, Exit c' => c = c' | UB, UB => True | _, _ => False end.
Proof. exact push_image. Qed.
Print Assumptions C86_push.

(** Whole runs: started from the image of a state, with the same configuration and the same random numbers, the program ends in the same way, after the same number of
    steps, and in the image of the state; the files of the probes hold the same numbers with the sign of what they show. Nothing is assumed of the
    state or the configuration. *)
Theorem C86_run : forall su fuel t end_time s s', image s s' ->
  match run su fuel t end_time s, run su fuel t end_time s' with
  | Some o, Some o' => image_outcome o o'
  | None, None => True
  | _, _ => False
  end.
Proof. exact run_image. Qed.
Print Assumptions C86_run.

(** A state without rotation is its own image, and no other state is. *)
Theorem C86_own_image : forall s, image s s <-> no_rotation s /\ Forall2 image_probe (s_probes s) (s_probes s).
Proof.
  intro s. split.
  - intros (F & J & _ & G & _ & P). split; [|exact P]. split.
    + intros i k. assert (A := F EPHI i k). assert (B := F HR i k). assert (C := F HZ i k). assert (D := F HRH i k). assert (E := F HZH i k). assert (K := F JPHI i k). assert (L := J J_PHI i k).
      cbn [sign_field sign_current] in *. repeat split; lra.
    + clear F J P. induction (s_groups s) as [|[b ps] gs IH]; [constructor|]. cbn [map image_group g_bunch g_parts] in G. injection G as G1 G2. constructor; [|apply IH; exact G2]. cbn [g_parts].
      clear G2 IH. induction ps as [|p ps IH]; [constructor|]. cbn [map] in G1. injection G1 as E1 E2. constructor; [|apply IH; exact E2].
      destruct p as [al q m [[a y c] [d e f] ro zo st]]. unfold image_particle, image_phase, image_v in E1. cbn [p_phase p_alive p_charge p_mass pos vel v0 v1 v2 r_old z_old sin_theta] in *.
      injection E1 as H1 H2 H3. repeat split; lra.
  - intros ((F & G) & P). repeat split; try exact P.
    + intros a i k. destruct (F i k) as (A & B & C & D & E & K & _). destruct a; cbn [sign_field]; lra.
    + intros c i k. destruct (F i k) as (_ & _ & _ & _ & _ & _ & L). destruct c; cbn [sign_current]; lra.
    + clear F P. induction G as [|[b ps] gs H G IH]; [reflexivity|]. cbn [map]. rewrite <- IH. f_equal. unfold image_group. cbn [g_bunch g_parts] in *. f_equal.
      clear G IH. induction H as [|p ps (Y & V & S) H IH]; [reflexivity|]. cbn [map]. rewrite <- IH. f_equal. destruct p as [al q m [[a y c] [d e f] ro zo st]].
      unfold image_particle, image_phase, image_v. cbn [p_phase p_alive p_charge p_mass pos vel v0 v1 v2 r_old z_old sin_theta] in *. subst. now rewrite Ropp_0.
Qed.
Print Assumptions C86_own_image.

(** So rotation does not come from nothing: a run that starts without rotation stays so, and probes of components that go with rotation show only zeros. *)
Theorem C86_no_rotation : forall su fuel t end_time s, no_rotation s -> Forall2 image_probe (s_probes s) (s_probes s) ->
  match run su fuel t end_time s with
  | Some (Ok s') => no_rotation s' /\ Forall (fun x => sign_shown (pr_component (fst x)) = -1 -> forall n, Forall (eq 0) (snd x n)) (s_probes s')
  | _ => True
  end.
Proof.
  intros su fuel t e s N P. assert (H := run_image su fuel t e s s (proj2 (C86_own_image s) (conj N P))). destruct (run su fuel t e s) as [[s'|c|]|]; auto.
  destruct (proj1 (C86_own_image s') H) as (N' & P'). split; [exact N'|]. apply Forall_forall. intros x X S n.
  assert (I : image_probe x x).
  { clear - P' X. remember (s_probes s') as l eqn:Q. clear Q. assert (K : forall l l', Forall2 image_probe l l' -> l = l' -> In x l -> image_probe x x).
    { intros a b F. induction F as [|y y' a b Y F IH]; intros E Z; [contradiction|]. injection E as <- <-. destruct Z as [<-|Z]; [exact Y|now apply IH]. }
    now apply (K l l). }
  destruct I as (_ & V). specialize (V n). assert (S2 : sign_shown (pr_component (@fst probe files x)) = -1) by exact S. rewrite S2 in V. assert (K : forall l : list R, l = map (Rmult (-1)) l -> Forall (eq 0) l).
  { induction l as [|a l IH]; intro Q; [constructor|]. cbn [map] in Q. injection Q as Q1 Q2. constructor; [lra|now apply IH]. }
  exact (K _ V).
Qed.
Print Assumptions C86_no_rotation.

(** ** Cases that meet the hypotheses: a state with a particle that goes around, fields of both kinds and a file, and its image, which is another state; a state with moving particles and
    fields, without rotation *)
Example C86_hypotheses_met :
  let s w := Sim (fun x => match x with (EPHI, _, k) => w * IZR k | (HZ, i, _) => w * IZR i | (ER, _, _) => 5 | _ => 0 end) (fun c i k => match c with J_PHI => w | _ => 1 end) (fun _ _ => 7)
    [Group None [Particle true 1 2 (Phase (V3 1 0 1) (V3 3 (w * 4) 5) 1 1 (w / 2))]] 0 [(Probe (CArray 1) 0 0 0 1 1 1 0, fun _ => [w * 6])] in
  image (s 1) (s (-1)) /\ s 1 <> s (-1).
Proof.
  cbv zeta. split.
  - split; [intros a i k; destruct a; cbn; lra|]. split; [intros c i k; destruct c; cbn; lra|]. split; [reflexivity|]. split; [|split; [reflexivity|]].
    + cbn [s_groups map image_group g_bunch g_parts]. unfold image_group, image_particle, image_phase, image_v. cbn [map g_bunch g_parts p_phase p_alive p_charge p_mass pos vel v0 v1 v2 r_old z_old sin_theta]. replace (- 0) with 0 by lra. replace (- (1 * 4)) with (-1 * 4) by lra. replace (- (1 / 2)) with (-1 / 2) by lra. reflexivity.
    + constructor; [|constructor]. split; [reflexivity|]. intro n. cbn. f_equal. lra.
  - intro H. apply (f_equal (fun s => s_current s J_PHI 0%Z 0%Z)) in H. cbn in H. lra.
Qed.
Example C86_no_rotation_hypotheses_met :
  let s := Sim (fun x => match x with (ER, _, _) => 5 | (EZ, i, k) => IZR i | _ => 0 end) (fun c i k => match c with J_PHI => 0 | _ => 1 end) (fun _ _ => 7)
    [Group None [Particle true 1 2 (Phase (V3 1 0 1) (V3 3 0 5) 1 1 0)]] 0 [(Probe (CArray 1) 0 0 0 1 1 1 0, fun _ => []); (Probe (CArray 0) 0 0 0 1 1 1 0, fun _ => [5])] in
  no_rotation s /\ Forall2 image_probe (s_probes s) (s_probes s).
Proof.
  cbv zeta. split; [split|].
  - intros i k. cbn. repeat split; reflexivity.
  - repeat (apply Forall_cons || apply Forall_nil); cbn; repeat split; reflexivity.
  - cbn [s_probes]. apply Forall2_cons; [|apply Forall2_cons; [|apply Forall2_nil]]; (split; [reflexivity|]); intro n; cbn; [reflexivity|]. f_equal. lra.
Qed.
