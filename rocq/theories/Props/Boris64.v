(** C84: one push of a particle in double precision is one step of the Boris scheme, up to rounding. *)
From Coq Require Import Reals ZArith List Bool Lia Lra.
From Flocq Require Import Core IEEE754.BinarySingleNaN.
From Verif.Lib Require Import RAux Outcome.
From Verif.Model Require Import Constants Binary64 Temperature64 Fields Pusher Arith GenCode GenRun GenSim.
From Verif.Proof Require Import Binary64P FloatP Push64P Err64P MomentumR Boost64P Gentle64P BorisErr64P BorisRun64P BorisRel64P BorisStep64P.
From Verif.Props Require Import Double Momentum.
From Verif.Spec Require Import Double Momentum Boris.
Local Open Scope R_scope.

(** * C84: the Boris push in double precision follows the exact scheme *)

(** The scheme (Spec/Boris.v, an implicit equation for the rotation) takes each velocity to exactly one velocity. *)
Theorem C84_scheme : forall q m dt e h v,
  (exists w, boris_step q m dt e h v w /\ forall w', boris_step q m dt e h v w' -> w' = w) /\
  (exists w, classic_step q m dt e h v w /\ forall w', classic_step q m dt e h v w' -> w' = w).
Proof.
  intros q m dt e h v. split.
  - eexists. split; [apply boris_step_is; reflexivity|]. intros w' H. apply boris_step_is in H. exact H.
  - eexists. split; [apply classic_step_is; reflexivity|]. intros w' H. apply classic_step_is in H. exact H.
Qed.
Print Assumptions C84_scheme.

(** In exact arithmetic the code (src/particles.cpp lines 1025-1150) is the scheme, for each particle slower than light. *)
Theorem C84_exact : forall q m dt e h v, dot (quiet (t3 v)) (quiet (t3 v)) < light * light ->
  exists w, boris_push true dt q m e h v = Ok w /\ boris_step q m dt (t3 e) (t3 h) (t3 v) (t3 w).
Proof. exact exact_step. Qed.
Print Assumptions C84_exact.

(** In double precision each component of the new velocity differs from that of the scheme by about 2048 (a + 100 g^3) / 2^53 of the
    particle's momentum, where g is the Lorentz factor and a the error of pow in units in the last place. *)
Theorem C84_push : forall pw lg a (dt q m : b64) (e h v : gvec (b64_arith pw lg)) b, 0 <= a <= 8192 -> close_pow pw a ->
  sane q m -> is_finite dt = true -> 0 < B2R dt <= bpow radix2 (-18) ->
  finite3 pw lg e -> size3 pw lg e <= bpow radix2 251 -> finite3 pw lg h -> size3 pw lg h <= bpow radix2 251 ->
  finite3 pw lg v -> size3 pw lg v < 300000000 -> momentum pw lg v + impulse pw lg q m dt e <= b ->
  turns_little (B2R q) (B2R m) (B2R dt) (real3 pw lg h) ->
  let g := lorentz (b + 1) in (a + 100 * (g * g * g)) * bpow radix2 (-53) <= bpow radix2 (-17) ->
  exists v', gboris_push (b64_arith pw lg) true dt q m e h v = Ok v' /\ finite3 pw lg v' /\
    forall w, boris_step (B2R q) (B2R m) (B2R dt) (real3 pw lg e) (real3 pw lg h) (real3 pw lg v) w ->
    within (2048 * (a + 100 * (g * g * g)) * bpow radix2 (-53) * (b + bpow radix2 (-58))) (real3 pw lg v') w.
Proof.
  intros pw lg a dt q m e h v b HA HP HQ FD HD FE SE FH SH FV SV HB HT. exact (boris_step_near pw lg a HA HP dt q m e h v b HQ FD HD FE SE FH SH FV SV HB HT).
Qed.
Print Assumptions C84_push.

(** The same without relativity. Nothing is asked of pow. *)
Theorem C84_classic : forall pw lg (dt q m : b64) (e h v : gvec (b64_arith pw lg)),
  sane q m -> is_finite dt = true -> 0 < B2R dt <= bpow radix2 (-18) ->
  finite3 pw lg e -> size3 pw lg e <= bpow radix2 251 -> finite3 pw lg h -> size3 pw lg h <= bpow radix2 251 ->
  finite3 pw lg v -> size3 pw lg v + impulse pw lg q m dt e <= bpow radix2 59 ->
  turns_little (B2R q) (B2R m) (B2R dt) (real3 pw lg h) ->
  exists v', gboris_push (b64_arith pw lg) false dt q m e h v = Ok v' /\ finite3 pw lg v' /\
    forall w, classic_step (B2R q) (B2R m) (B2R dt) (real3 pw lg e) (real3 pw lg h) (real3 pw lg v) w ->
    within (10000 * bpow radix2 (-53) * (size3 pw lg v + impulse pw lg q m dt e + bpow radix2 (-58))) (real3 pw lg v') w.
Proof. exact classic_step_near. Qed.
Print Assumptions C84_classic.

(** Any number of pushes without relativity, in fields that differ from push to push: the distance between the velocity in the program and
    that of the scheme grows by [classic_error] per push at most, about 2 10^-12 of the speed. It is not amplified by later pushes. *)
Theorem C84_classic_run : forall pw lg (dt q m : b64) fs (v : gvec (b64_arith pw lg)) b, sane q m -> is_finite dt = true -> 0 < B2R dt <= bpow radix2 (-18) ->
  Forall (fun f => (finite3 pw lg (fst f) /\ size3 pw lg (fst f) <= bpow radix2 251) /\ (finite3 pw lg (snd f) /\ size3 pw lg (snd f) <= bpow radix2 251) /\
    turns_little (B2R q) (B2R m) (B2R dt) (real3 pw lg (snd f))) fs ->
  finite3 pw lg v -> 0 <= b <= bpow radix2 59 -> size3 pw lg v + total_impulse pw lg q m dt fs + INR (length fs) * classic_error b <= b ->
  exists v', classic_pushes pw lg dt q m fs v = Ok v' /\ finite3 pw lg v' /\
    forall w, classic_steps (B2R q) (B2R m) (B2R dt) (map (fun f => (real3 pw lg (fst f), real3 pw lg (snd f))) fs) (real3 pw lg v) w ->
    distance (real3 pw lg v') w <= INR (length fs) * classic_error b.
Proof.
  intros pw lg dt q m fs v b HQ FD HD FS FV HB0 HB. destruct (classic_run pw lg dt q m fs v b HQ FD HD FS FV HB0 HB) as (v' & E & F & D).
  exists v'. split; [exact E|]. split; [exact F|]. intros w H. specialize (D _ w H). rewrite distance_self in D. lra.
Qed.
Print Assumptions C84_classic_run.

(** Any number of relativistic pushes ([pushes], as in C72): compared are the momenta per mass. Each push adds [boris_error] at most, and amplifies what
    is there by [shear] at most, since particles of different momentum turn by different angles; without magnetic field there is no amplification. *)
Theorem C84_run : forall pw lg a (dt q m : b64) fs (v : gvec (b64_arith pw lg)) b theta, 0 <= a <= 8192 -> close_pow pw a ->
  sane q m -> is_finite dt = true -> 0 < B2R dt <= bpow radix2 (-18) ->
  Forall (fun f => (finite3 pw lg (fst f) /\ size3 pw lg (fst f) <= bpow radix2 251) /\ (finite3 pw lg (snd f) /\ size3 pw lg (snd f) <= bpow radix2 251) /\
    turns_little (B2R q) (B2R m) (B2R dt) (real3 pw lg (snd f)) /\ mu0 * (Rabs (B2R q) * B2R dt / (2 * B2R m)) * size3 pw lg (snd f) <= theta) fs ->
  0 <= b -> copes a b -> (let g := lorentz (b + 1) in (a + 100 * (g * g * g)) * bpow radix2 (-53) <= bpow radix2 (-17)) -> 0 <= theta ->
  finite3 pw lg v -> size3 pw lg v < 300000000 -> momentum pw lg v + total_impulse pw lg q m dt fs + INR (length fs) * step_error a b <= b ->
  exists v', pushes pw lg dt q m fs v = Ok v' /\ finite3 pw lg v' /\ size3 pw lg v' < 300000000 /\
    forall w, boris_steps (B2R q) (B2R m) (B2R dt) (map (fun f => (real3 pw lg (fst f), real3 pw lg (snd f))) fs) (real3 pw lg v) w ->
      distance (mom (real3 pw lg v')) (mom w) <= shear theta b ^ length fs * (INR (length fs) * boris_error a b).
Proof.
  intros pw lg a dt q m fs v b theta HA HP HQ FD HD FS B0 HC HG T0 FV SV HB. destruct (boris_run pw lg a HA HP dt q m fs v b theta HQ FD HD FS B0 HC HG T0 FV SV HB) as (v' & E & F & L & D).
  exists v'. split; [exact E|]. split; [exact F|]. split; [exact L|]. intros w H.
  assert (NE : 0 <= INR (length fs) * step_error a b).
  { apply Rmult_le_pos; [apply pos_INR|]. assert (G := boost_ge (b + 1)). rewrite <- lorentz_boost in G. unfold step_error. cbv zeta. assert (P := u_pos). change (bpow radix2 (-53)) with u. apply Rplus_le_le_0_compat; repeat apply Rmult_le_pos; lra. }
  rewrite (momentum_mom pw lg v SV) in HB. specialize (D (real3 pw lg v) w SV ltac:(lra) H). rewrite distance_self, Rplus_0_l in D. exact D.
Qed.
Print Assumptions C84_run.

(** In the main loop (Particles::step_v): each live particle in place is pushed, its new velocity is that of the scheme under the fields that the
    program finds at its place, up to the same error. *)
Theorem C84_step : forall pw lg a (c : config (b64_arith pw lg)) f p b, 0 <= a <= 8192 -> close_pow pw a -> good_pow pw ->
  fine pw lg (c_geom _ c) (c_dt _ c) -> (c_pusher _ c = BorisRelativistic \/ c_pusher _ c = BorisAdaptive true) ->
  calm pw lg (c_geom _ c) f -> in_place pw lg (c_geom _ c) p -> galive _ p = true ->
  let e := gget_efield _ (c_geom _ c) f (g0 _ (gpos _ (gph _ p))) (g2 _ (gpos _ (gph _ p))) in
  let h := gget_hfield _ (c_geom _ c) f (g0 _ (gpos _ (gph _ p))) (g2 _ (gpos _ (gph _ p))) in
  let v := gvel _ (gph _ p) in
  size3 pw lg v < 300000000 -> momentum pw lg v + impulse pw lg (gcharge _ p) (gmass _ p) (c_dt _ c) e <= b ->
  turns_little (@B2R prec64 emax64 (gcharge _ p)) (@B2R prec64 emax64 (gmass _ p)) (@B2R prec64 emax64 (c_dt _ c)) (real3 pw lg h) ->
  let k := lorentz (b + 1) in (a + 100 * (k * k * k)) * bpow radix2 (-53) <= bpow radix2 (-17) ->
  exists p', gstep_v_one _ (c_pusher _ c) (c_geom _ c) (c_dt _ c) f p = Ok p' /\
    forall w, boris_step (@B2R prec64 emax64 (gcharge _ p)) (@B2R prec64 emax64 (gmass _ p)) (@B2R prec64 emax64 (c_dt _ c)) (real3 pw lg e) (real3 pw lg h) (real3 pw lg v) w ->
    within (2048 * (a + 100 * (k * k * k)) * bpow radix2 (-53) * (b + bpow radix2 (-58))) (real3 pw lg (gvel _ (gph _ p'))) w.
Proof.
  intros pw lg a c f p b HA HPC HP HF HU CM OK AL. exact (step_v_near pw lg a HA HPC HP c HF HU f p b CM OK AL).
Qed.
Print Assumptions C84_step.

(** ** A case that meets the hypotheses: an electron (charge -1.6 10^-19 C, mass 8.9 10^-31 kg) at 6/10 of the speed of light, 10^6 V/m, 10^5 A/m, 0.9 ps *)
Definition el_q : b64 := q64 (-3) (2 ^ 64).
Definition el_m : b64 := q64 577 (2 ^ 109).
Definition el_dt : b64 := q64 1 (2 ^ 40).
Definition el_v : gvec D := GV D (z64 100000000) (z64 50000000) (z64 150000000).
Definition el_e : gvec D := GV D (z64 1000000) (z64 0) (z64 (-1000000)).
Definition el_h : gvec D := GV D (z64 0) (z64 100000) (z64 50000).

Example C84_hypotheses_met : 0 <= 3 <= 8192 /\ close_pow root_inv 3 /\ sane el_q el_m /\ is_finite el_dt = true /\ 0 < B2R el_dt <= bpow radix2 (-18) /\
  finite3 root_inv (fun x => x) el_e /\ size3 root_inv (fun x => x) el_e <= bpow radix2 251 /\
  finite3 root_inv (fun x => x) el_h /\ size3 root_inv (fun x => x) el_h <= bpow radix2 251 /\
  finite3 root_inv (fun x => x) el_v /\ size3 root_inv (fun x => x) el_v < 300000000 /\
  momentum root_inv (fun x => x) el_v + impulse root_inv (fun x => x) el_q el_m el_dt el_e <= 400000000 /\
  size3 root_inv (fun x => x) el_v + impulse root_inv (fun x => x) el_q el_m el_dt el_e <= bpow radix2 59 /\
  turns_little (B2R el_q) (B2R el_m) (B2R el_dt) (real3 root_inv (fun x => x) el_h) /\
  (let g := lorentz (400000000 + 1) in (3 + 100 * (g * g * g)) * bpow radix2 (-53) <= bpow radix2 (-17) /\
    2048 * (3 + 100 * (g * g * g)) * bpow radix2 (-53) * (400000000 + bpow radix2 (-58)) <= 1 / 10) /\
  dot (quiet (real3 root_inv (fun x => x) el_v)) (quiet (real3 root_inv (fun x => x) el_v)) < light * light.
Proof.
  assert (VQ : is_finite el_q = true /\ B2R el_q = - 3 / 18446744073709551616) by (value el_q; split; [assumption|]; lra).
  assert (VM : is_finite el_m = true /\ B2R el_m = 577 / 649037107316853453566312041152512) by (value el_m; split; [assumption|]; lra).
  assert (VD : is_finite el_dt = true /\ B2R el_dt = 1 / 1099511627776) by (value el_dt; split; [assumption|]; lra).
  destruct VQ as (FQ & VQ), VM as (FM & VM), VD as (FD & VD).
  value (z64 100000000). value (z64 50000000). value (z64 150000000). value (z64 1000000). value (z64 0). value (z64 (-1000000)). value (z64 100000). value (z64 50000).
  cbn [num b64_arith] in *.
  assert (SL : slow root_inv (fun x => x) 300000000 el_v) by (apply slow_of; do 3 eexists; split; [exact V|]; split; [exact V0|]; split; [exact V1|]; lra).
  destruct SL as (SV & MV).
  assert (SE : size3 root_inv (fun x => x) el_e <= 2000000) by (unfold size3; apply length_le; cbn [el_e g0 g1 g2]; rewrite ?V2, ?V3, ?V4; lra).
  assert (SH : size3 root_inv (fun x => x) el_h <= 2000000) by (unfold size3; apply length_le; cbn [el_h g0 g1 g2]; rewrite ?V3, ?V5, ?V6; lra).
  assert (B : 2000000 <= bp 251) by (apply Rle_trans with (bp 30); [cbn; lra|apply bpow_le; lia]).
  assert (PE : 0 <= size3 root_inv (fun x => x) el_e) by apply length_pos.
  assert (I : impulse root_inv (fun x => x) el_q el_m el_dt el_e <= 1000000).
  { unfold impulse. cbn [num b64_arith]. rewrite VQ, VM, VD, Rabs_left by lra. set (z := size3 _ _ _) in *. lra. }
  assert (L59 : 600000000 <= bp 59) by (cbn; lra).
  split; [lra|]. split; [exact root_inv_close|].
  split. { split; [exact FQ|]. split; [exact FM|]. rewrite VM, VQ. split; [|rewrite Rabs_left by lra; cbn; lra].
    split; [apply Rle_trans with (bp (-110)); [apply bpow_le; lia|cbn; lra]|apply Rle_trans with (bp 0); [cbn; lra|apply bpow_le; lia]]. }
  split; [exact FD|]. split; [rewrite VD; cbn; lra|].
  split; [repeat split; assumption|]. split; [lra|]. split; [repeat split; assumption|]. split; [lra|]. split; [repeat split; assumption|]. split; [exact SV|].
  split; [unfold momentum; unfold momentum in MV; lra|]. split; [lra|].
  split. { unfold turns_little, real3, mu0. cbv zeta. cbn [c0 c1 c2 el_h g0 g1 g2]. rewrite ?V3, ?V5, ?V6, VQ, VM, VD. repeat split; apply Rabs_le; split; lra. }
  split. { cbv zeta. destruct ex_lorentz as (G & L). set (g := lorentz (400000000 + 1)) in *. assert (1 <= g * g) by nra. assert (0 <= g * g * g) by nra. assert (g * g * g <= 9) by nra.
    change (bpow radix2 (-53)) with u. rewrite u_val. split; cbn; lra. }
  unfold dot, quiet, real3, light. cbn [c0 c1 c2 el_v g0 g1 g2]. rewrite V, V0, V1. unfold quiet1. repeat (destruct (Rlt_dec _ _)); lra.
Qed.

Example C84_run_hypotheses_met : let fs := ((el_e, el_h) :: (el_h, el_e) :: (el_e, el_e) :: nil)%list in
  Forall (fun f => (finite3 root_inv (fun x => x) (fst f) /\ size3 root_inv (fun x => x) (fst f) <= bpow radix2 251) /\
    (finite3 root_inv (fun x => x) (snd f) /\ size3 root_inv (fun x => x) (snd f) <= bpow radix2 251) /\
    turns_little (B2R el_q) (B2R el_m) (B2R el_dt) (real3 root_inv (fun x => x) (snd f)) /\
    mu0 * (Rabs (B2R el_q) * B2R el_dt / (2 * B2R el_m)) * size3 root_inv (fun x => x) (snd f) <= 1 / 4) fs /\
  momentum root_inv (fun x => x) el_v + total_impulse root_inv (fun x => x) el_q el_m el_dt fs + INR (length fs) * step_error 3 400000000 <= 400000000 /\
  copes 3 400000000 /\ boris_error 3 400000000 <= 10 /\
  size3 root_inv (fun x => x) el_v + total_impulse root_inv (fun x => x) el_q el_m el_dt fs + INR (length fs) * classic_error 400000000 <= 400000000 /\
  classic_error 400000000 <= 1 / 1000.
Proof.
  destruct C84_hypotheses_met as (_ & _ & _ & _ & _ & FE & SE & FH & SH & FV & SV & MV & _ & TH & _). cbv zeta.
  assert (VQ : B2R el_q = - 3 / 18446744073709551616) by (value el_q; lra).
  assert (VM : B2R el_m = 577 / 649037107316853453566312041152512) by (value el_m; lra).
  assert (VD : B2R el_dt = 1 / 1099511627776) by (value el_dt; lra).
  value (z64 1000000). value (z64 0). value (z64 (-1000000)). value (z64 100000). value (z64 50000). cbn [num b64_arith] in *.
  assert (LE : size3 root_inv (fun x => x) el_e <= 2000000) by (unfold size3; apply length_le; cbn [el_e g0 g1 g2]; rewrite ?V, ?V0, ?V1; lra).
  assert (LH : size3 root_inv (fun x => x) el_h <= 2000000) by (unfold size3; apply length_le; cbn [el_h g0 g1 g2]; rewrite ?V0, ?V2, ?V3; lra).
  assert (TE : turns_little (B2R el_q) (B2R el_m) (B2R el_dt) (real3 root_inv (fun x => x) el_e)).
  { unfold turns_little, real3, mu0. cbv zeta. cbn [c0 c1 c2 el_e g0 g1 g2]. rewrite ?V, ?V0, ?V1, VQ, VM, VD. repeat split; apply Rabs_le; split; lra. }
  assert (I : forall e, size3 root_inv (fun x => x) e <= 2000000 -> impulse root_inv (fun x => x) el_q el_m el_dt e <= 1000000).
  { intros e L. unfold impulse. cbn [num b64_arith]. rewrite VQ, VM, VD, Rabs_left by lra. assert (PE : 0 <= size3 root_inv (fun x => x) e) by apply length_pos. set (z := size3 _ _ _) in *. lra. }
  assert (IE := I _ LE). assert (IH := I _ LH).
  assert (CE : classic_error 400000000 <= 1 / 1000) by (unfold classic_error; change (bpow radix2 (-53)) with u; rewrite u_val; cbn; lra).
  assert (SH3 : forall e, size3 root_inv (fun x => x) e <= 2000000 -> mu0 * (Rabs (B2R el_q) * B2R el_dt / (2 * B2R el_m)) * size3 root_inv (fun x => x) e <= 1 / 4).
  { intros e L. rewrite VQ, VM, VD, Rabs_left by lra. assert (PE : 0 <= size3 root_inv (fun x => x) e) by apply length_pos. set (z := size3 _ _ _) in *. unfold mu0. lra. }
  assert (MM : momentum root_inv (fun x => x) el_v <= 300000000).
  { value (z64 100000000). value (z64 50000000). value (z64 150000000). cbn [num b64_arith] in *. apply slow_of. do 3 eexists. split; [exact V4|]. split; [exact V5|]. split; [exact V6|]. lra. }
  split; [do 3 (apply Forall_cons; [cbn [fst snd]; split; [split; assumption|split; [split; assumption|split; [assumption|apply SH3; assumption]]]|]); apply Forall_nil|].
  cbn [total_impulse fst length]. replace (INR 3) with 3 by (cbn; lra). destruct ex_error as (_ & EE). split; [lra|]. split; [exact ex_copes|]. split; [|split; [lra|exact CE]].
  unfold boris_error. cbv zeta. destruct ex_lorentz as (G & L). set (g := lorentz (400000000 + 1)) in *. assert (G2 : 1 <= g * g) by nra. assert (G3 : 0 <= g * g * g) by nra. assert (G9 : g * g * g <= 6) by nra.
  change (bpow radix2 (-53)) with u. rewrite u_val. replace (bpow radix2 (-58)) with (/ 288230376151711744) by (cbn; lra).
  apply Rle_trans with (6 * (8192 * (3 + 100 * 6) * / 9007199254740992 * (400000000 + / 288230376151711744) + 8 / 1000000000000000)); [|lra]. apply Rmult_le_compat; try lra.
Qed.

Definition const_fields : gmem D := fun _ => z64 1000.
Definition const_check : bool :=
  let e := gget_efield D ex_geom const_fields (q64 1 2) (q64 5 8) in let h := gget_hfield D ex_geom const_fields (q64 1 2) (q64 5 8) in
  all_small const_fields && small (g0 D e) && small (g1 D e) && small (g2 D e) && small (g0 D h) && small (g1 D h) && small (g2 D h).
Lemma const_checked : const_check = true.
Proof. vm_cast_no_check (eq_refl true). Qed.

Example C84_step_hypotheses_met : let p := ex_live in let c := ex_config in
  let e := gget_efield D (c_geom D c) const_fields (g0 D (gpos D (gph D p))) (g2 D (gpos D (gph D p))) in
  let h := gget_hfield D (c_geom D c) const_fields (g0 D (gpos D (gph D p))) (g2 D (gpos D (gph D p))) in
  good_pow root_inv /\ fine root_inv (fun x => x) (c_geom D c) (c_dt D c) /\ c_pusher D c = BorisRelativistic /\
  calm root_inv (fun x => x) (c_geom D c) const_fields /\ in_place root_inv (fun x => x) (c_geom D c) p /\ galive D p = true /\
  size3 root_inv (fun x => x) (gvel D (gph D p)) < 300000000 /\
  momentum root_inv (fun x => x) (gvel D (gph D p)) + impulse root_inv (fun x => x) (gcharge D p) (gmass D p) (c_dt D c) e <= 400000000 /\
  turns_little (@B2R prec64 emax64 (gcharge D p)) (@B2R prec64 emax64 (gmass D p)) (@B2R prec64 emax64 (c_dt D c)) (real3 root_inv (fun x => x) h).
Proof.
  destruct C71_hypotheses_met as (H0 & H1 & _ & H3 & H4 & _). assert (K := const_checked). unfold const_check in K. cbv zeta in K. rewrite !andb_true_iff in K. destruct K as ((((((K & E0) & E1) & E2) & K0) & K1) & K2).
  cbv zeta. split; [exact H0|]. split; [exact H1|]. split; [exact H3|]. split; [apply all_in_range; exact K|].
  split; [destruct H4 as (_ & _ & H4); rewrite Forall_forall in H4; apply H4; left; reflexivity|]. split; [reflexivity|].
  change (c_geom D ex_config) with ex_geom. change (c_dt D ex_config) with ex_dt. cbn [ex_live gph gpos gvel g0 g2 gcharge gmass].
  set (e := gget_efield D ex_geom const_fields (q64 1 2) (q64 5 8)) in *. set (h := gget_hfield D ex_geom const_fields (q64 1 2) (q64 5 8)) in *.
  value (z64 100000000). value (z64 50000000). value (z64 150000000). value (q64 1 (2 ^ 20)). value ex_dt. cbn [num b64_arith] in *.
  assert (SL : slow root_inv (fun x => x) 300000000 (GV D (z64 100000000) (z64 50000000) (z64 150000000))) by (apply slow_of; do 3 eexists; split; [exact V|]; split; [exact V0|]; split; [exact V1|]; lra).
  destruct SL as (SV & MV). split; [exact SV|].
  assert (SE := small_size e E0 E1 E2). assert (B50 : bp 50 = 1125899906842624) by reflexivity. rewrite B50 in SE. assert (PE : 0 <= size3 root_inv (fun x => x) e) by apply length_pos.
  split.
  - unfold impulse. cbn [num b64_arith]. rewrite V2, V3. rewrite Rabs_pos_eq by lra. set (z := size3 _ _ e) in *. lra.
  - assert (SM : forall x, small x = true -> Rabs (B2R (x : b64)) <= 1125899906842624).
    { intros x H. unfold small in H. apply andb_true_iff in H. destruct H as (FX & L). destruct (of_Z_exact (2 ^ 50) eq_refl) as (FF & EE).
      apply leb_ok in L; [|rewrite is_finite_Babs; exact FX|exact FF]. rewrite B2R_Babs in L. unfold z64 in L. rewrite EE in L. exact L. }
    apply SM in K0, K1, K2. unfold turns_little, real3, mu0. cbv zeta. cbn [c0 c1 c2]. clearbody h. cbn [num b64_arith] in *. rewrite V2, V3.
    apply Rabs_le_inv in K0, K1, K2. repeat split; apply Rabs_le; split; lra.
Qed.
