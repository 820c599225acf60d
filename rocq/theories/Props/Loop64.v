(** Property C79: particles and fields together in double precision (the main loop, src/loadInitParam.cpp lines 440-560). *)
From Coq Require Import Reals ZArith List Bool Lia Lra.
From Flocq Require Import Core IEEE754.BinarySingleNaN.
From Verif.Lib Require Import RAux Grid Outcome Par ParProg.
From Verif.Model Require Import Constants Binary64 Temperature64 Arith Geometry Fields Pusher GenCode GenRun GenSim.
From Verif.Proof Require Import Binary64P FloatP LogEx64P GenRunP GenSimP GenSimP2 Run64P ClearAxisP Loop64P.
From Verif.Props Require Import Double Deposit64.
From Verif.Spec Require Import Field64 Short Deposit64 Loop64 Double.
Import ListNotations.
Local Open Scope R_scope.

(** C79. Particles make currents, currents make fields, fields push particles. From a state and a configuration of [contained], with a
    beam or without: the n steps of the main loop do nothing undefined (the run ends, or stops with exit(1) because a particle is too fast), and
    after each of them every element of every field and current array is a number of at most 2^251, and every live particle is in its place. Nothing
    is assumed of the fields after the start. *)
Theorem C79_run : forall pw lg (c : config (b64_arith pw lg)) n t e s theta K Q, good_pow pw -> accurate_log lg ->
  contained pw lg c n s theta K Q -> starts pw lg c s -> ((0 < c_bunches _ c)%Z -> beam_ok pw lg c n t) ->
  (gsim_run _ c n t e s = Exit 1 \/ exists s', gsim_run _ c n t e s = Ok s') /\
  forall i s', (i <= n)%nat -> gsim_run _ c i t e s = Ok s' ->
    mild pw lg (bpow radix2 251) (c_geom _ c) (gs_fields _ s') /\ Forall (in_place pw lg (c_geom _ c)) (parts pw lg s').
Proof.
  intros pw lg c n t e s theta K Q HP HL HC HS HB. split; [exact (loop_safe pw lg HP HL c n t e s theta K Q HC HS HB)|]. intros i s' Li E. split.
  - exact (loop_mild pw lg HP HL c n t e s theta K Q HC HS HB i s' Li E).
  - exact (loop_in_place pw lg HP HL c n t e s theta K Q HC HS HB i s' Li E).
Qed.
Print Assumptions C79_run.

(** C79. So the assumption of C71, C72 and of the theorems about threads that the fields stay bounded can be dropped here. *)
Theorem C79_calm : forall pw lg (c : config (b64_arith pw lg)) n t e s theta K Q, good_pow pw -> accurate_log lg ->
  contained pw lg c n s theta K Q -> starts pw lg c s -> ((0 < c_bunches _ c)%Z -> beam_ok pw lg c n t) -> stays_calm pw lg c n t e s.
Proof. intros pw lg c n t e s theta K Q HP HL HC HS HB. exact (loop_calm pw lg HP HL c n t e s theta K Q HC HS HB). Qed.
Print Assumptions C79_calm.

(** C79. The same for any number of threads and any interleaving of their loads and stores (C70). *)
Theorem C79_threads : forall pw lg (c : config (b64_arith pw lg)) f n t e s theta K Q m o, good_pow pw -> accurate_log lg ->
  contained pw lg c n s theta K Q -> starts pw lg c s -> ((0 < c_bunches _ c)%Z -> beam_ok pw lg c n t) ->
  c_rand _ c = Reverse _ f -> (forall k, Z.of_nat (length (c_bunch _ c k)) = c_macro _ c) -> repr _ c m s ->
  pieces_run _ (run_pieces _ c n t e (gs_bunches _ s)) m o ->
  (gsim_run _ c n t e s = Exit 1 /\ forall m', o <> Ok m') \/
  exists m' s', o = Ok m' /\ repr _ c m' s' /\ mild pw lg (bpow radix2 251) (c_geom _ c) (gs_fields _ s') /\ Forall (in_place pw lg (c_geom _ c)) (parts pw lg s').
Proof.
  intros pw lg c f n t e s theta K Q m o HP HLG HC ST BO Hf HL HR Ho.
  assert (S := run_schedule _ c n t e (gs_bunches _ s) m o (ex_intro _ f Hf) Ho).
  assert (L := run_link _ c f Hf HL n t e m s HR).
  destruct (C79_run pw lg c n t e s theta K Q HP HLG HC ST BO) as ([E|(s' & E)] & M).
  - left. rewrite E in L. cbn in L. split; [exact E|]. rewrite L in S. intros m' ->. exact S.
  - right. destruct (M n s' (le_n n) E) as (M1 & M2). rewrite E in L. cbn in L. destruct L as (m' & E' & R'). rewrite E' in S. destruct o; cbn in S; try contradiction. subst. exists m', s'. auto.
Qed.
Print Assumptions C79_threads.

(** The hypotheses can be met: the grid and the particles of C71, a step of 2^-36 s, one bunch of two particles, two steps; *)
Notation N := (b64_arith root_inv near_ln).
Definition loop_geom : ggeom N := GGeom N 5 8 (z64 1) (q64 7 4).
Definition loop_dt : num N := q64 1 (2 ^ 36).
Definition loop_waiting : gparticle N :=
  GParticle N false (q64 (-1) (2 ^ 20)) (q64 1 (2 ^ 20)) (GPhase N (GV N (q64 3 8) (z64 0) (z64 0)) (GV N (z64 0) (z64 0) (z64 0)) (z64 0) (z64 0) (z64 0)).
Definition loop_live : gparticle N :=
  GParticle N true (q64 1 (2 ^ 20)) (q64 1 (2 ^ 20)) (GPhase N (GV N (q64 17 32) (z64 0) (q64 5 8)) (GV N (z64 100000000) (z64 50000000) (z64 150000000)) (z64 0) (z64 0) (z64 0)).
Definition loop_config (bunches : Z) : config N :=
  Config N loop_geom (GMedium N (fun _ _ => z64 1) (fun _ _ => z64 0)) loop_dt BorisRelativistic [1%Z] (q64 200000000 (2 ^ 35)) (z64 0) (z64 200000000) bunches 2
    (fun _ => [loop_waiting; loop_waiting]) (Reverse N (fun _ => q64 1 2)).
Definition loop_state : gsim N := GSim N (fun _ => z64 0) (fun _ _ => z64 0) [(false, [loop_live])] 0.

Lemma loop_fine : fine root_inv near_ln loop_geom loop_dt.
Proof.
  value (gdr D ex_geom). value (gdz D ex_geom). value (loop_dt). cbn [num b64_arith] in *.
  split; cbn [gn_r gn_z loop_geom]; try lia; try (vm_compute; reflexivity); try (split; [assumption|]); cbn [num b64_arith]; change (gdr N loop_geom) with (gdr D ex_geom); change (gdz N loop_geom) with (gdz D ex_geom); rewrite ?V, ?V0, ?V1; cbn; lra.
Qed.
Lemma loop_starts : forall b, starts root_inv near_ln (loop_config b) loop_state.
Proof.
  intro b. split; [reflexivity|]. split; [constructor; [reflexivity|constructor]|]. constructor; [|constructor]. intros _. cbn [loop_config c_geom loop_live gph gpos gvel g0 g1 g2 gcharge gmass].
  value (gdr D ex_geom). value (gdz D ex_geom). value (q64 17 32). value (q64 5 8). value (z64 0). value (z64 100000000). value (z64 50000000). value (z64 150000000).
  assert (B : bpow radix2 31 = 2147483648) by reflexivity. assert (B2 : bpow radix2 (-30) = / 1073741824) by (cbn; lra). cbn [num b64_arith] in *.
  split; [split; [assumption|]; cbv zeta; cbn [num b64_arith gn_r loop_geom]; nodes; change (gdr N loop_geom) with (gdr D ex_geom); rewrite V, V1, B2; lra|].
  split; [split; [assumption|]; cbv zeta; cbn [num b64_arith gn_z loop_geom]; nodes; change (gdz N loop_geom) with (gdz D ex_geom); rewrite V0, V2, B2; lra|].
  split; [assumption|]. split; [assumption|].
  split; [split; [assumption|]; cbn [num b64_arith]; rewrite V4, B, Rabs_pos_eq; lra|].
  split; [split; [assumption|]; cbn [num b64_arith]; rewrite V5, B, Rabs_pos_eq; lra|].
  split; [split; [assumption|]; cbn [num b64_arith]; rewrite V6, B, Rabs_pos_eq; lra|]. apply ex_sane.
Qed.
Lemma loop_beam : beam_ok root_inv near_ln (loop_config 1) 2 (z64 0).
Proof.
  value (z64 200000000). value (c_duration N (loop_config 1)). value (c_hole N (loop_config 1)). value loop_dt. value (z64 0). value (add N (z64 0) loop_dt).
  value (q64 1 2). value (gdr D ex_geom). value (q64 3 8). cbn [num b64_arith] in *.
  assert (B2 : bpow radix2 (-30) = / 1073741824) by (cbn; lra). assert (B3 : bpow radix2 30 = 1073741824) by reflexivity. assert (B4 : bpow radix2 (-300) <= bpow radix2 (-36)) by (apply bpow_le; lia).
  replace (bpow radix2 (-36)) with (/ 68719476736) in B4 by (cbn; lra). assert (B5 : 0 <= bpow radix2 31) by apply bpow_ge_0.
  split.
  - split; [assumption|]. cbn [num b64_arith loop_config c_velocity]. lra.
  - apply Z.eqb_neq. vm_compute. reflexivity.
  - cbn. lia.
  - split; [assumption|]. cbn [num b64_arith]. lra.
  - split; [assumption|]. cbn [num b64_arith]. lra.
  - cbn [num b64_arith loop_config c_dt]. rewrite V2. lra.
  - intros i L. destruct i as [|[|i]]; [| |lia]; cbn [time]; (split; [assumption|]); cbn [num b64_arith loop_config c_dt]; rewrite V2, B3, ?V3, ?V4; lra.
  - reflexivity.
  - exists (fun _ => q64 1 2). split; [reflexivity|]. intro x. split; [assumption|]. cbn [num b64_arith]. lra.
  - intros k _. assert (W : waiting root_inv near_ln loop_geom loop_waiting); [|constructor; [exact W|constructor; [exact W|constructor]]].
    split; [reflexivity|]. cbn [loop_waiting gph gpos gvel g0 g1 g2 gcharge gmass].
    split; [split; [assumption|]; cbv zeta; cbn [num b64_arith gn_r loop_geom]; nodes; change (gdr N loop_geom) with (gdr D ex_geom); rewrite V6, V7, B2; lra|].
    split; [assumption|]. split; [assumption|].
    assert (M : moderate (z64 0)) by (split; [assumption|]; cbn [num b64_arith]; rewrite V3, Rabs_R0; exact B5). split; [exact M|]. split; [exact M|]. apply ex_sane.
  - intros k _. assert (W : deep root_inv near_ln loop_geom loop_waiting); [|constructor; [exact W|constructor; [exact W|constructor]]].
    split; [cbn; lia|]. cbv zeta. cbn [loop_waiting gph gpos g0 num b64_arith gn_r loop_geom]. nodes. change (gdr N loop_geom) with (gdr D ex_geom). rewrite V6, V7. lra.
  - intros i nb L NB. unfold erase_reached. cbn [c_bunches loop_config] in NB. destruct (Z.ltb_spec 1 nb); [lia|reflexivity].
Qed.
Lemma loop_steady : steady root_inv near_ln loop_geom (GMedium N (fun _ _ => z64 1) (fun _ _ => z64 0)) loop_dt (1 / 2) 2.
Proof.
  value (gdr D ex_geom). value (gdz D ex_geom). value loop_dt. value (z64 1). value (z64 0). cbn [num b64_arith] in *.
  assert (B8 : bpow radix2 (-80) <= bpow radix2 (-36)) by (apply bpow_le; lia). replace (bpow radix2 (-36)) with (/ 68719476736) in B8 by (cbn; lra).
  constructor; change (gdr N loop_geom) with (gdr D ex_geom); change (gdz N loop_geom) with (gdz D ex_geom); try assumption; cbn [gn_r gn_z loop_geom gepsilon gsigma]; try lia; cbn [num b64_arith]; try (rewrite ?V, ?V0, ?V1, ?V2, ?V3; unfold EPSILON0, MAGN_CONST; cbn; lra).
  - intros i k _ _. rewrite V2, V3. cbn. repeat split; try assumption; lra.
  - intros i k _ _. rewrite V2, V3, V1. unfold EPSILON0. cbn. lra.
Qed.
Lemma loop_contained : forall n b, INR n <= bpow radix2 28 -> (0 <= b <= 1)%Z -> contained root_inv near_ln (loop_config b) n loop_state (1 / 2) 2 1.
Proof.
  intros n b Hn Hb. value (gdr D ex_geom). value (gdz D ex_geom). value loop_dt. value (z64 0). value (q64 1 (2 ^ 20)). value (q64 (-1) (2 ^ 20)). value (q64 17 32). cbn [num b64_arith] in *.
  assert (E1 : @B2R prec64 emax64 (gdr D ex_geom) = bpow radix2 (-2)) by (rewrite V; cbn; lra). assert (E2 : @B2R prec64 emax64 (gdz D ex_geom) = bpow radix2 (-2)) by (rewrite V0; cbn; lra).
  destruct (power_grid root_inv near_ln loop_geom loop_dt (-2) (-2) loop_fine E1 E2) as (CR & CZ).
  assert (B20 : bpow radix2 (-200) <= / 1048576) by (replace (/ 1048576) with (bpow radix2 (-20)) by (cbn; lra); apply bpow_le; lia).
  assert (L1 : laden root_inv near_ln 1 loop_live) by (split; [assumption|]; cbn [loop_live gcharge num b64_arith]; rewrite V3, Rabs_pos_eq; lra).
  assert (L2 : laden root_inv near_ln 1 loop_waiting) by (split; [assumption|]; cbn [loop_waiting gcharge num b64_arith]; rewrite V4, Rabs_left; lra).
  assert (IN : forall p, In p (crowd root_inv near_ln (loop_config b) loop_state) -> p = loop_live \/ p = loop_waiting).
  { intros p I. unfold crowd in I. apply in_app_or in I. destruct I as [I|I].
    - left. unfold parts in I. cbn in I. destruct I as [<-|[]]. reflexivity.
    - right. apply in_flat_map in I. destruct I as (k & _ & [<-|[<-|[]]]); reflexivity. }
  assert (CL : INR (length (crowd root_inv near_ln (loop_config b) loop_state)) <= 3).
  { assert (D' : b = 0%Z \/ b = 1%Z) by lia. destruct D' as [-> | ->]; vm_compute; lra. }
  assert (N0 := pos_INR n). assert (C0 := pos_INR (length (crowd root_inv near_ln (loop_config b) loop_state))).
  assert (B28 : bpow radix2 30 = 4 * bpow radix2 28) by (change 30%Z with (2 + 28)%Z; rewrite bpow_plus; reflexivity).
  constructor.
  - now left.
  - exact loop_fine.
  - exact CR.
  - exact CZ.
  - cbn [loop_config c_geom c_dt]. change (gdr N loop_geom) with (gdr D ex_geom). cbn [num b64_arith]. rewrite V, V1. lra.
  - cbn [loop_config c_geom c_dt]. change (gdz N loop_geom) with (gdz D ex_geom). cbn [num b64_arith]. rewrite V0, V1. lra.
  - cbn [loop_config c_geom]. change (gdr N loop_geom) with (gdr D ex_geom). cbn [num b64_arith]. rewrite V. lra.
  - exact loop_steady.
  - intros a i k _ _. cbn [loop_state gs_fields]. split; [assumption|]. cbn [num b64_arith]. rewrite V2, Rabs_R0. apply bpow_ge_0.
  - intros x _. split; assumption.
  - split; change 1 with (bpow radix2 0); apply bpow_le; lia.
  - intros p I. destruct (IN p I) as [-> | ->]; assumption.
  - intros p I. unfold parts in I. cbn in I. destruct I as [<-|[]]. intros _. cbv zeta. cbn [loop_live gph gpos g0 loop_config c_geom gn_r loop_geom]. change (gdr N _) with (gdr D ex_geom). cbn [num b64_arith]. nodes. rewrite V, V5. lra.
  - apply Rle_trans with (1 := CL). apply Rle_trans with (bpow radix2 2); [cbn; lra|apply bpow_le; lia].
  - rewrite Rmult_1_r, B28. apply Rle_trans with (bpow radix2 28 * 3); [apply Rmult_le_compat; assumption|]. assert (X := bpow_ge_0 radix2 28). lra.
  - replace (2 / (1 / 2)) with 4 by lra. apply Rle_trans with (bpow radix2 30); [lra|apply bpow_le; lia].
Qed.
Example C79_hypotheses_met : good_pow root_inv /\ accurate_log near_ln /\ contained root_inv near_ln (loop_config 1) 2 loop_state (1 / 2) 2 1 /\
  starts root_inv near_ln (loop_config 1) loop_state /\ beam_ok root_inv near_ln (loop_config 1) 2 (z64 0).
Proof.
  split; [exact root_inv_good|]. split; [exact (proj1 C73_hypotheses_met)|]. split; [|split; [apply loop_starts|exact loop_beam]].
  apply loop_contained; [|lia]. apply Rle_trans with (bpow radix2 1); [cbn; lra|apply bpow_le; lia].
Qed.
(** without a beam, 2^28 steps. *)
Example C79_long_hypotheses_met : forall n, INR n <= bpow radix2 28 -> contained root_inv near_ln (loop_config 0) n loop_state (1 / 2) 2 1 /\
  starts root_inv near_ln (loop_config 0) loop_state /\ ((0 < c_bunches N (loop_config 0))%Z -> beam_ok root_inv near_ln (loop_config 0) n (z64 0)).
Proof. intros n Hn. split; [apply loop_contained; [exact Hn|lia]|]. split; [apply loop_starts|]. cbn. lia. Qed.
