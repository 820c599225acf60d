(** Property C83: the making of a bunch in double precision (src/bunch.cpp lines 28-75, src/math/rand.cpp lines 34-53), and the run with such bunches. *)
From Coq Require Import Reals ZArith List Bool Lia Lra.
From Flocq Require Import Core IEEE754.BinarySingleNaN.
From Verif.Lib Require Import RAux Grid Outcome Par.
From Verif.Model Require Import Constants Binary64 Temperature64 Arith Geometry Fields Pusher GenCode GenRun GenSim Rand Loading GenLoad.
From Verif.Proof Require Import Binary64P FloatP LogEx64P RandP GenRealP Rand64P Load64P GenLoadP Bunch64P ClearAxisP.
From Verif.Props Require Import Double Deposit64 Loop64 Load64.
From Verif.Spec Require Import Digits Field64 Short Deposit64 Loop64 Load64 Double.
Import ListNotations.
Local Open Scope R_scope.

(** C83. A bunch that is [bunchable] is made: the constructor ends, there are as many particles as asked for, each waits at a radius inside the tube, a
    cell away from the wall, with a charge and a mass that the pusher can use. *)
Theorem C83_made : forall pw lg ipow (g : ggeom (b64_arith pw lg)) dt x, good_ipow ipow -> fine pw lg g dt -> bunchable pw lg g x ->
  exists ps, bunch_loaded pw lg ipow g x ps /\ length ps = length (bn_draws pw lg x) /\
  Forall (fun p => waiting pw lg g p /\ deep pw lg g p /\ laden pw lg (5 * (Rabs (B2R (bn_charge pw lg x)) * bunch_physical pw lg x)) p) ps.
Proof. intros pw lg ipow g dt x HI HF HX. exact (bunch_made pw lg ipow HI g dt HF x HX). Qed.
Print Assumptions C83_made.

(** C83. Where particle n waits: at the n-th number of the sequence of base 9, stretched over radius - dr, plus half a cell; error below 2^-22 cells. *)
Theorem C83_places : forall pw lg ipow (g : ggeom (b64_arith pw lg)) dt x ps n p m, good_ipow ipow -> fine pw lg g dt -> bunchable pw lg g x -> bunch_loaded pw lg ipow g x ps ->
  nth_error ps n = Some p -> (Z.of_nat n < 9 ^ Z.of_nat m)%Z ->
  let dr := @B2R prec64 emax64 (gdr _ g) in let r := @B2R prec64 emax64 (g0 _ (gpos _ (gph _ p))) in
  Rabs (r - ((B2R (bn_radius pw lg x) - dr) * mirrored 9 (Z.of_nat n) m + dr / 2)) <= bpow radix2 (-22) * dr.
Proof.
  intros pw lg ipow g dt x ps n p m HI HF HX HL Hn Hm. cbv zeta. rewrite <- (val_mirrored 9 ltac:(lia)) by lia. exact (made_place pw lg ipow HI g dt HF x HX ps HL n p Hn).
Qed.
Print Assumptions C83_places.

(** C83. The weights. The constructor adds up 2 pi r dr dz for particles beyond the first node and pi r^2 dz for those before it, and then shares the physical particles
    in proportion to 2 pi r dr dz. So the share of a macroparticle is T 2 r dr / V, with V the sum of 2 r dr or r^2; charge and mass are those of that many
    particles up to (2 number + 64) 2^-53. The bunch as a whole has f times the charge that was asked for, f between 1 and 4, and f = 1 when
    all the particles are beyond the first node. *)
Theorem C83_weights : forall pw lg ipow (g : ggeom (b64_arith pw lg)) dt x ps, good_ipow ipow -> fine pw lg g dt -> bunchable pw lg g x -> bunch_loaded pw lg ipow g x ps ->
  let dr := @B2R prec64 emax64 (gdr _ g) in
  let r (p : gparticle (b64_arith pw lg)) := @B2R prec64 emax64 (g0 _ (gpos _ (gph _ p))) in
  let V := rsum (map (fun p => if Rlt_dec dr (r p) then 2 * r p * dr else r p * r p) ps) in
  let T := bunch_physical pw lg x in
  let share (p : gparticle (b64_arith pw lg)) := T * (2 * r p * dr / V) in
  let charge := B2R (bn_charge pw lg x) in let mass := B2R (bn_mass pw lg x) in
  let eps := (2 * INR (length ps) + 64) * bpow radix2 (-53) in
  (forall p, In p ps -> 0 < r p /\
     Rabs (@B2R prec64 emax64 (gcharge _ p) - charge * share p) <= eps * (Rabs charge * share p) /\
     Rabs (@B2R prec64 emax64 (gmass _ p) - mass * share p) <= eps * (mass * share p)) /\
  (exists f, 1 <= f <= 4 /\ f = rsum (map (fun p => 2 * r p * dr) ps) / V /\
     Rabs (rsum (map (fun p : gparticle (b64_arith pw lg) => @B2R prec64 emax64 (gcharge _ p)) ps) - charge * (T * f)) <= eps * (Rabs charge * (T * f)) /\
     (Forall (fun p => dr < r p) ps -> f = 1)).
Proof.
  intros pw lg ipow g dt x ps HI HF HX HL. cbv zeta. split.
  - intros p Hp. destruct (made_weight pw lg ipow HI g dt HF x HX ps HL p Hp) as (W1 & _ & _ & _ & W2 & W3). split; [exact W1|]. split; [exact W2|exact W3].
  - exact (made_total pw lg ipow HI g dt HF x HX ps HL).
Qed.
Print Assumptions C83_weights.

(** C83. Such bunches are a beam for C79 and C82: all that is asked there of the particles that wait, and of the random numbers of the injection, holds. So the
    run with them ends well. *)
Theorem C83_beam : forall pw lg ipow (c : GenRun.config (b64_arith pw lg)) n t bs Q, good_ipow ipow -> fine pw lg (c_geom _ c) (c_dt _ c) -> fired pw lg ipow c n t bs Q ->
  Forall (laden pw lg Q) (beam pw lg c) /\ ((0 < c_bunches _ c)%Z -> beam_ok pw lg c n t).
Proof. intros pw lg ipow c n t bs Q HI HF HB. exact (fired_beam pw lg ipow HI c n t bs Q HF HB). Qed.
Print Assumptions C83_beam.
Theorem C83_run : forall pw lg ipow (c : GenRun.config (b64_arith pw lg)) n t e f rho xs bs theta K Q, good_pow pw -> accurate_log lg -> good_ipow ipow ->
  plasma pw lg c n f xs theta K Q -> fired pw lg ipow c n t bs Q ->
  exists pss, Forall2 (loaded pw lg ipow (c_geom _ c)) xs pss /\
  let s := GSim _ f rho (map (fun ps => (false, ps)) pss) 0 in
  (gsim_run _ c n t e s = Exit 1 \/ exists s', gsim_run _ c n t e s = Ok s') /\
  forall i s', (i <= n)%nat -> gsim_run _ c i t e s = Ok s' ->
    mild pw lg (bpow radix2 251) (c_geom _ c) (gs_fields _ s') /\ Forall (in_place pw lg (c_geom _ c)) (parts pw lg s').
Proof.
  intros pw lg ipow c n t e f rho xs bs theta K Q HP HLG HI HC HB.
  destruct (C82_run pw lg ipow c n t e f rho xs theta K Q HP HLG HI HC (proj2 (C83_beam pw lg ipow c n t bs Q HI (pl_fine _ _ _ _ _ _ _ _ _ HC) HB))) as (pss & F2 & E).
  exists pss. split; [exact F2|]. exact (proj2 (proj2 E)).
Qed.
Print Assumptions C83_run.

(** The hypotheses can be met: the tube of C79, a bunch of electrons of half a metre radius, 2^-35 s long, 10^12 per cubic metre, two macroparticles. *)
Definition fire (radius : b64) (number : nat) : bunch64 root_inv near_ln :=
  Bunch64 root_inv near_ln (Bopp (gEL_CHARGE N : b64)) (q64 1 (2 ^ 100)) (c_duration N (loop_config 1)) radius (z64 (10 ^ 12)) (z64 200000000) (repeat load_draw number).
Definition fire_list : list (gparticle N) :=
  match gbunch_load N near_ipow loop_geom (Bopp (gEL_CHARGE N : b64)) (q64 1 (2 ^ 100)) (c_duration N (loop_config 1)) (q64 1 2) (z64 (10 ^ 12)) (z64 200000000) (repeat load_draw 2) with
  | Some ps => ps | None => [] end.
Definition fire_config : GenRun.config N :=
  Config N loop_geom (GMedium N (fun _ _ => z64 1) (fun _ _ => z64 0)) loop_dt BorisRelativistic [1%Z] (q64 200000000 (2 ^ 35)) (z64 0) (z64 200000000) 1 2
    (fun _ => fire_list) (Reverse N (ginject_rand N near_ipow)).
Lemma fire_size : forall radius number, is_finite radius = true -> 1 / 32 <= B2R radius <= 1 -> 1 <= bunch_physical root_inv near_ln (fire radius number) <= 10 ^ 11.
Proof.
  intros radius number F R. unfold bunch_physical. cbn [fire bn_radius bn_duration bn_velocity bn_density]. value (c_duration N (loop_config 1)). value (z64 200000000). value (z64 (10 ^ 12)). cbn [num b64_arith] in *. rewrite V, V0, V1.
  assert (Q : 1 / 1024 <= B2R radius ^ 2 <= 1) by (cbn [pow]; split; nra). lra.
Qed.
Lemma fire_ok : bunchable root_inv near_ln loop_geom (fire (q64 1 2) 2).
Proof.
  value (q64 1 2). value (gdr D ex_geom). value (c_duration N (loop_config 1)). value (z64 200000000). value (z64 (10 ^ 12)). cbn [num b64_arith] in *.
  assert (B : bpow radix2 60 <= bpow radix2 100) by (apply bpow_le; lia). assert (B1 : bpow radix2 (-100) <= bpow radix2 (-60)) by (apply bpow_le; lia).
  replace (bpow radix2 60) with 1152921504606846976 in B by reflexivity. replace (bpow radix2 (-60)) with (/ 1152921504606846976) in B1 by reflexivity.
  split; cbn [fire bn_charge bn_mass bn_duration bn_radius bn_density bn_velocity bn_draws].
  - cbn. lia.
  - exact electron_ok.
  - split; [exact F|]. change (gdr N loop_geom) with (gdr D ex_geom). cbn [num b64_arith gn_r loop_geom]. change (5 - 2)%Z with 3%Z. rewrite V, V0. lra.
  - split; [assumption|]. rewrite V1. lra.
  - split; [assumption|]. rewrite V2. lra.
  - split; [assumption|]. rewrite V3. lra.
  - apply (fire_size (q64 1 2) 2 F). rewrite V. lra.
  - rewrite repeat_length. lia.
Qed.
Lemma fire_loaded : bunch_loaded root_inv near_ln near_ipow loop_geom (fire (q64 1 2) 2) fire_list /\ length fire_list = 2%nat.
Proof.
  destruct (C83_made root_inv near_ln near_ipow loop_geom loop_dt (fire (q64 1 2) 2) near_ipow_good loop_fine fire_ok) as (ps & L & N2 & _).
  assert (E : fire_list = ps). { unfold fire_list. unfold bunch_loaded in L. cbn [fire bn_charge bn_mass bn_duration bn_radius bn_density bn_velocity bn_draws] in L. rewrite L. reflexivity. }
  rewrite E. split; [exact L|exact N2].
Qed.
Lemma same_time : forall i t, time root_inv near_ln fire_config i t = time root_inv near_ln (loop_config 1) i t.
Proof. induction i as [|i IH]; intro t; [reflexivity|]. exact (IH (add N t loop_dt)). Qed.
Lemma fire_fired : fired root_inv near_ln near_ipow fire_config 2 (z64 0) (fun _ => fire (q64 1 2) 2) 1.
Proof.
  destruct loop_beam as [L1 L2 L3 L4 L5 L6 L7 L8 L9 L10 L11 L12].
  constructor; try assumption.
  - intros k _. split; [exact fire_ok|exact (proj1 fire_loaded)].
  - intros k _. split; [reflexivity|]. split; [reflexivity|]. reflexivity.
  - intros k _. value (q64 1 2). cbn [num b64_arith] in *. destruct (fire_size (q64 1 2) 2 F) as (_ & S); [rewrite V; lra|]. change (bn_charge root_inv near_ln (fire (q64 1 2) 2)) with (Bopp (gEL_CHARGE N : b64)).
    value (Bopp (gEL_CHARGE N : b64)). cbn [num b64_arith] in *. rewrite V0. rewrite Rabs_left by lra. lra.
  - reflexivity.
  - intros i Hi. rewrite same_time. exact (L7 i Hi).
  - intros i nb Hi Hnb. rewrite same_time. exact (L12 i nb Hi Hnb).
Qed.
Example C83_hypotheses_met :
  good_pow root_inv /\ accurate_log near_ln /\ good_ipow near_ipow /\ bunchable root_inv near_ln loop_geom (fire (q64 1 2) 2) /\
  plasma root_inv near_ln fire_config 2 (fun _ => z64 0) [electrons (z64 (10 ^ 12)) (z64 (2 * 10 ^ 12))] (1 / 2) 2 1 /\
  fired root_inv near_ln near_ipow fire_config 2 (z64 0) (fun _ => fire (q64 1 2) 2) 1.
Proof.
  destruct (C82_hypotheses_met 2) as (H1 & H2 & H3 & _ & _ & _ & HP). { rewrite INR_IZR_INZ. cbn. lra. }
  split; [exact H1|]. split; [exact H2|]. split; [exact H3|]. split; [exact fire_ok|]. split; [|exact fire_fired].
  destruct HP as [P1 P2 P3 P4 P5 P6 P7 P8 P9 P10 P11 P12 P13 P14 P15 P16].
  assert (PO : population root_inv near_ln [electrons (z64 (10 ^ 12)) (z64 (2 * 10 ^ 12))] + INR (length (beam root_inv near_ln fire_config)) = 57).
  { unfold population. cbn [map rsum electrons sp_draws]. rewrite repeat_length. change (beam root_inv near_ln fire_config) with (fire_list ++ []). rewrite app_nil_r, (proj2 fire_loaded), !INR_IZR_INZ. cbn. lra. }
  constructor; try assumption.
  - exact (proj1 (C83_beam root_inv near_ln near_ipow fire_config 2 (z64 0) _ 1 H3 P2 fire_fired)).
  - rewrite PO. apply Rle_trans with (bpow radix2 6); [cbn; lra|apply bpow_le; lia].
  - rewrite PO, INR_IZR_INZ. cbn. lra.
Qed.

(** C83. A bunch must be as thick as a cell: with a radius of an eighth of a cell and nine macroparticles the constructor puts the last one at a negative radius. *)
Definition thin_r : option b64 := match gbunch_load N near_ipow loop_geom (Bopp (gEL_CHARGE N : b64)) (q64 1 (2 ^ 100)) (c_duration N (loop_config 1)) (q64 1 32) (z64 (10 ^ 12)) (z64 200000000) (repeat load_draw 9) with
  | Some ps => match nth_error ps 8 with Some p => Some (g0 N (gpos N (gph N p)) : b64) | None => None end | None => None end.
Definition thin_check : bool := match thin_r with Some r => is_finite r && Bltb r (z64 0) | None => false end.
Lemma thin_checked : thin_check = true.
Proof. vm_cast_no_check (eq_refl true). Qed.
Theorem C83_thin_refuted : ~ (forall pw lg ipow (g : ggeom (b64_arith pw lg)) dt x, good_ipow ipow -> fine pw lg g dt ->
  (4 <= gn_r _ g)%Z -> (4 <= gn_z _ g)%Z -> physical_particle (bn_charge pw lg x) (bn_mass pw lg x) ->
  is_finite (bn_radius pw lg x) = true -> @B2R prec64 emax64 (gdr _ g) / 8 <= B2R (bn_radius pw lg x) <= IZR (gn_r _ g - 2) * @B2R prec64 emax64 (gdr _ g) ->
  is_finite (bn_duration pw lg x) = true -> bpow radix2 (-100) <= B2R (bn_duration pw lg x) <= bpow radix2 100 ->
  is_finite (bn_velocity pw lg x) = true -> bpow radix2 (-100) <= B2R (bn_velocity pw lg x) <= 300000000 ->
  is_finite (bn_density pw lg x) = true -> bpow radix2 (-100) <= B2R (bn_density pw lg x) <= bpow radix2 100 ->
  1 <= bunch_physical pw lg x -> (1 <= Z.of_nat (length (bn_draws pw lg x)) < 2 ^ 31)%Z ->
  exists ps, bunch_loaded pw lg ipow g x ps /\ Forall (fun p : gparticle (b64_arith pw lg) => 0 <= @B2R prec64 emax64 (g0 _ (gpos _ (gph _ p)))) ps).
Proof.
  intro H. specialize (H root_inv near_ln near_ipow loop_geom loop_dt (fire (q64 1 32) 9) near_ipow_good loop_fine).
  value (q64 1 32). value (gdr D ex_geom). value (c_duration N (loop_config 1)). value (z64 200000000). value (z64 (10 ^ 12)). cbn [num b64_arith] in *.
  assert (B : bpow radix2 60 <= bpow radix2 100) by (apply bpow_le; lia). assert (B1 : bpow radix2 (-100) <= bpow radix2 (-60)) by (apply bpow_le; lia).
  replace (bpow radix2 60) with 1152921504606846976 in B by reflexivity. replace (bpow radix2 (-60)) with (/ 1152921504606846976) in B1 by reflexivity.
  assert (SZ := fire_size (q64 1 32) 9 F ltac:(rewrite V; lra)).
  cbn [fire bn_charge bn_mass bn_duration bn_radius bn_density bn_velocity bn_draws] in H. change (gdr N loop_geom) with (gdr D ex_geom) in H. cbn [num b64_arith gn_r gn_z loop_geom] in H.
  destruct H as (ps & L & FA); try assumption; try lia; try (rewrite ?V, ?V0, ?V1, ?V2, ?V3; lra).
  - exact electron_ok.
  - change (5 - 2)%Z with 3%Z. rewrite V, V0. lra.
  - rewrite repeat_length. lia.
  - assert (C := thin_checked). unfold thin_check, thin_r in C. unfold bunch_loaded in L. cbn [fire bn_charge bn_mass bn_duration bn_radius bn_density bn_velocity bn_draws] in L. rewrite L in C.
    destruct (nth_error ps 8) as [p|] eqn:E; [|discriminate]. apply andb_true_iff in C. destruct C as (CF & CL). value (z64 0). cbn [num b64_arith] in *. apply ltb_ok in CL; [|assumption|assumption].
    rewrite Forall_forall in FA. specialize (FA p (nth_error_In _ _ E)). cbn beta in FA. rewrite V4 in CL. lra.
Qed.
Print Assumptions C83_thin_refuted.
