(** Property C82: the loading of plasma particles in double precision (src/particles.cpp lines 228-331, src/math/rand.cpp lines 34-53), and the
    run that begins with it. *)
From Coq Require Import Reals ZArith List Bool Lia Lra.
From Flocq Require Import Core IEEE754.BinarySingleNaN.
From Verif.Lib Require Import RAux Grid Outcome Par.
From Verif.Model Require Import Constants Binary64 Temperature64 Arith Geometry Fields Pusher GenCode GenRun GenSim Rand Loading GenLoad.
From Verif.Proof Require Import Binary64P FloatP LogEx64P RandP GenRealP Rand64P Load64P Motion64R Thermal64P GenLoadP ClearAxisP.
From Verif.Props Require Import Double Deposit64 Loop64.
From Verif.Spec Require Import Digits Field64 Short Deposit64 Loop64 Load64 Double.
Import ListNotations.
Local Open Scope R_scope.

(** C82. The deterministic random numbers: for bases from 2 to 16 and every int n >= 0 the loop ends within 32 rounds; the double is in [0, 1 - 2^-36] and
    within 2^-44 of the digits of n mirrored at the point. *)
Theorem C82_random : forall pw lg ipow b n m, good_ipow ipow -> (2 <= b <= 16)%Z -> (0 <= n < 2 ^ 31)%Z -> (n < b ^ Z.of_nat m)%Z ->
  exists x, grandom_reverse (b64_arith pw lg) ipow n b = Some x /\ fraction x /\ Rabs (B2R x - mirrored b n m) <= bpow radix2 (-44).
Proof.
  intros pw lg ipow b n m HI Hb Hn Hm. rewrite <- (val_mirrored b ltac:(lia)) by lia. exact (rr64 pw lg ipow HI b Hb n Hn).
Qed.
Print Assumptions C82_random.

(** C82. A species that is [loadable] is loaded: the loading ends, there are as many particles as asked for, all are alive, in the tube (half a
    cell away from axis, wall and ends up to rounding), with velocities that are numbers below 3.1 10^8 m/s per component, with charge and mass that
    the pusher can use. *)
Theorem C82_loaded : forall pw lg ipow (g : ggeom (b64_arith pw lg)) dt x, good_pow pw -> good_ipow ipow -> fine pw lg g dt -> loadable pw lg g x ->
  exists ps, loaded pw lg ipow g x ps /\ length ps = length (sp_draws pw lg x) /\
  Forall (fun p => galive _ p = true /\ in_place pw lg g p /\ off_wall pw lg g p /\ laden pw lg (2 * (Rabs (B2R (sp_charge pw lg x)) * physical pw lg g (sp_n1 pw lg x) (sp_n2 pw lg x))) p) ps.
Proof. exact species_loaded. Qed.
Print Assumptions C82_loaded.

(** C82. Where particle n is. The radius: the n-th number of the sequence of base 13, stretched over the tube without half a cell at both ends, with an
    error below 2^-22 cells. The same for z with base 11 counted backwards when the densities are equal. When they differ, the fraction of the
    particles below it under a linear density profile is that number: with w = n1 + (n2 - n1) zeta at the place zeta of [0, 1],
    (w^2 - n1^2) / (n2^2 - n1^2) is the number; error 2^-25 of the square of the greater density. *)
Theorem C82_places : forall pw lg ipow (g : ggeom (b64_arith pw lg)) dt x ps n p m m', good_ipow ipow -> fine pw lg g dt -> loadable pw lg g x -> loaded pw lg ipow g x ps ->
  nth_error ps n = Some p ->
  let n' := (Z.of_nat (length (sp_draws pw lg x)) - 1 - Z.of_nat n)%Z in
  (Z.of_nat n < 13 ^ Z.of_nat m)%Z -> (n' < 11 ^ Z.of_nat m')%Z ->
  let dr := @B2R prec64 emax64 (gdr _ g) in let dz := @B2R prec64 emax64 (gdz _ g) in
  let r := @B2R prec64 emax64 (g0 _ (gpos _ (gph _ p))) in let z := @B2R prec64 emax64 (g2 _ (gpos _ (gph _ p))) in
  let n1 := B2R (sp_n1 pw lg x) in let n2 := B2R (sp_n2 pw lg x) in
  Rabs (r - (IZR (gn_r _ g - 2) * dr * mirrored 13 (Z.of_nat n) m + dr / 2)) <= bpow radix2 (-22) * dr /\
  (n1 = n2 -> Rabs (z - (IZR (gn_z _ g - 2) * dz * mirrored 11 n' m' + dz / 2)) <= bpow radix2 (-22) * dz) /\
  (n1 <> n2 -> let zeta := (z - dz / 2) / (IZR (gn_z _ g - 2) * dz) in let w := n1 + (n2 - n1) * zeta in
    Rabs (w * w - (n1 * n1 + mirrored 11 n' m' * (n2 * n2 - n1 * n1))) <= bpow radix2 (-25) * (Rmax n1 n2 * Rmax n1 n2)).
Proof.
  intros pw lg ipow g dt x ps n p m m' HI HF HX HL Hn n' Hm Hm'. cbv zeta.
  assert (PL := ps_length pw lg ipow HI g x HX ps HL). assert (NL : (n < length ps)%nat) by (apply nth_error_Some; congruence).
  rewrite <- (val_mirrored 13 ltac:(lia)), <- (val_mirrored 11 ltac:(lia)) by (unfold n' in *; lia).
  split; [exact (place_r pw lg ipow HI g dt HF x HX ps HL n p Hn)|]. exact (place_z pw lg ipow HI g dt HF x HX ps HL n p Hn).
Qed.
Print Assumptions C82_places.

(** C82. The weights. Each macroparticle stands for a share of the physical particles that is proportional to its radius: its charge and its mass are
    those of that many particles, up to (2 number + 64) 2^-53; so the sums of charge and mass are those of all the physical particles. *)
Theorem C82_weights : forall pw lg ipow (g : ggeom (b64_arith pw lg)) dt x ps, good_ipow ipow -> fine pw lg g dt -> loadable pw lg g x -> loaded pw lg ipow g x ps ->
  let r (p : gparticle (b64_arith pw lg)) := @B2R prec64 emax64 (g0 _ (gpos _ (gph _ p))) in
  let T := physical pw lg g (sp_n1 pw lg x) (sp_n2 pw lg x) in
  let share (p : gparticle (b64_arith pw lg)) := T * (r p / rsum (map r ps)) in
  let charge := B2R (sp_charge pw lg x) in let mass := B2R (sp_mass pw lg x) in
  let eps := (2 * INR (length ps) + 64) * bpow radix2 (-53) in
  (forall p, In p ps -> 0 < r p /\
     Rabs (@B2R prec64 emax64 (gcharge _ p) - charge * share p) <= eps * (Rabs charge * share p) /\
     Rabs (@B2R prec64 emax64 (gmass _ p) - mass * share p) <= eps * (mass * share p)) /\
  Rabs (rsum (map (fun p : gparticle (b64_arith pw lg) => @B2R prec64 emax64 (gcharge _ p)) ps) - charge * T) <= eps * (Rabs charge * T) /\
  Rabs (rsum (map (fun p : gparticle (b64_arith pw lg) => @B2R prec64 emax64 (gmass _ p)) ps) - mass * T) <= eps * (mass * T).
Proof.
  intros pw lg ipow g dt x ps HI HF HX HL. cbv zeta. split; [|split].
  - intros p Hp. destruct (weight pw lg ipow HI g dt HF x HX ps HL p Hp) as (W1 & W2 & W3 & _). split; [exact W3|]. split; assumption.
  - exact (total_charge pw lg ipow HI g dt HF x HX ps HL).
  - exact (total_mass pw lg ipow HI g dt HF x HX ps HL).
Qed.
Print Assumptions C82_weights.

(** C82. The velocities. With an accurate pow(x, -0.5) and an energy E of 2^-100 eV or more each component is X / sqrt(1 + X^2 / c^2) up to 2^-16 m/s, where X is the
    random number times 0.74 sqrt(2 e E / m). *)
Theorem C82_velocities : forall pw lg ipow (g : ggeom (b64_arith pw lg)) x ps n p d, accurate_pow pw -> loadable pw lg g x -> loaded pw lg ipow g x ps ->
  nth_error ps n = Some p -> nth_error (sp_draws pw lg x) n = Some d -> bpow radix2 (-100) <= @B2R prec64 emax64 (d_energy _ d) ->
  let T := sqrt (2 * (16 / IZR (10 ^ 20)) * @B2R prec64 emax64 (d_energy _ d) / B2R (sp_mass pw lg x)) * (74 / 100) in
  let near (v rnd : b64) := let X := B2R rnd * T in Rabs (B2R v - X / sqrt (1 + X * X / (300000000 * 300000000))) <= bpow radix2 (-16) in
  let v := gvel _ (gph _ p) in near (g0 _ v) (g0 _ (d_rnd _ d)) /\ near (g1 _ v) (g1 _ (d_rnd _ d)) /\ near (g2 _ v) (g2 _ (d_rnd _ d)).
Proof.
  intros pw lg ipow g x ps n p d HA HX HL Hn Hd HE. cbv zeta. rewrite (made_speed (b64_arith pw lg) ipow g _ _ _ _ _ ps n p d HL Hn Hd).
  destruct (ld_particle _ _ _ _ HX) as (_ & Fm & Hm & _). assert (DR := ld_draws _ _ _ _ HX). rewrite Forall_forall in DR.
  exact (thermal_near pw lg HA (sp_mass pw lg x) d Fm Hm (DR d (nth_error_In _ _ Hd)) HE).
Qed.
Print Assumptions C82_velocities.

(** C82. From the parameters to the end of the run: species of [plasma] are loaded, and with them as the particles of the start C79 holds for the n
    steps: nothing undefined, fields bounded, particles in their places. *)
Theorem C82_run : forall pw lg ipow (c : config (b64_arith pw lg)) n t e f rho xs theta K Q, good_pow pw -> accurate_log lg -> good_ipow ipow ->
  plasma pw lg c n f xs theta K Q -> ((0 < c_bunches _ c)%Z -> beam_ok pw lg c n t) ->
  exists pss, Forall2 (loaded pw lg ipow (c_geom _ c)) xs pss /\
  let s := GSim _ f rho (map (fun ps => (false, ps)) pss) 0 in
  contained pw lg c n s theta K Q /\ starts pw lg c s /\
  (gsim_run _ c n t e s = Exit 1 \/ exists s', gsim_run _ c n t e s = Ok s') /\
  forall i s', (i <= n)%nat -> gsim_run _ c i t e s = Ok s' ->
    mild pw lg (bpow radix2 251) (c_geom _ c) (gs_fields _ s') /\ Forall (in_place pw lg (c_geom _ c)) (parts pw lg s').
Proof.
  intros pw lg ipow c n t e f rho xs theta K Q HP HLG HI HC HB.
  destruct (species_all pw lg ipow HP HI c n f xs theta K Q HC) as (pss & F2 & E). exists pss. split; [exact F2|]. cbv zeta.
  destruct (E rho) as (C & S). split; [exact C|]. split; [exact S|]. exact (C79_run pw lg c n t e _ theta K Q HP HLG C S HB).
Qed.
Print Assumptions C82_run.


(** The hypotheses can be met. For the powers the quotient 1 / b^k of two rounded numbers will do: *)
Definition near_ipow (b k : Z) : b64 := b64_lit 1 (b ^ k).
Definition power_check (b k : Z) : bool :=
  match near_ipow b k with
  | B754_finite s m e _ => (e <=? 0)%Z && (Z.abs (cond_Zopp s (Zpos m) * b ^ k - 2 ^ (- e)) * 2 ^ 50 <=? 2 ^ (- e))%Z
  | _ => false
  end.
Lemma power_checked : forallb (fun b => forallb (power_check b) (zrange 1 32)) (zrange 2 17) = true.
Proof. vm_cast_no_check (eq_refl true). Qed.
Lemma near_ipow_good : good_ipow near_ipow.
Proof.
  intros b k Hb Hk. assert (C := power_checked). rewrite forallb_forall in C. assert (C2 := C b (proj2 (zrange_in 2 17 b) ltac:(lia))). rewrite forallb_forall in C2.
  assert (C3 := C2 k (proj2 (zrange_in 1 32 k) ltac:(lia))). clear C C2. unfold power_check in C3. destruct (near_ipow b k) as [s|s| |s m e H]; try discriminate.
  apply andb_true_iff in C3. destruct C3 as (E & C). apply Z.leb_le in E, C. split; [reflexivity|]. unfold B2R, F2R. cbn [Fnum Fexp].
  set (M := cond_Zopp s (Z.pos m)) in *. replace (IZR b ^ Z.to_nat k) with (IZR (b ^ k)) by (rewrite pow_IZR, Z2Nat.id by lia; reflexivity).
  assert (P := bpow_gt_0 radix2 e). assert (PE : IZR (2 ^ (- e)) = bpow radix2 (- e)) by (apply (IZR_Zpower radix2); lia). rewrite bpow_opp in PE.
  assert (Q : Rabs (IZR M * IZR (b ^ k) - IZR (2 ^ (- e))) * IZR (2 ^ 50) <= IZR (2 ^ (- e))) by (rewrite <- mult_IZR, <- minus_IZR, <- abs_IZR, <- mult_IZR; now apply IZR_le).
  replace (IZR M * bpow radix2 e * IZR (b ^ k) - 1) with ((IZR M * IZR (b ^ k) - IZR (2 ^ (- e))) * bpow radix2 e) by (rewrite PE; field; lra).
  rewrite Rabs_mult, (Rabs_pos_eq (bpow radix2 e)) by lra. replace (bpow radix2 (-50)) with (/ IZR (2 ^ 50)) by reflexivity.
  apply Rmult_le_reg_r with (IZR (2 ^ 50)); [apply IZR_lt; reflexivity|]. rewrite Rinv_l by (apply IZR_neq; discriminate).
  replace (Rabs (IZR M * IZR (b ^ k) - IZR (2 ^ (- e))) * bpow radix2 e * IZR (2 ^ 50)) with (Rabs (IZR M * IZR (b ^ k) - IZR (2 ^ (- e))) * IZR (2 ^ 50) * bpow radix2 e) by ring.
  apply Rle_trans with (IZR (2 ^ (- e)) * bpow radix2 e); [apply Rmult_le_compat_r; [lra|exact Q]|]. rewrite PE, Rinv_l by lra. lra.
Qed.
Lemma root_inv_accurate : accurate_pow root_inv.
Proof.
  intros x F H. unfold root_inv. assert (UV := u_val).
  assert (S1 : 1 / 2 <= sqrt (B2R x)) by (apply sq_le_inv; [apply sqrt_pos|]; rewrite sqrt_sqrt by lra; lra).
  assert (XU : sqrt (B2R x) <= bpow radix2 512).
  { rewrite <- (sqrt_square (bpow radix2 512)) by apply bpow_ge_0. apply sqrt_le_1_alt. rewrite <- bpow_plus. apply Rle_trans with (1 := Rle_abs _). apply Rlt_le. exact (abs_B2R_lt_emax prec64 emax64 x). }
  assert (RS : Err64P.rg (sqrt (B2R x)) (-900) 1000) by (split; [apply Rle_trans with (bpow radix2 (-1)); [apply bpow_le; lia|cbn; lra]|apply Rle_trans with (1 := XU); apply bpow_le; lia]).
  assert (NX : Err64P.near x (B2R x) (B2R x) 0) by (apply Err64P.near_exact; [exact F|rewrite Rabs_pos_eq; lra]).
  assert (NS := Err64P.near_sqrt x (B2R x) 0 NX ltac:(lra) ltac:(rewrite UV; lra) RS).
  destruct (of_Z_exact 1 eq_refl) as (F1 & E1). assert (N1 := Err64P.near_exact (b64_of_Z 1) 1 F1 ltac:(rewrite E1, Rabs_pos_eq; lra)). rewrite E1 in N1.
  assert (R1 : Err64P.rg (1 / sqrt (B2R x)) (-900) 1000).
  { unfold Rdiv. rewrite Rmult_1_l. split.
    - apply Rle_trans with (/ bpow radix2 512); [rewrite <- bpow_opp; apply bpow_le; lia|apply Rinv_le; lra].
    - apply Rle_trans with (/ (1 / 2)); [apply Rinv_le; lra|]. apply Rle_trans with (bpow radix2 1); [cbn; lra|apply bpow_le; lia]. }
  assert (N := Err64P.near_div _ _ _ _ _ _ _ 2 N1 NS ltac:(lra) ltac:(lra) ltac:(rewrite UV; lra) R1). destruct N as (FD & _ & _ & ED). split; [exact FD|].
  set (s := sqrt (B2R x)) in *. set (d := B2R (b64_div (b64_of_Z 1) (b64_sqrt x))) in *.
  replace (d * s - 1) with ((d - 1 / s) * s) by (field; lra). rewrite Rabs_mult, (Rabs_pos_eq s) by lra. apply Rle_trans with ((2 + 5 / 4) * u * (1 / s) * s); [apply Rmult_le_compat_r; lra|].
  replace ((2 + 5 / 4) * u * (1 / s) * s) with ((2 + 5 / 4) * u) by (field; lra). rewrite UV. replace (bpow radix2 (-50)) with (/ 1125899906842624) by reflexivity. lra.
Qed.
(** electrons with energies of 100 eV, 55 macroparticles, in the tube of C79. *)
Definition load_draw : draw N := Draw N (z64 100) (GV N (q64 1 2) (q64 (-1) 4) (z64 1)) (z64 0) (z64 0) (z64 0).
Definition electrons (n1 n2 : b64) : species root_inv near_ln :=
  Species root_inv near_ln n1 n2 (Bopp (gEL_CHARGE N : b64)) (q64 1 (2 ^ 100)) (repeat load_draw 55).
Lemma load_drawn : drawn root_inv near_ln load_draw.
Proof.
  value (z64 100). value (q64 1 2). value (q64 (-1) 4). value (z64 1). cbn [num b64_arith] in *. unfold drawn, load_draw. cbv zeta. cbn [d_energy d_rnd g0 g1 g2 num b64_arith].
  assert (B : bpow radix2 7 <= bpow radix2 100) by (apply bpow_le; lia). replace (bpow radix2 7) with 128 in B by reflexivity. rewrite V, V0, V1, V2. repeat split; try assumption; lra.
Qed.
Lemma electron_ok : physical_particle (Bopp (gEL_CHARGE N : b64)) (q64 1 (2 ^ 100)).
Proof.
  value (Bopp (gEL_CHARGE N : b64)). value (q64 1 (2 ^ 100)). cbn [num b64_arith] in *. split; [exact F|]. split; [exact F0|]. rewrite V, V0.
  assert (B0 : bpow radix2 (-200) <= bpow radix2 (-100)) by (apply bpow_le; lia). assert (B1 : bpow radix2 0 <= bpow radix2 100) by (apply bpow_le; lia). replace (bpow radix2 0) with 1 in B1 by reflexivity. replace (bpow radix2 49) with 562949953421312 by reflexivity.
  assert (B2 : bpow radix2 (-100) = / 1267650600228229401496703205376) by reflexivity. rewrite B2 in *. rewrite Rabs_left by lra. split; lra.
Qed.
Lemma loadable_electrons : forall n1 n2, densities n1 n2 -> 1 <= (B2R n1 + B2R n2) / 2 -> loadable root_inv near_ln loop_geom (electrons n1 n2).
Proof.
  intros n1 n2 HD H1. split; cbn [electrons sp_n1 sp_n2 sp_charge sp_mass sp_draws].
  - exact HD.
  - exact electron_ok.
  - unfold physical. cbn [loop_geom gr_size gz_size]. value (z64 1). value (q64 7 4). cbn [num b64_arith] in *. rewrite V, V0. lra.
  - rewrite repeat_length. lia.
  - apply Forall_forall. intros d Hd. apply repeat_spec in Hd. subst. exact load_drawn.
Qed.
Lemma sloping : densities (z64 (10 ^ 12)) (z64 (2 * 10 ^ 12)).
Proof.
  value (z64 (10 ^ 12)). value (z64 (2 * 10 ^ 12)). cbn [num b64_arith] in *. split; [exact F|]. split; [exact F0|].
  assert (B : bpow radix2 60 <= bpow radix2 100) by (apply bpow_le; lia). assert (B1 : bpow radix2 (-100) <= bpow radix2 0) by (apply bpow_le; lia).
  replace (bpow radix2 60) with 1152921504606846976 in B by reflexivity. replace (bpow radix2 0) with 1 in B1 by reflexivity. rewrite V, V0.
  split; [right; lra|]. split; [right; lra|]. split; [left; lra|]. right. rewrite Rmax_right, Rabs_pos_eq; lra.
Qed.
Example C82_hypotheses_met : forall n, INR n <= bpow radix2 24 ->
  good_pow root_inv /\ accurate_log near_ln /\ good_ipow near_ipow /\ loadable root_inv near_ln loop_geom (electrons (z64 (10 ^ 12)) (z64 (2 * 10 ^ 12))) /\
  accurate_pow root_inv /\ bpow radix2 (-100) <= @B2R prec64 emax64 (d_energy _ load_draw) /\
  plasma root_inv near_ln (loop_config 0) n (fun _ => z64 0) [electrons (z64 (10 ^ 12)) (z64 (2 * 10 ^ 12))] (1 / 2) 2 1.
Proof.
  intros n Hn. assert (L : loadable root_inv near_ln loop_geom (electrons (z64 (10 ^ 12)) (z64 (2 * 10 ^ 12)))).
  { apply loadable_electrons; [exact sloping|]. value (z64 (10 ^ 12)). value (z64 (2 * 10 ^ 12)). cbn [num b64_arith] in *. rewrite V, V0. lra. }
  split; [exact root_inv_good|]. split; [exact (proj1 C73_hypotheses_met)|]. split; [exact near_ipow_good|]. split; [exact L|]. split; [exact root_inv_accurate|].
  split. { cbn [load_draw d_energy]. value (z64 100). cbn [num b64_arith] in *. rewrite V. assert (B : bpow radix2 (-100) <= bpow radix2 0) by (apply bpow_le; lia). replace (bpow radix2 0) with 1 in B by reflexivity. lra. }
  assert (B28 : bpow radix2 24 <= bpow radix2 28) by (apply bpow_le; lia). assert (B30 : bpow radix2 30 = 64 * bpow radix2 24) by (change 30%Z with (6 + 24)%Z; rewrite bpow_plus; reflexivity).
  assert (X := bpow_gt_0 radix2 24). assert (N0 := pos_INR n).
  destruct (loop_contained n 0 ltac:(lra) ltac:(lia)) as [P1 P2 P3 P4 P5 P6 P7 P8 P9 P10 P11 P12 P13 P14 P15 P16].
  assert (PO : population root_inv near_ln [electrons (z64 (10 ^ 12)) (z64 (2 * 10 ^ 12))] + INR (length (beam root_inv near_ln (loop_config 0))) = 55).
  { unfold population. cbn [map rsum electrons sp_draws]. rewrite repeat_length. change (length (beam root_inv near_ln (loop_config 0))) with 0%nat. rewrite !INR_IZR_INZ. cbn. lra. }
  constructor; try assumption.
  - constructor; [|constructor]. split; [exact L|]. cbn [electrons sp_charge sp_n1 sp_n2 loop_config c_geom]. unfold physical. cbn [loop_geom gr_size gz_size].
    value (z64 1). value (q64 7 4). value (z64 (10 ^ 12)). value (z64 (2 * 10 ^ 12)). value (Bopp (gEL_CHARGE N : b64)). cbn [num b64_arith] in *. rewrite V, V0, V1, V2, V3. rewrite Rabs_left by lra. lra.
  - constructor.
  - rewrite PO. apply Rle_trans with (bpow radix2 6); [cbn; lra|apply bpow_le; lia].
  - rewrite PO, B30. lra.
Qed.

(** C82. The densities must not be nearly equal. With 9.221 10^17 at one end and 9.221 10^17 + 128 (the next double) at the other and everything else as before
    the loading puts the first of the 55 particles outside of the tube, at z = 3.125 m in a tube of 1.75 m: in lines 302-303 the difference of nearly
    equal numbers is divided by another one. *)
Definition close_z : option b64 := match gload_group N near_ipow loop_geom (z64 922100000000000000) (z64 922100000000000128) (Bopp (gEL_CHARGE N : b64)) (q64 1 (2 ^ 100)) (repeat load_draw 55) with
  | Some (p :: _) => Some (g2 N (gpos N (gph N p)) : b64) | _ => None end.
Definition close_check : bool := match close_z with Some z => is_finite z && Bltb (z64 3) z | None => false end.
Lemma all_alive : forall A ipow g n1 n2 charge mass draws ps, gload_group A ipow g n1 n2 charge mass draws = Some ps -> Forall (fun p => galive A p = true) ps.
Proof.
  intros A ipow g n1 n2 charge mass draws ps L. unfold gload_group in L. destruct (gload_rands A ipow _ _) as [rands|]; [|discriminate]. injection L as <-.
  apply Forall_forall. intros p I. apply in_map_iff in I. destruct I as (y & <- & _). reflexivity.
Qed.
Lemma close_checked : close_check = true.
Proof. vm_cast_no_check (eq_refl true). Qed.
Theorem C82_close_densities_refuted : ~ (forall pw lg ipow (g : ggeom (b64_arith pw lg)) dt x, good_pow pw -> good_ipow ipow -> fine pw lg g dt ->
  let n1 := sp_n1 pw lg x in let n2 := sp_n2 pw lg x in
  is_finite n1 = true -> is_finite n2 = true -> 1 <= B2R n1 <= bpow radix2 100 -> 1 <= B2R n2 <= bpow radix2 100 ->
  physical_particle (sp_charge pw lg x) (sp_mass pw lg x) -> 1 <= physical pw lg g n1 n2 ->
  (1 <= Z.of_nat (length (sp_draws pw lg x)) < 2 ^ 31)%Z -> Forall (drawn pw lg) (sp_draws pw lg x) ->
  exists ps, loaded pw lg ipow g x ps /\ Forall (in_place pw lg g) ps).
Proof.
  intro H. specialize (H root_inv near_ln near_ipow loop_geom loop_dt (electrons (z64 922100000000000000) (z64 922100000000000128)) root_inv_good near_ipow_good loop_fine).
  cbv zeta in H. cbn [electrons sp_n1 sp_n2 sp_charge sp_mass sp_draws] in H. value (z64 922100000000000000). value (z64 922100000000000128). value (z64 1). value (q64 7 4). cbn [num b64_arith] in *.
  assert (B : bpow radix2 60 <= bpow radix2 100) by (apply bpow_le; lia). replace (bpow radix2 60) with 1152921504606846976 in B by reflexivity.
  destruct H as (ps & L & FA); try assumption; try (rewrite ?V, ?V0; lra).
  - exact electron_ok.
  - unfold physical. cbn [loop_geom gr_size gz_size]. rewrite V, V0, V1, V2. lra.
  - rewrite repeat_length. lia.
  - apply Forall_forall. intros d Hd. apply repeat_spec in Hd. subst. exact load_drawn.
  - assert (C := close_checked). unfold close_check, close_z in C. unfold loaded in L. cbn [electrons sp_n1 sp_n2 sp_charge sp_mass sp_draws] in L. rewrite L in C.
    destruct ps as [|p ps]; [discriminate|]. apply andb_true_iff in C. destruct C as (CF & CL). value (z64 3). cbn [num b64_arith] in *. apply ltb_ok in CL; [|assumption|assumption].
    inversion FA as [|? ? IP _]. subst. assert (AL : galive N p = true).
    { assert (G := all_alive _ _ _ _ _ _ _ _ _ L). inversion G. assumption. }
    destruct (IP AL) as (_ & (_ & ZF) & _). cbv zeta in ZF. value (gdz D ex_geom). change (gdz N loop_geom) with (gdz D ex_geom) in ZF. cbn [num b64_arith gn_z loop_geom] in *. change (8 - 1)%Z with 7%Z in ZF.
    replace (bpow radix2 (-30)) with (/ 1073741824) in ZF by reflexivity. rewrite V4 in ZF. lra.
Qed.
Print Assumptions C82_close_densities_refuted.
