(** Property C81: both Gauss laws along whole runs in double precision, particles and fields together (the main loop, src/loadInitParam.cpp lines 440-560). *)
From Coq Require Import Reals ZArith List Bool Lia Lra.
From Flocq Require Import Core IEEE754.BinarySingleNaN.
From Verif.Lib Require Import RAux Grid Outcome Par.
From Verif.Model Require Import Constants Binary64 Temperature64 Arith Geometry Fields Pusher GenCode GenRun GenSim.
From Verif.Proof Require Import Binary64P FloatP LogEx64P ClearAxisP Loop64P GaussRun64P.
From Verif.Props Require Import Double Deposit64 Loop64.
From Verif.Spec Require Import Cloud Continuity Charge64 Field64 Short Deposit64 Loop64 Double Gauss64 GaussRun64.
Import ListNotations.
Local Open Scope R_scope.

(** C81. A run without a beam, a medium that does not conduct: after n steps of the main loop, the flux of the electric displacement out of the ring of
    every node below the outer wall minus the charge in the ring is what it was at the start, up to [run_slack]: per
    step, 2^-41 (nr + nz + 4) of the charge or less for the moves, 2^-52 of the sum of the absolute values of the currents for
    every addition in the ring, and [gauss_slack] for the update of the field. Assumed of every state of the run: fields in bounds, clean moves, not too much current in one place. *)
Theorem C81_gauss : forall pw lg (c : config (b64_arith pw lg)) theta K BE BH BJ l n t e s s' i k, accurate_log lg -> fine pw lg (c_geom _ c) (c_dt _ c) ->
  steady pw lg (c_geom _ c) (c_medium _ c) (c_dt _ c) theta K -> nonconducting pw lg (c_geom _ c) (c_medium _ c) -> Gauss64.moderate BE -> Gauss64.moderate BH -> Gauss64.moderate BJ ->
  no_beam pw lg c s -> fields_within pw lg BE BH (c_geom _ c) (gs_fields _ s) -> orderly_run pw lg l BE BH BJ c n t e s ->
  gsim_run _ c n t e s = Ok s' -> (0 <= i < gn_r _ (c_geom _ c) - 1)%Z -> (1 <= k < gn_z _ (c_geom _ c) - 1)%Z ->
  Rabs (gauss_defect pw lg c s' i k - gauss_defect pw lg c s i k) <= run_slack pw lg K BE BH BJ c n t e s i k.
Proof.
  intros pw lg c theta K BE BH BJ l n t e s s' i k HL HF HS HM ME MH MJ NB FW OR E Hi Hk.
  exact (gauss_sim pw lg c HL HF theta K BE BH BJ l HS HM ME MH MJ n t e s s' i k NB FW OR E Hi Hk).
Qed.
Print Assumptions C81_gauss.

(** C81. When all moves are short as well (C78: 1/32 of a cell), the currents need not be bounded by assumption: N particles of
    the absolute charge Q together give an explicit bound, proportional to Q and the number of steps. *)
Theorem C81_short : forall pw lg (c : config (b64_arith pw lg)) theta K BE BH BJ l n t e s s' i k, accurate_log lg -> fine pw lg (c_geom _ c) (c_dt _ c) ->
  steady pw lg (c_geom _ c) (c_medium _ c) (c_dt _ c) theta K -> nonconducting pw lg (c_geom _ c) (c_medium _ c) -> Gauss64.moderate BE -> Gauss64.moderate BH -> Gauss64.moderate BJ ->
  no_beam pw lg c s -> within_run pw lg BE BH c n t e s -> gliding_run pw lg l c n t e s ->
  let g := c_geom _ c in let d_r := @B2R prec64 emax64 (gdr _ g) in let d_z := @B2R prec64 emax64 (gdz _ g) in let dt := B2R (c_dt _ c : b64) in
  let N := INR (length (parts pw lg s)) in let Q := total_charge pw lg (parts pw lg s) in
  N <= bpow radix2 40 -> 192 * Q <= BJ * (dt * d_r * d_r) -> 192 * Q <= BJ * (dt * d_r * d_z) ->
  gsim_run _ c n t e s = Ok s' -> (0 <= i < gn_r _ g - 1)%Z -> (1 <= k < gn_z _ g - 1)%Z ->
  Rabs (gauss_defect pw lg c s' i k - gauss_defect pw lg c s i k) <=
  INR n * ((bpow radix2 (-41) * (IZR (gn_r _ g) + IZR (gn_z _ g) + 4) + bpow radix2 (-37) * (IZR i + 1) * N) * Q + gauss_slack pw lg g (c_dt _ c) K BE BH BJ i).
Proof.
  intros pw lg c theta K BE BH BJ l n t e s s' i k HL HF HS HM ME MH MJ NB WR GR g d_r d_z dt N Q HN Q1 Q2 E Hi Hk.
  exact (gauss_short pw lg c HL HF theta K BE BH BJ l HS HM ME MH MJ n t e s s' i k NB WR GR HN Q1 Q2 E Hi Hk).
Qed.
Print Assumptions C81_short.

(** C81. The flux of the magnetic field out of every cell, for any run, with a beam or without, however the particles move: rounding changes it by [flux_slack] per step. *)
Theorem C81_flux : forall pw lg (c : config (b64_arith pw lg)) theta K BE BH n t e s s' i k,
  steady pw lg (c_geom _ c) (c_medium _ c) (c_dt _ c) theta K -> Gauss64.moderate BE -> Gauss64.moderate BH ->
  walled pw lg (c_geom _ c) (gs_fields _ s) -> finite_faces pw lg (c_geom _ c) (gs_fields _ s) -> within_run pw lg BE BH c n t e s ->
  gsim_run _ c n t e s = Ok s' -> (0 <= i < gn_r _ (c_geom _ c) - 1)%Z -> (0 <= k < gn_z _ (c_geom _ c) - 1)%Z ->
  Rabs (flux pw lg (c_geom _ c) (gs_fields _ s') i k - flux pw lg (c_geom _ c) (gs_fields _ s) i k) <= INR n * flux_slack pw lg (c_geom _ c) BE BH i.
Proof.
  intros pw lg c theta K BE BH n t e s s' i k HS ME MH HW HX WR E Hi Hk. exact (flux_sim pw lg c theta K BE BH BH HS ME MH MH n t e s s' i k HW HX WR E Hi Hk).
Qed.
Print Assumptions C81_flux.

(** The hypotheses can be met: the grid and the particle of C79 without the beam. *)
Definition glides (o : outcome (list (gparticle N))) : bool :=
  match o with
  | Ok [p] => let x := gph N p in
      galive N p && Beqb (gcharge N p : b64) (q64 1 (2 ^ 20)) && Beqb (gr_old N x : b64) (q64 17 32) && Beqb (gz_old N x : b64) (q64 5 8) &&
      Bleb (q64 545 1024) (g0 N (gpos N x) : b64) && Bleb (g0 N (gpos N x) : b64) (q64 547 1024) && Bleb (q64 641 1024) (g2 N (gpos N x) : b64) && Bleb (g2 N (gpos N x) : b64) (q64 643 1024)
  | _ => false
  end.
Lemma glide : glides (fly root_inv near_ln (loop_config 0) loop_state) = true.
Proof. vm_cast_no_check (eq_refl true). Qed.
Lemma between : forall lo x hi : b64, is_finite lo = true -> is_finite hi = true -> Bleb lo x = true -> Bleb x hi = true -> is_finite x = true /\ B2R lo <= B2R x <= B2R hi.
Proof.
  intros lo x hi FL FH H1 H2. assert (F : is_finite x = true) by (destruct x as [s|[]| |s m ex B]; try reflexivity; [destruct lo as [|[]| |[]]|destruct hi as [|[]| |[]]|destruct hi as [|[]| |[]]]; discriminate).
  split; [exact F|]. apply leb_ok in H1; [|assumption|assumption]. apply leb_ok in H2; [|assumption|assumption]. lra.
Qed.
Lemma same : forall x y : b64, is_finite y = true -> Beqb x y = true -> is_finite x = true /\ B2R x = B2R y.
Proof.
  intros x y FY H. assert (F : is_finite x = true) by (destruct x as [s|[]| |s m ex B]; try reflexivity; destruct y as [|[]| |[]]; discriminate).
  split; [exact F|]. rewrite (Beqb_correct prec64 emax64 x y F FY) in H. destruct (Req_bool_spec (B2R x) (B2R y)); [assumption|discriminate].
Qed.
Lemma leg_ends : forall rn zn, 545 / 1024 <= rn <= 547 / 1024 -> 641 / 1024 <= zn <= 643 / 1024 -> forall t, leg_end (1 / 4) (1 / 4) rn zn (17 / 32) (5 / 8) t -> t = 0 \/ t = 1.
Proof.
  intros rn zn HR HZ t [E|[E|(T & [(n & E)|(n & E)])]]; [now left|now right| |]; exfalso.
  - assert (B : 17 / 32 < IZR n * (1 / 4) < 547 / 1024) by (rewrite <- E; split; nra). assert (C : 2 < IZR n < 3) by lra. destruct C as (C1 & C2). apply lt_IZR in C1. apply lt_IZR in C2. lia.
  - assert (B : 5 / 8 < IZR n * (1 / 4) < 643 / 1024) by (rewrite <- E; split; nra). assert (C : 2 < IZR n < 3) by lra. destruct C as (C1 & C2). apply lt_IZR in C1. apply lt_IZR in C2. lia.
Qed.
Lemma glide_fly : exists p, fly root_inv near_ln (loop_config 0) loop_state = Ok [p] /\ glides (Ok [p]) = true.
Proof.
  assert (G := glide). destruct (fly root_inv near_ln (loop_config 0) loop_state) as [ps| |]; try discriminate G. destruct ps as [|p [|p' ps]]; try discriminate G. exists p. split; [reflexivity|exact G].
Qed.
Lemma glide_clean : forall p, glides (Ok [p]) = true -> moved_clean root_inv near_ln (/ 2048) (loop_config 0) p /\ moved_short root_inv near_ln (loop_config 0) p.
Proof.
  intros p G. cbn [glides] in G. cbv zeta in G.
  repeat match type of G with (_ && _ = true) => apply andb_prop in G; let H := fresh "G" in destruct G as (G & H) end.
  value (gdr D ex_geom). value (gdz D ex_geom). value loop_dt. value (z64 0). value (q64 17 32). value (q64 5 8). value (q64 545 1024). value (q64 547 1024). value (q64 641 1024). value (q64 643 1024). value (q64 1 (2 ^ 20)). cbn [num b64_arith] in *.
  assert (EDR : @B2R prec64 emax64 (gdr N loop_geom) = 1 / 4) by (change (gdr N loop_geom) with (gdr D ex_geom); cbn [num b64_arith]; rewrite V; lra). assert (EDZ : @B2R prec64 emax64 (gdz N loop_geom) = 1 / 4) by (change (gdz N loop_geom) with (gdz D ex_geom); cbn [num b64_arith]; rewrite V0; lra).
  assert (E2 : @B2R prec64 emax64 (gdr N loop_geom) = bpow radix2 (-2)) by (rewrite EDR; cbn; lra). assert (E3 : @B2R prec64 emax64 (gdz N loop_geom) = bpow radix2 (-2)) by (rewrite EDZ; cbn; lra).
  destruct (power_grid root_inv near_ln loop_geom loop_dt (-2) (-2) loop_fine E2 E3) as (CR & CZ). clear E2 E3.
  destruct (same _ _ F9 G6) as (FQ & VQ). destruct (same _ _ F3 G5) as (FRO & VRO). destruct (same _ _ F4 G4) as (FZO & VZO). destruct (between _ _ _ F5 F6 G3 G2) as (FRN & VRN). destruct (between _ _ _ F7 F8 G1 G0) as (FZN & VZN). rewrite V9 in VQ. rewrite V3 in VRO. rewrite V4 in VZO. rewrite V5, V6 in VRN. rewrite V7, V8 in VZN. clear V V0 V2 V3 V4 V5 V6 V7 V8 V9.
    replace (_ * _) with (17 / 32) in VRO by lra. replace (_ * _) with (5 / 8) in VZO by lra. assert (WRN : 545 / 1024 <= B2R (g0 N (gpos N (gph N p)) : b64) <= 547 / 1024) by lra. assert (WZN : 641 / 1024 <= B2R (g2 N (gpos N (gph N p)) : b64) <= 643 / 1024) by lra.
    assert (P200 : bpow radix2 (-200) <= / 68719476736) by (replace (/ 68719476736) with (bpow radix2 (-36)) by (cbn; lra); apply bpow_le; lia).
    assert (Q200 : 1 <= bpow radix2 200) by (change 1 with (bpow radix2 0); apply bpow_le; lia). assert (B30 : bpow radix2 (-30) = / 1073741824) by (cbn; lra).
    assert (SM : short_move root_inv near_ln loop_geom loop_dt (gcharge N p) (g0 N (gpos N (gph N p))) (g2 N (gpos N (gph N p))) (gr_old N (gph N p)) (gz_old N (gph N p))).
    { split; unfold radius_fits, z_fits; cbn [gn_r gn_z loop_geom]; cbn [num b64_arith]; nodes; rewrite ?EDR, ?EDZ, ?VQ, ?VRO, ?VZO, ?V1, ?B30; try (split; [assumption|]); try lra.
      - rewrite Rabs_pos_eq; lra.
      - rewrite Rabs_pos_eq; lra.
      - rewrite Rabs_pos_eq; lra. }
    split; intros _; [|split; [exact SM|]].
    - split; cbn [loop_config c_geom c_dt gn_r gn_z loop_geom]; cbn [num b64_arith]; try assumption; rewrite ?EDR, ?EDZ, ?VQ, ?VRO, ?VZO, ?V1; try (nodes; lra); try (cbn; lra).
      + split; [assumption|]. rewrite Rabs_pos_eq; lra.
      + rewrite Rabs_pos_eq; lra.
      + rewrite Rabs_pos_eq; lra.
      + intro n. apply Rle_trans with (/ 1024); [lra|]. apply near_line with 2%Z. lra.
      + intro n. apply Rle_trans with (/ 1024); [lra|]. apply near_line with 2%Z. lra.
      + intro n. apply Rle_trans with (/ 1024); [lra|]. apply near_line with 2%Z. lra.
      + intro n. apply Rle_trans with (/ 1024); [lra|]. apply near_line with 2%Z. lra.
      + intros t t' E E' T. destruct (leg_ends _ _ WRN WZN t E) as [-> | ->]; destruct (leg_ends _ _ WRN WZN t' E') as [-> | ->]; try lra. rewrite !Rabs_pos_eq; lra.
      + intros t T NR _. destruct (leg_ends _ _ WRN WZN t (or_intror (or_intror (conj T (or_introl NR))))); lra.
    - exact (clear_well_placed root_inv near_ln loop_geom loop_dt _ _ _ _ _ loop_fine CR CZ SM). 
Qed.
Lemma glide_no_beam : no_beam root_inv near_ln (loop_config 0) loop_state.
Proof. split; [cbn; lia|constructor; [reflexivity|constructor]]. Qed.
Lemma glide_starts : ltb N (z64 0) (z64 1) = true.
Proof. vm_compute. reflexivity. Qed.
Lemma one_small : forall k, (0 <= k)%Z -> INR 1 <= bpow radix2 k.
Proof. intros k Hk. exact (bpow_le radix2 0 k Hk). Qed.
Lemma run_one : forall (A : arith) c t e s, ltb A t e = true -> gsim_run A c 1 t e s = giteration A c t s.
Proof. intros A c t e s H. cbn [gsim_run]. rewrite H. destruct (giteration A c t s); reflexivity. Qed.
Lemma glide_run : exists p s1, glides (Ok [p]) = true /\ giteration N (loop_config 0) (z64 0) loop_state = Ok s1 /\ parts root_inv near_ln s1 = [p].
Proof.
  destruct (C79_long_hypotheses_met 1 (one_small 28 ltac:(lia))) as (LC & LS & LB).
  destruct (C79_run root_inv near_ln (loop_config 0) 1 (z64 0) (z64 1) loop_state (1 / 2) 2 1 root_inv_good near_ln_accurate LC LS LB) as (SAFE & _).
  destruct glide_fly as (p & EF & G). destruct (fly_ok root_inv near_ln (loop_config 0) (z64 0) loop_state [p] glide_no_beam EF) as [U|(s1 & E & P)]; [|exists p, s1; auto].
  exfalso. rewrite (run_one N (loop_config 0) (z64 0) (z64 1) loop_state glide_starts), U in SAFE. destruct SAFE as [X|(s' & X)]; discriminate X.
Qed.
Lemma glide_within : forall i s', (i <= 1)%nat -> gsim_run N (loop_config 0) i (z64 0) (z64 1) loop_state = Ok s' -> fields_within root_inv near_ln (bpow radix2 251) (bpow radix2 251) loop_geom (gs_fields N s').
Proof.
  intros i s' Li E x Hx. destruct (C79_long_hypotheses_met 1 (one_small 28 ltac:(lia))) as (LC & LS & LB).
  destruct (C79_run root_inv near_ln (loop_config 0) 1 (z64 0) (z64 1) loop_state (1 / 2) 2 1 root_inv_good near_ln_accurate LC LS LB) as (_ & MILD).
  destruct (MILD i s' Li E) as (M & _). destruct x as [[a i'] k']. assert (FA : field_array a /\ GenRun.inside N loop_geom i' k' = true).
    { unfold free in Hx. destruct a; cbn in Hx; try contradiction; (split; [cbn; auto 10|unfold GenRun.inside; cbn [gn_r gn_z loop_geom n_r n_z real_geom] in *; repeat (apply andb_true_intro; split); try (apply Z.leb_le; lia); apply Z.ltb_lt; lia]). }
    destruct (M a i' k' (proj1 FA) (proj2 FA)) as (M1 & M2). split; [exact M1|]. destruct (electric _); exact M2. 
Qed.
Lemma within_one : forall pw lg BE BH (c : config (b64_arith pw lg)) t e s s', ltb (b64_arith pw lg) t e = true -> giteration _ c t s = Ok s' ->
  fields_within pw lg BE BH (c_geom _ c) (gs_fields _ s) -> fields_within pw lg BE BH (c_geom _ c) (gs_fields _ s') -> within_run pw lg BE BH c 1 t e s.
Proof. intros pw lg BE BH c t e s s' T E H1 H2. cbn [within_run]. rewrite T, E. auto. Qed.
Lemma gliding_one : forall pw lg l (c : config (b64_arith pw lg)) t e s s', ltb (b64_arith pw lg) t e = true -> giteration _ c t s = Ok s' ->
  Forall (fun p => moved_clean pw lg l c p /\ moved_short pw lg c p) (parts pw lg s') -> gliding_run pw lg l c 1 t e s.
Proof. intros pw lg l c t e s s' T E H. cbn [gliding_run]. rewrite T, E. auto. Qed.
Lemma orderly_one : forall pw lg l BE BH BJ (c : config (b64_arith pw lg)) t e s s', ltb (b64_arith pw lg) t e = true -> giteration _ c t s = Ok s' ->
  orderly pw lg l BE BH BJ c s' -> orderly_run pw lg l BE BH BJ c 1 t e s.
Proof. intros pw lg l BE BH BJ c t e s s' T E H. cbn [orderly_run]. rewrite T, E. auto. Qed.
Example C81_hypotheses_met : accurate_log near_ln /\ fine root_inv near_ln loop_geom loop_dt /\ steady root_inv near_ln loop_geom (c_medium N (loop_config 0)) loop_dt (1 / 2) 2 /\
  nonconducting root_inv near_ln loop_geom (c_medium N (loop_config 0)) /\ Gauss64.moderate (bpow radix2 251) /\ Gauss64.moderate (bpow radix2 30) /\ no_beam root_inv near_ln (loop_config 0) loop_state /\
  walled root_inv near_ln loop_geom (gs_fields N loop_state) /\ finite_faces root_inv near_ln loop_geom (gs_fields N loop_state) /\
  within_run root_inv near_ln (bpow radix2 251) (bpow radix2 251) (loop_config 0) 1 (z64 0) (z64 1) loop_state /\
  gliding_run root_inv near_ln (/ 2048) (loop_config 0) 1 (z64 0) (z64 1) loop_state /\
  orderly_run root_inv near_ln (/ 2048) (bpow radix2 251) (bpow radix2 251) (bpow radix2 30) (loop_config 0) 1 (z64 0) (z64 1) loop_state /\
  INR (length (parts root_inv near_ln loop_state)) <= bpow radix2 40 /\
  192 * total_charge root_inv near_ln (parts root_inv near_ln loop_state) <= bpow radix2 30 * (B2R (loop_dt : b64) * @B2R prec64 emax64 (gdr N loop_geom) * @B2R prec64 emax64 (gdr N loop_geom)) /\
  192 * total_charge root_inv near_ln (parts root_inv near_ln loop_state) <= bpow radix2 30 * (B2R (loop_dt : b64) * @B2R prec64 emax64 (gdr N loop_geom) * @B2R prec64 emax64 (gdz N loop_geom)) /\
  exists s', gsim_run N (loop_config 0) 1 (z64 0) (z64 1) loop_state = Ok s' /\ gs_groups N s' <> gs_groups N loop_state.
Proof.
  destruct glide_run as (p & s1 & G & E1 & P1). assert (CM := glide_clean p G). assert (NB := glide_no_beam).
  assert (R1 := run_one N (loop_config 0) (z64 0) (z64 1) loop_state glide_starts). rewrite E1 in R1.
  assert (FW0 := glide_within 0 loop_state (le_S 0 0 (le_n 0)) eq_refl). assert (FW1 := glide_within 1 s1 (le_n 1) R1).
  cbn [glides] in G. cbv zeta in G.
  repeat match type of G with (_ && _ = true) => apply andb_prop in G; let H := fresh "G" in destruct G as (G & H) end.
  value (gdr D ex_geom). value (gdz D ex_geom). value loop_dt. value (z64 0). value (q64 17 32). value (q64 5 8). value (q64 545 1024). value (q64 547 1024). value (q64 641 1024). value (q64 643 1024). value (q64 1 (2 ^ 20)). cbn [num b64_arith] in *.
  assert (EDR : @B2R prec64 emax64 (gdr N loop_geom) = 1 / 4) by (change (gdr N loop_geom) with (gdr D ex_geom); cbn [num b64_arith]; rewrite V; lra). assert (EDZ : @B2R prec64 emax64 (gdz N loop_geom) = 1 / 4) by (change (gdz N loop_geom) with (gdz D ex_geom); cbn [num b64_arith]; rewrite V0; lra).
  assert (M251 : Gauss64.moderate (bpow radix2 251)) by (split; apply bpow_le; lia). assert (M30 : Gauss64.moderate (bpow radix2 30)) by (split; apply bpow_le; lia).
  assert (NC : nonconducting root_inv near_ln loop_geom (c_medium N (loop_config 0))) by (intros i k _ _; exact V2).
  assert (WA : walled root_inv near_ln loop_geom (gs_fields N loop_state)) by (intros x _; split; [assumption|exact V2]).
  assert (FA : finite_faces root_inv near_ln loop_geom (gs_fields N loop_state)) by (intros x _; assumption).
  assert (TQ : total_charge root_inv near_ln (parts root_inv near_ln loop_state) = / 1048576).
  { unfold total_charge, parts, sum_living. cbn [loop_state gs_groups flat_map snd app fold_right galive loop_live gcharge]. cbn [num b64_arith]. rewrite V9, Rabs_pos_eq; lra. }
  assert (T1 : total_charge root_inv near_ln (parts root_inv near_ln s1) = / 1048576).
  { rewrite P1. unfold total_charge, sum_living. cbn [fold_right]. rewrite G. destruct (same _ _ F9 G6) as (FQ & VQ). cbn [num b64_arith] in *. rewrite VQ, V9, Rabs_pos_eq; lra. }
  assert (B30 : bpow radix2 30 = 1073741824) by reflexivity.
  assert (Q1 : 192 * / 1048576 <= bpow radix2 30 * (B2R (loop_dt : b64) * (1 / 4) * (1 / 4))) by (rewrite V1, B30; lra).
  split; [exact near_ln_accurate|]. split; [exact loop_fine|]. split; [exact loop_steady|]. split; [exact NC|]. split; [exact M251|]. split; [exact M30|]. split; [exact NB|]. split; [exact WA|]. split; [exact FA|].
  split; [exact (within_one root_inv near_ln _ _ _ _ _ _ _ glide_starts E1 FW0 FW1)|].
  split; [apply (gliding_one root_inv near_ln _ _ _ _ _ _ glide_starts E1); rewrite P1; constructor; [exact CM|constructor]|].
  split; [apply (orderly_one root_inv near_ln _ _ _ _ _ _ _ _ _ glide_starts E1)|].
  - apply (short_orderly root_inv near_ln (loop_config 0) near_ln_accurate loop_fine (1 / 2) 2 (bpow radix2 251) (bpow radix2 251) (bpow radix2 30) (/ 2048) loop_steady M30); try assumption; cbn [loop_config c_geom c_dt]; rewrite ?T1, ?EDR, ?EDZ; try assumption.
    + rewrite P1. constructor; [exact CM|constructor].
    + rewrite P1. apply (bpow_le radix2 0 40). lia.
  - rewrite TQ, EDR, EDZ. split; [apply (bpow_le radix2 0 40); lia|]. split; [exact Q1|]. split; [exact Q1|].
    exists s1. split; [exact R1|]. intro EQ. unfold parts in P1. rewrite EQ in P1. cbn in P1. injection P1 as EP.
    destruct (between _ _ _ F5 F6 G3 G2) as (_ & VRN & _). rewrite <- EP in VRN. cbn [loop_live gph gpos g0] in VRN. rewrite V3, V5 in VRN. lra.
Qed.
