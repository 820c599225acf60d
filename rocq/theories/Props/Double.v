(** C71: whole runs in double precision. *)
From Coq Require Import Reals ZArith List Bool Lia Lra.
From Flocq Require Import Core IEEE754.BinarySingleNaN.
From Verif.Lib Require Import RAux Outcome Par ParProg.
From Verif.Model Require Import Binary64 Temperature64 Fields Pusher Arith GenCode GenRun GenSim.
From Verif.Proof Require Import Binary64P FloatP Push64P GenRunP GenSimP GenSimP2 Clock64P Run64P.
From Verif.Spec Require Import Memory Double.
Import ListNotations.
Local Open Scope R_scope.

(** * C71: in double precision no run leaves the arrays *)

(** Whatever the C library makes of pow(x, -1/2), within 2^-40; relativistic pusher. The run of n steps ends, or stops with
    exit(1) (a particle as fast as light, Model/GenCode.v gget_gamma), but performs no undefined operation: no deposit of
    charge or current outside the arrays, no division by zero integers, no removal of bunches. Live particles end where
    [in_place] says. At each push the force comes from the n_r x n_z frame and, an eighth of a cell off the walls, from the
    elements that exist.
    Missing: that the fields stay below 2^251 is assumed; at the walls reads go beyond the arrays HPHIH, HZH, HRH
    (C59_refuted, C71_reads_refuted), and the model does not stop there. *)
Theorem C71_run_partial : forall pw lg (c : config (b64_arith pw lg)) n t e s, good_pow pw -> fine pw lg (c_geom _ c) (c_dt _ c) ->
  border_clear pw lg (c_geom _ c) -> (c_pusher _ c = BorisRelativistic \/ c_pusher _ c = BorisAdaptive true) ->
  starts pw lg c s -> ((0 < c_bunches _ c)%Z -> beam_ok pw lg c n t) -> stays_calm pw lg c n t e s ->
  (gsim_run _ c n t e s = Exit 1 \/ exists s', gsim_run _ c n t e s = Ok s' /\ Forall (in_place pw lg (c_geom _ c)) (parts pw lg s')) /\
  forall i s', (i < n)%nat -> (forall j, (j <= i)%nat -> ltb (b64_arith pw lg) (time pw lg c j t) e = true) -> gsim_run _ c i t e s = Ok s' ->
    exists s'', gbeam _ c (time pw lg c i t) s' = Ok s'' /\
    forall p, In p (parts pw lg s'') -> galive _ p = true -> let r := g0 _ (gpos _ (gph _ p)) in let z := g2 _ (gpos _ (gph _ p)) in
      felt_from pw lg (framed pw lg (c_geom _ c)) (c_geom _ c) r z /\
      (apart pw lg (c_geom _ c) r z -> felt_from pw lg (allocated pw lg (c_geom _ c)) (c_geom _ c) r z).
Proof. intros pw lg c n t e s HP HF HB HU ST BO SC. exact (run_safe64 pw lg HP c HF HB HU n t e s ST BO SC). Qed.
Print Assumptions C71_run_partial.

(** The same for any number of threads (C70). *)
Theorem C71_threads_partial : forall pw lg (c : config (b64_arith pw lg)) f n t e s m o, good_pow pw -> fine pw lg (c_geom _ c) (c_dt _ c) ->
  border_clear pw lg (c_geom _ c) -> (c_pusher _ c = BorisRelativistic \/ c_pusher _ c = BorisAdaptive true) ->
  starts pw lg c s -> ((0 < c_bunches _ c)%Z -> beam_ok pw lg c n t) -> stays_calm pw lg c n t e s ->
  c_rand _ c = Reverse _ f -> (forall k, Z.of_nat (length (c_bunch _ c k)) = c_macro _ c) -> repr _ c m s ->
  pieces_run _ (run_pieces _ c n t e (gs_bunches _ s)) m o ->
  (gsim_run _ c n t e s = Exit 1 /\ forall m', o <> Ok m') \/
  exists m' s', o = Ok m' /\ repr _ c m' s' /\ Forall (in_place pw lg (c_geom _ c)) (parts pw lg s').
Proof.
  intros pw lg c f n t e s m o HP HF HB HU ST BO SC Hf HL HR Ho.
  assert (S := run_schedule _ c n t e (gs_bunches _ s) m o (ex_intro _ f Hf) Ho).
  assert (L := run_link _ c f Hf HL n t e m s HR).
  destruct (run_safe64 pw lg HP c HF HB HU n t e s ST BO SC) as ([E|(s' & E & P)] & _); rewrite E in L; cbn in L.
  - left. split; [exact E|]. rewrite L in S. intros m' ->. exact S.
  - right. destruct L as (m' & E' & R'). rewrite E' in S. destruct o; cbn in S; try contradiction. subst. eauto.
Qed.
Print Assumptions C71_threads_partial.

(** ** A configuration that meets the hypotheses *)

(** pow(x, -1/2) as 1 / sqrt(x) *)
Definition root_inv (x : b64) : b64 := b64_div (b64_of_Z 1) (b64_sqrt x).

Lemma root_inv_good : good_pow root_inv.
Proof.
  split; [|split].
  - intros x F H. unfold root_inv. destruct (sqrt_ok x F ltac:(lra)) as (FS & ES). destruct (of_Z_exact 1 eq_refl) as (F1 & E1).
    assert (S1 : 1 <= sqrt (B2R x)) by (rewrite <- sqrt_1 at 1; apply sqrt_le_1_alt; exact H).
    assert (S2 : 1 <= B2R (b64_sqrt x)) by (rewrite ES, <- (rnd_exact_Z 1) by reflexivity; apply rnd_mono; exact S1).
    set (s := b64_sqrt x) in *. set (q := sqrt (B2R x)) in *.
    assert (Q0 : 0 < / B2R s <= 1) by (split; [apply Rinv_0_lt_compat; lra|rewrite <- Rinv_1; apply Rinv_le; lra]).
    destruct (div_ok (b64_of_Z 1) s F1) as (FD & ED); [lra|rewrite E1; unfold Rdiv; rewrite Rmult_1_l, Rabs_pos_eq by lra; apply Rle_trans with (bp 0); [cbn; lra|apply bpow_le; lia]|].
    rewrite E1 in ED. unfold Rdiv in ED. rewrite Rmult_1_l in ED. split; [exact FD|]. rewrite ED. split; [apply rnd_nonneg; lra|].
    assert (XU : q <= bp 512).
    { unfold q. rewrite <- (sqrt_square (bp 512)) by apply bpow_ge_0. apply sqrt_le_1_alt. rewrite <- bpow_plus. apply Rle_trans with (1 := Rle_abs _). apply Rlt_le. exact (abs_B2R_lt_emax prec64 emax64 x). }
    assert (RE := rnd_err (/ B2R s)). rewrite (Rabs_pos_eq (/ B2R s)) in RE by lra. assert (RS := rnd_err q). rewrite <- ES, (Rabs_pos_eq q) in RS by lra.
    assert (T1 : tiny * q <= u). { apply Rle_trans with (tiny * bp 512); [apply Rmult_le_compat_l; [apply Rlt_le, tiny_pos|exact XU]|]. unfold tiny, u. rewrite <- bpow_plus. apply bpow_le. lia. }
    assert (T0 : tiny <= u) by (unfold tiny, u; apply bpow_le; lia). rewrite u_val in *. apply Rabs_le_inv in RE, RS.
    replace (bpow radix2 (-40)) with (/ 1099511627776) by (cbn; lra).
    assert (QS : q * / B2R s <= 1 + 3 * / 9007199254740992).
    { apply Rmult_le_reg_r with (B2R s); [lra|]. rewrite Rmult_assoc, Rinv_l by lra. lra. }
    assert (K : rnd (/ B2R s) * q <= (/ B2R s + / 9007199254740992 * / B2R s + tiny) * q) by (apply Rmult_le_compat_r; lra).
    lra.
  - reflexivity.
  - reflexivity.
Qed.

Notation D := (b64_arith root_inv (fun x => x)).
Definition z64 (k : Z) : num D := b64_of_Z k.
Definition q64 (a b : Z) : num D := b64_lit a b.

(** A grid of 5 x 8 nodes of a quarter of a metre; a step of 2^-31 s; a beam of one bunch of two particles, one per step. *)
Definition ex_geom : ggeom D := GGeom D 5 8 (z64 1) (q64 7 4).
Definition ex_dt : num D := q64 1 (2 ^ 31).
Definition ex_waiting : gparticle D :=
  GParticle D false (q64 (-1) (2 ^ 20)) (q64 1 (2 ^ 20)) (GPhase D (GV D (q64 3 8) (z64 0) (z64 0)) (GV D (z64 0) (z64 0) (z64 0)) (z64 0) (z64 0) (z64 0)).
Definition ex_live : gparticle D :=
  GParticle D true (q64 1 (2 ^ 20)) (q64 1 (2 ^ 20)) (GPhase D (GV D (q64 1 2) (z64 0) (q64 5 8)) (GV D (z64 100000000) (z64 50000000) (z64 150000000)) (z64 0) (z64 0) (z64 0)).
Definition ex_config : config D :=
  Config D ex_geom (GMedium D (fun _ _ => z64 1) (fun _ _ => z64 0)) ex_dt BorisRelativistic [1%Z] (q64 200000000 (2 ^ 30)) (z64 0) (z64 200000000) 1 2
    (fun _ => [ex_waiting; ex_waiting]) (Reverse D (fun _ => q64 1 2)).
Definition ex_state : gsim D := GSim D (fun _ => z64 0) (fun _ _ => z64 0) [(false, [ex_live])] 0.
Definition ex_end : num D := q64 1 (2 ^ 20).
Definition small (x : num D) : bool := is_finite (x : b64) && Bleb (Babs (x : b64)) (z64 (2 ^ 50)).
Definition all_small (f : gmem D) : bool :=
  forallb (fun a => forallb (fun i => forallb (fun k => small (f (a, i, k))) (zrange 0 8)) (zrange 0 5)) [ER; EPHI; EZ; HRH; HPHIH; HZH].

Lemma all_in_range : forall f, all_small f = true -> calm root_inv (fun x => x) ex_geom f.
Proof.
  intros f H a i k IA IN. unfold inside in IN. rewrite !andb_true_iff, !Z.leb_le, !Z.ltb_lt in IN. cbn [gn_r gn_z ex_geom] in IN.
  unfold all_small in H. rewrite forallb_forall in H. specialize (H a IA). rewrite forallb_forall in H. assert (H1 := H i ltac:(apply zrange_in; lia)). rewrite forallb_forall in H1.
  assert (H2 := H1 k ltac:(apply zrange_in; lia)). unfold small in H2. apply andb_true_iff in H2. destruct H2 as (F & L). split; [exact F|].
  destruct (of_Z_exact (2 ^ 50) eq_refl) as (F2 & E2). apply leb_ok in L; [|rewrite is_finite_Babs; exact F|exact F2].
  rewrite B2R_Babs in L. unfold z64 in L. rewrite E2 in L. apply Rle_trans with (1 := L). change (IZR (2 ^ 50)) with (bp 50). apply bpow_le. lia.
Qed.

(** The value of a double *)
Lemma value_of : forall (x : b64) s m e, B2SF x = SpecFloat.S754_finite s m e -> is_finite x = true /\ B2R x = IZR (if s then Zneg m else Zpos m) * bp e.
Proof. intros x s m e H. split; [destruct x; cbn in H; try discriminate; reflexivity|]. rewrite <- SF2R_B2SF, H. destruct s; reflexivity. Qed.
Lemma value_0 : forall (x : b64) s, B2SF x = SpecFloat.S754_zero s -> is_finite x = true /\ B2R x = 0.
Proof. intros x s H. split; [destruct x; cbn in H; try discriminate; reflexivity|]. rewrite <- SF2R_B2SF, H. reflexivity. Qed.

Ltac value x := let v := eval vm_compute in (B2SF (x : b64)) in match v with
  | SpecFloat.S754_finite ?s ?m ?e => let F := fresh "F" in let V := fresh "V" in let S := fresh "S" in
      assert (S : B2SF (x : b64) = SpecFloat.S754_finite s m e) by (vm_compute; reflexivity);
      destruct (value_of _ _ _ _ S) as (F & V); clear S;
      let r := eval cbn in (IZR (if s then Zneg m else Zpos m) * bp e) in change (B2R (x : b64) = r) in V
  | SpecFloat.S754_zero ?s => let F := fresh "F" in let V := fresh "V" in let S := fresh "S" in
      assert (S : B2SF (x : b64) = SpecFloat.S754_zero s) by (vm_compute; reflexivity);
      destruct (value_0 _ _ S) as (F & V); clear S
  end.

Ltac nodes := repeat match goal with |- context [IZR (?a - 1)] => let b := eval vm_compute in (a - 1)%Z in change (a - 1)%Z with b end.

Lemma ex_fine : fine root_inv (fun x => x) ex_geom ex_dt.
Proof.
  value (gdr D ex_geom). value (gdz D ex_geom). value ex_dt. cbn [num b64_arith] in *.
  split; cbn [gn_r gn_z ex_geom]; try lia; try (vm_compute; reflexivity); try (split; [assumption|]); cbn [num b64_arith]; rewrite ?V, ?V0, ?V1; cbn; lra.
Qed.
Lemma ex_border : border_clear root_inv (fun x => x) ex_geom.
Proof. unfold border_clear. apply Z.leb_le. vm_compute. reflexivity. Qed.

Lemma ex_sane : sane (q64 (-1) (2 ^ 20)) (q64 1 (2 ^ 20)) /\ sane (q64 1 (2 ^ 20)) (q64 1 (2 ^ 20)).
Proof.
  value (q64 (-1) (2 ^ 20)). value (q64 1 (2 ^ 20)). cbn [num b64_arith] in *.
  assert (B : bp (-400) <= / 1048576 <= bp 400).
  { replace (/ 1048576) with (bp (-20)) by (cbn; lra). split; apply bpow_le; lia. }
  assert (E : 4503599627370496 * / 4722366482869645213696 = / 1048576) by lra.
  assert (P : 1 <= bp 50) by (change 1 with (bp 0); apply bpow_le; lia).
  assert (Q : / 1048576 <= bp 50 * / 1048576) by (rewrite <- (Rmult_1_l (/ 1048576)) at 1; apply Rmult_le_compat_r; lra).
  split; (split; [assumption|]; split; [assumption|]; cbn [num b64_arith]; rewrite ?V, ?V0; split; [lra|]; apply Rabs_le; lra).
Qed.

Lemma ex_starts : starts root_inv (fun x => x) ex_config ex_state.
Proof.
  split; [reflexivity|]. split; [constructor; [reflexivity|constructor]|]. constructor; [|constructor]. intros _. cbn [ex_config c_geom ex_live gph gpos gvel g0 g1 g2 gcharge gmass].
  value (gdr D ex_geom). value (gdz D ex_geom). value (q64 1 2). value (q64 5 8). value (z64 0). value (z64 100000000). value (z64 50000000). value (z64 150000000).
  assert (B : bp 31 = 2147483648) by reflexivity. assert (B2 : bp (-30) = / 1073741824) by (cbn; lra). cbn [num b64_arith] in *.
  split; [split; [assumption|]; cbv zeta; cbn [num b64_arith gn_r ex_geom]; nodes; rewrite V, V1, B2; lra|].
  split; [split; [assumption|]; cbv zeta; cbn [num b64_arith gn_z ex_geom]; nodes; rewrite V0, V2, B2; lra|].
  split; [assumption|]. split; [assumption|].
  split; [split; [assumption|]; cbn [num b64_arith]; rewrite V4, B, Rabs_pos_eq; lra|].
  split; [split; [assumption|]; cbn [num b64_arith]; rewrite V5, B, Rabs_pos_eq; lra|].
  split; [split; [assumption|]; cbn [num b64_arith]; rewrite V6, B, Rabs_pos_eq; lra|]. apply ex_sane.
Qed.

Lemma ex_calm0 : all_small (gcalc_hfield D ex_geom ex_dt (gs_fields D ex_state)) = true.
Proof. vm_cast_no_check (eq_refl true). Qed.
Definition ex_calm_after : bool :=
  match gsim_run D ex_config 1 (z64 0) ex_end ex_state with Ok s => all_small (gcalc_hfield D ex_geom ex_dt (gs_fields D s)) | _ => true end.
Lemma ex_calm1 : ex_calm_after = true.
Proof. vm_cast_no_check (eq_refl true). Qed.

Lemma ex_stays : stays_calm root_inv (fun x => x) ex_config 2 (z64 0) ex_end ex_state.
Proof.
  intros i s' L R. apply all_in_range. destruct i as [|[|i]]; [|  |lia].
  - cbn [gsim_run] in R. injection R as <-. exact ex_calm0.
  - assert (C := ex_calm1). unfold ex_calm_after in C. rewrite R in C. exact C.
Qed.

Lemma ex_beam : beam_ok root_inv (fun x => x) ex_config 2 (z64 0).
Proof.
  value (c_velocity D ex_config). value (c_duration D ex_config). value (c_hole D ex_config). value (c_dt D ex_config). value (z64 0). value (add D (z64 0) (c_dt D ex_config)).
  value (q64 1 2). value (gdr D ex_geom). value (q64 3 8). cbn [num b64_arith] in *.
  assert (B2 : bp (-30) = / 1073741824) by (cbn; lra). assert (B3 : bp 30 = 1073741824) by reflexivity. assert (B4 : bp (-300) <= bp (-31)) by (apply bpow_le; lia).
  replace (bp (-31)) with (/ 2147483648) in B4 by (cbn; lra). assert (B5 : 0 <= bp 31) by apply bpow_ge_0.
  split.
  - split; [assumption|]. cbn [num b64_arith]. lra.
  - apply Z.eqb_neq. vm_compute. reflexivity.
  - cbn. lia.
  - split; [assumption|]. cbn [num b64_arith]. lra.
  - split; [assumption|]. cbn [num b64_arith]. lra.
  - cbn [num b64_arith]. rewrite V2. lra.
  - intros i L. destruct i as [|[|i]]; [| |lia]; cbn [time]; (split; [assumption|]); cbn [num b64_arith]; rewrite V2, B3, ?V3, ?V4; lra.
  - reflexivity.
  - exists (fun _ => q64 1 2). split; [reflexivity|]. intro x. split; [assumption|]. cbn [num b64_arith]. lra.
  - intros k _. assert (W : waiting root_inv (fun x => x) ex_geom ex_waiting); [|constructor; [exact W|constructor; [exact W|constructor]]].
    split; [reflexivity|]. cbn [ex_waiting gph gpos gvel g0 g1 g2 gcharge gmass].
    split; [split; [assumption|]; cbv zeta; cbn [num b64_arith gn_r ex_geom]; nodes; rewrite V6, V7, B2; lra|].
    split; [assumption|]. split; [assumption|].
    assert (M : moderate (z64 0)) by (split; [assumption|]; cbn [num b64_arith]; rewrite V3, Rabs_R0; exact B5). split; [exact M|]. split; [exact M|]. apply ex_sane.
  - intros k _. assert (W : deep root_inv (fun x => x) ex_geom ex_waiting); [|constructor; [exact W|constructor; [exact W|constructor]]].
    split; [cbn; lia|]. cbv zeta. cbn [ex_waiting gph gpos g0 num b64_arith gn_r ex_geom]. nodes. rewrite V6, V7. lra.
  - intros i nb L N. unfold erase_reached. cbn [c_bunches ex_config] in N. destruct (Z.ltb_spec 1 nb); [lia|reflexivity].
Qed.

Example C71_hypotheses_met : good_pow root_inv /\ fine root_inv (fun x => x) (c_geom D ex_config) (c_dt D ex_config) /\
  border_clear root_inv (fun x => x) (c_geom D ex_config) /\ c_pusher D ex_config = BorisRelativistic /\
  starts root_inv (fun x => x) ex_config ex_state /\ beam_ok root_inv (fun x => x) ex_config 2 (z64 0) /\
  stays_calm root_inv (fun x => x) ex_config 2 (z64 0) ex_end ex_state /\
  c_rand D ex_config = Reverse D (fun _ => q64 1 2) /\ (forall k, Z.of_nat (length (c_bunch D ex_config k)) = c_macro D ex_config).
Proof.
  split; [exact root_inv_good|]. split; [exact ex_fine|]. split; [exact ex_border|]. split; [reflexivity|]. split; [exact ex_starts|]. split; [exact ex_beam|].
  split; [exact ex_stays|]. split; reflexivity.
Qed.

(** The run of the example ends normally, with both particles of the bunch injected. *)
Example C71_example_run : match gsim_run D ex_config 2 (z64 0) ex_end ex_state with Ok s => map (galive D) (parts root_inv (fun x => x) s) | _ => [] end = [true; true; true].
Proof. vm_compute. reflexivity. Qed.

(** ** Without [border_clear] *)

(** A tube of one metre with eleven nodes; a particle at the first double above 9 * dz. Its cell by ceil(z / dz) - 1 is the
    last but one, but it does not pass the test z < 9 * dz of src/particles.cpp line 560, so the current of a move into
    the last cell is deposited beyond it. *)
Definition border_geom : ggeom D := GGeom D 11 11 (z64 1) (z64 1).
Definition border_dt : num D := q64 1 (2 ^ 33).
Definition border_z : num D := @Bsucc prec64 emax64 eq_refl eq_refl (b64_mul (z64 9) (gdz D border_geom)).
Definition border_particle : gparticle D :=
  GParticle D true (q64 1 (2 ^ 20)) (q64 1 (2 ^ 20)) (GPhase D (GV D (q64 33 100) (z64 0) border_z) (GV D (z64 100000000) (z64 0) (z64 100000000)) (z64 0) (z64 0) (z64 0)).
Definition border_config : config D :=
  Config D border_geom (GMedium D (fun _ _ => z64 1) (fun _ _ => z64 0)) border_dt BorisRelativistic [1%Z] (z64 1) (z64 1) (z64 1) 0 0
    (fun _ => []) (Reverse D (fun _ => z64 0)).
Definition border_state : gsim D := GSim D (fun _ => z64 0) (fun _ _ => z64 0) [(false, [border_particle])] 0.
Definition is_UB {X : Type} (o : outcome X) : bool := match o with UB => true | _ => false end.
Lemma border_ub : is_UB (gsim_run D border_config 1 (z64 0) (z64 1) border_state) = true.
Proof. vm_cast_no_check (eq_refl true). Qed.

Definition border_small (f : gmem D) : bool :=
  forallb (fun a => forallb (fun i => forallb (fun k => small (f (a, i, k))) (zrange 0 11)) (zrange 0 11)) [ER; EPHI; EZ; HRH; HPHIH; HZH].
Lemma border_calm : border_small (gcalc_hfield D border_geom border_dt (gs_fields D border_state)) = true.
Proof. vm_cast_no_check (eq_refl true). Qed.

Lemma is_UB_eq : forall {X : Type} (o : outcome X), is_UB o = true -> o = UB.
Proof. intros X [x|n|] H; try discriminate. reflexivity. Qed.

Lemma border_fine : fine root_inv (fun x => x) border_geom border_dt.
Proof.
  value (gdr D border_geom). value (gdz D border_geom). value border_dt.
  assert (B2 : bp (-30) = / 1073741824) by (cbn; lra). assert (B3 : bp 10 = 1024) by reflexivity. cbn [num b64_arith] in *.
  split; cbn [gn_r gn_z border_geom]; try lia; try (vm_compute; reflexivity); try (split; [assumption|]); cbn [num b64_arith]; rewrite ?V, ?V0, ?V1, ?B2, ?B3; lra.
Qed.

Lemma border_starts : starts root_inv (fun x => x) border_config border_state.
Proof.
  value (gdr D border_geom). value (gdz D border_geom). value (q64 33 100). value border_z. value (z64 0). value (z64 100000000).
  assert (B : bp 31 = 2147483648) by reflexivity. assert (B2 : bp (-30) = / 1073741824) by (cbn; lra). cbn [num b64_arith] in *.
  split; [reflexivity|]. split; [constructor; [reflexivity|constructor]|]. constructor; [|constructor]. intros _. cbn [border_config c_geom border_particle gph gpos gvel g0 g1 g2 gcharge gmass].
  split; [split; [assumption|]; cbv zeta; cbn [num b64_arith gn_r border_geom]; nodes; rewrite V, V1, B2; lra|].
  split; [split; [assumption|]; cbv zeta; cbn [num b64_arith gn_z border_geom]; nodes; rewrite V0, V2, B2; lra|].
  split; [assumption|]. split; [assumption|].
  split; [split; [assumption|]; cbn [num b64_arith]; rewrite V4, B, Rabs_pos_eq; lra|].
  split; [split; [assumption|]; cbn [num b64_arith]; rewrite V3, B, Rabs_R0; lra|].
  split; [split; [assumption|]; cbn [num b64_arith]; rewrite V4, B, Rabs_pos_eq; lra|]. apply ex_sane.
Qed.

Lemma border_in_range : forall f, border_small f = true -> calm root_inv (fun x => x) border_geom f.
Proof.
  intros f H a i k IA IN. unfold inside in IN. rewrite !andb_true_iff, !Z.leb_le, !Z.ltb_lt in IN. cbn [gn_r gn_z border_geom] in IN.
  unfold border_small in H. rewrite forallb_forall in H. specialize (H a IA). rewrite forallb_forall in H. assert (H1 := H i ltac:(apply zrange_in; lia)). rewrite forallb_forall in H1.
  assert (H2 := H1 k ltac:(apply zrange_in; lia)). unfold small in H2. apply andb_true_iff in H2. destruct H2 as (F & L). split; [exact F|].
  destruct (of_Z_exact (2 ^ 50) eq_refl) as (F2 & E2). apply leb_ok in L; [|rewrite is_finite_Babs; exact F|exact F2].
  rewrite B2R_Babs in L. unfold z64 in L. rewrite E2 in L. apply Rle_trans with (1 := L). change (IZR (2 ^ 50)) with (bp 50). apply bpow_le. lia.
Qed.

Lemma border_stays : stays_calm root_inv (fun x => x) border_config 1 (z64 0) (z64 1) border_state.
Proof.
  intros i s' L R. apply border_in_range. destruct i as [|i]; [|lia]. cbn [gsim_run] in R. injection R as <-. exact border_calm.
Qed.

Theorem C71_border_refuted : exists (c : config D) s, fine root_inv (fun x => x) (c_geom D c) (c_dt D c) /\ c_pusher D c = BorisRelativistic /\
  starts root_inv (fun x => x) c s /\ c_bunches D c = 0%Z /\ stays_calm root_inv (fun x => x) c 1 (z64 0) (z64 1) s /\
  gsim_run D c 1 (z64 0) (z64 1) s = UB.
Proof.
  exists border_config, border_state. split; [exact border_fine|]. split; [reflexivity|]. split; [exact border_starts|]. split; [reflexivity|].
  split; [exact border_stays|]. apply is_UB_eq. exact border_ub.
Qed.
Print Assumptions C71_border_refuted.

(** ** Reads beyond the arrays at the far end *)

(** The grid of test/functional/parameters.xml.tmpl.in with debugging on. A particle exactly where particles are
    reflected, which therefore stays there, feels column 126 of the array HRH, which has columns 0 to 125. *)
Definition reads_geom : ggeom D := GGeom D 15 127 (q64 1 4) (z64 2).
Definition reads_z : num D := sub D (gz_size D reads_geom) (div D (gdz D reads_geom) (z64 2)).
Definition reads_r : num D := q64 1 10.
Definition reads_mem (x : num D) : gmem D := fun l => match l with (HRH, _, 126%Z) => x | _ => z64 0 end.

Theorem C71_reads_refuted : exists (g : ggeom D) r z, fine root_inv (fun x => x) g (q64 1 10000000000000) /\
  radius_fits root_inv (fun x => x) g r /\ z_fits root_inv (fun x => x) g z /\
  (forall y v ro zo s, g0 D (gpos D (greflection D g (GPhase D (GV D r y z) v ro zo s))) = r /\ g2 D (gpos D (greflection D g (GPhase D (GV D r y z) v ro zo s))) = z) /\
  ~ felt_from root_inv (fun x => x) (allocated root_inv (fun x => x) g) g r z.
Proof.
  exists reads_geom, reads_r, reads_z. value (gdr D reads_geom). value (gdz D reads_geom). value (q64 1 10000000000000). value reads_r. value reads_z.
  assert (B2 : bp (-30) = / 1073741824) by (cbn; lra). assert (B3 : bp 10 = 1024) by reflexivity. cbn [num b64_arith] in *.
  split; [|split; [|split; [|split]]].
  - split; cbn [gn_r gn_z reads_geom]; try lia; try (vm_compute; reflexivity); try (split; [assumption|]); cbn [num b64_arith]; rewrite ?V, ?V0, ?V1, ?B2, ?B3; lra.
  - split; [assumption|]. cbv zeta. cbn [num b64_arith gn_r reads_geom]. nodes. rewrite V, V2, B2. lra.
  - split; [assumption|]. cbv zeta. cbn [num b64_arith gn_z reads_geom]. nodes. rewrite V0, V3, B2. lra.
  - intros y v ro zo s. unfold greflection. cbn [gpos g0 g1 g2 gvel gr_old gz_old gsin].
    repeat match goal with |- context [if ltb D ?a ?b then _ else _] => let X := fresh in assert (X : ltb D a b = false) by (vm_compute; reflexivity); rewrite !X; clear X; cbv beta iota zeta end.
    cbn [gpos g0 g2]. split; reflexivity.
  - intro H. assert (E : gget_hfield D reads_geom (reads_mem (z64 0)) reads_r reads_z = gget_hfield D reads_geom (reads_mem B754_nan) reads_r reads_z).
    { apply H. intros a i k ((_ & _) & (_ & K)). cbn [gn_r gn_z reads_geom] in K. unfold reads_mem. destruct a; try reflexivity.
      destruct k as [|k|k]; try reflexivity. do 7 (destruct k as [k|k|]; try reflexivity; try (cbn in K; lia)). }
    assert (X : is_nan (g0 D (gget_hfield D reads_geom (reads_mem (z64 0)) reads_r reads_z) : b64) = false) by (vm_compute; reflexivity).
    rewrite E in X. vm_compute in X. discriminate.
Qed.
Print Assumptions C71_reads_refuted.

(** * C23 in binary64: how often *)

(** Rounding can make a particle of a bunch be injected more than once (C23_binary64_refuted), but only in two successive steps:
    for any step between 2^-300 and 1 and for all times up to 2^30 steps. *)
Theorem C23_binary64_successive : forall pw lg (c : config (b64_arith pw lg)) n t k x i j,
  @is_finite prec64 emax64 (c_dt _ c) = true -> bpow radix2 (-300) <= @B2R prec64 emax64 (c_dt _ c) <= 1 ->
  (forall i, (i < n)%nat -> is_finite (time pw lg c i t) = true /\ 0 <= B2R (time pw lg c i t) <= bpow radix2 30 * @B2R prec64 emax64 (c_dt _ c)) ->
  (@is_finite prec64 emax64 (c_duration _ c) = true /\ 0 <= @B2R prec64 emax64 (c_duration _ c)) ->
  (@is_finite prec64 emax64 (c_hole _ c) = true /\ 0 <= @B2R prec64 emax64 (c_hole _ c)) ->
  (ceil_int (b64_arith pw lg) (div (b64_arith pw lg) (c_duration _ c) (c_dt _ c)) <> 0)%Z -> (0 <= c_macro _ c < 2 ^ 53)%Z -> (0 <= k < 2 ^ 53)%Z ->
  (i < j < n)%nat -> injected pw lg c (time pw lg c i t) k x -> injected pw lg c (time pw lg c j t) k x -> j = S i.
Proof.
  intros pw lg c n t k x i j F H CL HD HH HS HM HK L I J. exact (injected_again pw lg c F H n t k x i j CL HD HH HS HM HK L I J).
Qed.
Print Assumptions C23_binary64_successive.

(** [injected] is what the injection does. *)
Theorem C23_binary64_injects : forall pw lg (c : config (b64_arith pw lg)) f t k ps ps' i p, c_rand _ c = Reverse _ f ->
  ginject _ c t k ps = Ok ps' -> nth_error ps i = Some p ->
  (injected pw lg c t k (Z.of_nat i) -> exists p', nth_error ps' i = Some p' /\ galive _ p' = true) /\
  (~ injected pw lg c t k (Z.of_nat i) -> nth_error ps' i = Some p).
Proof. exact injects. Qed.
Print Assumptions C23_binary64_injects.

(** The bunch of parameters.xml.tmpl.in: 0.02 m long at 2 * 10^8 m/s, a step of 10^-13 s; 10000 particles. Particle 59 is injected
    in steps 5 and 6. *)
Definition twice_config : config D :=
  Config D ex_geom (GMedium D (fun _ _ => z64 1) (fun _ _ => z64 0)) (q64 1 10000000000000) BorisRelativistic [1%Z] (q64 2 100) (q64 2 100) (z64 200000000) 1 10000
    (fun _ => []) (Reverse D (fun _ => q64 1 2)).
Example C23_binary64_hypotheses_met :
  @is_finite prec64 emax64 (c_dt D twice_config) = true /\ bpow radix2 (-300) <= @B2R prec64 emax64 (c_dt D twice_config) <= 1 /\
  (forall i, (i < 7)%nat -> is_finite (time root_inv (fun x => x) twice_config i (z64 0)) = true /\
     0 <= B2R (time root_inv (fun x => x) twice_config i (z64 0)) <= bpow radix2 30 * @B2R prec64 emax64 (c_dt D twice_config)) /\
  (@is_finite prec64 emax64 (c_duration D twice_config) = true /\ 0 <= @B2R prec64 emax64 (c_duration D twice_config)) /\
  (@is_finite prec64 emax64 (c_hole D twice_config) = true /\ 0 <= @B2R prec64 emax64 (c_hole D twice_config)) /\
  (ceil_int D (div D (c_duration D twice_config) (c_dt D twice_config)) <> 0)%Z /\
  injected root_inv (fun x => x) twice_config (time root_inv (fun x => x) twice_config 5 (z64 0)) 0 59 /\
  injected root_inv (fun x => x) twice_config (time root_inv (fun x => x) twice_config 6 (z64 0)) 0 59.
Proof.
  value (c_dt D twice_config). value (c_duration D twice_config). value (c_hole D twice_config).
  assert (B : bp (-300) <= bp (-100)) by (apply bpow_le; lia). assert (B2 : bp (-100) = / 1267650600228229401496703205376) by (cbn; lra). assert (B3 : bp 30 = 1073741824) by reflexivity.
  cbn [num b64_arith] in *.
  split; [assumption|]. split; [rewrite V; lra|]. split.
  { value (time root_inv (fun x => x) twice_config 0 (z64 0)). value (time root_inv (fun x => x) twice_config 1 (z64 0)). value (time root_inv (fun x => x) twice_config 2 (z64 0)).
    value (time root_inv (fun x => x) twice_config 3 (z64 0)). value (time root_inv (fun x => x) twice_config 4 (z64 0)). value (time root_inv (fun x => x) twice_config 5 (z64 0)).
    value (time root_inv (fun x => x) twice_config 6 (z64 0)). intros i L. rewrite V, B3.
    do 7 (destruct i as [|i]; [split; [assumption|]; rewrite ?V2, ?V3, ?V4, ?V5, ?V6, ?V7, ?V8; lra|]). lia. }
  split; [split; [assumption|rewrite V0; lra]|]. split; [split; [assumption|rewrite V1; lra]|].
  split; [apply Z.eqb_neq; vm_compute; reflexivity|].
  split; (split; [vm_compute; reflexivity|]; split; [vm_compute; reflexivity|]; split; [|cbn; lia]);
    cbv zeta; (split; [apply Z.leb_le; vm_compute; reflexivity|apply Z.ltb_lt; vm_compute; reflexivity]).
Qed.
Example C23_binary64_injects_hypotheses_met : c_rand D ex_config = Reverse D (fun _ => q64 1 2) /\
  (exists ps', ginject D ex_config (z64 0) 0 [ex_waiting; ex_waiting] = Ok ps') /\ nth_error [ex_waiting; ex_waiting] 0 = Some ex_waiting /\
  injected root_inv (fun x => x) ex_config (z64 0) 0 (Z.of_nat 0) /\ ~ injected root_inv (fun x => x) ex_config (z64 0) 0 (Z.of_nat 1).
Proof.
  split; [reflexivity|]. split; [|split; [reflexivity|split]].
  - unfold ginject. cbv zeta. replace (ceil_int D (div D (c_duration D ex_config) (c_dt D ex_config)) =? 0)%Z with false by (vm_compute; reflexivity).
    destruct (_ && _); eexists; reflexivity.
  - split; [vm_compute; reflexivity|]. split; [vm_compute; reflexivity|]. split; [|cbn; lia]. cbv zeta. split; [apply Z.leb_le; vm_compute; reflexivity|apply Z.ltb_lt; vm_compute; reflexivity].
  - intros (_ & _ & (_ & H) & _). apply Z.ltb_lt in H. vm_compute in H. discriminate.
Qed.
