(** Property C78: the currents of a move are numbers. It fails in double precision (src/particles.cpp lines 476-572). *)
From Coq Require Import Reals ZArith List Bool Lia Lra.
From Flocq Require Import Core IEEE754.BinarySingleNaN.
From Verif.Lib Require Import RAux Outcome Par.
From Verif.Model Require Sim.
From Verif.Model Require Import Binary64 Temperature64 Fields Pusher CurrentDeposit Arith GenCode GenRun GenSim.
From Verif.Proof Require Import Binary64P FloatP PoisonP.
From Verif.Props Require Import Double.
From Verif.Spec Require Import Poison Double.
Import ListNotations.
Local Open Scope R_scope.

Section Default.
Variables pw lg : b64 -> b64.
Hypothesis HL : domain_error lg.
Notation A := (b64_arith pw lg).

(** The grid and the step of parameters.xml.in (lines 14-17, 35). *)
Definition stock_geom : ggeom A := GGeom A 255 2047 (b64_lit 1 4) (b64_of_Z 2).
Definition stock_dt : b64 := b64_lit 1 10000000000000.
(** A particle on the axis side of the first row of cells, one double behind the border number 9, moves 10 nm forward and 10 nm inward. *)
Definition start_z : b64 := @Bsucc prec64 emax64 eq_refl eq_refl (mul A (of_int A 9) (gdz A stock_geom)).
Definition start_r : b64 := b64_lit 6 10000.
Definition end_z : b64 := b64_add start_z (b64_lit 1 100000000).
Definition end_r : b64 := b64_sub start_r (b64_lit 1 100000000).

Lemma stock_fine : fine pw lg stock_geom stock_dt.
Proof.
  value (gdr A stock_geom). value (gdz A stock_geom). value stock_dt. cbn [num b64_arith] in *.
  split; cbn [gn_r gn_z stock_geom]; try lia; try (vm_compute; reflexivity); try (split; [assumption|]); cbn [num b64_arith]; rewrite ?V, ?V0, ?V1; cbn; lra.
Qed.
Lemma stock_test : nan_test pw lg stock_geom end_r end_z start_r start_z 9 = true.
Proof. vm_cast_no_check (eq_refl true). Qed.
Lemma stock_places : radius_fits pw lg stock_geom start_r /\ radius_fits pw lg stock_geom end_r /\ z_fits pw lg stock_geom start_z /\ z_fits pw lg stock_geom end_z /\
  Rabs (B2R end_r - B2R start_r) <= 1001 / 1000 / 100000000 /\ Rabs (B2R end_z - B2R start_z) <= 1001 / 1000 / 100000000.
Proof.
  value (gdr A stock_geom). value (gdz A stock_geom). value start_r. value end_r. value start_z. value end_z. cbn [num b64_arith] in *. assert (B2 : bpow radix2 (-30) = / 1073741824) by (cbn; lra).
  unfold radius_fits, z_fits. cbn [gn_r gn_z stock_geom]. cbn [num b64_arith]. nodes. rewrite ?V, ?V0, ?V1, ?V2, ?V3, ?V4, ?B2. repeat split; try assumption; try lra; apply Rabs_le; lra.
Qed.
End Default.

(** C78 fails: on the stock grid with the stock step a particle inside the tube that moves with 10^5 m/s in both directions hands NaN to the
    radial current, whatever its charge and whatever pow() does. The particle starts one double behind a border: the quotient z / dz is rounded down to
    the border's number, so the program takes the cell before the border for the old cell, but the comparison of z with the border
    says that the particle moves backwards; the "border" it computes is then a whole cell away, at a negative radius. *)
Theorem C78_finite_refuted : forall pw lg, domain_error lg ->
  fine pw lg (stock_geom pw lg) stock_dt /\ radius_fits pw lg (stock_geom pw lg) start_r /\ radius_fits pw lg (stock_geom pw lg) end_r /\
  z_fits pw lg (stock_geom pw lg) (start_z pw lg) /\ z_fits pw lg (stock_geom pw lg) (end_z pw lg) /\
  Rabs (B2R end_r - B2R start_r) <= 1001 / 1000 / 100000000 /\ Rabs (B2R (end_z pw lg) - B2R (start_z pw lg)) <= 1001 / 1000 / 100000000 /\
  forall q, gives_nan pw lg (stock_geom pw lg) (gcurrent_single (b64_arith pw lg) (stock_geom pw lg) stock_dt q end_r (end_z pw lg) start_r (start_z pw lg)).
Proof.
  intros pw lg HL. split; [apply stock_fine|]. destruct (stock_places pw lg) as (P1 & P2 & P3 & P4 & P5 & P6). repeat (split; [assumption|]).
  intro q. apply border_nan with (k := 9%Z); [exact HL|apply stock_test].
Qed.
Print Assumptions C78_finite_refuted.

(** C78. Once a free element of the radial electric field is NaN, it is NaN at the end of every run: no step makes it a number again. *)
Theorem C78_stays : forall pw lg (c : config (b64_arith pw lg)) n t e s s', (2 <= gn_r _ (c_geom _ c))%Z ->
  poisoned pw lg (c_geom _ c) (gs_fields _ s) -> gsim_run _ c n t e s = Ok s' -> poisoned pw lg (c_geom _ c) (gs_fields _ s').
Proof. intros pw lg c n t e s s'. apply poison_stays. Qed.
Print Assumptions C78_stays.

(** C78. Every iteration in which a live particle makes a move that gives NaN ends with such a field. *)
Theorem C78_enters : forall pw lg (c : config (b64_arith pw lg)) t s s' gs b ps ps' p, let A := b64_arith pw lg in (2 <= gn_r A (c_geom A c))%Z -> giteration A c t s = Ok s' ->
  (forall s1, gbeam A c t s = Ok s1 ->
     Sim.traverse (gstep_v_group A c (greset_j A (c_geom A c) (gcalc_hfield A (c_geom A c) (c_dt A c) (gs_fields A s)))) (gs_groups A s1) = Ok gs) ->
  In (b, ps) gs -> Sim.traverse (ghalf_reflect A (c_geom A c) (c_dt A c) b) ps = Ok ps' -> In p ps' -> galive A p = true ->
  gives_nan pw lg (c_geom A c) (gcurrent_single A (c_geom A c) (c_dt A c) (gcharge A p) (g0 A (gpos A (gph A p))) (g2 A (gpos A (gph A p))) (gr_old A (gph A p)) (gz_old A (gph A p))) ->
  poisoned pw lg (c_geom A c) (gs_fields A s').
Proof. intros pw lg c t s s' gs b ps ps' p A. apply poison_enters. Qed.
Print Assumptions C78_enters.

(** A whole run: 5 x 7 nodes, no fields, one electron at a seventh of the speed of light. *)
Section Run.
Variable lg : b64 -> b64.
Hypothesis HL : domain_error lg.
Notation A := (b64_arith root_inv lg).
Definition run_geom : ggeom A := GGeom A 5 7 (b64_of_Z 1) (b64_lit 9 10).
Definition run_dt : b64 := b64_lit 1 (2 ^ 33).
Definition run_particle : gparticle A :=
  GParticle A true (b64_lit (-1) (2 ^ 20)) (b64_lit 1 (2 ^ 20))
    (GPhase A (GV A (b64_lit 1 5) (b64_of_Z 0) (@Bsucc prec64 emax64 eq_refl eq_refl (mul A (of_int A 3) (gdz A run_geom))))
      (GV A (b64_of_Z (-40000000)) (b64_of_Z 0) (b64_of_Z 10000000)) (b64_of_Z 0) (b64_of_Z 0) (b64_of_Z 0)).
Definition run_config : config A :=
  Config A run_geom (GMedium A (fun _ _ => b64_of_Z 1) (fun _ _ => b64_of_Z 0)) run_dt BorisRelativistic [1%Z] (b64_of_Z 0) (b64_of_Z 0) (b64_of_Z 0) 0 0
    (fun _ => []) (Reverse A (fun _ => b64_of_Z 0)).
Definition run_state : gsim A := GSim A (fun _ => b64_of_Z 0) (fun _ _ => b64_of_Z 0) [(false, [run_particle])] 0.
Definition run_ends : bool := match giteration A run_config (b64_of_Z 0) run_state with Ok _ => true | _ => false end.
Definition run_moved : bool :=
  match gbeam A run_config (b64_of_Z 0) run_state with
  | Ok s1 => match Sim.traverse (gstep_v_group A run_config (greset_j A run_geom (gcalc_hfield A run_geom run_dt (gs_fields A run_state)))) (gs_groups A s1) with
             | Ok [(b, [p])] => match ghalf_reflect A run_geom run_dt b p with
                  | Ok p => galive A p && nan_test root_inv lg run_geom (g0 A (gpos A (gph A p))) (g2 A (gpos A (gph A p))) (gr_old A (gph A p)) (gz_old A (gph A p)) 3
                  | _ => false end
             | _ => false end
  | _ => false end.
Lemma run_ends_true : run_ends = true. Proof. vm_cast_no_check (eq_refl true). Qed.
Lemma run_moved_true : run_moved = true. Proof. vm_cast_no_check (eq_refl true). Qed.

(** C78. The first iteration ends normally and leaves NaN in the electric field; so does every longer run that ends. *)
Theorem C78_run_refuted : fine root_inv lg run_geom run_dt /\ starts root_inv lg run_config run_state /\
  exists s', giteration A run_config (b64_of_Z 0) run_state = Ok s' /\ poisoned root_inv lg run_geom (gs_fields A s') /\
    forall n t e s'', gsim_run A run_config n t e s' = Ok s'' -> poisoned root_inv lg run_geom (gs_fields A s'').
Proof.
  split; [|split].
  - value (gdr A run_geom). value (gdz A run_geom). value run_dt. cbn [num b64_arith] in *.
    split; cbn [gn_r gn_z run_geom]; try lia; try (vm_compute; reflexivity); try (split; [assumption|]); cbn [num b64_arith]; rewrite ?V, ?V0, ?V1; cbn; lra.
  - split; [reflexivity|]. split; [constructor; [reflexivity|constructor]|]. constructor; [|constructor]. intros _. cbn [run_config c_geom run_particle gph gpos gvel g0 g1 g2 gcharge gmass].
    value (gdr A run_geom). value (gdz A run_geom). value (b64_lit 1 5). value (@Bsucc prec64 emax64 eq_refl eq_refl (mul A (of_int A 3) (gdz A run_geom))). value (b64_of_Z 0). value (b64_of_Z (-40000000)). value (b64_of_Z 10000000).
    assert (B : bpow radix2 31 = 2147483648) by reflexivity. assert (B2 : bpow radix2 (-30) = / 1073741824) by (cbn; lra). cbn [num b64_arith] in *.
    split; [split; [assumption|]; cbv zeta; cbn [num b64_arith gn_r run_geom]; nodes; rewrite V, V1, B2; lra|].
    split; [split; [assumption|]; cbv zeta; cbn [num b64_arith gn_z run_geom]; nodes; rewrite V0, V2, B2; lra|].
    split; [assumption|]. split; [assumption|].
    split; [split; [assumption|]; cbn [num b64_arith]; rewrite V4, B, Rabs_left; lra|].
    split; [split; [assumption|]; cbn [num b64_arith]; rewrite V3, B, Rabs_R0; lra|].
    split; [split; [assumption|]; cbn [num b64_arith]; rewrite V5, B, Rabs_pos_eq; lra|]. apply ex_sane.
  - assert (E := run_ends_true). unfold run_ends in E. destruct (giteration A run_config (b64_of_Z 0) run_state) as [s'| |] eqn:I; [|discriminate E|discriminate E]. clear E. exists s'. split; [reflexivity|].
    assert (P : poisoned root_inv lg (c_geom A run_config) (gs_fields A s')).
    { assert (M := run_moved_true). unfold run_moved in M. destruct (gbeam A run_config (b64_of_Z 0) run_state) as [s1| |] eqn:B; [|discriminate M|discriminate M].
      destruct (Sim.traverse _ (gs_groups A s1)) as [gs| |] eqn:T; [|discriminate M|discriminate M]. destruct gs as [|(b, [|p [|]]) [|]]; try discriminate M.
      destruct (ghalf_reflect A run_geom run_dt b p) as [p'| |] eqn:H; [|discriminate M|discriminate M]. apply andb_true_iff in M. destruct M as (AL & NT).
      apply (poison_enters root_inv lg run_config (b64_of_Z 0) run_state s' [(b, [p])] b [p] [p'] p'); [cbn; lia|exact I| |now left| |now left|exact AL|apply border_nan with (k := 3%Z); [exact HL|exact NT]].
      - intros s2 B2. rewrite B in B2. injection B2 as <-. exact T.
      - cbn [Sim.traverse]. change (c_geom A run_config) with run_geom. change (c_dt A run_config) with (run_dt : num A). rewrite H. reflexivity. }
    split; [exact P|]. intros n t e s'' R. apply (poison_stays root_inv lg run_config n t e s' s''); [cbn; lia|exact P|exact R].
Qed.
End Run.
Print Assumptions C78_run_refuted.

(** Libraries as asked for exist. *)
Example C78_hypotheses_met : domain_error (fun x => if Bltb x (b64_of_Z 0) then B754_nan else x).
Proof. intros x F N. replace (Bltb x (b64_of_Z 0)) with true; [reflexivity|]. symmetry. apply ltb_ok; [exact F|reflexivity|]. rewrite (proj2 (of_Z_exact 0 eq_refl)). exact N. Qed.
