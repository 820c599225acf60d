(** C75: the charge deposition in double precision. *)
From Coq Require Import Reals ZArith List Bool Lia Lra.
From Flocq Require Import Core IEEE754.BinarySingleNaN.
From Verif.Lib Require Import RAux Grid Outcome.
From Verif.Model Require Import Binary64 Temperature64 CurrentDeposit Arith GenCode GenSim.
From Verif.Spec Require Import Cloud Continuity Deposit64 Charge64.
From Verif.Proof Require Import Binary64P FloatP LogEx64P Axis64P Err64P Charge64P Species64P.
From Verif.Props Require Import Double Deposit64.
From Verif.Spec Require Import Double.
Import ListNotations.
Local Open Scope R_scope.

(** * C75: in double precision, too, every node receives its share of a particle's charge, up to rounding *)

(** All operations of charge_weighting are those of IEEE 754 double precision. For every particle on the grid, at half a cell or
    more from the axis, on or off the grid lines: every value handed to the density is finite, and the charge it puts into
    a node (density times volume of the ring of the node) is the charge times the share of the cloud (Spec/Cloud.v, exact arithmetic), up to
    2^-46 (r / dr + z / dz + 4) of the charge. *)
Theorem C75_node : forall pw lg g dt q r z, fine pw lg g dt -> placed pw lg g q r z ->
  let d_r := @B2R prec64 emax64 (gdr (b64_arith pw lg) g) in let d_z := @B2R prec64 emax64 (gdz (b64_arith pw lg) g) in
  let l := gcharge_weighting_single (b64_arith pw lg) g q r z in
  d_r / 2 <= B2R r ->
  finite_values pw lg l /\
  forall i k, Rabs (counted pw lg l i k * node_volume d_r d_z i - B2R q * share d_r d_z i k (B2R r) (B2R z))
    <= bpow radix2 (-46) * (B2R r / d_r + B2R z / d_z + 4) * Rabs (B2R q).
Proof.
  intros pw lg g dt q r z HF HP d_r d_z l HR. split; [exact (values_finite pw lg g dt q r z HF HP)|]. intros i k.
  apply Rle_trans with (1 := node_share pw lg g dt q r z HF HP HR i k). right. replace (bpow radix2 (-46)) with (128 * u) by (rewrite u_val; cbn; lra). reflexivity.
Qed.
Print Assumptions C75_node.

(** Whatever the distance from the axis, the charges of all nodes add up to the charge of the particle, up to
    2^-44 (r / dr + z / dz + 4) of it. *)
Theorem C75_total : forall pw lg g dt q r z, fine pw lg g dt -> placed pw lg g q r z ->
  let d_r := @B2R prec64 emax64 (gdr (b64_arith pw lg) g) in let d_z := @B2R prec64 emax64 (gdz (b64_arith pw lg) g) in
  let l := gcharge_weighting_single (b64_arith pw lg) g q r z in
  finite_values pw lg l /\
  Rabs (grid_charge (gn_r (b64_arith pw lg) g) (gn_z (b64_arith pw lg) g) d_r d_z (counted pw lg l) - B2R q)
    <= bpow radix2 (-44) * (B2R r / d_r + B2R z / d_z + 4) * Rabs (B2R q).
Proof.
  intros pw lg g dt q r z HF HP d_r d_z l. split; [exact (values_finite pw lg g dt q r z HF HP)|].
  apply Rle_trans with (1 := charge_total pw lg g dt q r z HF HP). right. replace (bpow radix2 (-44)) with (512 * u) by (rewrite u_val; cbn; lra). reflexivity.
Qed.
Print Assumptions C75_total.

(** The program's own densities before and after a move and its own currents during the move fit together: what a node gains
    by the one is what flows into it by the other, up to rounding. *)
Theorem C75_continuity : forall pw lg m g dt q rn zn ro zo, accurate_log lg -> fine pw lg g dt -> clean_move pw lg m g dt q rn zn ro zo ->
  let A := b64_arith pw lg in let d_r := @B2R prec64 emax64 (gdr A g) in let d_z := @B2R prec64 emax64 (gdz A g) in
  d_r / 2 <= B2R ro -> d_r / 2 <= B2R rn ->
  let before := counted pw lg (gcharge_weighting_single A g q ro zo) in let after := counted pw lg (gcharge_weighting_single A g q rn zn) in
  let l := gcurrent_single A g dt q rn zn ro zo in
  forall i k, Rabs ((after i k - before i k) * node_volume d_r d_z i + outflow d_r d_z (B2R dt) (handed pw lg J_R l) (handed pw lg J_Z l) i k)
    <= bpow radix2 (-40) * (B2R ro / d_r + B2R zo / d_z + 4) * Rabs (B2R q).
Proof.
  intros pw lg m g dt q rn zn ro zo HL HF HM A d_r d_z HO HN before after l i k.
  assert (PR : 0 < d_r) by exact (DRp pw lg g dt HF). assert (PZ : 0 < d_z) by exact (DZp pw lg g dt HF).
  assert (PO : placed pw lg g q ro zo).
  { constructor; [exact (cm_ro _ _ _ _ _ _ _ _ _ _ HM)|exact (cm_zo _ _ _ _ _ _ _ _ _ _ HM)|exact (cm_q _ _ _ _ _ _ _ _ _ _ HM)|split; [lra|exact (proj2 (cm_ro_in _ _ _ _ _ _ _ _ _ _ HM))]|split; [exact (Rlt_le _ _ (proj1 (cm_zo_in _ _ _ _ _ _ _ _ _ _ HM)))|exact (proj2 (cm_zo_in _ _ _ _ _ _ _ _ _ _ HM))]]. }
  assert (PN : placed pw lg g q rn zn).
  { constructor; [exact (cm_rn _ _ _ _ _ _ _ _ _ _ HM)|exact (cm_zn _ _ _ _ _ _ _ _ _ _ HM)|exact (cm_q _ _ _ _ _ _ _ _ _ _ HM)|split; [lra|exact (proj2 (cm_rn_in _ _ _ _ _ _ _ _ _ _ HM))]|split; [exact (Rlt_le _ _ (proj1 (cm_zn_in _ _ _ _ _ _ _ _ _ _ HM)))|exact (proj2 (cm_zn_in _ _ _ _ _ _ _ _ _ _ HM))]]. }
  destruct (C75_node pw lg g dt q ro zo HF PO HO) as (_ & EO). destruct (C75_node pw lg g dt q rn zn HF PN HN) as (_ & EN). specialize (EO i k). specialize (EN i k). 
  change (Rabs (before i k * node_volume d_r d_z i - B2R q * share d_r d_z i k (B2R ro) (B2R zo)) <= bpow radix2 (-46) * (B2R ro / d_r + B2R zo / d_z + 4) * Rabs (B2R q)) in EO.
  change (Rabs (after i k * node_volume d_r d_z i - B2R q * share d_r d_z i k (B2R rn) (B2R zn)) <= bpow radix2 (-46) * (B2R rn / d_r + B2R zn / d_z + 4) * Rabs (B2R q)) in EN.
  destruct (C73_current pw lg m g dt q rn zn ro zo HL HF HM) as (_ & EC). specialize (EC i k). fold A in EC. fold d_r d_z in EC. fold l in EC.
  set (o := outflow _ _ _ _ _ i k) in *. set (V := node_volume d_r d_z i) in *. set (so := share d_r d_z i k (B2R ro) (B2R zo)) in *. set (sn := share d_r d_z i k (B2R rn) (B2R zn)) in *.
  assert (XR := cm_r _ _ _ _ _ _ _ _ _ _ HM). assert (XZ := cm_z _ _ _ _ _ _ _ _ _ _ HM). cbn [num b64_arith] in XR, XZ. fold d_r in XR. fold d_z in XZ.
  assert (ST : forall a b d, 0 < d -> 0 <= b -> Rabs (a - b) <= 9 / 10 * d -> a / d <= b / d + 1 /\ 0 <= b / d).
  { intros a b d Hd Hb H. apply Rabs_le_inv in H. split; apply Rmult_le_reg_r with d; try exact Hd; unfold Rdiv; rewrite ?Rmult_plus_distr_r, ?Rmult_assoc, ?Rinv_l by lra; lra. }
  destruct (ST (B2R rn) (B2R ro) d_r PR ltac:(lra) XR) as (R1 & R0). destruct (ST (B2R zn) (B2R zo) d_z PZ ltac:(destruct (cm_zo_in _ _ _ _ _ _ _ _ _ _ HM); lra) XZ) as (Z1 & Z0).
  set (xo := B2R ro / d_r) in *. set (xn := B2R rn / d_r) in *. set (yo := B2R zo / d_z) in *. set (yn := B2R zn / d_z) in *. assert (QP := Rabs_pos (B2R q)). set (aq := Rabs (B2R q)) in *.
  replace ((after i k - before i k) * V + o) with ((after i k * V - B2R q * sn) - (before i k * V - B2R q * so) + (B2R q * sn - B2R q * so + o)) by ring.
  apply Rle_trans with (1 := Rabs_triang _ _). assert (TR : forall a b, Rabs (a - b) <= Rabs a + Rabs b) by (intros a b; unfold Rminus; apply Rle_trans with (1 := Rabs_triang _ _); rewrite Rabs_Ropp; lra).
  assert (T1 := TR (after i k * V - B2R q * sn) (before i k * V - B2R q * so)).
  change (bpow radix2 (-46)) with (/ 70368744177664) in *. change (bpow radix2 (-41)) with (/ 2199023255552) in *. change (bpow radix2 (-40)) with (/ 1099511627776).
  assert (EN' : / 70368744177664 * (xn + yn + 4) * aq <= / 70368744177664 * (2 * (xo + yo + 4)) * aq) by (apply Rmult_le_compat_r; [exact QP|]; lra).
  set (t := (xo + yo + 4) * aq). assert (t0 : 0 <= t) by (apply Rmult_le_pos; lra).
  replace (/ 70368744177664 * (2 * (xo + yo + 4)) * aq) with (/ 70368744177664 * (2 * t)) in EN' by (unfold t; ring).
  replace (/ 70368744177664 * (xo + yo + 4) * aq) with (/ 70368744177664 * t) in EO by (unfold t; ring).
  replace (/ 2199023255552 * (xo + yo + 4) * aq) with (/ 2199023255552 * t) in EC by (unfold t; ring).
  replace (/ 1099511627776 * (xo + yo + 4) * aq) with (/ 1099511627776 * t) by (unfold t; ring). lra.
Qed.
Print Assumptions C75_continuity.

(** The density array at the end of an iteration, with the additions inc_rho makes in double precision: reset_charge, then every
    living particle of all bunches, whatever the array held before. Every element is finite and holds the charge that the clouds
    have in its ring, up to 2^-46 (r / dr + z / dz + 4) + 2^-48 n of the absolute value of each of the n charges. *)
Theorem C75_species : forall pw lg g dt bunches old, fine pw lg g dt -> all_placed pw lg g (concat bunches) ->
  let A := b64_arith pw lg in let d_r := @B2R prec64 emax64 (gdr A g) in let d_z := @B2R prec64 emax64 (gdz A g) in
  exists rho, ofold (fun ps rho => ofold (gcharge_one A g) ps rho) bunches (greset_rho A g old) = Ok rho /\
  forall i k, (0 <= i < gn_r A g)%Z -> (0 <= k < gn_z A g)%Z ->
    @is_finite prec64 emax64 (rho i k) = true /\
    Rabs (@B2R prec64 emax64 (rho i k) * node_volume d_r d_z i - charge_in pw lg g (concat bunches) i k) <= allowed pw lg g (length (concat bunches)) (concat bunches).
Proof. intros pw lg g dt bunches old HF HP. exact (bunches_density pw lg g dt HF bunches old HP). Qed.
Print Assumptions C75_species.

(** The hypotheses can be met: particles of C73's sample grid in the three regions of the code, and the move of C73, both ends of
    which are half a cell or more from the axis. *)
Definition at_r3 : b64 := q64 9 16. Definition at_r2 : b64 := q64 3 16. Definition at_r1 : b64 := q64 1 16.
Example C75_hypotheses_met : fine (fun x => x) near_ln dep_geom dep_dt /\
  placed (fun x => x) near_ln dep_geom (z64 1) at_r3 dep_zo /\ placed (fun x => x) near_ln dep_geom (z64 1) at_r2 dep_zo /\ placed (fun x => x) near_ln dep_geom (z64 1) at_r1 dep_zo /\
  @B2R prec64 emax64 (gdr L dep_geom) / 2 <= B2R at_r2 /\ @B2R prec64 emax64 (gdr L dep_geom) / 2 <= B2R dep_ro /\ @B2R prec64 emax64 (gdr L dep_geom) / 2 <= B2R dep_rn.
Proof.
  split; [apply C73_hypotheses_met|].
  assert (ER : B2R (gdr L dep_geom : b64) = 1 / 4). { value (b64_div (z64 1) (b64_of_Z (5 - 1))). change (gdr L dep_geom) with (b64_div (z64 1) (b64_of_Z (5 - 1))). rewrite V. lra. }
  assert (EZ : B2R (gdz L dep_geom : b64) = 1 / 4). { value (b64_div (z64 2) (b64_of_Z (9 - 1))). change (gdz L dep_geom) with (b64_div (z64 2) (b64_of_Z (9 - 1))). rewrite V. lra. }
  value at_r3. value at_r2. value at_r1. value dep_zo. value dep_ro. value dep_rn. value (z64 1). cbn [num b64_arith] in *.
  assert (B : bpow radix2 (-200) <= 1 <= bpow radix2 200) by (change 1 with (bpow radix2 0); split; apply bpow_le; lia).
  assert (PL : forall r : b64, is_finite r = true -> 0 <= B2R r <= 1 -> placed (fun x => x) near_ln dep_geom (z64 1) r dep_zo).
  { intros r Fr Hr. split; cbn [gn_r gn_z dep_geom]; cbn [num b64_arith]; try assumption; rewrite ?ER, ?EZ; nodes; try lra. split; [assumption|]. rewrite V5, Rabs_pos_eq; lra. }
  split; [apply PL; [assumption|lra]|]. split; [apply PL; [assumption|lra]|]. split; [apply PL; [assumption|lra]|]. rewrite ER. lra.
Qed.

(** Two bunches with three particles, one of them dead, with charges of both signs; and for them [charge_in] is not zero. *)
Definition made (alive : bool) (q r z : b64) : gparticle L :=
  GParticle L alive q (z64 1) (GPhase L (GV L r (z64 0) z) (GV L (z64 0) (z64 0) (z64 0)) (z64 0) (z64 0) (z64 0)).
Definition two_bunches : list (list (gparticle L)) := [[made true (z64 1) at_r3 dep_zo; made false (z64 1) (z64 50) dep_zo]; [made true (z64 (-1)) at_r2 dep_zo]].
Example C75_species_hypotheses_met : fine (fun x => x) near_ln dep_geom dep_dt /\ all_placed (fun x => x) near_ln dep_geom (concat two_bunches) /\
  exists i k, (0 <= i < 5)%Z /\ (0 <= k < 9)%Z /\ charge_in (fun x => x) near_ln dep_geom (concat two_bunches) i k <> 0.
Proof.
  destruct C75_hypotheses_met as (H1 & H2 & H3 & H4 & H5 & _). split; [exact H1|].
  assert (ER : B2R (gdr L dep_geom : b64) = 1 / 4). { value (b64_div (z64 1) (b64_of_Z (5 - 1))). change (gdr L dep_geom) with (b64_div (z64 1) (b64_of_Z (5 - 1))). rewrite V. lra. }
  assert (EZ : B2R (gdz L dep_geom : b64) = 1 / 4). { value (b64_div (z64 2) (b64_of_Z (9 - 1))). change (gdz L dep_geom) with (b64_div (z64 2) (b64_of_Z (9 - 1))). rewrite V. lra. }
  value at_r3. value at_r2. value dep_zo. value (z64 1). value (z64 (-1)). cbn [num b64_arith] in *. split.
  - split; [cbn; lia|]. apply Forall_cons; [|apply Forall_cons; [|apply Forall_cons; [|apply Forall_nil]]]; cbn [made galive]; intro E; try discriminate E; cbn [made gcharge gph gpos g0 g2].
    + split; [exact H2|]. cbn [num b64_arith]. lra.
    + split; [|exact H5]. destruct H3 as [A1 A2 A3 A4 A5]. split; try assumption. destruct A3 as (_ & A3). split; [assumption|]. rewrite V2 in A3. rewrite V3. rewrite Rabs_left by lra. rewrite Rabs_pos_eq in A3 by lra. replace (- (-4503599627370496 * / 4503599627370496)) with (4503599627370496 * / 4503599627370496) by field. exact A3.
  - exists 3%Z, 3%Z. split; [lia|]. split; [lia|]. unfold charge_in, sum_living. cbn [two_bunches concat app fold_right made galive gcharge gph gpos g0 g2]. cbn [num b64_arith]. rewrite ER, EZ, V, V0, V1, V2, V3.
    assert (MX : forall a b, b <= a -> Rmax a b = a) by exact Rmax_left. assert (MY : forall a b, a <= b -> Rmax a b = b) by exact Rmax_right. assert (MN : forall a b, a <= b -> Rmin a b = a) by exact Rmin_left. assert (MM : forall a b, b <= a -> Rmin a b = b) by exact Rmin_right.
    unfold share, share_r, share_z, overlap, node_inner, node_outer. cbn [Z.leb Z.ltb Z.compare Pos.compare Pos.compare_cont].
    repeat match goal with |- context [Rmin ?a ?b] => first [rewrite (MN a b) by lra|rewrite (MM a b) by lra] | |- context [Rmax ?a ?b] => first [rewrite (MX a b) by lra|rewrite (MY a b) by lra] end. lra.
Qed.

(** C02 says that all changes have the sign of the charge. In double precision that is false: on a grid of 7 rows over one
    metre, a positive charge that sits exactly half a metre from the axis, on node row 3, makes the density of row 2 negative.
    The quotient 0.5 / dr is rounded down to 3, so the particle counts for the cell below the row although 3 dr, in exact
    arithmetic, lies a little lower than the particle. *)
Definition seven_geom : ggeom L := GGeom L 7 9 (z64 1) (z64 2).
Theorem C75_sign_refuted : exists (g : ggeom L) (dt q r z : b64), fine (fun x => x) near_ln g dt /\ placed (fun x => x) near_ln g q r z /\
  @B2R prec64 emax64 (gdr L g) / 2 <= B2R r /\ 0 < B2R q /\ exists i k, counted (fun x => x) near_ln (gcharge_weighting_single L g q r z) i k < 0.
Proof.
  exists seven_geom, dep_dt, (z64 1), (q64 1 2), dep_zo.
  value (b64_div (z64 1) (b64_of_Z (7 - 1))). change (b64_div (z64 1) (b64_of_Z (7 - 1))) with (gdr L seven_geom) in F, V.
  assert (EZ : B2R (gdz L seven_geom : b64) = 1 / 4). { value (b64_div (z64 2) (b64_of_Z (9 - 1))). change (gdz L seven_geom) with (b64_div (z64 2) (b64_of_Z (9 - 1))). rewrite V0. lra. }
  value dep_dt. value (q64 1 2). value dep_zo. value (z64 1). cbn [num b64_arith] in *.
  assert (B30 : bpow radix2 (-30) = / 1073741824) by (cbn; lra). assert (B10 : bpow radix2 10 = 1024) by reflexivity.
  assert (B : bpow radix2 (-200) <= 1 <= bpow radix2 200) by (change 1 with (bpow radix2 0); split; apply bpow_le; lia).
  assert (HF : fine (fun x => x) near_ln seven_geom dep_dt).
  { split; cbn [gn_r gn_z gr_size gz_size seven_geom]; try lia; try (vm_compute; reflexivity); try (split; [assumption|]); cbn [num b64_arith]; rewrite ?V, ?EZ, ?B30, ?B10; lra. }
  assert (HP : placed (fun x => x) near_ln seven_geom (z64 1) (q64 1 2) dep_zo).
  { split; cbn [gn_r gn_z seven_geom]; cbn [num b64_arith]; try assumption; rewrite ?V, ?EZ; nodes; try lra. split; [assumption|]. rewrite V3, Rabs_pos_eq; lra. }
  split; [exact HF|]. split; [exact HP|]. split; [|split].
  - lra.
  - lra.
  - exists 2%Z, 2%Z.
    assert (CC : gcell L (q64 1 2) (gdr L seven_geom) = 2%Z) by (vm_compute; reflexivity). assert (CK : gcell L dep_zo (gdz L seven_geom) = 2%Z) by (vm_compute; reflexivity).
    destruct (four_values _ _ _ _ _ _ _ HF HP) as (v00 & v10 & v01 & v11 & h0 & h1 & E & (F00 & _) & _). rewrite CC, CK in E.
    assert (N : Bltb (gval L (nth 0 (gcharge_weighting_single L seven_geom (z64 1) (q64 1 2) dep_zo) (GInc L 0 0 (z64 0))) : b64) (z64 0) = true) by (vm_cast_no_check (eq_refl true)).
    rewrite E in N |- *. cbn [nth gval] in N. value (z64 0). apply ltb_ok in N; [|exact F00|assumption]. rewrite counted_at. cbn [map grow gcol gval]. unfold inc_at. cbn. lra.
Qed.
Print Assumptions C75_sign_refuted.
