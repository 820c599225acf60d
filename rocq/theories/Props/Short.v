(** Property C78, the positive half: where the cell numbers agree with the borders, the currents of short moves are numbers and bounded
    (src/particles.cpp lines 333-685, 786-988). *)
From Coq Require Import Reals ZArith List Bool Lia Lra.
From Flocq Require Import Core IEEE754.BinarySingleNaN.
From Verif.Lib Require Import RAux Outcome.
From Verif.Model Require Import Binary64 Temperature64 CurrentDeposit Arith GenCode.
From Verif.Proof Require Import Binary64P FloatP LogEx64P PoisonP ShortAll64P ClearAxisP.
From Verif.Props Require Import Double Deposit64 Poison.
From Verif.Spec Require Import Poison Short Deposit64 Double.
Import ListNotations.
Local Open Scope R_scope.

(** C78. A move of at most 1/32 of a cell in each direction whose ends are in the cells that the program thinks they are in, over any borders or none, along an
    axis or oblique: every current handed to the grid is a number, and at most 8 times the charge divided by the step and the smallest face of a cell. *)
Theorem C78_short : forall pw lg g dt q rn zn ro zo, accurate_log lg -> fine pw lg g dt -> short_move pw lg g dt q rn zn ro zo ->
  well_placed pw lg g rn zn ro zo -> modest pw lg 8 g dt q (gcurrent_single (b64_arith pw lg) g dt q rn zn ro zo).
Proof. exact short_modest. Qed.
Print Assumptions C78_short.

(** C78. On a grid whose borders are consistent it holds for every short move; the condition concerns one double per border. *)
Theorem C78_clear_grid : forall pw lg g dt, let A := b64_arith pw lg in accurate_log lg -> fine pw lg g dt -> clear_axis pw lg (gn_r A g) (gdr A g) -> clear_axis pw lg (gn_z A g) (gdz A g) ->
  forall q rn zn ro zo, short_move pw lg g dt q rn zn ro zo -> modest pw lg 8 g dt q (gcurrent_single A g dt q rn zn ro zo).
Proof. intros pw lg g dt A HL HF CR CZ q rn zn ro zo HM. exact (short_modest pw lg g dt q rn zn ro zo HL HF HM (clear_well_placed pw lg g dt q rn zn ro zo HF CR CZ HM)). Qed.
Print Assumptions C78_clear_grid.

(** C78. Cells whose sizes are powers of two make such a grid, so there no short move gives NaN. *)
Theorem C78_power_of_two : forall pw lg g dt a b, let A := b64_arith pw lg in accurate_log lg -> fine pw lg g dt ->
  @B2R prec64 emax64 (gdr A g) = bpow radix2 a -> @B2R prec64 emax64 (gdz A g) = bpow radix2 b ->
  forall q rn zn ro zo, short_move pw lg g dt q rn zn ro zo -> modest pw lg 8 g dt q (gcurrent_single A g dt q rn zn ro zo).
Proof. intros pw lg g dt a b A HL HF EA EB. destruct (power_grid pw lg g dt a b HF EA EB) as (CR & CZ). exact (C78_clear_grid pw lg g dt HL HF CR CZ). Qed.
Print Assumptions C78_power_of_two.

(** The hypotheses can be met: cells of 1/4 m, a move over a corner of four cells. *)
Definition short_rn : b64 := q64 129 256. Definition short_ro : b64 := q64 127 256.
Definition short_zn : b64 := q64 385 512. Definition short_zo : b64 := q64 191 256.
Lemma dep_sizes : B2R (gdr L dep_geom : b64) = 1 / 4 /\ B2R (gdz L dep_geom : b64) = 1 / 4.
Proof.
  split.
  - value (b64_div (z64 1) (b64_of_Z (5 - 1))). change (gdr L dep_geom) with (b64_div (z64 1) (b64_of_Z (5 - 1))). rewrite V. lra.
  - value (b64_div (z64 2) (b64_of_Z (9 - 1))). change (gdz L dep_geom) with (b64_div (z64 2) (b64_of_Z (9 - 1))). rewrite V. lra.
Qed.
Example C78_short_hypotheses_met : accurate_log near_ln /\ fine (fun x => x) near_ln dep_geom dep_dt /\
  @B2R prec64 emax64 (gdr L dep_geom) = bpow radix2 (-2) /\ @B2R prec64 emax64 (gdz L dep_geom) = bpow radix2 (-2) /\
  short_move (fun x => x) near_ln dep_geom dep_dt (z64 1) short_rn short_zn short_ro short_zo.
Proof.
  destruct dep_sizes as (ER & EZ). destruct C73_hypotheses_met as (HL & HF & _). split; [exact HL|]. split; [exact HF|]. split; [rewrite ER; cbn; lra|]. split; [rewrite EZ; cbn; lra|].
  value dep_dt. value short_rn. value short_ro. value short_zn. value short_zo. value (z64 1). cbn [num b64_arith] in *.
  assert (VN : B2R short_rn = 129 / 256) by (rewrite V0; lra). assert (VO : B2R short_ro = 127 / 256) by (rewrite V1; lra). assert (WN : B2R short_zn = 385 / 512) by (rewrite V2; lra). assert (WO : B2R short_zo = 191 / 256) by (rewrite V3; lra).
  assert (VQ : B2R (z64 1) = 1) by (rewrite V4; lra). clear V0 V1 V2 V3 V4.
  assert (B30 : bpow radix2 (-30) = / 1073741824) by (cbn; lra).
  assert (P200 : bpow radix2 (-200) <= / 1099511627776) by (replace (/ 1099511627776) with (bpow radix2 (-40)) by (cbn; lra); apply bpow_le; lia).
  assert (Q200 : 1 <= bpow radix2 200) by (change 1 with (bpow radix2 0); apply bpow_le; lia).
  split; unfold radius_fits, z_fits; cbn [gn_r gn_z dep_geom]; cbn [num b64_arith]; nodes; rewrite ?ER, ?EZ, ?VN, ?VO, ?WN, ?WO, ?VQ, ?V, ?B30; try (split; [assumption|]); try lra.
  - rewrite Rabs_R1. lra.
  - rewrite Rabs_pos_eq; lra.
  - rewrite Rabs_pos_eq; lra.
Qed.

(** C78. The condition on the cells cannot be dropped: the move of [C78_finite_refuted] is short. *)
Theorem C78_placed_refuted : forall pw lg, domain_error lg -> forall q, is_finite q = true -> bpow radix2 (-200) <= Rabs (B2R q) <= bpow radix2 200 ->
  short_move pw lg (stock_geom pw lg) stock_dt q end_r (end_z pw lg) start_r (start_z pw lg) /\
  ~ modest pw lg 8 (stock_geom pw lg) stock_dt q (gcurrent_single (b64_arith pw lg) (stock_geom pw lg) stock_dt q end_r (end_z pw lg) start_r (start_z pw lg)).
Proof.
  intros pw lg HL q FQ BQ. destruct (C78_finite_refuted pw lg HL) as (_ & P1 & P2 & P3 & P4 & P5 & P6 & G). split.
  - value (gdr (b64_arith pw lg) (stock_geom pw lg)). value (gdz (b64_arith pw lg) (stock_geom pw lg)). value stock_dt. cbn [num b64_arith] in *.
    assert (P200 : bpow radix2 (-200) <= / 1125899906842624) by (replace (/ 1125899906842624) with (bpow radix2 (-50)) by (cbn; lra); apply bpow_le; lia).
    split; try assumption; try (split; assumption); cbn [num b64_arith]; rewrite ?V, ?V0, ?V1; lra.
  - intro M. destruct (G q) as (i & k & v & I & _ & _ & N). unfold modest in M. rewrite List.Forall_forall in M. destruct (M _ I) as (F & _). cbn [gj_r gj_inc gval] in F. destruct v; discriminate.
Qed.
Print Assumptions C78_placed_refuted.
