(** C73: the current deposition in double precision. *)
From Coq Require Import Reals ZArith List Bool Lia Lra.
From Flocq Require Import Core IEEE754.BinarySingleNaN.
From Verif.Lib Require Import RAux Outcome Grid.
From Verif.Model Require Import Binary64 Temperature64 CurrentDeposit Arith GenCode.
From Verif.Proof Require Import Binary64P FloatP LogEx64P Route64P.
From Verif.Spec Require Import Cloud Continuity Deposit64 Double.
From Verif.Props Require Import Double.
Import ListNotations.
Local Open Scope R_scope.

(** * C73: in double precision, too, the currents of a move carry exactly the charge that moved, up to rounding *)

(** All operations of current_distribution are those of IEEE 754 double precision; log() is within two units of 2^-53 of the
    logarithm, pow() is not used. For every move that keeps clear of grid lines, nodes and very short legs ([clean_move]):
    every value handed to the current array is finite, and at every node the charge share of the particle (Spec/Cloud.v, exact
    arithmetic) changes by minus the outflow of these values, up to 2^-41 (r / dr + z / dz + 4) of the charge. The sums over
    the values are exact here; what += adds in the array comes on top. *)
Theorem C73_current : forall pw lg m g dt q rn zn ro zo, accurate_log lg -> fine pw lg g dt -> clean_move pw lg m g dt q rn zn ro zo ->
  let l := gcurrent_single (b64_arith pw lg) g dt q rn zn ro zo in
  let d_r := @B2R prec64 emax64 (gdr (b64_arith pw lg) g) in let d_z := @B2R prec64 emax64 (gdz (b64_arith pw lg) g) in
  all_finite pw lg l /\
  continuity_upto (bpow radix2 (-41) * (B2R ro / d_r + B2R zo / d_z + 4) * Rabs (B2R q)) d_r d_z (B2R dt) (B2R q)
    (handed pw lg J_R l) (handed pw lg J_Z l) (B2R rn) (B2R zn) (B2R ro) (B2R zo).
Proof. intros pw lg m g dt q rn zn ro zo HL HF HM. destruct (current64 pw lg m g dt q rn zn ro zo HL HF HM) as (H1 & H2). split; [exact H2|exact H1]. Qed.
Print Assumptions C73_current.

(** The hypotheses can be met: a move over both borders of its cell, on a grid of 5 x 9 nodes; the logarithm rounded to the
    nearest double. *)
Notation L := (b64_arith (fun x => x) near_ln).
Definition dep_geom : ggeom L := GGeom L 5 9 (z64 1) (z64 2).
Definition dep_dt : b64 := q64 1 (2 ^ 40).
Definition dep_rn : b64 := q64 9 16. Definition dep_ro : b64 := q64 7 16.
Definition dep_zn : b64 := q64 27 32. Definition dep_zo : b64 := q64 23 32.
Lemma near_line : forall (n k : Z) (x : R), IZR k * (1 / 4) + / 32 <= x <= (IZR k + 1) * (1 / 4) - / 32 -> / 1024 <= Rabs (x - IZR n * (1 / 4)).
Proof.
  intros n k x H. destruct (Z_le_gt_dec n k) as [O|O].
  - apply IZR_le in O. rewrite Rabs_pos_eq; lra.
  - assert (K : IZR (k + 1) <= IZR n) by (apply IZR_le; lia). rewrite plus_IZR in K. rewrite Rabs_left; lra.
Qed.
Lemma one_line : forall (n k : Z) (x y : R), y = IZR n * (1 / 4) -> (IZR k - 1) * (1 / 4) < y < (IZR k + 1) * (1 / 4) -> x = IZR k * (1 / 4) -> y = x.
Proof.
  intros n k x y -> (H1 & H2) ->. assert (A : IZR k - 1 < IZR n < IZR k + 1) by lra. rewrite <- minus_IZR, <- plus_IZR in A. destruct A as (A1 & A2). apply lt_IZR in A1. apply lt_IZR in A2. replace n with k by lia. reflexivity.
Qed.
Example C73_hypotheses_met : accurate_log near_ln /\ fine (fun x => x) near_ln dep_geom dep_dt /\
  clean_move (fun x => x) near_ln (/ 1024) dep_geom dep_dt (z64 1) dep_rn dep_zn dep_ro dep_zo.
Proof.
  assert (ER : B2R (gdr L dep_geom : b64) = 1 / 4). { value (b64_div (z64 1) (b64_of_Z (5 - 1))). change (gdr L dep_geom) with (b64_div (z64 1) (b64_of_Z (5 - 1))). rewrite V. lra. }
  assert (EZ : B2R (gdz L dep_geom : b64) = 1 / 4). { value (b64_div (z64 2) (b64_of_Z (9 - 1))). change (gdz L dep_geom) with (b64_div (z64 2) (b64_of_Z (9 - 1))). rewrite V. lra. }
  value dep_dt. value dep_rn. value dep_ro. value dep_zn. value dep_zo. value (z64 1). cbn [num b64_arith] in *.
  assert (VN : B2R dep_rn = 9 / 16) by (rewrite V0; lra). assert (VO : B2R dep_ro = 7 / 16) by (rewrite V1; lra). assert (WN : B2R dep_zn = 27 / 32) by (rewrite V2; lra). assert (WO : B2R dep_zo = 23 / 32) by (rewrite V3; lra).
  assert (VQ : B2R (z64 1) = 1) by (rewrite V4; lra). clear V0 V1 V2 V3 V4.
  assert (B30 : bpow radix2 (-30) = / 1073741824) by (cbn; lra). assert (B10 : bpow radix2 10 = 1024) by reflexivity.
  assert (ENDS : forall t, leg_end (1 / 4) (1 / 4) (9 / 16) (27 / 32) (7 / 16) (23 / 32) t -> t = 0 \/ t = 1 \/ t = 1 / 2 \/ t = 1 / 4).
  { intros t [E|[E|(T & [(n & E)|(n & E)])]]; [now left|now right; left| |].
    - right; right; left. assert (K := one_line n 2 (2 * (1 / 4)) _ E ltac:(lra) eq_refl). lra.
    - right; right; right. assert (K := one_line n 3 (3 * (1 / 4)) _ E ltac:(lra) eq_refl). lra. }
  split; [exact near_ln_accurate|]. split.
  - split; cbn [gn_r gn_z gr_size gz_size dep_geom]; try lia; try (vm_compute; reflexivity); try (split; [assumption|]); cbn [num b64_arith]; rewrite ?ER, ?EZ, ?V, ?B30, ?B10; lra.
  - assert (P200 : bpow radix2 (-200) <= / 1099511627776) by (replace (/ 1099511627776) with (bpow radix2 (-40)) by (cbn; lra); apply bpow_le; lia).
    assert (Q200 : 1 <= bpow radix2 200) by (change 1 with (bpow radix2 0); apply bpow_le; lia).
    split; cbn [gn_r gn_z dep_geom]; cbn [num b64_arith]; try assumption; rewrite ?ER, ?EZ, ?VN, ?VO, ?WN, ?WO, ?VQ; try (nodes; lra).
    + split; [assumption|]. rewrite Rabs_R1. lra.
    + rewrite Rabs_pos_eq; lra.
    + rewrite Rabs_pos_eq; lra.
    + cbn. lra.
    + cbn. lra.
    + cbn. lra.
    + intro n. apply near_line with 2%Z. lra.
    + intro n. apply near_line with 1%Z. lra.
    + intro n. apply near_line with 3%Z. lra.
    + intro n. apply near_line with 2%Z. lra.
    + intros t t' E E' T. rewrite !Rabs_pos_eq by lra. destruct (ENDS t E) as [->|[->|[->| ->]]]; destruct (ENDS t' E') as [->|[->|[->| ->]]]; lra.
    + intros t T (n & E) (n' & E'). assert (K := one_line n 2 (2 * (1 / 4)) _ E ltac:(lra) eq_refl). assert (K' := one_line n' 3 (3 * (1 / 4)) _ E' ltac:(lra) eq_refl). lra.
Qed.
