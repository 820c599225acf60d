(** Sizes of what one particle reads from and writes to the corners of its cell, in binary64: each of the ring volumes is at
    most a few hundred times the volume of the node. *)
From Coq Require Import ZArith Reals Lra Lia Psatz Bool List.
From Flocq Require Import Core IEEE754.BinarySingleNaN.
From Verif.Lib Require Import RAux Outcome.
From Verif.Model Require Import Constants Binary64 Temperature64 Arith Geometry Fields Pusher GenCode GenRun.
From Verif.Spec Require Import Double.
From Verif.Proof Require Import Binary64P FloatP Axis64P Motion64R Motion64P Cells64P Push64P Err64P Ana64P Log64P Leg64P.
Import ListNotations.
Local Open Scope R_scope.

(** ** At most B *)
Definition lim (x : b64) (B : R) : Prop := fin x /\ Rabs (B2R x) <= B.
Lemma lim_weaken : forall x B C, lim x B -> B <= C -> lim x C.
Proof. intros x B C (F & H) L. split; [exact F|lra]. Qed.
Lemma rnd_size : forall w B, bp (-900) <= B -> Rabs w <= B -> Rabs (rnd w) <= 5 / 4 * B.
Proof.
  intros w B L H. assert (E := rnd_err w). assert (T := tiny_scale B L). assert (P := bpow_gt_0 radix2 (-900)). rewrite u_val in *.
  assert (TI := Rabs_triang_inv (rnd w) w). lra.
Qed.
Lemma big_fits : forall w B, Rabs w <= B -> B <= bp 1000 -> Rabs w <= bp 1023.
Proof. intros w B H L. apply Rle_trans with (bp 1000); [lra|apply bpow_le; lia]. Qed.
Lemma lim_mul : forall x y B C, lim x B -> lim y C -> rg (B * C) (-900) 1000 -> lim (b64_mul x y) (5 / 4 * (B * C)).
Proof.
  intros x y B C (FX & HX) (FY & HY) (L & U).
  assert (H : Rabs (B2R x * B2R y) <= B * C) by (rewrite Rabs_mult; apply Rmult_le_compat; auto using Rabs_pos).
  destruct (mul_ok x y FX FY (big_fits _ _ H U)) as (F & E). split; [exact F|]. rewrite E. now apply rnd_size.
Qed.
Lemma lim_div : forall x y B C, lim x B -> 0 < C <= B2R y -> rg (B / C) (-900) 1000 -> lim (b64_div x y) (5 / 4 * (B / C)).
Proof.
  intros x y B C (FX & HX) (C0 & HY) (L & U).
  assert (H : Rabs (B2R x / B2R y) <= B / C).
  { unfold Rdiv. rewrite Rabs_mult, Rabs_inv, (Rabs_pos_eq (B2R y)) by lra. apply Rmult_le_compat; auto using Rabs_pos; [left; apply Rinv_0_lt_compat; lra|apply Rinv_le_contravar; lra]. }
  destruct (div_ok x y FX ltac:(lra) (big_fits _ _ H U)) as (F & E). split; [exact F|]. rewrite E. now apply rnd_size.
Qed.
Lemma lim_add : forall x y B C, lim x B -> lim y C -> rg (B + C) (-900) 1000 -> lim (b64_add x y) (5 / 4 * (B + C)).
Proof.
  intros x y B C (FX & HX) (FY & HY) (L & U).
  assert (H : Rabs (B2R x + B2R y) <= B + C) by (apply Rle_trans with (1 := Rabs_triang _ _); lra).
  destruct (add_ok x y FX FY (big_fits _ _ H U)) as (F & E). split; [exact F|]. rewrite E. now apply rnd_size.
Qed.

(** ** Points of one axis, up to a few roundings *)
Section Points.
Variables (n : Z) (size d : b64).
Hypothesis AX : axis n size d.
Variables pw lg : b64 -> b64.
Notation cell64 := (gcell (b64_arith pw lg)).
Notation len := (len d). Notation q := (q d).
Definition pt (x : b64) (X e : R) : Prop := fin x /\ Rabs (B2R x - X) <= e * q.
Lemma pt_exact : forall x, fin x -> pt x (B2R x) 0.
Proof. intros x F. split; [exact F|]. replace (B2R x - B2R x) with 0 by ring. rewrite Rabs_R0. lra. Qed.
Lemma pt_near : forall x X e f, pt x X e -> Rabs X <= 4194300 * len -> 0 <= e -> e <= 100 -> 0 <= f -> f = e + 1 -> Rabs (B2R x) <= 4194304 * len.
Proof.
  intros x X e f (F & H) B E1 E2 _ _. assert (QB := q_bounds _ _ _ AX). assert (e * q <= 100 * q) by (apply Rmult_le_compat_r; lra).
  apply Rabs_le_inv in H, B. assert (L := len_pos _ _ _ AX). apply Rabs_le. lra.
Qed.
Lemma pt_sum : forall s x y X Y e f, (s = 1 \/ s = -1) -> pt x X e -> pt y Y f -> Rabs (X + s * Y) <= 4194300 * len -> 0 <= e -> 0 <= f -> e + f <= 100 ->
  Rabs (B2R x + s * B2R y) <= 4194304 * len /\ Rabs (rnd (B2R x + s * B2R y) - (X + s * Y)) <= (e + f + 1) * q.
Proof.
  intros s x y X Y e f S (FX & HX) (FY & HY) B E1 E2 E3. assert (QB := q_bounds _ _ _ AX). assert (L := len_pos _ _ _ AX).
  assert ((e + f) * q <= 100 * q) by (apply Rmult_le_compat_r; lra). apply Rabs_le_inv in HX, HY, B.
  assert (D : Rabs (B2R x + s * B2R y - (X + s * Y)) <= (e + f) * q) by (apply Rabs_le; destruct S; subst s; lra).
  assert (K : Rabs (B2R x + s * B2R y) <= 4194304 * len) by (apply Rabs_le_inv in D; apply Rabs_le; lra).
  split; [exact K|]. assert (R := rnd_q _ _ _ AX _ K). apply Rabs_le_inv in D, R. apply Rabs_le. lra.
Qed.
Lemma pt_add : forall x y X Y e f, pt x X e -> pt y Y f -> Rabs (X + Y) <= 4194300 * len -> 0 <= e -> 0 <= f -> e + f <= 100 -> pt (b64_add x y) (X + Y) (e + f + 1).
Proof.
  intros x y X Y e f PX PY B E1 E2 E3. destruct (pt_sum 1 x y X Y e f (or_introl eq_refl) PX PY) as (K & R); try assumption; [now rewrite Rmult_1_l|]. rewrite !Rmult_1_l in *.
  destruct (add_ok x y (proj1 PX) (proj1 PY)) as (F & E); [now apply (small_fits _ _ _ AX)|]. split; [exact F|]. now rewrite E.
Qed.
Lemma pt_sub : forall x y X Y e f, pt x X e -> pt y Y f -> Rabs (X - Y) <= 4194300 * len -> 0 <= e -> 0 <= f -> e + f <= 100 -> pt (b64_sub x y) (X - Y) (e + f + 1).
Proof.
  intros x y X Y e f PX PY B E1 E2 E3. destruct (pt_sum (-1) x y X Y e f (or_intror eq_refl) PX PY) as (K & R); try assumption; [now replace (X + -1 * Y) with (X - Y) by ring|].
  replace (X + -1 * Y) with (X - Y) in R by ring. replace (B2R x + -1 * B2R y) with (B2R x - B2R y) in * by ring.
  destruct (sub_ok x y (proj1 PX) (proj1 PY)) as (F & E); [now apply (small_fits _ _ _ AX)|]. split; [exact F|]. now rewrite E.
Qed.
Lemma pt_half : pt (b64_mul (b64_lit 1 2) d) (len / 2) 1.
Proof. destruct (half_len _ _ _ AX) as (F & E). split; [exact F|]. now rewrite Rmult_1_l. Qed.
Lemma pt_times : forall (y : b64) Y, fin y -> Rabs (B2R y - Y) <= / 1073741824 -> Rabs Y <= 4194300 -> pt (b64_mul y d) (Y * len) 2.
Proof.
  intros y Y F H B. assert (L := len_pos _ _ _ AX). assert (Q := q_eq d).
  assert (D : Rabs (B2R y * len - Y * len) <= q) by (replace (B2R y * len - Y * len) with ((B2R y - Y) * len) by ring; rewrite Rabs_mult, (Rabs_pos_eq len) by lra; rewrite Q; apply Rle_trans with (/ 1073741824 * len); [apply Rmult_le_compat_r; lra|lra]).
  assert (K : Rabs (Y * len) <= 4194300 * len) by (rewrite Rabs_mult, (Rabs_pos_eq len) by lra; apply Rmult_le_compat_r; lra).
  assert (QB := q_bounds _ _ _ AX). apply Rabs_le_inv in D, K.
  destruct (mul_q _ _ _ AX y d F (fin_d _ _ _ AX)) as (F2 & E2); [fold len; apply Rabs_le; lra|]. split; [exact F2|]. fold len in E2. apply Rabs_le_inv in E2. apply Rabs_le. lra.
Qed.
Lemma pt_node : forall k, (0 <= k <= 2 ^ 21)%Z -> pt (b64_mul (b64_of_Z k) d) (IZR k * len) 2.
Proof.
  intros k H. destruct (of_Z_exact k) as (F & E); [lia|]. apply pt_times; [exact F|rewrite E; replace (IZR k - IZR k) with 0 by ring; rewrite Rabs_R0; lra|].
  rewrite Rabs_pos_eq by (apply IZR_le; lia). apply IZR_le. cbn in H. lia.
Qed.
Lemma pt_shift : forall k (h : b64) H, (0 <= k <= 2 ^ 21)%Z -> fin h -> B2R h = H -> 0 <= H <= 2 -> pt (b64_mul (b64_add (b64_of_Z k) h) d) ((IZR k + H) * len) 2.
Proof.
  intros k h H K FH EH BH. destruct (of_Z_exact k) as (F & E); [lia|]. assert (K0 : 0 <= IZR k <= 2097152) by (split; apply IZR_le; cbn in K; lia).
  destruct (add_ok (b64_of_Z k) h F FH) as (F2 & E2); [rewrite E, EH, Rabs_pos_eq by lra; apply Rle_trans with (bp 23); [cbn; lra|apply bpow_le; lia]|].
  apply pt_times; [exact F2| |rewrite Rabs_pos_eq; lra]. rewrite E2, E, EH. apply Rle_trans with (1 := rnd_err _). rewrite Rabs_pos_eq by lra. rewrite u_val. assert (T := tiny_100). rewrite bp_m100 in T. lra.
Qed.
Lemma pt_abs : forall x X e B, pt x X e -> 0 <= e <= 100 -> - B <= X <= B -> lim x (B + / 1000 * len).
Proof.
  intros x X e B (F & H) E K. split; [exact F|]. assert (QB := q_bounds _ _ _ AX). assert (e * q <= 100 * q) by (apply Rmult_le_compat_r; lra). apply Rabs_le_inv in H. apply Rabs_le. lra.
Qed.

(** Where a number is, by its cell *)
Lemma cell_span : forall x : b64, fin x -> Rabs (B2R x) <= 4194304 * len -> let i := cell64 x d in
  B2R x <= (IZR i + 1 + / 1000) * len /\ (i = 0%Z \/ (IZR i - / 1000) * len <= B2R x) /\ (0 <= i)%Z.
Proof.
  intros x F H i. destruct (quot _ _ _ AX x F H) as (_ & E & K). assert (L := len_pos _ _ _ AX). unfold i. rewrite (cell64_eq _ pw lg), E. apply Rabs_le_inv in K.
  set (y := rnd (B2R x / len)) in *. set (w := B2R x / len) in *. assert (W : B2R x = w * len) by (unfold w; field; lra). rewrite W.
  assert (U := Zceil_ub y). assert (LB := Zceil_lb y). rewrite <- (Rplus_0_r (IZR (Zceil y))) in U.
  split; [|split]; [|destruct (Z.le_gt_cases (Zceil y) 1) as [G|G]; [left; lia|right]|lia].
  - apply Rmult_le_compat_r; [lra|]. assert (M : IZR (Zceil y) - 1 <= IZR (Z.max 0 (Zceil y - 1))) by (rewrite <- minus_IZR; apply IZR_le; lia). lra.
  - rewrite Z.max_r by lia. rewrite minus_IZR. apply Rmult_le_compat_r; lra.
Qed.
End Points.

(** ** Rings *)
Section Rings.
Variables pw lg : b64 -> b64.
Notation A := (b64_arith pw lg).
Variable g : ggeom A.
Variable dt : b64.
Hypothesis HF : fine pw lg g dt.
Notation dr := (dr pw lg g).
Notation dz := (dz pw lg g).
Notation DR := (B2R dr). Notation DZ := (B2R dz).

Let AR := axr pw lg g dt HF.
Let AZ := axz pw lg g dt HF.
Lemma DR_rg : rg DR (-30) 10. Proof. split; [exact (ax_lo _ _ _ AR)|exact (ax_hi _ _ _ AR)]. Qed.
Lemma DZ_rg : rg DZ (-30) 10. Proof. split; [exact (ax_lo _ _ _ AZ)|exact (ax_hi _ _ _ AZ)]. Qed.
Lemma unit_rg : rg (DR * DR * DZ) (-90) 30.
Proof. exact (rg_mul _ _ _ _ _ _ (rg_mul _ _ _ _ _ _ DR_rg DR_rg) DZ_rg). Qed.
Lemma d_r : good dr DR DR (Sh 0 (-30) 10 true). Proof. apply good_exact; [exact (fin_d _ _ _ AR)|reflexivity|exact DR_rg]. Qed.
Lemma d_z : good dz DZ DZ (Sh 0 (-30) 10 true). Proof. apply good_exact; [exact (fin_d _ _ _ AZ)|reflexivity|exact DZ_rg]. Qed.
Lemma small_error : forall x X k, near x X X k -> 0 <= X -> X * (1023 / 1024) <= B2R x.
Proof. intros x X k (_ & (K0 & K) & _ & E) P. apply Rabs_le_inv in E. assert (k * u * X <= / 1024 * X) by (apply Rmult_le_compat_r; lra). lra. Qed.
Lemma volume_low : forall i, (1 <= i <= 2 ^ 21)%Z -> 6 * (IZR i * (DR * DR * DZ)) <= B2R (gCELL_VOLUME A i dr dz : b64).
Proof.
  intros i I. assert (GI : good (b64_of_Z i) (IZR i) (IZR i) (Sh 0 0 21 true)).
  { apply good_Z; [lia|]. change (bp 0) with 1. change (bp 21) with 2097152. split; apply IZR_le; cbn in I; lia. }
  assert (G2 : good (b64_of_Z 2) 2 2 (Sh 0 1 1 true)) by (apply (good_Z 2 1 1); [reflexivity|change (bp 1) with 2; lra]).
  assert (GS := goods_cons _ _ _ _ _ _ _ _ good_PI (goods_cons _ _ _ _ _ _ _ _ d_z (goods_cons _ _ _ _ _ _ _ _ d_r (goods_cons _ _ _ _ _ _ _ _ G2 (goods_cons _ _ _ _ _ _ _ _ GI goods_nil))))).
  assert (G := analysed _ _ _ _ (Ti (Ti (Ti (Ti (Ti (V 0) (V 1)) (V 2)) (V 2)) (V 3)) (V 4)) _ GS eq_refl). cbn [eb er em nth] in G.
  destruct G as (N & R & _). assert (P := rg_pos _ _ _ unit_rg). assert (I0 : 1 <= IZR i) by (apply IZR_le; lia). assert (P2 : 0 < IZR i * (DR * DR * DZ)) by (apply Rmult_lt_0_compat; lra).
  replace (c_PI * DZ * DR * DR * 2 * IZR i) with (2 * c_PI * (IZR i * (DR * DR * DZ))) in N by ring.
  assert (K := small_error _ _ _ N ltac:(unfold c_PI; lra)). apply Rle_trans with (2 := K). unfold c_PI. lra.
Qed.
Lemma disc_low : 3 / 4 * (DR * DR * DZ) <= B2R (gCYL_VOL A dz dr : b64).
Proof.
  assert (G4 : good (b64_of_Z 4) 4 4 (Sh 0 2 2 true)) by (apply (good_Z 4 2 2); [reflexivity|change (bp 2) with 4; lra]).
  assert (GS := goods_cons _ _ _ _ _ _ _ _ good_PI (goods_cons _ _ _ _ _ _ _ _ d_z (goods_cons _ _ _ _ _ _ _ _ d_r (goods_cons _ _ _ _ _ _ _ _ G4 goods_nil)))).
  assert (G := analysed _ _ _ _ (Di (Ti (Ti (Ti (V 0) (V 1)) (V 2)) (V 2)) (V 3)) _ GS eq_refl). cbn [eb er em nth] in G.
  destruct G as (N & R & _). assert (P := rg_pos _ _ _ unit_rg).
  replace (c_PI * DZ * DR * DR / 4) with (c_PI / 4 * (DR * DR * DZ)) in N by field.
  assert (K := small_error _ _ _ N ltac:(unfold c_PI; lra)). apply Rle_trans with (2 := K). unfold c_PI. lra.
Qed.

(** One ring: its height, its two radii, the volume it is divided by *)
Definition ring (z r1 r2 v : b64) : Prop := exists I : R, 1 <= I <= 4194304 /\ lim z (2 * DZ) /\ lim r1 (3 * I * DR) /\ lim r2 (3 * I * DR) /\
  Rabs (B2R r2 - B2R r1) <= 2 * DR /\ I * (DR * DR * DZ) / 2 <= B2R v.

Lemma squares : forall r1 r2 I, 1 <= I <= 4194304 -> lim r1 (3 * I * DR) -> lim r2 (3 * I * DR) -> Rabs (B2R r2 - B2R r1) <= 2 * DR ->
  lim (b64_sub (b64_mul r2 r2) (b64_mul r1 r1)) (20 * (I * (DR * DR))).
Proof.
  intros r1 r2 I HI (F1 & B1) (F2 & B2) D. assert (P := rg_pos _ _ _ DR_rg). assert (RG := rg_mul _ _ _ _ _ _ DR_rg DR_rg).
  set (W := DR * DR) in *. assert (PW := rg_pos _ _ _ RG).
  assert (M : 3 * I * DR * (3 * I * DR) = 9 * (I * I * W)) by (unfold W; ring).
  assert (II : 1 <= I * I <= 4194304 * I) by (split; nra). assert (PI2 : W <= I * I * W <= 4194304 * (I * W)) by (split; nra). assert (IW : W <= I * W <= 4194304 * W) by (split; nra).
  assert (UB : W <= bp 20) by apply RG. assert (LB : bp (-60) <= W) by apply RG. change (bp 20) with 1048576 in UB.
  assert (X20 : bp 100 = 1267650600228229401496703205376) by (cbn; lra).
  assert (SQ : forall r, fin r -> Rabs (B2R r) <= 3 * I * DR -> fin (b64_mul r r) /\ Rabs (B2R (b64_mul r r) - B2R r * B2R r) <= / 10000 * (I * W)).
  { intros r F B. assert (H : Rabs (B2R r * B2R r) <= 9 * (I * I * W)) by (rewrite Rabs_mult, <- M; apply Rmult_le_compat; auto using Rabs_pos).
    destruct (mul_ok r r F F) as (FM & EM). { apply Rle_trans with (1 := H). apply Rle_trans with (bp 100); [rewrite X20; nra|apply bpow_le; lia]. }
    split; [exact FM|]. rewrite EM. apply Rle_trans with (1 := rnd_err _). assert (T := tiny_scale W ltac:(apply Rle_trans with (2 := LB); apply bpow_le; lia)). rewrite u_val in *. lra. }
  destruct (SQ r1 F1 B1) as (G1 & E1). destruct (SQ r2 F2 B2) as (G2 & E2). clear SQ.
  assert (DD : Rabs (B2R r2 * B2R r2 - B2R r1 * B2R r1) <= 12 * (I * W)).
  { replace (B2R r2 * B2R r2 - B2R r1 * B2R r1) with ((B2R r2 - B2R r1) * (B2R r2 + B2R r1)) by ring. rewrite Rabs_mult.
    replace (12 * (I * W)) with (2 * DR * (6 * I * DR)) by (unfold W; ring). apply Rmult_le_compat; auto using Rabs_pos. apply Rle_trans with (1 := Rabs_triang _ _). lra. }
  assert (H : Rabs (B2R (b64_mul r2 r2) - B2R (b64_mul r1 r1)) <= 16 * (I * W)) by (apply Rabs_le_inv in E1, E2, DD; apply Rabs_le; lra).
  destruct (sub_ok _ _ G2 G1) as (F & E). { apply Rle_trans with (1 := H). apply Rle_trans with (bp 100); [rewrite X20; lra|apply bpow_le; lia]. }
  split; [exact F|]. rewrite E. replace (20 * (I * W)) with (5 / 4 * (16 * (I * W))) by field. apply rnd_size; [|exact H].
  apply Rle_trans with W; [apply Rle_trans with (2 := LB); apply bpow_le; lia|lra].
Qed.

Lemma ring_value : forall (x z r1 r2 v : b64) X, lim x X -> rg X (-400) 600 -> ring z r1 r2 v -> lim (gRNG A x z r1 r2 v) (1024 * X).
Proof.
  intros x z r1 r2 v X HX RX (I & HI & HZ & H1 & H2 & D & HV). unfold gRNG. change (mul A) with b64_mul. change (div A) with b64_div. change (sub A) with b64_sub.
  assert (PX := rg_pos _ _ _ RX). assert (PR := rg_pos _ _ _ DR_rg). assert (PZ := rg_pos _ _ _ DZ_rg).
  assert (RI : rg I 0 22) by (split; [change (bp 0) with 1|change (bp 22) with 4194304]; lra).
  assert (R1 : rg (X * 4) (-398) 602) by (apply (rg_mul X 4 _ _ 2 2 RX); split; cbn; lra).
  assert (HP : lim (gPI A) (16 / 5)). { destruct good_PI as ((F & _ & _ & E) & _). split; [exact F|]. change (gPI A) with (b64_lit 7853981633974483 2500000000000000). cbn [s_k] in E. rewrite u_val in E. apply Rabs_le_inv in E. unfold c_PI in E. apply Rabs_le. lra. }
  assert (L1 : lim (b64_mul x (gPI A)) (X * 4)).
  { apply lim_weaken with (5 / 4 * (X * (16 / 5))); [|lra]. apply lim_mul; try assumption. apply (rg_weaken _ (-400 + 1) (600 + 2)); try lia. apply rg_mul; [exact RX|]. split; cbn; lra. }
  assert (R2 : rg (X * 4 * (2 * DZ)) (-427) 613) by (apply (rg_mul _ _ _ _ (-29) 11 R1), (rg_mul 2 DZ 1 1 (-30) 10); [split; cbn; lra|exact DZ_rg]).
  assert (L2 := lim_mul _ _ _ _ L1 HZ (rg_weaken _ _ _ (-900) 1000 R2 ltac:(lia) ltac:(lia))).
  assert (L3 := squares r1 r2 I HI H1 H2 D). set (W := DR * DR) in *.
  assert (RW : rg (I * W) (-60) 42) by (exact (rg_mul _ _ _ _ _ _ RI (rg_mul _ _ _ _ _ _ DR_rg DR_rg))).
  assert (R3 : rg (5 / 4 * (X * 4 * (2 * DZ)) * (20 * (I * W))) (-483) 661).
  { apply (rg_mul _ _ (-427) 614 (-56) 47); [apply (rg_mul (5/4) _ 0 1 (-427) 613); [split; cbn; lra|exact R2]|]. apply (rg_mul 20 _ 4 5 (-60) 42); [split; cbn; lra|exact RW]. }
  assert (L4 := lim_mul _ _ _ _ L2 L3 (rg_weaken _ _ _ (-900) 1000 R3 ltac:(lia) ltac:(lia))).
  assert (PW := rg_pos _ _ _ RW). assert (PWZ : 0 < I * (W * DZ)) by (rewrite <- Rmult_assoc; now apply Rmult_lt_0_compat).
  set (N := 5 / 4 * (5 / 4 * (X * 4 * (2 * DZ)) * (20 * (I * W)))) in *.
  assert (PW0 : 0 < W) by (unfold W; now apply Rmult_lt_0_compat). assert (EN : N / (I * (W * DZ) / 2) = 500 * X). { unfold N. field. repeat split; lra. }
  assert (L5 := lim_div _ v _ (I * (W * DZ) / 2) L4 ltac:(split; lra)). rewrite EN in L5. apply lim_weaken with (5 / 4 * (500 * X)); [|lra]. apply L5.
  apply (rg_weaken _ (8 + -400) (9 + 600)); try lia. apply rg_mul; [split; cbn; lra|exact RX].
Qed.

(** ** The rings of the interpolation and of the deposition *)
Lemma three_halves : fin (b64_lit 3 2) /\ B2R (b64_lit 3 2) = 3 / 2.
Proof.
  split; [reflexivity|]. unfold b64_lit. destruct (of_Z_exact 3 eq_refl) as (F1 & E1). destruct (of_Z_exact 2 eq_refl) as (F2 & E2).
  destruct (div_ok (b64_of_Z 3) (b64_of_Z 2) F1 ltac:(rewrite E2; lra)) as (_ & E); [rewrite E1, E2; apply Rle_trans with (bp 1); [cbn; rewrite Rabs_pos_eq; lra|apply bpow_le; lia]|].
  rewrite E, E1, E2. replace (3 / 2) with (IZR 3 * bpow radix2 (-1)) by (cbn; lra). apply rnd_exact; [reflexivity|lia].
Qed.
Notation half := (b64_lit 1 2).

(** heights *)
Lemma heights : forall (z : b64), fin z -> 0 <= B2R z <= top (gn_z A g) dz ->
  let k := gcell A z dz in let kh := gcell A (b64_sub z (b64_mul half dz)) dz in
  lim (b64_sub (b64_mul (b64_of_Z (k + 1)) dz) z) (2 * DZ) /\ lim (b64_sub z (b64_mul (b64_of_Z k) dz)) (2 * DZ) /\
  lim (b64_sub (b64_mul (b64_add (b64_of_Z kh) (b64_lit 3 2)) dz) z) (2 * DZ) /\ lim (b64_sub z (b64_mul (b64_add (b64_of_Z kh) half) dz)) (2 * DZ) /\
  lim (b64_sub (b64_mul (b64_add (b64_of_Z k) half) dz) (b64_sub z (b64_mul half dz))) (2 * DZ) /\
  lim (b64_sub (b64_add z (b64_mul half dz)) (b64_mul (b64_add (b64_of_Z k) half) dz)) (2 * DZ).
Proof.
  intros z FZ HZ k kh. assert (L := len_pos _ _ _ AZ). assert (T := top_hi _ _ _ AZ). assert (QB := q_bounds _ _ _ AZ). assert (N := ax_n _ _ _ AZ). destruct lit_half as (FH & EH). destruct three_halves as (F3 & E3).
  destruct (back _ _ _ _ AZ FZ HZ) as (FB & EB). apply Rabs_le_inv in EB.
  assert (CR := cell_range pw lg _ _ _ _ AZ FZ ltac:(unfold len in *; lra)). assert (CB := cell_back pw lg _ _ _ _ AZ FZ HZ). fold k in CR. fold kh in CB.
  destruct (cell_span _ _ _ AZ pw lg z FZ ltac:(rewrite Rabs_pos_eq; lra)) as (S1 & S2 & S3). fold k in S1, S2, S3.
  destruct (cell_span _ _ _ AZ pw lg _ FB ltac:(apply Rabs_le; lra)) as (T1 & T2 & T3). fold kh in T1, T2, T3. clearbody k kh.
  assert (K1 : 0 <= IZR k <= 1048575) by (split; apply IZR_le; cbn in N; lia). assert (K2 : 0 <= IZR kh <= 1048575) by (split; apply IZR_le; cbn in N; lia).
  assert (S2' : (IZR k - / 1000) * len dz <= B2R z) by (destruct S2 as [->|S2]; [lra|exact S2]).
  assert (T2' : IZR kh * len dz <= B2R z) by (destruct T2 as [->|T2]; [lra|lra]).
  assert (ZZ : Rabs (B2R z) <= 1048575 * len dz) by (rewrite Rabs_pos_eq; lra).
  assert (PZ := pt_exact dz z FZ).
  assert (P1 := pt_node _ _ _ AZ (k + 1) ltac:(lia)). assert (P2 := pt_node _ _ _ AZ k ltac:(lia)). rewrite plus_IZR in P1.
  assert (P3 := pt_shift _ _ _ AZ kh _ _ ltac:(lia) F3 E3 ltac:(lra)). assert (P4 := pt_shift _ _ _ AZ kh _ _ ltac:(lia) FH EH ltac:(lra)). assert (P5 := pt_shift _ _ _ AZ k _ _ ltac:(lia) FH EH ltac:(lra)).
  assert (PH := pt_half _ _ _ AZ). apply Rabs_le_inv in ZZ.
  assert (BK : forall a, 0 <= a <= 1048575 -> 0 <= a * len dz <= 1048575 * len dz) by (intros a Ha; split; [apply Rmult_le_pos; lra|apply Rmult_le_compat_r; lra]). assert (B1 := BK _ K1). assert (B2 := BK _ K2).
  assert (P6 := pt_sub _ _ _ AZ _ _ _ _ _ _ PZ PH ltac:(apply Rabs_le; lra) ltac:(lra) ltac:(lra) ltac:(lra)).
  assert (P7 := pt_add _ _ _ AZ _ _ _ _ _ _ PZ PH ltac:(apply Rabs_le; lra) ltac:(lra) ltac:(lra) ltac:(lra)).
  assert (FIN : forall x X e, pt dz x X e -> 0 <= e <= 100 -> - (19 / 10 * len dz) <= X <= 19 / 10 * len dz -> lim x (2 * DZ)).
  { intros x X e P E B. apply (lim_weaken _ (19 / 10 * len dz + / 1000 * len dz)); [exact (pt_abs _ _ _ AZ _ _ _ _ P E B)|]. unfold len in *. lra. }
  split; [|split; [|split; [|split; [|split]]]].
  - refine (FIN _ _ _ (pt_sub _ _ _ AZ _ _ _ _ _ _ P1 PZ _ _ _ _) _ _); try lra. apply Rabs_le. lra.
  - refine (FIN _ _ _ (pt_sub _ _ _ AZ _ _ _ _ _ _ PZ P2 _ _ _ _) _ _); try lra. apply Rabs_le. lra.
  - refine (FIN _ _ _ (pt_sub _ _ _ AZ _ _ _ _ _ _ P3 PZ _ _ _ _) _ _); try lra. apply Rabs_le. lra.
  - refine (FIN _ _ _ (pt_sub _ _ _ AZ _ _ _ _ _ _ PZ P4 _ _ _ _) _ _); try lra. apply Rabs_le. lra.
  - refine (FIN _ _ _ (pt_sub _ _ _ AZ _ _ _ _ _ _ P5 P6 _ _ _ _) _ _); try lra. apply Rabs_le. lra.
  - refine (FIN _ _ _ (pt_sub _ _ _ AZ _ _ _ _ _ _ P7 P5 _ _ _ _) _ _); try lra. apply Rabs_le. lra.
Qed.

(** radii *)
Lemma ring_of : forall (z r1 r2 v : b64) I R1 R2 e f, 1 <= I <= 2097152 -> lim z (2 * DZ) -> pt dr r1 R1 e -> pt dr r2 R2 f -> 0 <= e <= 100 -> 0 <= f <= 100 ->
  - (29 / 10 * I * DR) <= R1 <= 29 / 10 * I * DR -> - (29 / 10 * I * DR) <= R2 <= 29 / 10 * I * DR -> - (19 / 10 * DR) <= R2 - R1 <= 19 / 10 * DR -> I * (DR * DR * DZ) / 2 <= B2R v -> ring z r1 r2 v.
Proof.
  intros z r1 r2 v I R1 R2 e f HI HZ P1 P2 E F B1 B2 B3 HV. assert (P := rg_pos _ _ _ DR_rg). assert (QB := q_bounds _ _ _ AR). unfold len in QB.
  assert (ID : DR <= I * DR) by (rewrite <- (Rmult_1_l DR) at 1; apply Rmult_le_compat_r; lra).
  exists I. split; [lra|]. split; [exact HZ|].
  split; [apply lim_weaken with (2 := ltac:(lra) : 29 / 10 * I * DR + / 1000 * DR <= 3 * I * DR); exact (pt_abs _ _ _ AR _ _ _ _ P1 E B1)|].
  split; [apply lim_weaken with (2 := ltac:(lra) : 29 / 10 * I * DR + / 1000 * DR <= 3 * I * DR); exact (pt_abs _ _ _ AR _ _ _ _ P2 F B2)|].
  split; [|exact HV]. destruct P1 as (_ & P1). destruct P2 as (_ & P2). apply Rabs_le_inv in P1, P2.
  assert (e * q dr <= 100 * q dr) by (apply Rmult_le_compat_r; lra). assert (f * q dr <= 100 * q dr) by (apply Rmult_le_compat_r; lra). apply Rabs_le. lra.
Qed.
Lemma volume_over : forall m I, (1 <= m <= 2 ^ 21)%Z -> 0 <= I <= IZR m -> I * (DR * DR * DZ) / 2 <= B2R (gCELL_VOLUME A m dr dz : b64).
Proof.
  intros m I M H. apply Rle_trans with (2 := volume_low m M). assert (P := rg_pos _ _ _ unit_rg). set (W := DR * DR * DZ) in *.
  assert (I * W <= IZR m * W) by (apply Rmult_le_compat_r; lra). assert (0 <= I * W) by (apply Rmult_le_pos; lra). lra.
Qed.

Lemma radii_half : forall (r z : b64), fin r -> 0 <= B2R r <= top (gn_r A g) dr -> lim z (2 * DZ) -> let i := gcell A (b64_sub r (b64_mul half dr)) dr in
  ring z (b64_sub r (b64_mul half dr)) (b64_mul (b64_of_Z (i + 1)) dr) (gCELL_VOLUME A (i + 1) dr dz) /\
  ring z (b64_mul (b64_of_Z (i + 1)) dr) (b64_add r (b64_mul half dr)) (gCELL_VOLUME A (i + 3) dr dz).
Proof.
  intros r z FR HR HZ i. assert (L := len_pos _ _ _ AR). assert (T := top_hi _ _ _ AR). assert (QB := q_bounds _ _ _ AR). assert (N := ax_n _ _ _ AR).
  destruct (back _ _ _ _ AR FR HR) as (FB & EB). apply Rabs_le_inv in EB. assert (CB := cell_back pw lg _ _ _ _ AR FR HR). fold i in CB.
  destruct (cell_span _ _ _ AR pw lg _ FB ltac:(apply Rabs_le; lra)) as (T1 & T2 & T3). fold i in T1, T2, T3. clearbody i.
  assert (K2 : 0 <= IZR i <= 1048575) by (split; apply IZR_le; cbn in N; lia).
  assert (T2' : (IZR i - / 1000) * len dr <= B2R r - 49 / 100 * len dr \/ i = 0%Z) by (destruct T2 as [T2|T2]; [now right|left; lra]). clear T2.
  assert (BI : 0 <= IZR i * len dr <= 1048575 * len dr) by (split; [apply Rmult_le_pos; lra|apply Rmult_le_compat_r; lra]).
  assert (PR := pt_exact dr r FR). assert (PH := pt_half _ _ _ AR). assert (P2 := pt_node _ _ _ AR (i + 1) ltac:(lia)). rewrite plus_IZR in P2.
  assert (P1 := pt_sub _ _ _ AR _ _ _ _ _ _ PR PH ltac:(apply Rabs_le; lra) ltac:(lra) ltac:(lra) ltac:(lra)).
  assert (P3 := pt_add _ _ _ AR _ _ _ _ _ _ PR PH ltac:(apply Rabs_le; lra) ltac:(lra) ltac:(lra) ltac:(lra)).
  assert (LOW : - (1 / 2 * len dr) <= B2R r - (IZR i + 1 / 2) * len dr + 2 / 1000 * len dr) by (destruct T2' as [T2'| ->]; lra).
  unfold len in *. split.
  - apply (ring_of _ _ _ _ (IZR i + 1) _ _ _ _ ltac:(lra) HZ P1 P2); try lra. apply volume_over; [lia|rewrite plus_IZR; lra].
  - apply (ring_of _ _ _ _ (IZR i + 1) _ _ _ _ ltac:(lra) HZ P2 P3); try lra. apply volume_over; [lia|rewrite plus_IZR; lra].
Qed.

Lemma radii_whole : forall (r z : b64), fin r -> 0 <= B2R r <= top (gn_r A g) dr -> lim z (2 * DZ) -> let i := gcell A r dr in
  ring z (b64_sub r (b64_mul half dr)) (b64_mul (b64_add (b64_of_Z i) half) dr) (gvol_inner A dr dz r i) /\
  forall m, (m = i + 1 \/ m = i + 2)%Z -> ring z (b64_mul (b64_add (b64_of_Z i) half) dr) (b64_add r (b64_mul half dr)) (gCELL_VOLUME A m dr dz).
Proof.
  intros r z FR HR HZ i. assert (L := len_pos _ _ _ AR). assert (T := top_hi _ _ _ AR). assert (QB := q_bounds _ _ _ AR). assert (N := ax_n _ _ _ AR). destruct lit_half as (FH & EH).
  assert (CB := cell_range pw lg _ _ _ _ AR FR ltac:(unfold len in *; lra)). fold i in CB. assert (HR' : Rabs (B2R r) <= 4194304 * len dr) by (rewrite Rabs_pos_eq; lra).
  assert (CP := cell64_pos _ _ _ AR pw lg r FR HR'). fold i in CP.
  destruct (cell_span _ _ _ AR pw lg _ FR HR') as (T1 & T2 & T3). fold i in T1, T2, T3. clearbody i.
  assert (K2 : 0 <= IZR i <= 1048575) by (split; apply IZR_le; cbn in N; lia).
  assert (BI : 0 <= IZR i * len dr <= 1048575 * len dr) by (split; [apply Rmult_le_pos; lra|apply Rmult_le_compat_r; lra]).
  assert (T2' : (IZR i - / 1000) * len dr <= B2R r) by (destruct T2 as [->|T2]; [lra|exact T2]). clear T2.
  assert (PR := pt_exact dr r FR). assert (PH := pt_half _ _ _ AR). assert (P2 := pt_shift _ _ _ AR i _ _ ltac:(lia) FH EH ltac:(lra)).
  assert (P1 := pt_sub _ _ _ AR _ _ _ _ _ _ PR PH ltac:(apply Rabs_le; lra) ltac:(lra) ltac:(lra) ltac:(lra)).
  assert (P3 := pt_add _ _ _ AR _ _ _ _ _ _ PR PH ltac:(apply Rabs_le; lra) ltac:(lra) ltac:(lra) ltac:(lra)).
  assert (PU := rg_pos _ _ _ unit_rg). split.
  - unfold gvol_inner. destruct (ltb A dr r) eqn:E.
    + apply ltb_ok in E; [|exact (fin_d _ _ _ AR)|exact FR]. assert (I1 : (1 <= i)%Z) by (apply CP; exact E). assert (I2 : 1 <= IZR i) by (apply IZR_le; exact I1).
      assert (LI : len dr <= IZR i * len dr) by (rewrite <- (Rmult_1_l (len dr)) at 1; apply Rmult_le_compat_r; lra).
      unfold len in *. apply (ring_of _ _ _ _ (IZR i) _ _ _ _ ltac:(lra) HZ P1 P2); try lra. apply volume_over; [lia|lra].
    + assert (I0 : i = 0%Z). { destruct (Z.le_gt_cases 1 i) as [G|G]; [|lia]. apply CP in G. exfalso. unfold len in G. apply (ltb_ok dr r (fin_d _ _ _ AR) FR) in G. change (ltb A dr r) with (Bltb dr r) in E. congruence. }
      subst i. unfold len in *. apply (ring_of _ _ _ _ 1 _ _ _ _ ltac:(lra) HZ P1 P2); try lra. apply Rle_trans with (2 := disc_low). lra.
  - intros m M. unfold len in *. apply (ring_of _ _ _ _ (IZR i + 1) _ _ _ _ ltac:(lra) HZ P2 P3); try lra. apply volume_over; [lia|]. assert (IZR (i + 1) <= IZR m) by (apply IZR_le; lia). rewrite plus_IZR in *. lra.
Qed.
End Rings.
