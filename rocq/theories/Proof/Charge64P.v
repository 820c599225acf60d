(** The charge deposition in binary64: what each node receives is the share of the cloud, up to rounding. *)
From Coq Require Import Reals ZArith List Bool Lia Lra Psatz.
From Flocq Require Import Core IEEE754.BinarySingleNaN Mult_error.
From Verif.Lib Require Import RAux Grid Outcome.
From Verif.Model Require Import Constants Binary64 Temperature64 Arith GenCode.
From Verif.Spec Require Import Cloud Double Charge64.
From Verif.Proof Require Import ChargeP DiagnosticsP Binary64P FloatP Axis64P Push64P Motion64P Err64P Ana64P Log64P Leg64P.
Import ListNotations.
Local Open Scope R_scope.

(** ** Shares of a particle that the program puts into the cell below a line it is just above *)
Definition fz0 (d : R) (k : Z) (z : R) : R := ((IZR k + 1) * d - z) / d.
Definition fz1 (d : R) (k : Z) (z : R) : R := (z - IZR k * d) / d.
Definition fr0 (d : R) (c : Z) (r : R) : R := (((IZR c + 1/2) * d) * ((IZR c + 1/2) * d) - (r - d/2) * (r - d/2)) / (2 * r * d).
Definition fr1 (d : R) (c : Z) (r : R) : R := ((r + d/2) * (r + d/2) - ((IZR c + 1/2) * d) * ((IZR c + 1/2) * d)) / (2 * r * d).
Definition pick (f0 f1 : R) (c i : Z) : R := if (i =? c)%Z then f0 else if (i =? c + 1)%Z then f1 else 0.
Definition over (d : R) (c : Z) (x e : R) : Prop := IZR c * d <= x <= (IZR c + 1 + e) * d.

Lemma share_z_over : forall d k z e j, 0 < d -> 0 <= e <= / 8 -> over d k z e -> Rabs (pick (fz0 d k z) (fz1 d k z) k j - share_z d j z) <= 2 * e.
Proof.
  intros d k z e j Hd He (H1 & H2). unfold pick. destruct (Rle_dec z ((IZR k + 1) * d)) as [L|L].
  - assert (I : in_cell d k z) by (split; lra). destruct (Z.eqb_spec j k) as [->|N]; [rewrite share_z_at by assumption; unfold fz0|destruct (Z.eqb_spec j (k + 1)) as [->|N1]];
      [|rewrite share_z_next by assumption; unfold fz1|rewrite (share_z_other d k z j) by assumption]; unfold Rminus at 1; rewrite ?Rplus_opp_r, ?Ropp_0, ?Rplus_0_r, Rabs_R0; lra.
  - assert (I : in_cell d (k + 1) z) by (split; rewrite plus_IZR; nra). set (t := z / d - (IZR k + 1)).
    assert (ZE : z = (IZR k + 1 + t) * d) by (unfold t; field; lra). assert (T : 0 <= t <= e).
    { split; apply Rmult_le_reg_r with d; try lra; rewrite ?Rmult_0_l; lra. }
    destruct (Z.eqb_spec j k) as [->|N]; [|destruct (Z.eqb_spec j (k + 1)) as [->|N1]].
    + rewrite (share_z_other d (k + 1) z k) by (assumption || lia). unfold fz0. rewrite ZE. replace (((IZR k + 1) * d - (IZR k + 1 + t) * d) / d - 0) with (- t) by (field; lra). rewrite Rabs_Ropp, Rabs_pos_eq; lra.
    + rewrite share_z_at by assumption. unfold fz1. rewrite plus_IZR, ZE. replace (((IZR k + 1 + t) * d - IZR k * d) / d - ((IZR k + 1 + 1) * d - (IZR k + 1 + t) * d) / d) with (2 * t) by (field; lra). rewrite Rabs_pos_eq; lra.
    + destruct (Z.eq_dec j (k + 1 + 1)) as [->|N2].
      * rewrite share_z_next by assumption. rewrite plus_IZR, ZE. replace (0 - ((IZR k + 1 + t) * d - (IZR k + 1) * d) / d) with (- t) by (field; lra). rewrite Rabs_Ropp, Rabs_pos_eq; lra.
      * rewrite (share_z_other d (k + 1) z j) by assumption. rewrite Rminus_0_r, Rabs_R0. lra.
Qed.

Lemma share_r_over : forall d c r e j, 0 < d -> (0 <= c)%Z -> 0 <= e <= / 8 -> d / 2 <= r -> over d c r e -> Rabs (pick (fr0 d c r) (fr1 d c r) c j - share_r d j r) <= 2 * e.
Proof.
  intros d c r e j Hd Hc He Hr (H1 & H2). unfold pick. assert (C0 : 0 <= IZR c) by (apply IZR_le; lia). destruct (Rle_dec r ((IZR c + 1) * d)) as [L|L].
  - assert (I : in_cell d c r) by (split; lra). destruct (Z.eqb_spec j c) as [->|N]; [rewrite share_r_at by assumption; unfold fr0|destruct (Z.eqb_spec j (c + 1)) as [->|N1]];
      [|rewrite share_r_next by assumption; unfold fr1|rewrite (share_r_other d c r j) by assumption]; unfold Rminus at 1; rewrite ?Rplus_opp_r, ?Ropp_0, ?Rplus_0_r, Rabs_R0; lra.
  - assert (I : in_cell d (c + 1) r) by (split; rewrite plus_IZR; nra). set (t := r / d - (IZR c + 1)).
    assert (ZE : r = (IZR c + 1 + t) * d) by (unfold t; field; lra). assert (T : 0 <= t <= e).
    { split; apply Rmult_le_reg_r with d; try lra; rewrite ?Rmult_0_l; lra. }
    set (x := IZR c) in *. assert (X1 : 0 < 2 * (x + 1 + t)) by lra. assert (R0 : (x + 1 + t) <> 0) by lra.
    assert (B : forall a b, 0 <= a -> a <= b * (2 * (x + 1 + t)) -> 0 <= a / (2 * (x + 1 + t)) <= b).
    { intros a b A0 A1. split; [apply Rmult_le_pos; [lra|left; now apply Rinv_0_lt_compat]|]. apply Rmult_le_reg_r with (2 * (x + 1 + t)); [lra|]. unfold Rdiv. rewrite Rmult_assoc, Rinv_l by lra. lra. }
    destruct (Z.eqb_spec j c) as [->|N]; [|destruct (Z.eqb_spec j (c + 1)) as [->|N1]].
    + rewrite (share_r_other d (c + 1) r c) by (assumption || lia). unfold fr0. fold x. rewrite ZE.
      replace (_ - 0) with (- ((t * (2 * x + 1 + t)) / (2 * (x + 1 + t)))) by (field; lra). destruct (B (t * (2 * x + 1 + t)) t) as (B1 & B2); [nra|nra|]. rewrite Rabs_Ropp, Rabs_pos_eq; lra.
    + rewrite share_r_at by (assumption || lia). unfold fr1. rewrite plus_IZR. fold x. rewrite ZE.
      replace (_ - _) with ((t * (4 * x + 4 + 2 * t)) / (2 * (x + 1 + t))) by (field; lra). destruct (B (t * (4 * x + 4 + 2 * t)) (2 * t)) as (B1 & B2); [nra|nra|]. rewrite Rabs_pos_eq; lra.
    + destruct (Z.eq_dec j (c + 1 + 1)) as [->|N2].
      * rewrite share_r_next by (assumption || lia). rewrite plus_IZR. fold x. rewrite ZE.
        replace (0 - _) with (- ((t * (2 * x + 3 + t)) / (2 * (x + 1 + t)))) by (field; lra). destruct (B (t * (2 * x + 3 + t)) (2 * t)) as (B1 & B2); [nra|nra|]. rewrite Rabs_Ropp, Rabs_pos_eq; lra.
      * rewrite (share_r_other d (c + 1) r j) by (assumption || lia). rewrite Rminus_0_r, Rabs_R0. lra.
Qed.
Lemma fz_bounds : forall d k z e, 0 < d -> 0 <= e -> over d k z e -> - e <= fz0 d k z <= 1 /\ 0 <= fz1 d k z <= 1 + e /\ fz0 d k z + fz1 d k z = 1.
Proof.
  intros d k z e Hd He (H1 & H2). set (t := fz1 d k z). assert (E : fz0 d k z + t = 1) by (unfold t, fz0, fz1; field; lra).
  assert (T : t * d = z - IZR k * d) by (unfold t, fz1; field; lra). assert (0 <= t <= 1 + e); [|lra]. split; apply Rmult_le_reg_r with d; lra.
Qed.
Lemma fr_bounds : forall d c r e, 0 < d -> (0 <= c)%Z -> 0 <= e <= / 8 -> d / 2 <= r -> over d c r e -> - e <= fr0 d c r <= 1 /\ 0 <= fr1 d c r <= 1 + e /\ fr0 d c r + fr1 d c r = 1.
Proof.
  intros d c r e Hd Hc He Hr (H1 & H2). assert (C0 : 0 <= IZR c) by (apply IZR_le; lia). set (t := fr1 d c r). assert (R0 : r <> 0) by lra.
  assert (E : fr0 d c r + t = 1) by (unfold t, fr0, fr1; field; lra). set (x := IZR c) in *. assert (P : 0 < 2 * r * d) by (apply Rmult_lt_0_compat; lra).
  assert (T : t * (2 * r * d) = (r - x * d) * (r + (x + 1) * d)) by (unfold t, fr1; fold x; field; lra). assert (0 <= t <= 1 + e); [|lra].
  assert (Y : 0 <= r - x * d <= (1 + e) * d) by lra. split; apply Rmult_le_reg_r with (2 * r * d); try lra; rewrite T.
  - rewrite Rmult_0_l. apply Rmult_le_pos; [lra|]. assert (0 <= x * d) by (apply Rmult_le_pos; lra). lra.
  - destruct (Rle_dec r ((x + 1) * d)) as [L|L].
    + assert ((r - x * d) * (r + (x + 1) * d) <= 1 * (2 * r * d)); [|nra]. 
      destruct (Z.eq_dec c 0) as [->|N]. { change x with 0 in *. nra. } assert (1 <= x) by (apply IZR_le; lia). nra.
    + apply Rle_trans with (((1 + e) * d) * (2 * r)); [|lra]. apply Rmult_le_compat; try lra. assert (0 <= x * d) by (apply Rmult_le_pos; lra). lra.
Qed.

(** ** The cell *)
Section Cell.
Variables (n : Z) (size d : b64).
Hypothesis AX : axis n size d.
Variables pw lg : b64 -> b64.
Notation A := (b64_arith pw lg).
Lemma cell_over : forall x, fin x -> 0 <= B2R x <= IZR (n - 1) * B2R d ->
  (0 <= gcell A x d <= n - 2)%Z /\ over (B2R d) (gcell A x d) (B2R x) (2 * u * (B2R x / B2R d + 1)) /\ 2 * u * (B2R x / B2R d + 1) <= / 8.
Proof.
  intros x Fx Hx. assert (L := len_pos _ _ _ AX). unfold len in L. assert (NB := n_bounds _ _ _ AX). assert (U := u_pos).
  assert (B0 : Rabs (B2R x) <= 4194304 * len d) by (rewrite Rabs_pos_eq by lra; unfold len; apply Rle_trans with (1 := proj2 Hx); apply Rmult_le_compat_r; lra).
  assert (QP : 0 <= B2R x / B2R d) by (apply Rmult_le_pos; [lra|left; now apply Rinv_0_lt_compat]).
  assert (QM : B2R x / B2R d * B2R d = B2R x) by (field; lra).
  assert (QH : B2R x / B2R d <= 1048575) by (apply Rmult_le_reg_r with (B2R d); [exact L|]; rewrite QM; apply Rle_trans with (1 := proj2 Hx); apply Rmult_le_compat_r; lra).
  set (y := B2R x / B2R d) in *. split; [|split].
  - split; [rewrite cell64_eq; lia|]. replace (n - 2)%Z with (n - 1 - 1)%Z by lia. apply (cell64_le _ _ _ AX); [exact Fx|exact B0|destruct (ax_n _ _ _ AX); cbn in *; lia|exact (proj2 Hx)].
  - destruct (quot _ _ _ AX x Fx B0) as (_ & E & _). unfold len in E. fold y in E. split.
    + destruct (Rle_dec (IZR (gcell A x d) * B2R d) (B2R x)) as [K|K]; [exact K|]. exfalso. set (c := gcell A x d) in *.
      destruct (Z.eq_dec c 0) as [Z0|Z0]; [rewrite Z0 in K; lra|]. assert (C0 : (0 <= c)%Z) by (unfold c; rewrite cell64_eq; lia).
      assert (CL : (c < 2 ^ 53)%Z). { assert (c <= n - 1 - 1)%Z by (unfold c; apply (cell64_le _ _ _ AX); [exact Fx|exact B0|destruct (ax_n _ _ _ AX); cbn in *; lia|exact (proj2 Hx)]). destruct (ax_n _ _ _ AX). cbn in *. lia. }
      assert (G := cell64_le _ _ _ AX pw lg x c Fx B0 ltac:(lia) ltac:(unfold len; lra)). fold c in G. lia.
    + rewrite <- QM. apply Rmult_le_compat_r; [lra|]. assert (CE := cell64_eq d pw lg x). rewrite E in CE. assert (CU := Zceil_ub (rnd y)).
      assert (C1 : rnd y <= IZR (gcell A x d) + 1) by (rewrite <- plus_IZR; apply Rle_trans with (1 := CU); apply IZR_le; lia).
      assert (R := rnd_err y). apply Rabs_le_inv in R. rewrite (Rabs_pos_eq y) in R by lra. assert (T := tiny_scale 1 ltac:(change 1 with (bp 0); apply bpow_le; lia)). lra.
  - rewrite u_val. lra.
Qed.
Lemma kh_ok : forall k, (0 <= k <= n)%Z -> good (b64_add (b64_of_Z k) (b64_lit 1 2)) (IZR k + 1 / 2) (IZR k + 1 / 2) (Sh 0 (-1) 21 true).
Proof.
  intros k K. destruct (ax_n _ _ _ AX) as (_ & N). assert (K0 : 0 <= IZR k <= 1048576) by (split; apply IZR_le; lia). destruct lit_half as (FH & EH). destruct (of_Z_exact k ltac:(cbn in *; lia)) as (FK & EK).
  destruct (add_ok (b64_of_Z k) (b64_lit 1 2) FK FH) as (F & E); [rewrite EK, EH, Rabs_pos_eq by lra; apply Rle_trans with (bp 21); [change (bp 21) with 2097152; lra|apply bpow_le; lia]|].
  apply good_exact; [exact F| |change (bp (-1)) with (/ 2); change (bp 21) with 2097152; lra].
  rewrite E, EK, EH. replace (IZR k + / 2) with (IZR (2 * k + 1) * bp (-1)) by (rewrite plus_IZR, mult_IZR; cbn; lra). rewrite rnd_exact; [rewrite plus_IZR, mult_IZR; change (bp (-1)) with (/ 2); field|lia|lia].
Qed.
End Cell.

(** ** One product of the deposition *)
Lemma rescale : forall x X M s N K, good x X M s -> Rabs X <= N -> IZR (s_k s) / 4 * M <= K * N -> 0 <= K -> K * u <= / 1024 -> near x X N K.
Proof.
  intros x X M s N K ((F & _ & _ & E) & _) HX HK K0 K1. split; [exact F|]. split; [split; assumption|]. split; [exact HX|]. apply Rle_trans with (1 := E).
  replace (IZR (s_k s) / 4 * u * M) with (u * (IZR (s_k s) / 4 * M)) by ring. replace (K * u * N) with (u * (K * N)) by ring. apply Rmult_le_compat_l; [left; exact u_pos|exact HK].
Qed.
Lemma value_ok : forall (a w y v : b64) X0 X1 X2 V MA MB MC ka kb kc kd, near a X0 MA ka -> near w X1 MB kb -> near y X2 MC kc -> near v V V kd -> 0 < V ->
  0 <= ka <= 200 -> 0 <= kb <= 8388608 -> 0 <= kc <= 16777216 -> 0 <= kd <= 200 -> rg MA (-400) 400 -> rg MB (-40) 40 -> rg MC (-100) 100 -> rg V (-100) 100 ->
  let x := b64_div (b64_mul (b64_mul a w) y) v in fin x /\ Rabs (B2R x * V - X0 * X1 * X2) <= (ka + kb + kc + kd + 10) * (1 + / 500) * u * (MA * MB * MC).
Proof.
  intros a w y v X0 X1 X2 V MA MB MC ka kb kc kd NA NB NC NV HV KA KB KC KD RA RB RC RV x.
  assert (U := u_pos). assert (UV := u_val).
  assert (G1 := rg_mul _ _ _ _ _ _ RA RB). assert (G2 := rg_mul _ _ _ _ _ _ G1 RC). assert (G3 := rg_div _ _ _ _ _ _ G2 RV).
  assert (C1 : ka * kb * u <= 1). { assert (ka * kb <= 200 * 8388608) by (apply Rmult_le_compat; lra). apply Rle_trans with (200 * 8388608 * u); [apply Rmult_le_compat_r; lra|]. rewrite UV. lra. }
  assert (N1 := near_mul _ _ _ _ _ _ _ _ (ka + kb + 1) NA NB ltac:(lra) ltac:(rewrite UV; lra) (rg_weaken _ _ _ (-900) 1000 G1 ltac:(lia) ltac:(lia))).
  assert (C2 : (ka + kb + 1 + 5 / 4) * kc * u <= 1). { assert ((ka + kb + 1 + 5 / 4) * kc <= 16777216 * 16777216) by (apply Rmult_le_compat; lra). apply Rle_trans with (16777216 * 16777216 * u); [apply Rmult_le_compat_r; lra|]. rewrite UV. lra. }
  assert (N2 := near_mul _ _ _ _ _ _ _ _ (ka + kb + kc + 13 / 4) N1 NC ltac:(lra) ltac:(rewrite UV; lra) (rg_weaken _ _ _ (-900) 1000 G2 ltac:(lia) ltac:(lia))).
  assert (N3 := near_div _ _ _ _ _ _ _ ((ka + kb + kc + 13 / 4 + 5 / 4 + kd) * (1 + / 1000)) N2 NV HV ltac:(lra) ltac:(rewrite UV; lra) (rg_weaken _ _ _ (-900) 1000 G3 ltac:(lia) ltac:(lia))).
  destruct N3 as (F & _ & _ & E). fold x in F, E. split; [exact F|].
  replace (B2R x * V - X0 * X1 * X2) with ((B2R x - X0 * X1 * X2 / V) * V) by (field; lra). rewrite Rabs_mult, (Rabs_pos_eq V) by lra.
  assert (PM := rg_pos _ _ _ G2). set (MM := MA * MB * MC) in *.
  apply Rle_trans with (((ka + kb + kc + 13 / 4 + 5 / 4 + kd) * (1 + / 1000) + 5 / 4) * u * (MM / V) * V); [apply Rmult_le_compat_r; lra|].
  replace (((ka + kb + kc + 13 / 4 + 5 / 4 + kd) * (1 + / 1000) + 5 / 4) * u * (MM / V) * V) with (((ka + kb + kc + 13 / 4 + 5 / 4 + kd) * (1 + / 1000) + 5 / 4) * u * MM) by (field; lra).
  apply Rmult_le_compat_r; [lra|]. apply Rmult_le_compat_r; lra.
Qed.

(** ** The deposition of one particle *)
Section Deposition.
Variables pw lg : b64 -> b64.
Notation A := (b64_arith pw lg).
Variable g : ggeom A.
Variables dt q r z : b64.
Hypothesis HF : fine pw lg g dt.
Hypothesis HP : placed pw lg g q r z.
Notation ddr := (gdr A g : b64). Notation ddz := (gdz A g : b64).
Notation DR := (B2R (gdr A g : b64)). Notation DZ := (B2R (gdz A g : b64)). Notation RR := (B2R r). Notation ZZ := (B2R z). Notation Q := (B2R q).
Notation c := (gcell A r (gdr A g)). Notation k := (gcell A z (gdz A g)).
Notation PI64 := (b64_lit 7853981633974483 2500000000000000).
Notation half := (b64_lit 1 2).

Lemma AR : axis (gn_r A g) (gr_size A g) ddr. Proof. exact (axr pw lg g dt HF). Qed.
Lemma AZ : axis (gn_z A g) (gz_size A g) ddz. Proof. exact (axz pw lg g dt HF). Qed.
Lemma DRp : 0 < DR. Proof. exact (len_pos _ _ _ AR). Qed.
Lemma DZp : 0 < DZ. Proof. exact (len_pos _ _ _ AZ). Qed.
Lemma DRb : bp (-30) <= DR <= bp 10. Proof. split; [exact (ax_lo _ _ _ AR)|exact (ax_hi _ _ _ AR)]. Qed.
Lemma DZb : bp (-30) <= DZ <= bp 10. Proof. split; [exact (ax_lo _ _ _ AZ)|exact (ax_hi _ _ _ AZ)]. Qed.
Definition x : R := RR / DR.
Definition y : R := ZZ / DZ.
Lemma cell_c : (0 <= c <= gn_r A g - 2)%Z /\ over DR c RR (2 * u * (x + 1)) /\ 2 * u * (x + 1) <= / 8.
Proof. exact (cell_over _ _ _ AR pw lg r (pl_r _ _ _ _ _ _ HP) (pl_r_in _ _ _ _ _ _ HP)). Qed.
Lemma cell_k : (0 <= k <= gn_z A g - 2)%Z /\ over DZ k ZZ (2 * u * (y + 1)) /\ 2 * u * (y + 1) <= / 8.
Proof. exact (cell_over _ _ _ AZ pw lg z (pl_z _ _ _ _ _ _ HP) (pl_z_in _ _ _ _ _ _ HP)). Qed.
Lemma quot_b : forall n X D, 0 < D -> IZR (n - 1) <= 1048575 -> 0 <= X <= IZR (n - 1) * D -> 0 <= X / D <= 1048576 /\ X = X / D * D.
Proof.
  intros n X D HD HN H. assert (E : X / D * D = X) by (field; lra). split; [|now symmetry]. split; apply Rmult_le_reg_r with D; rewrite ?E; try lra.
  apply Rle_trans with (1 := proj2 H). apply Rmult_le_compat_r; lra.
Qed.
Lemma xb : 0 <= x <= 1048576 /\ RR = x * DR. Proof. exact (quot_b _ _ _ DRp (proj2 (n_bounds _ _ _ AR)) (pl_r_in _ _ _ _ _ _ HP)). Qed.
Lemma yb : 0 <= y <= 1048576 /\ ZZ = y * DZ. Proof. exact (quot_b _ _ _ DZp (proj2 (n_bounds _ _ _ AZ)) (pl_z_in _ _ _ _ _ _ HP)). Qed.

Lemma g_dr : good ddr DR DR (Sh 0 (-30) 10 true). Proof. apply good_exact; [exact (fin_d _ _ _ AR)|reflexivity|exact DRb]. Qed.
Lemma g_dz : good ddz DZ DZ (Sh 0 (-30) 10 true). Proof. apply good_exact; [exact (fin_d _ _ _ AZ)|reflexivity|exact DZb]. Qed.
Lemma g_q : good q Q (Rabs Q) (Sh 0 (-200) 200 true).
Proof.
  destruct (pl_q _ _ _ _ _ _ HP) as (F & B). split; [|split; [exact B|]]; cbn [s_k].
  - replace (0 / 4) with 0 by lra. apply near_exact; [exact F|lra].
  - intros _. split; [|reflexivity]. intro E. rewrite E, Rabs_R0 in B. assert (P := bpow_gt_0 radix2 (-200)). lra.
Qed.
Lemma g_half : good half (/ 2) (/ 2) (Sh 0 (-1) (-1) true). Proof. destruct lit_half. apply good_exact; try assumption. change (bp (-1)) with (/ 2). lra. Qed.
Lemma g_2 : good (b64_of_Z 2) 2 2 (Sh 0 1 1 true). Proof. apply (good_Z 2 1 1); [reflexivity|change (bp 1) with 2; lra]. Qed.
Lemma g_4 : good (b64_of_Z 4) 4 4 (Sh 0 2 2 true). Proof. apply (good_Z 4 2 2); [reflexivity|change (bp 2) with 4; lra]. Qed.
Lemma g_i : forall i, (1 <= i <= 2 ^ 20)%Z -> good (b64_of_Z i) (IZR i) (IZR i) (Sh 0 0 20 true).
Proof. intros i I. apply good_Z; [cbn in *; lia|]. change (bp 0) with 1. change (bp 20) with 1048576. split; apply IZR_le; cbn in I; lia. Qed.
Lemma g_z : good z ZZ (ZZ + DZ) (Sh 0 (-30) 31 false).
Proof.
  destruct yb as (B & E). assert (D := DZb). assert (P := DZp). assert (Z0 := pl_z_in _ _ _ _ _ _ HP). split; [|split; [split|]]; cbn [s_k s_rel s_lo s_hi].
  - replace (0 / 4) with 0 by lra. apply near_exact; [exact (pl_z _ _ _ _ _ _ HP)|rewrite Rabs_pos_eq; lra].
  - lra.
  - replace 31%Z with (21 + 10)%Z by reflexivity. rewrite bpow_plus. change (bp 21) with 2097152. rewrite E. apply Rle_trans with ((y + 1) * DZ); [lra|]. apply Rmult_le_compat; lra.
  - discriminate.
Qed.

(** lengths *)
Notation w1 := (b64_sub (b64_mul (b64_add (b64_of_Z k) half) ddz) (b64_sub z (b64_mul half ddz))).
Notation w2 := (b64_sub (b64_add z (b64_mul half ddz)) (b64_mul (b64_add (b64_of_Z k) half) ddz)).
Lemma kh : good (b64_add (b64_of_Z k) half) (IZR k + 1 / 2) (IZR k + 1 / 2) (Sh 0 (-1) 21 true).
Proof. apply (kh_ok _ _ _ AZ). destruct cell_k as (C & _). lia. Qed.
Lemma Gz : goods [b64_add (b64_of_Z k) half; ddz; z; half] [IZR k + 1 / 2; DZ; ZZ; / 2] [IZR k + 1 / 2; DZ; ZZ + DZ; / 2] [Sh 0 (-1) 21 true; Sh 0 (-30) 10 true; Sh 0 (-30) 31 false; Sh 0 (-1) (-1) true].
Proof. apply goods_cons; [exact kh|]. apply goods_cons; [exact g_dz|]. apply goods_cons; [exact g_z|]. apply goods_cons; [exact g_half|]. exact goods_nil. Qed.
Lemma y_near : 0 <= 4 * (y + 1) <= 8388608.
Proof. destruct yb as (B & _). lra. Qed.
Lemma w1_near : near w1 (DZ * fz0 DZ k ZZ) (2 * DZ) (4 * (y + 1)).
Proof.
  assert (G := analysed _ _ _ _ (Mi (Ti (V 0) (V 1)) (Mi (V 2) (Ti (V 3) (V 1)))) _ Gz eq_refl). cbn [eb er em nth] in G. destruct cell_k as (_ & O & E8). destruct yb as (B & E). assert (P := DZp). assert (Y := y_near). assert (U := u_pos).
  destruct (fz_bounds DZ k ZZ (2 * u * (y + 1)) P ltac:(assert (0 <= u * (y + 1)) by (apply Rmult_le_pos; lra); lra) O) as (F0 & _).
  assert (X : (IZR k + 1 / 2) * DZ - (ZZ - / 2 * DZ) = DZ * fz0 DZ k ZZ) by (unfold fz0; field; lra). rewrite X in G.
  apply (rescale _ _ _ _ _ _ G); [| |lra|rewrite u_val; lra].
  - rewrite Rabs_mult, (Rabs_pos_eq DZ) by lra. rewrite (Rmult_comm 2). apply Rmult_le_compat_l; [lra|]. apply Rabs_le. lra.
  - cbn [s_k]. destruct O as (O & _). replace (4 * (y + 1) * (2 * DZ)) with (8 * ZZ + 8 * DZ) by (rewrite E at 1; ring). match goal with |- IZR ?a / 4 * _ <= _ => change a with 16%Z end. lra.
Qed.
Lemma w2_near : near w2 (DZ * fz1 DZ k ZZ) (2 * DZ) (4 * (y + 1)).
Proof.
  assert (G := analysed _ _ _ _ (Mi (Pl (V 2) (Ti (V 3) (V 1))) (Ti (V 0) (V 1))) _ Gz eq_refl). cbn [eb er em nth] in G. destruct cell_k as (_ & O & E8). destruct yb as (B & E). assert (P := DZp). assert (Y := y_near). assert (U := u_pos).
  destruct (fz_bounds DZ k ZZ (2 * u * (y + 1)) P ltac:(assert (0 <= u * (y + 1)) by (apply Rmult_le_pos; lra); lra) O) as (_ & F0 & _).
  assert (X : ZZ + / 2 * DZ - (IZR k + 1 / 2) * DZ = DZ * fz1 DZ k ZZ) by (unfold fz1; field; lra). rewrite X in G.
  apply (rescale _ _ _ _ _ _ G); [| |lra|rewrite u_val; lra].
  - rewrite Rabs_mult, (Rabs_pos_eq DZ) by lra. rewrite (Rmult_comm 2). apply Rmult_le_compat_l; [lra|]. apply Rabs_le. lra.
  - cbn [s_k]. destruct O as (O & _). replace (4 * (y + 1) * (2 * DZ)) with (8 * ZZ + 8 * DZ) by (rewrite E at 1; ring). match goal with |- IZR ?a / 4 * _ <= _ => change a with 16%Z end. lra.
Qed.
(** volumes *)
Lemma vol_pos : forall i, (1 <= i <= 2 ^ 20)%Z -> near (gCELL_VOLUME A i ddr ddz : b64) (node_volume DR DZ i) (node_volume DR DZ i) 10 /\ rg (node_volume DR DZ i) (-100) 100.
Proof.
  intros i I. assert (GS := goods_cons _ _ _ _ _ _ _ _ good_PI (goods_cons _ _ _ _ _ _ _ _ g_dz (goods_cons _ _ _ _ _ _ _ _ g_dr (goods_cons _ _ _ _ _ _ _ _ g_2 (goods_cons _ _ _ _ _ _ _ _ (g_i i I) goods_nil))))).
  assert (G := analysed _ _ _ _ (Ti (Ti (Ti (Ti (Ti (V 0) (V 1)) (V 2)) (V 2)) (V 3)) (V 4)) _ GS eq_refl). cbn [eb er em nth] in G.
  assert (E : c_PI * DZ * DR * DR * 2 * IZR i = node_volume DR DZ i) by (unfold node_volume; rewrite node_area_pos_i by lia; ring). rewrite E in G.
  destruct G as (N & R & _). cbn [s_lo s_hi s_k] in *. split; [|apply (rg_weaken _ _ _ _ _ R); vm_compute; discriminate].
  apply (near_weaken _ _ _ _ _ _ N); [lra| |rewrite u_val; lra]. match goal with |- IZR ?a / 4 <= _ => let h := eval vm_compute in a in change a with h end. lra.
Qed.
Lemma vol_0 : near (gCYL_VOL A ddz ddr : b64) (node_volume DR DZ 0) (node_volume DR DZ 0) 10 /\ rg (node_volume DR DZ 0) (-100) 100.
Proof.
  assert (GS := goods_cons _ _ _ _ _ _ _ _ good_PI (goods_cons _ _ _ _ _ _ _ _ g_dz (goods_cons _ _ _ _ _ _ _ _ g_dr (goods_cons _ _ _ _ _ _ _ _ g_4 goods_nil)))).
  assert (G := analysed _ _ _ _ (Di (Ti (Ti (Ti (V 0) (V 1)) (V 2)) (V 2)) (V 3)) _ GS eq_refl). cbn [eb er em nth] in G.
  assert (E : c_PI * DZ * DR * DR / 4 = node_volume DR DZ 0) by (unfold node_volume; rewrite node_area_0; field). rewrite E in G.
  destruct G as (N & R & _). cbn [s_lo s_hi s_k] in *. split; [|apply (rg_weaken _ _ _ _ _ R); vm_compute; discriminate].
  apply (near_weaken _ _ _ _ _ _ N); [lra| |rewrite u_val; lra]. match goal with |- IZR ?a / 4 <= _ => let h := eval vm_compute in a in change a with h end. lra.
Qed.
Lemma DZ2 : rg (2 * DZ) (-40) 40.
Proof. assert (D := DZb). assert (P := DZp). split; [apply Rle_trans with (bp (-30)); [apply bpow_le; lia|lra]|]. apply Rle_trans with (bp 11); [|apply bpow_le; lia]. change 11%Z with (10 + 1)%Z. rewrite bp_succ. lra. Qed.

(** ** Away from the axis *)
Section Off.
Hypothesis HR : DR / 2 <= RR.
Notation a64 := (b64_mul (b64_div q (b64_mul (b64_mul (b64_mul (b64_mul (b64_of_Z 2) PI64) ddz) ddr) r)) PI64).
Lemma Rp : 0 < RR. Proof. assert (P := DRp). lra. Qed.
Lemma g_r : good r RR RR (Sh 0 (-31) 30 true).
Proof.
  apply good_exact; [exact (pl_r _ _ _ _ _ _ HP)|reflexivity|]. destruct xb as (B & E). assert (D := DRb). assert (P := DRp). split.
  - change (-30)%Z with (-31 + 1)%Z in D. rewrite bp_succ in D. lra.
  - change 30%Z with (20 + 10)%Z. rewrite bpow_plus. change (bp 20) with 1048576. rewrite E. apply Rmult_le_compat; lra.
Qed.
Lemma PIp : 0 < c_PI. Proof. unfold c_PI. lra. Qed.
Definition MA : R := Rabs Q / (2 * DZ * DR * RR).
Lemma MA_eq : Rabs Q / (2 * c_PI * DZ * DR * RR) * c_PI = MA. Proof. assert (P := DRp). assert (P1 := DZp). assert (P2 := Rp). assert (P3 := PIp). unfold MA. field. repeat split; lra. Qed.
Lemma a_near : near a64 (Q / (2 * DZ * DR * RR)) MA 13 /\ rg MA (-400) 400.
Proof.
  assert (GS := goods_cons _ _ _ _ _ _ _ _ good_PI (goods_cons _ _ _ _ _ _ _ _ g_dz (goods_cons _ _ _ _ _ _ _ _ g_dr (goods_cons _ _ _ _ _ _ _ _ g_2 (goods_cons _ _ _ _ _ _ _ _ g_q (goods_cons _ _ _ _ _ _ _ _ g_r goods_nil)))))).
  assert (G := analysed _ _ _ _ (Ti (Di (V 4) (Ti (Ti (Ti (Ti (V 3) (V 0)) (V 1)) (V 2)) (V 5))) (V 0)) _ GS eq_refl). cbn [eb er em nth] in G.
  assert (P := DRp). assert (P1 := DZp). assert (P2 := Rp). assert (P3 := PIp). rewrite MA_eq in G.
  assert (E : Q / (2 * c_PI * DZ * DR * RR) * c_PI = Q / (2 * DZ * DR * RR)) by (field; repeat split; lra). rewrite E in G.
  destruct G as (N & R & _). cbn [s_lo s_hi s_k] in *. split; [|apply (rg_weaken _ _ _ _ _ R); vm_compute; discriminate].
  apply (near_weaken _ _ _ _ _ _ N); [lra| |rewrite u_val; lra]. match goal with |- IZR ?a / 4 <= _ => let h := eval vm_compute in a in change a with h end. lra.
Qed.
Notation ch := (b64_mul (b64_add (b64_of_Z c) half) ddr).
Notation rm := (b64_sub r (b64_mul half ddr)).
Notation rp := (b64_add r (b64_mul half ddr)).
Lemma Gr : goods [b64_add (b64_of_Z c) half; ddr; r; half] [IZR c + 1 / 2; DR; RR; / 2] [IZR c + 1 / 2; DR; RR; / 2] [Sh 0 (-1) 21 true; Sh 0 (-30) 10 true; Sh 0 (-31) 30 true; Sh 0 (-1) (-1) true].
Proof. apply goods_cons; [apply (kh_ok _ _ _ AR); destruct cell_c as (C & _); lia|]. apply goods_cons; [exact g_dr|]. apply goods_cons; [exact g_r|]. apply goods_cons; [exact g_half|]. exact goods_nil. Qed.
Lemma x_near : 0 <= 9 * (x + 1) <= 16777216. Proof. destruct xb as (B & _). lra. Qed.
Lemma MC_rg : rg (4 * RR * DR) (-100) 100.
Proof. assert (G := rg_mul _ _ _ _ _ _ (rg_mul _ _ _ _ _ _ (proj1 (proj2 g_4)) (proj1 (proj2 g_r))) (proj1 (proj2 g_dr))). cbn [s_lo s_hi] in G. apply (rg_weaken _ _ _ _ _ G); lia. Qed.
Lemma em_ok : 33 / 4 * ((IZR c + 1 / 2) * DR * ((IZR c + 1 / 2) * DR) + (RR + / 2 * DR) * (RR + / 2 * DR)) <= 9 * (x + 1) * (4 * RR * DR).
Proof.
  destruct cell_c as (C & (O & _) & _). destruct xb as (B & E). assert (P := DRp). assert (P2 := Rp). assert (C0 : 0 <= IZR c) by (apply IZR_le; lia).
  assert (S : (IZR c + 1 / 2) * DR * ((IZR c + 1 / 2) * DR) <= (RR + / 2 * DR) * (RR + / 2 * DR)). { assert (0 <= IZR c * DR) by (apply Rmult_le_pos; lra). apply Rmult_le_compat; lra. }
  assert (T : (RR + / 2 * DR) * (RR + / 2 * DR) <= (2 * RR) * (RR + / 2 * DR)) by (apply Rmult_le_compat_r; lra).
  replace (9 * (x + 1) * (4 * RR * DR)) with (36 * RR * (RR + DR)) by (rewrite E; ring). assert (0 <= RR * RR) by (apply Rmult_le_pos; lra). assert (0 <= RR * DR) by (apply Rmult_le_pos; lra).
  replace (2 * RR * (RR + / 2 * DR)) with (2 * (RR * RR) + RR * DR) in T by field. replace (36 * RR * (RR + DR)) with (36 * (RR * RR) + 36 * (RR * DR)) by ring. lra.
Qed.
Lemma ring0_near : near (b64_sub (b64_mul ch ch) (b64_mul rm rm)) (2 * RR * DR * fr0 DR c RR) (4 * RR * DR) (9 * (x + 1)).
Proof.
  assert (G := analysed _ _ _ _ (Mi (Ti (Ti (V 0) (V 1)) (Ti (V 0) (V 1))) (Ti (Mi (V 2) (Ti (V 3) (V 1))) (Mi (V 2) (Ti (V 3) (V 1))))) _ Gr eq_refl). cbn [eb er em nth] in G.
  destruct cell_c as (C & O & E8). destruct xb as (B & E). assert (P := DRp). assert (P2 := Rp). assert (X := x_near). assert (U := u_pos).
  destruct (fr_bounds DR c RR (2 * u * (x + 1)) P ltac:(lia) ltac:(split; [assert (0 <= u * (x + 1)) by (apply Rmult_le_pos; lra); lra|exact E8]) HR O) as (F0 & _).
  assert (XE : (IZR c + 1 / 2) * DR * ((IZR c + 1 / 2) * DR) - (RR - / 2 * DR) * (RR - / 2 * DR) = 2 * RR * DR * fr0 DR c RR) by (unfold fr0; field; lra). rewrite XE in G.
  assert (RD : 0 < RR * DR) by (apply Rmult_lt_0_compat; lra).
  apply (rescale _ _ _ _ _ _ G); [| |lra|rewrite u_val; lra].
  - rewrite Rabs_mult, (Rabs_pos_eq (2 * RR * DR)) by lra. replace (4 * RR * DR) with (2 * RR * DR * 2) by ring. apply Rmult_le_compat_l; [lra|]. apply Rabs_le. lra.
  - cbn [s_k]. match goal with |- IZR ?a / 4 * _ <= _ => change a with 33%Z end. exact em_ok.
Qed.
Lemma ring1_near : near (b64_sub (b64_mul rp rp) (b64_mul ch ch)) (2 * RR * DR * fr1 DR c RR) (4 * RR * DR) (9 * (x + 1)).
Proof.
  assert (G := analysed _ _ _ _ (Mi (Ti (Pl (V 2) (Ti (V 3) (V 1))) (Pl (V 2) (Ti (V 3) (V 1)))) (Ti (Ti (V 0) (V 1)) (Ti (V 0) (V 1)))) _ Gr eq_refl). cbn [eb er em nth] in G.
  destruct cell_c as (C & O & E8). destruct xb as (B & E). assert (P := DRp). assert (P2 := Rp). assert (X := x_near). assert (U := u_pos).
  destruct (fr_bounds DR c RR (2 * u * (x + 1)) P ltac:(lia) ltac:(split; [assert (0 <= u * (x + 1)) by (apply Rmult_le_pos; lra); lra|exact E8]) HR O) as (_ & F0 & _).
  assert (XE : (RR + / 2 * DR) * (RR + / 2 * DR) - (IZR c + 1 / 2) * DR * ((IZR c + 1 / 2) * DR) = 2 * RR * DR * fr1 DR c RR) by (unfold fr1; field; lra). rewrite XE in G.
  assert (RD : 0 < RR * DR) by (apply Rmult_lt_0_compat; lra).
  apply (rescale _ _ _ _ _ _ G); [| |lra|rewrite u_val; lra].
  - rewrite Rabs_mult, (Rabs_pos_eq (2 * RR * DR)) by lra. replace (4 * RR * DR) with (2 * RR * DR * 2) by ring. apply Rmult_le_compat_l; [lra|]. apply Rabs_le. lra.
  - cbn [s_k]. match goal with |- IZR ?a / 4 * _ <= _ => change a with 33%Z end. rewrite Rplus_comm. exact em_ok.
Qed.
Definition T : R := x + y + 4.
Definition okv (v : b64) (V w : R) : Prop := fin v /\ Rabs (B2R v * V - Q * w) <= 100 * u * T * Rabs Q.
Lemma off_value : forall w64 y64 v64 f h V, near w64 (DZ * f) (2 * DZ) (4 * (y + 1)) -> near y64 (2 * RR * DR * h) (4 * RR * DR) (9 * (x + 1)) -> near v64 V V 10 -> rg V (-100) 100 ->
  okv (b64_div (b64_mul (b64_mul a64 w64) y64) v64) V (h * f).
Proof.
  intros w64 y64 v64 f h V NW NY NV RV. destruct a_near as (NA & RA). assert (P := DRp). assert (P1 := DZp). assert (P2 := Rp). assert (U := u_pos). destruct xb as (XB & _). destruct yb as (YB & _).
  destruct (value_ok _ _ _ _ _ _ _ _ _ _ _ _ _ _ _ NA NW NY NV (rg_pos _ _ _ RV) ltac:(lra) y_near x_near ltac:(lra) RA DZ2 MC_rg RV) as (F & E). split; [exact F|].
  replace (Q / (2 * DZ * DR * RR) * (DZ * f) * (2 * RR * DR * h)) with (Q * (h * f)) in E by (field; repeat split; lra).
  replace (MA * (2 * DZ) * (4 * RR * DR)) with (4 * Rabs Q) in E by (unfold MA; field; repeat split; lra). apply Rle_trans with (1 := E).
  replace ((13 + 4 * (y + 1) + 9 * (x + 1) + 10 + 10) * (1 + / 500) * u * (4 * Rabs Q)) with ((13 + 4 * (y + 1) + 9 * (x + 1) + 10 + 10) * (1 + / 500) * 4 * (u * Rabs Q)) by ring.
  replace (100 * u * T * Rabs Q) with (100 * T * (u * Rabs Q)) by ring. apply Rmult_le_compat_r; [apply Rmult_le_pos; [lra|apply Rabs_pos]|]. unfold T. lra.
Qed.
End Off.

(** ** Close to the axis *)
Section Near.
Hypothesis HR : RR <= DR / 2.
Definition den : R := 2 * RR * RR + DR * DR / 2.
Lemma R0 : 0 <= RR. Proof. exact (proj1 (pl_r_in _ _ _ _ _ _ HP)). Qed.
Lemma g_r' : good r RR DR (Sh 0 (-30) 10 false).
Proof.
  assert (P := DRp). assert (Z0 := R0). split; [|split; [exact DRb|discriminate]]; cbn [s_k]. replace (0 / 4) with 0 by lra. apply near_exact; [exact (pl_r _ _ _ _ _ _ HP)|rewrite Rabs_pos_eq; lra].
Qed.
Lemma Gn : goods [ddr; r; b64_of_Z 2; half; b64_add (b64_of_Z 0) half] [DR; RR; 2; / 2; 0 + 1 / 2] [DR; DR; 2; / 2; 0 + 1 / 2]
  [Sh 0 (-30) 10 true; Sh 0 (-30) 10 false; Sh 0 1 1 true; Sh 0 (-1) (-1) true; Sh 0 (-1) 21 true].
Proof.
  apply goods_cons; [exact g_dr|]. apply goods_cons; [exact g_r'|]. apply goods_cons; [exact g_2|]. apply goods_cons; [exact g_half|]. apply goods_cons; [|exact goods_nil].
  apply (kh_ok _ _ _ AR 0). destruct (ax_n _ _ _ AR). lia.
Qed.
Lemma rr_b : 0 <= RR * RR <= DR * DR / 4 /\ 0 <= RR * DR <= DR * DR / 2 /\ 0 < DR * DR.
Proof. assert (P := DRp). assert (Z0 := R0). repeat split; try (apply Rmult_le_pos; lra); try (apply Rmult_lt_0_compat; lra); nra. Qed.
Lemma den_b : DR * DR / 2 <= den <= DR * DR. Proof. destruct rr_b as (A1 & A2 & A3). unfold den. lra. Qed.
Notation den64 := (b64_add (b64_mul (b64_mul (b64_of_Z 2) r) r) (b64_div (b64_mul ddr ddr) (b64_of_Z 2))).
Lemma DR2_rg : rg (DR * DR) (-60) 20.
Proof. exact (rg_mul _ _ _ _ _ _ (proj1 (proj2 g_dr)) (proj1 (proj2 g_dr))). Qed.
Lemma g_den : good den64 den den (Sh 92 (-61) 20 true).
Proof.
  assert (G := analysed _ _ _ _ (Pl (Ti (Ti (V 2) (V 1)) (V 1)) (Di (Ti (V 0) (V 0)) (V 2))) _ Gn eq_refl). cbn [eb er em nth] in G. change (2 * RR * RR + DR * DR / 2) with den in G.
  assert (B := den_b). destruct rr_b as (A1 & A2 & A3). assert (R2 := DR2_rg). split; [|split; [split|]]; cbn [s_k s_lo s_hi s_rel].
  - apply (rescale _ _ _ _ _ _ G); [rewrite Rabs_pos_eq; lra| |lra|rewrite u_val; lra]. cbn [s_k]. match goal with |- IZR ?a / 4 * _ <= _ => let h := eval vm_compute in a in change a with h end. lra.
  - destruct R2 as (R2 & _). change (-60)%Z with (-61 + 1)%Z in R2. rewrite bp_succ in R2. lra.
  - destruct R2 as (_ & R2). lra.
  - intros _. split; [lra|]. rewrite Rabs_pos_eq; lra.
Qed.
Notation a64 := (b64_mul (b64_div q (b64_mul (b64_mul PI64 ddz) den64)) PI64).
Definition MN : R := Rabs Q / (DZ * den).
Lemma an_near : near a64 (Q / (DZ * den)) MN 33 /\ rg MN (-400) 400.
Proof.
  assert (GS := goods_cons _ _ _ _ _ _ _ _ good_PI (goods_cons _ _ _ _ _ _ _ _ g_dz (goods_cons _ _ _ _ _ _ _ _ g_den (goods_cons _ _ _ _ _ _ _ _ g_q goods_nil)))).
  assert (G := analysed _ _ _ _ (Ti (Di (V 3) (Ti (Ti (V 0) (V 1)) (V 2))) (V 0)) _ GS eq_refl). cbn [eb er em nth] in G.
  assert (P := DRp). assert (P1 := DZp). assert (B := den_b). destruct rr_b as (_ & _ & A3). assert (P3 := PIp).
  assert (E : Q / (c_PI * DZ * den) * c_PI = Q / (DZ * den)) by (field; repeat split; lra). rewrite E in G.
  assert (E1 : Rabs Q / (c_PI * DZ * den) * c_PI = MN) by (unfold MN; field; repeat split; lra). rewrite E1 in G.
  destruct G as (N & R & _). cbn [s_lo s_hi s_k] in *. split; [|apply (rg_weaken _ _ _ _ _ R); vm_compute; discriminate].
  apply (near_weaken _ _ _ _ _ _ N); [lra| |rewrite u_val; lra]. match goal with |- IZR ?a / 4 <= _ => let h := eval vm_compute in a in change a with h end. lra.
Qed.
Definition hn0 : R := (DR * DR / 2 - RR * DR + RR * RR) / den.
Definition hn1 : R := ((RR + DR / 2) * (RR + DR / 2) - DR / 2 * (DR / 2)) / den.
Lemma hn_sum : hn0 + hn1 = 1.
Proof. assert (B := den_b). destruct rr_b as (_ & _ & A3). unfold hn0, hn1. unfold den at 1 2. unfold den in B. field. lra. Qed.
Lemma disc_near : near (b64_add (b64_sub (b64_div (b64_mul ddr ddr) (b64_of_Z 2)) (b64_mul r ddr)) (b64_mul r r)) (den * hn0) (DR * DR) 22.
Proof.
  assert (G := analysed _ _ _ _ (Pl (Mi (Di (Ti (V 0) (V 0)) (V 2)) (Ti (V 1) (V 0))) (Ti (V 1) (V 1))) _ Gn eq_refl). cbn [eb er em nth] in G.
  assert (B := den_b). destruct rr_b as (A1 & A2 & A3). assert (E : DR * DR / 2 - RR * DR + RR * RR = den * hn0) by (unfold hn0; field; lra).
  assert (N := rescale _ _ _ _ (DR * DR) 22 G). rewrite E in N. apply N; [|match goal with |- IZR ?a / 4 * _ <= _ => let h := eval vm_compute in a in change a with h end; lra|lra|rewrite u_val; lra].
  rewrite <- E. apply Rabs_le. lra.
Qed.
Notation ch := (b64_mul (b64_add (b64_of_Z 0) half) ddr).
Notation rp := (b64_add r (b64_mul half ddr)).
Lemma outer_near : near (b64_sub (b64_mul rp rp) (b64_mul ch ch)) (den * hn1) (DR * DR) 22.
Proof.
  assert (G := analysed _ _ _ _ (Mi (Ti (Pl (V 1) (Ti (V 3) (V 0))) (Pl (V 1) (Ti (V 3) (V 0)))) (Ti (Ti (V 4) (V 0)) (Ti (V 4) (V 0)))) _ Gn eq_refl). cbn [eb er em nth] in G.
  assert (B := den_b). destruct rr_b as (A1 & A2 & A3). assert (E : (RR + / 2 * DR) * (RR + / 2 * DR) - (0 + 1 / 2) * DR * ((0 + 1 / 2) * DR) = den * hn1) by (unfold hn1; field; lra).
  assert (N := rescale _ _ _ _ (DR * DR) 22 G). rewrite E in N. apply N; [|match goal with |- IZR ?a / 4 * _ <= _ => let h := eval vm_compute in a in change a with h end|lra|rewrite u_val; lra].
  - replace (den * hn1) with (RR * RR + RR * DR) by (unfold hn1; field; lra). apply Rabs_le. lra.
  - replace ((DR + / 2 * DR) * (DR + / 2 * DR) + (0 + 1 / 2) * DR * ((0 + 1 / 2) * DR)) with (5 / 2 * (DR * DR)) by field. lra.
Qed.
Lemma near_value : forall w64 y64 v64 f h V, near w64 (DZ * f) (2 * DZ) (4 * (y + 1)) -> near y64 (den * h) (DR * DR) 22 -> near v64 V V 10 -> rg V (-100) 100 ->
  okv (b64_div (b64_mul (b64_mul a64 w64) y64) v64) V (h * f).
Proof.
  intros w64 y64 v64 f h V NW NY NV RV. destruct an_near as (NA & RA). assert (P := DRp). assert (P1 := DZp). assert (U := u_pos). destruct xb as (XB & _). destruct yb as (YB & _). assert (B := den_b). destruct rr_b as (_ & _ & A3).
  destruct (value_ok _ _ _ _ _ _ _ _ _ _ _ _ _ _ _ NA NW NY NV (rg_pos _ _ _ RV) ltac:(lra) y_near ltac:(lra) ltac:(lra) RA DZ2 (rg_weaken _ _ _ (-100) 100 DR2_rg ltac:(lia) ltac:(lia)) RV) as (F & E). split; [exact F|].
  replace (Q / (DZ * den) * (DZ * f) * (den * h)) with (Q * (h * f)) in E by (field; repeat split; lra). apply Rle_trans with (1 := E).
  assert (ML : MN * (2 * DZ) * (DR * DR) <= 4 * Rabs Q).
  { replace (MN * (2 * DZ) * (DR * DR)) with (2 * Rabs Q * (DR * DR / den)) by (unfold MN; field; repeat split; lra). assert (DR * DR / den <= 2).
    { apply Rmult_le_reg_r with den; [lra|]. unfold Rdiv. rewrite Rmult_assoc, Rinv_l by lra. lra. } assert (AQ := Rabs_pos Q). nra. }
  apply Rle_trans with ((33 + 4 * (y + 1) + 22 + 10 + 10) * (1 + / 500) * u * (4 * Rabs Q)).
  { apply Rmult_le_compat_l; [|exact ML]. repeat apply Rmult_le_pos; lra. }
  replace ((33 + 4 * (y + 1) + 22 + 10 + 10) * (1 + / 500) * u * (4 * Rabs Q)) with ((33 + 4 * (y + 1) + 22 + 10 + 10) * (1 + / 500) * 4 * (u * Rabs Q)) by ring.
  replace (100 * u * T * Rabs Q) with (100 * T * (u * Rabs Q)) by ring. apply Rmult_le_compat_r; [apply Rmult_le_pos; [lra|apply Rabs_pos]|]. unfold T. lra.
Qed.
End Near.

Lemma half_exact : forall v : b64, bp (-1000) <= B2R v -> rnd (B2R v / 2) = B2R v / 2.
Proof.
  intros v H. replace (B2R v / 2) with (B2R v * bp (-1)) by (change (bp (-1)) with (/ 2); reflexivity). unfold rnd. apply round_generic; [apply valid_rnd_N|].
  change (SpecFloat.fexp prec64 emax64) with (FLT_exp (-1074) 53). apply mult_bpow_exact_FLT; [exact (generic_format_B2R prec64 emax64 v)|].
  assert (M : (-999 <= mag radix2 (B2R v))%Z) by (apply mag_ge_bpow; rewrite Rabs_pos_eq; [exact H|]; assert (P := bpow_gt_0 radix2 (-1000)); lra). lia.
Qed.
Lemma half_dr : fin (b64_div ddr (b64_of_Z 2)) /\ B2R (b64_div ddr (b64_of_Z 2)) = DR / 2.
Proof.
  assert (D := DRb). assert (P := DRp). destruct (of_Z_exact 2 eq_refl) as (F2 & E2). destruct (div_ok ddr (b64_of_Z 2) (fin_d _ _ _ AR) ltac:(rewrite E2; lra)) as (F & E).
  - rewrite E2, Rabs_pos_eq by lra. apply Rle_trans with (bp 10); [lra|apply bpow_le; lia].
  - split; [exact F|]. rewrite E, E2. apply half_exact. apply Rle_trans with (bp (-30)); [apply bpow_le; lia|lra].
Qed.

Theorem four_values : exists v00 v10 v01 v11 h0 h1, gcharge_weighting_single A g q r z = [GInc A c k v00; GInc A (c + 1) k v10; GInc A c (k + 1) v01; GInc A (c + 1) (k + 1) v11] /\
  okv v00 (node_volume DR DZ c) (h0 * fz0 DZ k ZZ) /\ okv v10 (node_volume DR DZ (c + 1)) (h1 * fz0 DZ k ZZ) /\
  okv v01 (node_volume DR DZ c) (h0 * fz1 DZ k ZZ) /\ okv v11 (node_volume DR DZ (c + 1)) (h1 * fz1 DZ k ZZ) /\
  h0 + h1 = 1 /\ (DR / 2 <= RR -> h0 = fr0 DR c RR /\ h1 = fr1 DR c RR).
Proof.
  assert (P := DRp). destruct cell_c as (C & O & E8). destruct (ax_n _ _ _ AR) as (_ & NR). assert (Fr := pl_r _ _ _ _ _ _ HP). assert (Fd := fin_d _ _ _ AR).
  assert (CP : (1 <= c)%Z <-> DR < RR). { apply (cell64_pos _ _ _ AR); [exact Fr|]. rewrite Rabs_pos_eq by exact (proj1 (pl_r_in _ _ _ _ _ _ HP)). unfold len. destruct xb as (XB & XE). rewrite XE. apply Rmult_le_compat_r; lra. }
  destruct (vol_pos (c + 1) ltac:(lia)) as (NV1 & RV1). assert (W1 := w1_near). assert (W2 := w2_near).
  assert (OFF : forall v, DR / 2 <= RR -> near v (node_volume DR DZ c) (node_volume DR DZ c) 10 -> rg (node_volume DR DZ c) (-100) 100 ->
    let ro := b64_div q (b64_mul (b64_mul (b64_mul (b64_mul (b64_of_Z 2) PI64) ddz) ddr) r) in
    let r1 := b64_sub r (b64_mul half ddr) in let r2 := b64_mul (b64_add (b64_of_Z c) half) ddr in let r3 := b64_add r (b64_mul half ddr) in
    let l := [GInc A c k (gRNG A ro w1 r1 r2 v); GInc A (c + 1) k (gRNG A ro w1 r2 r3 (gCELL_VOLUME A (c + 1) ddr ddz)); GInc A c (k + 1) (gRNG A ro w2 r1 r2 v); GInc A (c + 1) (k + 1) (gRNG A ro w2 r2 r3 (gCELL_VOLUME A (c + 1) ddr ddz))] in
    exists v00 v10 v01 v11 h0 h1, l = [GInc A c k v00; GInc A (c + 1) k v10; GInc A c (k + 1) v01; GInc A (c + 1) (k + 1) v11] /\
  okv v00 (node_volume DR DZ c) (h0 * fz0 DZ k ZZ) /\ okv v10 (node_volume DR DZ (c + 1)) (h1 * fz0 DZ k ZZ) /\
  okv v01 (node_volume DR DZ c) (h0 * fz1 DZ k ZZ) /\ okv v11 (node_volume DR DZ (c + 1)) (h1 * fz1 DZ k ZZ) /\
  h0 + h1 = 1 /\ (DR / 2 <= RR -> h0 = fr0 DR c RR /\ h1 = fr1 DR c RR)).
  { intros v HR NV RV ro r1 r2 r3 l. assert (U := u_pos). destruct xb as (XB & _). destruct (fr_bounds DR c RR (2 * u * (x + 1)) P ltac:(lia) ltac:(split; [assert (0 <= u * (x + 1)) by (apply Rmult_le_pos; lra); lra|exact E8]) HR O) as (_ & _ & S).
    do 6 eexists. split; [reflexivity|]. split; [exact (off_value HR _ _ _ _ _ _ W1 (ring0_near HR) NV RV)|]. split; [exact (off_value HR _ _ _ _ _ _ W1 (ring1_near HR) NV1 RV1)|].
    split; [exact (off_value HR _ _ _ _ _ _ W2 (ring0_near HR) NV RV)|]. split; [exact (off_value HR _ _ _ _ _ _ W2 (ring1_near HR) NV1 RV1)|]. split; [exact S|]. intros _. split; reflexivity. }
  unfold gcharge_weighting_single. change (ltb A (gdr A g) r) with (Bltb ddr r). destruct (Bltb ddr r) eqn:EB.
  - apply ltb_ok in EB; [|exact Fd|exact Fr]. assert (C1 := proj2 CP EB). destruct (vol_pos c ltac:(lia)) as (NV & RV). exact (OFF _ ltac:(lra) NV RV).
  - assert (RL : RR <= DR). { apply Rnot_lt_le. intro L. apply ltb_ok in L; [|exact Fd|exact Fr]. congruence. }
    assert (CZ : c = 0%Z). { destruct (Z_le_gt_dec 1 c) as [K|K]; [apply CP in K; lra|lia]. } destruct vol_0 as (NV & RV).
    change (leb A r (div A (gdr A g) (of_int A 2))) with (Bleb r (b64_div ddr (b64_of_Z 2))). destruct half_dr as (FH & EH). destruct (Bleb r (b64_div ddr (b64_of_Z 2))) eqn:EL.
    + apply leb_ok in EL; [|exact Fr|exact FH]. rewrite EH in EL. rewrite CZ in NV1, RV1 |- *. cbv zeta. assert (U := u_pos).
      do 6 eexists. split; [reflexivity|]. split; [exact (near_value EL _ _ _ _ _ _ W1 (disc_near EL) NV RV)|]. split; [exact (near_value EL _ _ _ _ _ _ W1 (outer_near EL) NV1 RV1)|].
      split; [exact (near_value EL _ _ _ _ _ _ W2 (disc_near EL) NV RV)|]. split; [exact (near_value EL _ _ _ _ _ _ W2 (outer_near EL) NV1 RV1)|]. split; [exact (hn_sum EL)|].
      intro RG. assert (RE : RR = DR / 2) by lra. assert (DE : den = DR * DR) by (unfold den; rewrite RE; field). unfold hn0, hn1, fr0, fr1. rewrite DE, RE. split; field; lra.
    + assert (RH : DR / 2 <= RR). { rewrite <- EH. apply Rnot_lt_le. intro L. apply Rlt_le in L. apply leb_ok in L; [|exact Fr|exact FH]. congruence. }
      rewrite <- CZ in NV, RV. exact (OFF _ RH NV RV).
Qed.

(** ** The two theorems *)
Notation plain := (map (fun x : ginc A => Inc (grow A x) (gcol A x) (B2R (gval A x : b64)))).
Lemma counted_at : forall l i j, counted pw lg l i j = inc_at (plain l) i j.
Proof.
  intros l i j. unfold counted, inc_at. induction l as [|a l IH]; [reflexivity|]. cbn [map rsum fold_right row col val]. rewrite IH. rewrite (Z.eqb_sym i), (Z.eqb_sym j). reflexivity.
Qed.
Lemma T_pos : 0 <= u * T * Rabs Q /\ 0 <= u * T.
Proof. destruct xb as (XB & _). destruct yb as (YB & _). assert (U := u_pos). assert (0 <= u * T) by (unfold T; apply Rmult_le_pos; lra). split; [apply Rmult_le_pos; [assumption|apply Rabs_pos]|assumption]. Qed.
Theorem values_finite : finite_values pw lg (gcharge_weighting_single A g q r z).
Proof.
  destruct four_values as (v00 & v10 & v01 & v11 & h0 & h1 & E & (F1 & _) & (F2 & _) & (F3 & _) & (F4 & _) & _). unfold finite_values. rewrite E.
  apply Forall_cons; [exact F1|]. apply Forall_cons; [exact F2|]. apply Forall_cons; [exact F3|]. apply Forall_cons; [exact F4|]. apply Forall_nil.
Qed.
Lemma prod_close : forall f h s t a b, Rabs (f - s) <= a -> Rabs (h - t) <= b -> Rabs f <= 2 -> Rabs t <= 2 -> Rabs (f * h - s * t) <= 2 * (a + b).
Proof.
  intros f h s t a b H1 H2 H3 H4. replace (f * h - s * t) with (f * (h - t) + (f - s) * t) by ring. apply Rle_trans with (1 := Rabs_triang _ _). rewrite !Rabs_mult.
  assert (P1 := Rabs_pos f). assert (P2 := Rabs_pos t). assert (P3 := Rabs_pos (h - t)). assert (P4 := Rabs_pos (f - s)).
  assert (Rabs f * Rabs (h - t) <= 2 * b) by (apply Rmult_le_compat; lra). assert (Rabs (f - s) * Rabs t <= a * 2) by (apply Rmult_le_compat; lra). lra.
Qed.
Lemma pick_2 : forall a b e i j, 0 <= e <= / 8 -> - e <= a <= 1 -> 0 <= b <= 1 + e -> Rabs (pick a b i j) <= 5 / 4.
Proof. intros a b e i j He Ha Hb. unfold pick. destruct (j =? i)%Z; [|destruct (j =? i + 1)%Z]; apply Rabs_le; lra. Qed.
Theorem node_share : DR / 2 <= RR -> forall i j,
  Rabs (counted pw lg (gcharge_weighting_single A g q r z) i j * node_volume DR DZ i - Q * share DR DZ i j RR ZZ) <= 128 * u * T * Rabs Q.
Proof.
  intros HR i j. destruct four_values as (v00 & v10 & v01 & v11 & h0 & h1 & E & (_ & V00) & (_ & V10) & (_ & V01) & (_ & V11) & S & HH). destruct (HH HR) as (-> & ->). clear HH.
  destruct cell_c as (C & OC & EC). destruct cell_k as (K & OK & EK). destruct xb as (XB & _). destruct yb as (YB & _). assert (U := u_pos). destruct T_pos as (TP & TP').
  assert (X0 : 0 <= u * (x + 1)) by (apply Rmult_le_pos; lra). assert (Y0 : 0 <= u * (y + 1)) by (apply Rmult_le_pos; lra).
  assert (BR := fr_bounds DR c RR (2 * u * (x + 1)) DRp ltac:(lia) ltac:(split; lra) HR OC). assert (BZ := fz_bounds DZ k ZZ (2 * u * (y + 1)) DZp ltac:(lra) OK). destruct BR as (BR1 & BR2 & _). destruct BZ as (BZ1 & BZ2 & _).
  assert (SR := share_r_over DR c RR (2 * u * (x + 1)) i DRp ltac:(lia) ltac:(split; lra) HR OC). assert (SZ := share_z_over DZ k ZZ (2 * u * (y + 1)) j DZp ltac:(split; lra) OK).
  assert (PR := pick_2 _ _ (2 * u * (x + 1)) c i ltac:(split; lra) BR1 BR2). assert (PZ := pick_2 _ _ (2 * u * (y + 1)) k j ltac:(split; lra) BZ1 BZ2).
  set (FR := pick (fr0 DR c RR) (fr1 DR c RR) c i) in *. set (FZ := pick (fz0 DZ k ZZ) (fz1 DZ k ZZ) k j) in *.
  assert (TZ : Rabs (share_z DZ j ZZ) <= 2). { assert (T1 := Rabs_triang_inv (share_z DZ j ZZ) FZ). rewrite Rabs_minus_sym in T1. lra. }
  assert (PC := prod_close FR FZ _ _ _ _ SR SZ ltac:(lra) TZ). fold (share DR DZ i j RR ZZ) in PC.
  assert (D : Rabs (counted pw lg (gcharge_weighting_single A g q r z) i j * node_volume DR DZ i - Q * (FR * FZ)) <= 100 * u * T * Rabs Q).
  { rewrite counted_at, E. cbn [map grow gcol gval]. rewrite inc_at4. unfold FR, FZ, pick.
    assert (ZR : forall a, a = 0 -> Rabs a <= 100 * u * T * Rabs Q) by (intros a ->; rewrite Rabs_R0; lra).
    destruct (Z.eqb_spec i c) as [->|N]; [|destruct (Z.eqb_spec i (c + 1)) as [->|N1]]; [destruct (Z.eqb_spec j k) as [->|M]; [|destruct (Z.eqb_spec j (k + 1)) as [->|M1]]|destruct (Z.eqb_spec j k) as [->|M]; [|destruct (Z.eqb_spec j (k + 1)) as [->|M1]]|].
    - exact V00. - exact V01. - apply ZR. ring. - exact V10. - exact V11. - apply ZR. ring. - apply ZR. ring. }
  replace (counted pw lg (gcharge_weighting_single A g q r z) i j * node_volume DR DZ i - Q * share DR DZ i j RR ZZ) with
    ((counted pw lg (gcharge_weighting_single A g q r z) i j * node_volume DR DZ i - Q * (FR * FZ)) + Q * (FR * FZ - share DR DZ i j RR ZZ)) by ring.
  apply Rle_trans with (1 := Rabs_triang _ _). rewrite (Rabs_mult Q).
  assert (M : Rabs Q * Rabs (FR * FZ - share DR DZ i j RR ZZ) <= Rabs Q * (8 * (u * T))).
  { apply Rmult_le_compat_l; [apply Rabs_pos|]. apply Rle_trans with (1 := PC). replace (2 * (2 * (2 * u * (x + 1)) + 2 * (2 * u * (y + 1)))) with (8 * (u * (x + y + 2))) by ring.
    apply Rmult_le_compat_l; [lra|]. apply Rmult_le_compat_l; [lra|]. unfold T. lra. }
  replace (128 * u * T * Rabs Q) with (128 * (u * T * Rabs Q)) by ring. replace (100 * u * T * Rabs Q) with (100 * (u * T * Rabs Q)) in D by ring. replace (Rabs Q * (8 * (u * T))) with (8 * (u * T * Rabs Q)) in M by ring. lra.
Qed.
Theorem charge_total : Rabs (grid_charge (gn_r A g) (gn_z A g) DR DZ (counted pw lg (gcharge_weighting_single A g q r z)) - Q) <= 512 * u * T * Rabs Q.
Proof.
  destruct four_values as (v00 & v10 & v01 & v11 & h0 & h1 & E & (_ & V00) & (_ & V10) & (_ & V01) & (_ & V11) & S & _).
  destruct cell_c as (C & _). destruct cell_k as (K & OK & _). destruct yb as (YB & _). assert (U := u_pos). destruct T_pos as (TP & TP'). assert (Y0 : 0 <= u * (y + 1)) by (apply Rmult_le_pos; lra).
  destruct (fz_bounds DZ k ZZ (2 * u * (y + 1)) DZp ltac:(lra) OK) as (_ & _ & SZ).
  assert (GC : grid_charge (gn_r A g) (gn_z A g) DR DZ (counted pw lg (gcharge_weighting_single A g q r z)) =
    B2R v00 * node_volume DR DZ c + (B2R v10 * node_volume DR DZ (c + 1) + (B2R v01 * node_volume DR DZ c + B2R v11 * node_volume DR DZ (c + 1)))).
  { unfold grid_charge. rewrite (total_ext _ _ _ _ (apply_incs zero_arr (plain (gcharge_weighting_single A g q r z)))) by (intros i j _; rewrite apply_incs_at, counted_at; unfold zero_arr; lra).
    rewrite total_apply_incs; [|rewrite E; cbn [map grow gcol gval]; repeat apply Forall_cons; try apply Forall_nil; unfold inc_inside, inside; cbn [row col]; lia].
    assert (Z0 := grid_charge_zero (gn_r A g) (gn_z A g) DR DZ). unfold grid_charge in Z0. rewrite Z0, E. cbn [map grow gcol gval rsum row val]. lra. }
  rewrite GC. set (V0 := node_volume DR DZ c) in *. set (V1 := node_volume DR DZ (c + 1)) in *. set (f0 := fz0 DZ k ZZ) in *. set (f1 := fz1 DZ k ZZ) in *.
  replace (_ - Q) with ((B2R v00 * V0 - Q * (h0 * f0)) + ((B2R v10 * V1 - Q * (h1 * f0)) + ((B2R v01 * V0 - Q * (h0 * f1)) + (B2R v11 * V1 - Q * (h1 * f1)))) + Q * ((h0 + h1) * (f0 + f1) - 1)) by ring.
  rewrite S, SZ. replace (Q * (1 * 1 - 1)) with 0 by ring. rewrite Rplus_0_r.
  apply Rle_trans with (1 := Rabs_triang _ _). apply Rle_trans with (Rabs (B2R v00 * V0 - Q * (h0 * f0)) + (Rabs (B2R v10 * V1 - Q * (h1 * f0)) + (Rabs (B2R v01 * V0 - Q * (h0 * f1)) + Rabs (B2R v11 * V1 - Q * (h1 * f1))))).
  { apply Rplus_le_compat_l. apply Rle_trans with (1 := Rabs_triang _ _). apply Rplus_le_compat_l. apply Rabs_triang. }
  replace (512 * u * T * Rabs Q) with (512 * (u * T * Rabs Q)) by ring. replace (100 * u * T * Rabs Q) with (100 * (u * T * Rabs Q)) in * by ring. lra.
Qed.
End Deposition.
