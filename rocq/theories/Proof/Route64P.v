(** The currents of a whole move in binary64: legs, crossing points, composition. *)
From Coq Require Import Reals ZArith List Bool Lia Lra Psatz.
From Flocq Require Import Core IEEE754.BinarySingleNaN.
From Verif.Lib Require Import RAux Outcome Grid.
From Verif.Model Require Import Constants Binary64 Temperature64 Arith CurrentDeposit GenCode.
From Verif.Spec Require Import Cloud Continuity Double Deposit64.
From Verif.Proof Require Import GeometryP ChargeP CurrentP CurrentP2 Binary64P FloatP Axis64P Motion64P Push64P Cells64P Err64P Ana64P Log64P Leg64P Poly64P Flow64P Path64P.
Import ListNotations.
Local Open Scope R_scope.

Section Route.
Variables pw lg : b64 -> b64.
Notation A := (b64_arith pw lg).
Variables (m : R) (g : ggeom A) (dt q rn zn ro zo : b64).
Hypothesis HL : accurate_log lg.
Hypothesis HF : fine pw lg g dt.
Hypothesis HM : clean_move pw lg m g dt q rn zn ro zo.
Definition ddr : b64 := gdr A g.
Definition ddz : b64 := gdz A g.
Notation DR := (B2R ddr). Notation DZ := (B2R ddz). Notation Q := (B2R q). Notation DT := (B2R dt).
Notation RN := (B2R rn). Notation ZN := (B2R zn). Notation RO := (B2R ro). Notation ZO := (B2R zo).
Notation nr := (gn_r A g). Notation nz := (gn_z A g).
Notation simple := (gsimple_current A g dt q).

Definition dR : R := RN - RO.
Definition dZ : R := ZN - ZO.

Lemma AXR : axis nr (gr_size A g) ddr. Proof. exact (axr pw lg g dt HF). Qed.
Lemma AXZ : axis nz (gz_size A g) ddz. Proof. exact (axz pw lg g dt HF). Qed.
Lemma DRpos : 0 < DR. Proof. exact (len_pos _ _ _ AXR). Qed.
Lemma DZpos : 0 < DZ. Proof. exact (len_pos _ _ _ AXZ). Qed.
Lemma mpos : 0 < m. Proof. assert (P := bpow_gt_0 radix2 (-48)). assert (K := cm_m _ _ _ _ _ _ _ _ _ _ HM). lra. Qed.

Let ev := leg_end DR DZ RN ZN RO ZO.
Lemma ev_0 : ev 0. Proof. now left. Qed.
Lemma ev_1 : ev 1. Proof. right; now left. Qed.
Lemma dR_lo : m <= Rabs dR.
Proof. destruct (cm_legs _ _ _ _ _ _ _ _ _ _ HM 0 1 ev_0 ev_1 ltac:(lra)) as [K _]. unfold dR. lra. Qed.
Lemma dZ_lo : m <= Rabs dZ.
Proof. destruct (cm_legs _ _ _ _ _ _ _ _ _ _ HM 0 1 ev_0 ev_1 ltac:(lra)) as [_ K]. unfold dZ. lra. Qed.
Lemma dR_hi : Rabs dR <= 9 / 10 * DR. Proof. exact (cm_r _ _ _ _ _ _ _ _ _ _ HM). Qed.
Lemma dZ_hi : Rabs dZ <= 9 / 10 * DZ. Proof. exact (cm_z _ _ _ _ _ _ _ _ _ _ HM). Qed.

(** The shortest leg, as a fraction of the path. *)
Definition mu : R := Rmax (m / Rabs dR) (m / Rabs dZ).
Lemma mu_r : m / Rabs dR <= mu. Proof. apply Rmax_l. Qed.
Lemma mu_z : m / Rabs dZ <= mu. Proof. apply Rmax_r. Qed.
Lemma mu_pos : 0 < mu.
Proof. assert (P := mpos). assert (L := dR_lo). apply Rlt_le_trans with (2 := mu_r). apply Rmult_lt_0_compat; [exact P|apply Rinv_0_lt_compat; lra]. Qed.
Lemma mu_mr : m <= mu * Rabs dR.
Proof. assert (P := mpos). assert (L := dR_lo). assert (K := mu_r). apply Rmult_le_compat_r with (r := Rabs dR) in K; [|lra]. unfold Rdiv in K. rewrite Rmult_assoc, Rinv_l in K by lra. lra. Qed.
Lemma mu_mz : m <= mu * Rabs dZ.
Proof. assert (P := mpos). assert (L := dZ_lo). assert (K := mu_z). apply Rmult_le_compat_r with (r := Rabs dZ) in K; [|lra]. unfold Rdiv in K. rewrite Rmult_assoc, Rinv_l in K by lra. lra. Qed.
Lemma gap_mu : forall t t', ev t -> ev t' -> t < t' -> t + mu <= t'.
Proof.
  intros t t' E E' T. destruct (cm_legs _ _ _ _ _ _ _ _ _ _ HM t t' E E' T) as [K1 K2]. fold dR in K1. fold dZ in K2. assert (P := mpos). assert (L1 := dR_lo). assert (L2 := dZ_lo).
  assert (mu <= t' - t); [|lra]. unfold mu. apply Rmax_lub.
  - apply Rmult_le_reg_r with (Rabs dR); [lra|]. unfold Rdiv. rewrite Rmult_assoc, Rinv_l by lra. lra.
  - apply Rmult_le_reg_r with (Rabs dZ); [lra|]. unfold Rdiv. rewrite Rmult_assoc, Rinv_l by lra. lra.
Qed.
Lemma mu_1 : mu <= 1. Proof. assert (K := gap_mu 0 1 ev_0 ev_1 ltac:(lra)). lra. Qed.

(** A point that the program computes for the parameter [t]. *)
Definition at_t (t : R) (r z : b64) : Prop :=
  fin r /\ fin z /\ Rabs (B2R r - (RO + t * dR)) <= mu / 32 * Rabs dR /\ Rabs (B2R z - (ZO + t * dZ)) <= mu / 32 * Rabs dZ.
Lemma at_0 : at_t 0 ro zo.
Proof.
  assert (P := mu_pos). assert (H1 := Rabs_pos dR). assert (H2 := Rabs_pos dZ). split; [exact (cm_ro _ _ _ _ _ _ _ _ _ _ HM)|]. split; [exact (cm_zo _ _ _ _ _ _ _ _ _ _ HM)|].
  replace (RO - (RO + 0 * dR)) with 0 by ring. replace (ZO - (ZO + 0 * dZ)) with 0 by ring. rewrite Rabs_R0. split; apply Rmult_le_pos; lra.
Qed.
Lemma at_1 : at_t 1 rn zn.
Proof.
  assert (P := mu_pos). assert (H1 := Rabs_pos dR). assert (H2 := Rabs_pos dZ). split; [exact (cm_rn _ _ _ _ _ _ _ _ _ _ HM)|]. split; [exact (cm_zn _ _ _ _ _ _ _ _ _ _ HM)|].
  replace (RN - (RO + 1 * dR)) with 0 by (unfold dR; ring). replace (ZN - (ZO + 1 * dZ)) with 0 by (unfold dZ; ring). rewrite Rabs_R0. split; apply Rmult_le_pos; lra.
Qed.

Definition E1 : R := 1024 * u * (RO / DR + ZO / DZ + 5) * Rabs Q.
Definition E2 : R := 4 * u * (RO / DR + ZO / DZ + 3) * Rabs Q.
Notation share_in := (cell_share DR DZ).
Notation Flow := (flow pw lg DR DZ DT Q).

Lemma ltimes : forall x y b : R, 0 <= b -> x <= y -> x * b <= y * b. Proof. intros. now apply Rmult_le_compat_r. Qed.

Lemma spread : forall t t' a b D, t + mu <= t' -> Rabs (a - t * D) <= mu / 32 * Rabs D -> Rabs (b - t' * D) <= mu / 32 * Rabs D -> 15 / 16 * (mu * Rabs D) <= Rabs (b - a).
Proof.
  intros t t' a b D T HA HB. assert (P := mu_pos). assert (K : mu * Rabs D <= Rabs ((t' - t) * D)) by (rewrite Rabs_mult, (Rabs_pos_eq (t' - t)) by lra; apply Rmult_le_compat_r; [apply Rabs_pos|lra]).
  replace ((t' - t) * D) with ((b - a) + ((a - t * D) - (b - t' * D))) in K by ring. assert (T1 := Rabs_triang (b - a) ((a - t * D) - (b - t' * D))).
  assert (T2 := Rabs_triang (a - t * D) (- (b - t' * D))). rewrite Rabs_Ropp in T2. unfold Rminus in *. lra.
Qed.

Lemma leg64 : forall t t' rA zA rB zB c k, at_t t rA zA -> at_t t' rB zB -> 0 <= t -> t + mu <= t' -> t' <= 1 ->
  (0 <= c <= nr - 2)%Z -> (0 <= k <= nz - 2)%Z -> IZR c <= RO / DR + 1 -> IZR k <= ZO / DZ + 1 ->
  in_cell DR c (RO + t * dR) -> in_cell DR c (RO + t' * dR) -> in_cell DZ k (ZO + t * dZ) -> in_cell DZ k (ZO + t' * dZ) ->
  Flow E1 (simple rB zB rA zA c k) (share_in c k (B2R rB) (B2R zB)) (share_in c k (B2R rA) (B2R zA)) /\ all_finite pw lg (simple rB zB rA zA c k).
Proof.
  intros t t' rA zA rB zB c k (FrA & FzA & HrA & HzA) (FrB & FzB & HrB & HzB) T0 T T1 Hc Hk Lc Lk CA CB KA KB.
  assert (Pm := mpos). assert (PM := mu_pos). assert (M1 := mu_1). assert (PR := DRpos). assert (PZ := DZpos). assert (LR := dR_hi). assert (LZ := dZ_hi). assert (NR := n_hi _ _ _ AXR). assert (NZ := n_hi _ _ _ AXZ).
  assert (N1 := ax_n _ _ _ AXR). assert (N2 := ax_n _ _ _ AXZ). cbn in N1, N2.
  assert (C0 : 0 <= IZR c) by (apply IZR_le; lia). assert (K0 : 0 <= IZR k) by (apply IZR_le; lia).
  assert (SR : mu / 32 * Rabs dR <= 1 / 32 * (9 / 10 * DR)) by (apply Rmult_le_compat; try lra; apply Rabs_pos).
  assert (SZ : mu / 32 * Rabs dZ <= 1 / 32 * (9 / 10 * DZ)) by (apply Rmult_le_compat; try lra; apply Rabs_pos).
  assert (XA := HrA). assert (XB := HrB). assert (YA := HzA). assert (YB := HzB). apply Rabs_le_inv in XA. apply Rabs_le_inv in XB. apply Rabs_le_inv in YA. apply Rabs_le_inv in YB.
  assert (HRo := cm_ro_in _ _ _ _ _ _ _ _ _ _ HM). assert (HRn := cm_rn_in _ _ _ _ _ _ _ _ _ _ HM).
  change (gdr A g) with ddr in *. change (gdz A g) with ddz in *. fold ddr in HRo, HRn.
  destruct CA as (CA1 & CA2). destruct CB as (CB1 & CB2). destruct KA as (KA1 & KA2). destruct KB as (KB1 & KB2).
  assert (mid : forall s, 0 <= s <= 1 -> 49 / 100 * DR <= RO + s * dR).
  { intros s (S0 & S1). replace (RO + s * dR) with ((1 - s) * RO + s * RN) by (unfold dR; ring). assert (0 <= s * (RN - 49 / 100 * DR)) by (apply Rmult_le_pos; lra). assert (0 <= (1 - s) * (RO - 49 / 100 * DR)) by (apply Rmult_le_pos; lra). lra. }
  assert (MA := mid t ltac:(lra)). assert (MB := mid t' ltac:(lra)).
  assert (CD : IZR c * DR = 0 \/ DR <= IZR c * DR).
  { destruct (Z.eq_dec c 0) as [->|N]; [left; ring|right]. assert (1 <= IZR c) by (apply IZR_le; lia). nra. }
  assert (GR : 15 / 16 * m <= Rabs (B2R rB - B2R rA)).
  { assert (G1 := mu_mr). assert (S1 := spread t t' (B2R rA - RO) (B2R rB - RO) dR T). replace (B2R rA - RO - t * dR) with (B2R rA - (RO + t * dR)) in S1 by ring. replace (B2R rB - RO - t' * dR) with (B2R rB - (RO + t' * dR)) in S1 by ring. specialize (S1 HrA HrB).
    replace (B2R rB - RO - (B2R rA - RO)) with (B2R rB - B2R rA) in S1 by ring. lra. }
  assert (GZ : 15 / 16 * m <= Rabs (B2R zB - B2R zA)).
  { assert (G1 := mu_mz). assert (S1 := spread t t' (B2R zA - ZO) (B2R zB - ZO) dZ T). replace (B2R zA - ZO - t * dZ) with (B2R zA - (ZO + t * dZ)) in S1 by ring. replace (B2R zB - ZO - t' * dZ) with (B2R zB - (ZO + t' * dZ)) in S1 by ring. specialize (S1 HzA HzB).
    replace (B2R zB - ZO - (B2R zA - ZO)) with (B2R zB - B2R zA) in S1 by ring. lra. }
  assert (UR : Rabs (B2R rB - B2R rA) <= 11 / 10 * DR) by (apply Rabs_le; lra).
  assert (UZ : Rabs (B2R zB - B2R zA) <= 11 / 10 * DZ) by (apply Rabs_le; lra).
  assert (HR := len_hi _ _ _ AXR). assert (HZ := len_hi _ _ _ AXZ). unfold len in HR, HZ.
  assert (M48 := cm_m _ _ _ _ _ _ _ _ _ _ HM). assert (B48 : bp (-48) = / 281474976710656) by reflexivity. assert (B49 : bp (-49) = / 562949953421312) by reflexivity.
  assert (OK : leg_ok pw lg g dt q rB zB rA zA c k).
  { split; try assumption.
    - exact (fin_d _ _ _ AXR).
    - exact (fin_d _ _ _ AXZ).
    - apply (fine_dt _ _ _ _ HF).
    - apply (cm_q _ _ _ _ _ _ _ _ _ _ HM).
    - exact (fine_dr _ _ _ _ HF).
    - exact (fine_dz _ _ _ _ HF).
    - split; [exact (cm_dt _ _ _ _ _ _ _ _ _ _ HM)|]. assert (FC := fine_cr _ _ _ _ HF). change (gdr A g) with ddr in FC. assert (FT := fine_dt _ _ _ _ HF). rewrite bp_10. lra.
    - apply (cm_q _ _ _ _ _ _ _ _ _ _ HM).
    - cbn; lia.
    - cbn; lia.
    - change (dr64 pw lg g) with ddr. lra.
    - change (dr64 pw lg g) with ddr. lra.
    - change (dz64 pw lg g) with ddz. apply Rabs_le. assert (0 <= IZR k * DZ) by (apply Rmult_le_pos; lra). lra.
    - apply big_diff; try assumption. rewrite B49. change (bp 12) with 4096. lra.
    - apply big_diff; try assumption. rewrite B49. change (bp 12) with 4096. lra. }
  destruct (leg_flow pw lg g dt q rB zB rA zA c k OK) as (FL & FI). split; [|exact FI].
  intros i j. apply Rle_trans with (1 := FL i j). unfold leg_eps, E1. assert (UB : bp (-43) = 1024 * u) by (unfold u; change 1024 with (bp 10); rewrite <- bpow_plus; reflexivity). rewrite UB.
  assert (UP := u_pos). apply Rmult_le_compat_r; [apply Rabs_pos|]. apply Rmult_le_compat_l; lra.
Qed.

(** Neighbouring cells at a point on their border. *)
Lemma RDpos : 0 <= RO / DR /\ 0 <= ZO / DZ.
Proof.
  assert (P1 := DRpos). assert (P2 := DZpos). assert (H1 := cm_ro_in _ _ _ _ _ _ _ _ _ _ HM). assert (H2 := cm_zo_in _ _ _ _ _ _ _ _ _ _ HM). change (gdr A g) with ddr in *.
  split; unfold Rdiv; apply Rmult_le_pos; try lra; left; now apply Rinv_0_lt_compat.
Qed.
Lemma E2_pos : 0 <= E2. Proof. assert (P := RDpos). assert (U := u_pos). unfold E2. repeat apply Rmult_le_pos; try lra. apply Rabs_pos. Qed.

Lemma mis_r : forall c k (r z : b64), (0 <= c <= nr - 2)%Z -> IZR c <= RO / DR + 1 -> Rabs (B2R r - (IZR c + 1) * DR) <= u * ((IZR c + 1) * DR) ->
  (IZR k - 1 / 10) * DZ <= B2R z <= (IZR k + 1 + 1 / 10) * DZ ->
  forall i j, Rabs (Q * share_in c k (B2R r) (B2R z) i j - Q * share_in (c + 1) k (B2R r) (B2R z) i j) <= E2.
Proof.
  intros c k r z Hc Lc Hr Hz i j. assert (P1 := DRpos). assert (P2 := DZpos). assert (RD := RDpos). assert (UP := u_pos). assert (UV := u_val).
  assert (N1 := ax_n _ _ _ AXR). cbn in N1. assert (C0 : 0 <= IZR c) by (apply IZR_le; lia). assert (C1 : IZR c <= 1048574) by (apply IZR_le; lia).
  unfold cell_share. replace (Q * (PR DR c i (B2R r) * PZ DZ k j (B2R z)) - Q * (PR DR (c + 1) i (B2R r) * PZ DZ k j (B2R z))) with ((PR DR c i (B2R r) - PR DR (c + 1) i (B2R r)) * PZ DZ k j (B2R z) * Q) by ring.
  assert (SS : 0 <= u * (IZR c + 1) <= 1 / 20).
  { split; [apply Rmult_le_pos; lra|]. apply Rle_trans with (u * 1048576); [apply Rmult_le_compat_l; lra|]. lra. }
  assert (B := PR_border DR c i (B2R r) (u * (IZR c + 1)) P1 ltac:(lia) SS). assert (B' := PZ_size DZ k j (B2R z) P2 Hz).
  rewrite !Rabs_mult. unfold E2. apply Rmult_le_compat_r; [apply Rabs_pos|]. apply Rle_trans with (3 * (u * (IZR c + 1)) * (11 / 10)).
  - apply Rmult_le_compat; try apply Rabs_pos; [apply B; lra|exact B'].
  - assert (u * (IZR c + 1) <= u * (RO / DR + ZO / DZ + 3)) by (apply Rmult_le_compat_l; lra). lra.
Qed.
Lemma mis_z : forall c k (r z : b64), (0 <= c)%Z -> (0 <= k)%Z -> IZR k <= ZO / DZ + 1 -> Rabs (B2R z - (IZR k + 1) * DZ) <= u * ((IZR k + 1) * DZ) ->
  2 / 5 * DR <= B2R r -> (IZR c - 1 / 10) * DR <= B2R r <= (IZR c + 1 + 1 / 10) * DR ->
  forall i j, Rabs (Q * share_in c k (B2R r) (B2R z) i j - Q * share_in c (k + 1) (B2R r) (B2R z) i j) <= E2.
Proof.
  intros c k r z Hc Hk Lk Hz Hr1 Hr i j. assert (P1 := DRpos). assert (P2 := DZpos). assert (RD := RDpos). assert (UP := u_pos).
  assert (K0 : 0 <= IZR k) by (apply IZR_le; lia).
  unfold cell_share. replace (Q * (PR DR c i (B2R r) * PZ DZ k j (B2R z)) - Q * (PR DR c i (B2R r) * PZ DZ (k + 1) j (B2R z))) with (PR DR c i (B2R r) * (PZ DZ k j (B2R z) - PZ DZ (k + 1) j (B2R z)) * Q) by ring.
  assert (SS : 0 <= u * (IZR k + 1)) by (apply Rmult_le_pos; lra).
  assert (B := PZ_border DZ k j (B2R z) (u * (IZR k + 1)) P2 SS). assert (B' := PR_size DR c i (B2R r) P1 Hc Hr1 Hr).
  rewrite !Rabs_mult. unfold E2. apply Rmult_le_compat_r; [apply Rabs_pos|]. apply Rle_trans with (6 / 5 * (2 * (u * (IZR k + 1)))).
  - apply Rmult_le_compat; try apply Rabs_pos; [exact B'|apply B; lra].
  - assert (u * (IZR k + 1) <= u * (RO / DR + ZO / DZ + 3)) by (apply Rmult_le_compat_l; lra). lra.
Qed.

(** Points near the path are near the cell. *)
Lemma near_r : forall t r z c, at_t t r z -> in_cell DR c (RO + t * dR) -> (IZR c - 1 / 10) * DR <= B2R r <= (IZR c + 1 + 1 / 10) * DR.
Proof.
  intros t r z c (_ & _ & H & _) (C1 & C2). assert (P := DRpos). assert (PM := mu_pos). assert (M1 := mu_1). assert (LR := dR_hi). apply Rabs_le_inv in H.
  assert (SR : mu / 32 * Rabs dR <= 1 / 32 * (9 / 10 * DR)) by (apply Rmult_le_compat; try lra; apply Rabs_pos). lra.
Qed.
Lemma near_z : forall t r z k, at_t t r z -> in_cell DZ k (ZO + t * dZ) -> (IZR k - 1 / 10) * DZ <= B2R z <= (IZR k + 1 + 1 / 10) * DZ.
Proof.
  intros t r z k (_ & _ & _ & H) (C1 & C2). assert (P := DZpos). assert (PM := mu_pos). assert (M1 := mu_1). assert (LR := dZ_hi). apply Rabs_le_inv in H.
  assert (SR : mu / 32 * Rabs dZ <= 1 / 32 * (9 / 10 * DZ)) by (apply Rmult_le_compat; try lra; apply Rabs_pos). lra.
Qed.
Lemma far_axis : forall t r z, 0 <= t <= 1 -> at_t t r z -> 2 / 5 * DR <= B2R r.
Proof.
  intros t r z (T0 & T1) (_ & _ & H & _). assert (P := DRpos). assert (PM := mu_pos). assert (M1 := mu_1). assert (LR := dR_hi). apply Rabs_le_inv in H.
  assert (SR : mu / 32 * Rabs dR <= 1 / 32 * (9 / 10 * DR)) by (apply Rmult_le_compat; try lra; apply Rabs_pos).
  assert (HRo := cm_ro_in _ _ _ _ _ _ _ _ _ _ HM). assert (HRn := cm_rn_in _ _ _ _ _ _ _ _ _ _ HM). change (gdr A g) with ddr in *.
  replace (RO + t * dR) with ((1 - t) * RO + t * RN) in H by (unfold dR; ring). assert (0 <= t * (RN - 49 / 100 * DR)) by (apply Rmult_le_pos; lra). assert (0 <= (1 - t) * (RO - 49 / 100 * DR)) by (apply Rmult_le_pos; lra). lra.
Qed.

(** ** Crossing points *)
Definition bord (j : Z) (d : b64) : b64 := b64_mul (b64_of_Z j) d.

Lemma szr : bp (-40) <= IZR nr * DR <= bp 40.
Proof. assert (N := n_hi _ _ _ AXR). assert (L := len_lo _ _ _ AXR). assert (H := len_hi _ _ _ AXR). unfold len in *. change (bp (-40)) with (/ 1099511627776). change (bp 40) with 1099511627776. split; nra. Qed.
Lemma szz : bp (-40) <= IZR nz * DZ <= bp 40.
Proof. assert (N := n_hi _ _ _ AXZ). assert (L := len_lo _ _ _ AXZ). assert (H := len_hi _ _ _ AXZ). unfold len in *. change (bp (-40)) with (/ 1099511627776). change (bp 40) with 1099511627776. split; nra. Qed.

Definition between (a b c : R) : Prop := a < b < c \/ c < b < a.

Lemma mus : m / 64 * (1 + Rabs dZ / Rabs dR) <= mu / 32 * Rabs dZ /\ m / 64 * (1 + Rabs dR / Rabs dZ) <= mu / 32 * Rabs dR.
Proof.
  assert (P := mpos). assert (A1 := mu_mr). assert (A2 := mu_mz). assert (A3 := mu_r). assert (A4 := mu_z). assert (L1 := dR_lo). assert (L2 := dZ_lo).
  split.
  - apply Rmult_le_compat_r with (r := Rabs dZ) in A3; [|lra]. replace (m / 64 * (1 + Rabs dZ / Rabs dR)) with (/ 64 * (m + m / Rabs dR * Rabs dZ)) by (field; lra). lra.
  - apply Rmult_le_compat_r with (r := Rabs dR) in A4; [|lra]. replace (m / 64 * (1 + Rabs dR / Rabs dZ)) with (/ 64 * (m + m / Rabs dZ * Rabs dR)) by (field; lra). lra.
Qed.

Definition tr (j : Z) : R := (IZR j * DR - RO) / dR.
Definition tz (j : Z) : R := (IZR j * DZ - ZO) / dZ.

Lemma tr_ok : forall j, between RO (IZR j * DR) RN -> 0 < tr j < 1 /\ IZR j * DR = RO + tr j * dR /\ ev (tr j).
Proof.
  intros j H. assert (N : dR <> 0) by (unfold dR; destruct H; lra). assert (E : IZR j * DR = RO + tr j * dR) by (unfold tr; field; exact N).
  assert (T : 0 < tr j < 1) by (unfold dR in *; destruct H; split; nra). split; [exact T|]. split; [exact E|]. right; right. split; [exact T|]. left. exists j. rewrite E. reflexivity.
Qed.
Lemma tz_ok : forall j, between ZO (IZR j * DZ) ZN -> 0 < tz j < 1 /\ IZR j * DZ = ZO + tz j * dZ /\ ev (tz j).
Proof.
  intros j H. assert (N : dZ <> 0) by (unfold dZ; destruct H; lra). assert (E : IZR j * DZ = ZO + tz j * dZ) by (unfold tz; field; exact N).
  assert (T : 0 < tz j < 1) by (unfold dZ in *; destruct H; split; nra). split; [exact T|]. split; [exact E|]. right; right. split; [exact T|]. right. exists j. rewrite E. reflexivity.
Qed.

Lemma szn : Rabs ZO + Rabs dZ <= IZR nz * DZ /\ Rabs ZN + Rabs (ZO - ZN) <= IZR nz * DZ /\ Rabs RO + Rabs dR <= IZR nr * DR /\ Rabs RN + Rabs (RO - RN) <= IZR nr * DR.
Proof.
  assert (P1 := DRpos). assert (P2 := DZpos). assert (L1 := dR_hi). assert (L2 := dZ_hi). rewrite (Rabs_minus_sym ZO ZN), (Rabs_minus_sym RO RN). fold dZ dR.
  assert (H1 := cm_ro_in _ _ _ _ _ _ _ _ _ _ HM). assert (H2 := cm_rn_in _ _ _ _ _ _ _ _ _ _ HM). assert (H3 := cm_zo_in _ _ _ _ _ _ _ _ _ _ HM). assert (H4 := cm_zn_in _ _ _ _ _ _ _ _ _ _ HM).
  change (gdr A g) with ddr in *. change (gdz A g) with ddz in *. rewrite minus_IZR in *. rewrite !Rabs_pos_eq with (x := RO), !Rabs_pos_eq with (x := RN), !Rabs_pos_eq with (x := ZO), !Rabs_pos_eq with (x := ZN) by lra. lra.
Qed.

Lemma bp11 : Rabs dR <= bp 11 /\ Rabs dZ <= bp 11.
Proof. assert (H1 := len_hi _ _ _ AXR). assert (H2 := len_hi _ _ _ AXZ). unfold len in *. assert (L1 := dR_hi). assert (L2 := dZ_hi). change (bp 11) with 2048. lra. Qed.

Lemma bord_r : forall j, (1 <= j <= nr)%Z -> fin (bord j ddr) /\ Rabs (B2R (bord j ddr) - IZR j * DR) <= u * (IZR j * DR) /\ u * (IZR j * DR) <= u * (IZR nr * DR) /\ Rabs (B2R (bord j ddr) - IZR j * DR) <= / 2048 * m.
Proof.
  intros j Hj. destruct (border _ _ _ AXR j Hj) as (F & E). split; [exact F|]. split; [exact E|]. assert (P := DRpos). assert (U := u_pos). assert (IZR j <= IZR nr) by (apply IZR_le; lia). split; [apply Rmult_le_compat_l; [lra|apply Rmult_le_compat_r; lra]|].
  apply Rle_trans with (1 := E). apply (border_m nr _ ddr m AXR (cm_mr _ _ _ _ _ _ _ _ _ _ HM) j Hj).
Qed.
Lemma bord_z : forall j, (1 <= j <= nz)%Z -> fin (bord j ddz) /\ Rabs (B2R (bord j ddz) - IZR j * DZ) <= u * (IZR j * DZ) /\ u * (IZR j * DZ) <= u * (IZR nz * DZ) /\ Rabs (B2R (bord j ddz) - IZR j * DZ) <= / 2048 * m.
Proof.
  intros j Hj. destruct (border _ _ _ AXZ j Hj) as (F & E). split; [exact F|]. split; [exact E|]. assert (P := DZpos). assert (U := u_pos). assert (IZR j <= IZR nz) by (apply IZR_le; lia). split; [apply Rmult_le_compat_l; [lra|apply Rmult_le_compat_r; lra]|].
  apply Rle_trans with (1 := E). apply (border_m nz _ ddz m AXZ (cm_mz _ _ _ _ _ _ _ _ _ _ HM) j Hj).
Qed.

Lemma between_abs : forall a b c, between a b c -> Rabs (b - a) <= Rabs (c - a) /\ Rabs (b - c) <= Rabs (a - c).
Proof. intros a b c [H|H]; split; unfold Rabs; repeat destruct Rcase_abs; lra. Qed.

(** The side conditions of section Cross in the four situations. *)
Definition rstep (j : Z) (w : b64) := step (bord j ddr) ro rn zo zn w.
Definition rstep' (j : Z) (w : b64) := step (bord j ddr) rn ro zn zo w.
Definition zstep (j : Z) (w : b64) := step (bord j ddz) zo zn ro rn w.
Definition zstep' (j : Z) (w : b64) := step (bord j ddz) zn zo rn ro w.

Lemma at_r : forall j y, (1 <= j <= nr)%Z -> between RO (IZR j * DR) RN -> fin y -> Rabs (B2R y - (ZO + tr j * dZ)) <= m / 64 * (1 + Rabs dZ / Rabs dR) -> at_t (tr j) (bord j ddr) y.
Proof.
  intros j y Hj HB F E. destruct (tr_ok j HB) as (_ & EB & _). destruct (bord_r j Hj) as (FB & _ & _ & B). destruct mus as (M1 & _). assert (P := mpos). assert (MR := mu_mr).
  split; [exact FB|]. split; [exact F|]. rewrite <- EB. split; lra.
Qed.
Lemma at_z : forall j y, (1 <= j <= nz)%Z -> between ZO (IZR j * DZ) ZN -> fin y -> Rabs (B2R y - (RO + tz j * dR)) <= m / 64 * (1 + Rabs dR / Rabs dZ) -> at_t (tz j) y (bord j ddz).
Proof.
  intros j y Hj HB F E. destruct (tz_ok j HB) as (_ & EB & _). destruct (bord_z j Hj) as (FB & _ & _ & B). destruct mus as (_ & M1). assert (P := mpos). assert (MR := mu_mz).
  split; [exact F|]. split; [exact FB|]. rewrite <- EB. split; lra.
Qed.

Section R_border.
Variable j : Z.
Hypothesis Hj : (1 <= j <= nr)%Z.
Hypothesis HB : between RO (IZR j * DR) RN.
Ltac side := destruct (bord_r j Hj) as (FB & B1 & B2 & _); destruct szn as (S1 & S2 & _); destruct bp11 as (P1 & P2); destruct (between_abs _ _ _ HB) as (W1 & W2);
  assert (L1 := dR_lo); assert (L2 := dZ_lo); assert (O1 := cm_on _ _ _ _ _ _ _ _ _ _ HM j); assert (O2 := cm_oo _ _ _ _ _ _ _ _ _ _ HM j); change (gdr A g) with ddr in O1, O2;
  rewrite Rabs_minus_sym in O1; rewrite Rabs_minus_sym in O2; fold dR in W1;
  assert (SW1 : Rabs (RO - RN) = Rabs dR) by (rewrite Rabs_minus_sym; reflexivity); assert (SW2 : Rabs (ZO - ZN) = Rabs dZ) by (rewrite Rabs_minus_sym; reflexivity);
  assert (MM := cm_m _ _ _ _ _ _ _ _ _ _ HM); assert (MR := cm_mr _ _ _ _ _ _ _ _ _ _ HM); assert (MZ := cm_mz _ _ _ _ _ _ _ _ _ _ HM); change (gdr A g) with ddr in MR; change (gdz A g) with ddz in MZ;
  assert (X1 := cm_rn _ _ _ _ _ _ _ _ _ _ HM); assert (X2 := cm_zn _ _ _ _ _ _ _ _ _ _ HM); assert (X3 := cm_ro _ _ _ _ _ _ _ _ _ _ HM); assert (X4 := cm_zo _ _ _ _ _ _ _ _ _ _ HM).

Lemma r_quot : forall v, minus v (bord j ddr) ro -> at_t (tr j) (bord j ddr) (b64_add zo (b64_div v (b64_div (b64_sub rn ro) (b64_sub zn zo)))).
Proof.
  intros v HV. side. assert (SZ := szz).
  assert (ST : rstep j (b64_div v (b64_div (b64_sub rn ro) (b64_sub zn zo)))).
  { apply by_quot with (B := IZR j * DR) (S := IZR nr * DR) (m := m); try assumption; fold dR dZ; lra. }
  destruct (cross_add (bord j ddr) ro rn zo zn (IZR j * DR) (IZR nr * DR) (IZR nz * DZ) m) with (w := b64_div v (b64_div (b64_sub rn ro) (b64_sub zn zo))) as (F & E); try assumption; fold dR dZ; try lra.
  apply at_r; assumption.
Qed.
Lemma r_quot' : forall v, minus v (bord j ddr) rn -> at_t (tr j) (bord j ddr) (b64_add zn (b64_div v (b64_div (b64_sub ro rn) (b64_sub zo zn)))).
Proof.
  intros v HV. side. assert (SZ := szz).
  assert (ST : rstep' j (b64_div v (b64_div (b64_sub ro rn) (b64_sub zo zn)))).
  { apply by_quot with (B := IZR j * DR) (S := IZR nr * DR) (m := m); try assumption; lra. }
  destruct (cross_add (bord j ddr) rn ro zn zo (IZR j * DR) (IZR nr * DR) (IZR nz * DZ) m) with (w := b64_div v (b64_div (b64_sub ro rn) (b64_sub zo zn))) as (F & E); try assumption; try lra.
  apply at_r; try assumption. rewrite SW1, SW2 in E. replace (ZO + tr j * dZ) with (ZN + (IZR j * DR - RN) / (RO - RN) * (ZO - ZN)); [exact E|].
  assert (P := mpos). assert (dR <> 0) by (intro Z; rewrite Z, Rabs_R0 in L1; lra). unfold tr, dR, dZ in *. field. lra.
Qed.
End R_border.

Section Z_border.
Variable j : Z.
Hypothesis Hj : (1 <= j <= nz)%Z.
Hypothesis HB : between ZO (IZR j * DZ) ZN.
Ltac side := destruct (bord_z j Hj) as (FB & B1 & B2 & _); destruct szn as (_ & _ & S1 & S2); destruct bp11 as (P1 & P2); destruct (between_abs _ _ _ HB) as (W1 & W2);
  assert (L1 := dR_lo); assert (L2 := dZ_lo); assert (O1 := cm_pn _ _ _ _ _ _ _ _ _ _ HM j); assert (O2 := cm_po _ _ _ _ _ _ _ _ _ _ HM j); change (gdz A g) with ddz in O1, O2;
  rewrite Rabs_minus_sym in O1; rewrite Rabs_minus_sym in O2; fold dZ in W1;
  assert (SW1 : Rabs (RO - RN) = Rabs dR) by (rewrite Rabs_minus_sym; reflexivity); assert (SW2 : Rabs (ZO - ZN) = Rabs dZ) by (rewrite Rabs_minus_sym; reflexivity);
  assert (MM := cm_m _ _ _ _ _ _ _ _ _ _ HM); assert (MR := cm_mr _ _ _ _ _ _ _ _ _ _ HM); assert (MZ := cm_mz _ _ _ _ _ _ _ _ _ _ HM); change (gdr A g) with ddr in MR; change (gdz A g) with ddz in MZ;
  assert (X1 := cm_rn _ _ _ _ _ _ _ _ _ _ HM); assert (X2 := cm_zn _ _ _ _ _ _ _ _ _ _ HM); assert (X3 := cm_ro _ _ _ _ _ _ _ _ _ _ HM); assert (X4 := cm_zo _ _ _ _ _ _ _ _ _ _ HM); assert (SZ := szr).
Notation a := (b64_div (b64_sub rn ro) (b64_sub zn zo)).
Notation a' := (b64_div (b64_sub ro rn) (b64_sub zo zn)).

Lemma z_step : forall w, zstep j w -> at_t (tz j) (b64_add ro w) (bord j ddz).
Proof.
  intros w ST. side.
  destruct (cross_add (bord j ddz) zo zn ro rn (IZR j * DZ) (IZR nz * DZ) (IZR nr * DR) m) with (w := w) as (F & E); try assumption; fold dR dZ; try lra.
  apply at_z; assumption.
Qed.
Lemma z_step' : forall w, zstep' j w -> at_t (tz j) (b64_add rn w) (bord j ddz).
Proof.
  intros w ST. side.
  destruct (cross_add (bord j ddz) zn zo rn ro (IZR j * DZ) (IZR nz * DZ) (IZR nr * DR) m) with (w := w) as (F & E); try assumption; try lra.
  apply at_z; try assumption. rewrite SW1, SW2 in E. replace (RO + tz j * dR) with (RN + (IZR j * DZ - ZN) / (ZO - ZN) * (RO - RN)); [exact E|].
  assert (P := mpos). assert (dZ <> 0) by (intro Z; rewrite Z, Rabs_R0 in L2; lra). unfold tz, dR, dZ in *. field. lra.
Qed.
Lemma z_mult : forall v, minus v (bord j ddz) zo -> at_t (tz j) (b64_add ro (b64_mul a v)) (bord j ddz) /\ at_t (tz j) (b64_add ro (b64_mul v a)) (bord j ddz).
Proof.
  intros v HV. side. split; apply z_step; [apply by_mult with (B := IZR j * DZ) (S := IZR nz * DZ) (m := m)|apply by_mult' with (B := IZR j * DZ) (S := IZR nz * DZ) (m := m)]; try assumption; fold dR dZ; lra.
Qed.
Lemma z_mult' : forall v, minus v (bord j ddz) zn -> at_t (tz j) (b64_add rn (b64_mul a' v)) (bord j ddz) /\ at_t (tz j) (b64_add rn (b64_mul v a')) (bord j ddz).
Proof.
  intros v HV. side. split; apply z_step'; [apply by_mult with (B := IZR j * DZ) (S := IZR nz * DZ) (m := m)|apply by_mult' with (B := IZR j * DZ) (S := IZR nz * DZ) (m := m)]; try assumption; lra.
Qed.
Lemma z_sub : forall v v', minus v (bord j ddz) zo -> fin v' -> B2R v' = - B2R v -> at_t (tz j) (b64_sub ro (b64_mul v' a)) (bord j ddz).
Proof.
  intros v v' HV FV' EV'. side.
  assert (ST : zstep j (b64_mul v a)) by (apply by_mult' with (B := IZR j * DZ) (S := IZR nz * DZ) (m := m); try assumption; fold dR dZ; lra).
  destruct (by_mult_opp (bord j ddz) zo zn ro rn (IZR j * DZ) (IZR nz * DZ) m) with (v := v) (v' := v') as (F1 & E1'); try assumption; fold dR dZ; try lra.
  destruct (cross_sub (bord j ddz) zo zn ro rn (IZR j * DZ) (IZR nz * DZ) (IZR nr * DR) m) with (w := b64_mul v a) (w' := b64_mul v' a) as (F & E); try assumption; fold dR dZ; try lra.
  apply at_z; assumption.
Qed.
End Z_border.

(** ** Composition *)
Definition row_ok (c : Z) : Prop := (0 <= c <= nr - 2)%Z /\ IZR c <= RO / DR + 1.
Definition col_ok (k : Z) : Prop := (0 <= k <= nz - 2)%Z /\ IZR k <= ZO / DZ + 1.
Definition both (t : R) (c k : Z) : Prop := in_cell DR c (RO + t * dR) /\ in_cell DZ k (ZO + t * dZ).
Definition agree (r z : b64) (c1 k1 c2 k2 : Z) : Prop := forall i j, Rabs (Q * share_in c2 k2 (B2R r) (B2R z) i j - Q * share_in c1 k1 (B2R r) (B2R z) i j) <= E2.
Definition Bal (l : list (gjinc A)) (c2 k2 c1 k1 : Z) : Prop := Flow (3 * E1 + 2 * E2) l (share_in c2 k2 RN ZN) (share_in c1 k1 RO ZO) /\ all_finite pw lg l.

Lemma E1_pos : 0 <= E1. Proof. assert (P := RDpos). assert (U := u_pos). unfold E1. repeat apply Rmult_le_pos; try lra. apply Rabs_pos. Qed.

Lemma leg_in : forall t t' rA zA rB zB c k, at_t t rA zA -> at_t t' rB zB -> ev t -> ev t' -> 0 <= t -> t < t' -> t' <= 1 -> row_ok c -> col_ok k -> both t c k -> both t' c k ->
  Flow E1 (simple rB zB rA zA c k) (share_in c k (B2R rB) (B2R zB)) (share_in c k (B2R rA) (B2R zA)) /\ all_finite pw lg (simple rB zB rA zA c k).
Proof. intros t t' rA zA rB zB c k HA HB V V' T0 T T1 (C1 & C2) (K1 & K2) (A1 & A2) (B1 & B2). apply leg64 with t t'; try assumption. now apply gap_mu. Qed.

Lemma app_finite : forall a b, all_finite pw lg a -> all_finite pw lg b -> all_finite pw lg (a ++ b).
Proof. intros a b HA HB. apply Forall_app. now split. Qed.

Lemma one64 : forall c k, row_ok c -> col_ok k -> both 0 c k -> both 1 c k -> Bal (simple rn zn ro zo c k) c k c k.
Proof.
  intros c k Hc Hk B0 B1. destruct (leg_in 0 1 ro zo rn zn c k at_0 at_1 ev_0 ev_1 ltac:(lra) ltac:(lra) ltac:(lra) Hc Hk B0 B1) as (F & I). split; [|exact I].
  intros i j. apply Rle_trans with (1 := F i j). assert (P1 := E1_pos). assert (P2 := E2_pos). lra.
Qed.
Lemma two64 : forall t rB zB c1 k1 c2 k2, ev t -> 0 < t < 1 -> at_t t rB zB -> row_ok c1 -> col_ok k1 -> row_ok c2 -> col_ok k2 ->
  both 0 c1 k1 -> both t c1 k1 -> both t c2 k2 -> both 1 c2 k2 -> agree rB zB c1 k1 c2 k2 ->
  Bal (simple rB zB ro zo c1 k1 ++ simple rn zn rB zB c2 k2) c2 k2 c1 k1.
Proof.
  intros t rB zB c1 k1 c2 k2 V T HB R1 K1 R2 K2 B0 B1 B2 B3 AG. assert (P1 := E1_pos). assert (P2 := E2_pos).
  destruct (leg_in 0 t ro zo rB zB c1 k1) as (F1 & I1); try assumption; try lra; [exact at_0|exact ev_0|].
  destruct (leg_in t 1 rB zB rn zn c2 k2) as (F2 & I2); try assumption; try lra; [exact at_1|exact ev_1|].
  split; [|now apply app_finite]. assert (F := flow_app _ _ _ _ _ _ _ _ _ _ _ _ _ _ _ F1 F2 AG). intros i j. apply Rle_trans with (1 := F i j). lra.
Qed.
Lemma three64 : forall t t' rB zB rC zC c1 k1 c2 k2 c3 k3, ev t -> ev t' -> 0 < t -> t < t' -> t' < 1 -> at_t t rB zB -> at_t t' rC zC ->
  row_ok c1 -> col_ok k1 -> row_ok c2 -> col_ok k2 -> row_ok c3 -> col_ok k3 ->
  both 0 c1 k1 -> both t c1 k1 -> both t c2 k2 -> both t' c2 k2 -> both t' c3 k3 -> both 1 c3 k3 -> agree rB zB c1 k1 c2 k2 -> agree rC zC c2 k2 c3 k3 ->
  Bal (simple rB zB ro zo c1 k1 ++ simple rC zC rB zB c2 k2 ++ simple rn zn rC zC c3 k3) c3 k3 c1 k1.
Proof.
  intros t t' rB zB rC zC c1 k1 c2 k2 c3 k3 V V' T0 T T1 HB HC R1 K1 R2 K2 R3 K3 B0 B1 B2 B3 B4 B5 AG AG'. assert (P1 := E1_pos). assert (P2 := E2_pos).
  destruct (leg_in 0 t ro zo rB zB c1 k1) as (F1 & I1); try assumption; try lra; [exact at_0|exact ev_0|].
  destruct (leg_in t t' rB zB rC zC c2 k2) as (F2 & I2); try assumption; try lra.
  destruct (leg_in t' 1 rC zC rn zn c3 k3) as (F3 & I3); try assumption; try lra; [exact at_1|exact ev_1|].
  split; [|apply app_finite; [exact I1|now apply app_finite]].
  assert (F := flow_app _ _ _ _ _ _ _ _ _ _ _ _ _ _ _ F1 (flow_app _ _ _ _ _ _ _ _ _ _ _ _ _ _ _ F2 F3 AG') AG). intros i j. apply Rle_trans with (1 := F i j). lra.
Qed.

(** From the cell shares to the shares of the cloud. *)
Theorem balanced : forall l c2 k2 c1 k1, Bal l c2 k2 c1 k1 -> row_ok c1 -> row_ok c2 -> both 0 c1 k1 -> both 1 c2 k2 ->
  continuity_upto (bp (-41) * (RO / DR + ZO / DZ + 4) * Rabs Q) DR DZ DT Q (handed pw lg J_R l) (handed pw lg J_Z l) RN ZN RO ZO /\ all_finite pw lg l.
Proof.
  intros l c2 k2 c1 k1 (F & I) ((R1 & _) & _) ((R2 & _) & _) (B1 & B2) (B3 & B4). split; [|exact I]. intros i j. assert (P1 := DRpos). assert (P2 := DZpos).
  assert (HRo := cm_ro_in _ _ _ _ _ _ _ _ _ _ HM). assert (HRn := cm_rn_in _ _ _ _ _ _ _ _ _ _ HM). change (gdr A g) with ddr in *.
  replace (RO + 0 * dR) with RO in B1 by ring. replace (ZO + 0 * dZ) with ZO in B2 by ring. replace (RO + 1 * dR) with RN in B3 by (unfold dR; ring). replace (ZO + 1 * dZ) with ZN in B4 by (unfold dZ; ring).
  unfold share. rewrite (share_r_poly DR c2 i RN), (share_r_poly DR c1 i RO), (share_z_poly DZ k2 j ZN), (share_z_poly DZ k1 j ZO) by (assumption || lra).
  apply Rle_trans with (1 := F i j). unfold E1, E2. assert (UB : bp (-41) = 4096 * u) by (unfold u; change 4096 with (bp 12); rewrite <- bpow_plus; reflexivity). rewrite UB.
  assert (RD := RDpos). assert (UQ : 0 <= u * Rabs Q) by (apply Rmult_le_pos; [left; apply u_pos|apply Rabs_pos]).
  replace (3 * (1024 * u * (RO / DR + ZO / DZ + 5) * Rabs Q) + 2 * (4 * u * (RO / DR + ZO / DZ + 3) * Rabs Q)) with ((3072 * (RO / DR + ZO / DZ + 5) + 8 * (RO / DR + ZO / DZ + 3)) * (u * Rabs Q)) by ring.
  replace (4096 * u * (RO / DR + ZO / DZ + 4) * Rabs Q) with (4096 * (RO / DR + ZO / DZ + 4) * (u * Rabs Q)) by ring. apply Rmult_le_compat_r; lra.
Qed.

(** ** Cells *)
Lemma quot_le : forall a b d x, 0 < d -> a * d <= x + b * d -> a <= x / d + b.
Proof. intros a b d x P H. apply Rmult_le_reg_r with d; [exact P|]. replace ((x / d + b) * d) with (x + b * d) by (field; lra). exact H. Qed.

Lemma case_of : forall d pn po cn co, 0 < d -> Rabs (pn - po) <= 9 / 10 * d -> (0 <= cn)%Z -> (0 <= co)%Z ->
  IZR cn * d + m <= pn <= (IZR cn + 1) * d - m -> IZR co * d + m <= po <= (IZR co + 1) * d - m -> cells_case d pn po cn co.
Proof.
  intros d pn po cn co P HD N O (N1 & N2) (O1 & O2). assert (M := mpos). apply Rabs_le_inv in HD.
  assert (U1 : (cn <= co + 1)%Z). { apply Zlt_succ_le. apply lt_IZR. unfold Z.succ. rewrite !plus_IZR. apply Rmult_lt_reg_r with d; [exact P|]. lra. }
  assert (U2 : (co <= cn + 1)%Z). { apply Zlt_succ_le. apply lt_IZR. unfold Z.succ. rewrite !plus_IZR. apply Rmult_lt_reg_r with d; [exact P|]. lra. }
  destruct (Z.eq_dec cn co) as [->|NE]; [apply same_cell; try assumption; try reflexivity; split; lra|].
  destruct (Z.eq_dec cn (co + 1)) as [->|NE'].
  - rewrite plus_IZR in *. apply cell_up; try assumption; try reflexivity; rewrite ?plus_IZR; try lra; split; rewrite ?plus_IZR; lra.
  - replace co with (cn + 1)%Z in * by lia. rewrite plus_IZR in *. apply cell_down; try assumption; try reflexivity; rewrite ?plus_IZR; try lra; split; rewrite ?plus_IZR; lra.
Qed.

Definition i_n : Z := gcell A rn ddr. Definition i_o : Z := gcell A ro ddr.
Definition k_n : Z := gcell A zn ddz. Definition k_o : Z := gcell A zo ddz.

Lemma cells_r : gtie_cells A ddr rn ro = (i_n, i_o) /\ row_ok i_n /\ row_ok i_o /\ cells_case DR RN RO i_n i_o.
Proof.
  assert (P := DRpos). assert (M := mpos). assert (MR := cm_mr _ _ _ _ _ _ _ _ _ _ HM). assert (H1 := cm_ro_in _ _ _ _ _ _ _ _ _ _ HM). assert (H2 := cm_rn_in _ _ _ _ _ _ _ _ _ _ HM).
  assert (O1 := cm_on _ _ _ _ _ _ _ _ _ _ HM). assert (O2 := cm_oo _ _ _ _ _ _ _ _ _ _ HM). assert (F1 := cm_rn _ _ _ _ _ _ _ _ _ _ HM). assert (F2 := cm_ro _ _ _ _ _ _ _ _ _ _ HM).
  change (gdr A g) with ddr in *. assert (Q1 : 0 < RN <= IZR (nr - 1) * DR) by lra. assert (Q2 : 0 < RO <= IZR (nr - 1) * DR) by lra.
  destruct (cell_clear pw lg nr _ ddr m AXR MR rn F1 Q1 O1) as (C1 & D1). destruct (cell_clear pw lg nr _ ddr m AXR MR ro F2 Q2 O2) as (C2 & D2). fold i_n in C1, D1. fold i_o in C2, D2.
  assert (LD := dR_hi). assert (LD' := LD). unfold dR in LD'. apply Rabs_le_inv in LD'.
  split; [exact (tie_clear pw lg nr _ ddr m AXR MR rn ro F1 F2 Q1 Q2 O1 O2)|].
  split; [split; [exact C1|]; apply quot_le; lra|]. split; [split; [exact C2|]; apply quot_le; lra|]. apply case_of; try assumption; try lia.
Qed.
Lemma cells_z : gtie_cells A ddz zn zo = (k_n, k_o) /\ col_ok k_n /\ col_ok k_o /\ cells_case DZ ZN ZO k_n k_o.
Proof.
  assert (P := DZpos). assert (M := mpos). assert (MR := cm_mz _ _ _ _ _ _ _ _ _ _ HM). assert (H1 := cm_zo_in _ _ _ _ _ _ _ _ _ _ HM). assert (H2 := cm_zn_in _ _ _ _ _ _ _ _ _ _ HM).
  assert (O1 := cm_pn _ _ _ _ _ _ _ _ _ _ HM). assert (O2 := cm_po _ _ _ _ _ _ _ _ _ _ HM). assert (F1 := cm_zn _ _ _ _ _ _ _ _ _ _ HM). assert (F2 := cm_zo _ _ _ _ _ _ _ _ _ _ HM).
  change (gdz A g) with ddz in *.
  destruct (cell_clear pw lg nz _ ddz m AXZ MR zn F1 H2 O1) as (C1 & D1). destruct (cell_clear pw lg nz _ ddz m AXZ MR zo F2 H1 O2) as (C2 & D2). fold k_n in C1, D1. fold k_o in C2, D2.
  assert (LD := dZ_hi). assert (LD' := LD). unfold dZ in LD'. apply Rabs_le_inv in LD'.
  split; [exact (tie_clear pw lg nz _ ddz m AXZ MR zn zo F1 F2 H2 H1 O1 O2)|].
  split; [split; [exact C1|]; apply quot_le; lra|]. split; [split; [exact C2|]; apply quot_le; lra|]. apply case_of; try assumption; try lia.
Qed.

(** ** Comparisons *)
Lemma lt_true : forall x y : b64, fin x -> fin y -> B2R x < B2R y -> Bltb x y = true.
Proof. intros x y Fx Fy H. now apply (ltb_ok x y Fx Fy). Qed.
Lemma bord_z0 : forall j, (0 <= j <= nz)%Z -> fin (bord j ddz) /\ Rabs (B2R (bord j ddz) - IZR j * DZ) <= / 2048 * m.
Proof.
  intros j Hj. assert (M := mpos). destruct (Z.eq_dec j 0) as [->|N]; [|destruct (bord_z j ltac:(lia)) as (F & _ & _ & E); split; assumption].
  destruct (of_Z_exact 0 eq_refl) as (F & E). destruct (mul_ok (b64_of_Z 0) ddz F (fin_d _ _ _ AXZ)) as (F2 & E2'); [rewrite E, Rmult_0_l, Rabs_R0; left; apply bpow_gt_0|].
  unfold bord. split; [exact F2|]. rewrite E2', E, Rmult_0_l. replace (rnd 0) with 0 by (symmetry; apply round_0; apply valid_rnd_N). rewrite Rminus_0_r, Rabs_R0. lra.
Qed.

(** The point at [t] against the axial border number [j]. *)
Lemma order_z : forall t r z j, (1 <= j <= nz)%Z -> between ZO (IZR j * DZ) ZN -> ev t -> at_t t r z ->
  (t < tz j -> (ZO < ZN -> B2R z < B2R (bord j ddz)) /\ (ZN < ZO -> B2R (bord j ddz) < B2R z)) /\
  (tz j < t -> (ZO < ZN -> B2R (bord j ddz) < B2R z) /\ (ZN < ZO -> B2R z < B2R (bord j ddz))).
Proof.
  intros t r z j Hj HB V (_ & _ & _ & H). destruct (tz_ok j HB) as (T & E & V'). destruct (bord_z j Hj) as (_ & _ & _ & B). rewrite E in B. assert (M := mpos). assert (MZ := mu_mz). assert (PM := mu_pos).
  apply Rabs_le_inv in H. apply Rabs_le_inv in B.
  split; intro O; [assert (G := gap_mu _ _ V V' O)|assert (G := gap_mu _ _ V' V O)]; split; intro D.
  - assert (dZ > 0) by (unfold dZ; lra). rewrite (Rabs_pos_eq dZ) in * by lra. assert ((t + mu) * dZ <= tz j * dZ) by (apply Rmult_le_compat_r; lra). lra.
  - assert (dZ < 0) by (unfold dZ; lra). rewrite (Rabs_left dZ) in * by lra. assert ((t + mu) * - dZ <= tz j * - dZ) by (apply Rmult_le_compat_r; lra). lra.
  - assert (dZ > 0) by (unfold dZ; lra). rewrite (Rabs_pos_eq dZ) in * by lra. assert ((tz j + mu) * dZ <= t * dZ) by (apply Rmult_le_compat_r; lra). lra.
  - assert (dZ < 0) by (unfold dZ; lra). rewrite (Rabs_left dZ) in * by lra. assert ((tz j + mu) * - dZ <= t * - dZ) by (apply Rmult_le_compat_r; lra). lra.
Qed.

(** ** Neighbouring cells at a crossing *)
Lemma agree_sym : forall r z c1 k1 c2 k2, agree r z c1 k1 c2 k2 -> agree r z c2 k2 c1 k1.
Proof. intros r z c1 k1 c2 k2 H i j. rewrite Rabs_minus_sym. apply H. Qed.
Lemma agree_r : forall c k z, row_ok c -> between RO (IZR (c + 1) * DR) RN -> at_t (tr (c + 1)) (bord (c + 1) ddr) z -> in_cell DZ k (ZO + tr (c + 1) * dZ) ->
  agree (bord (c + 1) ddr) z (c + 1) k c k.
Proof.
  intros c k z (C & C') HB HA HK i j. destruct (bord_r (c + 1)) as (F & E & _); [lia|]. rewrite plus_IZR in E. apply mis_r; try assumption. now apply near_z with (tr (c + 1)) (bord (c + 1) ddr).
Qed.
Lemma agree_z : forall c k r, row_ok c -> col_ok k -> between ZO (IZR (k + 1) * DZ) ZN -> at_t (tz (k + 1)) r (bord (k + 1) ddz) -> in_cell DR c (RO + tz (k + 1) * dR) ->
  agree r (bord (k + 1) ddz) c (k + 1) c k.
Proof.
  intros c k r (C & C') (K & K') HB HA HK i j. destruct (tz_ok _ HB) as (T & _). destruct (bord_z (k + 1)) as (F & E & _); [lia|]. rewrite plus_IZR in E. apply mis_z; try assumption; try lia.
  - apply far_axis with (tz (k + 1)) (bord (k + 1) ddz); [lra|exact HA].
  - now apply near_r with (tz (k + 1)) (bord (k + 1) ddz).
Qed.

Lemma minus_sub : forall x y : b64, fin x -> fin y -> Rabs (B2R x) <= bp 50 -> Rabs (B2R y) <= bp 50 -> minus (b64_sub x y) x y /\ minus (Bopp (b64_sub y x)) x y /\
  (fin (Bopp (b64_sub x y)) /\ B2R (Bopp (b64_sub x y)) = - B2R (b64_sub x y)).
Proof.
  intros x y Fx Fy Hx Hy. assert (L : Rabs (B2R x - B2R y) <= bp 1023).
  { unfold Rminus. apply Rle_trans with (1 := Rabs_triang _ _). rewrite Rabs_Ropp. apply Rle_trans with (bp 51); [change 51%Z with (1 + 50)%Z; rewrite bpow_plus; change (bp 1) with 2; lra|apply bpow_le; lia]. }
  destruct (sub_ok x y Fx Fy L) as (F & E). destruct (sub_ok y x Fy Fx) as (F' & E'); [rewrite Rabs_minus_sym; exact L|]. destruct (opp_ok _ F') as (F2 & E2'). destruct (opp_ok _ F) as (F3 & E3').
  split; [split; [exact F|reflexivity]|]. split; [|split; assumption]. split; [exact F2|]. rewrite E2', E', E. replace (B2R x - B2R y) with (- (B2R y - B2R x)) by ring. now rewrite rnd_opp.
Qed.
Lemma big_r : forall x : b64, 0 <= B2R x <= IZR nr * DR -> Rabs (B2R x) <= bp 50.
Proof. intros x H. destruct szr as (_ & S). rewrite Rabs_pos_eq by lra. apply Rle_trans with (bp 40); [lra|apply bpow_le; lia]. Qed.
Lemma ends_big : Rabs RO <= bp 50 /\ Rabs RN <= bp 50 /\ Rabs ZO <= bp 50 /\ Rabs ZN <= bp 50.
Proof.
  destruct szn as (S1 & S2 & S3 & S4). destruct szr as (_ & U1). destruct szz as (_ & U2). assert (K : bp 40 <= bp 50) by (apply bpow_le; lia).
  assert (P1 := Rabs_pos dZ). assert (P2 := Rabs_pos (ZO - ZN)). assert (P3 := Rabs_pos dR). assert (P4 := Rabs_pos (RO - RN)). lra.
Qed.
Lemma bord_big_r : forall j, (1 <= j <= nr)%Z -> Rabs (B2R (bord j ddr)) <= bp 50.
Proof.
  intros j Hj. destruct (bord_r j Hj) as (_ & E & _ & _). assert (P := DRpos). destruct szr as (_ & U1). assert (J : 1 <= IZR j <= IZR nr) by (split; apply IZR_le; lia). assert (UP := u_pos). assert (UV := u_val).
  assert (JD : 0 <= IZR j * DR <= IZR nr * DR) by (split; [apply Rmult_le_pos; lra|apply Rmult_le_compat_r; lra]). assert (u * (IZR j * DR) <= 1 * (IZR j * DR)) by (apply Rmult_le_compat_r; lra).
  apply Rabs_le_inv in E. apply Rabs_le. change (bp 50) with 1125899906842624. change (bp 40) with 1099511627776 in *. lra.
Qed.
Lemma bord_big_z : forall j, (1 <= j <= nz)%Z -> Rabs (B2R (bord j ddz)) <= bp 50.
Proof.
  intros j Hj. destruct (bord_z j Hj) as (_ & E & _ & _). assert (P := DZpos). destruct szz as (_ & U1). assert (J : 1 <= IZR j <= IZR nz) by (split; apply IZR_le; lia). assert (UP := u_pos). assert (UV := u_val).
  assert (JD : 0 <= IZR j * DZ <= IZR nz * DZ) by (split; [apply Rmult_le_pos; lra|apply Rmult_le_compat_r; lra]). assert (u * (IZR j * DZ) <= 1 * (IZR j * DZ)) by (apply Rmult_le_compat_r; lra).
  apply Rabs_le_inv in E. apply Rabs_le. change (bp 50) with 1125899906842624. change (bp 40) with 1099511627776 in *. lra.
Qed.
Lemma minus_ro : forall j, (1 <= j <= nr)%Z -> minus (b64_sub (bord j ddr) ro) (bord j ddr) ro /\ minus (Bopp (b64_sub ro (bord j ddr))) (bord j ddr) ro.
Proof. intros j Hj. destruct ends_big as (K & _). destruct (minus_sub (bord j ddr) ro) as (H1 & H2 & _); try assumption; [apply bord_r, Hj|exact (cm_ro _ _ _ _ _ _ _ _ _ _ HM)|now apply bord_big_r|now split]. Qed.
Lemma minus_rn : forall j, (1 <= j <= nr)%Z -> minus (b64_sub (bord j ddr) rn) (bord j ddr) rn.
Proof. intros j Hj. destruct ends_big as (_ & K & _). destruct (minus_sub (bord j ddr) rn) as (H1 & H2 & _); try assumption; [apply bord_r, Hj|exact (cm_rn _ _ _ _ _ _ _ _ _ _ HM)|now apply bord_big_r]. Qed.
Lemma minus_zo : forall j, (1 <= j <= nz)%Z -> minus (b64_sub (bord j ddz) zo) (bord j ddz) zo /\ minus (Bopp (b64_sub zo (bord j ddz))) (bord j ddz) zo /\
  fin (Bopp (b64_sub (bord j ddz) zo)) /\ B2R (Bopp (b64_sub (bord j ddz) zo)) = - B2R (b64_sub (bord j ddz) zo).
Proof. intros j Hj. destruct ends_big as (_ & _ & K & _). apply (minus_sub (bord j ddz) zo); try assumption; [apply bord_z, Hj|exact (cm_zo _ _ _ _ _ _ _ _ _ _ HM)|now apply bord_big_z]. Qed.
Lemma minus_zn : forall j, (1 <= j <= nz)%Z -> minus (b64_sub (bord j ddz) zn) (bord j ddz) zn.
Proof. intros j Hj. destruct ends_big as (_ & _ & _ & K). destruct (minus_sub (bord j ddz) zn) as (H1 & H2 & _); try assumption; [apply bord_z, Hj|exact (cm_zn _ _ _ _ _ _ _ _ _ _ HM)|now apply bord_big_z]. Qed.

(** ** One border *)
Lemma cell_0 : forall d c x D, in_cell d c x -> in_cell d c (x + 0 * D).
Proof. intros d c x D H. now replace (x + 0 * D) with x by ring. Qed.
Lemma r_1 : forall c, in_cell DR c RN -> in_cell DR c (RO + 1 * dR).
Proof. intros c H. replace (RO + 1 * dR) with RN by (unfold dR; ring). exact H. Qed.
Lemma z_1 : forall c, in_cell DZ c ZN -> in_cell DZ c (ZO + 1 * dZ).
Proof. intros c H. replace (ZO + 1 * dZ) with ZN by (unfold dZ; ring). exact H. Qed.
Lemma on_low : forall d c, 0 < d -> in_cell d c (IZR c * d). Proof. intros. split; lra. Qed.
Lemma on_up : forall d c, 0 < d -> in_cell d c (IZR (c + 1) * d). Proof. intros. rewrite plus_IZR. split; lra. Qed.

Ltac ops := change (ltb A) with (@Bltb prec64 emax64) in *; change (mul A) with b64_mul in *; change (of_int A) with b64_of_Z in *; change (add A) with b64_add in *; change (sub A) with b64_sub in *;
  change (div A) with b64_div in *; change (opp A) with (@Bopp prec64 emax64) in *; change (gdr A g) with ddr in *; change (gdz A g) with ddz in *.
Ltac bords := repeat match goal with |- context [b64_mul (b64_of_Z ?j) ?d] => change (b64_mul (b64_of_Z j) d) with (bord j d) end.

Ltac pt t1 t2 := first [assumption | apply in_cell_convex with t1 t2; try assumption; lra].

Lemma one_border : forall i_n i_o k_n k_o, row_ok i_n -> row_ok i_o -> col_ok k_n -> col_ok k_o -> cells_case DR RN RO i_n i_o -> cells_case DZ ZN ZO k_n k_o ->
  (Z.abs (i_n - i_o) + Z.abs (k_n - k_o) = 1)%Z -> Bal (gcurrent_one_border A g dt q rn zn ro zo i_n k_n i_o k_o) i_n k_n i_o k_o.
Proof.
  intros i_n i_o k_n k_o Rn Ro Kn Ko Ci Ck Hres. assert (P1 := DRpos). assert (P2 := DZpos). assert (M := mpos).
  assert (XR := cm_ro _ _ _ _ _ _ _ _ _ _ HM). assert (XZ := cm_zo _ _ _ _ _ _ _ _ _ _ HM).
  unfold gcurrent_one_border. cbv zeta. ops. bords.
  destruct Ci as [Ei I0 In Io|Ei I0 Io In I1 I2|Ei I0 Io In I1 I2]; destruct Ck as [Ek K0 Kn' Ko'|Ek K0 Ko' Kn' K1 K2|Ek K0 Ko' Kn' K1 K2]; try lia.
  - (* z up *)
    replace (i_n =? i_o)%Z with true by (symmetry; apply Z.eqb_eq; lia). replace (k_n =? k_o)%Z with false by (symmetry; apply Z.eqb_neq; lia). cbn [negb andb].
    subst i_o k_n. assert (J : (1 <= k_o + 1 <= nz)%Z) by (destruct Ko; lia). replace (k_o + 1 - 1)%Z with k_o by lia.
    assert (HB : between ZO (IZR (k_o + 1) * DZ) ZN) by (left; split; assumption). destruct (tz_ok _ HB) as (T & E & V).
    destruct (bord_z _ J) as (FB & _ & _ & B). apply Rabs_le_inv in B. assert (O := cm_po _ _ _ _ _ _ _ _ _ _ HM (k_o + 1)%Z). change (gdz A g) with ddz in O. rewrite Rabs_left in O by lra.
    rewrite lt_true by (assumption || lra). destruct (minus_zo _ J) as (MS & _). destruct (z_mult _ J HB _ MS) as (AT & _).
    assert (A0 := cell_0 DR i_n RO dR Io). assert (A1 := r_1 i_n In). assert (AM : in_cell DR i_n (RO + tz (k_o + 1) * dR)) by pt 0 1.
    assert (B0 := cell_0 DZ k_o ZO dZ Ko'). assert (B1 := z_1 _ Kn'). assert (BM : in_cell DZ k_o (ZO + tz (k_o + 1) * dZ)) by (rewrite <- E; now apply on_up). assert (BM' : in_cell DZ (k_o + 1) (ZO + tz (k_o + 1) * dZ)) by (rewrite <- E; now apply on_low).
    apply two64 with (tz (k_o + 1)); try assumption; try (split; assumption). apply agree_sym, agree_z; assumption.
  - (* z down *)
    replace (i_n =? i_o)%Z with true by (symmetry; apply Z.eqb_eq; lia). replace (k_n =? k_o)%Z with false by (symmetry; apply Z.eqb_neq; lia). cbn [negb andb].
    subst i_o k_o. assert (J : (1 <= k_n + 1 <= nz)%Z) by (destruct Kn; lia).
    assert (HB : between ZO (IZR (k_n + 1) * DZ) ZN) by (right; split; assumption). destruct (tz_ok _ HB) as (T & E & V).
    destruct (bord_z0 k_n ltac:(lia)) as (FB & B). apply Rabs_le_inv in B. assert (O := cm_po _ _ _ _ _ _ _ _ _ _ HM (k_n + 1)%Z). change (gdz A g) with ddz in O. rewrite Rabs_pos_eq in O by lra.
    rewrite ltb_false; [|assumption|assumption|rewrite plus_IZR in *; lra]. assert (MS := minus_zn _ J). destruct (z_mult' _ J HB _ MS) as (AT & _).
    assert (A0 := cell_0 DR i_n RO dR Io). assert (A1 := r_1 i_n In). assert (AM : in_cell DR i_n (RO + tz (k_n + 1) * dR)) by pt 0 1.
    assert (B0 := cell_0 DZ _ ZO dZ Ko'). assert (B1 := z_1 _ Kn'). assert (BM : in_cell DZ k_n (ZO + tz (k_n + 1) * dZ)) by (rewrite <- E; now apply on_up). assert (BM' : in_cell DZ (k_n + 1) (ZO + tz (k_n + 1) * dZ)) by (rewrite <- E; now apply on_low).
    apply two64 with (tz (k_n + 1)); try assumption; try (split; assumption). apply agree_z; assumption.
  - (* r up *)
    replace (k_n =? k_o)%Z with true by (symmetry; apply Z.eqb_eq; lia). replace (i_n =? i_o)%Z with false by (symmetry; apply Z.eqb_neq; lia). cbn [negb andb].
    subst i_n k_o. assert (J : (1 <= i_o + 1 <= nr)%Z) by (destruct Ro; lia). assert (J' : (1 <= i_o + 1 + 1 <= nr)%Z) by (destruct Rn; lia). replace (i_o + 1 - 1)%Z with i_o by lia.
    assert (HB : between RO (IZR (i_o + 1) * DR) RN) by (left; split; assumption). destruct (tr_ok _ HB) as (T & E & V).
    destruct (bord_r _ J') as (FB & _ & _ & B). apply Rabs_le_inv in B. assert (O := cm_oo _ _ _ _ _ _ _ _ _ _ HM (i_o + 1)%Z). change (gdr A g) with ddr in O. rewrite Rabs_left in O by lra.
    rewrite ltb_false; [|assumption|assumption|repeat rewrite plus_IZR in *; lra]. destruct (minus_ro _ J) as (MS & _). assert (AT := r_quot _ J HB _ MS).
    assert (A0 := cell_0 DZ k_n ZO dZ Ko'). assert (A1 := z_1 k_n Kn'). assert (AM : in_cell DZ k_n (ZO + tr (i_o + 1) * dZ)) by pt 0 1.
    assert (B0 := cell_0 DR i_o RO dR Io). assert (B1 := r_1 _ In). assert (BM : in_cell DR i_o (RO + tr (i_o + 1) * dR)) by (rewrite <- E; now apply on_up). assert (BM' : in_cell DR (i_o + 1) (RO + tr (i_o + 1) * dR)) by (rewrite <- E; now apply on_low).
    apply two64 with (tr (i_o + 1)); try assumption; try (split; assumption). apply agree_sym, agree_r; assumption.
  - (* r down *)
    replace (k_n =? k_o)%Z with true by (symmetry; apply Z.eqb_eq; lia). replace (i_n =? i_o)%Z with false by (symmetry; apply Z.eqb_neq; lia). cbn [negb andb].
    subst i_o k_o. assert (J : (1 <= i_n + 1 <= nr)%Z) by (destruct Rn; lia).
    assert (HB : between RO (IZR (i_n + 1) * DR) RN) by (right; split; assumption). destruct (tr_ok _ HB) as (T & E & V).
    destruct (bord_r _ J) as (FB & _ & _ & B). apply Rabs_le_inv in B. assert (O := cm_oo _ _ _ _ _ _ _ _ _ _ HM (i_n + 1)%Z). change (gdr A g) with ddr in O. rewrite Rabs_pos_eq in O by lra.
    rewrite lt_true; [|assumption|assumption|lra]. assert (MS := minus_rn _ J). assert (AT := r_quot' _ J HB _ MS).
    assert (A0 := cell_0 DZ k_n ZO dZ Ko'). assert (A1 := z_1 k_n Kn'). assert (AM : in_cell DZ k_n (ZO + tr (i_n + 1) * dZ)) by pt 0 1.
    assert (B0 := cell_0 DR _ RO dR Io). assert (B1 := r_1 _ In). assert (BM : in_cell DR i_n (RO + tr (i_n + 1) * dR)) by (rewrite <- E; now apply on_up). assert (BM' : in_cell DR (i_n + 1) (RO + tr (i_n + 1) * dR)) by (rewrite <- E; now apply on_low).
    apply two64 with (tr (i_n + 1)); try assumption; try (split; assumption). apply agree_r; assumption.
Qed.

(** ** Two borders *)
Record over_r (jr i1 i2 : Z) : Prop := OverR {
  or_b : between RO (IZR jr * DR) RN; or_1 : row_ok i1; or_2 : row_ok i2;
  or_o : in_cell DR i1 RO; or_n : in_cell DR i2 RN; or_m1 : in_cell DR i1 (IZR jr * DR); or_m2 : in_cell DR i2 (IZR jr * DR);
  or_a : forall k z, at_t (tr jr) (bord jr ddr) z -> in_cell DZ k (ZO + tr jr * dZ) -> agree (bord jr ddr) z i1 k i2 k }.
Record over_z (jz k1 k2 : Z) : Prop := OverZ {
  oz_b : between ZO (IZR jz * DZ) ZN; oz_1 : col_ok k1; oz_2 : col_ok k2;
  oz_o : in_cell DZ k1 ZO; oz_n : in_cell DZ k2 ZN; oz_m1 : in_cell DZ k1 (IZR jz * DZ); oz_m2 : in_cell DZ k2 (IZR jz * DZ);
  oz_a : forall c r, row_ok c -> at_t (tz jz) r (bord jz ddz) -> in_cell DR c (RO + tz jz * dR) -> agree r (bord jz ddz) c k1 c k2 }.

Lemma over_r_up : forall c, row_ok c -> row_ok (c + 1) -> in_cell DR c RO -> in_cell DR (c + 1) RN -> RO < IZR (c + 1) * DR < RN -> over_r (c + 1) c (c + 1).
Proof.
  intros c R1 R2 O N B. assert (P := DRpos). split; try assumption; [now left|now apply on_up|now apply on_low|]. intros k z HA HC. apply agree_sym, agree_r; try assumption. now left.
Qed.
Lemma over_r_down : forall c, row_ok c -> row_ok (c + 1) -> in_cell DR (c + 1) RO -> in_cell DR c RN -> RN < IZR (c + 1) * DR < RO -> over_r (c + 1) (c + 1) c.
Proof.
  intros c R1 R2 O N B. assert (P := DRpos). split; try assumption; [now right|now apply on_low|now apply on_up|]. intros k z HA HC. apply agree_r; try assumption. now right.
Qed.
Lemma over_z_up : forall k, col_ok k -> col_ok (k + 1) -> in_cell DZ k ZO -> in_cell DZ (k + 1) ZN -> ZO < IZR (k + 1) * DZ < ZN -> over_z (k + 1) k (k + 1).
Proof.
  intros k R1 R2 O N B. assert (P := DZpos). split; try assumption; [now left|now apply on_up|now apply on_low|]. intros c r HR HA HC. apply agree_sym, agree_z; try assumption. now left.
Qed.
Lemma over_z_down : forall k, col_ok k -> col_ok (k + 1) -> in_cell DZ (k + 1) ZO -> in_cell DZ k ZN -> ZN < IZR (k + 1) * DZ < ZO -> over_z (k + 1) (k + 1) k.
Proof.
  intros k R1 R2 O N B. assert (P := DZpos). split; try assumption; [now right|now apply on_low|now apply on_up|]. intros c r HR HA HC. apply agree_z; try assumption. now right.
Qed.

Section Two.
Variables (jr i1 i2 jz k1 k2 : Z) (z1 r2 : b64).
Hypothesis OR : over_r jr i1 i2.
Hypothesis OZ : over_z jz k1 k2.
Hypothesis A1 : at_t (tr jr) (bord jr ddr) z1.
Hypothesis A2 : at_t (tz jz) r2 (bord jz ddz).
Notation r1 := (bord jr ddr). Notation z2 := (bord jz ddz).
Lemma tr_tz : tr jr <> tz jz.
Proof.
  intro E. destruct (tr_ok _ (or_b _ _ _ OR)) as (T & E1' & _). destruct (tz_ok _ (oz_b _ _ _ OZ)) as (_ & E2' & _).
  apply (cm_nodes _ _ _ _ _ _ _ _ _ _ HM (tr jr) T); [exists jr; exact (eq_sym E1')|exists jz; rewrite E; exact (eq_sym E2')].
Qed.
Lemma r_first : tr jr < tz jz -> Bal (simple r1 z1 ro zo i1 k1 ++ simple r2 z2 r1 z1 i2 k1 ++ simple rn zn r2 z2 i2 k2) i2 k2 i1 k1.
Proof.
  intro O. destruct OR as [B R1 R2 Ro Rn M1 M2 AG]. destruct OZ as [B' K1 K2 Ko Kn N1 N2 AG']. destruct (tr_ok _ B) as (T & E & V). destruct (tz_ok _ B') as (T' & E' & V').
  assert (C0 := cell_0 _ _ _ dR Ro). assert (C1 := r_1 _ Rn). assert (D0 := cell_0 _ _ _ dZ Ko). assert (D1 := z_1 _ Kn). rewrite E in M1, M2. rewrite E' in N1, N2.
  assert (X : in_cell DR i2 (RO + tz jz * dR)) by pt (tr jr) 1. assert (Y : in_cell DZ k1 (ZO + tr jr * dZ)) by pt 0 (tz jz).
  apply three64 with (tr jr) (tz jz); try assumption; try lra; try (split; assumption); [now apply AG|now apply AG'].
Qed.
Lemma z_first : tz jz < tr jr -> Bal (simple r2 z2 ro zo i1 k1 ++ simple r1 z1 r2 z2 i1 k2 ++ simple rn zn r1 z1 i2 k2) i2 k2 i1 k1.
Proof.
  intro O. destruct OR as [B R1 R2 Ro Rn M1 M2 AG]. destruct OZ as [B' K1 K2 Ko Kn N1 N2 AG']. destruct (tr_ok _ B) as (T & E & V). destruct (tz_ok _ B') as (T' & E' & V').
  assert (C0 := cell_0 _ _ _ dR Ro). assert (C1 := r_1 _ Rn). assert (D0 := cell_0 _ _ _ dZ Ko). assert (D1 := z_1 _ Kn). rewrite E in M1, M2. rewrite E' in N1, N2.
  assert (X : in_cell DR i1 (RO + tz jz * dR)) by pt 0 (tr jr). assert (Y : in_cell DZ k2 (ZO + tr jr * dZ)) by pt (tz jz) 1.
  apply three64 with (tz jz) (tr jr); try assumption; try lra; try (split; assumption); [now apply AG'|now apply AG].
Qed.
Hypothesis Hjz : (1 <= jz <= nz)%Z.
Lemma route_up : ZO < ZN -> Bal (if Bltb z1 z2 then simple r1 z1 ro zo i1 k1 ++ simple r2 z2 r1 z1 i2 k1 ++ simple rn zn r2 z2 i2 k2
  else if Bltb z2 z1 then simple r2 z2 ro zo i1 k1 ++ simple r1 z1 r2 z2 i1 k2 ++ simple rn zn r1 z1 i2 k2 else []) i2 k2 i1 k1.
Proof.
  intro D. destruct (tr_ok _ (or_b _ _ _ OR)) as (T & E & V). destruct (order_z _ _ _ jz Hjz (oz_b _ _ _ OZ) V A1) as (O1 & O2). destruct (bord_z _ Hjz) as (F2 & _). assert (F1 := A1). destruct F1 as (_ & F1 & _).
  destruct (Rtotal_order (tr jr) (tz jz)) as [L|[L|L]]; [|contradiction (tr_tz L)|].
  - rewrite lt_true by (assumption || now apply O1). now apply r_first.
  - assert (K := proj1 (O2 L) D). rewrite ltb_false, lt_true by (assumption || lra). now apply z_first.
Qed.
Lemma route_down : ZN < ZO -> Bal (if Bltb z2 z1 then simple r1 z1 ro zo i1 k1 ++ simple r2 z2 r1 z1 i2 k1 ++ simple rn zn r2 z2 i2 k2
  else if Bltb z1 z2 then simple r2 z2 ro zo i1 k1 ++ simple r1 z1 r2 z2 i1 k2 ++ simple rn zn r1 z1 i2 k2 else []) i2 k2 i1 k1.
Proof.
  intro D. destruct (tr_ok _ (or_b _ _ _ OR)) as (T & E & V). destruct (order_z _ _ _ jz Hjz (oz_b _ _ _ OZ) V A1) as (O1 & O2). destruct (bord_z _ Hjz) as (F2 & _). assert (F1 := A1). destruct F1 as (_ & F1 & _).
  destruct (Rtotal_order (tr jr) (tz jz)) as [L|[L|L]]; [|contradiction (tr_tz L)|].
  - rewrite lt_true by (assumption || now apply O1). now apply r_first.
  - assert (K := proj2 (O2 L) D). rewrite ltb_false, lt_true by (assumption || lra). now apply z_first.
Qed.
End Two.

Lemma two_borders : forall i_n i_o k_n k_o, row_ok i_n -> row_ok i_o -> col_ok k_n -> col_ok k_o -> cells_case DR RN RO i_n i_o -> cells_case DZ ZN ZO k_n k_o ->
  (Z.abs (i_n - i_o) + Z.abs (k_n - k_o) = 2)%Z -> Bal (gcurrent_two_borders A g dt q rn zn ro zo i_n k_n i_o k_o) i_n k_n i_o k_o.
Proof.
  intros i_n i_o k_n k_o Rn Ro Kn Ko Ci Ck Hres.
  unfold gcurrent_two_borders. cbv zeta. ops. bords.
  destruct Ci as [Ei I0 In Io|Ei I0 Io In I1 I2|Ei I0 Io In I1 I2]; destruct Ck as [Ek K0 Kn' Ko'|Ek K0 Ko' Kn' K1 K2|Ek K0 Ko' Kn' K1 K2]; try lia; subst.
  - (* up, up *)
    replace (i_o <? i_o + 1)%Z with true by (symmetry; apply Z.ltb_lt; lia). replace (k_o <? k_o + 1)%Z with true by (symmetry; apply Z.ltb_lt; lia).
    assert (J : (1 <= i_o + 1 <= nr)%Z) by (destruct Ro; lia). assert (L : (1 <= k_o + 1 <= nz)%Z) by (destruct Ko; lia). replace (i_o + 1 - 1)%Z with i_o by lia. replace (k_o + 1 - 1)%Z with k_o by lia.
    assert (OR : over_r (i_o + 1) i_o (i_o + 1)) by (apply over_r_up; try assumption; split; assumption). assert (OZ : over_z (k_o + 1) k_o (k_o + 1)) by (apply over_z_up; try assumption; split; assumption).
    apply route_up; try assumption; [|apply (z_mult _ L (oz_b _ _ _ OZ)); apply minus_zo, L|lra]. apply (r_quot _ J (or_b _ _ _ OR)). apply minus_ro, J.
  - (* up, down *)
    replace (i_o <? i_o + 1)%Z with true by (symmetry; apply Z.ltb_lt; lia). replace (k_n + 1 <? k_n)%Z with false by (symmetry; apply Z.ltb_ge; lia).
    assert (J : (1 <= i_o + 1 <= nr)%Z) by (destruct Ro; lia). assert (L : (1 <= k_n + 1 <= nz)%Z) by (destruct Kn; lia). replace (i_o + 1 - 1)%Z with i_o by lia.
    assert (OR : over_r (i_o + 1) i_o (i_o + 1)) by (apply over_r_up; try assumption; split; assumption). assert (OZ : over_z (k_n + 1) (k_n + 1) k_n) by (apply over_z_down; try assumption; split; assumption).
    apply route_down; try assumption; [|apply (z_mult _ L (oz_b _ _ _ OZ)); apply minus_zo, L|lra]. apply (r_quot _ J (or_b _ _ _ OR)). apply minus_ro, J.
  - (* down, up *)
    replace (i_n + 1 <? i_n)%Z with false by (symmetry; apply Z.ltb_ge; lia). replace (i_n <? i_n + 1)%Z with true by (symmetry; apply Z.ltb_lt; lia). replace (k_o <? k_o + 1)%Z with true by (symmetry; apply Z.ltb_lt; lia).
    assert (J : (1 <= i_n + 1 <= nr)%Z) by (destruct Rn; lia). assert (L : (1 <= k_o + 1 <= nz)%Z) by (destruct Ko; lia). replace (k_o + 1 - 1)%Z with k_o by lia.
    assert (OR : over_r (i_n + 1) (i_n + 1) i_n) by (apply over_r_down; try assumption; split; assumption). assert (OZ : over_z (k_o + 1) k_o (k_o + 1)) by (apply over_z_up; try assumption; split; assumption).
    destruct (minus_zo _ L) as (MS & _ & FV & EV).
    apply route_up; try assumption; [|apply (z_sub _ L (oz_b _ _ _ OZ) _ _ MS FV EV)|lra]. apply (r_quot _ J (or_b _ _ _ OR)). apply minus_ro, J.
  - (* down, down *)
    replace (i_n + 1 <? i_n)%Z with false by (symmetry; apply Z.ltb_ge; lia). replace (i_n <? i_n + 1)%Z with true by (symmetry; apply Z.ltb_lt; lia). replace (k_n + 1 <? k_n)%Z with false by (symmetry; apply Z.ltb_ge; lia). replace (k_n <? k_n + 1)%Z with true by (symmetry; apply Z.ltb_lt; lia).
    assert (J : (1 <= i_n + 1 <= nr)%Z) by (destruct Rn; lia). assert (L : (1 <= k_n + 1 <= nz)%Z) by (destruct Kn; lia).
    assert (OR : over_r (i_n + 1) (i_n + 1) i_n) by (apply over_r_down; try assumption; split; assumption). assert (OZ : over_z (k_n + 1) (k_n + 1) k_n) by (apply over_z_down; try assumption; split; assumption).
    apply route_down; try assumption; [|apply (z_mult' _ L (oz_b _ _ _ OZ)); apply minus_zn, L|lra]. apply (r_quot' _ J (or_b _ _ _ OR)). apply minus_rn, J.
Qed.


(** ** The whole function *)
Lemma case_in : forall d pn po cn co, cells_case d pn po cn co -> in_cell d co po /\ in_cell d cn pn.
Proof. intros d pn po cn co [E H1 H2 H3|E H1 H2 H3 H4 H5|E H1 H2 H3 H4 H5]; subst; split; assumption. Qed.
Theorem current64 :
  continuity_upto (bp (-41) * (RO / DR + ZO / DZ + 4) * Rabs Q) DR DZ DT Q (handed pw lg J_R (gcurrent_single A g dt q rn zn ro zo)) (handed pw lg J_Z (gcurrent_single A g dt q rn zn ro zo)) RN ZN RO ZO /\
  all_finite pw lg (gcurrent_single A g dt q rn zn ro zo).
Proof.
  destruct cells_r as (TR & Rn & Ro & Ci). destruct cells_z as (TZ & Kn & Ko & Ck).
  assert (BR : in_cell DR i_o RO /\ in_cell DR i_n RN) by (now apply case_in).
  assert (BZ : in_cell DZ k_o ZO /\ in_cell DZ k_n ZN) by (now apply case_in).
  destruct BR as (BRo & BRn). destruct BZ as (BZo & BZn).
  assert (B0 : both 0 i_o k_o) by (split; apply cell_0; assumption). assert (B1 : both 1 i_n k_n) by (split; [now apply r_1|now apply z_1]).
  apply balanced with i_n k_n i_o k_o; try assumption.
  unfold gcurrent_single. change (gdr A g) with ddr. change (gdz A g) with ddz. rewrite TR, TZ.
  assert (M48 := cm_m _ _ _ _ _ _ _ _ _ _ HM). assert (LR := dR_lo). assert (LZ := dZ_lo). destruct bp11 as (P1 & P2).
  assert (B48 : bp (-48) = / 281474976710656) by reflexivity. assert (B49 : bp (-49) = / 562949953421312) by reflexivity.
  assert (T1 : Bltb (absv A (b64_sub rn ro)) (gMNZL A) = false).
  { apply big_diff; [exact (cm_rn _ _ _ _ _ _ _ _ _ _ HM)|exact (cm_ro _ _ _ _ _ _ _ _ _ _ HM)|]. fold dR. rewrite B49. change (bp 11) with 2048 in *. change (bp 12) with 4096. lra. }
  assert (T2 : Bltb (absv A (b64_sub zn zo)) (gMNZL A) = false).
  { apply big_diff; [exact (cm_zn _ _ _ _ _ _ _ _ _ _ HM)|exact (cm_zo _ _ _ _ _ _ _ _ _ _ HM)|]. fold dZ. rewrite B49. change (bp 11) with 2048 in *. change (bp 12) with 4096. lra. }
  change (sub A) with b64_sub. change (ltb A) with (@Bltb prec64 emax64). rewrite T1, T2.
  assert (S1 : (Z.abs (i_n - i_o) <= 1)%Z) by (destruct Ci; lia). assert (S2 : (Z.abs (k_n - k_o) <= 1)%Z) by (destruct Ck; lia).
  destruct (Z.eqb_spec (Z.abs (i_n - i_o) + Z.abs (k_n - k_o)) 0) as [E|N0].
  - assert (X1 : i_o = i_n) by lia. assert (X2 : k_o = k_n) by lia. rewrite X1, X2 in *. now apply one64.
  - destruct (Z.eqb_spec (Z.abs (i_n - i_o) + Z.abs (k_n - k_o)) 1) as [E|N1]; [now apply one_border|].
    destruct (Z.eqb_spec (Z.abs (i_n - i_o) + Z.abs (k_n - k_o)) 2) as [E|N2]; [now apply two_borders|lia].
Qed.
End Route.
