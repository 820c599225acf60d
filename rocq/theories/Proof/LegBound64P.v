(** How large the currents of one oblique leg can be in binary64. *)
From Coq Require Import Reals ZArith List Bool Lia Lra Psatz.
From Flocq Require Import Core IEEE754.BinarySingleNaN.
From Verif.Lib Require Import RAux Outcome.
From Verif.Model Require Import Constants Binary64 Temperature64 Arith GenCode.
From Verif.Spec Require Import Double Deposit64.
From Verif.Proof Require Import Binary64P FloatP Axis64P Push64P Err64P Ana64P Log64P Leg64P.
Import ListNotations.
Local Open Scope R_scope.

Section Bound.
Variables pw lg : b64 -> b64.
Notation A := (b64_arith pw lg).
Variables (g : ggeom A) (dt q rn zn ro zo : b64) (c k : Z).
Hypothesis H : leg_ok pw lg g dt q rn zn ro zo c k.
Notation DR := (B2R (dr64 pw lg g)). Notation DZ := (B2R (dz64 pw lg g)). Notation DT := (B2R dt). Notation Q := (B2R q).
Notation RN := (B2R rn). Notation ZN := (B2R zn). Notation RO := (B2R ro). Notation ZO := (B2R zo).
Hypothesis HZO : (IZR k - 1) * DZ <= ZO <= (IZR k + 2) * DZ.
Hypothesis HZN : (IZR k - 1) * DZ <= ZN <= (IZR k + 2) * DZ.

Lemma near_size : forall x X M s, good x X M s -> fin x /\ Rabs (B2R x) <= 1025 / 1024 * M.
Proof.
  intros x X M s ((F & (K0 & K1) & NM & E) & _ & _). split; [exact F|]. assert (M0 := Rabs_pos X).
  assert (IZR (s_k s) / 4 * u * M <= / 1024 * M) by (apply Rmult_le_compat_r; lra).
  assert (T : Rabs (B2R x) <= Rabs (B2R x - X) + Rabs X) by (replace (B2R x) with ((B2R x - X) + X) at 1 by ring; apply Rabs_triang). lra.
Qed.
Lemma size_scaled : forall x X M s B C, good x X M s -> 0 <= B -> B * M <= C -> B * Rabs (B2R x) <= 1025 / 1024 * C.
Proof. intros x X M s B C G PB BC. destruct (near_size _ _ _ _ G) as (_ & S). assert (B * Rabs (B2R x) <= B * (1025 / 1024 * M)) by (apply Rmult_le_compat_l; lra). lra. Qed.

Notation AQ := (Rabs Q).
Notation A0 := (Aa0 pw lg g c). Notation A1 := (Aa1 pw lg g c). Notation SS := (Ss pw lg g c).
Lemma axial_sizes : exists z0 z1 x0 x1 : b64, gsimple_current A g dt q rn zn ro zo c k = out64 pw lg c k z0 z1 x0 x1 /\
  DT * A0 * Rabs (B2R z0) <= 54 / 10 * (IZR c + 1) * AQ /\ DT * A1 * Rabs (B2R z1) <= 54 / 10 * (IZR c + 1) * AQ.
Proof.
  destruct (env pw lg g dt q rn zn ro zo c k H) as (L & G).
  assert (PT := DTp _ _ _ _ _ _ _ _ _ _ _ H). assert (PP := c_PI_pos). assert (PD := DRp _ _ _ _ _ _ _ _ _ _ _ H). assert (C := C0 _ _ _ _ _ _ _ _ _ _ _ H). assert (C1 : IZR (c + 1) = IZR c + 1) by (now rewrite plus_IZR). assert (QP : 0 <= AQ) by apply Rabs_pos.
  assert (QC : 0 <= (IZR c + 1) * AQ) by (apply Rmult_le_pos; lra).
  assert (PA0 : 0 <= DT * A0). { apply Rmult_le_pos; [lra|]. unfold Aa0. destruct (1 <=? c)%Z; [repeat apply Rmult_le_pos; lra|]. unfold Rdiv. repeat apply Rmult_le_pos; lra. }
  assert (PA1 : 0 <= DT * A1). { apply Rmult_le_pos; [lra|]. unfold Aa1. rewrite C1. repeat apply Rmult_le_pos; lra. }
  assert (SZ0 := size_z0 _ _ _ _ _ _ _ _ _ _ _ H). assert (SZ1 := size_z1 _ _ _ _ _ _ _ _ _ _ _ H). unfold Leg64P.AQ in SZ0, SZ1.
  eexists. eexists. eexists. eexists. split.
  { unfold gsimple_current, out64. cbv zeta. change (ltb A) with (@Bltb prec64 emax64). change (absv A) with (@Babs prec64 emax64). change (sub A) with b64_sub.
    change (gMNZL A) with (b64_lit 1 1000000000000000). rewrite (l_te _ _ _ _ _ _ _ _ _ _ _ H), (l_ta _ _ _ _ _ _ _ _ _ _ _ H).
    instantiate (4 := if (1 <=? c)%Z then eb (b64_of_Z c :: vals pw lg g dt q rn zn ro zo c k) (x_z0 (fun n => V (S n)) (Ti (V 0) (V 1))) else eb (vals pw lg g dt q rn zn ro zo c k) (x_z0' V)).
    instantiate (3 := if (1 <=? c)%Z then eb (vals pw lg g dt q rn zn ro zo c k) (x_z1 V (Ti (V 5) (V 0))) else eb (vals pw lg g dt q rn zn ro zo c k) (x_z1' V)).
    instantiate (2 := eb (vals pw lg g dt q rn zn ro zo c k) (x_x0 V)). instantiate (1 := eb (vals pw lg g dt q rn zn ro zo c k) (x_x1 V)).
    destruct (1 <=? c)%Z; reflexivity. }
  split.
  - eapply Rle_trans with (1025 / 1024 * (53 / 10 * (IZR c + 1) * AQ)); [|lra]. unfold Mz0 in SZ0. destruct (Z.leb_spec 1 c) as [LC|LC].
    + assert (GC : goods (b64_of_Z c :: vals pw lg g dt q rn zn ro zo c k) (rv pw lg g dt q rn zn ro zo c k L) (mv pw lg g dt q rn zn ro zo c k) (Sh 0 0 20 true :: shapes)).
      { apply goods_cons; [|exact G]. assert (CC := l_c _ _ _ _ _ _ _ _ _ _ _ H). apply good_Z; [lia|]. assert (1 <= IZR c) by (apply IZR_le; exact LC). change (bp 0) with 1. lra. }
      eapply size_scaled; [apply analysed with (1 := GC); vm_compute; reflexivity|exact PA0|exact SZ0].
    + eapply size_scaled; [apply analysed with (1 := G); vm_compute; reflexivity|exact PA0|exact SZ0].
  - eapply Rle_trans with (1025 / 1024 * (53 / 10 * (IZR c + 1) * AQ)); [|lra]. unfold Mz1 in SZ1. destruct (1 <=? c)%Z; (eapply size_scaled; [apply analysed with (1 := G); vm_compute; reflexivity|exact PA1|exact SZ1]).
Qed.
Notation p0 := (pr0 pw lg g c). Notation p1 := (pr1 pw lg g c). Notation w0 := (pz0 pw lg g k). Notation w1 := (pz1 pw lg g k).
Lemma share_r : forall r, 9 / 20 * ((IZR c + 1) * DR) <= r <= 21 / 20 * ((IZR c + 1) * DR) -> Rabs (p0 r) <= IZR c + 1.
Proof.
  intros r R. assert (PD := DRp _ _ _ _ _ _ _ _ _ _ _ H). assert (C := C0 _ _ _ _ _ _ _ _ _ _ _ H). assert (CD : 0 <= IZR c * DR) by (apply Rmult_le_pos; lra). assert (RP : 0 < r) by lra.
  assert (E : p0 r = ((IZR c + 1) * DR - r) / DR * ((IZR c * DR + r) / (2 * r))) by (unfold pr0; field; split; lra). rewrite E, Rabs_mult.
  assert (X1 : Rabs (((IZR c + 1) * DR - r) / DR) <= 11 / 20 * (IZR c + 1)) by (unfold Rdiv; rewrite Rabs_mult, (Rabs_pos_eq (/ DR)) by (left; now apply Rinv_0_lt_compat); apply (le_quot _ _ _ PD); apply Rabs_le; lra).
  assert (X2 : Rabs ((IZR c * DR + r) / (2 * r)) <= 20 / 11). { rewrite Rabs_pos_eq; [|unfold Rdiv; apply Rmult_le_pos; [lra|left; apply Rinv_0_lt_compat; lra]]. apply le_quot; [lra|]. lra. }
  apply Rle_trans with (11 / 20 * (IZR c + 1) * (20 / 11)); [|lra]. apply Rmult_le_compat; try apply Rabs_pos; assumption.
Qed.
Lemma share_z : forall z, (IZR k - 1) * DZ <= z <= (IZR k + 2) * DZ -> Rabs (w0 z) <= 2 /\ Rabs (w1 z) <= 2.
Proof.
  intros z Z. assert (PD := DZp _ _ _ _ _ _ _ _ _ _ _ H). unfold pz0, pz1, Rdiv. rewrite !Rabs_mult, (Rabs_pos_eq (/ DZ)) by (left; now apply Rinv_0_lt_compat). split; apply (le_quot _ _ _ PD); apply Rabs_le; lra.
Qed.

Theorem leg_sizes : exists z0 z1 x0 x1 : b64, gsimple_current A g dt q rn zn ro zo c k = out64 pw lg c k z0 z1 x0 x1 /\ (fin z0 /\ fin z1 /\ fin x0 /\ fin x1) /\
  DT * A0 * Rabs (B2R z0) <= 6 * (IZR c + 1) * AQ /\ DT * A1 * Rabs (B2R z1) <= 6 * (IZR c + 1) * AQ /\
  DT * SS * Rabs (B2R x0) <= 10 * (IZR c + 1) * AQ /\ DT * SS * Rabs (B2R x1) <= 10 * (IZR c + 1) * AQ.
Proof.
  destruct axial_sizes as (z0' & z1' & x0' & x1' & E' & S0 & S1). destruct (leg_balance pw lg g dt q rn zn ro zo c k H) as (z0 & z1 & x0 & x1 & E & F & B00 & B10 & B01 & B11).
  rewrite E' in E. unfold out64 in E. injection E as -> -> -> ->. exists z0, z1, x0, x1. split; [exact E'|]. split; [exact F|]. clear E'.
  assert (PT := DTp _ _ _ _ _ _ _ _ _ _ _ H). assert (PP := c_PI_pos). assert (PD := DRp _ _ _ _ _ _ _ _ _ _ _ H). assert (PZ := DZp _ _ _ _ _ _ _ _ _ _ _ H). assert (C := C0 _ _ _ _ _ _ _ _ _ _ _ H). assert (KP := K0 _ _ _ _ _ _ _ _ _ _ _ H). assert (QP : 0 <= AQ) by apply Rabs_pos.
  assert (QC : AQ <= (IZR c + 1) * AQ) by (rewrite <- (Rmult_1_l AQ) at 1; apply Rmult_le_compat_r; lra).
  assert (PA0 : 0 <= DT * A0). { apply Rmult_le_pos; [lra|]. unfold Aa0. destruct (1 <=? c)%Z; [repeat apply Rmult_le_pos; lra|]. unfold Rdiv. repeat apply Rmult_le_pos; lra. }
  assert (PS : 0 <= DT * SS). { apply Rmult_le_pos; [lra|]. unfold Ss. repeat apply Rmult_le_pos; lra. }
  assert (EP : leg_eps q c k <= / 1000 * AQ).
  { unfold leg_eps, Leg64P.AQ. apply Rmult_le_compat_r; [exact QP|]. assert (bp 20 = 1048576) by (cbn; lra). apply Rle_trans with (bp (-43) * 4194304); [apply Rmult_le_compat_l; [apply bpow_ge_0|lra]|]. change (bp (-43)) with (/ 8796093022208). lra. }
  assert (L1 := l_ro _ _ _ _ _ _ _ _ _ _ _ H). assert (L2 := l_rn _ _ _ _ _ _ _ _ _ _ _ H).
  assert (prod : forall r w, 9 / 20 * ((IZR c + 1) * DR) <= r <= 21 / 20 * ((IZR c + 1) * DR) -> Rabs w <= 2 -> Rabs (Q * (p0 r * w)) <= 2 * ((IZR c + 1) * AQ)).
  { intros r w R W. rewrite !Rabs_mult. replace (2 * ((IZR c + 1) * AQ)) with (AQ * ((IZR c + 1) * 2)) by ring. apply Rmult_le_compat_l; [exact QP|]. apply Rmult_le_compat; try apply Rabs_pos; [now apply share_r|exact W]. }
  destruct (share_z _ HZO) as (WO0 & WO1). destruct (share_z _ HZN) as (WN0 & WN1).
  assert (T1 := prod _ _ L2 WN0). assert (T2 := prod _ _ L1 WO0). assert (T3 := prod _ _ L2 WN1). assert (T4 := prod _ _ L1 WO1). clear prod.
  assert (Z0 : Rabs (DT * A0 * B2R z0) <= 54 / 10 * (IZR c + 1) * AQ) by (rewrite Rabs_mult, (Rabs_pos_eq (DT * A0)) by exact PA0; exact S0).
  assert (fact : forall x, DT * SS * Rabs x = Rabs (DT * SS * x)) by (intro x; rewrite (Rabs_mult (DT * SS)), (Rabs_pos_eq (DT * SS)) by exact PS; reflexivity).
  split; [|split; [|split]].
  - lra.
  - lra.
  - rewrite fact. apply Rabs_le_inv in B00, T1, T2, Z0. apply Rabs_le. replace (DT * (A0 * B2R z0 + SS * B2R x0)) with (DT * A0 * B2R z0 + DT * SS * B2R x0) in B00 by ring. lra.
  - rewrite fact. apply Rabs_le_inv in B01, T3, T4, Z0. apply Rabs_le. replace (DT * (- (A0 * B2R z0) + SS * B2R x1)) with (- (DT * A0 * B2R z0) + DT * SS * B2R x1) in B01 by ring. lra.
Qed.
End Bound.
