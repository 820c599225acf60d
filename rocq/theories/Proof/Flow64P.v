(** Composition of the legs of a path in binary64: balances with the polynomial shares of the cells. *)
From Coq Require Import Reals ZArith List Bool Lia Lra Psatz.
From Flocq Require Import Core IEEE754.BinarySingleNaN.
From Verif.Lib Require Import RAux Outcome Grid.
From Verif.Model Require Import Constants Binary64 Temperature64 Arith CurrentDeposit GenCode.
From Verif.Spec Require Import Cloud Continuity Double Deposit64.
From Verif.Proof Require Import GeometryP ChargeP CurrentP Binary64P FloatP Axis64P Push64P Err64P Ana64P Log64P Leg64P Poly64P.
Import ListNotations.
Local Open Scope R_scope.

Section Flow.
Variables pw lg : b64 -> b64.
Notation A := (b64_arith pw lg).
Notation hand := (handed pw lg).

Lemma hand_app : forall c a b i k, hand c (a ++ b) i k = hand c a i k + hand c b i k.
Proof.
  intros c a b i k. induction a as [|x a IH]; unfold handed in *; cbn [app fold_right] in *; [ring|]. rewrite IH. ring.
Qed.

(** A list of calls takes the shares [F0] to the shares [F1], up to [eps]. *)
Definition flow (d_r d_z dt q eps : R) (l : list (gjinc A)) (F1 F0 : Z -> Z -> R) : Prop :=
  forall i j, Rabs (q * F1 i j - q * F0 i j + outflow d_r d_z dt (hand J_R l) (hand J_Z l) i j) <= eps.

Lemma flow_app : forall d_r d_z dt q e1 e2 e3 l1 l2 F0 F1 F2 F3,
  flow d_r d_z dt q e1 l1 F1 F0 -> flow d_r d_z dt q e2 l2 F3 F2 -> (forall i j, Rabs (q * F2 i j - q * F1 i j) <= e3) ->
  flow d_r d_z dt q (e1 + e2 + e3) (l1 ++ l2) F3 F0.
Proof.
  intros d_r d_z dt q e1 e2 e3 l1 l2 F0 F1 F2 F3 H1 H2 H3 i j. specialize (H1 i j). specialize (H2 i j). specialize (H3 i j). unfold outflow in *. rewrite !hand_app.
  apply Rabs_le_inv in H1. apply Rabs_le_inv in H2. apply Rabs_le_inv in H3. apply Rabs_le. lra.
Qed.
Lemma flow_ends : forall d_r d_z dt q e1 e2 l F0 F1 G0 G1,
  flow d_r d_z dt q e1 l F1 F0 -> (forall i j, Rabs (q * F1 i j - q * G1 i j) <= e2) -> (forall i j, Rabs (q * F0 i j - q * G0 i j) <= e2) ->
  flow d_r d_z dt q (e1 + 2 * e2) l G1 G0.
Proof.
  intros d_r d_z dt q e1 e2 l F0 F1 G0 G1 H1 H2 H3 i j. specialize (H1 i j). specialize (H2 i j). specialize (H3 i j).
  apply Rabs_le_inv in H1. apply Rabs_le_inv in H2. apply Rabs_le_inv in H3. apply Rabs_le. lra.
Qed.

(** The shares of one cell at a point. *)
Definition cell_share (d_r d_z : R) (c k : Z) (r z : R) : Z -> Z -> R := fun i j => PR d_r c i r * PZ d_z k j z.

Lemma hand_leg_z : forall c k z0 z1 x0 x1 i j, hand J_Z (out64 pw lg c k z0 z1 x0 x1) i j =
  if (j =? k)%Z then (if (i =? c)%Z then B2R z0 else if (i =? c + 1)%Z then B2R z1 else 0) else 0.
Proof.
  intros. unfold handed, out64, gj_z, gj_r. cbn [fold_right gj_comp gj_inc grow gcol gval jcomp_eqb andb].
  rewrite (Z.eqb_sym c i), (Z.eqb_sym (c + 1) i), (Z.eqb_sym k j). destruct (Z.eqb_spec j k), (Z.eqb_spec i c), (Z.eqb_spec i (c + 1)); cbn; try lia; lra.
Qed.
Lemma hand_leg_r : forall c k z0 z1 x0 x1 i j, hand J_R (out64 pw lg c k z0 z1 x0 x1) i j =
  if (i =? c)%Z then (if (j =? k)%Z then B2R x0 else if (j =? k + 1)%Z then B2R x1 else 0) else 0.
Proof.
  intros. unfold handed, out64, gj_z, gj_r. cbn [fold_right gj_comp gj_inc grow gcol gval jcomp_eqb andb].
  rewrite (Z.eqb_sym c i), (Z.eqb_sym (k + 1) j), (Z.eqb_sym k j). destruct (Z.eqb_spec i c), (Z.eqb_spec j k), (Z.eqb_spec j (k + 1)); cbn; try lia; lra.
Qed.

Theorem leg_flow : forall (g : ggeom A) (dt q rn zn ro zo : b64) (c k : Z), leg_ok pw lg g dt q rn zn ro zo c k ->
  flow (@B2R prec64 emax64 (gdr A g)) (@B2R prec64 emax64 (gdz A g)) (B2R dt) (B2R q) (leg_eps q c k) (gsimple_current A g dt q rn zn ro zo c k)
    (cell_share (@B2R prec64 emax64 (gdr A g)) (@B2R prec64 emax64 (gdz A g)) c k (B2R rn) (B2R zn))
    (cell_share (@B2R prec64 emax64 (gdr A g)) (@B2R prec64 emax64 (gdz A g)) c k (B2R ro) (B2R zo)) /\
  all_finite pw lg (gsimple_current A g dt q rn zn ro zo c k).
Proof.
  intros g dt q rn zn ro zo c k H. destruct (leg_balance pw lg g dt q rn zn ro zo c k H) as (z0 & z1 & x0 & x1 & E & (F0 & F1 & F2 & F3) & B00 & B10 & B01 & B11).
  rewrite E. split; [|repeat constructor; assumption].
  assert (HC := l_c _ _ _ _ _ _ _ _ _ _ _ H).
  change (gdr A g) with (dr64 pw lg g). change (gdz A g) with (dz64 pw lg g).
  set (DR := B2R (dr64 pw lg g)) in *. set (DZ := B2R (dz64 pw lg g)) in *.
  assert (EA0 : node_area DR c = Aa0 pw lg g c).
  { unfold Aa0. fold DR. destruct (Z.leb_spec 1 c) as [L|L]; [now apply node_area_pos_i|]. replace c with 0%Z by lia. apply node_area_0. }
  assert (EA1 : node_area DR (c + 1) = Aa1 pw lg g c) by (unfold Aa1; fold DR; apply node_area_pos_i; lia).
  assert (ES : node_side DR DZ c = Ss pw lg g c) by (unfold Ss; fold DR DZ; apply node_side_nonneg; lia).
  assert (EP : 0 <= leg_eps q c k) by (apply Rle_trans with (2 := B00); apply Rabs_pos).
  unfold pr0, pr1, pz0, pz1 in *. fold DR DZ in B00, B10, B01, B11.
  intros i j. unfold outflow, cell_share, PR, PZ. rewrite !hand_leg_r, !hand_leg_z.
  destruct (Z.eq_dec i c) as [->|Hi].
  - rewrite Z.eqb_refl. replace (c - 1 =? c)%Z with false by (symmetry; apply Z.eqb_neq; lia). rewrite EA0, ES.
    destruct (Z.eq_dec j k) as [->|Hj].
    + rewrite Z.eqb_refl. replace (k - 1 =? k)%Z with false by (symmetry; apply Z.eqb_neq; lia).
      eapply Rle_trans; [right|exact B00]. f_equal. ring.
    + replace (j =? k)%Z with false by (symmetry; apply Z.eqb_neq; lia). destruct (Z.eq_dec j (k + 1)) as [->|Hj1].
      * rewrite Z.eqb_refl. replace (k + 1 - 1 =? k)%Z with true by (symmetry; apply Z.eqb_eq; lia).
        eapply Rle_trans; [right|exact B01]. f_equal. ring.
      * replace (j =? k + 1)%Z with false by (symmetry; apply Z.eqb_neq; lia).
        replace (j - 1 =? k)%Z with false by (symmetry; apply Z.eqb_neq; lia). apply Rle_trans with (2 := EP). right. apply eq_trans with (Rabs 0); [f_equal; ring|apply Rabs_R0].
  - replace (i =? c)%Z with false by (symmetry; apply Z.eqb_neq; lia).
    destruct (Z.eq_dec i (c + 1)) as [->|Hi1].
    + rewrite Z.eqb_refl. replace (c + 1 - 1)%Z with c by lia. rewrite Z.eqb_refl, EA1, ES.
      destruct (Z.eq_dec j k) as [->|Hj].
      * rewrite Z.eqb_refl. replace (k - 1 =? k)%Z with false by (symmetry; apply Z.eqb_neq; lia).
        eapply Rle_trans; [right|exact B10]. f_equal. ring.
      * replace (j =? k)%Z with false by (symmetry; apply Z.eqb_neq; lia). destruct (Z.eq_dec j (k + 1)) as [->|Hj1].
        -- rewrite Z.eqb_refl. replace (k + 1 - 1 =? k)%Z with true by (symmetry; apply Z.eqb_eq; lia).
           eapply Rle_trans; [right|exact B11]. f_equal. ring.
        -- replace (j =? k + 1)%Z with false by (symmetry; apply Z.eqb_neq; lia).
           replace (j - 1 =? k)%Z with false by (symmetry; apply Z.eqb_neq; lia). apply Rle_trans with (2 := EP). right. apply eq_trans with (Rabs 0); [f_equal; ring|apply Rabs_R0].
    + replace (i =? c + 1)%Z with false by (symmetry; apply Z.eqb_neq; lia).
      replace (i - 1 =? c)%Z with false by (symmetry; apply Z.eqb_neq; lia). apply Rle_trans with (2 := EP). right. apply eq_trans with (Rabs 0); [f_equal|apply Rabs_R0].
      destruct (j =? k)%Z, (j - 1 =? k)%Z; ring.
Qed.
End Flow.
