(** Current deposition: continuity of one leg, and composition of legs (C04, C05). *)
From Coq Require Import Reals ZArith Lia Lra List Bool Psatz.
From Verif.Lib Require Import RAux Grid.
From Verif.Model Require Import Constants Geometry CurrentDeposit.
From Verif.Spec Require Import Cloud Continuity.
From Verif.Proof Require Import GeometryP ChargeP.
Import ListNotations.
Local Open Scope R_scope.

(** ** The deposited arrays *)

(** The value that a list of calls adds to element (i, k) of component c. *)
Definition dep (c : jcomp) (l : list jinc) : arr := inc_at (comp_incs c l).

Lemma comp_incs_app : forall c a b, comp_incs c (a ++ b) = comp_incs c a ++ comp_incs c b.
Proof. intros. unfold comp_incs. now rewrite filter_app, map_app. Qed.

Lemma dep_app : forall c a b i k, dep c (a ++ b) i k = dep c a i k + dep c b i k.
Proof. intros. unfold dep. rewrite comp_incs_app. apply inc_at_app. Qed.

Lemma dep_nil : forall c i k, dep c [] i k = 0.
Proof. reflexivity. Qed.

Lemma apply_jincs_at : forall l j c i k,
  apply_jincs j l c i k = j c i k + dep c l i k.
Proof.
  induction l as [|x l IH]; intros j c i k.
  - rewrite dep_nil. cbn. lra.
  - change (apply_jincs j (x :: l)) with (apply_jincs (apply_jinc j x) l).
    rewrite IH. unfold apply_jinc, dep, comp_incs. cbn [filter].
    destruct (jcomp_eqb c (j_comp x)) eqn:E; [|reflexivity].
    cbn [map]. rewrite inc_at_cons. unfold apply_inc, upd.
    destruct (Z.eqb_spec i (row (j_inc x))), (Z.eqb_spec k (col (j_inc x))); cbn; subst; lra.
Qed.

(** ** Continuity of lists of calls *)

Definition cont (g : geom) (dt q : R) (l : list jinc) (rn zn ro zo : R) : Prop :=
  continuity (dr g) (dz g) dt q (dep J_R l) (dep J_Z l) rn zn ro zo.

Lemma cont_app : forall g dt q l1 l2 r0 z0 r1 z1 r2 z2,
  cont g dt q l1 r1 z1 r0 z0 -> cont g dt q l2 r2 z2 r1 z1 ->
  cont g dt q (l1 ++ l2) r2 z2 r0 z0.
Proof.
  intros g dt q l1 l2 r0 z0 r1 z1 r2 z2 H1 H2 i k.
  specialize (H1 i k). specialize (H2 i k). unfold outflow in *. rewrite !dep_app. lra.
Qed.

Lemma node_side_nonneg : forall d_r d_z i, (0 <= i)%Z ->
  node_side d_r d_z i = 2 * c_PI * ((IZR i + 1/2) * d_r) * d_z.
Proof. intros. unfold node_side. now rewrite node_outer_nonneg. Qed.

(** Deposit of the shape used by all legs: j_z at rows c and c+1 of column k, j_r at columns
    k and k+1 of row c. *)
Definition leg_deposit (c k : Z) (z0 z1 x0 x1 : R) : list jinc :=
  [ inc_j_z c k z0; inc_j_z (c + 1) k z1; inc_j_r c k x0; inc_j_r c (k + 1) x1 ].

Lemma leg_dep_z : forall c k z0 z1 x0 x1 i j,
  dep J_Z (leg_deposit c k z0 z1 x0 x1) i j =
  if (j =? k)%Z then (if (i =? c)%Z then z0 else if (i =? c + 1)%Z then z1 else 0) else 0.
Proof.
  intros. unfold dep, comp_incs, leg_deposit, inc_at, inc_j_z, inc_j_r. cbn [filter jcomp_eqb j_comp map j_inc row col val rsum].
  destruct (Z.eqb_spec j k), (Z.eqb_spec i c), (Z.eqb_spec i (c + 1)); cbn; try lia; lra.
Qed.

Lemma leg_dep_r : forall c k z0 z1 x0 x1 i j,
  dep J_R (leg_deposit c k z0 z1 x0 x1) i j =
  if (i =? c)%Z then (if (j =? k)%Z then x0 else if (j =? k + 1)%Z then x1 else 0) else 0.
Proof.
  intros. unfold dep, comp_incs, leg_deposit, inc_at, inc_j_z, inc_j_r. cbn [filter jcomp_eqb j_comp map j_inc row col val rsum].
  destruct (Z.eqb_spec i c), (Z.eqb_spec j k), (Z.eqb_spec j (k + 1)); cbn; try lia; lra.
Qed.

(** Continuity of such a deposit reduces to the four nodes of the cell. *)
Lemma leg_continuity : forall d_r d_z dt q rn zn ro zo c k z0 z1 x0 x1,
  0 < d_r -> 0 < d_z -> (0 <= c)%Z ->
  d_r/2 <= rn -> d_r/2 <= ro -> in_cell d_r c rn -> in_cell d_r c ro ->
  in_cell d_z k zn -> in_cell d_z k zo ->
  let A := node_area d_r in let S := node_side d_r d_z in
  q * (share_r d_r c rn * share_z d_z k zn) - q * (share_r d_r c ro * share_z d_z k zo)
    = - (dt * (A c * z0 + S c * x0)) ->
  q * (share_r d_r (c+1) rn * share_z d_z k zn) - q * (share_r d_r (c+1) ro * share_z d_z k zo)
    = - (dt * (A (c+1)%Z * z1 - S c * x0)) ->
  q * (share_r d_r c rn * share_z d_z (k+1) zn) - q * (share_r d_r c ro * share_z d_z (k+1) zo)
    = - (dt * (- (A c * z0) + S c * x1)) ->
  q * (share_r d_r (c+1) rn * share_z d_z (k+1) zn) - q * (share_r d_r (c+1) ro * share_z d_z (k+1) zo)
    = - (dt * (- (A (c+1)%Z * z1) - S c * x1)) ->
  continuity d_r d_z dt q (dep J_R (leg_deposit c k z0 z1 x0 x1)) (dep J_Z (leg_deposit c k z0 z1 x0 x1))
    rn zn ro zo.
Proof.
  intros d_r d_z dt q rn zn ro zo c k z0 z1 x0 x1 Hr Hz Hc Hn Ho In Io Kn Ko A S E00 E10 E01 E11 i j.
  unfold outflow, share. rewrite !leg_dep_r, !leg_dep_z.
  destruct (Z.eq_dec i c) as [->|Hi].
  - rewrite Z.eqb_refl. replace (c - 1 =? c)%Z with false by (symmetry; apply Z.eqb_neq; lia).
    destruct (Z.eq_dec j k) as [->|Hj].
    + rewrite Z.eqb_refl. replace (k - 1 =? k)%Z with false by (symmetry; apply Z.eqb_neq; lia).
      fold A S. lra.
    + destruct (Z.eq_dec j (k + 1)) as [->|Hj1].
      * rewrite Z.eqb_refl. replace (k + 1 =? k)%Z with false by (symmetry; apply Z.eqb_neq; lia).
        replace (k + 1 - 1 =? k)%Z with true by (symmetry; apply Z.eqb_eq; lia).
        fold A S. lra.
      * rewrite (share_z_other d_z k zn j), (share_z_other d_z k zo j) by assumption.
        replace (j =? k)%Z with false by (symmetry; apply Z.eqb_neq; lia).
        replace (j =? k + 1)%Z with false by (symmetry; apply Z.eqb_neq; lia).
        replace (j - 1 =? k)%Z with false by (symmetry; apply Z.eqb_neq; lia). ring.
  - replace (i =? c)%Z with false by (symmetry; apply Z.eqb_neq; lia).
    destruct (Z.eq_dec i (c + 1)) as [->|Hi1].
    + rewrite Z.eqb_refl. replace (c + 1 - 1)%Z with c by lia. rewrite Z.eqb_refl.
      destruct (Z.eq_dec j k) as [->|Hj].
      * rewrite Z.eqb_refl. replace (k - 1 =? k)%Z with false by (symmetry; apply Z.eqb_neq; lia).
        fold A S. lra.
      * destruct (Z.eq_dec j (k + 1)) as [->|Hj1].
        -- rewrite Z.eqb_refl. replace (k + 1 =? k)%Z with false by (symmetry; apply Z.eqb_neq; lia).
           replace (k + 1 - 1 =? k)%Z with true by (symmetry; apply Z.eqb_eq; lia).
           fold A S. lra.
        -- rewrite (share_z_other d_z k zn j), (share_z_other d_z k zo j) by assumption.
           replace (j =? k)%Z with false by (symmetry; apply Z.eqb_neq; lia).
           replace (j =? k + 1)%Z with false by (symmetry; apply Z.eqb_neq; lia).
           replace (j - 1 =? k)%Z with false by (symmetry; apply Z.eqb_neq; lia). ring.
    + rewrite (share_r_other d_r c rn i), (share_r_other d_r c ro i) by assumption.
      replace (i =? c + 1)%Z with false by (symmetry; apply Z.eqb_neq; lia).
      replace (i - 1 =? c)%Z with false by (symmetry; apply Z.eqb_neq; lia).
      destruct (j =? k)%Z, (j - 1 =? k)%Z; ring.
Qed.

(** ** One oblique leg inside a (closed) cell *)

Lemma MNZL_abs_neq : forall x, MNZL <= Rabs x -> x <> 0.
Proof.
  intros x H E. subst x. rewrite Rabs_R0 in H. assert (P := MNZL_pos). lra.
Qed.

Lemma simple_continuity : forall g dt q rn zn ro zo c k,
  geom_ok g -> 0 < dt -> (0 <= c)%Z ->
  dr g / 2 <= rn -> dr g / 2 <= ro -> in_cell (dr g) c rn -> in_cell (dr g) c ro ->
  in_cell (dz g) k zn -> in_cell (dz g) k zo ->
  MNZL <= Rabs (rn - ro) -> MNZL <= Rabs (zn - zo) ->
  cont g dt q (simple_current g dt q rn zn ro zo c k) rn zn ro zo.
Proof.
  intros g dt q rn zn ro zo c k Hg Ht Hc Hn Ho In Io Kn Ko Mr Mz.
  assert (Hdr := dr_pos g Hg). assert (Hdz := dz_pos g Hg). assert (HP := c_PI_pos).
  assert (Nr := MNZL_abs_neq _ Mr). assert (Nz := MNZL_abs_neq _ Mz).
  unfold cont, simple_current.
  destruct (Rlt_dec (Rabs (rn - ro)) MNZL) as [B|_]; [lra|].
  destruct (Rlt_dec (Rabs (zn - zo)) MNZL) as [B|_]; [lra|].
  assert (C0R := IZR_nonneg _ Hc).
  assert (EL : (rn - ro) / (zn - zo) * (zn - zo) + ro = ro + (rn - ro)) by (field; lra).
  rewrite EL. set (L := ln ((ro + (rn - ro)) / ro)).
  destruct (Z.leb_spec 1 c) as [H1|H1].
  - assert (C1R := IZR_ge1 _ H1).
    apply leg_continuity; auto; cbv zeta;
      rewrite ?share_r_at, ?share_r_next, ?share_z_at, ?share_z_next by assumption;
      rewrite ?node_area_pos_i by lia; rewrite node_side_nonneg by lia;
      unfold DENSITY_R, DENSITY_Z; rewrite ?plus_IZR; field; repeat split; lra.
  - assert (c = 0%Z) by lia. subst c.
    apply leg_continuity; auto; cbv zeta;
      rewrite ?share_r_at, ?share_r_next, ?share_z_at, ?share_z_next by assumption;
      rewrite ?node_area_0; rewrite ?node_area_pos_i by lia; rewrite node_side_nonneg by lia;
      unfold DENSITY_R, DENSITY_Z; rewrite ?plus_IZR; field; repeat split; lra.
Qed.
