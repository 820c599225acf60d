(** Current deposition: paths that cross cell borders (C05). *)
From Coq Require Import Reals ZArith Lia Lra List Bool Psatz.
From Verif.Lib Require Import RAux Grid.
From Verif.Model Require Import Constants Geometry CurrentDeposit.
From Verif.Spec Require Import Cloud Continuity.
From Verif.Proof Require Import GeometryP ChargeP CurrentP.
Import ListNotations.
Local Open Scope R_scope.

(** ** Cells after the treatment of ties *)

Inductive cells_case (d pn po : R) (cn co : Z) : Prop :=
| same_cell : cn = co -> (0 <= cn)%Z -> in_cell d cn pn -> in_cell d cn po -> cells_case d pn po cn co
| cell_up : cn = (co + 1)%Z -> (0 <= co)%Z -> in_cell d co po -> in_cell d cn pn ->
    po < IZR cn * d -> IZR cn * d < pn -> cells_case d pn po cn co
| cell_down : co = (cn + 1)%Z -> (0 <= cn)%Z -> in_cell d co po -> in_cell d cn pn ->
    pn < IZR co * d -> IZR co * d < po -> cells_case d pn po cn co.

Lemma tie_cells_case : forall d pn po, 0 < d -> 0 < pn -> 0 < po -> Rabs (pn - po) < d ->
  forall cn co, tie_cells d pn po = (cn, co) -> cells_case d pn po cn co.
Proof.
  intros d pn po Hd Hn Ho Ha cn co E. apply Rabs_def2 in Ha. destruct Ha as [Ha1 Ha2].
  unfold tie_cells in E.
  assert (L1 := cell_lower pn d Hd Hn). assert (L2 := cell_lower po d Hd Ho).
  assert (U1 := cell_upper pn d Hd (Rlt_le _ _ Hn)). assert (U2 := cell_upper po d Hd (Rlt_le _ _ Ho)).
  assert (N1 := cell_nonneg pn d). assert (N2 := cell_nonneg po d).
  set (n := cell pn d) in *. set (o := cell po d) in *.
  assert (D1 : (n <= o + 1)%Z).
  { destruct (Z_lt_le_dec (o + 1) n) as [H|H]; [|lia]. exfalso.
    assert (B := IZR_le_pred _ _ H). rewrite plus_IZR in B.
    assert ((IZR o + 1 + 1) * d <= IZR n * d) by (apply Rmult_le_compat_r; lra). lra. }
  assert (D2 : (o <= n + 1)%Z).
  { destruct (Z_lt_le_dec (n + 1) o) as [H|H]; [|lia]. exfalso.
    assert (B := IZR_le_pred _ _ H). rewrite plus_IZR in B.
    assert ((IZR n + 1 + 1) * d <= IZR o * d) by (apply Rmult_le_compat_r; lra). lra. }
  destruct (Req_EM_T po ((IZR o + 1) * d)) as [T1|T1].
  - assert (Hno : n = o \/ n = (o + 1)%Z).
    { destruct (Z.eq_dec n (o - 1)) as [X|X]; [exfalso|lia].
      rewrite X, minus_IZR in U1. lra. }
    assert (R0 : (cn, co) = (n, n)) by (destruct (Req_EM_T pn ((IZR n + 1) * d)); congruence).
    injection R0 as -> ->. apply same_cell; auto; [split; lra|].
    destruct Hno as [X|X]; rewrite X; [split; lra|]. split; rewrite plus_IZR; lra.
  - assert (U2' : po < (IZR o + 1) * d) by (destruct U2; [assumption|contradiction]).
    destruct (Req_EM_T pn ((IZR n + 1) * d)) as [T2|T2].
    + injection E as <- <-.
      assert (Hno : n = o \/ n = (o - 1)%Z).
      { destruct (Z.eq_dec n (o + 1)) as [X|X]; [exfalso|lia].
        rewrite X, plus_IZR in T2. lra. }
      apply same_cell; auto; [|split; lra].
      destruct Hno as [X|X]; rewrite X in *; [split; lra|].
      rewrite minus_IZR in *. split; lra.
    + assert (U1' : pn < (IZR n + 1) * d) by (destruct U1; [assumption|contradiction]).
      injection E as <- <-.
      destruct (Z.eq_dec n o) as [X|X].
      * rewrite X in *. apply same_cell; auto; split; lra.
      * destruct (Z.eq_dec n (o + 1)) as [Y|Y].
        -- apply cell_up; auto; try (split; lra); try lra. rewrite Y, plus_IZR. lra.
        -- assert (W : o = (n + 1)%Z) by lia.
           apply cell_down; auto; try (split; lra). rewrite W, plus_IZR. lra.
Qed.

Lemma in_cell_convex : forall d c x D t1 t t2, t1 <= t -> t <= t2 ->
  in_cell d c (x + t1 * D) -> in_cell d c (x + t2 * D) -> in_cell d c (x + t * D).
Proof.
  intros d c x D t1 t t2 H1 H2 [A1 A2] [B1 B2].
  destruct (Rle_lt_dec 0 D) as [P|P]; split; nra.
Qed.

(** ** Legs of a straight path *)

Section Path.
Variables (g : geom) (dt q rn zn ro zo : R).
Hypothesis Hg : geom_ok g.
Hypothesis Ht : 0 < dt.
Hypothesis Hrn : dr g / 2 <= rn.
Hypothesis Hro : dr g / 2 <= ro.
Hypothesis Hlegs : legs_at_least MNZL (dr g) (dz g) rn zn ro zo.

Let ev := leg_end (dr g) (dz g) rn zn ro zo.

Lemma leg_ok : forall t t' rA zA rB zB c k, ev t -> ev t' -> 0 <= t -> t < t' -> t' <= 1 ->
  rA = ro + t * (rn - ro) -> zA = zo + t * (zn - zo) ->
  rB = ro + t' * (rn - ro) -> zB = zo + t' * (zn - zo) ->
  (0 <= c)%Z -> in_cell (dr g) c rA -> in_cell (dr g) c rB -> in_cell (dz g) k zA -> in_cell (dz g) k zB ->
  cont g dt q (simple_current g dt q rB zB rA zA c k) rB zB rA zA.
Proof.
  intros t t' rA zA rB zB c k E E' T0 T T1 HrA HzA HrB HzB Hc CA CB KA KB.
  destruct (Hlegs t t' E E' T) as [L1 L2].
  assert (Hdr := dr_pos g Hg).
  apply simple_continuity; auto.
  - rewrite HrB. nra.
  - rewrite HrA. nra.
  - replace (rB - rA) with ((t' - t) * (rn - ro)) by (subst; ring).
    rewrite Rabs_mult, (Rabs_right (t' - t)) by lra. exact L1.
  - replace (zB - zA) with ((t' - t) * (zn - zo)) by (subst; ring).
    rewrite Rabs_mult, (Rabs_right (t' - t)) by lra. exact L2.
Qed.

Lemma ev0 : ev 0. Proof. now left. Qed.
Lemma ev1 : ev 1. Proof. right; now left. Qed.

Lemma two_legs : forall t rB zB c1 k1 c2 k2, ev t -> 0 < t < 1 ->
  rB = ro + t * (rn - ro) -> zB = zo + t * (zn - zo) ->
  (0 <= c1)%Z -> (0 <= c2)%Z ->
  in_cell (dr g) c1 ro -> in_cell (dr g) c1 rB -> in_cell (dr g) c2 rB -> in_cell (dr g) c2 rn ->
  in_cell (dz g) k1 zo -> in_cell (dz g) k1 zB -> in_cell (dz g) k2 zB -> in_cell (dz g) k2 zn ->
  cont g dt q (simple_current g dt q rB zB ro zo c1 k1 ++ simple_current g dt q rn zn rB zB c2 k2)
    rn zn ro zo.
Proof.
  intros t rB zB c1 k1 c2 k2 E T HrB HzB Hc1 Hc2 A1 A2 A3 A4 B1 B2 B3 B4.
  apply cont_app with rB zB.
  - apply leg_ok with 0 t; auto using ev0; try lra.
  - apply leg_ok with t 1; auto using ev1; try lra.
Qed.

Lemma three_legs : forall t t' rB zB rC zC c1 k1 c2 k2 c3 k3,
  ev t -> ev t' -> 0 < t -> t < t' -> t' < 1 ->
  rB = ro + t * (rn - ro) -> zB = zo + t * (zn - zo) ->
  rC = ro + t' * (rn - ro) -> zC = zo + t' * (zn - zo) ->
  (0 <= c1)%Z -> (0 <= c2)%Z -> (0 <= c3)%Z ->
  in_cell (dr g) c1 ro -> in_cell (dr g) c1 rB -> in_cell (dr g) c2 rB -> in_cell (dr g) c2 rC ->
  in_cell (dr g) c3 rC -> in_cell (dr g) c3 rn ->
  in_cell (dz g) k1 zo -> in_cell (dz g) k1 zB -> in_cell (dz g) k2 zB -> in_cell (dz g) k2 zC ->
  in_cell (dz g) k3 zC -> in_cell (dz g) k3 zn ->
  cont g dt q (simple_current g dt q rB zB ro zo c1 k1 ++
               simple_current g dt q rC zC rB zB c2 k2 ++
               simple_current g dt q rn zn rC zC c3 k3) rn zn ro zo.
Proof.
  intros. apply cont_app with rB zB; [|apply cont_app with rC zC].
  - apply leg_ok with 0 t; auto using ev0; try lra.
  - apply leg_ok with t t'; auto; try lra.
  - apply leg_ok with t' 1; auto using ev1; try lra.
Qed.

(** Crossing one radial border at radius B. *)
Lemma param_r : forall n, let B := IZR n * dr g in
  (ro < B < rn \/ rn < B < ro) ->
  let t := (B - ro) / (rn - ro) in
  0 < t < 1 /\ B = ro + t * (rn - ro) /\ ev t.
Proof.
  intros n B H t. assert (N : rn - ro <> 0) by (destruct H; lra).
  assert (E : B = ro + t * (rn - ro)) by (unfold t; field; exact N).
  assert (T : 0 < t < 1) by (destruct H; split; nra).
  repeat split; try apply T; auto.
  right; right. split; [exact T|]. left. exists n. rewrite <- E. reflexivity.
Qed.

Lemma param_z : forall n, let B := IZR n * dz g in
  (zo < B < zn \/ zn < B < zo) ->
  let t := (B - zo) / (zn - zo) in
  0 < t < 1 /\ B = zo + t * (zn - zo) /\ ev t.
Proof.
  intros n B H t. assert (N : zn - zo <> 0) by (destruct H; lra).
  assert (E : B = zo + t * (zn - zo)) by (unfold t; field; exact N).
  assert (T : 0 < t < 1) by (destruct H; split; nra).
  repeat split; try apply T; auto.
  right; right. split; [exact T|]. right. exists n. rewrite <- E. reflexivity.
Qed.

Lemma in_cell_line_low : forall d c, 0 < d -> in_cell d c (IZR c * d).
Proof. intros. split; lra. Qed.
Lemma in_cell_line_up : forall d c, 0 < d -> in_cell d c ((IZR c + 1) * d).
Proof. intros. split; lra. Qed.

Lemma in_cell_pt : forall d c x x' t, 0 <= t <= 1 -> in_cell d c x -> in_cell d c x' ->
  in_cell d c (x + t * (x' - x)).
Proof.
  intros d c x x' t [T0 T1] A B.
  apply in_cell_convex with 0 1; auto.
  - replace (x + 0 * (x' - x)) with x by ring. exact A.
  - replace (x + 1 * (x' - x)) with x' by ring. exact B.
Qed.

(** Points of the path between parameters s and s'. *)
Lemma in_cell_before : forall d c x x' s t, 0 <= t -> t <= s -> in_cell d c x ->
  in_cell d c (x + s * (x' - x)) -> in_cell d c (x + t * (x' - x)).
Proof.
  intros d c x x' s t T0 T A B. apply in_cell_convex with 0 s; auto.
  replace (x + 0 * (x' - x)) with x by ring. exact A.
Qed.

Lemma in_cell_after : forall d c x x' s t, t <= 1 -> s <= t -> in_cell d c x' ->
  in_cell d c (x + s * (x' - x)) -> in_cell d c (x + t * (x' - x)).
Proof.
  intros d c x x' s t T0 T A B. apply in_cell_convex with s 1; auto.
  replace (x + 1 * (x' - x)) with x' by ring. exact A.
Qed.

Lemma ext_r : MNZL <= Rabs (rn - ro).
Proof. destruct (Hlegs 0 1 ev0 ev1 ltac:(lra)) as [A _]. lra. Qed.
Lemma ext_z : MNZL <= Rabs (zn - zo).
Proof. destruct (Hlegs 0 1 ev0 ev1 ltac:(lra)) as [_ A]. lra. Qed.

Lemma one_border_continuity : forall i_n i_o k_n k_o,
  cells_case (dr g) rn ro i_n i_o -> cells_case (dz g) zn zo k_n k_o ->
  (Z.abs (i_n - i_o) + Z.abs (k_n - k_o) = 1)%Z ->
  cont g dt q (current_one_border g dt q rn zn ro zo i_n k_n i_o k_o) rn zn ro zo.
Proof.
  intros i_n i_o k_n k_o Ci Ck Hres.
  assert (Hdr := dr_pos g Hg). assert (Hdz := dz_pos g Hg).
  assert (Nr := MNZL_abs_neq _ ext_r). assert (Nz := MNZL_abs_neq _ ext_z).
  unfold current_one_border.
  destruct Ci as [Ei I0 In Io|Ei I0 Io In I1 I2|Ei I0 Io In I1 I2];
  destruct Ck as [Ek K0 Kn Ko|Ek K0 Ko Kn K1 K2|Ek K0 Ko Kn K1 K2]; try lia.
  - (* z up *)
    replace (i_n =? i_o)%Z with true by (symmetry; apply Z.eqb_eq; lia).
    replace (k_n =? k_o)%Z with false by (symmetry; apply Z.eqb_neq; lia). cbn [negb andb].
    destruct (Rlt_dec zo (IZR k_n * dz g)) as [_|X]; [|lra].
    destruct (param_z k_n (or_introl (conj K1 K2))) as (T & E & EV).
    set (t := (IZR k_n * dz g - zo) / (zn - zo)) in *.
    assert (ER : ro + (rn - ro) / (zn - zo) * (IZR k_n * dz g - zo) = ro + t * (rn - ro)).
    { unfold t. field. lra. }
    rewrite ER. replace (k_n - 1)%Z with k_o by lia.
    assert (KB : in_cell (dz g) k_o (IZR k_n * dz g)).
    { rewrite Ek, plus_IZR. apply in_cell_line_up, Hdz. }
    apply two_legs with t; auto; try (apply in_cell_pt; auto; lra).
    apply in_cell_line_low, Hdz.
  - (* z down *)
    replace (i_n =? i_o)%Z with true by (symmetry; apply Z.eqb_eq; lia).
    replace (k_n =? k_o)%Z with false by (symmetry; apply Z.eqb_neq; lia). cbn [negb andb].
    assert (Q : IZR k_n * dz g < IZR k_o * dz g).
    { apply Rmult_lt_compat_r; [lra|]. apply IZR_lt. lia. }
    destruct (Rlt_dec zo (IZR k_n * dz g)) as [X|_]; [lra|].
    destruct (param_z k_o (or_intror (conj K1 K2))) as (T & E & EV).
    set (t := (IZR k_o * dz g - zo) / (zn - zo)) in *.
    assert (ES : IZR k_n + 1 = IZR k_o) by (rewrite Ek, plus_IZR; ring).
    rewrite ES.
    assert (ER : rn + (ro - rn) / (zo - zn) * (IZR k_o * dz g - zn) = ro + t * (rn - ro)).
    { unfold t. field. lra. }
    rewrite ER. replace (k_n + 1)%Z with k_o by lia.
    assert (KB : in_cell (dz g) k_n (IZR k_o * dz g)).
    { rewrite <- ES. apply in_cell_line_up, Hdz. }
    apply two_legs with t; auto; try (apply in_cell_pt; auto; lra).
    apply in_cell_line_low, Hdz.
  - (* r up *)
    replace (k_n =? k_o)%Z with true by (symmetry; apply Z.eqb_eq; lia).
    replace (i_n =? i_o)%Z with false by (symmetry; apply Z.eqb_neq; lia). cbn [negb andb].
    destruct (Rlt_dec ((IZR i_n + 1) * dr g) ro) as [X|_]; [nra|].
    destruct (param_r i_n (or_introl (conj I1 I2))) as (T & E & EV).
    set (t := (IZR i_n * dr g - ro) / (rn - ro)) in *.
    assert (ER : zo + (IZR i_n * dr g - ro) / ((rn - ro) / (zn - zo)) = zo + t * (zn - zo)).
    { unfold t. field. lra. }
    rewrite ER. replace (i_n - 1)%Z with i_o by lia.
    assert (KB : in_cell (dr g) i_o (IZR i_n * dr g)).
    { rewrite Ei, plus_IZR. apply in_cell_line_up, Hdr. }
    apply two_legs with t; auto; try lia; subst k_o; try (apply in_cell_pt; auto; lra).
    apply in_cell_line_low, Hdr.
  - (* r down *)
    replace (k_n =? k_o)%Z with true by (symmetry; apply Z.eqb_eq; lia).
    replace (i_n =? i_o)%Z with false by (symmetry; apply Z.eqb_neq; lia). cbn [negb andb].
    assert (ES : IZR i_n + 1 = IZR i_o) by (rewrite Ei, plus_IZR; ring).
    rewrite ES.
    destruct (Rlt_dec (IZR i_o * dr g) ro) as [_|X]; [|lra].
    destruct (param_r i_o (or_intror (conj I1 I2))) as (T & E & EV).
    set (t := (IZR i_o * dr g - ro) / (rn - ro)) in *.
    assert (ER : zn + (IZR i_o * dr g - rn) / ((ro - rn) / (zo - zn)) = zo + t * (zn - zo)).
    { unfold t. field. lra. }
    rewrite ER. replace (i_n + 1)%Z with i_o by lia.
    assert (KB : in_cell (dr g) i_n (IZR i_o * dr g)).
    { rewrite <- ES. apply in_cell_line_up, Hdr. }
    apply two_legs with t; auto; try lia; subst k_o; try (apply in_cell_pt; auto; lra).
    apply in_cell_line_low, Hdr.
Qed.

(** Two borders: the radial one at t1, the axial one at t2. *)
Lemma r_border_first : forall t1 t2 B C i_n i_o k_n k_o r1 z1 r2 z2,
  B = ro + t1 * (rn - ro) -> C = zo + t2 * (zn - zo) ->
  ev t1 -> ev t2 -> 0 < t1 -> t1 < t2 -> t2 < 1 ->
  (0 <= i_n)%Z -> (0 <= i_o)%Z ->
  in_cell (dr g) i_o ro -> in_cell (dr g) i_o B -> in_cell (dr g) i_n B -> in_cell (dr g) i_n rn ->
  in_cell (dz g) k_o zo -> in_cell (dz g) k_o C -> in_cell (dz g) k_n C -> in_cell (dz g) k_n zn ->
  r1 = B -> z1 = zo + t1 * (zn - zo) -> r2 = ro + t2 * (rn - ro) -> z2 = C ->
  cont g dt q (simple_current g dt q r1 z1 ro zo i_o k_o ++
               simple_current g dt q r2 z2 r1 z1 i_n k_o ++
               simple_current g dt q rn zn r2 z2 i_n k_n) rn zn ro zo.
Proof.
  intros t1 t2 B C i_n i_o k_n k_o r1 z1 r2 z2 EB EC V1 V2 T0 T T1 Hn Ho A1 A2 A3 A4 K1 K2 K3 K4
    -> -> -> ->.
  apply three_legs with t1 t2; auto.
  - apply in_cell_after with t1; auto; try lra. now rewrite <- EB.
  - apply in_cell_after with t1; auto; try lra. now rewrite <- EB.
  - apply in_cell_before with t2; auto; try lra. now rewrite <- EC.
  - apply in_cell_before with t2; auto; try lra. now rewrite <- EC.
Qed.

Lemma z_border_first : forall t1 t2 B C i_n i_o k_n k_o r1 z1 r2 z2,
  B = ro + t1 * (rn - ro) -> C = zo + t2 * (zn - zo) ->
  ev t1 -> ev t2 -> 0 < t2 -> t2 < t1 -> t1 < 1 ->
  (0 <= i_n)%Z -> (0 <= i_o)%Z ->
  in_cell (dr g) i_o ro -> in_cell (dr g) i_o B -> in_cell (dr g) i_n B -> in_cell (dr g) i_n rn ->
  in_cell (dz g) k_o zo -> in_cell (dz g) k_o C -> in_cell (dz g) k_n C -> in_cell (dz g) k_n zn ->
  r1 = B -> z1 = zo + t1 * (zn - zo) -> r2 = ro + t2 * (rn - ro) -> z2 = C ->
  cont g dt q (simple_current g dt q r2 z2 ro zo i_o k_o ++
               simple_current g dt q r1 z1 r2 z2 i_o k_n ++
               simple_current g dt q rn zn r1 z1 i_n k_n) rn zn ro zo.
Proof.
  intros t1 t2 B C i_n i_o k_n k_o r1 z1 r2 z2 EB EC V1 V2 T0 T T1 Hn Ho A1 A2 A3 A4 K1 K2 K3 K4
    -> -> -> ->.
  apply three_legs with t2 t1; auto.
  - apply in_cell_before with t1; auto; try lra. now rewrite <- EB.
  - apply in_cell_before with t1; auto; try lra. now rewrite <- EB.
  - apply in_cell_after with t2; auto; try lra. now rewrite <- EC.
  - apply in_cell_after with t2; auto; try lra. now rewrite <- EC.
Qed.

Hypothesis Hcorner : avoids_nodes (dr g) (dz g) rn zn ro zo.

Lemma two_borders_continuity : forall i_n i_o k_n k_o,
  cells_case (dr g) rn ro i_n i_o -> cells_case (dz g) zn zo k_n k_o ->
  (Z.abs (i_n - i_o) + Z.abs (k_n - k_o) = 2)%Z ->
  cont g dt q (current_two_borders g dt q rn zn ro zo i_n k_n i_o k_o) rn zn ro zo.
Proof.
  intros i_n i_o k_n k_o Ci Ck Hres.
  assert (Hdr := dr_pos g Hg). assert (Hdz := dz_pos g Hg).
  assert (Nr := MNZL_abs_neq _ ext_r). assert (Nz := MNZL_abs_neq _ ext_z).
  unfold current_two_borders.
  destruct Ci as [Ei I0 In Io|Ei I0 Io In I1 I2|Ei I0 Io In I1 I2];
  destruct Ck as [Ek K0 Kn Ko|Ek K0 Ko Kn K1 K2|Ek K0 Ko Kn K1 K2]; try lia.
  - (* r up, z up *)
    destruct (Z.ltb_spec i_o i_n) as [_|X]; [|lia].
    destruct (Z.ltb_spec k_o k_n) as [_|X]; [|lia].
    destruct (param_r i_n (or_introl (conj I1 I2))) as (T1 & E1 & V1).
    destruct (param_z k_n (or_introl (conj K1 K2))) as (T2 & E2 & V2).
    set (t1 := (IZR i_n * dr g - ro) / (rn - ro)) in *.
    set (t2 := (IZR k_n * dz g - zo) / (zn - zo)) in *.
    assert (EZ : zo + (IZR i_n * dr g - ro) / ((rn - ro) / (zn - zo)) = zo + t1 * (zn - zo)).
    { unfold t1. field. lra. }
    assert (ER : ro + (IZR k_n * dz g - zo) * ((rn - ro) / (zn - zo)) = ro + t2 * (rn - ro)).
    { unfold t2. field. lra. }
    rewrite EZ, ER. replace (i_n - 1)%Z with i_o by lia. replace (k_n - 1)%Z with k_o by lia.
    assert (LB : in_cell (dr g) i_o (IZR i_n * dr g)) by (rewrite Ei, plus_IZR; now apply in_cell_line_up).
    assert (LC : in_cell (dz g) k_o (IZR k_n * dz g)) by (rewrite Ek, plus_IZR; now apply in_cell_line_up).
    assert (LB' := in_cell_line_low (dr g) i_n Hdr). assert (LC' := in_cell_line_low (dz g) k_n Hdz).
    destruct (Rlt_dec (zo + t1 * (zn - zo)) (IZR k_n * dz g)) as [X|X];
      [|destruct (Rlt_dec (IZR k_n * dz g) (zo + t1 * (zn - zo))) as [Y|Y]].
    + assert (t1 < t2) by nra.
      eapply (r_border_first t1 t2); eauto; try lia; lra.
    + assert (t2 < t1) by nra.
      eapply (z_border_first t1 t2); eauto; try lia; lra.
    + exfalso. apply (Hcorner t1 T1); [rewrite <- E1; now exists i_n|]. exists k_n. lra.
  - (* r up, z down *)
    destruct (Z.ltb_spec i_o i_n) as [_|X]; [|lia].
    destruct (Z.ltb_spec k_o k_n) as [X|_]; [lia|].
    assert (ES : IZR k_n + 1 = IZR k_o) by (rewrite Ek, plus_IZR; ring). rewrite ES.
    destruct (param_r i_n (or_introl (conj I1 I2))) as (T1 & E1 & V1).
    destruct (param_z k_o (or_intror (conj K1 K2))) as (T2 & E2 & V2).
    set (t1 := (IZR i_n * dr g - ro) / (rn - ro)) in *.
    set (t2 := (IZR k_o * dz g - zo) / (zn - zo)) in *.
    assert (EZ : zo + (IZR i_n * dr g - ro) / ((rn - ro) / (zn - zo)) = zo + t1 * (zn - zo)).
    { unfold t1. field. lra. }
    assert (ER : ro + - (zo - IZR k_o * dz g) * ((rn - ro) / (zn - zo)) = ro + t2 * (rn - ro)).
    { unfold t2. field. lra. }
    rewrite EZ, ER. replace (i_n - 1)%Z with i_o by lia. replace (k_n + 1)%Z with k_o by lia.
    assert (LB : in_cell (dr g) i_o (IZR i_n * dr g)) by (rewrite Ei, plus_IZR; now apply in_cell_line_up).
    assert (LC : in_cell (dz g) k_n (IZR k_o * dz g)) by (rewrite <- ES; now apply in_cell_line_up).
    assert (LB' := in_cell_line_low (dr g) i_n Hdr). assert (LC' := in_cell_line_low (dz g) k_o Hdz).
    destruct (Rlt_dec (IZR k_o * dz g) (zo + t1 * (zn - zo))) as [X|X];
      [|destruct (Rlt_dec (zo + t1 * (zn - zo)) (IZR k_o * dz g)) as [Y|Y]].
    + assert (t1 < t2) by nra.
      eapply (r_border_first t1 t2); eauto; try lia; lra.
    + assert (t2 < t1) by nra.
      eapply (z_border_first t1 t2); eauto; try lia; lra.
    + exfalso. apply (Hcorner t1 T1); [rewrite <- E1; now exists i_n|]. exists k_o. lra.
  - (* r down, z up *)
    destruct (Z.ltb_spec i_o i_n) as [X|_]; [lia|].
    destruct (Z.ltb_spec i_n i_o) as [_|X]; [|lia].
    destruct (Z.ltb_spec k_o k_n) as [_|X]; [|lia].
    assert (ES : IZR i_n + 1 = IZR i_o) by (rewrite Ei, plus_IZR; ring). rewrite ES.
    destruct (param_r i_o (or_intror (conj I1 I2))) as (T1 & E1 & V1).
    destruct (param_z k_n (or_introl (conj K1 K2))) as (T2 & E2 & V2).
    set (t1 := (IZR i_o * dr g - ro) / (rn - ro)) in *.
    set (t2 := (IZR k_n * dz g - zo) / (zn - zo)) in *.
    assert (EZ : zo + - (ro - IZR i_o * dr g) / ((rn - ro) / (zn - zo)) = zo + t1 * (zn - zo)).
    { unfold t1. field. lra. }
    assert (ER : ro - - (IZR k_n * dz g - zo) * ((rn - ro) / (zn - zo)) = ro + t2 * (rn - ro)).
    { unfold t2. field. lra. }
    rewrite EZ, ER. replace (i_n + 1)%Z with i_o by lia. replace (k_n - 1)%Z with k_o by lia.
    assert (LB : in_cell (dr g) i_n (IZR i_o * dr g)) by (rewrite <- ES; now apply in_cell_line_up).
    assert (LC : in_cell (dz g) k_o (IZR k_n * dz g)) by (rewrite Ek, plus_IZR; now apply in_cell_line_up).
    assert (LB' := in_cell_line_low (dr g) i_o Hdr). assert (LC' := in_cell_line_low (dz g) k_n Hdz).
    destruct (Rlt_dec (zo + t1 * (zn - zo)) (IZR k_n * dz g)) as [X|X];
      [|destruct (Rlt_dec (IZR k_n * dz g) (zo + t1 * (zn - zo))) as [Y|Y]].
    + assert (t1 < t2) by nra.
      eapply (r_border_first t1 t2); eauto; try lia; lra.
    + assert (t2 < t1) by nra.
      eapply (z_border_first t1 t2); eauto; try lia; lra.
    + exfalso. apply (Hcorner t1 T1); [rewrite <- E1; now exists i_o|]. exists k_n. lra.
  - (* r down, z down *)
    destruct (Z.ltb_spec i_o i_n) as [X|_]; [lia|].
    destruct (Z.ltb_spec i_n i_o) as [_|X]; [|lia].
    destruct (Z.ltb_spec k_o k_n) as [X|_]; [lia|].
    destruct (Z.ltb_spec k_n k_o) as [_|X]; [|lia].
    assert (ES : IZR i_n + 1 = IZR i_o) by (rewrite Ei, plus_IZR; ring). rewrite ES.
    assert (ES' : IZR k_n + 1 = IZR k_o) by (rewrite Ek, plus_IZR; ring). rewrite ES'.
    destruct (param_r i_o (or_intror (conj I1 I2))) as (T1 & E1 & V1).
    destruct (param_z k_o (or_intror (conj K1 K2))) as (T2 & E2 & V2).
    set (t1 := (IZR i_o * dr g - ro) / (rn - ro)) in *.
    set (t2 := (IZR k_o * dz g - zo) / (zn - zo)) in *.
    assert (EZ : zn + (IZR i_o * dr g - rn) / ((ro - rn) / (zo - zn)) = zo + t1 * (zn - zo)).
    { unfold t1. field. lra. }
    assert (ER : rn + (IZR k_o * dz g - zn) * ((ro - rn) / (zo - zn)) = ro + t2 * (rn - ro)).
    { unfold t2. field. lra. }
    rewrite EZ, ER. replace (i_n + 1)%Z with i_o by lia. replace (k_n + 1)%Z with k_o by lia.
    assert (LB : in_cell (dr g) i_n (IZR i_o * dr g)) by (rewrite <- ES; now apply in_cell_line_up).
    assert (LC : in_cell (dz g) k_n (IZR k_o * dz g)) by (rewrite <- ES'; now apply in_cell_line_up).
    assert (LB' := in_cell_line_low (dr g) i_o Hdr). assert (LC' := in_cell_line_low (dz g) k_o Hdz).
    destruct (Rlt_dec (IZR k_o * dz g) (zo + t1 * (zn - zo))) as [X|X];
      [|destruct (Rlt_dec (zo + t1 * (zn - zo)) (IZR k_o * dz g)) as [Y|Y]].
    + assert (t1 < t2) by nra.
      eapply (r_border_first t1 t2); eauto; try lia; lra.
    + assert (t2 < t1) by nra.
      eapply (z_border_first t1 t2); eauto; try lia; lra.
    + exfalso. apply (Hcorner t1 T1); [rewrite <- E1; now exists i_o|]. exists k_o. lra.
Qed.

Theorem current_single_continuity :
  0 < zn -> 0 < zo -> Rabs (rn - ro) < dr g -> Rabs (zn - zo) < dz g ->
  cont g dt q (current_single g dt q rn zn ro zo) rn zn ro zo.
Proof.
  intros Hzn Hzo Hr Hz.
  assert (Hdr := dr_pos g Hg). assert (Hdz := dz_pos g Hg).
  unfold current_single.
  destruct (tie_cells (dr g) rn ro) as [i_n i_o] eqn:Ei.
  destruct (tie_cells (dz g) zn zo) as [k_n k_o] eqn:Ek.
  assert (Ci : cells_case (dr g) rn ro i_n i_o) by (apply tie_cells_case; auto; lra).
  assert (Ck : cells_case (dz g) zn zo k_n k_o) by (apply tie_cells_case; auto; lra).
  assert (Mr := ext_r). assert (Mz := ext_z).
  destruct (Rlt_dec (Rabs (rn - ro)) MNZL) as [X|_]; [lra|].
  destruct (Rlt_dec (Rabs (zn - zo)) MNZL) as [X|_]; [lra|].
  destruct (Z.eqb_spec (Z.abs (i_n - i_o) + Z.abs (k_n - k_o)) 0) as [R0|R0].
  - destruct Ci as [_ I0 In Io|X|X]; [|lia|lia]. destruct Ck as [_ K0 Kn Ko|X|X]; [|lia|lia].
    now apply simple_continuity.
  - destruct (Z.eqb_spec (Z.abs (i_n - i_o) + Z.abs (k_n - k_o)) 1) as [R1|R1].
    + now apply one_border_continuity.
    + destruct (Z.eqb_spec (Z.abs (i_n - i_o) + Z.abs (k_n - k_o)) 2) as [R2|R2].
      * now apply two_borders_continuity.
      * exfalso. destruct Ci, Ck; lia.
Qed.

End Path.
