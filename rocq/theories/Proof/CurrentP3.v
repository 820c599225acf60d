(** Current deposition: purely axial and purely radial moves (C06). *)
From Coq Require Import Reals ZArith Lia Lra List Bool Psatz.
From Verif.Lib Require Import RAux Grid.
From Verif.Model Require Import Constants Geometry CurrentDeposit.
From Verif.Spec Require Import Cloud Continuity.
From Verif.Proof Require Import GeometryP ChargeP CurrentP.
Import ListNotations.
Local Open Scope R_scope.

Lemma cont_ext : forall g dt q l l' rn zn ro zo,
  (forall i k, dep J_R l i k = dep J_R l' i k) -> (forall i k, dep J_Z l i k = dep J_Z l' i k) ->
  cont g dt q l' rn zn ro zo -> cont g dt q l rn zn ro zo.
Proof.
  intros g dt q l l' rn zn ro zo HR HZ H i k. unfold outflow. rewrite !HR, !HZ. apply H.
Qed.

Definition jz_pair (c k : Z) (a b : R) : list jinc := [inc_j_z c k a; inc_j_z (c + 1) k b].
Definition jr_pair (c k : Z) (a b : R) : list jinc := [inc_j_r c k a; inc_j_r c (k + 1) b].

Lemma jz_pair_leg : forall c k a b x i j, dep x (jz_pair c k a b) i j = dep x (leg_deposit c k a b 0 0) i j.
Proof.
  intros. unfold dep, jz_pair, leg_deposit, comp_incs, inc_at. destruct x; cbn; try lra.
  destruct ((i =? c)%Z && (j =? k)%Z), ((i =? c)%Z && (j =? k + 1)%Z); lra.
Qed.

Lemma jr_pair_leg : forall c k a b x i j, dep x (jr_pair c k a b) i j = dep x (leg_deposit c k 0 0 a b) i j.
Proof.
  intros. unfold dep, jr_pair, leg_deposit, comp_incs, inc_at. destruct x; cbn; try lra.
  destruct ((i =? c)%Z && (j =? k)%Z), ((i =? c + 1)%Z && (j =? k)%Z); lra.
Qed.

Lemma zeros_cont : forall g dt q c k r z, cont g dt q (jr_pair c k 0 0) r z r z.
Proof.
  intros g dt q c k r z i j. unfold outflow. rewrite !jr_pair_leg, !leg_dep_r, !leg_dep_z.
  repeat match goal with |- context [if ?b then _ else _] => destruct b end; ring.
Qed.

(** ** Axial *)

Definition axial_lower (g : geom) (dt q r : R) (c : Z) : R :=
  let value_part := 2 * c_PI * r * dr g * dz g in
  let r1 := r - 1/2 * dr g in
  let r2 := (IZR c + 1/2) * dr g in
  if (c =? 0)%Z
  then q / (dt * c_PI * dr g * dr g / 4) * c_PI * (r2 * r2 - r1 * r1) / value_part
  else q / (dt * 2 * c_PI * IZR c * dr g * dr g) * c_PI * (r2 * r2 - r1 * r1) / value_part.

Definition axial_upper (g : geom) (dt q r : R) (c : Z) : R :=
  let value_part := 2 * c_PI * r * dr g * dz g in
  let r2 := (IZR c + 1/2) * dr g in
  let r3 := r + 1/2 * dr g in
  q / (dt * 2 * c_PI * (IZR c + 1) * dr g * dr g) * c_PI * (r3 * r3 - r2 * r2) / value_part.

Lemma axial_leg : forall g dt q r zn zo c k,
  geom_ok g -> 0 < dt -> (0 <= c)%Z -> dr g / 2 <= r -> in_cell (dr g) c r ->
  in_cell (dz g) k zn -> in_cell (dz g) k zo ->
  cont g dt q (jz_pair c k (axial_lower g dt q r c * (zn - zo)) (axial_upper g dt q r c * (zn - zo)))
    r zn r zo.
Proof.
  intros g dt q r zn zo c k Hg Ht Hc Hr Ir Kn Ko.
  assert (Hdr := dr_pos g Hg). assert (Hdz := dz_pos g Hg). assert (HP := c_PI_pos).
  assert (C0R := IZR_nonneg _ Hc).
  eapply cont_ext; [intros; apply jz_pair_leg|intros; apply jz_pair_leg|].
  assert (AL : forall x, dt * (node_area (dr g) c * (axial_lower g dt q r c * x)) =
                         q * share_r (dr g) c r * (x / dz g)).
  { intro x. rewrite share_r_at by assumption. unfold axial_lower.
    destruct (Z.eqb_spec c 0) as [->|N].
    - rewrite node_area_0. field. repeat split; lra.
    - rewrite node_area_pos_i by lia. assert (C1 := IZR_ge1 c ltac:(lia)). field. repeat split; lra. }
  assert (AU : forall x, dt * (node_area (dr g) (c + 1) * (axial_upper g dt q r c * x)) =
                         q * share_r (dr g) (c + 1) r * (x / dz g)).
  { intro x. rewrite share_r_next by assumption. unfold axial_upper.
    rewrite node_area_pos_i by lia. rewrite plus_IZR. field. repeat split; lra. }
  specialize (AL (zn - zo)). specialize (AU (zn - zo)).
  apply leg_continuity; auto; cbv zeta;
    rewrite ?share_z_at, ?share_z_next by assumption; rewrite ?Rmult_0_r, ?Rplus_0_r, ?Rminus_0_r;
    rewrite ?Ropp_mult_distr_r_reverse; rewrite ?AL, ?AU; field; lra.
Qed.

Lemma cell_diff_bound : forall d pn po, 0 < d -> 0 < pn -> 0 < po -> Rabs (pn - po) < d ->
  (-1 <= cell pn d - cell po d <= 1)%Z.
Proof.
  intros d pn po Hd Hn Ho Ha. apply Rabs_def2 in Ha. destruct Ha as [Ha1 Ha2].
  assert (L1 := cell_lower pn d Hd Hn). assert (L2 := cell_lower po d Hd Ho).
  assert (U1 := cell_upper pn d Hd (Rlt_le _ _ Hn)). assert (U2 := cell_upper po d Hd (Rlt_le _ _ Ho)).
  set (n := cell pn d) in *. set (o := cell po d) in *. split.
  - destruct (Z_lt_le_dec (n + 1) o) as [H|H]; [|lia]. exfalso.
    assert (B := IZR_le_pred _ _ H). rewrite plus_IZR in B.
    assert ((IZR n + 1 + 1) * d <= IZR o * d) by (apply Rmult_le_compat_r; lra). lra.
  - destruct (Z_lt_le_dec (o + 1) n) as [H|H]; [|lia]. exfalso.
    assert (B := IZR_le_pred _ _ H). rewrite plus_IZR in B.
    assert ((IZR o + 1 + 1) * d <= IZR n * d) by (apply Rmult_le_compat_r; lra). lra.
Qed.

Lemma in_cell_of_cell : forall d p, 0 < d -> 0 <= p -> in_cell d (cell p d) p.
Proof. intros. split; [now apply cell_lower_le|now apply cell_upper]. Qed.

Lemma strict_axial_cont : forall g dt q r zn zo,
  geom_ok g -> 0 < dt -> dr g / 2 <= r -> 0 < zn -> 0 < zo -> Rabs (zn - zo) < dz g ->
  cont g dt q (strict_axial g dt q r zn zo (cell r (dr g)) (cell zn (dz g)) (cell zo (dz g))) r zn r zo.
Proof.
  intros g dt q r zn zo Hg Ht Hr Hn Ho Hd.
  assert (Hdr := dr_pos g Hg). assert (Hdz := dz_pos g Hg).
  assert (B := cell_diff_bound (dz g) zn zo Hdz Hn Ho Hd).
  assert (Ir := in_cell_of_cell (dr g) r Hdr ltac:(lra)).
  assert (Kn := in_cell_of_cell (dz g) zn Hdz ltac:(lra)).
  assert (Ko := in_cell_of_cell (dz g) zo Hdz ltac:(lra)).
  assert (N := cell_nonneg r (dr g)).
  set (c := cell r (dr g)) in *. set (kn := cell zn (dz g)) in *. set (ko := cell zo (dz g)) in *.
  unfold strict_axial. cbv zeta. fold (axial_lower g dt q r c). fold (axial_upper g dt q r c).
  change [inc_j_r c kn 0; inc_j_r c (kn + 1) 0] with (jr_pair c kn 0 0).
  destruct (Z.eqb_spec (kn - ko) 0) as [E|E]; [|destruct (Z.eqb_spec (kn - ko) 1) as [E1|E1];
    [|destruct (Z.eqb_spec (kn - ko) (-1)) as [E2|E2]; [|lia]]].
  - apply cont_app with r zo; [apply zeros_cont|].
    apply (axial_leg g dt q r zn zo c kn); auto. replace kn with ko by lia. exact Ko.
  - apply cont_app with r zo; [apply zeros_cont|].
    assert (EK : IZR kn = IZR ko + 1) by (rewrite <- plus_IZR; f_equal; lia).
    change [inc_j_z c (kn - 1) (axial_lower g dt q r c * (IZR kn * dz g - zo));
            inc_j_z (c + 1) (kn - 1) (axial_upper g dt q r c * (IZR kn * dz g - zo));
            inc_j_z c kn (axial_lower g dt q r c * (zn - IZR kn * dz g));
            inc_j_z (c + 1) kn (axial_upper g dt q r c * (zn - IZR kn * dz g))]
      with (jz_pair c (kn - 1) (axial_lower g dt q r c * (IZR kn * dz g - zo))
                               (axial_upper g dt q r c * (IZR kn * dz g - zo)) ++
            jz_pair c kn (axial_lower g dt q r c * (zn - IZR kn * dz g))
                         (axial_upper g dt q r c * (zn - IZR kn * dz g))).
    apply cont_app with r (IZR kn * dz g).
    + replace (kn - 1)%Z with ko by lia. apply axial_leg; auto. split; rewrite EK; lra.
    + apply axial_leg; auto. split; lra.
  - apply cont_app with r zo; [apply zeros_cont|].
    assert (EK : IZR ko = IZR kn + 1) by (rewrite <- plus_IZR; f_equal; lia).
    change [inc_j_z c (kn + 1) (axial_lower g dt q r c * ((IZR kn + 1) * dz g - zo));
            inc_j_z (c + 1) (kn + 1) (axial_upper g dt q r c * ((IZR kn + 1) * dz g - zo));
            inc_j_z c kn (axial_lower g dt q r c * (zn - (IZR kn + 1) * dz g));
            inc_j_z (c + 1) kn (axial_upper g dt q r c * (zn - (IZR kn + 1) * dz g))]
      with (jz_pair c (kn + 1) (axial_lower g dt q r c * ((IZR kn + 1) * dz g - zo))
                               (axial_upper g dt q r c * ((IZR kn + 1) * dz g - zo)) ++
            jz_pair c kn (axial_lower g dt q r c * (zn - (IZR kn + 1) * dz g))
                         (axial_upper g dt q r c * (zn - (IZR kn + 1) * dz g))).
    apply cont_app with r ((IZR kn + 1) * dz g).
    + replace (kn + 1)%Z with ko by lia. apply axial_leg; auto. split; rewrite EK; lra.
    + apply axial_leg; auto. split; lra.
Qed.

Theorem axial_move_continuity : forall g dt q r zn zo,
  geom_ok g -> 0 < dt -> dr g / 2 <= r -> 0 < zn -> 0 < zo ->
  MNZL <= Rabs (zn - zo) < dz g ->
  cont g dt q (current_single g dt q r zn r zo) r zn r zo.
Proof.
  intros g dt q r zn zo Hg Ht Hr Hn Ho [H1 H2].
  unfold current_single.
  destruct (tie_cells (dr g) r r) as [i_n i_o]. destruct (tie_cells (dz g) zn zo) as [k_n k_o].
  assert (Z : Rabs (r - r) < MNZL).
  { replace (r - r) with 0 by ring. rewrite Rabs_R0. apply MNZL_pos. }
  destruct (Rlt_dec (Rabs (r - r)) MNZL) as [_|X]; [|contradiction].
  unfold strict_motion.
  destruct (Rlt_dec (Rabs (r - r)) MNZL) as [_|X]; [|contradiction].
  destruct (Rlt_dec (Rabs (zn - zo)) MNZL) as [X|_]; [lra|].
  now apply strict_axial_cont.
Qed.

(** ** Radial *)

Definition radial_w (g : geom) (dt q rn ro : R) (c : Z) : R :=
  let r0 := (IZR c + 1/2) * dr g in
  DENSITY_STRICT q r0 (dr g) (dz g) dt * strict_radial_leg (dr g) r0 ro (rn - ro).

Lemma radial_leg : forall g dt q rn ro z c k,
  geom_ok g -> 0 < dt -> (0 <= c)%Z -> dr g / 2 <= rn -> dr g / 2 <= ro ->
  in_cell (dr g) c rn -> in_cell (dr g) c ro -> in_cell (dz g) k z ->
  cont g dt q (jr_pair c k (radial_w g dt q rn ro c * ((IZR k + 1) * dz g - z))
                           (radial_w g dt q rn ro c * (z - IZR k * dz g))) rn z ro z.
Proof.
  intros g dt q rn ro z c k Hg Ht Hc Hn Ho In Io Kz.
  assert (Hdr := dr_pos g Hg). assert (Hdz := dz_pos g Hg). assert (HP := c_PI_pos).
  assert (C0R := IZR_nonneg _ Hc).
  eapply cont_ext; [intros; apply jr_pair_leg|intros; apply jr_pair_leg|].
  unfold radial_w, DENSITY_STRICT, strict_radial_leg.
  apply leg_continuity; auto; cbv zeta;
    rewrite ?share_r_at, ?share_r_next, ?share_z_at, ?share_z_next by assumption;
    rewrite node_side_nonneg by lia; field; repeat split; lra.
Qed.

Lemma strict_radial_same_cell : forall g dt q rn ro z c,
  geom_ok g -> 0 < dt -> dr g / 2 <= rn -> dr g / 2 <= ro -> 0 < z ->
  cell rn (dr g) = c -> cell ro (dr g) = c ->
  cont g dt q (strict_radial g dt q rn z ro c (cell z (dz g)) c) rn z ro z.
Proof.
  intros g dt q rn ro z c Hg Ht Hn Ho Hz En Eo.
  assert (Hdr := dr_pos g Hg). assert (Hdz := dz_pos g Hg).
  unfold strict_radial. rewrite Z.sub_diag. cbn [Z.eqb].
  apply radial_leg; auto.
  - rewrite <- En. apply cell_nonneg.
  - rewrite <- En. apply in_cell_of_cell; lra.
  - rewrite <- Eo. apply in_cell_of_cell; lra.
  - apply in_cell_of_cell; lra.
Qed.

Theorem radial_move_in_cell_continuity : forall g dt q rn ro z,
  geom_ok g -> 0 < dt -> dr g / 2 <= rn -> dr g / 2 <= ro -> 0 < z ->
  MNZL <= Rabs (rn - ro) -> cell rn (dr g) = cell ro (dr g) ->
  cont g dt q (current_single g dt q rn z ro z) rn z ro z.
Proof.
  intros g dt q rn ro z Hg Ht Hn Ho Hz Hm Hc.
  unfold current_single.
  destruct (tie_cells (dr g) rn ro) as [i_n i_o]. destruct (tie_cells (dz g) z z) as [k_n k_o].
  destruct (Rlt_dec (Rabs (rn - ro)) MNZL) as [X|_]; [lra|].
  assert (Z : Rabs (z - z) < MNZL).
  { replace (z - z) with 0 by ring. rewrite Rabs_R0. apply MNZL_pos. }
  destruct (Rlt_dec (Rabs (z - z)) MNZL) as [_|X]; [|contradiction].
  unfold strict_motion.
  destruct (Rlt_dec (Rabs (rn - ro)) MNZL) as [X|_]; [lra|].
  destruct (Rlt_dec (Rabs (z - z)) MNZL) as [_|X]; [|contradiction].
  rewrite Hc. now apply strict_radial_same_cell.
Qed.

(** The second leg of a radial move over a border: wrong unless dr = 1. *)
Lemma leg2_error : forall d r0 m x, 0 < d -> 0 < m -> 0 < m * d + x ->
  strict_radial_leg2 d r0 m x - strict_radial_leg d r0 (m * d) x = r0 * r0 / m * (d - 1 / d).
Proof.
  intros. unfold strict_radial_leg, strict_radial_leg2. field. repeat split; try lra; nra.
Qed.

(** If a deposit differs from a balanced one only by j_r on row c by a factor e of the
    axial weights, it is balanced exactly when e = 0. *)
Lemma row_error : forall g dt q l l' rn zn ro zo c k z e,
  geom_ok g -> 0 < dt -> (0 <= c)%Z ->
  cont g dt q l rn zn ro zo ->
  (forall i j, dep J_Z l' i j = dep J_Z l i j) ->
  (forall i j, dep J_R l' i j = dep J_R l i j +
     dep J_R (jr_pair c k (e * ((IZR k + 1) * dz g - z)) (e * (z - IZR k * dz g))) i j) ->
  (cont g dt q l' rn zn ro zo <-> e = 0).
Proof.
  intros g dt q l l' rn zn ro zo c k z e Hg Ht Hc H HZ HR.
  assert (Hdr := dr_pos g Hg). assert (Hdz := dz_pos g Hg). assert (HP := c_PI_pos).
  split.
  - intro H'.
    assert (A := H (c + 1)%Z k). assert (A' := H' (c + 1)%Z k).
    assert (B := H (c + 1)%Z (k + 1)%Z). assert (B' := H' (c + 1)%Z (k + 1)%Z).
    unfold outflow in *. rewrite !HZ, !HR, !jr_pair_leg, !leg_dep_r in A', B'.
    replace (c + 1 - 1)%Z with c in * by lia.
    replace (c + 1 =? c)%Z with false in * by (symmetry; apply Z.eqb_neq; lia).
    rewrite !Z.eqb_refl in A', B'.
    replace (k + 1 =? k)%Z with false in * by (symmetry; apply Z.eqb_neq; lia).
    rewrite A in A'. rewrite B in B'. clear A B.
    rewrite node_side_nonneg in A', B' by lia. rewrite node_side_nonneg in A', B' by lia.
    assert (C0R := IZR_nonneg _ Hc).
    set (S := 2 * c_PI * ((IZR c + 1/2) * dr g) * dz g) in *.
    assert (SP : 0 < S) by (unfold S; pos_mul).
    assert (Q1 : dt * S * (e * ((IZR k + 1) * dz g - z)) = 0) by lra.
    assert (Q2 : dt * S * (e * (z - IZR k * dz g)) = 0) by lra.
    assert (Q : dt * S * dz g * e = 0).
    { replace (dt * S * dz g * e) with
        (dt * S * (e * ((IZR k + 1) * dz g - z)) + dt * S * (e * (z - IZR k * dz g))) by ring. lra. }
    assert (P : 0 < dt * S * dz g) by (pos_mul).
    apply Rmult_integral in Q. destruct Q; lra.
  - intros ->. eapply cont_ext; [| |exact H]; [|exact HZ].
    intros i j. rewrite HR, jr_pair_leg, leg_dep_r.
    repeat match goal with |- context [if ?b then _ else _] => destruct b end; ring.
Qed.

Lemma dep_jr_pair_add : forall c k z0 d a b i j,
  dep J_R (jr_pair c k ((a + b) * z0) ((a + b) * d)) i j =
  dep J_R (jr_pair c k (a * z0) (a * d)) i j + dep J_R (jr_pair c k (b * z0) (b * d)) i j.
Proof.
  intros. rewrite !jr_pair_leg, !leg_dep_r.
  repeat match goal with |- context [if ?b then _ else _] => destruct b end; ring.
Qed.

Lemma err_zero_iff : forall q D r0 m d, 0 < D -> 0 < r0 -> 0 < m -> 0 < d -> q <> 0 ->
  (q / D * (r0 * r0 / m * (d - 1 / d)) = 0 <-> d = 1).
Proof.
  intros q D r0 m d HD H0 Hm Hd Hq. split.
  - intro E.
    assert (F : q * (r0 * r0) * (d * d - 1) = 0).
    { replace (q * (r0 * r0) * (d * d - 1)) with
        (q / D * (r0 * r0 / m * (d - 1 / d)) * (D * m * d)) by (field; repeat split; lra).
      rewrite E. ring. }
    apply Rmult_integral in F. destruct F as [F|F].
    + apply Rmult_integral in F. destruct F as [F|F]; [contradiction|nra].
    + nra.
  - intros ->. field. split; lra.
Qed.

Lemma strict_radial_up : forall g dt q rn ro z,
  geom_ok g -> 0 < dt -> q <> 0 -> dr g / 2 <= rn -> dr g / 2 <= ro -> 0 < z ->
  cell rn (dr g) = (cell ro (dr g) + 1)%Z ->
  (cont g dt q (strict_radial g dt q rn z ro (cell rn (dr g)) (cell z (dz g)) (cell ro (dr g))) rn z ro z
   <-> dr g = 1).
Proof.
  intros g dt q rn ro z Hg Ht Hq Hn Ho Hz E.
  assert (Hdr := dr_pos g Hg). assert (Hdz := dz_pos g Hg). assert (HP := c_PI_pos).
  assert (In := in_cell_of_cell (dr g) rn Hdr ltac:(lra)).
  assert (Io := in_cell_of_cell (dr g) ro Hdr ltac:(lra)).
  assert (Kz := in_cell_of_cell (dz g) z Hdz ltac:(lra)).
  assert (No := cell_nonneg ro (dr g)).
  set (n := cell rn (dr g)) in *. set (o := cell ro (dr g)) in *. set (k := cell z (dz g)) in *.
  assert (EN : IZR n = IZR o + 1) by (rewrite E, plus_IZR; reflexivity).
  assert (O0 := IZR_nonneg _ No).
  unfold strict_radial. cbv zeta.
  replace (n - o =? 0)%Z with false by (symmetry; apply Z.eqb_neq; lia).
  replace (n - o =? 1)%Z with true by (symmetry; apply Z.eqb_eq; lia).
  set (B := IZR n * dr g).
  assert (B1 : dr g / 2 <= B) by (unfold B; nra).
  assert (L1 : cont g dt q (jr_pair o k (radial_w g dt q B ro o * ((IZR k + 1) * dz g - z))
                                        (radial_w g dt q B ro o * (z - IZR k * dz g))) B z ro z).
  { apply radial_leg; auto. unfold B; split; rewrite EN; lra. }
  assert (L2 : cont g dt q (jr_pair n k (radial_w g dt q rn B n * ((IZR k + 1) * dz g - z))
                                        (radial_w g dt q rn B n * (z - IZR k * dz g))) rn z B z).
  { apply radial_leg; auto; [lia|]. unfold B; split; lra. }
  assert (L := cont_app _ _ _ _ _ _ _ _ _ _ _ L1 L2).
  set (e := DENSITY_STRICT q ((IZR n + 1/2) * dr g) (dr g) (dz g) dt *
            (((IZR n + 1/2) * dr g) * ((IZR n + 1/2) * dr g) / IZR n * (dr g - 1 / dr g))).
  assert (W2 : DENSITY_STRICT q ((IZR n + 1/2) * dr g) (dr g) (dz g) dt *
               strict_radial_leg2 (dr g) ((IZR n + 1/2) * dr g) (IZR n) (rn - B) =
               radial_w g dt q rn B n + e).
  { unfold e, radial_w.
    rewrite <- (leg2_error (dr g) ((IZR n + 1/2) * dr g) (IZR n) (rn - B)); fold B; lra. }
  rewrite W2.
  assert (W1 : DENSITY_STRICT q ((IZR n - 1/2) * dr g) (dr g) (dz g) dt *
               strict_radial_leg (dr g) ((IZR n - 1/2) * dr g) ro (B - ro) = radial_w g dt q B ro o).
  { unfold radial_w. replace (IZR n - 1/2) with (IZR o + 1/2) by lra. reflexivity. }
  rewrite W1. replace (n - 1)%Z with o by lia.
  assert (EX : cont g dt q
    (jr_pair o k (radial_w g dt q B ro o * ((IZR k + 1) * dz g - z)) (radial_w g dt q B ro o * (z - IZR k * dz g)) ++
     jr_pair n k ((radial_w g dt q rn B n + e) * ((IZR k + 1) * dz g - z)) ((radial_w g dt q rn B n + e) * (z - IZR k * dz g)))
    rn z ro z <-> e = 0).
  { apply (row_error g dt q _ _ rn z ro z n k z e Hg Ht ltac:(lia) L).
    - intros i j. rewrite !dep_app. reflexivity.
    - intros i j. rewrite !dep_app, dep_jr_pair_add. ring. }
  unfold jr_pair in EX. cbn [app] in EX. rewrite EX.
  unfold e, DENSITY_STRICT. apply err_zero_iff; try lra; auto.
  - pos_mul.
  - apply Rmult_lt_0_compat; lra.
Qed.

Lemma strict_radial_down : forall g dt q rn ro z,
  geom_ok g -> 0 < dt -> q <> 0 -> dr g / 2 <= rn -> dr g / 2 <= ro -> 0 < z ->
  cell ro (dr g) = (cell rn (dr g) + 1)%Z ->
  (cont g dt q (strict_radial g dt q rn z ro (cell rn (dr g)) (cell z (dz g)) (cell ro (dr g))) rn z ro z
   <-> dr g = 1).
Proof.
  intros g dt q rn ro z Hg Ht Hq Hn Ho Hz E.
  assert (Hdr := dr_pos g Hg). assert (Hdz := dz_pos g Hg). assert (HP := c_PI_pos).
  assert (In := in_cell_of_cell (dr g) rn Hdr ltac:(lra)).
  assert (Io := in_cell_of_cell (dr g) ro Hdr ltac:(lra)).
  assert (Kz := in_cell_of_cell (dz g) z Hdz ltac:(lra)).
  assert (Nn := cell_nonneg rn (dr g)).
  set (n := cell rn (dr g)) in *. set (o := cell ro (dr g)) in *. set (k := cell z (dz g)) in *.
  assert (EO : IZR o = IZR n + 1) by (rewrite E, plus_IZR; reflexivity).
  assert (N0 := IZR_nonneg _ Nn).
  unfold strict_radial. cbv zeta.
  replace (n - o =? 0)%Z with false by (symmetry; apply Z.eqb_neq; lia).
  replace (n - o =? 1)%Z with false by (symmetry; apply Z.eqb_neq; lia).
  replace (n - o =? -1)%Z with true by (symmetry; apply Z.eqb_eq; lia).
  set (B := (IZR n + 1) * dr g).
  assert (B1 : dr g / 2 <= B) by (unfold B; nra).
  assert (L1 : cont g dt q (jr_pair o k (radial_w g dt q B ro o * ((IZR k + 1) * dz g - z))
                                        (radial_w g dt q B ro o * (z - IZR k * dz g))) B z ro z).
  { apply radial_leg; auto; [lia|]. unfold B; split; rewrite EO; lra. }
  assert (L2 : cont g dt q (jr_pair n k (radial_w g dt q rn B n * ((IZR k + 1) * dz g - z))
                                        (radial_w g dt q rn B n * (z - IZR k * dz g))) rn z B z).
  { apply radial_leg; auto. unfold B; split; lra. }
  assert (L := cont_app _ _ _ _ _ _ _ _ _ _ _ L1 L2).
  set (e := DENSITY_STRICT q ((IZR n + 1/2) * dr g) (dr g) (dz g) dt *
            (((IZR n + 1/2) * dr g) * ((IZR n + 1/2) * dr g) / (IZR n + 1) * (dr g - 1 / dr g))).
  assert (W2 : DENSITY_STRICT q ((IZR n + 1/2) * dr g) (dr g) (dz g) dt *
               strict_radial_leg2 (dr g) ((IZR n + 1/2) * dr g) (IZR n + 1) (rn - B) =
               radial_w g dt q rn B n + e).
  { unfold e, radial_w.
    rewrite <- (leg2_error (dr g) ((IZR n + 1/2) * dr g) (IZR n + 1) (rn - B)); fold B; lra. }
  rewrite W2.
  assert (W1 : DENSITY_STRICT q ((IZR n + 3/2) * dr g) (dr g) (dz g) dt *
               strict_radial_leg (dr g) ((IZR n + 3/2) * dr g) ro (B - ro) = radial_w g dt q B ro o).
  { unfold radial_w. replace (IZR n + 3/2) with (IZR o + 1/2) by lra. reflexivity. }
  rewrite W1. replace (n + 1)%Z with o by lia.
  assert (EX : cont g dt q
    (jr_pair o k (radial_w g dt q B ro o * ((IZR k + 1) * dz g - z)) (radial_w g dt q B ro o * (z - IZR k * dz g)) ++
     jr_pair n k ((radial_w g dt q rn B n + e) * ((IZR k + 1) * dz g - z)) ((radial_w g dt q rn B n + e) * (z - IZR k * dz g)))
    rn z ro z <-> e = 0).
  { apply (row_error g dt q _ _ rn z ro z n k z e Hg Ht ltac:(lia) L).
    - intros i j. rewrite !dep_app. reflexivity.
    - intros i j. rewrite !dep_app, dep_jr_pair_add. ring. }
  unfold jr_pair in EX. cbn [app] in EX. rewrite EX.
  unfold e, DENSITY_STRICT. apply err_zero_iff; try lra; auto.
  - pos_mul.
  - apply Rmult_lt_0_compat; lra.
Qed.

Theorem radial_crossing_iff : forall g dt q rn ro z,
  geom_ok g -> 0 < dt -> q <> 0 -> dr g / 2 <= rn -> dr g / 2 <= ro -> 0 < z ->
  MNZL <= Rabs (rn - ro) < dr g -> cell rn (dr g) <> cell ro (dr g) ->
  (cont g dt q (current_single g dt q rn z ro z) rn z ro z <-> dr g = 1).
Proof.
  intros g dt q rn ro z Hg Ht Hq Hn Ho Hz [Hm Hd] Hc.
  assert (Hdr := dr_pos g Hg).
  assert (E : current_single g dt q rn z ro z =
              strict_radial g dt q rn z ro (cell rn (dr g)) (cell z (dz g)) (cell ro (dr g))).
  { unfold current_single.
    destruct (tie_cells (dr g) rn ro) as [i_n i_o]. destruct (tie_cells (dz g) z z) as [k_n k_o].
    destruct (Rlt_dec (Rabs (rn - ro)) MNZL) as [X|_]; [lra|].
    assert (Z : Rabs (z - z) < MNZL).
    { replace (z - z) with 0 by ring. rewrite Rabs_R0. apply MNZL_pos. }
    destruct (Rlt_dec (Rabs (z - z)) MNZL) as [_|X]; [|contradiction].
    unfold strict_motion.
    destruct (Rlt_dec (Rabs (rn - ro)) MNZL) as [X|_]; [lra|].
    destruct (Rlt_dec (Rabs (z - z)) MNZL) as [_|X]; [reflexivity|contradiction]. }
  rewrite E.
  assert (B := cell_diff_bound (dr g) rn ro Hdr ltac:(lra) ltac:(lra) Hd).
  destruct (Z.eq_dec (cell rn (dr g)) (cell ro (dr g) + 1)) as [U|U].
  - now apply strict_radial_up.
  - apply strict_radial_down; auto. lia.
Qed.
