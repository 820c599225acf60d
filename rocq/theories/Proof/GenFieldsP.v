(** Closed forms of the field updates for any arithmetic, as Proof/FieldsP.v has them for real numbers. *)
From Coq Require Import Reals ZArith Lia Lra List Bool.
From Verif.Lib Require Import RAux Grid Par.
From Verif.Model Require Import Constants Geometry Fields Arith GenCode.
From Verif.Proof Require Import FieldsP.
Import ListNotations.

Section Gen.
Variable A : arith.

(** The value an assignment stores. *)
Definition value (a : gasg A) (m : gmem A) : num A := rhs a (map m (reads a)).

Section E.
Variables (g : ggeom A) (md : gmedium A) (dt : num A).

Let fe1 := fun k => ([gasg_er A g md dt 0 k] : list (@asg loc (num A))).
Let fe2 := fun k => ([gasg_ez_axis A g md dt k] : list (@asg loc (num A))).
Let fe3 := fun c : Z * Z => ([gasg_er A g md dt (fst c) (snd c); gasg_ephi A g md dt (fst c) (snd c);
                   gasg_ez A g md dt (fst c) (snd c)] : list (@asg loc (num A))).
Let fe4 := fun i => ([gasg_ez A g md dt i 0] : list (@asg loc (num A))).

Lemma gfe1_indep : forall a b, a <> b -> independent (fe1 a) (fe1 b).
Proof. intros a b N. unfold fe1. indep. Qed.
Lemma gfe2_indep : forall a b, a <> b -> independent (fe2 a) (fe2 b).
Proof. intros a b N. unfold fe2. indep. Qed.
Lemma gfe3_indep : forall a b, a <> b -> independent (fe3 a) (fe3 b).
Proof. intros [a a'] [b b'] N. unfold fe3. indep. Qed.
Lemma gfe4_indep : forall a b, a <> b -> independent (fe4 a) (fe4 b).
Proof. intros a b N. unfold fe4. indep. Qed.

Lemma gefield_loops_independent : Forall (ForallOrdPairs independent) (gefield_loops A g md dt).
Proof.
  unfold gefield_loops. repeat constructor; apply loop_independent;
    try apply zrange_nodup; try apply cells_nodup; intros a b _ _.
  - apply gfe1_indep.
  - apply gfe2_indep.
  - apply gfe3_indep.
  - apply gfe4_indep.
Qed.

Lemma gcalc_efield_loops : forall m, gcalc_efield A g md dt m =
  execf (flat_map fe4 (zrange 1 (gn_r A g - 1)))
    (execf (flat_map fe3 (cells 1 (gn_r A g - 1) 1 (gn_z A g - 1)))
      (execf (flat_map fe2 (zrange 0 (gn_z A g - 1)))
        (execf (flat_map fe1 (zrange 1 (gn_z A g - 1))) m))).
Proof.
  intro m. unfold gcalc_efield, gefield_loops, gasg. rewrite concat4, !exec_app, <- !flat_map_concat_map. reflexivity.
Qed.

Ltac at_loop f idx c nd ind :=
  rewrite (exec_loop_at loc_eqb loc_eqb_spec f idx _ c);
  [| apply nd | intros ? ? _ _; apply ind
   | first [apply cells_in | apply zrange_in]; lia | cbn; auto ].

Lemma gcalc_efield_er : forall m i k, (2 <= gn_r A g)%Z ->
  gcalc_efield A g md dt m (ER, i, k) =
  if in_rect 0 (gn_r A g - 1) 1 (gn_z A g - 1) i k
  then value (gasg_er A g md dt i k) m
  else m (ER, i, k).
Proof.
  intros m i k Hn. rewrite gcalc_efield_loops. loop_skip.
  destruct (in_rect_spec 0 (gn_r A g - 1) 1 (gn_z A g - 1) i k) as [H|H].
  - destruct (Z.eq_dec i 0) as [->|Ni].
    + loop_skip. loop_skip.
      at_loop fe1 (zrange 1 (gn_z A g - 1)) k zrange_nodup gfe1_indep.
      unfold fe1, exec, exec_asg. cbn -[store]. store_simpl. reflexivity.
    + at_loop fe3 (cells 1 (gn_r A g - 1) 1 (gn_z A g - 1)) (i, k) cells_nodup gfe3_indep.
      unfold fe3, exec at 1, exec_asg. cbn [fold_left fst snd tgt reads rhs gasg_er gasg_ephi gasg_ez map].
      store_simpl. repeat loop_skip. reflexivity.
  - repeat loop_skip. reflexivity.
Qed.

Lemma gcalc_efield_ephi : forall m i k,
  gcalc_efield A g md dt m (EPHI, i, k) =
  if in_rect 1 (gn_r A g - 1) 1 (gn_z A g - 1) i k
  then value (gasg_ephi A g md dt i k) m
  else m (EPHI, i, k).
Proof.
  intros m i k. rewrite gcalc_efield_loops. loop_skip.
  destruct (in_rect_spec 1 (gn_r A g - 1) 1 (gn_z A g - 1) i k) as [H|H].
  - at_loop fe3 (cells 1 (gn_r A g - 1) 1 (gn_z A g - 1)) (i, k) cells_nodup gfe3_indep.
    unfold fe3, exec at 1, exec_asg. cbn [fold_left fst snd tgt reads rhs gasg_er gasg_ephi gasg_ez map].
    store_simpl. repeat loop_skip. reflexivity.
  - repeat loop_skip. reflexivity.
Qed.

Lemma gcalc_efield_ez_axis : forall m k,
  gcalc_efield A g md dt m (EZ, 0%Z, k) =
  if in_rect 0 1 0 (gn_z A g - 1) 0 k
  then value (gasg_ez_axis A g md dt k) m
  else m (EZ, 0%Z, k).
Proof.
  intros m k. rewrite gcalc_efield_loops. loop_skip. loop_skip.
  destruct (in_rect_spec 0 1 0 (gn_z A g - 1) 0 k) as [H|H].
  - at_loop fe2 (zrange 0 (gn_z A g - 1)) k zrange_nodup gfe2_indep.
    unfold fe2, exec at 1, exec_asg. cbn [fold_left fst snd tgt reads rhs gasg_ez_axis map].
    store_simpl. repeat loop_skip. reflexivity.
  - repeat loop_skip. reflexivity.
Qed.

Lemma gcalc_efield_ez : forall m i k, (2 <= gn_z A g)%Z -> i <> 0%Z ->
  gcalc_efield A g md dt m (EZ, i, k) =
  if in_rect 1 (gn_r A g - 1) 0 (gn_z A g - 1) i k
  then value (gasg_ez A g md dt i k) m
  else m (EZ, i, k).
Proof.
  intros m i k Hn Ni. rewrite gcalc_efield_loops.
  destruct (in_rect_spec 1 (gn_r A g - 1) 0 (gn_z A g - 1) i k) as [H|H].
  - destruct (Z.eq_dec k 0) as [->|Nk].
    + at_loop fe4 (zrange 1 (gn_r A g - 1)) i zrange_nodup gfe4_indep.
      unfold fe4, exec at 1, exec_asg. cbn [fold_left fst snd tgt reads rhs gasg_ez map].
      store_simpl. repeat loop_skip. reflexivity.
    + loop_skip.
      at_loop fe3 (cells 1 (gn_r A g - 1) 1 (gn_z A g - 1)) (i, k) cells_nodup gfe3_indep.
      unfold fe3, exec at 1, exec_asg. cbn [fold_left fst snd tgt reads rhs gasg_er gasg_ephi gasg_ez map].
      store_simpl. repeat loop_skip. reflexivity.
  - repeat loop_skip. reflexivity.
Qed.

(** The other arrays are not written. *)
Lemma gcalc_efield_other : forall m a i k, a <> ER -> a <> EPHI -> a <> EZ ->
  gcalc_efield A g md dt m (a, i, k) = m (a, i, k).
Proof.
  intros m a i k A1 B C. rewrite gcalc_efield_loops.
  repeat (rewrite (exec_loop_unwritten loc_eqb loc_eqb_spec);
          [|intros c Hc Hw; unfold writes_of in Hw; cbn in Hw; split_in; congruence]).
  reflexivity.
Qed.

End E.

Section H.
Variables (g : ggeom A) (dt : num A).

Let fh1 := fun k => ([gasg_hr_half A g dt (gn_r A g - 1) k; gasg_hr A g dt (gn_r A g - 1) k] : list (@asg loc (num A))).
Let fh2 := fun c : Z * Z => ([gasg_hr_half A g dt (fst c) (snd c); gasg_hr A g dt (fst c) (snd c)] : list (@asg loc (num A))).
Let fh3 := fun c : Z * Z => ([gasg_hphi_half A g dt (fst c) (snd c); gasg_hphi A g dt (fst c) (snd c)] : list (@asg loc (num A))).
Let fh4 := fun c : Z * Z => ([gasg_hz_half A g dt (fst c) (snd c); gasg_hz A g dt (fst c) (snd c)] : list (@asg loc (num A))).

Lemma gfh1_indep : forall a b, a <> b -> independent (fh1 a) (fh1 b).
Proof. intros a b N. unfold fh1. indep. Qed.
Lemma gfh2_indep : forall a b, a <> b -> independent (fh2 a) (fh2 b).
Proof. intros [a a'] [b b'] N. unfold fh2. indep. Qed.
Lemma gfh3_indep : forall a b, a <> b -> independent (fh3 a) (fh3 b).
Proof. intros [a a'] [b b'] N. unfold fh3. indep. Qed.
Lemma gfh4_indep : forall a b, a <> b -> independent (fh4 a) (fh4 b).
Proof. intros [a a'] [b b'] N. unfold fh4. indep. Qed.

Lemma ghfield_loops_independent : Forall (ForallOrdPairs independent) (ghfield_loops A g dt).
Proof.
  unfold ghfield_loops. repeat constructor; apply loop_independent;
    try apply zrange_nodup; try apply cells_nodup; intros a b _ _.
  - apply gfh1_indep.
  - apply gfh2_indep.
  - apply gfh3_indep.
  - apply gfh4_indep.
Qed.

Lemma gcalc_hfield_loops : forall m, gcalc_hfield A g dt m =
  execf (flat_map fh4 (cells 0 (gn_r A g - 1) 0 (gn_z A g - 1)))
    (execf (flat_map fh3 (cells 0 (gn_r A g - 1) 0 (gn_z A g - 1)))
      (execf (flat_map fh2 (cells 0 (gn_r A g - 1) 0 (gn_z A g - 1)))
        (execf (flat_map fh1 (zrange 0 (gn_z A g - 1))) m))).
Proof.
  intro m. unfold gcalc_hfield, ghfield_loops, gasg. rewrite concat4, !exec_app, <- !flat_map_concat_map. reflexivity.
Qed.

Ltac at_loop f idx c nd ind :=
  rewrite (exec_loop_at loc_eqb loc_eqb_spec f idx _ c);
  [| apply nd | intros ? ? _ _; apply ind
   | first [apply cells_in | apply zrange_in]; lia | cbn; auto ].

Ltac body f :=
  unfold f, exec at 1, exec_asg;
  cbn [fold_left fst snd tgt reads rhs gasg_hr gasg_hr_half gasg_hphi gasg_hphi_half gasg_hz gasg_hz_half map];
  store_simpl; repeat loop_skip; reflexivity.

Lemma gcalc_hfield_hr : forall m i k, (2 <= gn_r A g)%Z ->
  gcalc_hfield A g dt m (HR, i, k) =
  if in_rect 0 (gn_r A g) 0 (gn_z A g - 1) i k
  then value (gasg_hr A g dt i k) m else m (HR, i, k).
Proof.
  intros m i k Hn. rewrite gcalc_hfield_loops. loop_skip. loop_skip.
  destruct (in_rect_spec 0 (gn_r A g) 0 (gn_z A g - 1) i k) as [H|H].
  - destruct (Z.eq_dec i (gn_r A g - 1)) as [->|Ni].
    + loop_skip. at_loop fh1 (zrange 0 (gn_z A g - 1)) k zrange_nodup gfh1_indep. body fh1.
    + at_loop fh2 (cells 0 (gn_r A g - 1) 0 (gn_z A g - 1)) (i, k) cells_nodup gfh2_indep. body fh2.
  - repeat loop_skip. reflexivity.
Qed.

Lemma gcalc_hfield_hr_half : forall m i k, (2 <= gn_r A g)%Z ->
  gcalc_hfield A g dt m (HRH, i, k) =
  if in_rect 0 (gn_r A g) 0 (gn_z A g - 1) i k
  then value (gasg_hr_half A g dt i k) m else m (HRH, i, k).
Proof.
  intros m i k Hn. rewrite gcalc_hfield_loops. loop_skip. loop_skip.
  destruct (in_rect_spec 0 (gn_r A g) 0 (gn_z A g - 1) i k) as [H|H].
  - destruct (Z.eq_dec i (gn_r A g - 1)) as [->|Ni].
    + loop_skip. at_loop fh1 (zrange 0 (gn_z A g - 1)) k zrange_nodup gfh1_indep. body fh1.
    + at_loop fh2 (cells 0 (gn_r A g - 1) 0 (gn_z A g - 1)) (i, k) cells_nodup gfh2_indep. body fh2.
  - repeat loop_skip. reflexivity.
Qed.

Lemma gcalc_hfield_hphi : forall m i k,
  gcalc_hfield A g dt m (HPHI, i, k) =
  if in_rect 0 (gn_r A g - 1) 0 (gn_z A g - 1) i k
  then value (gasg_hphi A g dt i k) m
  else m (HPHI, i, k).
Proof.
  intros m i k. rewrite gcalc_hfield_loops. loop_skip.
  destruct (in_rect_spec 0 (gn_r A g - 1) 0 (gn_z A g - 1) i k) as [H|H].
  - at_loop fh3 (cells 0 (gn_r A g - 1) 0 (gn_z A g - 1)) (i, k) cells_nodup gfh3_indep. body fh3.
  - repeat loop_skip. reflexivity.
Qed.

Lemma gcalc_hfield_hphi_half : forall m i k,
  gcalc_hfield A g dt m (HPHIH, i, k) =
  if in_rect 0 (gn_r A g - 1) 0 (gn_z A g - 1) i k
  then value (gasg_hphi_half A g dt i k) m
  else m (HPHIH, i, k).
Proof.
  intros m i k. rewrite gcalc_hfield_loops. loop_skip.
  destruct (in_rect_spec 0 (gn_r A g - 1) 0 (gn_z A g - 1) i k) as [H|H].
  - at_loop fh3 (cells 0 (gn_r A g - 1) 0 (gn_z A g - 1)) (i, k) cells_nodup gfh3_indep. body fh3.
  - repeat loop_skip. reflexivity.
Qed.

Lemma gcalc_hfield_hz : forall m i k,
  gcalc_hfield A g dt m (HZ, i, k) =
  if in_rect 0 (gn_r A g - 1) 0 (gn_z A g - 1) i k
  then value (gasg_hz A g dt i k) m else m (HZ, i, k).
Proof.
  intros m i k. rewrite gcalc_hfield_loops.
  destruct (in_rect_spec 0 (gn_r A g - 1) 0 (gn_z A g - 1) i k) as [H|H].
  - at_loop fh4 (cells 0 (gn_r A g - 1) 0 (gn_z A g - 1)) (i, k) cells_nodup gfh4_indep. body fh4.
  - repeat loop_skip. reflexivity.
Qed.

Lemma gcalc_hfield_hz_half : forall m i k,
  gcalc_hfield A g dt m (HZH, i, k) =
  if in_rect 0 (gn_r A g - 1) 0 (gn_z A g - 1) i k
  then value (gasg_hz_half A g dt i k) m else m (HZH, i, k).
Proof.
  intros m i k. rewrite gcalc_hfield_loops.
  destruct (in_rect_spec 0 (gn_r A g - 1) 0 (gn_z A g - 1) i k) as [H|H].
  - at_loop fh4 (cells 0 (gn_r A g - 1) 0 (gn_z A g - 1)) (i, k) cells_nodup gfh4_indep. body fh4.
  - repeat loop_skip. reflexivity.
Qed.

Lemma gcalc_hfield_other : forall m a i k, is_h a = false ->
  gcalc_hfield A g dt m (a, i, k) = m (a, i, k).
Proof.
  intros m a i k A1. rewrite gcalc_hfield_loops.
  repeat (rewrite (exec_loop_unwritten loc_eqb loc_eqb_spec);
          [|intros c Hc Hw; unfold writes_of in Hw; cbn in Hw; split_in; injection Hw; intros; subst; discriminate]).
  reflexivity.
Qed.

End H.

End Gen.
