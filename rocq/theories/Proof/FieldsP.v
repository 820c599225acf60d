(** Closed forms of the field updates, freedom from races, and memory bounds. *)
From Coq Require Import Reals ZArith Lia Lra List Bool.
From Verif.Lib Require Import RAux Grid Par.
From Verif.Model Require Import Constants Geometry Fields.
Import ListNotations.
Local Open Scope R_scope.

(** lo1 <= i < hi1 and lo2 <= k < hi2 *)
Definition in_rect (lo1 hi1 lo2 hi2 i k : Z) : bool :=
  ((lo1 <=? i) && (i <? hi1) && (lo2 <=? k) && (k <? hi2))%Z.

Lemma in_rect_spec : forall lo1 hi1 lo2 hi2 i k,
  reflect (lo1 <= i < hi1 /\ lo2 <= k < hi2)%Z (in_rect lo1 hi1 lo2 hi2 i k).
Proof.
  intros. apply iff_reflect. unfold in_rect. rewrite !andb_true_iff, !Z.leb_le, !Z.ltb_lt. lia.
Qed.

Notation execf := (exec loc_eqb).

Lemma concat4 : forall {A} (a b c d : list (list A)),
  concat (concat [a; b; c; d]) = concat a ++ concat b ++ concat c ++ concat d.
Proof. intros. cbn [concat]. rewrite app_nil_r, !concat_app. reflexivity. Qed.

(** Splits all membership hypotheses in concrete lists and closes the contradictory cases. *)
Ltac split_in :=
  repeat match goal with
         | H : _ \/ _ |- _ => destruct H as [H|H]
         | H : False |- _ => destruct H
         | H : In _ _ |- _ => progress cbn in H
         end.

Ltac indep :=
  let x := fresh "x" in let Hx := fresh "Hx" in let Hy := fresh "Hy" in
  unfold independent, writes_of, reads_of; split; intros x Hx; split; intro Hy; cbn in Hx; cbn in Hy;
  split_in; congruence.

(** [execf (flat_map f idx) m x] with x not written by the loop. *)
Ltac loop_skip :=
  let c := fresh "c" in let Hc := fresh "Hc" in let Hw := fresh "Hw" in
  rewrite (exec_loop_unwritten loc_eqb loc_eqb_spec);
  [|intros c Hc Hw; try (destruct c as [? ?]; apply cells_in in Hc); try apply zrange_in in Hc;
    unfold writes_of in Hw; cbn in Hw; split_in; try discriminate; injection Hw; intros; subst; lia].

Ltac store_simpl :=
  repeat first [ rewrite (store_same loc_eqb loc_eqb_spec)
               | rewrite (store_other loc_eqb loc_eqb_spec) by congruence ].

Section E.
Variables (g : geom) (md : medium) (dt : R).

Let fe1 := fun k => [asg_er g md dt 0 k].
Let fe2 := fun k => [asg_ez_axis g md dt k].
Let fe3 := fun c : Z * Z => [asg_er g md dt (fst c) (snd c); asg_ephi g md dt (fst c) (snd c);
                   asg_ez g md dt (fst c) (snd c)].
Let fe4 := fun i => [asg_ez g md dt i 0].

Lemma fe1_indep : forall a b, a <> b -> independent (fe1 a) (fe1 b).
Proof. intros a b N. unfold fe1. indep. Qed.
Lemma fe2_indep : forall a b, a <> b -> independent (fe2 a) (fe2 b).
Proof. intros a b N. unfold fe2. indep. Qed.
Lemma fe3_indep : forall a b, a <> b -> independent (fe3 a) (fe3 b).
Proof. intros [a a'] [b b'] N. unfold fe3. indep. Qed.
Lemma fe4_indep : forall a b, a <> b -> independent (fe4 a) (fe4 b).
Proof. intros a b N. unfold fe4. indep. Qed.

Lemma efield_loops_independent : Forall (ForallOrdPairs independent) (efield_loops g md dt).
Proof.
  unfold efield_loops. repeat constructor; apply loop_independent;
    try apply zrange_nodup; try apply cells_nodup; intros a b _ _.
  - apply fe1_indep.
  - apply fe2_indep.
  - apply fe3_indep.
  - apply fe4_indep.
Qed.

Lemma calc_efield_loops : forall m, calc_efield g md dt m =
  execf (flat_map fe4 (zrange 1 (n_r g - 1)))
    (execf (flat_map fe3 (cells 1 (n_r g - 1) 1 (n_z g - 1)))
      (execf (flat_map fe2 (zrange 0 (n_z g - 1)))
        (execf (flat_map fe1 (zrange 1 (n_z g - 1))) m))).
Proof.
  intro m. unfold calc_efield, efield_loops. rewrite concat4, !exec_app, <- !flat_map_concat_map. reflexivity.
Qed.

Ltac at_loop f idx c nd ind :=
  rewrite (exec_loop_at loc_eqb loc_eqb_spec f idx _ c);
  [| apply nd | intros ? ? _ _; apply ind
   | first [apply cells_in | apply zrange_in]; lia | cbn; auto ].

Lemma calc_efield_er : forall m i k, (2 <= n_r g)%Z ->
  calc_efield g md dt m (ER, i, k) =
  if in_rect 0 (n_r g - 1) 1 (n_z g - 1) i k
  then m (ER, i, k) * koef_e md dt i k
       - (m (JR, i, k) + (m (HPHI, i, k) - m (HPHI, i, (k - 1)%Z)) / dz g) * koef_h md dt i k
  else m (ER, i, k).
Proof.
  intros m i k Hn. rewrite calc_efield_loops. loop_skip.
  destruct (in_rect_spec 0 (n_r g - 1) 1 (n_z g - 1) i k) as [H|H].
  - destruct (Z.eq_dec i 0) as [->|Ni].
    + loop_skip. loop_skip.
      at_loop fe1 (zrange 1 (n_z g - 1)) k zrange_nodup fe1_indep.
      unfold fe1, exec, exec_asg. cbn -[store]. store_simpl. reflexivity.
    + at_loop fe3 (cells 1 (n_r g - 1) 1 (n_z g - 1)) (i, k) cells_nodup fe3_indep.
      unfold fe3, exec at 1, exec_asg. cbn [fold_left fst snd tgt reads rhs asg_er asg_ephi asg_ez map].
      store_simpl. repeat loop_skip. reflexivity.
  - repeat loop_skip. reflexivity.
Qed.

Lemma calc_efield_ephi : forall m i k,
  calc_efield g md dt m (EPHI, i, k) =
  if in_rect 1 (n_r g - 1) 1 (n_z g - 1) i k
  then m (EPHI, i, k) * koef_e md dt i k
       - (m (JPHI, i, k) - (m (HR, i, k) - m (HR, i, (k - 1)%Z)) / dz g
          + (m (HZ, i, k) - m (HZ, (i - 1)%Z, k)) / dr g) * koef_h md dt i k
  else m (EPHI, i, k).
Proof.
  intros m i k. rewrite calc_efield_loops. loop_skip.
  destruct (in_rect_spec 1 (n_r g - 1) 1 (n_z g - 1) i k) as [H|H].
  - at_loop fe3 (cells 1 (n_r g - 1) 1 (n_z g - 1)) (i, k) cells_nodup fe3_indep.
    unfold fe3, exec at 1, exec_asg. cbn [fold_left fst snd tgt reads rhs asg_er asg_ephi asg_ez map].
    store_simpl. repeat loop_skip. reflexivity.
  - repeat loop_skip. reflexivity.
Qed.

Lemma calc_efield_ez_axis : forall m k,
  calc_efield g md dt m (EZ, 0%Z, k) =
  if in_rect 0 1 0 (n_z g - 1) 0 k
  then m (EZ, 0%Z, k) * koef_e md dt 0 k
       - (m (JZ, 0%Z, k) - 4 / dr g * m (HPHI, 0%Z, k)) * koef_h md dt 0 k
  else m (EZ, 0%Z, k).
Proof.
  intros m k. rewrite calc_efield_loops. loop_skip. loop_skip.
  destruct (in_rect_spec 0 1 0 (n_z g - 1) 0 k) as [H|H].
  - at_loop fe2 (zrange 0 (n_z g - 1)) k zrange_nodup fe2_indep.
    unfold fe2, exec at 1, exec_asg. cbn [fold_left fst snd tgt reads rhs asg_ez_axis map].
    store_simpl. repeat loop_skip. reflexivity.
  - repeat loop_skip. reflexivity.
Qed.

Lemma calc_efield_ez : forall m i k, (2 <= n_z g)%Z -> i <> 0%Z ->
  calc_efield g md dt m (EZ, i, k) =
  if in_rect 1 (n_r g - 1) 0 (n_z g - 1) i k
  then m (EZ, i, k) * koef_e md dt i k
       - (m (JZ, i, k) - (m (HPHI, i, k) - m (HPHI, (i - 1)%Z, k)) / dr g
          - (m (HPHI, i, k) + m (HPHI, (i - 1)%Z, k)) / (2 * dr g * IZR i)) * koef_h md dt i k
  else m (EZ, i, k).
Proof.
  intros m i k Hn Ni. rewrite calc_efield_loops.
  destruct (in_rect_spec 1 (n_r g - 1) 0 (n_z g - 1) i k) as [H|H].
  - destruct (Z.eq_dec k 0) as [->|Nk].
    + at_loop fe4 (zrange 1 (n_r g - 1)) i zrange_nodup fe4_indep.
      unfold fe4, exec at 1, exec_asg. cbn [fold_left fst snd tgt reads rhs asg_ez map].
      store_simpl. repeat loop_skip. reflexivity.
    + loop_skip.
      at_loop fe3 (cells 1 (n_r g - 1) 1 (n_z g - 1)) (i, k) cells_nodup fe3_indep.
      unfold fe3, exec at 1, exec_asg. cbn [fold_left fst snd tgt reads rhs asg_er asg_ephi asg_ez map].
      store_simpl. repeat loop_skip. reflexivity.
  - repeat loop_skip. reflexivity.
Qed.

(** The other arrays are not written. *)
Lemma calc_efield_other : forall m a i k, a <> ER -> a <> EPHI -> a <> EZ ->
  calc_efield g md dt m (a, i, k) = m (a, i, k).
Proof.
  intros m a i k A B C. rewrite calc_efield_loops.
  repeat (rewrite (exec_loop_unwritten loc_eqb loc_eqb_spec);
          [|intros c Hc Hw; unfold writes_of in Hw; cbn in Hw; split_in; congruence]).
  reflexivity.
Qed.

End E.

Section H.
Variables (g : geom) (dt : R).

Let fh1 := fun k => [asg_hr_half g dt (n_r g - 1) k; asg_hr g dt (n_r g - 1) k].
Let fh2 := fun c : Z * Z => [asg_hr_half g dt (fst c) (snd c); asg_hr g dt (fst c) (snd c)].
Let fh3 := fun c : Z * Z => [asg_hphi_half g dt (fst c) (snd c); asg_hphi g dt (fst c) (snd c)].
Let fh4 := fun c : Z * Z => [asg_hz_half g dt (fst c) (snd c); asg_hz g dt (fst c) (snd c)].

Lemma fh1_indep : forall a b, a <> b -> independent (fh1 a) (fh1 b).
Proof. intros a b N. unfold fh1. indep. Qed.
Lemma fh2_indep : forall a b, a <> b -> independent (fh2 a) (fh2 b).
Proof. intros [a a'] [b b'] N. unfold fh2. indep. Qed.
Lemma fh3_indep : forall a b, a <> b -> independent (fh3 a) (fh3 b).
Proof. intros [a a'] [b b'] N. unfold fh3. indep. Qed.
Lemma fh4_indep : forall a b, a <> b -> independent (fh4 a) (fh4 b).
Proof. intros [a a'] [b b'] N. unfold fh4. indep. Qed.

Lemma hfield_loops_independent : Forall (ForallOrdPairs independent) (hfield_loops g dt).
Proof.
  unfold hfield_loops. repeat constructor; apply loop_independent;
    try apply zrange_nodup; try apply cells_nodup; intros a b _ _.
  - apply fh1_indep.
  - apply fh2_indep.
  - apply fh3_indep.
  - apply fh4_indep.
Qed.

Lemma calc_hfield_loops : forall m, calc_hfield g dt m =
  execf (flat_map fh4 (cells 0 (n_r g - 1) 0 (n_z g - 1)))
    (execf (flat_map fh3 (cells 0 (n_r g - 1) 0 (n_z g - 1)))
      (execf (flat_map fh2 (cells 0 (n_r g - 1) 0 (n_z g - 1)))
        (execf (flat_map fh1 (zrange 0 (n_z g - 1))) m))).
Proof.
  intro m. unfold calc_hfield, hfield_loops. rewrite concat4, !exec_app, <- !flat_map_concat_map. reflexivity.
Qed.

Ltac at_loop f idx c nd ind :=
  rewrite (exec_loop_at loc_eqb loc_eqb_spec f idx _ c);
  [| apply nd | intros ? ? _ _; apply ind
   | first [apply cells_in | apply zrange_in]; lia | cbn; auto ].

Ltac body f :=
  unfold f, exec at 1, exec_asg;
  cbn [fold_left fst snd tgt reads rhs asg_hr asg_hr_half asg_hphi asg_hphi_half asg_hz asg_hz_half map];
  store_simpl; repeat loop_skip; reflexivity.

Lemma calc_hfield_hr : forall m i k, (2 <= n_r g)%Z ->
  calc_hfield g dt m (HR, i, k) =
  if in_rect 0 (n_r g) 0 (n_z g - 1) i k
  then m (HR, i, k) + alpha_r g dt (m (EPHI, i, (k + 1)%Z)) (m (EPHI, i, k)) else m (HR, i, k).
Proof.
  intros m i k Hn. rewrite calc_hfield_loops. loop_skip. loop_skip.
  destruct (in_rect_spec 0 (n_r g) 0 (n_z g - 1) i k) as [H|H].
  - destruct (Z.eq_dec i (n_r g - 1)) as [->|Ni].
    + loop_skip. at_loop fh1 (zrange 0 (n_z g - 1)) k zrange_nodup fh1_indep. body fh1.
    + at_loop fh2 (cells 0 (n_r g - 1) 0 (n_z g - 1)) (i, k) cells_nodup fh2_indep. body fh2.
  - repeat loop_skip. reflexivity.
Qed.

Lemma calc_hfield_hr_half : forall m i k, (2 <= n_r g)%Z ->
  calc_hfield g dt m (HRH, i, k) =
  if in_rect 0 (n_r g) 0 (n_z g - 1) i k
  then m (HR, i, k) + alpha_r g dt (m (EPHI, i, (k + 1)%Z)) (m (EPHI, i, k)) / 2 else m (HRH, i, k).
Proof.
  intros m i k Hn. rewrite calc_hfield_loops. loop_skip. loop_skip.
  destruct (in_rect_spec 0 (n_r g) 0 (n_z g - 1) i k) as [H|H].
  - destruct (Z.eq_dec i (n_r g - 1)) as [->|Ni].
    + loop_skip. at_loop fh1 (zrange 0 (n_z g - 1)) k zrange_nodup fh1_indep. body fh1.
    + at_loop fh2 (cells 0 (n_r g - 1) 0 (n_z g - 1)) (i, k) cells_nodup fh2_indep. body fh2.
  - repeat loop_skip. reflexivity.
Qed.

Lemma calc_hfield_hphi : forall m i k,
  calc_hfield g dt m (HPHI, i, k) =
  if in_rect 0 (n_r g - 1) 0 (n_z g - 1) i k
  then m (HPHI, i, k)
       + alpha_phi g dt (m (EZ, (i + 1)%Z, k)) (m (EZ, i, k)) (m (ER, i, (k + 1)%Z)) (m (ER, i, k))
  else m (HPHI, i, k).
Proof.
  intros m i k. rewrite calc_hfield_loops. loop_skip.
  destruct (in_rect_spec 0 (n_r g - 1) 0 (n_z g - 1) i k) as [H|H].
  - at_loop fh3 (cells 0 (n_r g - 1) 0 (n_z g - 1)) (i, k) cells_nodup fh3_indep. body fh3.
  - repeat loop_skip. reflexivity.
Qed.

Lemma calc_hfield_hphi_half : forall m i k,
  calc_hfield g dt m (HPHIH, i, k) =
  if in_rect 0 (n_r g - 1) 0 (n_z g - 1) i k
  then m (HPHI, i, k)
       + alpha_phi g dt (m (EZ, (i + 1)%Z, k)) (m (EZ, i, k)) (m (ER, i, (k + 1)%Z)) (m (ER, i, k)) / 2
  else m (HPHIH, i, k).
Proof.
  intros m i k. rewrite calc_hfield_loops. loop_skip.
  destruct (in_rect_spec 0 (n_r g - 1) 0 (n_z g - 1) i k) as [H|H].
  - at_loop fh3 (cells 0 (n_r g - 1) 0 (n_z g - 1)) (i, k) cells_nodup fh3_indep. body fh3.
  - repeat loop_skip. reflexivity.
Qed.

Lemma calc_hfield_hz : forall m i k,
  calc_hfield g dt m (HZ, i, k) =
  if in_rect 0 (n_r g - 1) 0 (n_z g - 1) i k
  then m (HZ, i, k) - alpha_z g dt i (m (EPHI, (i + 1)%Z, k)) (m (EPHI, i, k)) else m (HZ, i, k).
Proof.
  intros m i k. rewrite calc_hfield_loops.
  destruct (in_rect_spec 0 (n_r g - 1) 0 (n_z g - 1) i k) as [H|H].
  - at_loop fh4 (cells 0 (n_r g - 1) 0 (n_z g - 1)) (i, k) cells_nodup fh4_indep. body fh4.
  - repeat loop_skip. reflexivity.
Qed.

Lemma calc_hfield_hz_half : forall m i k,
  calc_hfield g dt m (HZH, i, k) =
  if in_rect 0 (n_r g - 1) 0 (n_z g - 1) i k
  then m (HZ, i, k) - alpha_z g dt i (m (EPHI, (i + 1)%Z, k)) (m (EPHI, i, k)) / 2 else m (HZH, i, k).
Proof.
  intros m i k. rewrite calc_hfield_loops.
  destruct (in_rect_spec 0 (n_r g - 1) 0 (n_z g - 1) i k) as [H|H].
  - at_loop fh4 (cells 0 (n_r g - 1) 0 (n_z g - 1)) (i, k) cells_nodup fh4_indep. body fh4.
  - repeat loop_skip. reflexivity.
Qed.

Definition is_h (a : farr) : bool :=
  match a with HR | HPHI | HZ | HRH | HPHIH | HZH => true | _ => false end.

Lemma calc_hfield_other : forall m a i k, is_h a = false ->
  calc_hfield g dt m (a, i, k) = m (a, i, k).
Proof.
  intros m a i k A. rewrite calc_hfield_loops.
  repeat (rewrite (exec_loop_unwritten loc_eqb loc_eqb_spec);
          [|intros c Hc Hw; unfold writes_of in Hw; cbn in Hw; split_in; injection Hw; intros; subst; discriminate]).
  reflexivity.
Qed.

End H.
