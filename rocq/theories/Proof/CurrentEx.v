(** Concrete paths: an oblique path over two borders that meets the hypotheses of C05, and a
    path through a grid node for which the balance fails. *)
From Coq Require Import Reals ZArith Lia Lra List Bool Psatz.
From Verif.Lib Require Import RAux Grid.
From Verif.Model Require Import Constants Geometry ChargeDeposit CurrentDeposit.
From Verif.Spec Require Import Cloud Continuity Sample.
From Verif.Proof Require Import GeometryP ChargeP CurrentP CurrentP4.
Import ListNotations.
Local Open Scope R_scope.

Lemma MNZL_small : MNZL <= 1/1000.
Proof.
  unfold MNZL. replace (1/1000) with (/ 1000) by lra. apply Rinv_le_contravar; [lra|].
  replace 1000 with (10 ^ 3) by lra. apply Rle_pow; [lra|lia].
Qed.

Lemma on_line_unit : forall x, on_line 1 x -> 1 < x < 3 -> x = 2.
Proof.
  intros x [n ->] [H1 H2]. rewrite Rmult_1_r in *.
  assert (A : (1 < n)%Z) by (apply lt_IZR; lra). assert (B : (n < 3)%Z) by (apply lt_IZR; lra).
  assert (n = 2%Z) by lia. subst n. lra.
Qed.

(** From (7/4, 8/5) to (9/4, 11/5): r = 2 at t = 1/2, z = 2 at t = 2/3. *)
Lemma sample_path :
  legs_at_least MNZL 1 1 (9/4) (11/5) (7/4) (8/5) /\ avoids_nodes 1 1 (9/4) (11/5) (7/4) (8/5).
Proof.
  assert (LR : forall t, 0 < t < 1 -> on_line 1 (7/4 + t * (9/4 - 7/4)) -> t = 1/2).
  { intros t T H. apply on_line_unit in H; lra. }
  assert (LZ : forall t, 0 < t < 1 -> on_line 1 (8/5 + t * (11/5 - 8/5)) -> t = 2/3).
  { intros t T H. apply on_line_unit in H; lra. }
  assert (EV : forall t, leg_end 1 1 (9/4) (11/5) (7/4) (8/5) t -> t = 0 \/ t = 1 \/ t = 1/2 \/ t = 2/3).
  { intros t [H|[H|[T [H|H]]]]; auto. }
  assert (M := MNZL_small).
  split.
  - intros t t' E E' T. rewrite !Rabs_right by lra.
    apply EV in E. apply EV in E'. split; lra.
  - intros t T H1 H2. apply LR in H1; auto. apply LZ in H2; auto. lra.
Qed.

(** A path exactly through the node (2, 2). *)
Lemma corner_deposits_nothing : forall dt q,
  current_single sample_geom dt q (9/4) (9/4) (7/4) (7/4) = [].
Proof.
  intros dt q. unfold current_single. rewrite sample_dr, sample_dz.
  assert (C1 : cell (7/4) 1 = 1%Z) by (apply cell_unique; [lra|lia|cbn; lra]).
  assert (C2 : cell (9/4) 1 = 2%Z) by (apply cell_unique; [lra|lia|cbn; lra]).
  assert (T : tie_cells 1 (9/4) (7/4) = (2%Z, 1%Z)).
  { unfold tie_cells. rewrite C1, C2.
    destruct (Req_EM_T (7/4) ((1 + 1) * 1)) as [X|_]; [lra|].
    destruct (Req_EM_T (9/4) ((2 + 1) * 1)) as [X|_]; [lra|]. reflexivity. }
  rewrite T. cbn [Z.sub Z.abs Z.add Z.opp Z.pos_sub Pos.pred_double Z.eqb Pos.eqb].
  assert (M := MNZL_small).
  rewrite Rabs_right by lra.
  destruct (Rlt_dec (9/4 - 7/4) MNZL) as [X|_]; [lra|].
  cbn. unfold current_two_borders. cbn [Z.ltb Z.compare Pos.compare Pos.compare_cont].
  rewrite sample_dr, sample_dz.
  set (z1 := 7/4 + (2 * 1 - 7/4) / ((9/4 - 7/4) / (9/4 - 7/4))).
  assert (E : z1 = 2) by (unfold z1; field).
  destruct (Rlt_dec z1 (2 * 1)) as [X|_]; [lra|].
  destruct (Rlt_dec (2 * 1) z1) as [X|_]; [lra|]. reflexivity.
Qed.

Lemma corner_unbalanced : forall dt q, q <> 0 ->
  ~ cont sample_geom dt q (current_single sample_geom dt q (9/4) (9/4) (7/4) (7/4)) (9/4) (9/4) (7/4) (7/4).
Proof.
  intros dt q Hq H. rewrite corner_deposits_nothing in H.
  specialize (H 1%Z 1%Z). unfold outflow in H. rewrite !dep_nil in H.
  rewrite sample_dr, sample_dz in H. unfold share in H.
  rewrite (share_r_other 1 2 (9/4) 1) in H by (try lia; try lra; split; cbn; lra).
  rewrite (share_r_at 1 1 (7/4)) in H by (try lia; try lra; split; cbn; lra).
  rewrite (share_z_at 1 1 (7/4)) in H by (try lia; try lra; split; cbn; lra).
  assert (E : q * (11/56 * (1/4)) = 0).
  { replace (q * (11/56 * (1/4))) with
     (q * (((1 + 1/2) * 1 * ((1 + 1/2) * 1) - (7/4 - 1/2) * (7/4 - 1/2)) / (2 * (7/4) * 1) *
           (((1 + 1) * 1 - 7/4) / 1))) by field. lra. }
  lra.
Qed.

(** A path that crosses z = 2 and moves by 3/2 MNZL in r: both legs move by 3/4 MNZL in r and are skipped. *)
Lemma shallow_deposits_nothing : forall dt q,
  current_single sample_geom dt q (9/4 + 3/2 * MNZL) (9/4) (9/4) (7/4) = [].
Proof.
  intros dt q. assert (M := MNZL_small). assert (P := MNZL_pos). set (rn := 9/4 + 3/2 * MNZL).
  unfold current_single. rewrite sample_dr, sample_dz.
  assert (C1 : cell (7/4) 1 = 1%Z) by (apply cell_unique; [lra|lia|cbn; lra]).
  assert (C2 : cell (9/4) 1 = 2%Z) by (apply cell_unique; [lra|lia|cbn; lra]).
  assert (C3 : cell rn 1 = 2%Z) by (apply cell_unique; [lra|lia|unfold rn; cbn; lra]).
  assert (T : tie_cells 1 (9/4) (7/4) = (2%Z, 1%Z)).
  { unfold tie_cells. rewrite C1, C2.
    destruct (Req_EM_T (7/4) ((1 + 1) * 1)) as [X|_]; [lra|].
    destruct (Req_EM_T (9/4) ((2 + 1) * 1)) as [X|_]; [lra|]. reflexivity. }
  assert (T' : tie_cells 1 rn (9/4) = (2%Z, 2%Z)).
  { unfold tie_cells. rewrite C2, C3.
    destruct (Req_EM_T (9/4) ((2 + 1) * 1)) as [X|_]; [lra|].
    destruct (Req_EM_T rn ((2 + 1) * 1)) as [X|_]; [unfold rn in X; lra|]. reflexivity. }
  rewrite T, T'. cbn [Z.sub Z.abs Z.add Z.opp Z.pos_sub Pos.pred_double Z.eqb Pos.eqb].
  rewrite !Rabs_right by (unfold rn; lra).
  destruct (Rlt_dec (rn - 9/4) MNZL) as [X|_]; [unfold rn in X; lra|].
  destruct (Rlt_dec (9/4 - 7/4) MNZL) as [X|_]; [lra|].
  cbn. unfold current_one_border. cbn [Z.eqb Pos.eqb negb andb]. cbv zeta. rewrite sample_dz.
  destruct (Rlt_dec (7/4) (2 * 1)) as [_|X]; [|lra].
  set (rb := 9/4 + (rn - 9/4) / (9/4 - 7/4) * (2 * 1 - 7/4)).
  assert (E : rb = 9/4 + 3/4 * MNZL) by (unfold rb, rn; field). rewrite E.
  unfold simple_current.
  destruct (Rlt_dec (Rabs (9/4 + 3/4 * MNZL - 9/4)) MNZL) as [_|X]; [|exfalso; apply X; rewrite Rabs_right; lra].
  destruct (Rlt_dec (Rabs (rn - (9/4 + 3/4 * MNZL))) MNZL) as [_|X]; [reflexivity|exfalso; apply X; unfold rn; rewrite Rabs_right; lra].
Qed.

Lemma shallow_unbalanced : forall dt q, q <> 0 ->
  ~ cont sample_geom dt q (current_single sample_geom dt q (9/4 + 3/2 * MNZL) (9/4) (9/4) (7/4)) (9/4 + 3/2 * MNZL) (9/4) (9/4) (7/4).
Proof.
  intros dt q Hq H. rewrite shallow_deposits_nothing in H. assert (M := MNZL_small). assert (P := MNZL_pos).
  specialize (H 2%Z 1%Z). unfold outflow in H. rewrite !dep_nil in H.
  rewrite sample_dr, sample_dz in H. unfold share in H.
  rewrite (share_z_other 1 2 (9/4) 1) in H by (try lia; try lra; split; cbn; lra).
  rewrite (share_r_at 1 2 (9/4)) in H by (try lia; try lra; split; cbn; lra).
  rewrite (share_z_at 1 1 (7/4)) in H by (try lia; try lra; split; cbn; lra).
  assert (E : q * (51/72 * (1/4)) = 0).
  { replace (q * (51/72 * (1/4))) with
     (q * (((2 + 1/2) * 1 * ((2 + 1/2) * 1) - (9/4 - 1/2) * (9/4 - 1/2)) / (2 * (9/4) * 1) *
           (((1 + 1) * 1 - 7/4) / 1))) by field. lra. }
  lra.
Qed.

Lemma shallow_avoids : avoids_nodes 1 1 (9/4 + 3/2 * MNZL) (9/4) (9/4) (7/4).
Proof.
  assert (M := MNZL_small). assert (P := MNZL_pos). intros t T H1 H2. apply on_line_unit in H1; nra.
Qed.
