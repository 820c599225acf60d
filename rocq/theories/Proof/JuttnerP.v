(** Proofs about the thermal energy sampler. *)
From Coq Require Import Reals ZArith Lia Lra Psatz List Bool.
From Coquelicot Require Import Coquelicot.
From Verif.Lib Require Import RAux Outcome.
From Verif.Model Require Import Constants Limits JuttnerTables Juttner.
Import ListNotations.
Local Open Scope R_scope.
Local Open Scope outcome_scope.

(** ** The tables *)

Fixpoint ordered (le : Z -> Z -> bool) (l : list Z) : bool :=
  match l with
  | [] => true
  | a :: l' => match l' with b :: _ => le a b && ordered le l' | [] => true end
  end.

Definition entry (t : list Z) (i : Z) : R := IZR (nth (Z.to_nat i) t 0%Z) / 10 ^ 22.

Lemma table_at_ok : forall t i, (0 <= i < 1000)%Z -> table_at t i = Ok (entry t i).
Proof.
  intros t i H. unfold table_at. destruct (Z.leb_spec 0 i); [|lia]. destruct (Z.ltb_spec i 1000); [|lia]. reflexivity.
Qed.

Lemma ordered_nth : forall le, (forall a b c, le a b = true -> le b c = true -> le a c = true) ->
  forall l, ordered le l = true -> forall i j, (i < j)%nat -> (j < length l)%nat -> le (nth i l 0%Z) (nth j l 0%Z) = true.
Proof.
  intros le T. induction l as [|a l IH]; intros O i j H1 H2; [cbn in H2; lia|].
  destruct l as [|b l]; [cbn in H2; lia|]. cbn [ordered] in O. fold (ordered le (b :: l)) in O. apply andb_prop in O. destruct O as [O1 O2].
  destruct j as [|j]; [lia|]. destruct i as [|i].
  - cbn [nth]. destruct j as [|j]; [exact O1|]. apply (T _ b); [exact O1|]. apply (IH O2 0%nat (S j)); [lia|cbn in *; lia].
  - apply (IH O2 i j); [lia|cbn in *; lia].
Qed.

Lemma decreasing_F : ordered Z.geb lnInvF = true.
Proof. vm_compute. reflexivity. Qed.
Lemma increasing_H : ordered Z.leb lnInvH = true.
Proof. vm_compute. reflexivity. Qed.
Lemma length_F : length lnInvF = 1000%nat.
Proof. vm_compute. reflexivity. Qed.
Lemma length_H : length lnInvH = 1000%nat.
Proof. vm_compute. reflexivity. Qed.

Lemma ten22 : 0 < / 10 ^ 22.
Proof. apply Rinv_0_lt_compat, pow_lt. lra. Qed.

Lemma entry_F_mono : forall i j, (0 <= i <= j)%Z -> (j < 1000)%Z -> entry lnInvF j <= entry lnInvF i.
Proof.
  intros i j H1 H2. destruct (Z.eq_dec i j) as [->|N]; [lra|]. unfold entry, Rdiv.
  apply Rmult_le_compat_r; [left; exact ten22|]. apply IZR_le.
  assert (Q := ordered_nth Z.geb). specialize (Q ltac:(intros a b c; rewrite !Z.geb_leb, !Z.leb_le; lia) _ decreasing_F
    (Z.to_nat i) (Z.to_nat j) ltac:(lia) ltac:(rewrite length_F; lia)).
  rewrite Z.geb_leb, Z.leb_le in Q. exact Q.
Qed.

Lemma entry_H_mono : forall i j, (0 <= i <= j)%Z -> (j < 1000)%Z -> entry lnInvH i <= entry lnInvH j.
Proof.
  intros i j H1 H2. destruct (Z.eq_dec i j) as [->|N]; [lra|]. unfold entry, Rdiv.
  apply Rmult_le_compat_r; [left; exact ten22|]. apply IZR_le.
  assert (Q := ordered_nth Z.leb). specialize (Q ltac:(intros a b c; rewrite !Z.leb_le; lia) _ increasing_H
    (Z.to_nat i) (Z.to_nat j) ltac:(lia) ltac:(rewrite length_H; lia)).
  rewrite Z.leb_le in Q. exact Q.
Qed.

(** the exponent that [interpolate] uses *)
Definition chord (t : list Z) (x : R) : R :=
  entry t (floorZ x) + (x - IZR (floorZ x)) * (entry t (floorZ x + 1) - entry t (floorZ x)).

Lemma floorZ_range : forall x, 0 <= x < 999 -> (0 <= floorZ x <= 998)%Z.
Proof.
  intros x H. destruct (floorZ_spec x) as [A B]. split.
  - apply Z.lt_succ_r. apply lt_IZR. unfold Z.succ. rewrite plus_IZR. cbn. lra.
  - apply Z.lt_succ_r. apply lt_IZR. cbn. lra.
Qed.

Lemma interpolate_ok : forall t x, 0 <= x < 999 -> interpolate t x = Ok (exp (chord t x)).
Proof.
  intros t x H. assert (F := floorZ_range x H). unfold interpolate.
  rewrite !table_at_ok, !bind_ok by lia. reflexivity.
Qed.

Lemma interpolate_end : forall t, interpolate t 999 = UB.
Proof.
  intro t. unfold interpolate. rewrite floorZ_IZR. rewrite table_at_ok by lia. rewrite bind_ok.
  unfold table_at. reflexivity.
Qed.

Lemma frac_range : forall x, 0 <= x - IZR (floorZ x) < 1.
Proof. intro x. destruct (floorZ_spec x). lra. Qed.

Lemma chord_F_bounds : forall x, 0 <= x < 999 ->
  entry lnInvF (floorZ x + 1) <= chord lnInvF x <= entry lnInvF (floorZ x).
Proof.
  intros x H. assert (F := floorZ_range x H). assert (R := frac_range x).
  assert (M := entry_F_mono (floorZ x) (floorZ x + 1) ltac:(lia) ltac:(lia)). unfold chord. split; nra.
Qed.

Lemma chord_H_bounds : forall x, 0 <= x < 999 ->
  entry lnInvH (floorZ x) <= chord lnInvH x <= entry lnInvH (floorZ x + 1).
Proof.
  intros x H. assert (F := floorZ_range x H). assert (R := frac_range x).
  assert (M := entry_H_mono (floorZ x) (floorZ x + 1) ltac:(lia) ltac:(lia)). unfold chord. split; nra.
Qed.

(** The interpolated function is monotone. *)
Lemma chord_F_mono : forall x y, 0 <= x -> x <= y -> y < 999 -> chord lnInvF y <= chord lnInvF x.
Proof.
  intros x y H1 H2 H3. assert (Fx := floorZ_range x ltac:(lra)). assert (Fy := floorZ_range y ltac:(lra)).
  assert (L := floorZ_le_mono x y H2).
  destruct (Z.eq_dec (floorZ x) (floorZ y)) as [E|N].
  - unfold chord. rewrite <- E.
    assert (M := entry_F_mono (floorZ x) (floorZ x + 1) ltac:(lia) ltac:(lia)). nra.
  - assert (Bx := chord_F_bounds x ltac:(lra)). assert (By := chord_F_bounds y ltac:(lra)).
    assert (M := entry_F_mono (floorZ x + 1) (floorZ y) ltac:(lia) ltac:(lia)). lra.
Qed.

Lemma chord_H_mono : forall x y, 0 <= x -> x <= y -> y < 999 -> chord lnInvH x <= chord lnInvH y.
Proof.
  intros x y H1 H2 H3. assert (Fx := floorZ_range x ltac:(lra)). assert (Fy := floorZ_range y ltac:(lra)).
  assert (L := floorZ_le_mono x y H2).
  destruct (Z.eq_dec (floorZ x) (floorZ y)) as [E|N].
  - unfold chord. rewrite <- E.
    assert (M := entry_H_mono (floorZ x) (floorZ x + 1) ltac:(lia) ltac:(lia)). nra.
  - assert (Bx := chord_H_bounds x ltac:(lra)). assert (By := chord_H_bounds y ltac:(lra)).
    assert (M := entry_H_mono (floorZ x + 1) (floorZ y) ltac:(lia) ltac:(lia)). lra.
Qed.

(** ** Classical branch *)

Lemma ln_neg : forall U, 0 < U < 1 -> 0 < - ln U.
Proof. intros U H. assert (ln U < ln 1) by (apply ln_increasing; lra). rewrite ln_1 in *. lra. Qed.

Lemma exp_le : forall x y, x <= y -> exp x <= exp y.
Proof. intros x y [H|H]; [left; now apply exp_increasing|subst; right; reflexivity]. Qed.

Lemma lnln_anti : forall U V, 0 < U -> U <= V -> V < 1 -> ln (- ln V) <= ln (- ln U).
Proof.
  intros U V H1 H2 H3. destruct H2 as [H2| ->]; [|lra].
  assert (ln U < ln V) by (apply ln_increasing; lra). assert (P := ln_neg V ltac:(lra)).
  left. apply ln_increasing; lra.
Qed.

(** the three cases of the branch for a positive random number *)
Lemma classical_middle : forall T U, 0 < U < 1 -> -19 <= ln (- ln U) < 2 ->
  classical T U = Ok (T * exp (chord lnInvF ((ln (- ln U) + 19) * (999 / (2 + 19))))).
Proof.
  intros T U HU HL. unfold classical. destruct (Req_EM_T U 0) as [E|_]; [lra|]. cbv zeta.
  destruct (Rlt_dec 2 (ln (- ln U))) as [X|_]; [lra|]. destruct (Rlt_dec (ln (- ln U)) (-19)) as [X|_]; [lra|].
  rewrite interpolate_ok by lra. reflexivity.
Qed.

Lemma entry_F_0 : 0 < entry lnInvF 0 <= 4.
Proof.
  unfold entry. change (nth (Z.to_nat 0) lnInvF 0%Z) with 30281132611893362140000%Z. cbn [pow].
  split; [apply Rdiv_lt_0_compat; lra|]. apply Rmult_le_reg_r with (10 ^ 22); [apply pow_lt; lra|]. cbn [pow].
  unfold Rdiv. rewrite Rmult_assoc, Rinv_l by lra. lra.
Qed.

Lemma exp_ge_2 : 2 <= exp 1.
Proof. assert (E := exp_ineq1_le 1). lra. Qed.

Lemma exp_pow2 : forall n : nat, 2 ^ n <= exp (INR n).
Proof.
  induction n as [|n IH]; [cbn; rewrite exp_0; lra|]. rewrite S_INR, exp_plus. cbn [pow].
  assert (E := exp_ge_2). assert (0 < 2 ^ n) by (apply pow_lt; lra). nra.
Qed.

Lemma exp_pow3 : forall n : nat, exp (INR n) <= 3 ^ n.
Proof.
  induction n as [|n IH]; [cbn; rewrite exp_0; lra|]. rewrite S_INR, exp_plus. cbn [pow].
  assert (E := exp_le_3). assert (P := exp_pos (INR n)). assert (P1 := exp_pos 1). nra.
Qed.

Lemma classical_value : forall T U, 0 <= T -> 0 <= U < 1 -> (0 < U -> ln (- ln U) <> 2) ->
  exists e, classical T U = Ok e /\ 0 <= e <= 81 * T.
Proof.
  intros T U HT HU HN. assert (E3 := exp_le_3). assert (E0 := exp_pos 1).
  destruct (Req_EM_T U 0) as [->|N0].
  { exists (T * 0). unfold classical. destruct (Req_EM_T 0 0) as [_|X]; [|lra]. split; [reflexivity|lra]. }
  assert (HU' : 0 < U < 1) by lra. specialize (HN ltac:(lra)).
  destruct (Rlt_dec 2 (ln (- ln U))) as [A|A]; [|destruct (Rlt_dec (ln (- ln U)) (-19)) as [B|B]].
  - assert (P1 : 0 < Rpower U (2 / 3)) by apply exp_pos.
    assert (P2 : Rpower U (2 / 3) <= 1).
    { unfold Rpower. rewrite <- exp_0. apply exp_le. assert (Q := ln_neg U HU'). lra. }
    assert (S : 0 <= sqrt c_PI <= 2).
    { split; [apply sqrt_pos|]. apply Rle_trans with (sqrt (2 * 2)); [apply sqrt_le_1_alt; unfold c_PI; lra|].
      rewrite sqrt_square; lra. }
    exists (T * (3 * sqrt c_PI / 4 * Rpower U (2 / 3))). split.
    + unfold classical. destruct (Req_EM_T U 0); [lra|]. cbv zeta. destruct (Rlt_dec 2 (ln (- ln U))); [|lra]. reflexivity.
    + set (k := 3 * sqrt c_PI / 4). assert (0 <= k <= 2) by (unfold k; lra). split.
      * apply Rmult_le_pos; [lra|]. apply Rmult_le_pos; lra.
      * rewrite (Rmult_comm 81). apply Rmult_le_compat_l; [lra|]. nra.
  - exists (T * 1). split; [|lra].
    unfold classical. destruct (Req_EM_T U 0); [lra|]. cbv zeta. destruct (Rlt_dec 2 (ln (- ln U))); [lra|].
    destruct (Rlt_dec (ln (- ln U)) (-19)); [|lra]. reflexivity.
  - rewrite classical_middle by lra. eexists. split; [reflexivity|].
    set (x := (ln (- ln U) + 19) * (999 / (2 + 19))). assert (Hx : 0 <= x < 999) by (unfold x; lra).
    assert (C : chord lnInvF x <= 4).
    { assert (M := chord_F_mono 0 x ltac:(lra) ltac:(lra) ltac:(lra)). assert (M0 := chord_F_bounds 0 ltac:(lra)).
      change 0 with (IZR 0) in M0 at 4. rewrite (floorZ_IZR 0) in M0. assert (Q := entry_F_0). lra. }
    assert (P := exp_pos (chord lnInvF x)). apply exp_le in C.
    assert (E4 : exp 4 <= 81).
    { assert (Q := exp_pow3 4). replace (INR 4) with 4 in Q by (cbn; lra). cbn [pow] in Q. lra. }
    nra.
Qed.

(** In the range of the table the energy grows with the random number. *)
Lemma classical_mono : forall T U V, 0 <= T -> 0 < U -> U <= V -> V < 1 -> ln (- ln U) < 2 -> -19 <= ln (- ln V) ->
  exists e f, classical T U = Ok e /\ classical T V = Ok f /\ e <= f.
Proof.
  intros T U V HT H1 H2 H3 H4 H5. assert (A := lnln_anti U V H1 H2 H3).
  rewrite !classical_middle by lra. do 2 eexists. split; [reflexivity|]. split; [reflexivity|].
  apply Rmult_le_compat_l; [exact HT|]. apply exp_le. apply chord_F_mono; lra.
Qed.

Lemma classical_at : forall c, 0 < exp (- exp c) < 1 /\ ln (- ln (exp (- exp c))) = c.
Proof.
  intro c. assert (P := exp_pos c). split.
  - split; [apply exp_pos|]. rewrite <- exp_0. apply exp_increasing. lra.
  - rewrite ln_exp, Ropp_involutive. apply ln_exp.
Qed.

Lemma classical_overrun : forall T, classical T (exp (- exp 2)) = UB.
Proof.
  intro T. destruct (classical_at 2) as [[A B] C]. unfold classical.
  destruct (Req_EM_T (exp (- exp 2)) 0) as [E|_]; [lra|]. cbv zeta. rewrite C.
  destruct (Rlt_dec 2 2) as [X|_]; [lra|]. destruct (Rlt_dec 2 (-19)) as [X|_]; [lra|].
  replace ((2 + 19) * (999 / (2 + 19))) with 999 by field. rewrite interpolate_end. reflexivity.
Qed.

(** ** Relativistic branch *)

Lemma ln_upper : forall x, 0 < x -> ln x <= x - 1.
Proof. intros x H. assert (E := exp_ineq1_le (ln x)). rewrite exp_ln in E by exact H. lra. Qed.

Lemma ln_lower : forall x, 0 < x -> 1 - 1 / x <= ln x.
Proof.
  intros x H. assert (P : 0 < / x) by now apply Rinv_0_lt_compat.
  assert (E := ln_upper (/ x) P). rewrite ln_Rinv in E by exact H. unfold Rdiv. lra.
Qed.

Lemma exp_second : forall x, 0 < x -> 1 + x + 1 / 2 * x * x < exp x.
Proof.
  intros x H.
  destruct (MVT_cor2 (fun t => exp t - 1 - t - 1 / 2 * t * t) (fun t => exp t - 1 - t) 0 x H) as (c & E & C1 & C2).
  { intros c _. apply is_derive_Reals. auto_derive; [exact I|]. field. }
  rewrite exp_0 in E. assert (Q := exp_ineq1 c ltac:(lra)).
  assert (0 < (exp c - 1 - c) * (x - 0)) by (apply Rmult_lt_0_compat; lra). lra.
Qed.

Lemma H_0_bounds : forall T, 0 < T -> let y := 1 / T in
  0 < - H_0 T <= y /\ - H_0 T <= 1 / 2 * y * y * (1 + y).
Proof.
  intros T HT y. assert (Hy : 0 < y) by (unfold y; apply Rdiv_lt_0_compat; lra). unfold H_0. fold y. cbv zeta.
  set (w := y + 1 / 2 * y * y). assert (Hw : 0 < w) by (unfold w; nra).
  replace (1 + y + 1 / 2 * y * y) with (1 + w) by (unfold w; ring).
  assert (S := exp_second y Hy). assert (L1 : ln (1 + w) < y).
  { rewrite <- (ln_exp y). apply ln_increasing; [lra|]. unfold w. lra. }
  assert (L2 : 0 < ln (1 + w)) by (rewrite <- ln_1; apply ln_increasing; lra).
  split; [lra|]. assert (L3 := ln_lower (1 + w) ltac:(lra)).
  assert (Q : y - (1 - 1 / (1 + w)) <= 1 / 2 * y * y * (1 + y)); [|lra].
  replace (y - (1 - 1 / (1 + w))) with ((1 / 2 * y * y * (1 + y)) / (1 + w)) by (unfold w; field; fold w; nra).
  set (a := 1 / 2 * y * y * (1 + y)). assert (0 <= a) by (unfold a; apply Rmult_le_pos; nra).
  apply Rmult_le_reg_r with (1 + w); [lra|]. unfold Rdiv. rewrite Rmult_assoc, Rinv_l by lra. nra.
Qed.

(** the argument of the outer logarithm *)
Definition arg (T U : R) : R := - ln (1 - U) - H_0 T.

Lemma arg_bounds : forall T U, 1 / 10 <= T -> 0 <= U -> (1 / 2) ^ 53 <= 1 - U -> 0 < arg T U <= 63.
Proof.
  intros T U HT HU HV. unfold arg. destruct (H_0_bounds T ltac:(lra)) as [[A B] _].
  assert (Y : 1 / T <= 10).
  { apply Rmult_le_reg_r with T; [lra|]. unfold Rdiv. rewrite Rmult_assoc, Rinv_l; lra. }
  assert (P : 0 < (1 / 2) ^ 53) by (apply pow_lt; lra).
  assert (L1 : ln (1 - U) <= 0) by (rewrite <- ln_1; apply Rcomplements.ln_le; lra).
  assert (L2 : - 53 <= ln (1 - U)); [|lra].
  rewrite <- (ln_exp (- 53)). apply Rcomplements.ln_le; [apply exp_pos|].
  apply Rle_trans with ((1 / 2) ^ 53); [|exact HV].
  replace (exp (-53)) with (/ exp 53) by (symmetry; apply (exp_Ropp 53)). replace (1 / 2) with (/ 2) by lra. rewrite pow_inv. apply Rinv_le_contravar; [apply pow_lt; lra|].
  assert (E := exp_pow2 53). replace (INR 53) with 53 in E by (cbn; lra). exact E.
Qed.

Lemma ln_arg_small : forall T U, 1 / 10 <= T -> 0 <= U -> (1 / 2) ^ 53 <= 1 - U -> ln (arg T U) < 12.
Proof.
  intros T U HT HU HV. destruct (arg_bounds T U HT HU HV) as [A B].
  rewrite <- (ln_exp 12). apply ln_increasing; [exact A|].
  assert (E := exp_pow2 12). replace (INR 12) with 12 in E by (cbn; lra).
  assert (Q : 2 ^ 12 = 4096) by (cbn [pow]; ring). lra.
Qed.

Lemma guess_middle : forall T U, -26 <= ln (arg T U) < 12 ->
  guess T U = Ok (Num (T * exp (chord lnInvH ((ln (arg T U) + 30) * (999 / (12 + 30)))))).
Proof.
  intros T U H. unfold guess. cbv zeta. fold (arg T U).
  destruct (Rlt_dec (ln (arg T U)) (-26)) as [X|_]; [lra|]. destruct (Rlt_dec 12 (ln (arg T U))) as [X|_]; [lra|].
  rewrite interpolate_ok by lra. reflexivity.
Qed.

Lemma guess_low : forall T U, ln (arg T U) < -26 -> guess T U = Ok (if Req_EM_T U 0 then Num (T * 0) else NaN).
Proof.
  intros T U H. unfold guess. cbv zeta. fold (arg T U). destruct (Rlt_dec (ln (arg T U)) (-26)) as [_|X]; [reflexivity|lra].
Qed.

(** Every guess of the program is inside the table or not a number. *)
Lemma guess_ok : forall T U, 1 / 10 <= T -> 0 <= U -> (1 / 2) ^ 53 <= 1 - U -> exists x, guess T U = Ok x.
Proof.
  intros T U HT HU HV. assert (L := ln_arg_small T U HT HU HV).
  destruct (Rlt_dec (ln (arg T U)) (-26)) as [A|A]; [rewrite guess_low by exact A; eauto|].
  rewrite guess_middle by lra. eauto.
Qed.

Lemma relativistic_ok : forall T us, 1 / 10 <= T ->
  List.Forall (fun p : R * R => 0 <= fst p /\ (1 / 2) ^ 53 <= 1 - fst p) us -> exists r, relativistic T us = Ok r.
Proof.
  intros T us HT H. induction H as [|[U V] us [H1 H2] _ IH]; cbn [relativistic]; [eauto|].
  destruct (guess_ok T U HT H1 H2) as (x & E). rewrite E, bind_ok. destruct (again x V); eauto.
Qed.

(** Hot plasma and a small random number: the result is not a number. *)
Lemma guess_nan : guess (10 ^ 7) (/ 10 ^ 13) = Ok NaN.
Proof.
  assert (P : 0 < / 10 ^ 13) by (apply Rinv_0_lt_compat, pow_lt; lra).
  assert (P1 : / 10 ^ 13 = 1 / 10000000000000) by (cbn [pow]; field).
  rewrite guess_low.
  - destruct (Req_EM_T (/ 10 ^ 13) 0) as [E|_]; [lra|reflexivity].
  - destruct (H_0_bounds (10 ^ 7) ltac:(apply pow_lt; lra)) as [[A _] B].
    replace (1 / 10 ^ 7) with (1 / 10000000) in * by (cbn [pow]; field).
    assert (C : - ln (1 - / 10 ^ 13) <= 2 / 10000000000000).
    { assert (L := ln_lower (1 - / 10 ^ 13) ltac:(lra)). rewrite P1 in *.
      assert (Q : 1 / (1 - 1 / 10000000000000) <= 1 + 2 / 10000000000000).
      { apply Rmult_le_reg_r with (1 - 1 / 10000000000000); [lra|]. unfold Rdiv at 1. rewrite Rmult_assoc, Rinv_l by lra. lra. }
      lra. }
    assert (C0 : 0 <= - ln (1 - / 10 ^ 13)).
    { assert (ln (1 - / 10 ^ 13) <= ln 1) by (apply Rcomplements.ln_le; lra). rewrite ln_1 in *. lra. }
    unfold arg. rewrite <- (ln_exp (-26)). apply ln_increasing; [lra|].
    replace (exp (-26)) with (/ exp 26) by (symmetry; apply (exp_Ropp 26)). assert (E := exp_pow3 26). replace (INR 26) with 26 in E by (cbn; lra).
    assert (E26 := exp_pos 26). assert (E3 : 3 ^ 26 = 2541865828329) by (cbn [pow]; ring).
    assert (I : / 2541865828329 <= / exp 26) by (apply Rinv_le_contravar; lra).
    assert (J : 3 / 10000000000000 < / 2541865828329) by lra. lra.
Qed.

(** ** Half of the particles *)

Lemma ln2_lower : 69 / 100 <= ln 2.
Proof.
  rewrite <- (ln_exp (69 / 100)). apply Rcomplements.ln_le; [apply exp_pos|].
  set (a := exp (69 / 12800)).
  assert (A : 0 < a <= 100542034 / 100000000).
  { split; [apply exp_pos|]. unfold a. assert (E := exp_ineq1_le (- (69 / 12800))). rewrite exp_Ropp in E.
    assert (P := exp_pos (69 / 12800)). set (e := exp (69 / 12800)) in *.
    assert (Q : (1 + - (69 / 12800)) * e <= 1).
    { replace 1 with (/ e * e) at 2 by (field; lra). apply Rmult_le_compat_r; lra. }
    lra. }
  assert (S : forall x, exp (x + x) = exp x * exp x) by (intro; apply exp_plus).
  assert (D : forall x b c, 0 < exp x <= b -> b * b <= c -> 0 < exp (x + x) <= c).
  { intros x b c [H1 H2] H3. rewrite S. split; [nra|]. apply Rle_trans with (b * b); [nra|exact H3]. }
  assert (A1 := D _ _ (101087008 / 100000000 + 1 / 100000000) A ltac:(lra)).
  assert (A2 := D _ _ (102185837 / 100000000) A1 ltac:(lra)).
  assert (A3 := D _ _ (104419454 / 100000000) A2 ltac:(lra)).
  assert (A4 := D _ _ (109034224 / 100000000) A3 ltac:(lra)).
  assert (A5 := D _ _ (118884621 / 100000000) A4 ltac:(lra)).
  assert (A6 := D _ _ (141335532 / 100000000) A5 ltac:(lra)).
  assert (A7 := D _ _ (199757327 / 100000000) A6 ltac:(lra)).
  match type of A7 with 0 < exp ?x <= _ => replace x with (69 / 100) in A7 by lra end. lra.
Qed.

Lemma ln_069 : - (45 / 100) <= ln (69 / 100).
Proof. assert (L := ln_lower (69 / 100) ltac:(lra)). lra. Qed.

Lemma entry_value : forall t i z, nth (Z.to_nat i) t 0%Z = z -> entry t i = IZR z / 10 ^ 22.
Proof. intros t i z E. unfold entry. now rewrite E. Qed.

(** The guess for the random number 1/2 and a temperature of at least 100. *)
Lemma guess_half : forall T, 100 <= T -> exists x, guess T (1 / 2) = Ok (Num x) /\ 23 / 10 * T <= x.
Proof.
  intros T HT. destruct (H_0_bounds T ltac:(lra)) as [[A _] _].
  assert (E : 1 - 1 / 2 = / 2) by lra.
  assert (G : 69 / 100 <= arg T (1 / 2)).
  { unfold arg. rewrite E, ln_Rinv by lra. assert (Q := ln2_lower). lra. }
  assert (L : - (45 / 100) <= ln (arg T (1 / 2))).
  { apply Rle_trans with (ln (69 / 100)); [exact ln_069|]. apply Rcomplements.ln_le; lra. }
  assert (H : (1 / 2) ^ 53 <= 1 - 1 / 2).
  { rewrite E. replace (/ 2) with (1 / 2 * 1) by lra. change ((1 / 2) ^ 53) with (1 / 2 * (1 / 2) ^ 52).
    apply Rmult_le_compat_l; [lra|]. assert (P := pow_incr (1 / 2) 1 52 ltac:(lra)). rewrite pow1 in P. exact P. }
  assert (U := ln_arg_small T (1 / 2) ltac:(lra) ltac:(lra) H).
  rewrite guess_middle by lra. eexists. split; [reflexivity|].
  set (x := (ln (arg T (1 / 2)) + 30) * (999 / (12 + 30))). assert (X : 702 <= x < 999) by (unfold x; lra).
  assert (F : (702 <= floorZ x)%Z) by (rewrite <- (floorZ_IZR 702); apply floorZ_le_mono; lra).
  assert (F2 := floorZ_range x ltac:(lra)).
  assert (C := chord_H_bounds x ltac:(lra)). assert (M := entry_H_mono 702 (floorZ x) ltac:(lia) ltac:(lia)).
  rewrite (entry_value lnInvH 702 9210484881153276904000) in M by (vm_compute; reflexivity).
  assert (V : 92 / 100 <= chord lnInvH x).
  { apply Rle_trans with (9210484881153276904000 / 10 ^ 22); [|lra]. cbn [pow]. lra. }
  assert (S := exp_second (92 / 100) ltac:(lra)). apply exp_le in V. nra.
Qed.

(** The energy for the random number 1/2 in the classical branch. *)
Lemma classical_half : forall T, 0 <= T -> exists e, classical T (1 / 2) = Ok e /\ e <= 14 / 10 * T.
Proof.
  intros T HT. assert (L2 := ln2_lower). assert (E : - ln (1 / 2) = ln 2).
  { replace (1 / 2) with (/ 2) by lra. rewrite ln_Rinv by lra. ring. }
  assert (L : - (45 / 100) <= ln (ln 2)).
  { apply Rle_trans with (ln (69 / 100)); [exact ln_069|]. apply Rcomplements.ln_le; lra. }
  assert (U2 : ln 2 <= 1) by (assert (Q := ln_upper 2 ltac:(lra)); lra).
  assert (U : ln (ln 2) <= 0) by (rewrite <- ln_1; apply Rcomplements.ln_le; lra).
  rewrite classical_middle by (rewrite ?E; lra). eexists. split; [reflexivity|]. rewrite E.
  set (x := (ln (ln 2) + 19) * (999 / (2 + 19))). assert (X : 882 <= x < 999) by (unfold x; lra).
  assert (F : (882 <= floorZ x)%Z) by (rewrite <- (floorZ_IZR 882); apply floorZ_le_mono; lra).
  assert (F2 := floorZ_range x ltac:(lra)).
  assert (C := chord_F_bounds x ltac:(lra)). assert (M := entry_F_mono 882 (floorZ x) ltac:(lia) ltac:(lia)).
  rewrite (entry_value lnInvF 882 2386477732552492736000) in M by (vm_compute; reflexivity).
  assert (V : chord lnInvF x <= 24 / 100).
  { apply Rle_trans with (2386477732552492736000 / 10 ^ 22); [lra|]. cbn [pow]. lra. }
  apply exp_le in V. assert (S := exp_ineq1_le (- (24 / 100))). rewrite exp_Ropp in S.
  assert (P := exp_pos (24 / 100)). set (e := exp (24 / 100)) in *.
  assert (Q : (1 + - (24 / 100)) * e <= 1) by (replace 1 with (/ e * e) at 2 by (field; lra); apply Rmult_le_compat_r; lra).
  assert (e <= 14 / 10) by lra. rewrite (Rmult_comm (14 / 10)). apply Rmult_le_compat_l; lra.
Qed.

Lemma guess_zero : guess (10 ^ 7) 0 = Ok (Num 0).
Proof.
  rewrite guess_low.
  - destruct (Req_EM_T 0 0) as [_|N]; [|lra]. do 2 f_equal. ring.
  - destruct (H_0_bounds (10 ^ 7) ltac:(apply pow_lt; lra)) as [[A _] B].
    replace (1 / 10 ^ 7) with (1 / 10000000) in * by (cbn [pow]; field).
    unfold arg. replace (1 - 0) with 1 by ring. rewrite ln_1. rewrite <- (ln_exp (-26)). apply ln_increasing; [lra|].
    replace (exp (-26)) with (/ exp 26) by (symmetry; apply (exp_Ropp 26)). assert (E := exp_pow3 26). replace (INR 26) with 26 in E by (cbn; lra).
    assert (E26 := exp_pos 26). assert (E3 : 3 ^ 26 = 2541865828329) by (cbn [pow]; ring).
    assert (I : / 2541865828329 <= / exp 26) by (apply Rinv_le_contravar; lra).
    assert (J : 3 / 10000000000000 < / 2541865828329) by lra. lra.
Qed.
