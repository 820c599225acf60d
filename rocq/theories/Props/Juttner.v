(** Property C55: the sampler of thermal energies. *)
From Coq Require Import Reals ZArith Lia Lra Psatz List Bool.
From Verif.Lib Require Import RAux Outcome.
From Verif.Model Require Import Constants Limits Juttner.
From Verif.Proof Require Import JuttnerP.
Import ListNotations.
Local Open Scope R_scope.

(** Below 0.1 eV: for every random number in [0, 1) but one, a number between 0 and 81 T, with no access outside
    the table. Partial: see the refutations. *)
Theorem C55_cold_partial : forall T U V us, 0 <= T < 1 / 10 -> 0 <= U < 1 -> (0 < U -> ln (- ln U) <> 2) ->
  exists e, maxwell_juttner T ((U, V) :: us) = Ok (Some (Num e)) /\ 0 <= e <= 81 * T.
Proof.
  intros T U V us HT HU HN. destruct (classical_value T U ltac:(lra) HU HN) as (e & E & B). exists e. split; [|exact B].
  unfold maxwell_juttner. destruct (Rlt_dec T (1 / 10)) as [_|X]; [|lra]. now rewrite E.
Qed.
Print Assumptions C55_cold_partial.

(** Within the table the energy grows with the random number. *)
Theorem C55_monotone_partial : forall T U U' V V' us us', 0 <= T < 1 / 10 -> 0 < U -> U <= U' -> U' < 1 ->
  ln (- ln U) < 2 -> -19 <= ln (- ln U') ->
  exists e f, maxwell_juttner T ((U, V) :: us) = Ok (Some (Num e)) /\
              maxwell_juttner T ((U', V') :: us') = Ok (Some (Num f)) /\ e <= f.
Proof.
  intros T U U' V V' us us' HT H1 H2 H3 H4 H5.
  destruct (classical_mono T U U' ltac:(lra) H1 H2 H3 H4 H5) as (e & f & E & F & L). exists e, f.
  unfold maxwell_juttner. destruct (Rlt_dec T (1 / 10)) as [_|X]; [|lra]. now rewrite E, F.
Qed.
Print Assumptions C55_monotone_partial.

(** From 0.1 eV on: no access outside the table, for every sequence of random numbers from 0 to the largest double
    below 1. *)
Theorem C55_hot_partial : forall T us, 1 / 10 <= T ->
  Forall (fun p => 0 <= fst p /\ (1 / 2) ^ 53 <= 1 - fst p) us -> exists r, maxwell_juttner T us = Ok r.
Proof.
  intros T us HT H. unfold maxwell_juttner. destruct (Rlt_dec T (1 / 10)) as [X|_]; [lra|]. now apply relativistic_ok.
Qed.
Print Assumptions C55_hot_partial.

(** One random number makes the program read behind the end of the table. *)
Theorem C55_overrun_refuted : forall T V us, T < 1 / 10 -> exists U, 0 < U < 1 /\ maxwell_juttner T ((U, V) :: us) = UB.
Proof.
  intros T V us HT. exists (exp (- exp 2)). destruct (classical_at 2) as [A _]. split; [exact A|].
  unfold maxwell_juttner. destruct (Rlt_dec T (1 / 10)) as [_|X]; [|lra]. now rewrite classical_overrun.
Qed.
Print Assumptions C55_overrun_refuted.

(** The tail is cut: the largest random numbers give the energy T, less than smaller ones do. *)
Theorem C55_tail_refuted : forall T, 0 < T < 1 / 10 -> exists U U' e f, 0 < U < U' /\ U' < 1 /\
  maxwell_juttner T [(U, 0)] = Ok (Some (Num e)) /\ maxwell_juttner T [(U', 0)] = Ok (Some (Num f)) /\ f < e.
Proof.
  intros T HT. exists (exp (- exp (-19))), (exp (- exp (-20))).
  destruct (classical_at (-19)) as [A1 B1]. destruct (classical_at (-20)) as [A2 B2].
  assert (X : 0 < exp (entry JuttnerTables.lnInvF 0) - 1).
  { assert (Q := entry_F_0). assert (E := exp_ineq1 _ (Rgt_not_eq _ _ (proj1 Q))). lra. }
  exists (T * exp (entry JuttnerTables.lnInvF 0)), (T * 1).
  assert (M : exp (-20) < exp (-19)) by (apply exp_increasing; lra).
  split; [split; [lra|apply exp_increasing; lra]|]. split; [lra|].
  unfold maxwell_juttner. destruct (Rlt_dec T (1 / 10)) as [_|N]; [|lra].
  split; [|split].
  - rewrite classical_middle by (rewrite ?B1; lra). rewrite B1.
    replace ((-19 + 19) * (999 / (2 + 19))) with 0 by field. rewrite bind_ok. do 5 f_equal.
    unfold chord. rewrite (floorZ_IZR 0). ring.
  - unfold classical. destruct (Req_EM_T (exp (- exp (-20))) 0) as [Z|_]; [lra|]. cbv zeta. rewrite B2.
    destruct (Rlt_dec 2 (-20)); [lra|]. destruct (Rlt_dec (-20) (-19)); [|lra]. reflexivity.
  - apply Rmult_lt_compat_l; lra.
Qed.
Print Assumptions C55_tail_refuted.

(** In a hot plasma a small random number gives an energy that is not a number, and zero gives -1. *)
Theorem C55_nan_refuted : exists T U, 1 / 10 <= T /\ 0 < U < 1 /\
  maxwell_juttner T [(U, 0)] = Ok (Some NaN) /\ maxwell_juttner T [(0, 0)] = Ok (Some (Num (-1))).
Proof.
  exists (10 ^ 7), (/ 10 ^ 13). assert (P : / 10 ^ 13 = 1 / 10000000000000) by (cbn [pow]; field).
  assert (Q : 10 ^ 7 = 10000000) by (cbn [pow]; ring).
  split; [lra|]. split; [lra|]. unfold maxwell_juttner. destruct (Rlt_dec (10 ^ 7) (1 / 10)) as [X|_]; [lra|].
  cbn [relativistic]. rewrite guess_nan, guess_zero, !bind_ok. cbn [again].
  destruct (Req_EM_T 0 0) as [_|N]; [|lra]. split; [reflexivity|]. do 3 f_equal. ring.
Qed.
Print Assumptions C55_nan_refuted.

(** The temperature is in electron volts but is compared with 0.1 as if in units of the rest energy, 511 keV for electrons:
    for the random number 1/2 the energy is at most 1.4 T below 0.1 eV and at least 2.2 T from 100 eV on, where electrons
    are far from relativistic. *)
Theorem C55_units_refuted :
  (forall T V, 0 <= T < 1 / 10 -> exists e, maxwell_juttner T [(1 / 2, V)] = Ok (Some (Num e)) /\ e <= 14 / 10 * T) /\
  (forall T, 100 <= T -> exists e, maxwell_juttner T [(1 / 2, 0)] = Ok (Some (Num e)) /\ 22 / 10 * T <= e).
Proof.
  split.
  - intros T V HT. destruct (classical_half T ltac:(lra)) as (e & E & B). exists e. split; [|exact B].
    unfold maxwell_juttner. destruct (Rlt_dec T (1 / 10)) as [_|X]; [|lra]. now rewrite E.
  - intros T HT. destruct (guess_half T HT) as (x & E & B). exists (x - 1). split; [|lra].
    unfold maxwell_juttner. destruct (Rlt_dec T (1 / 10)) as [X|_]; [lra|].
    cbn [relativistic]. rewrite E, bind_ok. unfold again.
    destruct (Req_EM_T x 0) as [X|_]; [lra|].
    assert (P : 1 < x * x) by nra. assert (Q : 0 < 1 - 1 / (x * x)).
    { assert (1 / (x * x) < 1); [|lra]. apply Rmult_lt_reg_r with (x * x); [lra|]. unfold Rdiv. rewrite Rmult_assoc, Rinv_l; lra. }
    destruct (Rlt_dec (1 - 1 / (x * x)) 0) as [X|_]; [lra|].
    destruct (Rle_dec (sqrt (1 - 1 / (x * x))) 0) as [X|_]; [|reflexivity].
    exfalso. assert (S := sqrt_lt_R0 _ Q). lra.
Qed.
Print Assumptions C55_units_refuted.

Example C55_hypotheses_met :
  (0 <= 1 / 20 < 1 / 10 /\ 0 <= 1 / 2 < 1 /\ (0 < 1 / 2 -> ln (- ln (1 / 2)) <> 2)) /\
  (1 / 10 <= 1 /\ Forall (fun p : R * R => 0 <= fst p /\ (1 / 2) ^ 53 <= 1 - fst p) [(1 / 2, 3 / 4); (1 / 3, 1 / 10)]).
Proof.
  assert (E : - ln (1 / 2) = ln 2) by (replace (1 / 2) with (/ 2) by lra; rewrite ln_Rinv by lra; ring).
  assert (L : ln (ln 2) <= 0).
  { rewrite <- ln_1 at 1. left. apply ln_increasing; assert (A := ln2_lower); assert (B := ln_upper 2 ltac:(lra)).
    - lra.
    - assert (C := ln_upper (3 / 2) ltac:(lra)). assert (D := ln_upper (4 / 3) ltac:(lra)).
      replace 2 with (3 / 2 * (4 / 3)) by lra. rewrite ln_mult by lra. lra. }
  split; [split; [lra|]; split; [lra|]; intros _; rewrite E; lra|].
  split; [lra|]. assert (H : forall x, 0 <= x <= 1 / 2 -> (1 / 2) ^ 53 <= 1 - x).
  { intros x Hx. apply Rle_trans with (1 / 2); [|lra]. replace (1 / 2) with (1 / 2 * 1) at 2 by lra.
    change ((1 / 2) ^ 53) with (1 / 2 * (1 / 2) ^ 52). apply Rmult_le_compat_l; [lra|].
    assert (P := pow_incr (1 / 2) 1 52 ltac:(lra)). rewrite pow1 in P. exact P. }
  repeat constructor; cbn [fst]; try lra; apply H; lra.
Qed.
