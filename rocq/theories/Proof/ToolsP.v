(** Proofs about the conversions of the analysis tools. *)
From Coq Require Import Reals ZArith Lia Lra List Psatz.
From Flocq Require Import Core Relative.
From Verif.Lib Require Import RAux.
From Verif.Model Require Import Constants Geometry Tools.
Local Open Scope R_scope.

(** ** Rounding to the nearest integer *)

Lemma py_round_near : forall x n, Rabs (x - IZR n) < / 2 -> py_round x = n.
Proof. intros x n H. unfold py_round. apply Znearest_imp. exact H. Qed.

Lemma py_round_IZR : forall n, py_round (IZR n) = n.
Proof. intro n. apply py_round_near. rewrite Rminus_diag_eq by reflexivity. rewrite Rabs_R0. lra. Qed.

Lemma py_round_le : forall x n, x <= IZR n -> (py_round x <= n)%Z.
Proof.
  intros x n H. rewrite <- (py_round_IZR n). unfold py_round. apply (@Zrnd_le ZnearestE (valid_rnd_N _)). exact H.
Qed.

Lemma py_round_ge : forall x n, IZR n <= x -> (n <= py_round x)%Z.
Proof.
  intros x n H. rewrite <- (py_round_IZR n). unfold py_round. apply (@Zrnd_le ZnearestE (valid_rnd_N _)). exact H.
Qed.

Lemma py_round_half : forall n, py_round (IZR n + / 2) = if Z.even n then n else (n + 1)%Z.
Proof.
  intro n. unfold py_round, Znearest.
  assert (F : Zfloor (IZR n + / 2) = n) by (apply Zfloor_imp; rewrite plus_IZR; lra).
  rewrite F. replace (IZR n + / 2 - IZR n) with (/ 2) by lra. rewrite Rcompare_Eq by reflexivity.
  destruct (Z.even n); cbn [negb].
  - reflexivity.
  - apply Zceil_imp. rewrite plus_IZR, minus_IZR. rewrite plus_IZR. lra.
Qed.

(** ** Time stamps *)

Lemma frame_of_time_exact : forall dt n s, 0 < dt -> 0 < s ->
  get_frame_number_by_timestamp dt (get_timestamp_by_frame_number dt (IZR n) s) s = n.
Proof.
  intros dt n s Hd Hs. unfold get_frame_number_by_timestamp, get_timestamp_by_frame_number.
  replace (IZR n * dt * s / dt / s) with (IZR n) by (field; lra). apply py_round_IZR.
Qed.

Definition u64 : R := / 9007199254740992.

Lemma rnd64_rel : forall x, bpow radix2 (-1022) <= x -> exists e, Rabs e <= u64 /\ rnd64 x = x * (1 + e).
Proof.
  intros x Hx. assert (P := bpow_gt_0 radix2 (-1022)).
  assert (E := relative_error_N_FLT radix2 (-1074) 53 ltac:(reflexivity) (fun z => negb (Z.even z)) x).
  change (-1074 + 53 - 1)%Z with (-1022)%Z in E. rewrite (Rabs_pos_eq x) in E by lra. specialize (E Hx).
  exists ((rnd64 x - x) / x). split; [|field; lra].
  unfold Rdiv. rewrite Rabs_mult, (Rabs_pos_eq (/ x)) by (apply Rlt_le, Rinv_0_lt_compat; lra).
  apply Rmult_le_reg_r with x; [lra|]. rewrite Rmult_assoc, Rinv_l by lra. rewrite Rmult_1_r.
  replace u64 with (/ 2 * bpow radix2 (- (53) + 1)); [exact E|]. unfold u64. cbn. lra.
Qed.

Lemma rnd64_0 : rnd64 0 = 0.
Proof. apply round_0. apply valid_rnd_N. Qed.

Lemma one_plus_pos : forall e, Rabs e <= u64 -> 1 / 2 <= 1 + e <= 3 / 2.
Proof. intros e H. apply Rabs_le_inv in H. unfold u64 in H. lra. Qed.

Lemma four_errors : forall a b c d, Rabs a <= u64 -> Rabs b <= u64 -> Rabs c <= u64 -> Rabs d <= u64 ->
  Rabs ((1 + a) * (1 + b) * (1 + c) * (1 + d) - 1) <= 5 * u64.
Proof.
  intros a b c d Ha Hb Hc Hd.
  assert (S : forall x y k, 0 <= k <= 4 -> Rabs (x - 1) <= k * u64 * (1 + / 100) -> Rabs y <= u64 ->
              Rabs (x * (1 + y) - 1) <= (k + 1) * u64 * (1 + / 100)).
  { intros x y k Hk Hx Hy. replace (x * (1 + y) - 1) with ((x - 1) + y + (x - 1) * y) by ring.
    eapply Rle_trans; [apply Rabs_triang|]. eapply Rle_trans; [apply Rplus_le_compat_r, Rabs_triang|].
    rewrite Rabs_mult. assert (U : 0 < u64 < / 1000000) by (unfold u64; lra).
    assert (X : Rabs (x - 1) * Rabs y <= k * u64 * (1 + / 100) * u64).
    { apply Rmult_le_compat; try apply Rabs_pos; assumption. }
    assert (Y : k * u64 * (1 + / 100) * u64 <= u64 * / 100).
    { assert (k * u64 <= 4 * / 1000000) by (apply Rmult_le_compat; lra). nra. }
    lra. }
  assert (H1 : Rabs ((1 + a) - 1) <= 1 * u64 * (1 + / 100)).
  { replace (1 + a - 1) with a by ring. unfold u64 in *. lra. }
  apply (S _ b 1 ltac:(lra)) in H1; [|exact Hb].
  apply (S _ c (1 + 1) ltac:(lra)) in H1; [|exact Hc].
  apply (S _ d (1 + 1 + 1) ltac:(lra)) in H1; [|exact Hd].
  eapply Rle_trans; [exact H1|]. unfold u64. lra.
Qed.

Lemma frame_of_time64 : forall dt n s, bpow radix2 (-1000) <= dt -> (0 <= n <= 2 ^ 49)%Z -> (1 <= s <= 2 ^ 53)%Z ->
  get_frame_number64 dt (get_timestamp64 dt (IZR n) (IZR s)) (IZR s) = n.
Proof.
  intros dt n s Hd Hn Hs. assert (P := bpow_gt_0 radix2 (-1000)). assert (Dp : 0 < dt) by lra.
  assert (Sp : 1 <= IZR s) by (apply IZR_le; lia).
  destruct (Z.eq_dec n 0) as [->|N0].
  - unfold get_frame_number64, get_timestamp64.
    rewrite Rmult_0_l, rnd64_0, Rmult_0_l, rnd64_0. unfold Rdiv. rewrite Rmult_0_l, rnd64_0, Rmult_0_l, rnd64_0.
    exact (py_round_IZR 0).
  - assert (Np : 1 <= IZR n) by (apply IZR_le; lia).
    assert (B1 : bpow radix2 (-1022) <= / 8 * bpow radix2 (-1000)).
    { change (/ 8) with (bpow radix2 (-3)). rewrite <- bpow_plus. apply bpow_le. lia. }
    assert (B0 : bpow radix2 (-1022) <= / 8).
    { change (/ 8) with (bpow radix2 (-3)). apply bpow_le. lia. }
    unfold get_frame_number64, get_timestamp64.
    destruct (rnd64_rel (IZR n * dt)) as (a & Ha & Ea); [nra|].
    rewrite Ea. assert (Pa := one_plus_pos a Ha).
    assert (nd : dt <= IZR n * dt) by nra.
    destruct (rnd64_rel (IZR n * dt * (1 + a) * IZR s)) as (b & Hb & Eb).
    { assert (dt / 2 <= IZR n * dt * (1 + a)) by nra. nra. }
    rewrite Eb. assert (Pb := one_plus_pos b Hb).
    assert (E3 : IZR n * dt * (1 + a) * IZR s * (1 + b) / dt = IZR n * IZR s * ((1 + a) * (1 + b))) by (field; lra).
    rewrite E3.
    assert (ab : / 4 <= (1 + a) * (1 + b)) by nra.
    assert (ns : 1 <= IZR n * IZR s) by nra.
    destruct (rnd64_rel (IZR n * IZR s * ((1 + a) * (1 + b)))) as (c & Hc & Ec); [nra|].
    rewrite Ec. assert (Pc := one_plus_pos c Hc).
    assert (E4 : IZR n * IZR s * ((1 + a) * (1 + b)) * (1 + c) / IZR s = IZR n * ((1 + a) * (1 + b) * (1 + c))) by (field; lra).
    rewrite E4.
    assert (abc : / 8 <= (1 + a) * (1 + b) * (1 + c)) by nra.
    destruct (rnd64_rel (IZR n * ((1 + a) * (1 + b) * (1 + c)))) as (d & Hdd & Ed); [nra|].
    rewrite Ed. apply py_round_near.
    replace (IZR n * ((1 + a) * (1 + b) * (1 + c)) * (1 + d) - IZR n) with
      (IZR n * ((1 + a) * (1 + b) * (1 + c) * (1 + d) - 1)) by ring.
    rewrite Rabs_mult, (Rabs_pos_eq (IZR n)) by lra.
    assert (F := four_errors a b c d Ha Hb Hc Hdd).
    assert (NB : IZR n <= 562949953421312) by (apply IZR_le; lia).
    assert (U : 0 < u64) by (unfold u64; lra).
    apply Rle_lt_trans with (562949953421312 * (5 * u64)).
    + apply Rmult_le_compat; [lra|apply Rabs_pos|exact NB|exact F].
    + unfold u64. lra.
Qed.

(** ** Rows and columns *)

Lemma row_of_node : forall n size i, (2 <= n)%Z -> 0 < size -> (0 <= i <= n - 1)%Z ->
  get_row_by_radius (IZR n) size (IZR i * (size / IZR (n - 1))) =
  if (2 * i <? n - 1)%Z then i else if (n - 1 <? 2 * i)%Z then (i + 1)%Z else if Z.even i then i else (i + 1)%Z.
Proof.
  intros n size i Hn Hs Hi. unfold get_row_by_radius.
  assert (Dp : 1 <= IZR (n - 1)) by (apply IZR_le; lia).
  assert (E : IZR i * (size / IZR (n - 1)) * IZR n / size = IZR i + IZR i / IZR (n - 1)).
  { replace (IZR n) with (IZR (n - 1) + 1) by (rewrite minus_IZR; lra). field. lra. }
  rewrite E.
  assert (I0 : 0 <= IZR i) by (apply IZR_le; lia).
  assert (Q0 : 0 <= IZR i / IZR (n - 1)) by (apply Rmult_le_pos; [exact I0|]; apply Rlt_le, Rinv_0_lt_compat; lra).
  assert (QE : IZR i / IZR (n - 1) * IZR (n - 1) = IZR i) by (field; lra).
  destruct (Z.ltb_spec (2 * i) (n - 1)) as [L|L].
  - apply py_round_near. replace (IZR i + IZR i / IZR (n - 1) - IZR i) with (IZR i / IZR (n - 1)) by ring.
    rewrite Rabs_pos_eq by exact Q0. apply IZR_lt in L. rewrite mult_IZR in L.
    apply Rmult_lt_reg_r with (IZR (n - 1)); lra.
  - destruct (Z.ltb_spec (n - 1) (2 * i)) as [G|G].
    + apply py_round_near. rewrite plus_IZR.
      assert (I1 : IZR i <= IZR (n - 1)) by (apply IZR_le; lia).
      assert (Q1 : IZR i / IZR (n - 1) <= 1) by (apply Rmult_le_reg_r with (IZR (n - 1)); lra).
      apply IZR_lt in G. rewrite mult_IZR in G.
      assert (Q2 : / 2 < IZR i / IZR (n - 1)) by (apply Rmult_lt_reg_r with (IZR (n - 1)); lra).
      rewrite Rabs_left1 by lra. lra.
    + assert (EQ : (n - 1 = 2 * i)%Z) by lia. rewrite EQ, mult_IZR.
      assert (i <> 0)%Z by lia. assert (IZR i <> 0) by (now apply not_0_IZR).
      replace (IZR i / (2 * IZR i)) with (/ 2) by (field; assumption). apply py_round_half.
Qed.

Lemma row_round_trip : forall n size row, 0 < n -> 0 < size -> get_row_by_radius n size (get_radius_by_row n size (IZR row)) = row.
Proof.
  intros n size row Hn Hs. unfold get_row_by_radius, get_radius_by_row.
  replace (IZR row * size / n * n / size) with (IZR row) by (field; lra). apply py_round_IZR.
Qed.

Lemma row_round_trip64 : forall n size row, bpow radix2 (-900) <= size -> (1 <= n <= 2 ^ 53)%Z -> (0 <= row <= 2 ^ 49)%Z ->
  get_row64 (IZR n) size (get_radius64 (IZR n) size (IZR row)) = row.
Proof.
  intros n size row Hd Hs Hn. assert (P := bpow_gt_0 radix2 (-900)). assert (Dp : 0 < size) by lra.
  assert (Sp : 1 <= IZR n) by (apply IZR_le; lia).
  destruct (Z.eq_dec row 0) as [->|N0].
  - unfold get_row64, get_radius64.
    rewrite Rmult_0_l, rnd64_0. unfold Rdiv. rewrite Rmult_0_l, rnd64_0, Rmult_0_l, rnd64_0, Rmult_0_l, rnd64_0.
    exact (py_round_IZR 0).
  - assert (Np : 1 <= IZR row) by (apply IZR_le; lia).
    assert (B1 : bpow radix2 (-1022) <= / 18014398509481984 * bpow radix2 (-900)).
    { change (/ 18014398509481984) with (bpow radix2 (-54)). rewrite <- bpow_plus. apply bpow_le. lia. }
    assert (B2 : bpow radix2 (-1022) <= / 8 * bpow radix2 (-900)).
    { change (/ 8) with (bpow radix2 (-3)). rewrite <- bpow_plus. apply bpow_le. lia. }
    assert (B0 : bpow radix2 (-1022) <= / 8).
    { change (/ 8) with (bpow radix2 (-3)). apply bpow_le. lia. }
    assert (NB : IZR n <= 9007199254740992) by (apply IZR_le; lia).
    unfold get_row64, get_radius64.
    assert (nd : size <= IZR row * size) by nra.
    destruct (rnd64_rel (IZR row * size)) as (a & Ha & Ea); [nra|].
    rewrite Ea. assert (Pa := one_plus_pos a Ha).
    assert (ra : size / 2 <= IZR row * size * (1 + a)) by nra.
    assert (Ni : / 9007199254740992 <= / IZR n) by (apply Rinv_le_contravar; lra).
    destruct (rnd64_rel (IZR row * size * (1 + a) / IZR n)) as (b & Hb & Eb).
    { unfold Rdiv. apply Rle_trans with (size / 2 * / 9007199254740992); [nra|]. apply Rmult_le_compat; lra. }
    rewrite Eb. assert (Pb := one_plus_pos b Hb).
    assert (E3 : IZR row * size * (1 + a) / IZR n * (1 + b) * IZR n = IZR row * size * ((1 + a) * (1 + b))) by (field; lra).
    rewrite E3.
    assert (ab : / 4 <= (1 + a) * (1 + b)) by nra.
    destruct (rnd64_rel (IZR row * size * ((1 + a) * (1 + b)))) as (c & Hc & Ec); [nra|].
    rewrite Ec. assert (Pc := one_plus_pos c Hc).
    assert (E4 : IZR row * size * ((1 + a) * (1 + b)) * (1 + c) / size = IZR row * ((1 + a) * (1 + b) * (1 + c))) by (field; lra).
    rewrite E4.
    assert (abc : / 8 <= (1 + a) * (1 + b) * (1 + c)) by nra.
    destruct (rnd64_rel (IZR row * ((1 + a) * (1 + b) * (1 + c)))) as (d & Hdd & Ed); [nra|].
    rewrite Ed. apply py_round_near.
    replace (IZR row * ((1 + a) * (1 + b) * (1 + c)) * (1 + d) - IZR row) with
      (IZR row * ((1 + a) * (1 + b) * (1 + c) * (1 + d) - 1)) by ring.
    rewrite Rabs_mult, (Rabs_pos_eq (IZR row)) by lra.
    assert (F := four_errors a b c d Ha Hb Hc Hdd).
    assert (RB : IZR row <= 562949953421312) by (apply IZR_le; lia).
    assert (U : 0 < u64) by (unfold u64; lra).
    apply Rle_lt_trans with (562949953421312 * (5 * u64)).
    + apply Rmult_le_compat; [lra|apply Rabs_pos|exact RB|exact F].
    + unfold u64. lra.
Qed.
