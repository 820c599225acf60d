(** Proofs about the main loop: C26, C27. *)
From Coq Require Import Reals Lra Lia ZArith List Psatz.
From Flocq Require Import Core IEEE754.BinarySingleNaN.
From Verif.Lib Require Import RAux Outcome.
From Verif.Model Require Import MainLoop Binary64 Bunch Dump.
From Verif.Spec Require Import Steps.
From Verif.Proof Require Import Binary64P.
Import ListNotations.
Local Open Scope R_scope.

Lemma least_steps_exists : forall t0 e dt, 0 < dt -> exists n, least_steps t0 e dt n.
Proof.
  intros t0 e dt Hdt. destruct (Rle_or_lt e t0) as [H|H].
  - exists 0%nat. split; [cbn; lra|]. intros; lia.
  - exists (Z.to_nat (ceilZ ((e - t0) / dt))). set (c := ceilZ ((e - t0) / dt)).
    assert (P : 0 < (e - t0) / dt) by (apply Rdiv_lt_0_compat; lra).
    assert (S := ceilZ_spec ((e - t0) / dt)). fold c in S.
    assert (C : (0 < c)%Z) by (apply lt_IZR; lra).
    assert (Q : e - t0 = (e - t0) / dt * dt) by (field; lra).
    split.
    + rewrite INR_IZR_INZ, Z2Nat.id by lia. nra.
    + intros k Hk. apply Nat2Z.inj_le. rewrite Z2Nat.id by lia.
      assert ((e - t0) / dt <= IZR (Z.of_nat k)).
      { rewrite <- INR_IZR_INZ. apply Rmult_le_reg_r with dt; [lra|]. lra. }
      apply Z.lt_succ_r. apply lt_IZR. unfold Z.succ. rewrite plus_IZR. lra.
Qed.

Lemma least_steps_unique : forall t0 e dt n m, least_steps t0 e dt n -> least_steps t0 e dt m -> n = m.
Proof. intros t0 e dt n m [A B] [C D]. specialize (B m C). specialize (D n A). lia. Qed.

Lemma exec_all_app : forall {S : Type} (exec : action -> R -> S -> outcome S) l l' s,
  exec_all exec (l ++ l') s = bind (exec_all exec l s) (exec_all exec l').
Proof.
  intros S exec. induction l as [|[a t] l IH]; intros l' s; [reflexivity|]. cbn.
  destruct (exec a t s); cbn; auto.
Qed.

Lemma run_loop_steps : forall {S : Type} (exec : action -> R -> S -> outcome S) e dt n fuel t s,
  least_steps t e dt n -> (n <= fuel)%nat ->
  run_loop exec fuel t e dt s =
  Some (exec_all exec (flat_map (fun k => at_time (t + INR k * dt) iteration) (seq 0 n)) s).
Proof.
  intros S exec e dt. induction n as [|n IH]; intros fuel t s [A B] Hf.
  - destruct fuel; cbn [run_loop seq flat_map exec_all]; destruct (Rlt_dec t e) as [H|H]; try reflexivity; cbn in A; lra.
  - destruct fuel as [|fuel]; [lia|]. cbn [run_loop]. destruct (Rlt_dec t e) as [H|H].
    2:{ exfalso. assert (Datatypes.S n <= 0)%nat; [apply B; cbn; lra|lia]. }
    cbn [seq flat_map]. rewrite exec_all_app. change (at_time (t + INR 0 * dt) iteration) with (map (fun a => (a, t + INR 0 * dt)) iteration).
    replace (t + INR 0 * dt) with t by (cbn; lra).
    destruct (exec_all exec (map (fun a => (a, t)) iteration) s) as [s'|c|]; cbn [bind]; [|reflexivity|reflexivity].
    rewrite (IH fuel (t + dt) s').
    + f_equal. f_equal. rewrite <- seq_shift, flat_map_concat_map, flat_map_concat_map, map_map. f_equal. apply map_ext.
      intro k. f_equal. rewrite S_INR. ring.
    + split; [rewrite S_INR in A; lra|]. intros k Hk.
      assert (Datatypes.S n <= Datatypes.S k)%nat; [|lia]. apply B. rewrite S_INR. lra.
    + lia.
Qed.

Lemma run_loop_fuel : forall {S : Type} (exec : action -> R -> S -> outcome S) e dt n fuel t s,
  least_steps t e dt n -> (forall a t s, exists s', exec a t s = Ok s') -> (fuel < n)%nat ->
  run_loop exec fuel t e dt s = None.
Proof.
  intros S exec e dt. induction n as [|n IH]; intros fuel t s [A B] T Hf; [lia|].
  assert (H : t < e). { apply Rnot_le_lt. intro G. assert (Datatypes.S n <= 0)%nat; [apply B; cbn; lra|lia]. }
  destruct fuel as [|fuel]; cbn [run_loop]; destruct (Rlt_dec t e) as [H'|H']; try contradiction; [reflexivity|].
  assert (X : forall l s, exists s', exec_all exec l s = Ok s').
  { clear -T. induction l as [|[a t] l IH]; intro s; [exists s; reflexivity|]. cbn. destruct (T a t s) as [s' ->]. apply IH. }
  destruct (X (map (fun a => (a, t)) iteration) s) as [s' ->]. apply IH; [|exact T|lia].
  split; [rewrite S_INR in A; lra|]. intros k Hk.
  assert (Datatypes.S n <= Datatypes.S k)%nat; [|lia]. apply B. rewrite S_INR. lra.
Qed.

(** ** The clock in binary64 *)

Lemma Bltb_real : forall x y : b64, is_finite x = true -> is_finite y = true -> Bltb x y = Rlt_bool (B2R x) (B2R y).
Proof. intros x y Hx Hy. now apply Bltb_correct. Qed.

Lemma loop64_none : forall t e dt : b64, Bltb t e = true -> b64_add t dt = t -> forall fuel, loop64 fuel t e dt = None.
Proof.
  intros t e dt H S. induction fuel as [|fuel IH]; cbn [loop64]; rewrite H; [reflexivity|]. rewrite S, IH. reflexivity.
Qed.

Lemma clock_iter : forall dt k, b64_add (clock64 dt k) dt = clock64 dt (S k).
Proof. reflexivity. Qed.

(** the loop from the k-th clock value ends at the first n >= k at which the clock has reached e *)
Lemma loop64_first : forall dt e n k fuel, (k <= n)%nat -> (n - k <= fuel)%nat ->
  (forall j, (k <= j < n)%nat -> Bltb (clock64 dt j) e = true) -> Bltb (clock64 dt n) e = false ->
  loop64 fuel (clock64 dt k) e dt = Some (n - k)%nat.
Proof.
  intros dt e n k fuel. revert k. induction fuel as [|fuel IH]; intros k Hk Hf L E.
  - assert (k = n) by lia. subst k. cbn [loop64]. rewrite E. f_equal. lia.
  - cbn [loop64]. destruct (Nat.eq_dec k n) as [->|N].
    + rewrite E. f_equal. lia.
    + rewrite (L k) by lia. rewrite clock_iter, IH; [cbn; f_equal; lia|lia|lia| |exact E].
      intros j Hj. apply L. lia.
Qed.

Lemma first_below : forall (P : nat -> bool) n, P n = false -> exists m, (m <= n)%nat /\ P m = false /\ forall j, (j < m)%nat -> P j = true.
Proof.
  intro P. induction n as [|n IH]; intro H; [exists 0%nat; split; [lia|split; [exact H|intros; lia]]|].
  destruct (P n) eqn:E.
  - (* look below *)
    destruct (existsb (fun j => negb (P j)) (seq 0 n)) eqn:X.
    + apply existsb_exists in X. destruct X as (j & Hj & Pj). apply in_seq in Hj. apply Bool.negb_true_iff in Pj.
      clear IH. revert j Hj Pj. induction j as [j IHj] using (well_founded_induction lt_wf). intros Hj Pj.
      destruct (existsb (fun i => negb (P i)) (seq 0 j)) eqn:Y.
      * apply existsb_exists in Y. destruct Y as (i & Hi & Pi). apply in_seq in Hi. apply Bool.negb_true_iff in Pi.
        apply (IHj i); [lia|lia|exact Pi].
      * exists j. split; [lia|]. split; [exact Pj|]. intros i Hi.
        destruct (P i) eqn:Q; [reflexivity|]. exfalso. assert (existsb (fun i => negb (P i)) (seq 0 j) = true); [|congruence].
        apply existsb_exists. exists i. split; [apply in_seq; lia|]. now rewrite Q.
    + exists (S n). split; [lia|]. split; [exact H|]. intros j Hj. destruct (Nat.eq_dec j n) as [->|N]; [exact E|].
      destruct (P j) eqn:Q; [reflexivity|]. exfalso. assert (existsb (fun i => negb (P i)) (seq 0 n) = true); [|congruence].
      apply existsb_exists. exists j. split; [apply in_seq; lia|]. now rewrite Q.
  - destruct (IH eq_refl) as (m & A & B & C). exists m. split; [lia|]. split; assumption.
Qed.

Lemma clock_near : forall dt n, is_finite dt = true -> bpow radix2 (-1022) <= B2R dt <= 1 -> (n < 2 ^ 26)%nat ->
  is_finite (clock64 dt n) = true /\ (INR n - 1) * B2R dt < B2R (clock64 dt n) < (INR n + 1) * B2R dt.
Proof.
  intros dt n F H Hn. destruct (clock_bounds dt F H n ltac:(lia)) as (A & L & U). split; [exact A|].
  assert (D := d_pos dt H). assert (US := u_small).
  assert (NB : INR n + 1 <= 67108864).
  { rewrite <- S_INR. change 67108864 with (IZR (2 ^ 26)). rewrite INR_IZR_INZ. apply IZR_le.
    replace (2 ^ 26)%Z with (Z.of_nat (2 ^ 26)) by (rewrite Nat2Z.inj_pow; reflexivity). lia. }
  assert (N0 : 0 <= INR n) by apply pos_INR.
  assert (NU : INR n * u <= 1 / 134217728) by (rewrite u_val; lra).
  assert (NU0 : 0 <= INR n * u) by nra.
  assert (SQ : (INR n + 1) * (INR n * u) < 1).
  { apply Rle_lt_trans with (67108864 * (1 / 134217728)); [|lra]. apply Rmult_le_compat; nra. }
  assert (PD := pow_down n). assert (PU := pow_up n ltac:(split; lra)).
  set (d := B2R dt) in *. set (p := (1 - u) ^ n) in *. set (q := (1 + u) ^ n) in *.
  assert (A1 : INR n - 1 < INR n * p) by nra.
  assert (A2 : INR n * q < INR n + 1).
  { assert (Q0 : 0 < q) by (unfold q; apply pow_lt; lra).
    assert (1 - INR n * u > 0) by lra.
    apply Rmult_lt_reg_r with (1 - INR n * u); [lra|].
    apply Rle_lt_trans with (INR n * 1); [|nra].
    replace (INR n * q * (1 - INR n * u)) with (INR n * (q * (1 - INR n * u))) by ring.
    apply Rmult_le_compat_l; lra. }
  split; [apply Rlt_le_trans with (INR n * d * p); [nra|exact L]|].
  apply Rle_lt_trans with (INR n * d * q); [exact U|nra].
Qed.

(** The number of iterations in binary64 differs from the exact one by at most one. *)
Lemma loop64_near : forall dt e n fuel, is_finite dt = true -> bpow radix2 (-1022) <= B2R dt <= 1 -> is_finite e = true ->
  least_steps 0 (B2R e) (B2R dt) n -> (n + 1 < 2 ^ 26)%nat -> (n + 1 <= fuel)%nat ->
  exists m, loop64 fuel (B754_zero false) e dt = Some m /\ (n <= m + 1 /\ m <= n + 1)%nat.
Proof.
  intros dt e n fuel F H Fe [A B] Hn Hf.
  assert (D := d_pos dt H).
  assert (E : Bltb (clock64 dt (n + 1)) e = false).
  { destruct (clock_near dt (n + 1) F H Hn) as (G & L & U). rewrite Bltb_real by assumption. apply Rlt_bool_false.
    rewrite plus_INR in L. cbn in L. nra. }
  destruct (first_below (fun j => Bltb (clock64 dt j) e) (n + 1) E) as (m & M1 & M2 & M3). cbv beta in M2.
  exists m. split.
  - change (B754_zero false : b64) with (clock64 dt 0). rewrite (loop64_first dt e m 0 fuel); [f_equal; lia|lia|lia| |exact M2].
    intros j Hj. apply (M3 j). lia.
  - split; [|lia]. destruct (le_lt_dec n (m + 1)) as [G|G]; [exact G|]. exfalso.
    destruct (clock_near dt m F H ltac:(lia)) as (Gf & L & U). rewrite Bltb_real in M2 by assumption.
    assert (Q : ~ (B2R (clock64 dt m) < B2R e)).
    { intro W. rewrite Rlt_bool_true in M2 by exact W. discriminate. }
    apply Q. apply Rlt_le_trans with ((INR m + 1) * B2R dt); [exact U|].
    apply Rnot_lt_le. intro W. assert (X := B (m + 1)%nat). rewrite plus_INR in X. cbn in X. specialize (X ltac:(lra)). lia.
Qed.

(** ** Dump steps in exact arithmetic *)

Lemma truncZ_INR : forall n, truncZ (INR n) = Z.of_nat n.
Proof.
  intro n. unfold truncZ. destruct (Rle_dec 0 (INR n)) as [H|H].
  - rewrite INR_IZR_INZ. apply floorZ_IZR.
  - exfalso. apply H. apply pos_INR.
Qed.

Lemma dump_now_exact : forall dt s n, 0 < dt -> s <> 0%Z ->
  exists b, dump_now (INR n * dt) dt s = Ok b /\ (b = true <-> (s | Z.of_nat n)%Z).
Proof.
  intros dt s n Hdt Hs. unfold dump_now. apply Z.eqb_neq in Hs. rewrite Hs. apply Z.eqb_neq in Hs.
  eexists. split; [reflexivity|]. replace (INR n * dt / dt) with (INR n) by (field; lra). rewrite truncZ_INR.
  rewrite Z.eqb_eq. apply Z.rem_divide. exact Hs.
Qed.
