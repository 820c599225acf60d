(** Proofs about the deterministic number sequence: C19. *)
From Coq Require Import Reals ZArith Lra Lia Psatz List Zwf.
From Verif.Lib Require Import RAux.
From Verif.Model Require Import Rand.
From Verif.Spec Require Import Digits.
Local Open Scope R_scope.

Section Base.
Variable b : Z.
Hypothesis Hb : (2 <= b)%Z.

Lemma b_pos : 0 < IZR b.
Proof. apply IZR_lt. lia. Qed.

(** The value by recursion on the number. *)
Fixpoint rv (fuel : nat) (n : Z) : R :=
  match fuel with
  | O => 0
  | S f => if (1 <=? n)%Z then (IZR (n mod b) + rv f (n / b)) / IZR b else 0
  end.

Lemma div_lt_self : forall n, (1 <= n)%Z -> (0 <= n / b < n)%Z.
Proof.
  intros n Hn. split; [apply Z.div_pos; lia|]. apply Z.div_lt; lia.
Qed.

Lemma rv_fuel : forall f1 f2 n, (Z.to_nat n <= f1)%nat -> (Z.to_nat n <= f2)%nat -> rv f1 n = rv f2 n.
Proof.
  induction f1 as [|f1 IH]; intros f2 n H1 H2.
  - assert (n <= 0)%Z by lia. destruct f2; [reflexivity|]. cbn. destruct (Z.leb_spec 1 n); [lia|reflexivity].
  - destruct f2 as [|f2]; cbn.
    + destruct (Z.leb_spec 1 n); [lia|reflexivity].
    + destruct (Z.leb_spec 1 n) as [H|H]; [|reflexivity].
      assert (D := div_lt_self n H). rewrite (IH f2) by lia. reflexivity.
Qed.

Definition val (n : Z) : R := rv (Z.to_nat n) n.

Lemma val_nonpos : forall n, (n <= 0)%Z -> val n = 0.
Proof. intros n H. unfold val. replace (Z.to_nat n) with O by lia. reflexivity. Qed.

Lemma val_step : forall n, (0 <= n)%Z -> val n = (IZR (n mod b) + val (n / b)) / IZR b.
Proof.
  intros n Hn. destruct (Z.eq_dec n 0) as [->|N].
  - rewrite Zmod_0_l, Zdiv_0_l, val_nonpos by lia. field. assert (B := b_pos). lra.
  - unfold val at 1. destruct (Z.to_nat n) as [|f] eqn:E; [lia|]. cbn.
    destruct (Z.leb_spec 1 n); [|lia]. assert (D := div_lt_self n ltac:(lia)).
    unfold val. rewrite (rv_fuel f (Z.to_nat (n / b))) by lia. reflexivity.
Qed.

Lemma powerRZ_m1 : forall x, powerRZ x (-1) = / x.
Proof. intro x. unfold powerRZ. change (Pos.to_nat 1) with 1%nat. now rewrite pow_1. Qed.

Lemma powerRZ_step : forall o, powerRZ (IZR b) (- (o + 1)) = powerRZ (IZR b) (- o) / IZR b.
Proof.
  intro o. assert (B := b_pos). replace (- (o + 1))%Z with (- o + -1)%Z by lia.
  rewrite powerRZ_add by lra. rewrite powerRZ_m1. reflexivity.
Qed.

(** The loop computes the value; any sufficient fuel will do. *)
Lemma rr_loop_val : forall fuel n o r, (0 <= n)%Z -> (Z.to_nat n <= fuel)%nat ->
  rr_loop fuel n b o r = Some (r + val n * powerRZ (IZR b) (- o) * IZR b).
Proof.
  assert (B := b_pos).
  induction fuel as [|f IH]; intros n o r Hn Hf.
  - assert (n = 0)%Z by lia. subst n. rewrite val_nonpos by lia. cbn. f_equal. ring.
  - cbn [rr_loop]. cbv zeta. destruct (Z.leb_spec 1 n) as [H|H].
    + rewrite Z.rem_mod_nonneg by lia.
      assert (E : ((n - n mod b) ÷ b = n / b)%Z).
      { assert (M := Z.div_mod n b ltac:(lia)). replace (n - n mod b)%Z with (n / b * b)%Z by lia.
        apply Z.quot_mul. lia. }
      rewrite E. assert (D := div_lt_self n H). rewrite IH by lia. f_equal.
      rewrite (val_step n) by lia. rewrite powerRZ_step. field. lra.
    + replace n with 0%Z by lia. rewrite val_nonpos by lia. f_equal. ring.
Qed.

Lemma random_reverse_val : forall n, (0 <= n)%Z -> random_reverse n b = Some (val n).
Proof.
  intros n Hn. assert (B := b_pos). unfold random_reverse. rewrite rr_loop_val by lia. f_equal.
  change (- (1))%Z with (-1)%Z. rewrite powerRZ_m1. field. lra.
Qed.

Lemma Z_ind_div : forall P : Z -> Prop, P 0%Z -> (forall n, (1 <= n)%Z -> P (n / b)%Z -> P n) ->
  forall n, (0 <= n)%Z -> P n.
Proof.
  intros P H0 HS n. induction n as [n IH] using (well_founded_induction (Zwf_well_founded 0)).
  intro Hn. destruct (Z.eq_dec n 0) as [->|N]; [exact H0|].
  assert (D := div_lt_self n ltac:(lia)). apply HS; [lia|]. apply IH; [unfold Zwf; lia|lia].
Qed.

Lemma mod_range : forall n, 0 <= IZR (n mod b) <= IZR b - 1.
Proof.
  intro n. assert (M := Z.mod_pos_bound n b ltac:(lia)). split; [apply IZR_le; lia|].
  replace (IZR b - 1) with (IZR (b - 1)) by now rewrite minus_IZR. apply IZR_le. lia.
Qed.

Lemma val_range : forall n, (0 <= n)%Z -> 0 <= val n < 1.
Proof.
  assert (B := b_pos). apply Z_ind_div.
  - rewrite val_nonpos by lia. lra.
  - intros n Hn IH. rewrite val_step by lia. assert (M := mod_range n).
    split.
    + apply Rmult_le_pos; [lra|]. left. now apply Rinv_0_lt_compat.
    + apply Rmult_lt_reg_r with (IZR b); [exact B|]. unfold Rdiv. rewrite Rmult_assoc, Rinv_l, Rmult_1_r, Rmult_1_l by lra. lra.
Qed.

(** ** Integer mirror image of the lowest m digits *)
Fixpoint rev (m : nat) (n : Z) : Z :=
  match m with
  | O => 0
  | S m' => ((n mod b) * b ^ Z.of_nat m' + rev m' (n / b))%Z
  end.

Lemma pow_step : forall m, (b ^ Z.of_nat (S m) = b * b ^ Z.of_nat m)%Z.
Proof. intro m. rewrite Nat2Z.inj_succ, Z.pow_succ_r by lia. reflexivity. Qed.

Lemma pow_pos' : forall m, (0 < b ^ Z.of_nat m)%Z.
Proof. intro m. apply Z.pow_pos_nonneg; lia. Qed.

Lemma rev_range : forall m n, (0 <= rev m n < b ^ Z.of_nat m)%Z.
Proof.
  induction m as [|m IH]; intro n; [cbn; lia|]. cbn [rev]. rewrite pow_step.
  assert (M := Z.mod_pos_bound n b ltac:(lia)). specialize (IH (n / b)%Z). assert (P := pow_pos' m). nia.
Qed.

Lemma quotrem_unique : forall p d1 d2 x1 x2, (0 <= x1 < p)%Z -> (0 <= x2 < p)%Z ->
  (d1 * p + x1 = d2 * p + x2)%Z -> d1 = d2 /\ x1 = x2.
Proof. intros p d1 d2 x1 x2 H1 H2 E. assert (d1 = d2) by nia. split; [assumption|]. subst. lia. Qed.

Lemma rev_injective : forall m n1 n2, (0 <= n1 < b ^ Z.of_nat m)%Z -> (0 <= n2 < b ^ Z.of_nat m)%Z ->
  rev m n1 = rev m n2 -> n1 = n2.
Proof.
  induction m as [|m IH]; intros n1 n2 H1 H2 E; [cbn in H1, H2; lia|].
  rewrite pow_step in H1, H2. cbn [rev] in E.
  destruct (quotrem_unique _ _ _ _ _ (rev_range m (n1 / b)) (rev_range m (n2 / b)) E) as (E1 & E2).
  assert (D : (n1 / b = n2 / b)%Z).
  { apply IH; [| |exact E2]; (split; [apply Z.div_pos; lia|apply Z.div_lt_upper_bound; lia]). }
  rewrite (Z.div_mod n1 b), (Z.div_mod n2 b) by lia. now rewrite D, E1.
Qed.

Lemma rev_surjective : forall m j, (0 <= j < b ^ Z.of_nat m)%Z ->
  exists n, (0 <= n < b ^ Z.of_nat m)%Z /\ rev m n = j.
Proof.
  induction m as [|m IH]; intros j Hj; [exists 0%Z; cbn in *; lia|].
  rewrite pow_step in Hj. assert (P := pow_pos' m).
  assert (M := Z.mod_pos_bound j (b ^ Z.of_nat m) P).
  destruct (IH (j mod b ^ Z.of_nat m)%Z M) as (n' & Hn' & En').
  set (d := (j / b ^ Z.of_nat m)%Z).
  assert (Hd : (0 <= d < b)%Z).
  { unfold d. split; [apply Z.div_pos; lia|]. apply Z.div_lt_upper_bound; lia. }
  exists (n' * b + d)%Z. rewrite pow_step. split; [nia|]. cbn [rev].
  assert (E1 : ((n' * b + d) mod b = d)%Z) by (rewrite Z.add_comm, Z_mod_plus_full; apply Z.mod_small; lia).
  assert (E2 : ((n' * b + d) / b = n')%Z) by (rewrite Z.add_comm, Z_div_plus_full by lia; rewrite Z.div_small; lia).
  rewrite E1, E2, En'. assert (M2 := Z.div_mod j (b ^ Z.of_nat m) ltac:(lia)). unfold d. lia.
Qed.

(** The value splits into the low digits and the rest. *)
Lemma val_split : forall m n, (0 <= n)%Z ->
  val n = (IZR (rev m n) + val (n / b ^ Z.of_nat m)) / IZR b ^ m.
Proof.
  assert (B := b_pos). induction m as [|m IH]; intros n Hn.
  - cbn [rev Z.of_nat pow]. rewrite Z.pow_0_r, Z.div_1_r. field.
  - rewrite val_step by lia. rewrite (IH (n / b)%Z) by (apply Z.div_pos; lia).
    cbn [rev]. rewrite pow_step, <- Z.div_div by (try lia; apply pow_pos').
    rewrite plus_IZR, mult_IZR.
    replace (IZR (b ^ Z.of_nat m)) with (IZR b ^ m) by apply pow_IZR.
    cbn [pow]. field. split; [apply pow_nonzero; lra|lra].
Qed.

Lemma val_injective : forall n1 n2, (0 <= n1)%Z -> (0 <= n2)%Z -> val n1 = val n2 -> n1 = n2.
Proof.
  intros n1 n2 H1 H2 E. assert (B := b_pos).
  assert (G : exists m, (n1 < b ^ Z.of_nat m)%Z /\ (n2 < b ^ Z.of_nat m)%Z).
  { exists (Z.to_nat (n1 + n2 + 1)). rewrite Z2Nat.id by lia.
    assert (X : (n1 + n2 + 1 < b ^ (n1 + n2 + 1))%Z) by (apply Z.pow_gt_lin_r; lia). lia. }
  destruct G as (m & G1 & G2).
  rewrite (val_split m n1), (val_split m n2) in E by assumption.
  rewrite (Z.div_small n1), (Z.div_small n2) in E by lia. rewrite val_nonpos in E by lia.
  assert (P : 0 < IZR b ^ m) by (apply pow_lt; lra).
  apply (rev_injective m); [lia|lia|]. apply eq_IZR.
  apply Rmult_eq_reg_r with (/ IZR b ^ m); [|apply Rinv_neq_0_compat; lra]. unfold Rdiv in E. lra.
Qed.

Lemma rev_low : forall m a t, (0 <= t < b ^ Z.of_nat m)%Z -> rev m (a * b ^ Z.of_nat m + t) = rev m t.
Proof.
  induction m as [|k IH]; intros a t Ht; [reflexivity|].
  cbn [rev]. rewrite pow_step in *.
  assert (T : (a * (b * b ^ Z.of_nat k) + t = t + (a * b ^ Z.of_nat k) * b)%Z) by ring.
  rewrite T, Z_mod_plus_full, Z_div_plus_full by lia. f_equal.
  rewrite Z.add_comm. apply IH. split; [apply Z.div_pos; lia|apply Z.div_lt_upper_bound; lia].
Qed.

(** Equidistribution: in a block of b^m indices starting at a multiple of b^m there is exactly
    one in every interval [j / b^m, (j + 1) / b^m). *)
Lemma val_equidistributed : forall m a j, (0 <= a)%Z -> (0 <= j < b ^ Z.of_nat m)%Z ->
  exists! n, (a * b ^ Z.of_nat m <= n < (a + 1) * b ^ Z.of_nat m)%Z /\
             IZR j / IZR b ^ m <= val n < (IZR j + 1) / IZR b ^ m.
Proof.
  intros m a j Ha Hj. assert (B := b_pos). assert (P := pow_pos' m). assert (P' : 0 < IZR b ^ m) by (apply pow_lt; lra).
  assert (V : forall t, (0 <= t < b ^ Z.of_nat m)%Z ->
    val (a * b ^ Z.of_nat m + t) = (IZR (rev m t) + val a) / IZR b ^ m).
  { intros t Ht. rewrite (val_split m) by nia. rewrite rev_low by lia. do 3 f_equal.
    rewrite Z.add_comm, Z_div_plus_full by lia. rewrite Z.div_small by lia. lia. }
  assert (A := val_range a Ha).
  destruct (rev_surjective m j Hj) as (t & Ht & Et).
  assert (DIV : forall x y, x / IZR b ^ m <= y / IZR b ^ m <-> x <= y).
  { intros x y. unfold Rdiv. split; intro H.
    - apply Rmult_le_reg_r with (/ IZR b ^ m); [now apply Rinv_0_lt_compat|exact H].
    - apply Rmult_le_compat_r; [left; now apply Rinv_0_lt_compat|exact H]. }
  assert (DIV' : forall x y, x / IZR b ^ m < y / IZR b ^ m <-> x < y).
  { intros x y. unfold Rdiv. split; intro H.
    - apply Rmult_lt_reg_r with (/ IZR b ^ m); [now apply Rinv_0_lt_compat|exact H].
    - apply Rmult_lt_compat_r; [now apply Rinv_0_lt_compat|exact H]. }
  exists (a * b ^ Z.of_nat m + t)%Z. split.
  - split; [nia|]. rewrite V, Et by lia. split; [apply DIV|apply DIV']; lra.
  - intros n [Hn [L U]]. assert (T : (n = a * b ^ Z.of_nat m + (n - a * b ^ Z.of_nat m))%Z) by ring.
    set (t' := (n - a * b ^ Z.of_nat m)%Z) in *. assert (Ht' : (0 <= t' < b ^ Z.of_nat m)%Z) by lia.
    rewrite T in L, U. rewrite V in L, U by lia. apply (proj1 (DIV _ _)) in L. apply (proj1 (DIV' _ _)) in U.
    assert (RE : rev m t' = j).
    { assert (j - 1 < rev m t')%Z by (apply lt_IZR; rewrite minus_IZR; lra).
      assert (rev m t' < j + 1)%Z by (apply lt_IZR; rewrite plus_IZR; lra). lia. }
    rewrite T. f_equal. apply (rev_injective m); [lia|lia|]. now rewrite RE.
Qed.

(** Agreement with the digit specification. *)
Lemma val_mirrored : forall m n, (0 <= n < b ^ Z.of_nat m)%Z -> val n = mirrored b n m.
Proof.
  assert (B := b_pos).
  assert (G : forall m n, (0 <= n)%Z -> mirrored b n m = IZR (rev m n) / IZR b ^ m).
  { intros m n Hn. revert n Hn. induction m as [|m IH]; intros n Hn; [cbn; field|].
    (* peel the first digit: mirrored n (S m) = (d0 + mirrored (n/b) m) / b *)
    assert (E : forall k, mirrored b n (S k) = (IZR (digit b n 0) + mirrored b (n / b) k) / IZR b).
    { induction k as [|k IHk].
      - cbn. field. lra.
      - change (mirrored b n (S (S k))) with (mirrored b n (S k) + IZR (digit b n (S k)) / IZR b ^ S (S k)).
        rewrite IHk. change (mirrored b (n / b) (S k)) with (mirrored b (n / b) k + IZR (digit b (n / b) k) / IZR b ^ S k).
        assert (DG : digit b n (S k) = digit b (n / b) k).
        { unfold digit. rewrite pow_step, Z.div_div; [reflexivity|lia|apply pow_pos']. }
        rewrite DG. cbn [pow]. field. split; [apply pow_nonzero; lra|lra]. }
    rewrite E, IH by (apply Z.div_pos; lia). cbn [rev]. rewrite plus_IZR, mult_IZR.
    replace (IZR (b ^ Z.of_nat m)) with (IZR b ^ m) by apply pow_IZR.
    unfold digit. cbn [Z.of_nat]. rewrite Z.pow_0_r, Z.div_1_r. cbn [pow]. field. split; [apply pow_nonzero; lra|lra]. }
  intros m n Hn. rewrite G by lia. rewrite (val_split m n) by lia. rewrite Z.div_small by lia.
  rewrite val_nonpos by lia. f_equal. ring.
Qed.

End Base.

(** Base 1 never ends. *)
Lemma rr_base_one : forall fuel n o r, (1 <= n)%Z -> rr_loop fuel n 1 o r = None.
Proof.
  induction fuel as [|f IH]; intros n o r Hn; cbn; destruct (Z.leb_spec 1 n); try lia; [reflexivity|].
  rewrite Z.rem_1_r, Z.sub_0_r, Z.quot_1_r. now apply IH.
Qed.
