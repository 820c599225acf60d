(** Proofs about the tridiagonal solver. *)
From Coq Require Import Reals ZArith Lia Lra Psatz Bool.
From Verif.Lib Require Import RAux Outcome Vec.
From Verif.Model Require Import Tridiag.
From Verif.Spec Require Import Linear.
Local Open Scope R_scope.

(** Pivot of row [i] as a function of the pivot of the row above. *)
Fixpoint pivot (a b c : vec) (i : nat) : R :=
  match i with
  | O => b 0%Z
  | S j => b (Z.of_nat i) - c (Z.of_nat j) / pivot a b c j * a (Z.of_nat i)
  end.

Definition piv (a b c : vec) (i : Z) : R := pivot a b c (Z.to_nat i).

Lemma piv_0 : forall a b c, piv a b c 0 = b 0%Z.
Proof. reflexivity. Qed.

Lemma piv_S : forall a b c i, (0 < i)%Z ->
  piv a b c i = b i - c (i - 1)%Z / piv a b c (i - 1) * a i.
Proof.
  intros a b c i H. unfold piv.
  replace (Z.to_nat i) with (S (Z.to_nat (i - 1))) by lia. cbn [pivot].
  replace (Z.of_nat (S (Z.to_nat (i - 1)))) with i by lia.
  now replace (Z.of_nat (Z.to_nat (i - 1))) with (i - 1)%Z by lia.
Qed.

(** State after the forward sweep has done the rows below [k]. *)
Definition fwd_inv (a b c d : vec) (k : Z) (cd : vec * vec) : Prop :=
  (forall i, (0 <= i < k)%Z -> fst cd i = c i / piv a b c i) /\
  (forall i, (k <= i)%Z -> fst cd i = c i /\ snd cd i = d i) /\
  piv a b c 0 * snd cd 0%Z = d 0%Z /\
  (forall i, (0 < i < k)%Z -> piv a b c i * snd cd i = d i - snd cd (i - 1)%Z * a i).

Definition fwd_state (a b c d : vec) (k : Z) (s : outcome (vec * vec)) : Prop :=
  exists cd, s = Ok cd /\ fwd_inv a b c d k cd.

Lemma fwd_first : forall a b c d, piv a b c 0 <> 0 -> fwd_state a b c d 1 (tri_first b c d).
Proof.
  intros a b c d H. unfold tri_first. rewrite piv_0 in *.
  rewrite !fdiv_ok by exact H. rewrite !bind_ok. eexists. split; [reflexivity|].
  unfold fwd_inv; cbn [fst snd]. rewrite piv_0.
  repeat match goal with |- _ /\ _ => split end.
  - intros i Hi. replace i with 0%Z by lia. now rewrite updv_same, piv_0.
  - intros i Hi. rewrite !updv_other by lia. now split.
  - rewrite updv_same. now field.
  - intros i Hi. lia.
Qed.

Lemma fwd_step : forall a b c d k s, (1 <= k)%Z -> piv a b c k <> 0 ->
  fwd_state a b c d k s -> fwd_state a b c d (k + 1) (tri_forward a b k s).
Proof.
  intros a b c d k s Hk Hp ([c' d'] & -> & H1 & H2 & H3 & H4). cbn [fst snd] in *.
  unfold tri_forward. rewrite bind_ok.
  assert (E : b k - c' (k - 1)%Z * a k = piv a b c k).
  { rewrite H1 by lia. symmetry. apply piv_S. lia. }
  rewrite E. destruct (H2 k ltac:(lia)) as [Ek1 Ek2]. rewrite Ek1, Ek2.
  rewrite !fdiv_ok by exact Hp. rewrite !bind_ok. eexists. split; [reflexivity|].
  unfold fwd_inv; cbn [fst snd].
  repeat match goal with |- _ /\ _ => split end.
  - intros i Hi. destruct (Z.eq_dec i k) as [->|N].
    + now rewrite updv_same.
    + rewrite updv_other by exact N. apply H1. lia.
  - intros i Hi. rewrite !updv_other by lia. apply H2. lia.
  - rewrite updv_other by lia. exact H3.
  - intros i Hi. destruct (Z.eq_dec i k) as [->|N].
    + rewrite updv_same, updv_other by lia. now field.
    + rewrite !updv_other by lia. apply H4. lia.
Qed.

Lemma fwd_all : forall a b c d n, (1 <= n)%Z -> (forall i, (0 <= i < n)%Z -> piv a b c i <> 0) ->
  fwd_state a b c d n (for_up 1 n (tri_forward a b) (tri_first b c d)).
Proof.
  intros a b c d n Hn Hp. apply (for_up_inv (fwd_state a b c d)); [lia| |].
  - apply fwd_first, Hp. lia.
  - intros i t Hi Ht. apply fwd_step; [lia| |exact Ht]. apply Hp. lia.
Qed.

(** The back substitution. *)
Lemma back_all : forall c d x n, (1 <= n)%Z ->
  let y := for_down (n - 2) 0 (tri_back c d) (updv x (n - 1)%Z (d (n - 1)%Z)) in
  y (n - 1)%Z = d (n - 1)%Z /\
  (forall i, (0 <= i < n - 1)%Z -> y i = d i - c i * y (i + 1)%Z) /\
  (forall i, (i < 0 \/ n <= i)%Z -> y i = x i).
Proof.
  intros c d x n Hn y. subst y.
  set (P := fun (k : Z) (y : vec) =>
    y (n - 1)%Z = d (n - 1)%Z /\
    (forall i, (k < i < n - 1)%Z -> y i = d i - c i * y (i + 1)%Z) /\
    (forall i, (i < 0 \/ n <= i)%Z -> y i = x i)).
  assert (G := for_down_inv P (n - 2) 0 (tri_back c d) (updv x (n - 1)%Z (d (n - 1)%Z))).
  assert (H0 : P (n - 2)%Z (updv x (n - 1)%Z (d (n - 1)%Z))).
  { unfold P. rewrite updv_same. repeat match goal with |- _ /\ _ => split end; auto.
    - intros i Hi. lia.
    - intros i Hi. apply updv_other. lia. }
  specialize (G ltac:(lia) H0).
  assert (Hs : forall i t, (0 <= i <= n - 2)%Z -> P i t -> P (i - 1)%Z (tri_back c d i t)).
  { intros i t Hi (T1 & T2 & T3). unfold P, tri_back.
    repeat match goal with |- _ /\ _ => split end.
    - rewrite updv_other by lia. exact T1.
    - intros j Hj. destruct (Z.eq_dec j i) as [->|N].
      + rewrite updv_same, updv_other by lia. reflexivity.
      + rewrite !updv_other by lia. apply T2. lia.
    - intros j Hj. rewrite updv_other by lia. now apply T3. }
  specialize (G Hs). destruct G as (G1 & G2 & G3).
  split; [exact G1|]. split; [|exact G3]. intros i Hi. apply G2. lia.
Qed.

Theorem tri_solves_pivots : forall a b c d x n, (1 <= n)%Z ->
  (forall i, (0 <= i < n)%Z -> piv a b c i <> 0) ->
  exists c' d' y, tridiagonal_solve a b c d x n = Ok (c', d', y) /\ tri_solves a b c d y n /\
    (forall i, (i < 0 \/ n <= i)%Z -> y i = x i).
Proof.
  intros a b c d x n Hn Hp. unfold tridiagonal_solve.
  destruct (fwd_all a b c d n Hn Hp) as ([c1 d1] & F0 & F1 & F2 & F3 & F4). cbn [fst snd] in *.
  rewrite F0, bind_ok. eexists _, _, _. split; [reflexivity|].
  destruct (back_all c1 d1 x n Hn) as (B1 & B2 & B3). split; [|exact B3].
  set (y := for_down (n - 2) 0 (tri_back c1 d1) (updv x (n - 1)%Z (d1 (n - 1)%Z))) in *.
  (* the eliminated row i: pivot * y i + c i * y (i+1) = pivot * d1 i *)
  assert (E : forall i, (0 <= i < n)%Z ->
    piv a b c i * y i + (if (i <? n - 1)%Z then c i * y (i + 1)%Z else 0) = piv a b c i * d1 i).
  { intros i Hi. assert (P := Hp i Hi). destruct (Z.ltb_spec i (n - 1)) as [L|L].
    - rewrite (B2 i) by lia. rewrite F1 by lia. field. exact P.
    - replace i with (n - 1)%Z by lia. rewrite B1. lra. }
  intros i Hi. unfold tri_row. destruct (Z.ltb_spec 0 i) as [L|L].
  - assert (E1 := E i Hi). assert (E0 := E (i - 1)%Z ltac:(lia)).
    destruct (Z.ltb_spec (i - 1) (n - 1)) as [L1|L1]; [|lia].
    replace (i - 1 + 1)%Z with i in E0 by lia.
    rewrite (F4 i) in E1 by lia. rewrite (piv_S a b c i) in E1 by lia.
    assert (P := Hp (i - 1)%Z ltac:(lia)). set (p := piv a b c (i - 1)) in *.
    assert (E0' : c (i - 1)%Z / p * y i = d1 (i - 1)%Z - y (i - 1)%Z).
    { apply (Rmult_eq_reg_l p); [|exact P].
      replace (p * (c (i - 1)%Z / p * y i)) with (c (i - 1)%Z * y i) by (field; exact P). lra. }
    assert (E2 : a i * (c (i - 1)%Z / p * y i) = a i * d1 (i - 1)%Z - a i * y (i - 1)%Z).
    { rewrite E0'. ring. }
    lra.
  - replace i with 0%Z in * by lia. assert (E0 := E 0%Z ltac:(lia)).
    rewrite F3, piv_0 in E0. lra.
Qed.

(** ** Pivots and leading minors *)

Lemma minors_snd : forall a b c m, snd (minors a b c (S m)) = minor a b c m.
Proof. intros a b c m. unfold minor. cbn. now destruct (minors a b c m). Qed.

Lemma minor_0 : forall a b c, minor a b c 0 = 1.
Proof. reflexivity. Qed.

Lemma minor_1 : forall a b c, minor a b c 1 = b 0%Z.
Proof. intros. unfold minor. cbn. ring. Qed.

Lemma minor_SS : forall a b c m, minor a b c (S (S m)) =
  b (Z.of_nat (S m)) * minor a b c (S m) - a (Z.of_nat (S m)) * c (Z.of_nat m) * minor a b c m.
Proof.
  intros a b c m. rewrite <- (minors_snd a b c m).
  change (minor a b c (S (S m))) with (fst (minors a b c (S (S m)))).
  unfold minor. change (minors a b c (S (S m))) with
    (let '(p, q) := minors a b c (S m) in
     (b (Z.of_nat (S m)) * p - a (Z.of_nat (S m)) * c (Z.of_nat (S m) - 1)%Z * q, p)).
  destruct (minors a b c (S m)) as [p q]. cbn [fst snd].
  now replace (Z.of_nat (S m) - 1)%Z with (Z.of_nat m) by lia.
Qed.

Lemma pivot_minor : forall a b c m, (forall k, (k <= S m)%nat -> minor a b c k <> 0) ->
  pivot a b c m * minor a b c m = minor a b c (S m) /\ pivot a b c m <> 0.
Proof.
  intros a b c m. induction m as [|m IH]; intro H.
  - cbn [pivot]. rewrite minor_0, minor_1. split; [ring|]. rewrite <- (minor_1 a b c). apply H. lia.
  - destruct IH as [IH1 IH2]; [intros k Hk; apply H; lia|].
    assert (N1 := H (S m) ltac:(lia)). assert (N0 := H m ltac:(lia)).
    assert (E : pivot a b c (S m) * minor a b c (S m) = minor a b c (S (S m))).
    { rewrite minor_SS. cbn [pivot]. rewrite <- IH1. field. exact IH2. }
    split; [exact E|]. intro Z0. rewrite Z0 in E. apply (H (S (S m)) ltac:(lia)). lra.
Qed.

Lemma piv_minors : forall a b c n, (forall m, (1 <= m <= Z.to_nat n)%nat -> minor a b c m <> 0) ->
  forall i, (0 <= i < n)%Z -> piv a b c i <> 0.
Proof.
  intros a b c n H i Hi. unfold piv. apply pivot_minor. intros k Hk.
  destruct k as [|k]; [rewrite minor_0; lra|]. apply H. lia.
Qed.

Lemma classic_minor : forall a b c m,
  (exists k, (1 <= k < m)%nat /\ minor a b c k = 0) \/ (forall k, (1 <= k < m)%nat -> minor a b c k <> 0).
Proof.
  intros a b c m. induction m as [|m [IH|IH]].
  - right. intros; lia.
  - left. destruct IH as (k & H1 & H2). exists k. split; [lia|exact H2].
  - destruct (Req_EM_T (minor a b c m) 0) as [E|E].
    + destruct m as [|m]; [rewrite minor_0 in E; lra|]. left. exists (S m). split; [lia|exact E].
    + right. intros k Hk. destruct (Nat.eq_dec k m) as [->|N]; [exact E|apply IH; lia].
Qed.

(** Conversely the first vanishing pivot is divided by. *)
Lemma tri_zero_pivot : forall a b c d x n i, (0 <= i < n)%Z ->
  (forall j, (0 <= j < i)%Z -> piv a b c j <> 0) -> piv a b c i = 0 ->
  tridiagonal_solve a b c d x n = UB.
Proof.
  intros a b c d x n i Hi Hj Hz. unfold tridiagonal_solve.
  assert (E : for_up 1 n (tri_forward a b) (tri_first b c d) = UB); [|now rewrite E].
  destruct (Z.eq_dec i 0) as [->|N].
  - unfold tri_first. rewrite piv_0 in Hz. rewrite Hz, fdiv_zero. now apply for_up_ub.
  - rewrite (for_up_split 1 i n) by lia. rewrite (for_up_first i n) by lia.
    destruct (fwd_all a b c d i ltac:(lia) Hj) as ([c1 d1] & F0 & F1 & F2 & F3 & F4). cbn [fst snd] in *.
    rewrite F0. unfold tri_forward at 2. rewrite bind_ok. rewrite (F1 (i - 1)%Z) by lia.
    rewrite <- piv_S by lia. rewrite Hz, fdiv_zero. now apply for_up_ub.
Qed.

Lemma tri_zero_minor : forall a b c d x n m, (1 <= m <= Z.to_nat n)%nat -> minor a b c m = 0 ->
  tridiagonal_solve a b c d x n = UB.
Proof.
  intros a b c d x n m. induction m as [m IH] using lt_wf_ind. intros Hm Hz.
  destruct (classic_minor a b c m) as [(k & Hk & Zk)|Hall].
  - apply (IH k); [lia|lia|exact Zk].
  - destruct m as [|m]; [lia|].
    apply (tri_zero_pivot a b c d x n (Z.of_nat m)); [lia| |].
    + intros j Hj. unfold piv. apply pivot_minor. intros k Hk. destruct k as [|k]; [rewrite minor_0; lra|].
      apply Hall. lia.
    + unfold piv. rewrite Nat2Z.id. destruct m as [|m].
      * cbn [pivot]. now rewrite minor_1 in Hz.
      * destruct (pivot_minor a b c m) as [P1 P2].
        { intros k Hk. destruct k as [|k]; [rewrite minor_0; lra|]. apply Hall. lia. }
        assert (N1 : minor a b c (S m) <> 0) by (apply Hall; lia).
        apply (Rmult_eq_reg_r (minor a b c (S m))); [|exact N1]. rewrite Rmult_0_l.
        rewrite minor_SS in Hz. cbn [pivot]. rewrite <- P1 in *. rewrite <- Hz. field. exact P2.
Qed.

(** Diagonal dominance keeps the pivots away from zero: |c i| < |pivot i| except in the last row. *)
Lemma dominant_pivot : forall a b c n, dominant a b c n ->
  forall i, (0 <= i < n)%Z -> piv a b c i <> 0 /\ ((i < n - 1)%Z -> Rabs (c i) < Rabs (piv a b c i)).
Proof.
  intros a b c n D i Hi. destruct Hi as [Hi0 Hin]. revert Hin.
  apply (natlike_ind (fun i => (i < n)%Z ->
    piv a b c i <> 0 /\ ((i < n - 1)%Z -> Rabs (c i) < Rabs (piv a b c i)))); [| |exact Hi0].
  - intro Hn. assert (D0 := D 0%Z ltac:(lia)). rewrite piv_0. cbn [Z.ltb Z.compare] in D0.
    destruct (Z.ltb_spec 0 (n - 1)) as [L|L].
    + assert (0 <= Rabs (c 0%Z)) by apply Rabs_pos. split; [|intros _; lra].
      intro Z0. rewrite Z0, Rabs_R0 in D0. lra.
    + split; [|lia]. intro Z0. rewrite Z0, Rabs_R0 in D0. lra.
  - intros k Hk IH Hn. destruct (IH ltac:(lia)) as [I1 I2]. specialize (I2 ltac:(lia)).
    rewrite (piv_S a b c (Z.succ k)) by lia. replace (Z.succ k - 1)%Z with k by lia.
    assert (Dk := D (Z.succ k) ltac:(lia)).
    destruct (Z.ltb_spec 0 (Z.succ k)) as [L0|L0]; [|lia].
    assert (Q : Rabs (c k / piv a b c k * a (Z.succ k)) <= Rabs (a (Z.succ k))).
    { rewrite Rabs_mult. unfold Rdiv. rewrite Rabs_mult, Rabs_inv.
      assert (0 < Rabs (piv a b c k)) by now apply Rabs_pos_lt.
      assert (Rabs (c k) * / Rabs (piv a b c k) <= 1).
      { apply (Rmult_le_reg_r (Rabs (piv a b c k))); [assumption|].
        rewrite Rmult_assoc, Rinv_l by lra. lra. }
      assert (0 <= Rabs (a (Z.succ k))) by apply Rabs_pos. nra. }
    assert (T := Rabs_triang_inv (b (Z.succ k)) (c k / piv a b c k * a (Z.succ k))).
    set (p := b (Z.succ k) - c k / piv a b c k * a (Z.succ k)) in *.
    destruct (Z.ltb_spec (Z.succ k) (n - 1)) as [L|L].
    + assert (0 <= Rabs (c (Z.succ k))) by apply Rabs_pos.
      split; [|intros _; lra]. intro Z0. rewrite Z0, Rabs_R0 in T. lra.
    + split; [|lia]. intro Z0. rewrite Z0, Rabs_R0 in T. lra.
Qed.

(** ** Uniqueness *)

Lemma tri_unique_pivots : forall a b c d x y n,
  (forall i, (0 <= i < n)%Z -> piv a b c i <> 0) ->
  tri_solves a b c d x n -> tri_solves a b c d y n -> forall i, (0 <= i < n)%Z -> x i = y i.
Proof.
  intros a b c d x y n Hp Hx Hy.
  set (z := fun i => x i - y i).
  assert (Hz : forall i, (0 <= i < n)%Z -> tri_row a b c z n i = 0).
  { intros i Hi. assert (A := Hx i Hi). assert (B := Hy i Hi). unfold tri_row, z in *.
    destruct (0 <? i)%Z, (i <? n - 1)%Z; lra. }
  assert (E : forall i, (0 <= i)%Z -> (i < n)%Z ->
    piv a b c i * z i + (if (i <? n - 1)%Z then c i * z (i + 1)%Z else 0) = 0).
  { intros i Hi. pattern i. apply natlike_ind; [| |exact Hi].
    - intro Hn. assert (A := Hz 0%Z ltac:(lia)). unfold tri_row in A. cbn [Z.ltb Z.compare] in A.
      rewrite piv_0. lra.
    - intros k Hk IH Hn. assert (A := Hz (Z.succ k) ltac:(lia)). unfold tri_row in A.
      specialize (IH ltac:(lia)).
      destruct (Z.ltb_spec 0 (Z.succ k)) as [L|L]; [|lia].
      destruct (Z.ltb_spec k (n - 1)) as [L1|L1]; [|lia].
      rewrite (piv_S a b c (Z.succ k)) by lia.
      replace (Z.succ k - 1)%Z with k in * by lia. replace (k + 1)%Z with (Z.succ k) in * by lia.
      assert (P := Hp k ltac:(lia)).
      assert (G : c k / piv a b c k * z (Z.succ k) = - z k).
      { apply (Rmult_eq_reg_l (piv a b c k)); [|exact P].
        replace (piv a b c k * (c k / piv a b c k * z (Z.succ k))) with (c k * z (Z.succ k))
          by (field; exact P). lra. }
      assert (G2 : a (Z.succ k) * (c k / piv a b c k * z (Z.succ k)) = - (a (Z.succ k) * z k))
        by (rewrite G; ring).
      lra. }
  (* from the last row upwards *)
  assert (Hzero : forall m i, (0 <= i < n)%Z -> (n - 1 - i)%Z = Z.of_nat m -> z i = 0).
  { induction m as [|m IH]; intros i Hi Hm.
    - assert (A := E i ltac:(lia) ltac:(lia)). destruct (Z.ltb_spec i (n - 1)) as [L|L]; [lia|].
      assert (P := Hp i Hi). apply (Rmult_eq_reg_l (piv a b c i)); [lra|exact P].
    - assert (A := E i ltac:(lia) ltac:(lia)). destruct (Z.ltb_spec i (n - 1)) as [L|L]; [|lia].
      rewrite (IH (i + 1)%Z) in A by lia.
      assert (P := Hp i Hi). apply (Rmult_eq_reg_l (piv a b c i)); [lra|exact P]. }
  intros i Hi. assert (A := Hzero (Z.to_nat (n - 1 - i)) i Hi ltac:(lia)). unfold z in A. lra.
Qed.
