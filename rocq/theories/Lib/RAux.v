(** Helper lemmas on the standard real numbers: floor, ceiling, finite sums over
    integer ranges. Nothing here models code. *)
From Coq Require Import Reals ZArith Lia Lra List Bool.
Import ListNotations.
Local Open Scope R_scope.

(** ** Floor and ceiling as integers *)

Definition floorZ (x : R) : Z := (up x - 1)%Z.
Definition ceilZ (x : R) : Z := (- floorZ (- x))%Z.

Lemma floorZ_spec : forall x, IZR (floorZ x) <= x < IZR (floorZ x) + 1.
Proof.
  intro x. unfold floorZ. rewrite minus_IZR.
  destruct (archimed x) as [H1 H2]. lra.
Qed.

Lemma ceilZ_spec : forall x, IZR (ceilZ x) - 1 < x <= IZR (ceilZ x).
Proof.
  intro x. unfold ceilZ. rewrite opp_IZR.
  destruct (floorZ_spec (- x)) as [H1 H2]. lra.
Qed.

Lemma floorZ_unique : forall x n, IZR n <= x < IZR n + 1 -> floorZ x = n.
Proof.
  intros x n [H1 H2]. destruct (floorZ_spec x) as [H3 H4].
  assert (A : IZR n < IZR (floorZ x) + 1) by lra.
  assert (B : IZR (floorZ x) < IZR n + 1) by lra.
  rewrite <- plus_IZR in A, B. apply lt_IZR in A. apply lt_IZR in B. lia.
Qed.

Lemma ceilZ_unique : forall x n, IZR n - 1 < x <= IZR n -> ceilZ x = n.
Proof.
  intros x n [H1 H2]. destruct (ceilZ_spec x) as [H3 H4].
  assert (A : IZR n < IZR (ceilZ x) + 1) by lra.
  assert (B : IZR (ceilZ x) < IZR n + 1) by lra.
  rewrite <- plus_IZR in A, B. apply lt_IZR in A. apply lt_IZR in B. lia.
Qed.

Lemma ceilZ_le : forall x n, x <= IZR n -> (ceilZ x <= n)%Z.
Proof.
  intros x n H. destruct (ceilZ_spec x) as [H1 _].
  assert (A : IZR (ceilZ x) < IZR n + 1) by lra.
  rewrite <- plus_IZR in A. apply lt_IZR in A. lia.
Qed.

Lemma ceilZ_ge : forall x n, IZR n - 1 < x -> (n <= ceilZ x)%Z.
Proof.
  intros x n H. destruct (ceilZ_spec x) as [_ H1].
  assert (A : IZR n < IZR (ceilZ x) + 1) by lra.
  rewrite <- plus_IZR in A. apply lt_IZR in A. lia.
Qed.

Lemma floorZ_IZR : forall n, floorZ (IZR n) = n.
Proof. intro n. apply floorZ_unique. lra. Qed.

Lemma ceilZ_IZR : forall n, ceilZ (IZR n) = n.
Proof. intro n. apply ceilZ_unique. lra. Qed.

Lemma floorZ_le_mono : forall x y, x <= y -> (floorZ x <= floorZ y)%Z.
Proof.
  intros x y H. destruct (floorZ_spec x) as [H1 _]. destruct (floorZ_spec y) as [_ H2].
  assert (A : IZR (floorZ x) < IZR (floorZ y) + 1) by lra.
  rewrite <- plus_IZR in A. apply lt_IZR in A. lia.
Qed.

Lemma IZR_pos : forall n, (0 < n)%Z -> 0 < IZR n.
Proof. intros. now apply IZR_lt. Qed.

Lemma IZR_nonneg : forall n, (0 <= n)%Z -> 0 <= IZR n.
Proof. intros. now apply IZR_le. Qed.

Lemma IZR_ge1 : forall n, (1 <= n)%Z -> 1 <= IZR n.
Proof. intros. now apply IZR_le. Qed.

(** ** Sums over integer ranges *)

Fixpoint zsum_n (f : Z -> R) (lo : Z) (n : nat) : R :=
  match n with
  | O => 0
  | S m => f lo + zsum_n f (lo + 1)%Z m
  end.

(** [zsum f lo hi] is the sum of [f i] for [lo <= i < hi]. *)
Definition zsum (f : Z -> R) (lo hi : Z) : R := zsum_n f lo (Z.to_nat (hi - lo)).

Lemma zsum_n_ext : forall n f g lo,
  (forall i, (lo <= i < lo + Z.of_nat n)%Z -> f i = g i) -> zsum_n f lo n = zsum_n g lo n.
Proof.
  induction n as [|n IH]; intros f g lo H; cbn; [reflexivity|].
  rewrite H by lia. f_equal. apply IH. intros i Hi. apply H. lia.
Qed.

Lemma zsum_ext : forall f g lo hi,
  (forall i, (lo <= i < hi)%Z -> f i = g i) -> zsum f lo hi = zsum g lo hi.
Proof.
  intros f g lo hi H. unfold zsum. apply zsum_n_ext. intros i Hi. apply H. lia.
Qed.

Lemma zsum_n_plus : forall n f g lo,
  zsum_n (fun i => f i + g i) lo n = zsum_n f lo n + zsum_n g lo n.
Proof. induction n as [|n IH]; intros; cbn; [lra|]. rewrite IH. lra. Qed.

Lemma zsum_plus : forall f g lo hi,
  zsum (fun i => f i + g i) lo hi = zsum f lo hi + zsum g lo hi.
Proof. intros. apply zsum_n_plus. Qed.

Lemma zsum_n_scal : forall n c f lo, zsum_n (fun i => c * f i) lo n = c * zsum_n f lo n.
Proof. induction n as [|n IH]; intros; cbn; [lra|]. rewrite IH. lra. Qed.

Lemma zsum_scal : forall c f lo hi, zsum (fun i => c * f i) lo hi = c * zsum f lo hi.
Proof. intros. apply zsum_n_scal. Qed.

Lemma zsum_n_zero : forall n lo, zsum_n (fun _ => 0) lo n = 0.
Proof. induction n as [|n IH]; intros; cbn; [lra|]. rewrite IH. lra. Qed.

Lemma zsum_zero : forall lo hi, zsum (fun _ => 0) lo hi = 0.
Proof. intros. apply zsum_n_zero. Qed.

Lemma zsum_zero_ext : forall f lo hi,
  (forall i, (lo <= i < hi)%Z -> f i = 0) -> zsum f lo hi = 0.
Proof.
  intros f lo hi H. rewrite (zsum_ext f (fun _ => 0)) by exact H. apply zsum_zero.
Qed.

Lemma zsum_opp : forall f lo hi, zsum (fun i => - f i) lo hi = - zsum f lo hi.
Proof.
  intros. rewrite (zsum_ext _ (fun i => (-1) * f i)) by (intros; ring).
  rewrite zsum_scal. ring.
Qed.

Lemma zsum_minus : forall f g lo hi,
  zsum (fun i => f i - g i) lo hi = zsum f lo hi - zsum g lo hi.
Proof.
  intros. rewrite (zsum_ext _ (fun i => f i + - g i)) by (intros; ring).
  rewrite zsum_plus, zsum_opp. ring.
Qed.

Lemma zsum_empty : forall f lo hi, (hi <= lo)%Z -> zsum f lo hi = 0.
Proof.
  intros f lo hi H. unfold zsum. replace (Z.to_nat (hi - lo)) with O by lia. reflexivity.
Qed.

Lemma zsum_first : forall f lo hi, (lo < hi)%Z -> zsum f lo hi = f lo + zsum f (lo + 1) hi.
Proof.
  intros f lo hi H. unfold zsum.
  replace (Z.to_nat (hi - lo)) with (S (Z.to_nat (hi - (lo + 1)))) by lia. reflexivity.
Qed.

Lemma zsum_n_last : forall n f lo,
  zsum_n f lo (S n) = zsum_n f lo n + f (lo + Z.of_nat n)%Z.
Proof.
  induction n as [|n IH]; intros f lo.
  - cbn. rewrite Z.add_0_r. lra.
  - change (zsum_n f lo (S (S n))) with (f lo + zsum_n f (lo + 1)%Z (S n)).
    rewrite IH. cbn [zsum_n].
    replace (lo + 1 + Z.of_nat n)%Z with (lo + Z.of_nat (S n))%Z by lia. lra.
Qed.

Lemma zsum_last : forall f lo hi,
  (lo <= hi)%Z -> zsum f lo (hi + 1) = zsum f lo hi + f hi.
Proof.
  intros f lo hi H. unfold zsum.
  replace (Z.to_nat (hi + 1 - lo)) with (S (Z.to_nat (hi - lo))) by lia.
  rewrite zsum_n_last. do 2 f_equal. lia.
Qed.

Lemma zsum_split : forall f lo mid hi,
  (lo <= mid <= hi)%Z -> zsum f lo hi = zsum f lo mid + zsum f mid hi.
Proof.
  intros f lo mid hi [H1 H2].
  remember (Z.to_nat (mid - lo)) as n eqn:E. revert lo H1 E.
  induction n as [|n IH]; intros lo H1 E.
  - assert (mid = lo) by lia. subst. rewrite (zsum_empty f lo lo) by lia. lra.
  - rewrite (zsum_first f lo hi), (zsum_first f lo mid) by lia.
    rewrite (IH (lo + 1)%Z) by lia. lra.
Qed.

(** Sum of a function that vanishes except at one point. *)
Lemma zsum_single : forall f lo hi j,
  (lo <= j < hi)%Z -> (forall i, (lo <= i < hi)%Z -> i <> j -> f i = 0) -> zsum f lo hi = f j.
Proof.
  intros f lo hi j Hj Hf.
  rewrite (zsum_split f lo j hi) by lia. rewrite (zsum_first f j hi) by lia.
  rewrite (zsum_zero_ext f lo j) by (intros; apply Hf; lia).
  rewrite (zsum_zero_ext f (j + 1) hi) by (intros; apply Hf; lia). lra.
Qed.

Lemma zsum_shift : forall f lo hi d,
  zsum f (lo + d) (hi + d) = zsum (fun i => f (i + d)%Z) lo hi.
Proof.
  intros f lo hi d. unfold zsum. replace (hi + d - (lo + d))%Z with (hi - lo)%Z by lia.
  generalize (Z.to_nat (hi - lo)). intro n. revert lo.
  induction n as [|n IH]; intro lo; cbn; [reflexivity|].
  f_equal. replace (lo + d + 1)%Z with (lo + 1 + d)%Z by lia. apply IH.
Qed.

Lemma zsum_le : forall f g lo hi,
  (forall i, (lo <= i < hi)%Z -> f i <= g i) -> zsum f lo hi <= zsum g lo hi.
Proof.
  intros f g lo hi H. unfold zsum.
  assert (A : forall n lo', (forall i, (lo' <= i < lo' + Z.of_nat n)%Z -> f i <= g i) ->
              zsum_n f lo' n <= zsum_n g lo' n).
  { induction n as [|n IH]; intros lo' Hn; cbn; [lra|].
    apply Rplus_le_compat; [apply Hn; lia|]. apply IH. intros; apply Hn; lia. }
  apply A. intros i Hi. apply H. lia.
Qed.

Lemma zsum_nonneg : forall f lo hi,
  (forall i, (lo <= i < hi)%Z -> 0 <= f i) -> 0 <= zsum f lo hi.
Proof.
  intros f lo hi H. rewrite <- (zsum_zero lo hi). apply zsum_le. exact H.
Qed.

(** Exchange of two sums. *)
Lemma zsum_swap : forall (f : Z -> Z -> R) a b c d,
  zsum (fun i => zsum (fun k => f i k) c d) a b = zsum (fun k => zsum (fun i => f i k) a b) c d.
Proof.
  intros f a b c d.
  assert (A : forall n a', zsum_n (fun i => zsum (fun k => f i k) c d) a' n =
                           zsum (fun k => zsum_n (fun i => f i k) a' n) c d).
  { induction n as [|n IH]; intro a'; cbn.
    - rewrite zsum_zero. reflexivity.
    - rewrite IH, <- zsum_plus. reflexivity. }
  unfold zsum at 1. rewrite A. reflexivity.
Qed.

(** ** Finite sums over lists *)

Fixpoint rsum (l : list R) : R :=
  match l with
  | [] => 0
  | x :: t => x + rsum t
  end.

Lemma rsum_app : forall a b, rsum (a ++ b) = rsum a + rsum b.
Proof. induction a as [|x a IH]; intro b; cbn; [lra|]. rewrite IH. lra. Qed.

(** ** Absolute values and squares *)

Lemma sqr_nonneg : forall x, 0 <= x * x.
Proof. intro x. nra. Qed.

Lemma Rdiv_le_1 : forall a b, 0 < b -> a <= b -> a / b <= 1.
Proof.
  intros a b Hb H. apply Rmult_le_reg_r with b; [exact Hb|].
  unfold Rdiv. rewrite Rmult_assoc, Rinv_l by lra. lra.
Qed.

Lemma Rdiv_nonneg : forall a b, 0 <= a -> 0 < b -> 0 <= a / b.
Proof.
  intros a b Ha Hb. unfold Rdiv. apply Rmult_le_pos; [exact Ha|].
  left. now apply Rinv_0_lt_compat.
Qed.

Lemma Rdiv_pos : forall a b, 0 < a -> 0 < b -> 0 < a / b.
Proof. intros a b Ha Hb. apply Rmult_lt_0_compat; [exact Ha|]. now apply Rinv_0_lt_compat. Qed.

(** Positivity of syntactic products and quotients. *)
Ltac pos_mul :=
  repeat match goal with
  | |- 0 < _ * _ => apply Rmult_lt_0_compat
  | |- 0 < _ / _ => apply Rdiv_pos
  | |- _ * _ > 0 => apply Rmult_lt_0_compat
  end; try lra.
