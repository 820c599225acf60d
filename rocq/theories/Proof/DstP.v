(** The discrete sine transform is its own inverse up to a factor; distance of the code's
    constant PI to pi. *)
From Coq Require Import Reals ZArith Lia Lra Psatz List Machin.
From Verif.Lib Require Import RAux Vec Cplx.
From Verif.Model Require Import Constants.
From Verif.Spec Require Import Dft.
Local Open Scope R_scope.

(** ** The literal of the source and pi *)

Lemma c_PI_close : Rabs (c_PI - PI) <= / 10 ^ 16.
Proof.
  assert (H := PI_2_3_7_ineq 9). cbn [Nat.mul Nat.add sum_f_R0 tg_alt PI_2_3_7_tg Ratan_seq] in H.
  unfold tg_alt, PI_2_3_7_tg, Ratan_seq in H. cbn [INR Nat.mul Nat.add pow] in H.
  apply Rabs_le. unfold c_PI. cbn [pow]. lra.
Qed.

(** ** Sums of cosines *)

Lemma sin_minus_sin : forall a b, 2 * sin b * cos a = sin (a + b) - sin (a - b).
Proof. intros. rewrite sin_plus, sin_minus. ring. Qed.

Lemma cos_sum : forall x n, (0 <= n)%Z ->
  2 * sin (x / 2) * zsum (fun k => cos (IZR (k + 1) * x)) 0 n =
  sin (IZR n * x + x / 2) - sin (x / 2).
Proof.
  intros x n Hn. pattern n. apply natlike_ind; [| |exact Hn].
  - rewrite zsum_empty by lia. rewrite Rmult_0_l, Rplus_0_l. ring.
  - intros k Hk IH. unfold Z.succ. rewrite zsum_last by lia. rewrite Rmult_plus_distr_l, IH.
    rewrite sin_minus_sin. rewrite plus_IZR.
    replace ((IZR k + 1) * x - x / 2) with (IZR k * x + x / 2) by field. ring.
Qed.

Lemma sin_IZR_PI : forall m, sin (PI * IZR m) = 0.
Proof. intro m. apply sin_eq_0_1. exists m. ring. Qed.

Lemma cos_period_Z : forall x m, cos (x + 2 * PI * IZR m) = cos x.
Proof.
  intros x m. assert (E := cis_2PI m). assert (F := cis_add x (2 * PI * IZR m)). rewrite E in F.
  apply (f_equal fst) in F. unfold cis, cmul, c1 in F. cbn in F. rewrite F. ring.
Qed.

(** Sum of cos(pi m k / (n+1)) over k = 1 .. n. *)
Lemma cos_sum_grid : forall n m, (0 <= n)%Z -> (0 < m < 2 * (n + 1))%Z ->
  zsum (fun k => cos (IZR (k + 1) * (PI * IZR m / IZR (n + 1)))) 0 n = - (1 + cos (PI * IZR m)) / 2.
Proof.
  intros n m Hn Hm. assert (P : 0 < IZR (n + 1)) by (apply IZR_lt; lia).
  assert (E := cos_sum (PI * IZR m / IZR (n + 1)) n Hn).
  set (x := PI * IZR m / IZR (n + 1)) in *.
  assert (Hs : 0 < sin (x / 2)).
  { assert (Pm : 0 < IZR m) by (apply IZR_lt; lia).
    assert (IZR m < 2 * IZR (n + 1)) by (rewrite <- mult_IZR; apply IZR_lt; lia).
    assert (PP := PI_RGT_0).
    apply sin_gt_0; unfold x.
    - apply Rmult_lt_0_compat; [|lra]. apply Rdiv_pos; [nra|exact P].
    - replace (PI * IZR m / IZR (n + 1) / 2) with (PI * (IZR m / (2 * IZR (n + 1)))) by (field; lra).
      rewrite <- (Rmult_1_r PI) at 2. apply Rmult_lt_compat_l; [exact PP|].
      apply (Rmult_lt_reg_r (2 * IZR (n + 1))); [lra|]. unfold Rdiv. rewrite Rmult_assoc, Rinv_l by lra. lra. }
  replace (IZR n * x + x / 2) with (PI * IZR m - x / 2) in E
    by (unfold x; rewrite plus_IZR in *; field; lra).
  rewrite sin_minus, sin_IZR_PI in E.
  apply (Rmult_eq_reg_l (2 * sin (x / 2))); [|lra]. rewrite E. field.
Qed.

Lemma cos_sum_grid_0 : forall n, (0 <= n)%Z ->
  zsum (fun k => cos (IZR (k + 1) * (PI * IZR 0 / IZR (n + 1)))) 0 n = IZR n.
Proof.
  intros n Hn. rewrite (zsum_ext _ (fun _ => 1)).
  - pattern n. apply natlike_ind; [| |exact Hn].
    + now rewrite zsum_empty by lia.
    + intros k Hk IH. unfold Z.succ. rewrite zsum_last, IH, plus_IZR by lia. reflexivity.
  - intros k Hk. replace (IZR (k + 1) * (PI * 0 / IZR (n + 1))) with 0; [apply cos_0|].
    unfold Rdiv. ring.
Qed.

Definition sine_entry (n j k : Z) : R := sin (PI * IZR ((j + 1) * (k + 1)) / IZR (n + 1)).

Lemma sine_entry_sym : forall n j k, sine_entry n j k = sine_entry n k j.
Proof. intros. unfold sine_entry. now rewrite Z.mul_comm. Qed.

Lemma sin_sin : forall a b, sin a * sin b = (cos (a - b) - cos (a + b)) / 2.
Proof. intros. rewrite cos_minus, cos_plus. field. Qed.

Lemma sine_orthogonal : forall n j l, (0 <= j < n)%Z -> (0 <= l < n)%Z ->
  zsum (fun k => sine_entry n j k * sine_entry n l k) 0 n =
  if (j =? l)%Z then IZR (n + 1) / 2 else 0.
Proof.
  intros n j l Hj Hl. assert (P : 0 < IZR (n + 1)) by (apply IZR_lt; lia).
  assert (E : forall a b, (0 <= b <= a)%Z -> (a < n)%Z ->
    zsum (fun k => sine_entry n a k * sine_entry n b k) 0 n = if (a =? b)%Z then IZR (n + 1) / 2 else 0).
  { intros a b Hab Ha.
    rewrite (zsum_ext _ (fun k => 1 / 2 * (cos (IZR (k + 1) * (PI * IZR (a - b) / IZR (n + 1))) -
                                       cos (IZR (k + 1) * (PI * IZR (a + b + 2) / IZR (n + 1)))))).
    2:{ intros k Hk. unfold sine_entry. rewrite sin_sin.
        replace (PI * IZR ((a + 1) * (k + 1)) / IZR (n + 1) - PI * IZR ((b + 1) * (k + 1)) / IZR (n + 1))
          with (IZR (k + 1) * (PI * IZR (a - b) / IZR (n + 1)))
          by (rewrite !mult_IZR, minus_IZR, !plus_IZR in *; field; lra).
        replace (PI * IZR ((a + 1) * (k + 1)) / IZR (n + 1) + PI * IZR ((b + 1) * (k + 1)) / IZR (n + 1))
          with (IZR (k + 1) * (PI * IZR (a + b + 2) / IZR (n + 1)))
          by (rewrite !mult_IZR, !plus_IZR in *; field; lra).
        field. }
    rewrite zsum_scal, zsum_minus. rewrite (cos_sum_grid n (a + b + 2)) by lia.
    destruct (Z.eqb_spec a b) as [->|N].
    - replace (b - b)%Z with 0%Z by lia. rewrite cos_sum_grid_0 by lia.
      replace (PI * IZR (b + b + 2)) with (0 + 2 * PI * IZR (b + 1)) by (rewrite !plus_IZR; ring).
      rewrite cos_period_Z, cos_0, plus_IZR. field.
    - rewrite cos_sum_grid by lia.
      replace (PI * IZR (a + b + 2)) with (PI * IZR (a - b) + 2 * PI * IZR (b + 1))
        by (rewrite minus_IZR, !plus_IZR; ring).
      rewrite cos_period_Z. lra. }
  destruct (Z_le_gt_dec l j) as [L|L].
  - apply E; lia.
  - rewrite (zsum_ext _ (fun k => sine_entry n l k * sine_entry n j k)) by (intros; ring).
    rewrite E by lia. now rewrite Z.eqb_sym.
Qed.

Lemma dst_entry : forall n x k, dst n x k = zsum (fun j => x j * sine_entry n j k) 0 n.
Proof. reflexivity. Qed.

Theorem dst_dst : forall n x k, (0 <= k < n)%Z -> dst n (dst n x) k = IZR (n + 1) / 2 * x k.
Proof.
  intros n x k Hk. rewrite dst_entry.
  rewrite (zsum_ext _ (fun j => zsum (fun l => x l * (sine_entry n l j * sine_entry n k j)) 0 n)).
  2:{ intros j Hj. rewrite dst_entry, Rmult_comm, <- zsum_scal. apply zsum_ext. intros l Hl.
      rewrite (sine_entry_sym n j k). ring. }
  rewrite zsum_swap. rewrite (zsum_single _ 0 n k Hk).
  - rewrite zsum_scal, sine_orthogonal, Z.eqb_refl by lia. ring.
  - intros l Hl N. rewrite zsum_scal, sine_orthogonal by lia.
    destruct (Z.eqb_spec l k); [contradiction|ring].
Qed.

Lemma dst_add : forall n x y k, dst n (fun j => x j + y j) k = dst n x k + dst n y k.
Proof. intros. unfold dst. rewrite <- zsum_plus. apply zsum_ext. intros. ring. Qed.

Lemma dst_scal : forall n c x k, dst n (fun j => c * x j) k = c * dst n x k.
Proof. intros. unfold dst. rewrite <- zsum_scal. apply zsum_ext. intros. ring. Qed.

Lemma dst_ext : forall n x y k, (forall j, (0 <= j < n)%Z -> x j = y j) -> dst n x k = dst n y k.
Proof. intros n x y k H. unfold dst. apply zsum_ext. intros j Hj. now rewrite H. Qed.

Lemma zsum_abs : forall f lo hi, Rabs (zsum f lo hi) <= zsum (fun i => Rabs (f i)) lo hi.
Proof.
  intros f lo hi. assert (E := cmod_csum (fun i => cre (f i)) lo hi).
  assert (F := cmod_fst (csum (fun i => cre (f i)) lo hi)). unfold csum in F at 1. cbn [fst cre] in F.
  rewrite (zsum_ext (fun i => cmod (cre (f i))) (fun i => Rabs (f i))) in E by (intros; apply cmod_cre).
  eapply Rle_trans; [exact F|exact E].
Qed.

Lemma dst_abs : forall n x k, Rabs (dst n x k) <= zsum (fun j => Rabs (x j)) 0 n.
Proof.
  intros n x k. unfold dst. eapply Rle_trans; [apply zsum_abs|]. apply zsum_le. intros j Hj.
  rewrite Rabs_mult. assert (B := SIN_bound (PI * IZR ((j + 1) * (k + 1)) / IZR (n + 1))).
  assert (Rabs (sin (PI * IZR ((j + 1) * (k + 1)) / IZR (n + 1))) <= 1) by (apply Rabs_le; lra).
  assert (0 <= Rabs (x j)) by apply Rabs_pos. nra.
Qed.
