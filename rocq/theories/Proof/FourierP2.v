(** Proofs about the sine transform, about lengths that are not powers of two, and about the
    cosine transform. *)
From Coq Require Import Reals ZArith Lia Lra Psatz List Bool Permutation.
From Verif.Lib Require Import RAux Outcome Vec Cplx Par.
From Verif.Model Require Import Constants Tridiag Fourier.
From Verif.Spec Require Import Dft.
From Verif.Proof Require Import BunchP FourierP DstP.
Import ListNotations.
Local Open Scope R_scope.

(** ** Filling the odd extension *)

Lemma zsum_reverse : forall f lo hi, zsum f lo hi = zsum (fun i => f (lo + hi - 1 - i)%Z) lo hi.
Proof.
  intros f lo hi. destruct (Z_le_gt_dec hi lo) as [L|L]; [now rewrite !zsum_empty by lia|].
  replace hi with (lo + Z.of_nat (Z.to_nat (hi - lo)))%Z by lia.
  generalize (Z.to_nat (hi - lo)) as n. clear L. intro n. revert lo f. induction n as [|n IH]; intros lo f.
  - now rewrite !zsum_empty by lia.
  - replace (lo + Z.of_nat (S n))%Z with (lo + Z.of_nat n + 1)%Z at 1 by lia.
    rewrite zsum_last by lia.
    rewrite (zsum_first _ lo (lo + Z.of_nat (S n))) by lia.
    rewrite Rplus_comm. f_equal; [f_equal; lia|].
    rewrite IH.
    replace (lo + Z.of_nat (S n))%Z with (lo + Z.of_nat n + 1)%Z by lia. rewrite zsum_shift.
    apply zsum_ext. intros i Hi. f_equal. lia.
Qed.

Definition odd_ext (n : Z) (row : vec) (i : Z) : R :=
  if ((1 <=? i) && (i <=? n))%Z%bool then row (i - 1)%Z
  else if ((n + 2 <=? i) && (i <=? 2 * n + 1))%Z%bool then - row (2 * n + 1 - i)%Z
  else 0.

Lemma odd_ext_low : forall n row i, (1 <= i <= n)%Z -> odd_ext n row i = row (i - 1)%Z.
Proof.
  intros n row i H. unfold odd_ext. destruct (Z.leb_spec 1 i), (Z.leb_spec i n); try lia. reflexivity.
Qed.

Lemma odd_ext_high : forall n row i, (n + 2 <= i <= 2 * n + 1)%Z -> odd_ext n row i = - row (2 * n + 1 - i)%Z.
Proof.
  intros n row i H. unfold odd_ext.
  destruct (Z.leb_spec 1 i), (Z.leb_spec i n), (Z.leb_spec (n + 2) i), (Z.leb_spec i (2 * n + 1)); try lia; reflexivity.
Qed.

Lemma odd_ext_zero : forall n row i, (i = 0 \/ i = n + 1)%Z -> odd_ext n row i = 0.
Proof.
  intros n row i H. unfold odd_ext.
  destruct (Z.leb_spec 1 i), (Z.leb_spec i n), (Z.leb_spec (n + 2) i), (Z.leb_spec i (2 * n + 1)); try lia; reflexivity.
Qed.

Lemma sine_fill_all : forall n row (a0 : cvec), (0 <= n)%Z -> (forall i, a0 i = c0) ->
  exists a, for_up 0 n (sine_fill n row) (Ok a0) = Ok a /\
    forall i, (0 <= i < 2 * n + 2)%Z -> a i = cre (odd_ext n row i).
Proof.
  intros n row a0 Hn H0.
  set (P := fun (k : Z) (s : outcome cvec) => exists a, s = Ok a /\
    (forall i, (1 <= i <= k)%Z -> a i = cre (row (i - 1)%Z)) /\
    (forall i, (2 * n + 2 - k <= i <= 2 * n + 1)%Z -> a i = cre (- row (2 * n + 1 - i)%Z)) /\
    (forall i, (i < 1 \/ k < i < 2 * n + 2 - k)%Z -> a i = c0)).
  assert (G : P n (for_up 0 n (sine_fill n row) (Ok a0))).
  { apply for_up_inv; [lia| |].
    - exists a0. split; [reflexivity|]. repeat split; intros i Hi; try lia. apply H0.
    - intros k s Hk (a & -> & A1 & A2 & A3). unfold P, sine_fill, bind. rewrite wr_ok by lia. rewrite wr_ok by lia.
      eexists. split; [reflexivity|]. repeat split; intros i Hi.
      + destruct (Z.eq_dec i (k + 1)) as [->|N].
        * rewrite updv_same. f_equal. f_equal. lia.
        * rewrite !updv_other by lia. apply A1. lia.
      + rewrite updv_other by lia. destruct (Z.eq_dec i (2 * n - k + 1)) as [->|N].
        * rewrite updv_same. do 3 f_equal. lia.
        * rewrite updv_other by lia. apply A2. lia.
      + rewrite !updv_other by lia. apply A3. lia. }
  destruct G as (a & E & A1 & A2 & A3). exists a. split; [exact E|]. intros i Hi.
  destruct (Z_le_gt_dec 1 i) as [L|L]; [destruct (Z_le_gt_dec i n) as [L2|L2]|].
  - rewrite odd_ext_low by lia. apply A1. lia.
  - destruct (Z.eq_dec i (n + 1)) as [->|N].
    + rewrite odd_ext_zero by lia. apply A3. lia.
    + rewrite odd_ext_high by lia. apply A2. lia.
  - rewrite odd_ext_zero by lia. apply A3. lia.
Qed.

(** The Fourier sum of the odd extension. *)
Lemma dft_odd_ext : forall n row k, (0 <= n)%Z ->
  dft (2 * n + 2) (fun i => cre (odd_ext n row i)) (k + 1) = (0, - 2 * dst n row k).
Proof.
  intros n row k Hn. unfold dft.
  assert (P : IZR (n + 1) <> 0) by (apply not_0_IZR; lia).
  set (t := fun j => PI * IZR ((j + 1) * (k + 1)) / IZR (n + 1)).
  assert (Hang : forall j, - (2 * PI * IZR ((j + 1) * (k + 1)) / IZR (2 * n + 2)) = - t j).
  { intro j. unfold t. replace (2 * n + 2)%Z with (2 * (n + 1))%Z by lia. rewrite (mult_IZR 2). field. exact P. }
  assert (Hang2 : forall j, cis (- (2 * PI * IZR ((2 * n + 1 - j) * (k + 1)) / IZR (2 * n + 2))) = cis (t j)).
  { intro j. replace (- (2 * PI * IZR ((2 * n + 1 - j) * (k + 1)) / IZR (2 * n + 2)))
      with (t j + 2 * PI * IZR (- (k + 1))).
    - rewrite cis_add, cis_2PI. ring.
    - unfold t. replace (2 * n + 2)%Z with (2 * (n + 1))%Z by lia.
      replace (2 * n + 1 - j)%Z with (2 * (n + 1) - (j + 1))%Z by lia.
      rewrite opp_IZR, !mult_IZR, minus_IZR, mult_IZR. field. exact P. }
  assert (S : forall g : Z -> R, g 0%Z = 0 -> g (n + 1)%Z = 0 ->
            zsum g 0 (2 * n + 2) = zsum (fun j => g (j + 1)%Z + g (2 * n + 1 - j)%Z) 0 n).
  { intros g G0 G1.
    rewrite (zsum_split g 0 (n + 1) (2 * n + 2)) by lia.
    rewrite (zsum_first g 0 (n + 1)), G0 by lia.
    rewrite (zsum_first g (n + 1) (2 * n + 2)), G1 by lia.
    rewrite zsum_plus.
    replace (zsum g (0 + 1) (n + 1)) with (zsum (fun j => g (j + 1)%Z) 0 n).
    2:{ symmetry. apply (zsum_shift g 0 n 1). }
    replace (zsum g (n + 1 + 1) (2 * n + 2)) with (zsum (fun j => g (2 * n + 1 - j)%Z) 0 n); [ring|].
    rewrite (zsum_reverse g (n + 1 + 1)).
    replace (n + 1 + 1)%Z with (0 + (n + 2))%Z by lia. replace (2 * n + 2)%Z with (n + (n + 2))%Z by lia.
    rewrite (zsum_shift _ 0 n (n + 2)). apply zsum_ext. intros i Hi. f_equal. lia. }
  unfold csum. apply cplx_eq; cbn [fst snd].
  - rewrite S.
    + rewrite (zsum_ext _ (fun _ => 0)); [apply zsum_zero|]. intros j Hj.
      rewrite odd_ext_low, odd_ext_high by lia. rewrite Hang, Hang2. unfold cmul, cre, cis. cbn [fst snd].
      rewrite cos_neg. replace (j + 1 - 1)%Z with j by lia. replace (2 * n + 1 - (2 * n + 1 - j))%Z with j by lia. ring.
    + rewrite odd_ext_zero by lia. unfold cmul, cre. cbn. ring.
    + rewrite odd_ext_zero by lia. unfold cmul, cre. cbn. ring.
  - rewrite S.
    + unfold dst. rewrite <- zsum_scal. apply zsum_ext. intros j Hj.
      rewrite odd_ext_low, odd_ext_high by lia. rewrite Hang, Hang2. unfold cmul, cre, cis. cbn [fst snd].
      rewrite sin_neg. replace (j + 1 - 1)%Z with j by lia. replace (2 * n + 1 - (2 * n + 1 - j))%Z with j by lia.
      unfold t. ring.
    + rewrite odd_ext_zero by lia. unfold cmul, cre. cbn. ring.
    + rewrite odd_ext_zero by lia. unfold cmul, cre. cbn. ring.
Qed.

Lemma odd_ext_abs : forall n row, (0 <= n)%Z ->
  zsum (fun i => cmod (cre (odd_ext n row i))) 0 (2 * n + 2) = 2 * zsum (fun j => Rabs (row j)) 0 n.
Proof.
  intros n row Hn. rewrite (zsum_ext _ (fun i => Rabs (odd_ext n row i))) by (intros; apply cmod_cre).
  rewrite (zsum_split _ 0 (n + 1) (2 * n + 2)) by lia.
  rewrite (zsum_first _ 0 (n + 1)) by lia. rewrite (zsum_first _ (n + 1) (2 * n + 2)) by lia.
  rewrite !odd_ext_zero by lia. rewrite Rabs_R0.
  replace (zsum (fun i => Rabs (odd_ext n row i)) (0 + 1) (n + 1)) with (zsum (fun j => Rabs (row j)) 0 n).
  2:{ rewrite (zsum_shift _ 0 n 1). apply zsum_ext. intros i Hi. rewrite odd_ext_low by lia. do 2 f_equal. lia. }
  replace (zsum (fun i => Rabs (odd_ext n row i)) (n + 1 + 1) (2 * n + 2)) with (zsum (fun j => Rabs (row j)) 0 n).
  2:{ replace (n + 1 + 1)%Z with (0 + (n + 2))%Z by lia. replace (2 * n + 2)%Z with (n + (n + 2))%Z by lia.
      rewrite (zsum_shift _ 0 n (n + 2)). rewrite zsum_reverse. apply zsum_ext. intros i Hi.
      rewrite odd_ext_high by lia. rewrite Rabs_Ropp. do 2 f_equal. lia. }
  ring.
Qed.

Definition half_i : cplx := cdiv (cre (-1)) (cmul (cre 2) ci).

Lemma half_i_val : half_i = (0, 1 / 2).
Proof. unfold half_i, cdiv, cmul, cre, ci. apply cplx_eq; cbn [fst snd]; field. Qed.

Lemma sine_take_all : forall n (a : cvec) (row : vec), (0 <= n)%Z ->
  exists a' r, for_up 0 n (sine_take n) (Ok (a, row)) = Ok (a', r) /\
    (forall k, (0 <= k < n)%Z -> r k = - (1 / 2) * snd (a (k + 1)%Z)) /\
    (forall k, ~ (0 <= k < n)%Z -> r k = row k).
Proof.
  intros n a row Hn.
  set (P := fun (k : Z) (s : outcome (cvec * vec)) => exists a' r, s = Ok (a', r) /\
    (forall i, (k < i)%Z -> a' i = a i) /\
    (forall j, (0 <= j < k)%Z -> r j = - (1 / 2) * snd (a (j + 1)%Z)) /\
    (forall j, ~ (0 <= j < k)%Z -> r j = row j)).
  assert (G : P n (for_up 0 n (sine_take n) (Ok (a, row)))).
  { apply for_up_inv; [lia| |].
    - exists a, row. repeat split; intros; auto; lia.
    - intros k s Hk (a' & r & -> & A1 & A2 & A3). unfold P, sine_take, bind.
      rewrite rd_ok by lia. rewrite wr_ok by lia. fold half_i. rewrite half_i_val.
      exists (updv a' (k + 1)%Z (cmul (0, 1 / 2) (a' (k + 1)%Z))).
      exists (updv r k (fst (cmul (0, 1 / 2) (a' (k + 1)%Z)))). split; [reflexivity|]. repeat split; intros j Hj.
      + rewrite updv_other by lia. apply A1. lia.
      + destruct (Z.eq_dec j k) as [->|N].
        * rewrite updv_same, A1 by lia. unfold cmul. cbn [fst snd]. ring.
        * rewrite updv_other by lia. apply A2. lia.
      + rewrite updv_other by lia. apply A3. lia. }
  destruct G as (a' & r & E & _ & A2 & A3). exists a', r. auto.
Qed.

Lemma scale_row_at : forall n f row k, (0 <= n)%Z ->
  scale_row n f row k = if ((0 <=? k) && (k <? n))%Z%bool then f (row k) else row k.
Proof.
  intros n f row k Hn. unfold scale_row.
  set (P := fun (m : Z) (r : vec) => forall k, r k = if ((0 <=? k) && (k <? m))%Z%bool then f (row k) else row k).
  assert (G : P n (for_up 0 n (fun k r => updv r k (f (r k))) row)).
  { apply for_up_inv; [lia| |].
    - intro j. destruct (Z.leb_spec 0 j), (Z.ltb_spec j 0); cbn; try lia; reflexivity.
    - intros i r Hi Hr j. destruct (Z.eq_dec j i) as [->|N].
      + rewrite updv_same, (Hr i).
        destruct (Z.leb_spec 0 i), (Z.ltb_spec i i), (Z.ltb_spec i (i + 1)); cbn; try lia; reflexivity.
      + rewrite updv_other by exact N. rewrite (Hr j).
        destruct (Z.leb_spec 0 j), (Z.ltb_spec j i), (Z.ltb_spec j (i + 1)); cbn; try lia; reflexivity. }
  apply G.
Qed.

(** The sine transform when 2 n + 2 = 2^M. *)
Theorem sine_error : forall pi M n row, (0 <= n)%Z -> (2 * n + 2 = p2 M)%Z ->
  exists r, fast_sine_transform pi n false row = Ok r /\
    (forall k, (0 <= k < n)%Z ->
       Rabs (r k - dst n row k) <= INR M * Rabs (pi - PI) * zsum (fun j => Rabs (row j)) 0 n) /\
    (forall k, ~ (0 <= k < n)%Z -> r k = row k).
Proof.
  intros pi M n row Hn HM. unfold fast_sine_transform. rewrite wr_ok, bind_ok by lia.
  rewrite wr_ok, bind_ok by lia.
  destruct (sine_fill_all n row (updv (updv zeros 0%Z c0) n c0) Hn) as (a & Ea & Ha).
  { intro i. unfold updv, zeros. destruct (i =? n)%Z, (i =? 0)%Z; reflexivity. }
  rewrite Ea, bind_ok.
  destruct (fft_error pi M (2 * n + 2) a) as (b & Eb & Hb & _); [lia|].
  rewrite <- HM in Eb. rewrite Eb, bind_ok.
  destruct (sine_take_all n b row Hn) as (a' & r & Er & Hr & Hr').
  rewrite Er, bind_ok. exists r. split; [reflexivity|]. split; [|exact Hr'].
  intros k Hk. rewrite Hr by exact Hk.
  assert (B := Hb (k + 1)%Z ltac:(lia)). rewrite <- HM in B.
  rewrite (dft_ext _ a (fun i => cre (odd_ext n row i))) in B by exact Ha.
  rewrite dft_odd_ext in B by exact Hn.
  rewrite (zsum_ext (fun j => cmod (a j)) (fun i => cmod (cre (odd_ext n row i)))) in B
    by (intros i Hi; now rewrite Ha).
  rewrite odd_ext_abs in B by exact Hn.
  set (e := csub (b (k + 1)%Z) (0, - 2 * dst n row k)) in *.
  assert (F : - (1 / 2) * snd (b (k + 1)%Z) - dst n row k = - (1 / 2) * snd e).
  { unfold e, csub. cbn [fst snd]. field. }
  rewrite F. rewrite Rabs_mult, Rabs_Ropp, (Rabs_pos_eq (1 / 2)) by lra.
  assert (Q : Rabs (snd e) <= cmod e).
  { assert (A := cmod_fst (cmul (0, -1) e)). rewrite cmod_mul in A.
    replace (cmod (0, -1)) with 1 in A.
    - unfold cmul in A. cbn [fst snd] in A. replace (0 * fst e - -1 * snd e) with (snd e) in A by ring. lra.
    - unfold cmod, cnorm2. cbn [fst snd]. replace (0 * 0 + -1 * -1) with 1 by ring. now rewrite sqrt_1. }
  lra.
Qed.

Lemma sine_inv_is_scaled : forall pi n row r, fast_sine_transform pi n false row = Ok r ->
  fast_sine_transform pi n true row = Ok (scale_row n (fun x => x * 2 / (IZR n + 1)) r).
Proof.
  intros pi n row r H. unfold fast_sine_transform, bind in *.
  destruct (wr (2 * n + 2) zeros 0 c0); try discriminate.
  destruct (wr (2 * n + 2) a n c0); try discriminate.
  destruct (for_up 0 n (sine_fill n row) (Ok a0)); try discriminate.
  destruct (fast_fourier_alg pi (2 * n + 2) a1 (2 * n + 2)); try discriminate.
  destruct (for_up 0 n (sine_take n) (Ok (a2, row))) as [[x y]| |]; try discriminate.
  now injection H as ->.
Qed.

Theorem sine_exact : forall M n row, (0 <= n)%Z -> (2 * n + 2 = p2 M)%Z ->
  exists r, fast_sine_transform PI n false row = Ok r /\
    forall k, (0 <= k < n)%Z -> r k = dst n row k.
Proof.
  intros M n row Hn HM. destruct (sine_error PI M n row Hn HM) as (r & E & H & _).
  exists r. split; [exact E|]. intros k Hk. specialize (H k Hk).
  replace (PI - PI) with 0 in H by ring. rewrite Rabs_R0 in H.
  assert (P := Rabs_pos (r k - dst n row k)).
  assert (Z0 : Rabs (r k - dst n row k) <= 0) by nra.
  assert (Z1 := Rle_abs (r k - dst n row k)). assert (Z2 := Rle_abs (- (r k - dst n row k))).
  rewrite Rabs_Ropp in Z2. lra.
Qed.

(** Forward transform followed by the inverse transform. *)
Theorem sine_roundtrip_error : forall pi M n row, (0 <= n)%Z -> (2 * n + 2 = p2 M)%Z ->
  exists r r', fast_sine_transform pi n false row = Ok r /\ fast_sine_transform pi n true r = Ok r' /\
    (forall k, (0 <= k < n)%Z ->
       let e := INR M * Rabs (pi - PI) in
       Rabs (r' k - row k) <= 2 * e * (2 + e) * zsum (fun j => Rabs (row j)) 0 n) /\
    (forall k, ~ (0 <= k < n)%Z -> r' k = row k).
Proof.
  intros pi M n row Hn HM. destruct (sine_error pi M n row Hn HM) as (r & E & H & Hout).
  destruct (sine_error pi M n r Hn HM) as (s & E2 & H2 & Hout2).
  exists r, (scale_row n (fun x => x * 2 / (IZR n + 1)) s).
  split; [exact E|]. split; [now apply sine_inv_is_scaled|]. split.
  - intros k Hk e. rewrite scale_row_at by exact Hn.
    destruct (Z.leb_spec 0 k), (Z.ltb_spec k n); try lia. cbn [andb].
    assert (P : 0 < IZR n + 1) by (rewrite <- plus_IZR; apply IZR_lt; lia).
    assert (He : 0 <= e) by (apply Rmult_le_pos; [apply pos_INR|apply Rabs_pos]).
    set (S := zsum (fun j => Rabs (row j)) 0 n) in *.
    assert (HS : 0 <= S) by (apply zsum_nonneg; intros; apply Rabs_pos).
    set (d := fun j => r j - dst n row j).
    assert (Hd : forall j, (0 <= j < n)%Z -> Rabs (d j) <= e * S) by (intros j Hj; now apply H).
    assert (Hcount : forall c, zsum (fun _ => c) 0 n = c * IZR n).
    { intro c. pattern n. apply natlike_ind; [| |exact Hn].
      - rewrite zsum_empty by lia. ring.
      - intros m Hm IH. unfold Z.succ. rewrite zsum_last, IH, plus_IZR by lia. ring. }
    assert (Hsd : Rabs (dst n d k) <= e * S * IZR n).
    { eapply Rle_trans; [apply dst_abs|]. rewrite <- Hcount. apply zsum_le. intros j Hj. now apply Hd. }
    assert (Hr : dst n r k = IZR (n + 1) / 2 * row k + dst n d k).
    { rewrite <- (dst_dst n row k Hk). rewrite <- dst_add. apply dst_ext. intros j Hj. unfold d. ring. }
    assert (Hsr : zsum (fun j => Rabs (r j)) 0 n <= (1 + e) * S * IZR n).
    { rewrite <- Hcount. apply zsum_le. intros j Hj.
      assert (A := Hd j Hj). assert (B := dst_abs n row j). fold S in B.
      assert (C := Rabs_triang (d j) (dst n row j)). unfold d in C at 1.
      replace (r j - dst n row j + dst n row j) with (r j) in C by ring. lra. }
    assert (A2 := H2 k Hk). fold e in A2.
    assert (A3 : Rabs (s k - dst n r k) <= e * ((1 + e) * S * IZR n)).
    { eapply Rle_trans; [exact A2|]. apply Rmult_le_compat_l; assumption. }
    assert (Nn : 0 <= IZR n) by (apply IZR_nonneg; lia).
    replace (s k * 2 / (IZR n + 1) - row k)
      with ((2 / (IZR n + 1)) * ((s k - dst n r k) + dst n d k)).
    2:{ rewrite Hr, plus_IZR. field. lra. }
    rewrite Rabs_mult. assert (0 < 2 / (IZR n + 1)) by (apply Rdiv_pos; lra).
    rewrite (Rabs_pos_eq (2 / (IZR n + 1))) by lra.
    assert (T := Rabs_triang (s k - dst n r k) (dst n d k)).
    assert (T2 : Rabs (s k - dst n r k + dst n d k) <= e * (2 + e) * S * IZR n) by nra.
    eapply Rle_trans; [apply Rmult_le_compat_l; [lra|exact T2]|].
    replace (2 / (IZR n + 1) * (e * (2 + e) * S * IZR n)) with (2 * e * (2 + e) * S * (IZR n / (IZR n + 1)))
      by (field; lra).
    assert (IZR n / (IZR n + 1) <= 1) by (apply Rdiv_le_1; lra).
    assert (0 <= 2 * e * (2 + e) * S) by (apply Rmult_le_pos; [|exact HS]; nra).
    nra.
  - intros k Hk. rewrite scale_row_at by exact Hn.
    destruct (Z.leb_spec 0 k), (Z.ltb_spec k n); try lia; cbn [andb]; rewrite Hout2, Hout by exact Hk; reflexivity.
Qed.

(** ** Lengths that are not powers of two *)

Definition no_exit {A} (s : outcome A) : Prop := s = UB \/ exists a, s = Ok a.

Lemma butterfly_ub : forall pi len h km, butterfly pi len h UB km = UB.
Proof. reflexivity. Qed.

Lemma butterflies_ub : forall pi len h l, fold_left (butterfly pi len h) l UB = UB.
Proof. induction l as [|km l IH]; cbn [fold_left]; [reflexivity|]. rewrite butterfly_ub. exact IH. Qed.

Lemma rd_no_exit : forall len a i, no_exit (rd len a i).
Proof. intros. unfold rd. destruct ((0 <=? i) && (i <? len))%Z%bool; [right; eauto|now left]. Qed.
Lemma wr_no_exit : forall len a i v, no_exit (wr len a i v).
Proof. intros. unfold wr. destruct ((0 <=? i) && (i <? len))%Z%bool; [right; eauto|now left]. Qed.

Lemma butterfly_no_exit : forall pi len h s km, no_exit s -> no_exit (butterfly pi len h s km).
Proof.
  intros pi len h s [k m] [->|[a ->]]; [now left|]. unfold butterfly, bind.
  destruct (rd_no_exit len a m) as [->|[x ->]]; [now left|].
  destruct (rd_no_exit len a (m + h)%Z) as [->|[y ->]]; [now left|].
  destruct (wr_no_exit len a m (cadd x (cmul (twiddle pi k h) y))) as [->|[a1 ->]]; [now left|].
  destruct (rd_no_exit len a1 (m + h)%Z) as [->|[y1 ->]]; [now left|].
  apply wr_no_exit.
Qed.

Lemma butterflies_no_exit : forall pi len h l s, no_exit s -> no_exit (fold_left (butterfly pi len h) l s).
Proof. induction l as [|km l IH]; intros s H; cbn; [exact H|]. apply IH, butterfly_no_exit, H. Qed.

Lemma butterfly_bad : forall pi len h s k m, no_exit s -> (len <= m + h)%Z -> butterfly pi len h s (k, m) = UB.
Proof.
  intros pi len h s k m [->|[a ->]] H; [reflexivity|]. unfold butterfly, bind.
  destruct (rd_no_exit len a m) as [->|[x ->]]; [reflexivity|]. now rewrite rd_bad.
Qed.

Lemma butterflies_bad : forall pi len h l s k m, no_exit s -> In (k, m) l -> (len <= m + h)%Z ->
  fold_left (butterfly pi len h) l s = UB.
Proof.
  intros pi len h l. induction l as [|km l IH]; intros s k m Hs Hin Hm; [destruct Hin|].
  cbn [fold_left]. destruct Hin as [->|Hin].
  - rewrite butterfly_bad by assumption. apply butterflies_ub.
  - apply (IH _ k m); auto. now apply butterfly_no_exit.
Qed.

Lemma stages_ub : forall fuel pi len n nb h, stages fuel pi len n nb h UB = UB.
Proof.
  induction fuel as [|f IH]; intros; cbn [stages]; [reflexivity|].
  destruct (0 <? nb)%Z; [|reflexivity]. unfold stage. rewrite butterflies_ub. apply IH.
Qed.

Lemma p2_le : forall s t, (s <= t)%nat -> (p2 s <= p2 t)%Z.
Proof. intros s t H. unfold p2. apply Z.pow_le_mono_r; lia. Qed.

Lemma stages_bad : forall pi n T, (p2 T <= n - 1)%Z -> (n < p2 (S T))%Z ->
  forall d t fuel s, (t + d = T)%nat -> (d < fuel)%nat -> no_exit s ->
  stages fuel pi n n ((n - 1) / p2 t) (p2 t) s = UB.
Proof.
  intros pi n T HT1 HT2 d. induction d as [|d IH]; intros t fuel s Ht Hf Hs;
    (destruct fuel as [|f]; [lia|]); cbn [stages];
    assert (Pt := p2_pos t);
    (assert (0 < (n - 1) / p2 t)%Z;
     [apply Z.div_str_pos; split; [exact Pt|]; apply Z.le_trans with (p2 T); [|exact HT1];
      apply p2_le; lia|]).
  - assert (t = T) by lia. subst t. destruct (Z.ltb_spec 0 ((n - 1) / p2 T)) as [L|L]; [|lia].
    unfold stage. rewrite p2_S in HT2.
    rewrite (butterflies_bad pi n (p2 T) _ s (n - p2 T) (n - p2 T)); [apply stages_ub|exact Hs| |lia].
    apply in_stage_list; [lia|lia|]. repeat split; try lia. apply Z.mod_small. lia.
  - destruct (Z.ltb_spec 0 ((n - 1) / p2 t)) as [L|L]; [|lia].
    rewrite shiftr_1, Z.div_div by lia.
    replace (p2 t * 2)%Z with (p2 (S t)) by (rewrite p2_S; ring).
    apply IH; [lia|lia|]. apply butterflies_no_exit, Hs.
Qed.

Lemma brev_swap_no_exit : forall len n s k, no_exit s -> no_exit (brev_swap len n s k).
Proof.
  intros len n s k [->|[a ->]]; [now left|]. unfold brev_swap, bind.
  destruct (k <? brev n k)%Z; [|right; eauto].
  destruct (rd_no_exit len a k) as [->|[x ->]]; [now left|].
  destruct (rd_no_exit len a (brev n k)) as [->|[y ->]]; [now left|].
  destruct (wr_no_exit len a k y) as [->|[a1 ->]]; [now left|]. apply wr_no_exit.
Qed.

Lemma brev_swaps_no_exit : forall len n l s, no_exit s -> no_exit (fold_left (brev_swap len n) l s).
Proof. induction l as [|km l IH]; intros s H; cbn; [exact H|]. apply IH, brev_swap_no_exit, H. Qed.

Theorem fft_out_of_bounds : forall pi n a, (1 <= n)%Z -> ~ is_power_of_two n ->
  fast_fourier_alg pi n a n = UB.
Proof.
  intros pi n a Hn Hp. unfold fast_fourier_alg.
  assert (n <> 1)%Z by (intros ->; apply Hp; exists 0%Z; split; [lia|reflexivity]).
  set (T := Z.to_nat (Z.log2 (n - 1))).
  assert (HT := Z.log2_spec (n - 1) ltac:(lia)). assert (H0 := Z.log2_nonneg (n - 1)).
  assert (E1 : p2 T = (2 ^ Z.log2 (n - 1))%Z) by (unfold p2, T; f_equal; lia).
  assert (E2 : p2 (S T) = (2 ^ Z.succ (Z.log2 (n - 1)))%Z) by (unfold p2, T; f_equal; lia).
  assert (n <> p2 (S T)).
  { intro E. apply Hp. exists (Z.succ (Z.log2 (n - 1))). split; [lia|]. congruence. }
  replace (n - 1)%Z with ((n - 1) / p2 0)%Z by (rewrite p2_0; apply Z.div_1_r).
  replace 1%Z with (p2 0) at 3 by reflexivity.
  apply (stages_bad pi n T) with (d := T); [lia|lia|lia| |].
  - unfold T. assert (Z.log2 (n - 1) <= Z.log2 n)%Z by (apply Z.log2_le_mono; lia). lia.
  - apply brev_swaps_no_exit. right. eauto.
Qed.

Lemma power_of_two_p2 : forall n, is_power_of_two n <-> exists M, n = p2 M.
Proof.
  intro n. split.
  - intros (m & H & ->). exists (Z.to_nat m). unfold p2. f_equal. lia.
  - intros (M & ->). exists (Z.of_nat M). split; [lia|reflexivity].
Qed.

Lemma power_of_two_double : forall n, is_power_of_two (2 * n + 2) <-> is_power_of_two (n + 1).
Proof.
  intro n. rewrite !power_of_two_p2. split.
  - intros (M & H). destruct M as [|M].
    + rewrite p2_0 in H. lia.
    + rewrite p2_S in H. exists M. lia.
  - intros (M & H). exists (S M). rewrite p2_S. lia.
Qed.

Theorem sine_out_of_bounds : forall pi n inv row, (0 <= n)%Z -> ~ is_power_of_two (n + 1) ->
  fast_sine_transform pi n inv row = UB.
Proof.
  intros pi n inv row Hn Hp. unfold fast_sine_transform. rewrite wr_ok, bind_ok by lia.
  rewrite wr_ok, bind_ok by lia.
  destruct (sine_fill_all n row (updv (updv zeros 0%Z c0) n c0) Hn) as (a & Ea & _).
  { intro i. unfold updv, zeros. destruct (i =? n)%Z, (i =? 0)%Z; reflexivity. }
  rewrite Ea, bind_ok. rewrite fft_out_of_bounds; [reflexivity|lia|]. now rewrite power_of_two_double.
Qed.

(** ** The cosine transform *)

Theorem cosine_out_of_bounds : forall pi n inv row, (3 <= n)%Z -> fast_cosine_transform pi n inv row = UB.
Proof.
  intros pi n inv row Hn. unfold fast_cosine_transform.
  rewrite for_up_first by lia.
  assert (E : cosine_fill n row 0 (Ok zeros) = UB).
  { unfold cosine_fill. rewrite bind_ok. unfold set_re at 1. rewrite rd_ok, bind_ok by lia.
    rewrite wr_ok, bind_ok by lia. unfold set_im at 1. rewrite rd_bad by lia. reflexivity. }
  rewrite E. unfold for_up. rewrite for_n_ub by reflexivity. reflexivity.
Qed.

Lemma cosine_two_in_bounds : forall pi inv row, exists r, fast_cosine_transform pi 2 inv row = Ok r.
Proof.
  intros pi inv row. unfold fast_cosine_transform. rewrite for_up_empty by lia.
  unfold bind at 1. unfold set_re, set_im.
  replace (2 * 2 - 2)%Z with 2%Z by lia.
  replace (2 - 1)%Z with 1%Z by lia. replace (2 - 2)%Z with 0%Z by lia.
  unfold bind. rewrite !rd_ok by lia.
  repeat first [rewrite wr_ok by lia | rewrite rd_ok by lia].
  match goal with |- context [fast_fourier_alg pi 2 ?a 2] =>
    destruct (fft_error pi 1 2 a ltac:(cbn; lia)) as (b & Hb & _) end.
  change (p2 1) with 2%Z in Hb. rewrite Hb.
  unfold for_up. cbn. eexists. reflexivity.
Qed.

(** ** The transform of real data *)

Lemma fourier_fill_all : forall n row (a0 : cvec), (0 <= n)%Z ->
  exists a, for_up 0 n (fourier_fill n row) (Ok a0) = Ok a /\
    forall i, (0 <= i < n)%Z -> a i = cre (row i).
Proof.
  intros n row a0 Hn.
  set (P := fun (k : Z) (s : outcome cvec) => exists a, s = Ok a /\
    (forall i, (0 <= i < k)%Z -> a i = cre (row i))).
  apply (for_up_inv P); [lia| |].
  - exists a0. split; [reflexivity|]. intros; lia.
  - intros k s Hk (a & -> & A). unfold P, fourier_fill, bind. rewrite wr_ok by lia.
    eexists. split; [reflexivity|]. intros i Hi. destruct (Z.eq_dec i k) as [->|N].
    + now rewrite updv_same.
    + rewrite updv_other by exact N. apply A. lia.
Qed.

Lemma fourier_take_all : forall n (a : cvec) (row : vec), (0 <= n)%Z ->
  exists a' r, for_up 0 n (fourier_take n) (Ok (a, row)) = Ok (a', r) /\
    (forall k, (0 <= k < n)%Z -> r k = fst (a k)) /\ (forall k, ~ (0 <= k < n)%Z -> r k = row k).
Proof.
  intros n a row Hn.
  set (P := fun (k : Z) (s : outcome (cvec * vec)) => exists r, s = Ok (a, r) /\
    (forall j, (0 <= j < k)%Z -> r j = fst (a j)) /\
    (forall j, ~ (0 <= j < k)%Z -> r j = row j)).
  assert (G : P n (for_up 0 n (fourier_take n) (Ok (a, row)))).
  { apply for_up_inv; [lia| |].
    - exists row. repeat split; intros; auto; lia.
    - intros k s Hk (r & -> & A2 & A3). unfold P, fourier_take, bind.
      rewrite rd_ok by lia. eexists. split; [reflexivity|]. split; intros j Hj.
      + destruct (Z.eq_dec j k) as [->|N]; [now rewrite updv_same|]. rewrite updv_other by exact N. apply A2. lia.
      + rewrite updv_other by lia. apply A3. lia. }
  destruct G as (r & E & A2 & A3). exists a, r. auto.
Qed.

Theorem fourier_out_of_bounds : forall pi n inv row, (1 <= n)%Z -> ~ is_power_of_two n ->
  fast_fourier_transform pi n inv row = UB.
Proof.
  intros pi n inv row Hn Hp. unfold fast_fourier_transform.
  destruct (fourier_fill_all n row zeros ltac:(lia)) as (a & Ea & _).
  rewrite Ea, bind_ok. now rewrite fft_out_of_bounds.
Qed.

Theorem fourier_exact : forall M row,
  exists r, fast_fourier_transform PI (p2 M) false row = Ok r /\
    forall k, (0 <= k < p2 M)%Z -> r k = fst (dft (p2 M) (fun j => cre (row j)) k).
Proof.
  intros M row. assert (P := p2_pos M). unfold fast_fourier_transform.
  destruct (fourier_fill_all (p2 M) row zeros ltac:(lia)) as (a & Ea & Ha).
  rewrite Ea, bind_ok.
  destruct (fft_exact M (p2 M) a ltac:(lia)) as (b & Eb & Hb & _). rewrite Eb, bind_ok.
  destruct (fourier_take_all (p2 M) b row ltac:(lia)) as (a' & r & Er & Hr & _).
  rewrite Er, bind_ok. exists r. split; [reflexivity|]. intros k Hk.
  rewrite Hr, Hb by exact Hk. f_equal. apply dft_ext. exact Ha.
Qed.

(** ** Order of the iterations

    The two "omp parallel for" loops of fast_fourier_alg: for every power of two the result does
    not depend on the order in which the iterations are executed. *)

Theorem reorder_any_order : forall M len a l, (p2 M <= len)%Z -> Permutation (zrange 0 (p2 M)) l ->
  exists b b', fold_left (brev_swap len (p2 M)) l (Ok a) = Ok b /\
    fold_left (brev_swap len (p2 M)) (zrange 0 (p2 M)) (Ok a) = Ok b' /\ forall i, b i = b' i.
Proof.
  intros M len a l Hlen Hp.
  destruct (reorder M len (zrange 0 (p2 M)) a Hlen (zrange_nodup _ _)) as (b' & E' & H1' & H2');
    [intro k; apply zrange_in|].
  destruct (reorder M len l a Hlen) as (b & E & H1 & H2).
  - eapply Permutation_NoDup; [exact Hp|apply zrange_nodup].
  - intro k. rewrite <- zrange_in. split; intro H; [apply Permutation_in with l; [now apply Permutation_sym|exact H]
      |now apply Permutation_in with (zrange 0 (p2 M))].
  - exists b, b'. split; [exact E|]. split; [exact E'|]. intro i.
    destruct (Z_le_gt_dec 0 i) as [L|L]; [destruct (Z_lt_le_dec i (p2 M)) as [L2|L2]|].
    + rewrite H1, H1' by lia. reflexivity.
    + rewrite H2, H2' by lia. reflexivity.
    + rewrite H2, H2' by lia. reflexivity.
Qed.

Lemma stage_fits : forall M s len k m, (s < M)%nat -> (p2 M <= len)%Z ->
  In (k, m) (stage_list (p2 M) (p2 s)) -> fits len (p2 s) (k, m).
Proof.
  intros M s len k m Hs Hlen H. assert (Ph := p2_pos s). assert (PM := p2_pos M).
  assert (EM : p2 M = (p2 (M - S s) * (2 * p2 s))%Z).
  { rewrite <- p2_S, <- p2_add. f_equal. lia. }
  apply in_stage_list in H; [|lia|lia]. destruct H as (H1 & H2 & H3). unfold fits; cbn [fst snd].
  repeat split; try lia.
  pose proof (Z.div_mod m (2 * p2 s) ltac:(lia)).
  assert (m / (2 * p2 s) < p2 (M - S s))%Z by (apply Z.div_lt_upper_bound; lia). nia.
Qed.

Theorem stage_any_order : forall pi M s len a l, (s < M)%nat -> (p2 M <= len)%Z ->
  Permutation (stage_list (p2 M) (p2 s)) l ->
  exists b b', fold_left (butterfly pi len (p2 s)) l (Ok a) = Ok b /\
    stage pi len (p2 M) (p2 s) (Ok a) = Ok b' /\ forall i, b i = b' i.
Proof.
  intros pi M s len a l Hs Hlen Hp. assert (Ph := p2_pos s).
  assert (Hnd := nodup_stage_list (p2 M) (p2 s) Ph).
  destruct (stage_fold pi len (p2 s) Ph (stage_list (p2 M) (p2 s)) a Hnd) as (b' & E' & H1' & H2').
  { intros [k m] H. now apply (stage_fits M s). }
  destruct (stage_fold pi len (p2 s) Ph l a) as (b & E & H1 & H2).
  { eapply Permutation_NoDup; [exact Hp|exact Hnd]. }
  { intros [k m] H. apply (stage_fits M s); auto. apply Permutation_in with l; [now apply Permutation_sym|exact H]. }
  exists b, b'. split; [exact E|]. split; [exact E'|]. intro i.
  destruct (in_dec (fun x y : Z * Z => ltac:(decide equality; apply Z.eq_dec))
              (i mod (2 * p2 s), i)%Z (stage_list (p2 M) (p2 s))) as [I|I].
  { destruct (H1' _ _ I) as [A _]. destruct (H1 (i mod (2 * p2 s))%Z i) as [B _]; [now apply Permutation_in with (1 := Hp)|].
    congruence. }
  destruct (in_dec (fun x y : Z * Z => ltac:(decide equality; apply Z.eq_dec))
              ((i - p2 s) mod (2 * p2 s), i - p2 s)%Z (stage_list (p2 M) (p2 s))) as [J|J].
  { destruct (H1' _ _ J) as [_ A]. destruct (H1 _ _ (Permutation_in _ Hp J)) as [_ B].
    replace (i - p2 s + p2 s)%Z with i in * by lia. congruence. }
  assert (N : forall k m, In (k, m) (stage_list (p2 M) (p2 s)) -> i <> m /\ i <> (m + p2 s)%Z).
  { intros k m H. assert (F := proj1 (in_stage_list (p2 M) (p2 s) k m Ph ltac:(pose proof (p2_pos M); lia)) H).
    destruct F as (F1 & F2 & F3). split; intro E0; subst i.
    - apply I. now rewrite F2.
    - apply J. replace (m + p2 s - p2 s)%Z with m by lia. now rewrite F2. }
  rewrite H2', H2; [reflexivity| |exact N].
  intros k m H. apply (N k m). apply Permutation_in with l; [now apply Permutation_sym|exact H].
Qed.

(** ** The full transform keeps only real parts *)

Lemma fourier_inv_is_scaled : forall pi n row r, fast_fourier_transform pi n false row = Ok r ->
  fast_fourier_transform pi n true row = Ok (scale_row n (fun x => 1 / IZR n * x) r).
Proof.
  intros pi n row r H. unfold fast_fourier_transform, bind in *.
  destruct (for_up 0 n (fourier_fill n row) (Ok zeros)); try discriminate.
  destruct (fast_fourier_alg pi n a n); try discriminate.
  destruct (for_up 0 n (fourier_take n) (Ok (a0, row))) as [[x y]| |]; try discriminate.
  now injection H as ->.
Qed.

Lemma fourier_not_inverse :
  exists row r r', fast_fourier_transform PI 4 false row = Ok r /\ fast_fourier_transform PI 4 true r = Ok r' /\
    row 1%Z = 1 /\ r' 1%Z = 1 / 2.
Proof.
  set (row := fun j : Z => if (j =? 1)%Z then 1 else 0).
  destruct (fourier_exact 2 row) as (r & E & H). change (p2 2) with 4%Z in *.
  destruct (fourier_exact 2 r) as (s & E2 & H2). change (p2 2) with 4%Z in *.
  exists row, r, (scale_row 4 (fun x => 1 / 4 * x) s). split; [exact E|].
  split; [exact (fourier_inv_is_scaled _ _ _ _ E2)|]. split; [reflexivity|].
  rewrite scale_row_at by lia. cbn [Z.leb Z.ltb Z.compare andb]. rewrite H2 by lia.
  assert (R0 : forall x, fst (dft 4 (fun j => cre (x j)) 1) = x 0%Z - x 2%Z).
  { intro x. unfold dft, csum. cbn [fst]. 
    rewrite (zsum_ext _ (fun j => x j * cos (PI * IZR j / 2))).
    2:{ intros j Hj. unfold cmul, cre, cis. cbn [fst snd]. rewrite cos_neg.
        replace (2 * PI * IZR (j * 1) / 4) with (PI * IZR j / 2) by (rewrite Z.mul_1_r; field). ring. }
    change 4%Z with (0 + 1 + 1 + 1 + 1)%Z. rewrite !zsum_last by lia. rewrite zsum_empty by lia.
    change (0 + 1 + 1 + 1)%Z with 3%Z. change (0 + 1 + 1)%Z with 2%Z. change (0 + 1)%Z with 1%Z.
    replace (PI * 0 / 2) with 0 by field. replace (PI * 1 / 2) with (PI / 2) by field.
    replace (PI * 2 / 2) with PI by field. replace (PI * 3 / 2) with (3 * (PI / 2)) by field.
    rewrite cos_0, cos_PI2, cos_PI, cos_3PI2. ring. }
  rewrite R0. rewrite !H by lia.
  assert (K : forall k, fst (dft 4 (fun j => cre (row j)) k) = cos (PI * IZR k / 2)).
  { intro k. unfold dft, csum. cbn [fst].
    rewrite (zsum_ext _ (fun j => if (j =? 1)%Z then cos (PI * IZR k / 2) else 0)).
    - change 4%Z with (0 + 1 + 1 + 1 + 1)%Z. rewrite !zsum_last by lia. rewrite zsum_empty by lia.
      cbn. ring.
    - intros j Hj. unfold cmul, cre, cis, row. cbn [fst snd]. destruct (Z.eqb_spec j 1) as [->|N]; [|ring].
      rewrite cos_neg. replace (2 * PI * IZR (1 * k) / 4) with (PI * IZR k / 2) by (rewrite Z.mul_1_l; field). ring. }
  rewrite !K. replace (PI * 0 / 2) with 0 by field. replace (PI * 2 / 2) with PI by field.
  rewrite cos_0, cos_PI. change (1 <? 4)%Z with true. cbv iota. field.
Qed.
