(** Complex numbers as pairs of reals: ring operations, modulus, unit circle, finite sums.
    Nothing here models particular code. *)
From Coq Require Import Reals ZArith Lia Lra Psatz.
From Verif.Lib Require Import RAux.
Local Open Scope R_scope.

Definition cplx := (R * R)%type.

Definition c0 : cplx := (0, 0).
Definition c1 : cplx := (1, 0).
Definition ci : cplx := (0, 1).
Definition cre (x : R) : cplx := (x, 0).
Definition cadd (a b : cplx) : cplx := (fst a + fst b, snd a + snd b).
Definition copp (a : cplx) : cplx := (- fst a, - snd a).
Definition csub (a b : cplx) : cplx := (fst a - fst b, snd a - snd b).
Definition cmul (a b : cplx) : cplx :=
  (fst a * fst b - snd a * snd b, fst a * snd b + snd a * fst b).

(** Quotient of complex numbers, by the textbook formula. *)
Definition cdiv (a b : cplx) : cplx :=
  let q := fst b * fst b + snd b * snd b in
  ((fst a * fst b + snd a * snd b) / q, (snd a * fst b - fst a * snd b) / q).

(** exp(i t) *)
Definition cis (t : R) : cplx := (cos t, sin t).

Lemma cplx_eq : forall a b : cplx, fst a = fst b -> snd a = snd b -> a = b.
Proof. intros [a1 a2] [b1 b2]. cbn. now intros -> ->. Qed.

Ltac csimpl := unfold cadd, csub, copp, cmul, c0, c1, ci, cre, cis in *; cbn [fst snd] in *.

Lemma cplx_ring : ring_theory c0 c1 cadd cmul csub copp eq.
Proof. constructor; intros; apply cplx_eq; csimpl; ring. Qed.

Add Ring cplx_r : cplx_ring.

Lemma cis_0 : cis 0 = c1.
Proof. unfold cis, c1. now rewrite cos_0, sin_0. Qed.

Lemma cis_add : forall x y, cis (x + y) = cmul (cis x) (cis y).
Proof. intros. apply cplx_eq; csimpl; [rewrite cos_plus|rewrite sin_plus]; ring. Qed.

Lemma cis_PI : cis PI = copp c1.
Proof. apply cplx_eq; csimpl; [rewrite cos_PI|rewrite sin_PI]; ring. Qed.

Lemma cis_2PI_nat : forall n, cis (2 * PI * INR n) = c1.
Proof.
  induction n as [|n IH].
  - cbn. rewrite Rmult_0_r. apply cis_0.
  - rewrite S_INR. replace (2 * PI * (INR n + 1)) with (2 * PI * INR n + (PI + PI)) by ring.
    rewrite cis_add, IH, cis_add, cis_PI. ring.
Qed.

Lemma cis_opp : forall x, cmul (cis x) (cis (- x)) = c1.
Proof. intro x. rewrite <- cis_add. replace (x + - x) with 0 by ring. apply cis_0. Qed.

Lemma cis_2PI : forall z, cis (2 * PI * IZR z) = c1.
Proof.
  intro z. destruct (Z_le_gt_dec 0 z) as [H|H].
  - replace z with (Z.of_nat (Z.to_nat z)) by lia. rewrite <- INR_IZR_INZ. apply cis_2PI_nat.
  - assert (E := cis_2PI_nat (Z.to_nat (- z))).
    rewrite INR_IZR_INZ in E. replace (Z.of_nat (Z.to_nat (- z))) with (- z)%Z in E by lia.
    rewrite opp_IZR in E. replace (2 * PI * - IZR z) with (- (2 * PI * IZR z)) in E by ring.
    assert (F := cis_opp (2 * PI * IZR z)). rewrite E in F.
    rewrite <- F. ring.
Qed.

(** ** Modulus *)

Definition cnorm2 (a : cplx) : R := fst a * fst a + snd a * snd a.
Definition cmod (a : cplx) : R := sqrt (cnorm2 a).

Lemma cnorm2_pos : forall a, 0 <= cnorm2 a.
Proof. intro a. unfold cnorm2. nra. Qed.

Lemma cmod_pos : forall a, 0 <= cmod a.
Proof. intro a. apply sqrt_pos. Qed.

Lemma cmod_sqr : forall a, cmod a * cmod a = cnorm2 a.
Proof. intro a. apply sqrt_sqrt, cnorm2_pos. Qed.

Lemma cmod_mul : forall a b, cmod (cmul a b) = cmod a * cmod b.
Proof.
  intros a b. unfold cmod. rewrite <- sqrt_mult by apply cnorm2_pos. f_equal.
  unfold cnorm2. csimpl. ring.
Qed.

Lemma cmod_0 : cmod c0 = 0.
Proof. unfold cmod, cnorm2, c0. cbn. replace (0 * 0 + 0 * 0) with 0 by ring. apply sqrt_0. Qed.

Lemma cmod_zero : forall a, cmod a = 0 -> a = c0.
Proof.
  intros a H. assert (E := cmod_sqr a). rewrite H in E. unfold cnorm2 in E.
  destruct a as [x y]. cbn in E. apply cplx_eq; cbn; nra.
Qed.

Lemma cmod_opp : forall a, cmod (copp a) = cmod a.
Proof. intro a. unfold cmod, cnorm2. csimpl. f_equal. ring. Qed.

Lemma cmod_cis : forall t, cmod (cis t) = 1.
Proof.
  intro t. unfold cmod, cnorm2. csimpl.
  replace (cos t * cos t + sin t * sin t) with 1; [apply sqrt_1|].
  assert (E := sin2_cos2 t). unfold Rsqr in E. lra.
Qed.

Lemma cmod_triangle : forall a b, cmod (cadd a b) <= cmod a + cmod b.
Proof.
  intros a b.
  assert (Ha := cmod_pos a). assert (Hb := cmod_pos b). assert (Hab := cmod_pos (cadd a b)).
  assert (Sa := cmod_sqr a). assert (Sb := cmod_sqr b). assert (Sab := cmod_sqr (cadd a b)).
  apply Rnot_lt_le. intro L.
  assert (C : fst a * fst b + snd a * snd b <= cmod a * cmod b).
  { apply Rnot_lt_le. intro K.
    assert (K2 : (cmod a * cmod b) * (cmod a * cmod b) <
                 (fst a * fst b + snd a * snd b) * (fst a * fst b + snd a * snd b)).
    { assert (0 <= cmod a * cmod b) by nra. nra. }
    replace ((cmod a * cmod b) * (cmod a * cmod b)) with ((cmod a * cmod a) * (cmod b * cmod b)) in K2 by ring.
    rewrite Sa, Sb in K2. unfold cnorm2 in K2.
    assert (0 <= (fst a * snd b - snd a * fst b) * (fst a * snd b - snd a * fst b)) by apply sqr_nonneg.
    nra. }
  assert (K : (cmod a + cmod b) * (cmod a + cmod b) < cmod (cadd a b) * cmod (cadd a b)) by nra.
  rewrite Sab in K. unfold cnorm2, cadd in K, Sa, Sb. cbn [fst snd] in K. nra.
Qed.

Lemma cmod_fst : forall a, Rabs (fst a) <= cmod a.
Proof.
  intro a. assert (P := cmod_pos a). assert (S := cmod_sqr a). unfold cnorm2 in S.
  apply Rabs_le. split; nra.
Qed.

Lemma cmod_cre : forall x, cmod (cre x) = Rabs x.
Proof.
  intro x. unfold cmod, cnorm2, cre. cbn [fst snd].
  replace (x * x + 0 * 0) with (Rsqr x) by (unfold Rsqr; ring). apply sqrt_Rsqr_abs.
Qed.

(** |sin u| <= |u| *)
Lemma Rabs_sin_le : forall u, Rabs (sin u) <= Rabs u.
Proof.
  assert (P : forall u, 0 <= u -> Rabs (sin u) <= u).
  { intros u Hu. destruct (Rle_lt_or_eq_dec 0 u Hu) as [L|<-].
    - assert (A := sin_lt_x u L). apply Rabs_le. split; [|lra].
      destruct (Rle_lt_dec u 1) as [L1|L1].
      + assert (0 <= sin u); [|lra]. apply sin_ge_0; [lra|]. assert (H3 := PI2_1). lra.
      + assert (B := SIN_bound u). lra.
    - rewrite sin_0, Rabs_R0. lra. }
  intro u. destruct (Rle_lt_dec 0 u) as [L|L].
  - rewrite (Rabs_pos_eq u) by lra. now apply P.
  - rewrite (Rabs_left u) by lra. rewrite <- (Rabs_Ropp (sin u)), <- sin_neg. apply P. lra.
Qed.

(** The unit circle is parametrised with speed one. *)
Lemma cmod_cis_sub : forall x y, cmod (csub (cis x) (cis y)) <= Rabs (x - y).
Proof.
  intros x y.
  assert (E : cnorm2 (csub (cis x) (cis y)) = 4 * (sin ((x - y) / 2) * sin ((x - y) / 2))).
  { unfold cnorm2. csimpl.
    assert (Cs := cos_minus x y). assert (D := cos_2a_sin ((x - y) / 2)).
    replace (2 * ((x - y) / 2)) with (x - y) in D by field.
    assert (Sx := sin2_cos2 x). assert (Sy := sin2_cos2 y). unfold Rsqr in *. nra. }
  unfold cmod. rewrite E.
  apply Rsqr_incr_0_var; [|apply Rabs_pos].
  rewrite Rsqr_sqrt; [|assert (0 <= sin ((x - y) / 2) * sin ((x - y) / 2)) by apply sqr_nonneg; lra].
  rewrite <- Rsqr_abs.
  assert (H := Rabs_sin_le ((x - y) / 2)). apply Rsqr_le_abs_1 in H. unfold Rsqr in *.
  lra.
Qed.

(** ** Sums *)

Definition csum (f : Z -> cplx) (lo hi : Z) : cplx :=
  (zsum (fun i => fst (f i)) lo hi, zsum (fun i => snd (f i)) lo hi).

Lemma csum_ext : forall f g lo hi, (forall i, (lo <= i < hi)%Z -> f i = g i) -> csum f lo hi = csum g lo hi.
Proof.
  intros f g lo hi H. unfold csum. f_equal; apply zsum_ext; intros i Hi; now rewrite H by lia.
Qed.

Lemma csum_add : forall f g lo hi, csum (fun i => cadd (f i) (g i)) lo hi = cadd (csum f lo hi) (csum g lo hi).
Proof. intros. unfold csum, cadd. cbn [fst snd]. now rewrite !zsum_plus. Qed.

Lemma csum_mul : forall c f lo hi, csum (fun i => cmul c (f i)) lo hi = cmul c (csum f lo hi).
Proof.
  intros c f lo hi. unfold csum, cmul. cbn [fst snd].
  f_equal; rewrite <- !zsum_scal; [rewrite <- zsum_minus|rewrite <- zsum_plus]; reflexivity.
Qed.

Lemma csum_empty : forall f lo hi, (hi <= lo)%Z -> csum f lo hi = c0.
Proof. intros. unfold csum. now rewrite !zsum_empty by lia. Qed.

Lemma csum_last : forall f lo hi, (lo <= hi)%Z -> csum f lo (hi + 1) = cadd (csum f lo hi) (f hi).
Proof.
  intros f lo hi H. unfold csum, cadd. cbn [fst snd]. rewrite !(zsum_last _ lo hi) by lia. reflexivity.
Qed.

Lemma csum_even_odd : forall f n, (0 <= n)%Z ->
  csum f 0 (2 * n) = cadd (csum (fun j => f (2 * j)%Z) 0 n) (csum (fun j => f (2 * j + 1)%Z) 0 n).
Proof.
  intros f n Hn. pattern n. apply natlike_ind; [| |exact Hn].
  - cbn [Z.mul]. rewrite !csum_empty by lia. ring.
  - intros k Hk IH. replace (2 * Z.succ k)%Z with ((2 * k + 1) + 1)%Z by lia.
    rewrite !csum_last by lia. unfold Z.succ. rewrite !csum_last by lia. rewrite IH. ring.
Qed.

Lemma cmod_csum : forall f lo hi, cmod (csum f lo hi) <= zsum (fun i => cmod (f i)) lo hi.
Proof.
  intros f lo hi. destruct (Z_le_gt_dec lo hi) as [L|L].
  - replace hi with (lo + Z.of_nat (Z.to_nat (hi - lo)))%Z by lia.
    generalize (Z.to_nat (hi - lo)) as n. induction n as [|n IH].
    + rewrite csum_empty, zsum_empty by lia. rewrite cmod_0. lra.
    + replace (lo + Z.of_nat (S n))%Z with (lo + Z.of_nat n + 1)%Z by lia.
      rewrite csum_last by lia. rewrite (zsum_last _ lo (lo + Z.of_nat n)) by lia.
      assert (T := cmod_triangle (csum f lo (lo + Z.of_nat n)) (f (lo + Z.of_nat n)%Z)). lra.
  - rewrite csum_empty, zsum_empty by lia. rewrite cmod_0. lra.
Qed.

Lemma zsum_even_odd : forall f n, (0 <= n)%Z ->
  zsum f 0 (2 * n) = zsum (fun j => f (2 * j)%Z) 0 n + zsum (fun j => f (2 * j + 1)%Z) 0 n.
Proof.
  intros f n Hn. assert (E := csum_even_odd (fun j => cre (f j)) n Hn).
  apply (f_equal fst) in E. exact E.
Qed.
