(** Proofs about the Poisson solvers. *)
From Coq Require Import Reals ZArith Lia Lra Psatz List Bool Permutation Relations FunctionalExtensionality.
From Verif.Lib Require Import RAux Outcome Grid Vec Cplx Par.
From Verif.Model Require Import Constants Tridiag Fourier Poisson.
From Verif.Spec Require Import Dft PoissonEq.
From Verif.Proof Require Import BunchP FourierP DstP FourierP2.
Import ListNotations.
Local Open Scope R_scope.

(** ** The coefficient b *)

Lemma b_dirichlet_eq : forall pi dr dz n k, dz <> 0 ->
  b_dirichlet pi dr dz n k = 2 + dr * dr / (dz * dz) * (2 - 2 * cos (pi * IZR (k + 1) / IZR (n + 1))).
Proof. intros. unfold b_dirichlet. field. assumption. Qed.

Lemma b_neumann_eq : forall pi dr dz n k, dz <> 0 ->
  b_neumann pi dr dz n k = 2 + dr * dr / (dz * dz) * (2 - 2 * cos (pi * IZR k / IZR (n - 1))).
Proof. intros. unfold b_neumann. field. assumption. Qed.

Lemma b_ge_2 : forall dr dz x, 0 < dz -> 2 <= 2 + dr * dr / (dz * dz) * (2 - 2 * cos x).
Proof.
  intros dr dz x Hz. assert (B := COS_bound x).
  assert (0 <= dr * dr / (dz * dz)) by (apply Rdiv_nonneg; nra).
  assert (0 <= dr * dr / (dz * dz) * (2 - 2 * cos x)) by (apply Rmult_le_pos; lra). lra.
Qed.

Lemma sweep_a_bounds : forall i, (1 <= i)%Z -> 1 / 2 <= sweep_a i < 1 /\ sweep_c i = 2 - sweep_a i.
Proof.
  intros i Hi. assert (H : 1 <= IZR i) by (apply IZR_ge1; exact Hi). unfold sweep_a, sweep_c.
  assert (0 < 1 / (2 * IZR i)) by (apply Rdiv_pos; lra).
  assert (1 / (2 * IZR i) <= 1 / 2).
  { unfold Rdiv. rewrite !Rmult_1_l. apply Rinv_le_contravar; lra. }
  split; lra.
Qed.

(** ** One harmonic *)

Section Harmonic.
Variables (dr b : R) (t : vec) (n_r : Z).
Hypothesis Hb : 2 <= b.

(** State when the elements 1 .. k of alpha and beta have been computed. *)
Definition sw_inv (k : Z) (s : outcome (vec * vec)) : Prop :=
  exists al be, s = Ok (al, be) /\
    (forall i, (1 <= i <= k)%Z -> 0 < al i <= 1) /\
    (2 + b) * al 1%Z = 4 /\ (2 + b) * be 1%Z = sweep_d dr t 0 /\
    (forall i, (1 <= i < k)%Z ->
       (b - al i * sweep_a i) * al (i + 1)%Z = sweep_c i /\
       (b - al i * sweep_a i) * be (i + 1)%Z = sweep_d dr t i + be i * sweep_a i).

Lemma sw_first : forall ab, sw_inv 1 (sweep_first dr b t ab).
Proof.
  intro ab. unfold sweep_first. rewrite !fdiv_ok by lra. rewrite !bind_ok.
  eexists _, _. split; [reflexivity|]. rewrite !updv_same.
  repeat match goal with |- _ /\ _ => split end.
  - intros i Hi. replace i with 1%Z by lia. rewrite updv_same.
    split; [apply Rdiv_pos; lra|apply Rdiv_le_1; lra].
  - field. lra.
  - field. lra.
  - intros i Hi. lia.
Qed.

Lemma sw_step : forall k s, (1 <= k)%Z -> sw_inv k s -> sw_inv (k + 1) (sweep_step dr b t k s).
Proof.
  intros k s Hk (al & be & -> & A1 & A2 & A3 & A4). unfold sweep_step. rewrite bind_ok.
  destruct (sweep_a_bounds k Hk) as [[B1 B2] B3]. destruct (A1 k ltac:(lia)) as [P1 P2].
  assert (D : sweep_c k <= b - al k * sweep_a k) by (rewrite B3; nra).
  assert (D0 : 0 < b - al k * sweep_a k) by lra.
  rewrite (fdiv_ok (sweep_c k)) by lra. rewrite bind_ok. rewrite (updv_other al (k + 1) _ k) by lia.
  rewrite fdiv_ok by lra. rewrite bind_ok. eexists _, _. split; [reflexivity|].
  repeat match goal with |- _ /\ _ => split end.
  - intros i Hi. destruct (Z.eq_dec i (k + 1)) as [->|N].
    + rewrite updv_same. split; [apply Rdiv_pos; lra|apply Rdiv_le_1; lra].
    + rewrite updv_other by exact N. apply A1. lia.
  - rewrite updv_other by lia. exact A2.
  - rewrite updv_other by lia. exact A3.
  - intros i Hi. destruct (Z.eq_dec i k) as [->|N].
    + rewrite !updv_same, !updv_other by lia. split; field; lra.
    + rewrite !updv_other by lia. apply A4. lia.
Qed.

Lemma sw_all : forall ab, (2 <= n_r)%Z ->
  sw_inv (n_r - 1) (for_up 1 (n_r - 1) (sweep_step dr b t) (sweep_first dr b t ab)).
Proof.
  intros ab Hn. apply (for_up_inv sw_inv); [lia|apply sw_first|].
  intros i s Hi. apply sw_step. lia.
Qed.

Lemma sw_back : forall ab f, (2 <= n_r)%Z ->
  let g := for_down (n_r - 2) 0 (sweep_back ab) f in
  (forall i, (0 <= i <= n_r - 2)%Z -> g i = snd ab (i + 1)%Z + fst ab (i + 1)%Z * g (i + 1)%Z) /\
  (forall i, (i < 0 \/ n_r - 2 < i)%Z -> g i = f i).
Proof.
  intros ab f Hn g. subst g.
  set (P := fun (k : Z) (g : vec) =>
    (forall i, (k < i <= n_r - 2)%Z -> g i = snd ab (i + 1)%Z + fst ab (i + 1)%Z * g (i + 1)%Z) /\
    (forall i, (i <= k \/ n_r - 2 < i)%Z -> g i = f i)).
  assert (G : P (0 - 1)%Z (for_down (n_r - 2) 0 (sweep_back ab) f)).
  { apply for_down_inv; [lia| |].
    - split; intros i Hi; [lia|reflexivity].
    - intros i g Hi [G1 G2]. unfold sweep_back. split; intros j Hj.
      + destruct (Z.eq_dec j i) as [->|N].
        * rewrite updv_same, updv_other by lia. reflexivity.
        * rewrite !updv_other by lia. apply G1. lia.
      + rewrite updv_other by lia. apply G2. lia. }
  destruct G as [G1 G2]. split; intros i Hi; [apply G1; lia|apply G2; lia].
Qed.

(** The result of the sweep satisfies the three-point equations. *)
Lemma sweep_solves : forall ab f, (2 <= n_r)%Z ->
  exists ab1 g, sweep n_r dr b t ab f = Ok (ab1, g) /\
    (2 + b) * g 0%Z = 4 * g 1%Z + sweep_d dr t 0 /\
    (forall i, (1 <= i <= n_r - 2)%Z ->
       sweep_a i * g (i - 1)%Z - b * g i + sweep_c i * g (i + 1)%Z = - sweep_d dr t i) /\
    (forall i, (i < 0 \/ n_r - 1 <= i)%Z -> g i = f i).
Proof.
  intros ab f Hn. unfold sweep.
  destruct (sw_all ab Hn) as (al & be & E & A1 & A2 & A3 & A4). rewrite E, bind_ok.
  destruct (sw_back (al, be) f Hn) as [B1 B2]. cbn [fst snd] in B1.
  eexists _, _. split; [reflexivity|].
  set (g := for_down (n_r - 2) 0 (sweep_back (al, be)) f) in *.
  repeat match goal with |- _ /\ _ => split end.
  - assert (E0 := B1 0%Z ltac:(lia)). change (0 + 1)%Z with 1%Z in E0.
    rewrite E0, Rmult_plus_distr_l, <- Rmult_assoc, A2, A3. ring.
  - intros i Hi. destruct (A4 i ltac:(lia)) as [F1 F2].
    assert (E0 := B1 (i - 1)%Z ltac:(lia)). replace (i - 1 + 1)%Z with i in E0 by lia.
    assert (E1 := B1 i ltac:(lia)).
    assert (E2 : (b - al i * sweep_a i) * g i =
                 sweep_d dr t i + be i * sweep_a i + sweep_c i * g (i + 1)%Z).
    { rewrite E1, Rmult_plus_distr_l, F2, <- Rmult_assoc, F1. reflexivity. }
    rewrite E0. nra.
  - intros i Hi. apply B2. lia.
Qed.
End Harmonic.

(** The same as a difference equation in physical form. *)
Lemma sweep_harmonic_eq : forall dr dz lam t n_r ab f, 0 < dr -> 0 < dz -> 0 <= lam -> (2 <= n_r)%Z ->
  exists ab1 g, sweep n_r dr (2 + dr * dr / (dz * dz) * lam) t ab f = Ok (ab1, g) /\
    (forall i, (0 <= i <= n_r - 2)%Z -> harmonic_eq dr dz lam EPSILON0 t g i) /\
    (forall i, (i < 0 \/ n_r - 1 <= i)%Z -> g i = f i).
Proof.
  intros dr dz lam t n_r ab f Hr Hz Hl Hn.
  assert (Hb : 2 <= 2 + dr * dr / (dz * dz) * lam).
  { assert (0 <= dr * dr / (dz * dz)) by (apply Rdiv_nonneg; nra). nra. }
  destruct (sweep_solves dr _ t n_r Hb ab f Hn) as (ab1 & g & E & E0 & E1 & E2).
  exists ab1, g. split; [exact E|]. split; [|exact E2].
  assert (Pe := EPSILON0_pos).
  intros i Hi. unfold harmonic_eq, lap_r. destruct (Z.eqb_spec i 0) as [->|N].
  - unfold sweep_d in E0.
    apply (Rmult_eq_reg_l (dr * dr)); [|nra].
    replace (dr * dr * (4 * (g 1%Z - g 0%Z) / (dr * dr) - lam / (dz * dz) * g 0%Z))
      with (4 * (g 1%Z - g 0%Z) - dr * dr / (dz * dz) * lam * g 0%Z) by (field; lra).
    replace (dr * dr * (- t 0%Z / EPSILON0)) with (- (dr * dr * t 0%Z / EPSILON0)) by (field; lra).
    lra.
  - assert (Pi : 1 <= IZR i) by (apply IZR_ge1; lia).
    assert (A := E1 i ltac:(lia)). unfold sweep_d, sweep_a, sweep_c in A.
    apply (Rmult_eq_reg_l (dr * dr)); [|nra].
    replace (dr * dr * (- t i / EPSILON0)) with (- (dr * dr * t i / EPSILON0)) by (field; lra).
    rewrite <- A. field. lra.
Qed.

(** ** All harmonics *)

Lemma set_col_same : forall a k v i, set_col a k v i k = v i.
Proof. intros. unfold set_col. now rewrite Z.eqb_refl. Qed.
Lemma set_col_other : forall a k v i k', k' <> k -> set_col a k v i k' = a i k'.
Proof. intros a k v i k' H. unfold set_col. destruct (Z.eqb_spec k' k); congruence. Qed.
Lemma set_row_same : forall a i v k, set_row a i v i k = v k.
Proof. intros. unfold set_row. now rewrite Z.eqb_refl. Qed.
Lemma set_row_other : forall a i v i' k, i' <> i -> set_row a i v i' k = a i' k.
Proof. intros a i v i' k H. unfold set_row. destruct (Z.eqb_spec i' i); congruence. Qed.

Lemma sweeps_solve : forall n_r n_z dr dz lam t ab fi, 0 < dr -> 0 < dz -> (2 <= n_r)%Z -> (0 <= n_z)%Z ->
  (forall k, 0 <= lam k) ->
  exists ab1 g, sweeps n_r n_z dr (fun k => 2 + dr * dr / (dz * dz) * lam k) t (ab, fi) = Ok (ab1, g) /\
    (forall i k, (0 <= k < n_z)%Z -> (0 <= i <= n_r - 2)%Z ->
       harmonic_eq dr dz (lam k) EPSILON0 (get_col t k) (get_col g k) i) /\
    (forall i k, (k < 0 \/ n_z <= k \/ i < 0 \/ n_r - 1 <= i)%Z -> g i k = fi i k).
Proof.
  intros n_r n_z dr dz lam t ab fi Hr Hz Hn Hnz Hl. unfold sweeps.
  set (P := fun (m : Z) (s : outcome ((vec * vec) * arr)) => exists ab1 g, s = Ok (ab1, g) /\
    (forall i k, (0 <= k < m)%Z -> (0 <= i <= n_r - 2)%Z ->
       harmonic_eq dr dz (lam k) EPSILON0 (get_col t k) (get_col g k) i) /\
    (forall i k, (k < 0 \/ m <= k \/ i < 0 \/ n_r - 1 <= i)%Z -> g i k = fi i k)).
  apply (for_up_inv P); [lia| |].
  - exists ab, fi. split; [reflexivity|]. split; intros; [lia|reflexivity].
  - intros m s Hm (ab1 & g & -> & G1 & G2). unfold P, sweep_harmonic. rewrite bind_ok.
    destruct (sweep_harmonic_eq dr dz (lam m) (get_col t m) n_r ab1 (get_col g m) Hr Hz (Hl m) Hn)
      as (ab2 & f & E & F1 & F2).
    rewrite E, bind_ok. exists ab2, (set_col g m f). split; [reflexivity|]. split; intros i k Hk.
    + intro Hi. destruct (Z.eq_dec k m) as [->|N].
      * assert (A := F1 i Hi).
        assert (Ec : forall j, get_col (set_col g m f) m j = f j) by (intro j; apply set_col_same).
        unfold harmonic_eq, lap_r in *. rewrite !Ec. exact A.
      * assert (A := G1 i k ltac:(lia) Hi).
        assert (Ec : forall j, get_col (set_col g m f) k j = get_col g k j)
          by (intro j; unfold get_col; now apply set_col_other).
        unfold harmonic_eq, lap_r in *. rewrite !Ec. exact A.
    + destruct (Z.eq_dec k m) as [->|N].
      * rewrite set_col_same, F2 by lia. unfold get_col. apply G2. lia.
      * rewrite set_col_other by exact N. apply G2. lia.
Qed.

(** ** Transforms of all rows *)

Lemma transform_rows_ok : forall n_r tr a, (0 <= n_r)%Z ->
  (forall i, (0 <= i < n_r)%Z -> exists r, tr (a i) = Ok r) ->
  exists b, transform_rows n_r tr a = Ok b /\
    (forall i, (0 <= i < n_r)%Z -> tr (a i) = Ok (b i)) /\ (forall i, ~ (0 <= i < n_r)%Z -> b i = a i).
Proof.
  intros n_r tr a Hn Htr. unfold transform_rows.
  set (P := fun (m : Z) (s : outcome arr) => exists b, s = Ok b /\
    (forall i, (0 <= i < m)%Z -> tr (a i) = Ok (b i)) /\ (forall i, ~ (0 <= i < m)%Z -> b i = a i)).
  apply (for_up_inv P); [lia| |].
  - exists a. split; [reflexivity|]. split; intros; [lia|reflexivity].
  - intros m s Hm (b & -> & B1 & B2). unfold P. rewrite bind_ok. rewrite (B2 m) by lia.
    destruct (Htr m ltac:(lia)) as (r & Er). rewrite Er, bind_ok.
    exists (set_row b m r). split; [reflexivity|]. split; intros i Hi.
    + destruct (Z.eq_dec i m) as [->|N].
      * rewrite Er. f_equal. apply functional_extensionality. intro k. now rewrite set_row_same.
      * rewrite B1 by lia. f_equal. apply functional_extensionality. intro k. now rewrite set_row_other.
    + rewrite <- B2 by lia. apply functional_extensionality. intro k. apply set_row_other. lia.
Qed.

(** ** The Dirichlet solver with the exact value of pi *)

Definition lam_d (n k : Z) : R := 2 - 2 * cos (PI * IZR (k + 1) / IZR (n + 1)).

Lemma lam_d_nonneg : forall n k, 0 <= lam_d n k.
Proof. intros. unfold lam_d. assert (B := COS_bound (PI * IZR (k + 1) / IZR (n + 1))). lra. Qed.

(** Second difference of the sine functions, including the grounded walls. *)
Lemma sine_second_difference : forall n j k, (0 <= n)%Z ->
  sine_entry n j (k + 1) - 2 * sine_entry n j k + sine_entry n j (k - 1) = - lam_d n j * sine_entry n j k.
Proof.
  intros n j k Hn. unfold sine_entry, lam_d. assert (P : IZR (n + 1) <> 0) by (apply not_0_IZR; lia).
  set (x := PI * IZR (j + 1) / IZR (n + 1)).
  set (y := PI * IZR ((j + 1) * (k + 1)) / IZR (n + 1)).
  replace (PI * IZR ((j + 1) * (k + 1 + 1)) / IZR (n + 1)) with (y + x)
    by (unfold x, y; rewrite !mult_IZR, !plus_IZR in *; field; exact P).
  replace (PI * IZR ((j + 1) * (k - 1 + 1)) / IZR (n + 1)) with (y - x)
    by (unfold x, y; rewrite !mult_IZR, !plus_IZR, minus_IZR in *; field; exact P).
  rewrite sin_plus, sin_minus. ring.
Qed.

Lemma sine_entry_left : forall n j, sine_entry n j (-1) = 0.
Proof.
  intros n j. unfold sine_entry. replace ((j + 1) * (-1 + 1))%Z with 0%Z by lia.
  replace (PI * 0 / IZR (n + 1)) with 0 by (unfold Rdiv; ring). apply sin_0.
Qed.

Lemma sine_entry_right : forall n j, (0 <= n)%Z -> sine_entry n j n = 0.
Proof.
  intros n j Hn. unfold sine_entry. assert (P : IZR (n + 1) <> 0) by (apply not_0_IZR; lia).
  replace (PI * IZR ((j + 1) * (n + 1)) / IZR (n + 1)) with (PI * IZR (j + 1)).
  - apply sin_IZR_PI.
  - rewrite mult_IZR. field. exact P.
Qed.

Lemma lap_r_sum : forall dr (F : Z -> Z -> R) (s : Z -> R) n i,
  lap_r dr (fun i => zsum (fun j => F i j * s j) 0 n) i = zsum (fun j => lap_r dr (fun i => F i j) i * s j) 0 n.
Proof.
  intros dr F s n i. unfold lap_r. destruct (i =? 0)%Z.
  - replace (4 * (zsum (fun j => F 1%Z j * s j) 0 n - zsum (fun j => F 0%Z j * s j) 0 n) / (dr * dr))
      with (4 / (dr * dr) * (zsum (fun j => F 1%Z j * s j) 0 n - zsum (fun j => F 0%Z j * s j) 0 n))
      by (unfold Rdiv; ring).
    rewrite <- zsum_minus, <- zsum_scal. apply zsum_ext. intros. unfold Rdiv. ring.
  - set (A := zsum (fun j => F (i + 1)%Z j * s j) 0 n). set (B := zsum (fun j => F i j * s j) 0 n).
    set (C := zsum (fun j => F (i - 1)%Z j * s j) 0 n).
    replace ((A - 2 * B + C) / (dr * dr) + 1 / (IZR i * dr) * ((A - C) / (2 * dr)))
      with (/ (dr * dr) * ((A - 2 * B) + C) + 1 / (IZR i * dr) * / (2 * dr) * (A - C))
      by (unfold Rdiv; ring).
    unfold A, B, C. rewrite <- (zsum_scal 2 (fun j => F i j * s j)).
    rewrite <- (zsum_minus (fun j => F (i + 1)%Z j * s j)).
    rewrite <- (zsum_plus _ (fun j => F (i - 1)%Z j * s j)).
    rewrite <- (zsum_minus (fun j => F (i + 1)%Z j * s j)).
    rewrite <- !zsum_scal, <- zsum_plus. apply zsum_ext. intros. unfold Rdiv. ring.
Qed.

(** The field of the inverse sine transform of harmonics that satisfy their equations solves
    the equation in space. *)
Lemma harmonics_to_space : forall dr dz n_z (rho t F g : Z -> Z -> R) i,
  0 < dz -> (0 <= i)%Z -> (0 <= n_z)%Z ->
  (forall k, (0 <= k < n_z)%Z -> t i k = dst n_z (rho i) k) ->
  (forall j, (0 <= j < n_z)%Z -> harmonic_eq dr dz (lam_d n_z j) EPSILON0 (fun i => t i j) (fun i => F i j) i) ->
  (forall i' k, (i - 1 <= i' <= i + 1)%Z -> (0 <= i')%Z -> (0 <= k < n_z)%Z ->
     g i' k = 2 / IZR (n_z + 1) * dst n_z (F i') k) ->
  forall k, (0 <= k < n_z)%Z -> poisson_eq dr dz EPSILON0 n_z rho g i k.
Proof.
  intros dr dz n rho t F g i Hz Hi Hn Ht HF Hg k Hk. unfold poisson_eq.
  assert (P : 0 < IZR (n + 1)) by (apply IZR_lt; lia).
  set (c := 2 / IZR (n + 1)) in *.
  (* the continuation by zero is the sine series itself *)
  assert (G : forall k', (-1 <= k' <= n)%Z ->
    grounded n (g i) k' = c * zsum (fun j => F i j * sine_entry n j k') 0 n).
  { intros k' Hk'. unfold grounded. destruct (Z.leb_spec 0 k') as [L|L], (Z.ltb_spec k' n) as [L2|L2]; cbn [andb].
    - rewrite Hg by lia. reflexivity.
    - replace k' with n by lia. rewrite (zsum_ext _ (fun _ => 0)), zsum_zero; [ring|].
      intros j Hj. rewrite sine_entry_right by lia. ring.
    - replace k' with (-1)%Z by lia. rewrite (zsum_ext _ (fun _ => 0)), zsum_zero; [ring|].
      intros j Hj. rewrite sine_entry_left by lia. ring.
    - lia. }
  assert (Z1 : lap_z dz (grounded n (g i)) k =
               c * zsum (fun j => - (lam_d n j / (dz * dz)) * F i j * sine_entry n j k) 0 n).
  { unfold lap_z. rewrite !G by lia.
    set (A := zsum (fun j => F i j * sine_entry n j (k + 1)) 0 n).
    set (B := zsum (fun j => F i j * sine_entry n j k) 0 n).
    set (C := zsum (fun j => F i j * sine_entry n j (k - 1)) 0 n).
    replace ((c * A - 2 * (c * B) + c * C) / (dz * dz)) with (c * (/ (dz * dz) * ((A - 2 * B) + C)))
      by (unfold Rdiv; ring).
    f_equal. unfold A, B, C. rewrite <- (zsum_scal 2 (fun j => F i j * sine_entry n j k)).
    rewrite <- zsum_minus, <- zsum_plus, <- zsum_scal. apply zsum_ext. intros j Hj.
    replace (/ (dz * dz) * (F i j * sine_entry n j (k + 1) - 2 * (F i j * sine_entry n j k) +
             F i j * sine_entry n j (k - 1)))
      with (/ (dz * dz) * F i j * (sine_entry n j (k + 1) - 2 * sine_entry n j k + sine_entry n j (k - 1))) by ring.
    rewrite sine_second_difference by lia. unfold Rdiv. ring. }
  assert (Z2 : lap_r dr (fun i => g i k) i =
               c * zsum (fun j => lap_r dr (fun i => F i j) i * sine_entry n j k) 0 n).
  { rewrite <- lap_r_sum.
    assert (E : forall i', (i - 1 <= i' <= i + 1)%Z -> (0 <= i')%Z ->
      g i' k = c * zsum (fun j => F i' j * sine_entry n j k) 0 n) by (intros; now apply Hg).
    unfold lap_r. destruct (Z.eqb_spec i 0) as [->|N].
    - rewrite !E by lia. unfold Rdiv. ring.
    - rewrite !E by lia. unfold Rdiv. ring. }
  rewrite Z1, Z2, <- Rmult_plus_distr_l, <- zsum_plus.
  rewrite (zsum_ext _ (fun j => - / EPSILON0 * (dst n (rho i) j * sine_entry n j k))).
  2:{ intros j Hj. assert (A := HF j Hj). unfold harmonic_eq in A. cbv beta in A.
      assert (A2 : lap_r dr (fun i => F i j) i = lam_d n j / (dz * dz) * F i j + - dst n (rho i) j / EPSILON0).
      { rewrite <- Ht by exact Hj. lra. }
      rewrite A2. unfold Rdiv. ring. }
  rewrite zsum_scal. fold (dst n (dst n (rho i)) k).
  change (zsum (fun j => dst n (rho i) j * sine_entry n j k) 0 n) with (dst n (dst n (rho i)) k).
  rewrite dst_dst by exact Hk. unfold c. assert (Pe := EPSILON0_pos). field. lra.
Qed.

Lemma transform_inverse : forall n_r n_z a M, (0 <= n_r)%Z -> (0 <= n_z)%Z -> (2 * n_z + 2 = p2 M)%Z ->
  exists b, transform_rows n_r (fast_sine_transform PI n_z true) a = Ok b /\
    forall i k, (0 <= i < n_r)%Z -> (0 <= k < n_z)%Z -> b i k = 2 / IZR (n_z + 1) * dst n_z (a i) k.
Proof.
  intros n_r n_z a M Hr Hz HM.
  destruct (transform_rows_ok n_r (fast_sine_transform PI n_z true) a Hr) as (b & E & B1 & _).
  { intros i Hi. destruct (sine_exact M n_z (a i) Hz HM) as (r & Er & _).
    eexists. apply sine_inv_is_scaled. exact Er. }
  exists b. split; [exact E|]. intros i k Hi Hk.
  destruct (sine_exact M n_z (a i) Hz HM) as (r & Er & Hr').
  assert (A := B1 i Hi). rewrite (sine_inv_is_scaled _ _ _ _ Er) in A. injection A as A.
  rewrite <- A, scale_row_at by exact Hz.
  destruct (Z.leb_spec 0 k), (Z.ltb_spec k n_z); try lia. cbn [andb]. rewrite Hr' by exact Hk.
  rewrite plus_IZR. assert (0 < IZR n_z + 1) by (rewrite <- plus_IZR; apply IZR_lt; lia). field. lra.
Qed.

Lemma transform_forward : forall n_r n_z a M, (0 <= n_r)%Z -> (0 <= n_z)%Z -> (2 * n_z + 2 = p2 M)%Z ->
  exists b, transform_rows n_r (fast_sine_transform PI n_z false) a = Ok b /\
    forall i k, (0 <= i < n_r)%Z -> (0 <= k < n_z)%Z -> b i k = dst n_z (a i) k.
Proof.
  intros n_r n_z a M Hr Hz HM.
  destruct (transform_rows_ok n_r (fast_sine_transform PI n_z false) a Hr) as (b & E & B1 & _).
  { intros i Hi. destruct (sine_exact M n_z (a i) Hz HM) as (r & Er & _). eauto. }
  exists b. split; [exact E|]. intros i k Hi Hk.
  destruct (sine_exact M n_z (a i) Hz HM) as (r & Er & Hr').
  assert (A := B1 i Hi). rewrite Er in A. injection A as <-. now apply Hr'.
Qed.

Lemma dst_zero : forall n x k, (forall j, (0 <= j < n)%Z -> x j = 0) -> dst n x k = 0.
Proof.
  intros n x k H. unfold dst. rewrite (zsum_ext _ (fun _ => 0)), zsum_zero; [reflexivity|].
  intros j Hj. rewrite H by exact Hj. ring.
Qed.

Theorem poisson_dirichlet_solves : forall n_r n_z dr dz rho fi er ez ab0,
  (2 <= n_r)%Z -> (0 <= n_z)%Z -> is_power_of_two (n_z + 1) -> 0 < dr -> 0 < dz ->
  (forall k, (0 <= k < n_z)%Z -> fi (n_r - 1)%Z k = 0) ->
  exists out, poisson_dirichlet PI n_r n_z dr dz rho fi er ez ab0 = Ok out /\
    (forall i k, (0 <= i <= n_r - 2)%Z -> (0 <= k < n_z)%Z ->
       poisson_eq dr dz EPSILON0 n_z rho (po_fi out) i k) /\
    (forall k, (0 <= k < n_z)%Z -> po_fi out (n_r - 1)%Z k = 0) /\
    (forall i k, (0 <= i < n_r - 1)%Z -> (0 <= k < n_z)%Z ->
       po_er out i k = - (po_fi out (i + 1)%Z k - po_fi out i k) / dr) /\
    (forall i k, (0 <= i < n_r)%Z -> (0 <= k < n_z - 1)%Z ->
       po_ez out i k = - (po_fi out i (k + 1)%Z - po_fi out i k) / dz).
Proof.
  intros n_r n_z dr dz rho fi er ez ab0 Hr Hnz Hp Pr Pz Hfi.
  apply power_of_two_double in Hp. apply power_of_two_p2 in Hp. destruct Hp as [M HM].
  unfold poisson_dirichlet.
  destruct (transform_forward n_r n_z rho M ltac:(lia) Hnz HM) as (t & Et & Ht). rewrite Et, bind_ok.
  assert (Eb : b_dirichlet PI dr dz n_z = fun k => 2 + dr * dr / (dz * dz) * lam_d n_z k).
  { apply functional_extensionality. intro k. rewrite b_dirichlet_eq by lra. reflexivity. }
  rewrite Eb.
  destruct (sweeps_solve n_r n_z dr dz (lam_d n_z) t ab0 fi Pr Pz Hr Hnz (lam_d_nonneg n_z))
    as (ab1 & F & EF & HF & HF2).
  rewrite EF, bind_ok.
  destruct (transform_inverse n_r n_z F M ltac:(lia) Hnz HM) as (g & Eg & Hg). rewrite Eg, bind_ok.
  eexists. split; [reflexivity|]. cbn [po_fi po_er po_ez].
  repeat match goal with |- _ /\ _ => split end.
  - intros i k Hi Hk. apply (harmonics_to_space dr dz n_z rho t F g i); auto; try lia.
    + intros j Hj. apply Ht; lia.
    + intros j Hj. apply (HF i j Hj Hi).
    + intros i' k' Hi' Hi0 Hk'. apply Hg; lia.
  - intros k Hk. rewrite Hg by lia. rewrite dst_zero; [ring|]. intros j Hj. rewrite HF2 by lia. now apply Hfi.
  - intros i k Hi Hk. unfold poisson_e_r.
    destruct (Z.leb_spec 0 i), (Z.ltb_spec i (n_r - 1)), (Z.leb_spec 0 k), (Z.ltb_spec k n_z); try lia. cbn [andb].
    unfold Rdiv. ring.
  - intros i k Hi Hk. unfold poisson_e_z.
    destruct (Z.leb_spec 0 i), (Z.ltb_spec i n_r), (Z.leb_spec 0 k), (Z.ltb_spec k (n_z - 1)); try lia. cbn [andb].
    unfold Rdiv. ring.
Qed.

(** ** The Neumann solver *)

Lemma transform_rows_ub : forall n_r tr a, (1 <= n_r)%Z -> tr (a 0%Z) = UB -> transform_rows n_r tr a = UB.
Proof.
  intros n_r tr a Hn H. unfold transform_rows. rewrite for_up_first by lia. rewrite bind_ok, H.
  apply for_up_ub. reflexivity.
Qed.

Theorem poisson_neumann_ub : forall pi n_r n_z dr dz rho fi er ez ab0,
  (1 <= n_r)%Z -> (3 <= n_z)%Z -> poisson_neumann pi n_r n_z dr dz rho fi er ez ab0 = UB.
Proof.
  intros. unfold poisson_neumann. rewrite transform_rows_ub; [reflexivity|lia|]. now apply cosine_out_of_bounds.
Qed.

Lemma transform_rows_err : forall n_r tr a m, (0 <= m < n_r)%Z ->
  tr (a m) = UB -> (forall i, (0 <= i < m)%Z -> exists r, tr (a i) = Ok r) -> transform_rows n_r tr a = UB.
Proof.
  intros n_r tr a m Hm H Hok. unfold transform_rows.
  destruct (transform_rows_ok m tr a ltac:(lia) Hok) as (b & E & _ & B2).
  unfold transform_rows in E. rewrite (for_up_split 0 m n_r) by lia. rewrite E.
  rewrite for_up_first by lia. rewrite bind_ok, (B2 m) by lia. rewrite H. apply for_up_ub. reflexivity.
Qed.

Theorem poisson_dirichlet_ub : forall pi n_r n_z dr dz rho fi er ez ab0,
  (1 <= n_r)%Z -> (0 <= n_z)%Z -> ~ is_power_of_two (n_z + 1) ->
  poisson_dirichlet pi n_r n_z dr dz rho fi er ez ab0 = UB.
Proof.
  intros. unfold poisson_dirichlet. rewrite transform_rows_ub; [reflexivity|lia|]. now apply sine_out_of_bounds.
Qed.

(** ** The race on the shared variables of the Neumann solver *)

Definition race_mem : loc -> R :=
  fun l => match l with Rho 0 1 => EPSILON0 | _ => 0 end.

Definition race_first : list (asg (L := loc) (V := R)) := firstn 4 (neumann_harmonic 1 1 1 2 2 0).
Definition race_last : list (asg (L := loc) (V := R)) := skipn 4 (neumann_harmonic 1 1 1 2 2 0).
Definition race_end : loc -> R :=
  exec loc_eqb (race_first ++ neumann_harmonic 1 1 1 2 2 1 ++ race_last) race_mem.

Lemma cstep_many : forall (ops1 ops2 : list (uop (L := loc) (V := R))) m buf pre post,
  clos_refl_trans_1n _ (cstep loc_eqb) (m, pre ++ (ops1 ++ ops2, buf) :: post)
    (fst (urun loc_eqb ops1 (m, buf)), pre ++ (ops2, snd (urun loc_eqb ops1 (m, buf))) :: post).
Proof.
  induction ops1 as [|op ops1 IH]; intros ops2 m buf pre post.
  - cbn. constructor.
  - cbn [app]. econstructor 2; [apply cstep_intro|].
    specialize (IH ops2 (fst (ustep loc_eqb (m, buf) op)) (snd (ustep loc_eqb (m, buf) op)) pre post).
    rewrite <- surjective_pairing in IH. exact IH.
Qed.

Lemma race_happens : omp_for loc_eqb (neumann_loop 1 1 1 2 2) race_mem race_end.
Proof.
  exists [[neumann_harmonic 1 1 1 2 2 0]; [neumann_harmonic 1 1 1 2 2 1]]. split; [apply Permutation_refl|].
  exists [([], []); ([], [])]. split; [|repeat constructor].
  cbn [map concat]. rewrite !app_nil_r.
  assert (E0 : compile_all (neumann_harmonic 1 1 1 2 2 0) = compile_all race_first ++ compile_all race_last) by reflexivity.
  rewrite E0. apply clos_rt_rt1n.
  assert (S1 := cstep_many (compile_all race_first) (compile_all race_last) race_mem [] []
    [(compile_all (neumann_harmonic 1 1 1 2 2 1), [])]). rewrite urun_compile_all in S1. cbn [fst snd app] in S1.
  set (m1 := exec loc_eqb race_first race_mem) in S1.
  assert (S2 := cstep_many (compile_all (neumann_harmonic 1 1 1 2 2 1)) [] m1 []
    [(compile_all race_last, [])] []). rewrite urun_compile_all, app_nil_r in S2. cbn [fst snd app] in S2.
  set (m2 := exec loc_eqb (neumann_harmonic 1 1 1 2 2 1) m1) in S2.
  assert (S3 := cstep_many (compile_all race_last) [] m2 [] [] [([], [])]).
  rewrite urun_compile_all, app_nil_r in S3. cbn [fst snd app] in S3.
  assert (E : race_end = exec loc_eqb race_last m2) by (unfold race_end; now rewrite !exec_app).
  rewrite E. eapply rt_trans; [apply clos_rt1n_rt; exact S1|].
  eapply rt_trans; apply clos_rt1n_rt; [exact S2|exact S3].
Qed.

Lemma race_value : race_end (Fi 0 0) <> 0.
Proof.
  unfold race_end, race_first, race_last, neumann_harmonic.
  change (zrange 1 (2 - 1)) with (@nil Z). change (zrange 0 (2 - 1)) with [0%Z].
  cbn [flat_map map rev app firstn skipn exec fold_left].
  unfold exec_asg, exec, store. cbn -[IZR EPSILON0 b_neumann]. 
  unfold nth_r, race_mem. cbn -[IZR EPSILON0 b_neumann].
  assert (B : 2 <= b_neumann 1 1 1 2 1) by (rewrite b_neumann_eq by lra; apply b_ge_2; lra).
  assert (Pe := EPSILON0_pos).
  match goal with |- ?x <> 0 => replace x with (/ (2 + b_neumann 1 1 1 2 1)) by (field; lra) end.
  apply Rinv_neq_0_compat. lra.
Qed.

(** The harmonic 0 has right-hand side 0 and boundary value 0, so its solution is 0. *)
Lemma race_wrong :
  ~ harmonic_eq 1 1 (2 - 2 * cos 0) EPSILON0 (fun i => race_mem (Rho i 0)) (fun i => race_end (Fi i 0)) 0.
Proof.
  unfold harmonic_eq, lap_r. cbn [Z.eqb]. rewrite cos_0.
  assert (E1 : race_end (Fi 1 0) = 0).
  { unfold race_end, race_first, race_last, neumann_harmonic.
    change (zrange 1 (2 - 1)) with (@nil Z). change (zrange 0 (2 - 1)) with [0%Z].
    reflexivity. }
  rewrite E1. cbn [race_mem]. assert (V := race_value). assert (Pe := EPSILON0_pos). intro H.
  apply V. replace (- 0 / EPSILON0) with 0 in H by (field; lra). lra.
Qed.

Lemma race_serial_right : forall k, (0 <= k < 2)%Z ->
  let m' := exec loc_eqb (concat (neumann_loop 1 1 1 2 2)) race_mem in
  harmonic_eq 1 1 (2 - 2 * cos (1 * IZR k / IZR (2 - 1))) EPSILON0
    (fun i => race_mem (Rho i k)) (fun i => m' (Fi i k)) 0.
Proof.
  intros k Hk m'. subst m'. unfold neumann_loop. change (zrange 0 2) with [0%Z; 1%Z]. cbn [map concat].
  unfold neumann_harmonic.
  change (zrange 1 (2 - 1)) with (@nil Z). change (zrange 0 (2 - 1)) with [0%Z].
  unfold harmonic_eq, lap_r. cbn [Z.eqb].
  assert (B0 : 2 <= b_neumann 1 1 1 2 0) by (rewrite b_neumann_eq by lra; apply b_ge_2; lra).
  assert (B1 : 2 <= b_neumann 1 1 1 2 1) by (rewrite b_neumann_eq by lra; apply b_ge_2; lra).
  assert (F0 := b_neumann_eq 1 1 1 2 0 ltac:(lra)). assert (F1 := b_neumann_eq 1 1 1 2 1 ltac:(lra)).
  cbn [flat_map map rev app exec fold_left].
  unfold exec_asg, exec, store. cbn -[IZR EPSILON0 b_neumann Z.sub cos].
  unfold nth_r, race_mem. assert (Pe := EPSILON0_pos).
  assert (C : (k = 0 \/ k = 1)%Z) by lia. destruct C as [-> | ->]; cbn -[IZR EPSILON0 b_neumann Z.sub cos].
  - replace (2 - 2 * cos (1 * 0 / IZR (2 - 1))) with (b_neumann 1 1 1 2 0 - 2) by (rewrite F0; field).
    field. lra.
  - replace (2 - 2 * cos (1 * 1 / IZR (2 - 1))) with (b_neumann 1 1 1 2 1 - 2) by (rewrite F1; field).
    field. lra.
Qed.
