(** Properties C31-C34 and C56: the linear algebra, the fast transforms and the Poisson solvers. *)
From Coq Require Import Reals ZArith Lra Lia List Psatz Permutation.
From Verif.Lib Require Import RAux Outcome Grid Vec Cplx Par.
From Verif.Model Require Import Constants Tridiag Fourier Poisson.
From Verif.Spec Require Import Linear Dft PoissonEq.
From Verif.Proof Require Import TridiagP FourierP DstP FourierP2 PoissonP.
Import ListNotations.
Local Open Scope R_scope.

(** C31. If the determinants of the leading blocks do not vanish (which is what the pivots need),
    the solver finishes without dividing by zero, its result satisfies all equations, and nothing
    outside the first n elements of x is written. *)
Theorem C31_solves : forall a b c d x n, (1 <= n)%Z ->
  (forall m, (1 <= m <= Z.to_nat n)%nat -> minor a b c m <> 0) ->
  exists c' d' y, tridiagonal_solve a b c d x n = Ok (c', d', y) /\ tri_solves a b c d y n /\
    (forall i, (i < 0 \/ n <= i)%Z -> y i = x i).
Proof. intros a b c d x n Hn H. apply tri_solves_pivots; [exact Hn|]. now apply piv_minors. Qed.
Print Assumptions C31_solves.

(** Diagonally dominant matrices. *)
Theorem C31_dominant : forall a b c d x n, (1 <= n)%Z -> dominant a b c n ->
  exists c' d' y, tridiagonal_solve a b c d x n = Ok (c', d', y) /\ tri_solves a b c d y n /\
    (forall i, (i < 0 \/ n <= i)%Z -> y i = x i).
Proof.
  intros a b c d x n Hn D. apply tri_solves_pivots; [exact Hn|].
  intros i Hi. exact (proj1 (dominant_pivot a b c n D i Hi)).
Qed.
Print Assumptions C31_dominant.

(** There is only one solution, so the result is the solution. *)
Theorem C31_unique : forall a b c d x y n,
  (forall m, (1 <= m <= Z.to_nat n)%nat -> minor a b c m <> 0) ->
  tri_solves a b c d x n -> tri_solves a b c d y n -> forall i, (0 <= i < n)%Z -> x i = y i.
Proof. intros a b c d x y n H. apply tri_unique_pivots. now apply piv_minors. Qed.
Print Assumptions C31_unique.

(** The condition cannot be weakened: with a vanishing leading determinant the solver divides by
    zero, also when the system has a unique solution. *)
Theorem C31_zero_pivot : forall a b c d x n m, (1 <= m <= Z.to_nat n)%nat -> minor a b c m = 0 ->
  tridiagonal_solve a b c d x n = UB.
Proof. exact tri_zero_minor. Qed.
Print Assumptions C31_zero_pivot.

Example C31_hypotheses_met :
  dominant (fun _ => -1) (fun _ => 3) (fun _ => 1) 5 /\
  (forall m, (1 <= m <= 5)%nat -> minor (fun _ => -1) (fun _ => 3) (fun _ => 1) m <> 0) /\
  minor (fun _ => 1) (fun i => if (i =? 0)%Z then 0 else 1) (fun _ => 1) 1 = 0.
Proof.
  split; [|split].
  - intros i Hi. rewrite (Rabs_pos_eq 1), (Rabs_pos_eq 3), (Rabs_left (-1)) by lra.
    destruct (0 <? i)%Z, (i <? 5 - 1)%Z; lra.
  - intros m Hm. assert (C : (m = 1 \/ m = 2 \/ m = 3 \/ m = 4 \/ m = 5)%nat) by lia.
    destruct C as [->|[->|[->|[->| ->]]]]; unfold minor; cbn; lra.
  - unfold minor. cbn. lra.
Qed.

(** C32. The sweep with either solver's coefficient (any value of PI, any harmonic) never divides
    by zero, its result satisfies the difference equation of the harmonic on the axis and at every
    inner node, and the boundary value at the outer wall is kept. *)
Theorem C32_dirichlet_sweep : forall pi n_r n_z dr dz k t ab f, (2 <= n_r)%Z -> 0 < dr -> 0 < dz ->
  exists ab1 g, sweep n_r dr (b_dirichlet pi dr dz n_z k) t ab f = Ok (ab1, g) /\
    (forall i, (0 <= i <= n_r - 2)%Z ->
       harmonic_eq dr dz (2 - 2 * cos (pi * IZR (k + 1) / IZR (n_z + 1))) EPSILON0 t g i) /\
    (forall i, (i < 0 \/ n_r - 1 <= i)%Z -> g i = f i).
Proof.
  intros pi n_r n_z dr dz k t ab f Hn Hr Hz. rewrite b_dirichlet_eq by lra.
  apply sweep_harmonic_eq; auto. assert (B := COS_bound (pi * IZR (k + 1) / IZR (n_z + 1))). lra.
Qed.
Print Assumptions C32_dirichlet_sweep.

Theorem C32_neumann_sweep : forall pi n_r n_z dr dz k t ab f, (2 <= n_r)%Z -> 0 < dr -> 0 < dz ->
  exists ab1 g, sweep n_r dr (b_neumann pi dr dz n_z k) t ab f = Ok (ab1, g) /\
    (forall i, (0 <= i <= n_r - 2)%Z ->
       harmonic_eq dr dz (2 - 2 * cos (pi * IZR k / IZR (n_z - 1))) EPSILON0 t g i) /\
    (forall i, (i < 0 \/ n_r - 1 <= i)%Z -> g i = f i).
Proof.
  intros pi n_r n_z dr dz k t ab f Hn Hr Hz. rewrite b_neumann_eq by lra.
  apply sweep_harmonic_eq; auto. assert (B := COS_bound (pi * IZR k / IZR (n_z - 1))). lra.
Qed.
Print Assumptions C32_neumann_sweep.

(** All harmonics one after the other with reused arrays: every harmonic satisfies its equations,
    the outer row is kept. *)
Theorem C32_all_harmonics : forall pi n_r n_z dr dz t ab fi, (2 <= n_r)%Z -> (0 <= n_z)%Z -> 0 < dr -> 0 < dz ->
  exists ab1 g, sweeps n_r n_z dr (b_dirichlet pi dr dz n_z) t (ab, fi) = Ok (ab1, g) /\
    (forall i k, (0 <= k < n_z)%Z -> (0 <= i <= n_r - 2)%Z ->
       harmonic_eq dr dz (2 - 2 * cos (pi * IZR (k + 1) / IZR (n_z + 1))) EPSILON0
         (fun i => t i k) (fun i => g i k) i) /\
    (forall i k, (k < 0 \/ n_z <= k \/ i < 0 \/ n_r - 1 <= i)%Z -> g i k = fi i k).
Proof.
  intros pi n_r n_z dr dz t ab fi Hn Hnz Hr Hz.
  replace (b_dirichlet pi dr dz n_z) with
    (fun k => 2 + dr * dr / (dz * dz) * (2 - 2 * cos (pi * IZR (k + 1) / IZR (n_z + 1)))).
  - apply (sweeps_solve n_r n_z dr dz (fun k => 2 - 2 * cos (pi * IZR (k + 1) / IZR (n_z + 1)))); auto.
    intro k. assert (B := COS_bound (pi * IZR (k + 1) / IZR (n_z + 1))). lra.
  - apply FunctionalExtensionality.functional_extensionality. intro k. rewrite b_dirichlet_eq by lra. reflexivity.
Qed.
Print Assumptions C32_all_harmonics.

(** The Neumann solver runs the loop over the harmonics in parallel with shared variables and
    shared arrays alpha, beta. Run by one thread the loop gives the right result on this input; two
    threads can produce a column that violates its equation. *)
Theorem C32_neumann_parallel_refuted :
  exists m m', omp_for loc_eqb (neumann_loop 1 1 1 2 2) m m' /\
    ~ harmonic_eq 1 1 (2 - 2 * cos 0) EPSILON0 (fun i => m (Rho i 0)) (fun i => m' (Fi i 0)) 0 /\
    (forall k, (0 <= k < 2)%Z ->
       harmonic_eq 1 1 (2 - 2 * cos (1 * IZR k / IZR (2 - 1))) EPSILON0 (fun i => m (Rho i k))
         (fun i => exec loc_eqb (concat (neumann_loop 1 1 1 2 2)) m (Fi i k)) 0).
Proof.
  exists race_mem, race_end. split; [exact race_happens|]. split; [exact race_wrong|exact race_serial_right].
Qed.
Print Assumptions C32_neumann_parallel_refuted.

(** Each thread frees alpha and beta: with two or more threads a freed block is freed again. *)
Theorem C32_neumann_free_refuted : forall threads, (2 <= threads)%nat -> free_by threads true = UB.
Proof. intros [|[|n]] H; try lia. reflexivity. Qed.
Print Assumptions C32_neumann_free_refuted.

Example C32_hypotheses_met :
  let n_r := 6%Z in let n_z := 7%Z in let dr := 1 / 4 in let dz := 1 / 2 in
  (2 <= n_r)%Z /\ (0 <= n_z)%Z /\ 0 < dr /\ 0 < dz.
Proof. cbv zeta. repeat split; try lia; lra. Qed.

(** C33. The butterfly network on any array with at least 2^M elements is in bounds and returns the
    discrete Fourier sums when the constant PI is the number pi; other elements are kept. *)
Theorem C33_dft : forall n len a, is_power_of_two n -> (n <= len)%Z ->
  exists b, fast_fourier_alg PI len a n = Ok b /\
    (forall k, (0 <= k < n)%Z -> b k = dft n a k) /\ (forall i, ~ (0 <= i < n)%Z -> b i = a i).
Proof. intros n len a Hp Hl. apply power_of_two_p2 in Hp. destruct Hp as (M & ->). now apply fft_exact. Qed.
Print Assumptions C33_dft.

(** With the decimal value of PI in the code the error of every output is at most
    log2(n) 10^-16 times the sum of the moduli of the inputs. *)
Theorem C33_dft_code_pi : forall n len a, is_power_of_two n -> (n <= len)%Z ->
  exists b, fast_fourier_alg c_PI len a n = Ok b /\
    (forall k, (0 <= k < n)%Z ->
       cmod (csub (b k) (dft n a k)) <= IZR (Z.log2 n) * / 10 ^ 16 * zsum (fun j => cmod (a j)) 0 n) /\
    (forall i, ~ (0 <= i < n)%Z -> b i = a i).
Proof.
  intros n len a Hp Hl. apply power_of_two_p2 in Hp. destruct Hp as (M & ->).
  destruct (fft_error c_PI M len a Hl) as (b & E & H & H'). exists b. split; [exact E|]. split; [|exact H'].
  intros k Hk. eapply Rle_trans; [apply H; exact Hk|].
  assert (EM : IZR (Z.log2 (p2 M)) = INR M).
  { rewrite INR_IZR_INZ. f_equal. unfold p2. rewrite Z.log2_pow2 by lia. reflexivity. }
  rewrite EM. apply Rmult_le_compat_r; [apply zsum_nonneg; intros; apply cmod_pos|].
  apply Rmult_le_compat_l; [apply pos_INR|exact c_PI_close].
Qed.
Print Assumptions C33_dft_code_pi.

(** The sine transform of a row with n elements, n + 1 a power of two. *)
Theorem C33_sine : forall n row, (0 <= n)%Z -> is_power_of_two (n + 1) ->
  exists r, fast_sine_transform PI n false row = Ok r /\ forall k, (0 <= k < n)%Z -> r k = dst n row k.
Proof.
  intros n row Hn Hp. apply power_of_two_double, power_of_two_p2 in Hp. destruct Hp as (M & HM).
  now apply (sine_exact M).
Qed.
Print Assumptions C33_sine.

Theorem C33_sine_roundtrip : forall n row, (0 <= n)%Z -> is_power_of_two (n + 1) ->
  exists r r', fast_sine_transform PI n false row = Ok r /\ fast_sine_transform PI n true r = Ok r' /\
    forall k, r' k = row k.
Proof.
  intros n row Hn Hp. apply power_of_two_double, power_of_two_p2 in Hp. destruct Hp as (M & HM).
  destruct (sine_roundtrip_error PI M n row Hn HM) as (r & r' & E & E' & H & H').
  exists r, r'. split; [exact E|]. split; [exact E'|]. intro k.
  destruct (Z_lt_dec k 0) as [L|L]; [apply H'; lia|]. destruct (Z_lt_dec k n) as [L2|L2]; [|apply H'; lia].
  assert (A := H k ltac:(lia)). cbv zeta in A. replace (PI - PI) with 0 in A by ring. rewrite Rabs_R0 in A.
  assert (Z0 : Rabs (r' k - row k) <= 0) by nra.
  assert (Z1 := Rle_abs (r' k - row k)). assert (Z2 := Rle_abs (- (r' k - row k))).
  rewrite Rabs_Ropp in Z2. lra.
Qed.
Print Assumptions C33_sine_roundtrip.

(** With the code's PI the roundtrip error is at most 5 log2(2n+2) 10^-16 times the sum of the
    moduli. *)
Theorem C33_sine_roundtrip_code_pi : forall n row, (0 <= n)%Z -> is_power_of_two (n + 1) ->
  (Z.log2 (2 * n + 2) <= 64)%Z ->
  exists r r', fast_sine_transform c_PI n false row = Ok r /\ fast_sine_transform c_PI n true r = Ok r' /\
    forall k, (0 <= k < n)%Z ->
      Rabs (r' k - row k) <= 5 * (IZR (Z.log2 (2 * n + 2)) * / 10 ^ 16) * zsum (fun j => Rabs (row j)) 0 n.
Proof.
  intros n row Hn Hp Hl. apply power_of_two_double, power_of_two_p2 in Hp. destruct Hp as (M & HM).
  destruct (sine_roundtrip_error c_PI M n row Hn HM) as (r & r' & E & E' & H & H').
  exists r, r'. split; [exact E|]. split; [exact E'|]. intros k Hk.
  eapply Rle_trans; [apply H; exact Hk|]. rewrite HM in *.
  assert (EM : IZR (Z.log2 (p2 M)) = INR M).
  { rewrite INR_IZR_INZ. f_equal. unfold p2. rewrite Z.log2_pow2 by lia. reflexivity. }
  assert (LM : IZR (Z.log2 (p2 M)) <= 64) by (apply IZR_le; exact Hl).
  rewrite EM in *. assert (C := c_PI_close). assert (P := pos_INR M).
  assert (P2 := Rabs_pos (c_PI - PI)).
  apply Rmult_le_compat_r; [apply zsum_nonneg; intros; apply Rabs_pos|].
  set (e := INR M * Rabs (c_PI - PI)). set (e0 := INR M * / 10 ^ 16).
  assert (e <= e0) by (apply Rmult_le_compat_l; assumption).
  assert (0 <= e) by (apply Rmult_le_pos; assumption).
  assert (e0 <= 1 / 2).
  { unfold e0. assert (/ 10 ^ 16 <= / 128) by (apply Rinv_le_contravar; lra). 
    assert (0 < / 10 ^ 16) by (apply Rinv_0_lt_compat; lra). nra. }
  nra.
Qed.
Print Assumptions C33_sine_roundtrip_code_pi.

(** The full transform of real data keeps only real parts, so its inverse does not recover the
    data (no solver uses it). *)
Theorem C33_full_inverse_refuted :
  exists row r r', fast_fourier_transform PI 4 false row = Ok r /\ fast_fourier_transform PI 4 true r = Ok r' /\
    row 1%Z = 1 /\ r' 1%Z = 1 / 2.
Proof. exact fourier_not_inverse. Qed.
Print Assumptions C33_full_inverse_refuted.

(** The loops of the network may run in any order (they are independent iterations). *)
Theorem C33_order : forall pi n len,
  (forall a l, is_power_of_two n -> (n <= len)%Z -> Permutation (zrange 0 n) l ->
     exists b b', fold_left (brev_swap len n) l (Ok a) = Ok b /\
       fold_left (brev_swap len n) (zrange 0 n) (Ok a) = Ok b' /\ forall i, b i = b' i) /\
  (forall a l h, is_power_of_two n -> is_power_of_two h -> (h < n)%Z -> (n <= len)%Z ->
     Permutation (stage_list n h) l ->
     exists b b', fold_left (butterfly pi len h) l (Ok a) = Ok b /\
       stage pi len n h (Ok a) = Ok b' /\ forall i, b i = b' i).
Proof.
  intros pi n len. split.
  - intros a l Hp. apply power_of_two_p2 in Hp. destruct Hp as (M & ->). apply reorder_any_order.
  - intros a l h Hp Hh Hlt Hl. apply power_of_two_p2 in Hp. destruct Hp as (M & ->).
    apply power_of_two_p2 in Hh. destruct Hh as (s & ->). apply stage_any_order; [|exact Hl].
    unfold p2 in Hlt. apply Z.pow_lt_mono_r_iff in Hlt; lia.
Qed.
Print Assumptions C33_order.

Example C33_hypotheses_met : is_power_of_two 16 /\ (0 <= 15)%Z /\ is_power_of_two (15 + 1) /\
  (Z.log2 (2 * 15 + 2) <= 64)%Z /\ is_power_of_two 4 /\ (4 < 16)%Z.
Proof.
  assert (P : is_power_of_two 16) by (exists 4%Z; split; [lia|reflexivity]).
  repeat split; try exact P; try (cbn; lia). exists 2%Z. split; [lia|reflexivity].
Qed.

(** C34. Exactly which lengths are in bounds. The sine transform: n + 1 a power of two. *)
Theorem C34_sine : forall pi n inv row, (0 <= n)%Z ->
  (is_power_of_two (n + 1) -> exists r, fast_sine_transform pi n inv row = Ok r /\
     (forall k, ~ (0 <= k < n)%Z -> r k = row k)) /\
  (~ is_power_of_two (n + 1) -> fast_sine_transform pi n inv row = UB).
Proof.
  intros pi n inv row Hn. split.
  - intro Hp. apply power_of_two_double, power_of_two_p2 in Hp. destruct Hp as (M & HM).
    destruct (sine_error pi M n row Hn HM) as (r & E & _ & H). destruct inv.
    + eexists. split; [apply sine_inv_is_scaled; exact E|]. intros k Hk. rewrite scale_row_at by exact Hn.
      destruct (Z.leb_spec 0 k), (Z.ltb_spec k n); cbn [andb]; try (apply H; lia). lia.
    + exists r. split; [exact E|exact H].
  - now apply sine_out_of_bounds.
Qed.
Print Assumptions C34_sine.

(** The full transform: n a power of two. *)
Theorem C34_fourier : forall pi n inv row, (1 <= n)%Z -> ~ is_power_of_two n ->
  fast_fourier_transform pi n inv row = UB.
Proof. exact fourier_out_of_bounds. Qed.
Print Assumptions C34_fourier.

(** The claim is false: the cosine transform writes behind its array for every useful length, ... *)
Theorem C34_cosine_refuted : forall pi n inv row, (3 <= n)%Z -> fast_cosine_transform pi n inv row = UB.
Proof. exact cosine_out_of_bounds. Qed.
Print Assumptions C34_cosine_refuted.

(** ... and with it the Neumann solver; the Dirichlet solver leaves the arrays of the transform
    unless n_grid_z + 1 is a power of two. *)
Theorem C34_solvers_refuted : forall pi n_r n_z dr dz rho fi er ez ab0, (1 <= n_r)%Z ->
  ((3 <= n_z)%Z -> poisson_neumann pi n_r n_z dr dz rho fi er ez ab0 = UB) /\
  ((0 <= n_z)%Z -> ~ is_power_of_two (n_z + 1) ->
     poisson_dirichlet pi n_r n_z dr dz rho fi er ez ab0 = UB).
Proof.
  intros pi n_r n_z dr dz rho fi er ez ab0 Hn. split; intros.
  - now apply poisson_neumann_ub.
  - now apply poisson_dirichlet_ub.
Qed.
Print Assumptions C34_solvers_refuted.

Example C34_hypotheses_met : is_power_of_two (15 + 1) /\ ~ is_power_of_two (16 + 1) /\ ~ is_power_of_two 17.
Proof.
  split; [exists 4%Z; split; [lia|reflexivity]|].
  assert (N : ~ is_power_of_two 17).
  { intros (m & Hm & E). assert (4 < m \/ m <= 4)%Z as [L|L] by lia.
    - assert (H : (2 ^ 5 <= 2 ^ m)%Z) by (apply Z.pow_le_mono_r; lia). change (2 ^ 5)%Z with 32%Z in H. lia.
    - assert (H : (2 ^ m <= 2 ^ 4)%Z) by (apply Z.pow_le_mono_r; lia). change (2 ^ 4)%Z with 16%Z in H. lia. }
  split; exact N.
Qed.

(** C56. The Dirichlet solver as a whole: for every charge density, the potential it leaves
    solves the difference form of Poisson's equation at every node but those of the outer wall,
    with grounded walls, and the electric field is minus its difference gradient. PI is the number
    pi here. *)
Theorem C56_poisson : forall n_r n_z dr dz rho fi er ez ab0,
  (2 <= n_r)%Z -> (0 <= n_z)%Z -> is_power_of_two (n_z + 1) -> 0 < dr -> 0 < dz ->
  (forall k, (0 <= k < n_z)%Z -> fi (n_r - 1)%Z k = 0) ->
  exists out, poisson_dirichlet PI n_r n_z dr dz rho fi er ez ab0 = Ok out /\
    (forall i k, (0 <= i <= n_r - 2)%Z -> (0 <= k < n_z)%Z ->
       poisson_eq dr dz EPSILON0 n_z rho (po_fi out) i k) /\
    (forall k, (0 <= k < n_z)%Z -> po_fi out (n_r - 1)%Z k = 0) /\
    (forall i k, (0 <= i < n_r - 1)%Z -> (0 <= k < n_z)%Z ->
       po_er out i k = - (po_fi out (i + 1)%Z k - po_fi out i k) / dr) /\
    (forall i k, (0 <= i < n_r)%Z -> (0 <= k < n_z - 1)%Z ->
       po_ez out i k = - (po_fi out i (k + 1)%Z - po_fi out i k) / dz).
Proof. exact poisson_dirichlet_solves. Qed.
Print Assumptions C56_poisson.

Example C56_hypotheses_met : (2 <= 9)%Z /\ (0 <= 15)%Z /\ is_power_of_two (15 + 1) /\ 0 < 1 / 4 /\ 0 < 1 / 2 /\
  (forall k, (0 <= k < 15)%Z -> zero_arr (9 - 1)%Z k = 0).
Proof.
  repeat split; try lia; try lra. exists 4%Z. split; [lia|reflexivity].
Qed.
