(** The transforms of src/math/fourier.cpp.

    Arrays of complex numbers are functions with an explicit allocated length; an access
    outside the allocated length is [UB]. The rows [a[ir]] of the real arrays passed to the
    transforms are functions; they have (at least) [lenght_n] elements in every call of the
    code (rows of length n_grid_z) and only the elements 0 .. lenght_n-1 are accessed.
    The value of PI is a parameter: the code's value is [Constants.c_PI]. Machine integers are
    unbounded integers. The "omp parallel for" loops are run in increasing order here;
    [FourierP] shows that the order does not matter. *)
From Coq Require Import Reals ZArith List.
From Verif.Lib Require Import Outcome Vec Cplx Par.
From Verif.Model Require Import Constants Tridiag.
Import ListNotations.
Local Open Scope R_scope.
Local Open Scope outcome_scope.

Definition cvec := Z -> cplx.

(** A new array: the default constructor of std::complex makes every element zero. *)
Definition zeros : cvec := fun _ => c0.

(** Checked read and write of an array with [len] elements. *)
Definition rd (len : Z) (a : cvec) (i : Z) : outcome cplx :=
  if ((0 <=? i) && (i <? len))%Z%bool then Ok (a i) else UB.
Definition wr (len : Z) (a : cvec) (i : Z) (v : cplx) : outcome cvec :=
  if ((0 <=? i) && (i <? len))%Z%bool then Ok (updv a i v) else UB.

(** fourier.cpp 98-108: the while loop that reverses the bits of k; [bt] is halved until it is
    zero, so [fuel] iterations with [2^fuel > bt] are enough. *)
Fixpoint brev_loop (fuel : nat) (bt j inver : Z) : Z :=
  match fuel with
  | O => j
  | S f =>
      if (0 <? bt)%Z
      then brev_loop f (Z.shiftr bt 1) (j + (inver mod 2) * bt)%Z (Z.shiftr inver 1)
      else j
  end.

Definition brev (n k : Z) : Z :=
  brev_loop (S (Z.to_nat (Z.log2 n))) (Z.shiftr n 1) 0%Z k.

(** fourier.cpp 95-116: one iteration of the reordering loop. *)
Definition brev_swap (len n : Z) (s : outcome cvec) (k : Z) : outcome cvec :=
  do a <- s;
  let j := brev n k in
  if (k <? j)%Z then
    do temp <- rd len a k;
    do aj <- rd len a j;
    do a1 <- wr len a k aj;
    wr len a1 j temp
  else Ok a.

(** fourier.cpp 130: W = exp((-PI*2.0*k/(n_step*2))*im_j). *)
Definition twiddle (pi : R) (k n_step : Z) : cplx :=
  cis (- pi * 2 * IZR k / (IZR (n_step * 2))).

(** fourier.cpp 134-138: one butterfly. *)
Definition butterfly (pi : R) (len n_step : Z) (s : outcome cvec) (km : Z * Z) : outcome cvec :=
  do a <- s;
  let '(k, m) := km in
  let W := twiddle pi k n_step in
  do t_comp_a <- rd len a m;
  do y <- rd len a (m + n_step)%Z;
  do a1 <- wr len a m (cadd t_comp_a (cmul W y));
  do y1 <- rd len a1 (m + n_step)%Z;
  wr len a1 (m + n_step)%Z (csub t_comp_a (cmul W y1)).

(** fourier.cpp 132: the values of m in for(m=k; m<lenght_n; m+=2*n_step), for n_step > 0. *)
Definition m_values (k n n_step : Z) : list Z :=
  map (fun t => k + t * (2 * n_step))%Z (zrange 0 ((n - k + 2 * n_step - 1) / (2 * n_step))).

(** fourier.cpp 124-140: all butterflies of one stage in program order. *)
Definition stage_list (n n_step : Z) : list (Z * Z) :=
  flat_map (fun k => map (fun m => (k, m)) (m_values k n n_step)) (zrange 0 n_step).

Definition stage (pi : R) (len n n_step : Z) (s : outcome cvec) : outcome cvec :=
  fold_left (butterfly pi len n_step) (stage_list n n_step) s.

(** fourier.cpp 120-143: the loop over the stages; [n_bit] is halved until it is zero. *)
Fixpoint stages (fuel : nat) (pi : R) (len n n_bit n_step : Z) (s : outcome cvec) : outcome cvec :=
  match fuel with
  | O => s
  | S f =>
      if (0 <? n_bit)%Z
      then stages f pi len n (Z.shiftr n_bit 1) (n_step * 2)%Z (stage pi len n n_step s)
      else s
  end.

(** fourier.cpp 93-144: fast_fourier_alg on an array with [len] allocated elements. *)
Definition fast_fourier_alg (pi : R) (len : Z) (a : cvec) (n : Z) : outcome cvec :=
  let s := fold_left (brev_swap len n) (zrange 0 n) (Ok a) in
  stages (S (Z.to_nat (Z.log2 n))) pi len n (n - 1)%Z 1%Z s.

(** fourier.cpp 27-33: loop body that builds the odd extension. *)
Definition sine_fill (n : Z) (row : vec) (k : Z) (s : outcome cvec) : outcome cvec :=
  do a <- s;
  do a1 <- wr (2 * n + 2) a (2 * n - k + 1)%Z (cre (- row k));
  wr (2 * n + 2) a1 (k + 1)%Z (cre (row k)).

(** fourier.cpp 39-43: -1.0/(2.0*im_i) * a_sinc[k+1], stored back, and its real part. *)
Definition sine_take (n : Z) (k : Z) (s : outcome (cvec * vec)) : outcome (cvec * vec) :=
  do (a, row) <- s;
  do v <- rd (2 * n + 2) a (k + 1)%Z;
  let v' := cmul (cdiv (cre (-1)) (cmul (cre 2) ci)) v in
  do a1 <- wr (2 * n + 2) a (k + 1)%Z v';
  Ok (a1, updv row k (fst v')).

(** fourier.cpp 46-52: scaling of the inverse transform. *)
Definition scale_row (n : Z) (f : R -> R) (row : vec) : vec :=
  for_up 0 n (fun k r => updv r k (f (r k))) row.

(** fourier.cpp 17-53: fast_sine_transform of one row. Elements of the new array are zero
    (default constructor of std::complex). The temporary array is never freed. *)
Definition fast_sine_transform (pi : R) (n : Z) (inv : bool) (row : vec) : outcome vec :=
  do a <- wr (2 * n + 2) zeros 0%Z c0;
  do a <- wr (2 * n + 2) a n c0;
  do a <- for_up 0 n (sine_fill n row) (Ok a);
  do a <- fast_fourier_alg pi (2 * n + 2) a (2 * n + 2);
  do (_, r) <- for_up 0 n (sine_take n) (Ok (a, row));
  Ok (if inv then scale_row n (fun x => x * 2 / (IZR n + 1)) r else r).

(** fourier.cpp 61-68: loop body that builds the even extension; real and imaginary parts are
    assigned separately, and to different elements in the first two statements. *)
Definition set_re (len : Z) (a : cvec) (i : Z) (x : R) : outcome cvec :=
  do v <- rd len a i; wr len a i (x, snd v).
Definition set_im (len : Z) (a : cvec) (i : Z) (x : R) : outcome cvec :=
  do v <- rd len a i; wr len a i (fst v, x).

Definition cosine_fill (n : Z) (row : vec) (k : Z) (s : outcome cvec) : outcome cvec :=
  do a <- s;
  do a <- set_re (2 * n - 2) a (n + k)%Z (row (n - k - 2)%Z);
  do a <- set_im (2 * n - 2) a (2 * n - k - 2)%Z 0;
  do a <- set_re (2 * n - 2) a k (row k);
  set_im (2 * n - 2) a k 0.

(** fourier.cpp 77-82 *)
Definition cosine_take (n : Z) (k : Z) (s : outcome (cvec * vec)) : outcome (cvec * vec) :=
  do (a, row) <- s;
  do v <- rd (2 * n - 2) a k;
  Ok (a, updv row k (1 / 2 * fst v)).

(** fourier.cpp 54-91: fast_cosine_transform of one row. *)
Definition fast_cosine_transform (pi : R) (n : Z) (inv : bool) (row : vec) : outcome vec :=
  do a <- for_up 0 (n - 2) (cosine_fill n row) (Ok zeros);
  do a <- set_re (2 * n - 2) a (n - 1)%Z (row (n - 1)%Z);
  do a <- set_im (2 * n - 2) a (n - 1)%Z 0;
  do a <- set_re (2 * n - 2) a (n - 2)%Z (row (n - 2)%Z);
  do a <- set_im (2 * n - 2) a (n - 2)%Z 0;
  do a <- fast_fourier_alg pi (2 * n - 2) a (2 * n - 2);
  do (_, r) <- for_up 0 n (cosine_take n) (Ok (a, row));
  Ok (if inv then scale_row n (fun x => x * 2 / (IZR n - 1)) r else r).

(** fourier.cpp 147-173: fast_fourier_transform of one row of real data. *)
Definition fourier_fill (n : Z) (row : vec) (k : Z) (s : outcome cvec) : outcome cvec :=
  do a <- s; wr n a k (cre (row k)).
Definition fourier_take (n : Z) (k : Z) (s : outcome (cvec * vec)) : outcome (cvec * vec) :=
  do (a, row) <- s; do v <- rd n a k; Ok (a, updv row k (fst v)).
Definition fast_fourier_transform (pi : R) (n : Z) (inv : bool) (row : vec) : outcome vec :=
  do a <- for_up 0 n (fourier_fill n row) (Ok zeros);
  do a <- fast_fourier_alg pi n a n;
  do (_, r) <- for_up 0 n (fourier_take n) (Ok (a, row));
  Ok (if inv then scale_row n (fun x => 1 / IZR n * x) r else r).
