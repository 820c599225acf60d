(** The Poisson solvers, src/poissonDirichlet.cpp and src/poissonNeumann.cpp.

    The value of PI is a parameter as in [Fourier]; the code's value is [Constants.c_PI].
    Divisions by computed quantities are checked. Calling the transforms through a null pointer
    (lines 31 and 28) is not regarded as an error. The parallel loops of poissonDirichlet.cpp are run in order. The parallel region of
    poissonNeumann.cpp is treated separately below because it has a data race. *)
From Coq Require Import Reals ZArith List.
From Verif.Lib Require Import Outcome Grid Vec Par.
From Verif.Model Require Import Constants Tridiag Fourier.
Import ListNotations.
Local Open Scope R_scope.
Local Open Scope outcome_scope.

(** poissonDirichlet.cpp 57: b = 2. * (1. - dr*dr/(dz*dz) * (cos(PI*(k+1)/(n_grid_z+1)) - 1)) *)
Definition b_dirichlet (pi dr dz : R) (n_z k : Z) : R :=
  2 * (1 - dr * dr / (dz * dz) * (cos (pi * IZR (k + 1) / IZR (n_z + 1)) - 1)).

(** poissonNeumann.cpp 53: b = 2.0 - 2.0*(cos(PI*k/(n_grid_z-1)) - 1)*dr*dr/(dz*dz) *)
Definition b_neumann (pi dr dz : R) (n_z k : Z) : R :=
  2 - 2 * (cos (pi * IZR k / IZR (n_z - 1)) - 1) * dr * dr / (dz * dz).

(** poissonDirichlet.cpp 58, 68; poissonNeumann.cpp 54, 64: right-hand side. *)
Definition sweep_d (dr : R) (t : vec) (i : Z) : R := dr * dr * t i / EPSILON0.

(** poissonDirichlet.cpp 66-67; poissonNeumann.cpp 62-63 *)
Definition sweep_a (i : Z) : R := 1 - 1 / (2 * IZR i).
Definition sweep_c (i : Z) : R := 1 + 1 / (2 * IZR i).

(** poissonDirichlet.cpp 59-60; poissonNeumann.cpp 55-56: element 1 of alpha and beta. *)
Definition sweep_first (dr b : R) (t : vec) (ab : vec * vec) : outcome (vec * vec) :=
  do alpha1 <- fdiv 4 (2 + b);
  do beta1 <- fdiv (sweep_d dr t 0) (2 + b);
  Ok (updv (fst ab) 1%Z alpha1, updv (snd ab) 1%Z beta1).

(** poissonDirichlet.cpp 62-72; poissonNeumann.cpp 58-68: loop body of the forward sweep. *)
Definition sweep_step (dr b : R) (t : vec) (i : Z) (s : outcome (vec * vec)) : outcome (vec * vec) :=
  do (alpha, beta) <- s;
  let a := sweep_a i in
  let c := sweep_c i in
  let d := sweep_d dr t i in
  do x <- fdiv c (b - alpha i * a);
  let alpha' := updv alpha (i + 1)%Z x in
  do y <- fdiv (d + beta i * a) (b - alpha' i * a);
  Ok (alpha', updv beta (i + 1)%Z y).

(** poissonDirichlet.cpp 75-76; poissonNeumann.cpp 70-71: loop body of the back substitution. *)
Definition sweep_back (ab : vec * vec) (i : Z) (f : vec) : vec :=
  updv f i (snd ab (i + 1)%Z + fst ab (i + 1)%Z * f (i + 1)%Z).

(** Body of the loop over the harmonics: coefficient [b], right-hand side column [t],
    column [f] of fi (whose last element is the given boundary value). *)
Definition sweep (n_r : Z) (dr b : R) (t : vec) (ab : vec * vec) (f : vec) : outcome ((vec * vec) * vec) :=
  do ab1 <- for_up 1 (n_r - 1) (sweep_step dr b t) (sweep_first dr b t ab);
  Ok (ab1, for_down (n_r - 2) 0 (sweep_back ab1) f).

Definition get_col (a : arr) (k : Z) : vec := fun i => a i k.
Definition set_col (a : arr) (k : Z) (v : vec) : arr := fun i k' => if (k' =? k)%Z then v i else a i k'.
Definition set_row (a : arr) (i : Z) (v : vec) : arr := fun i' k => if (i' =? i)%Z then v k else a i' k.

(** Loop over the harmonics, poissonDirichlet.cpp 54-77 (k increasing); alpha and beta are reused. *)
Definition sweep_harmonic (n_r : Z) (dr : R) (bk : Z -> R) (t : arr) (k : Z) (s : outcome ((vec * vec) * arr))
  : outcome ((vec * vec) * arr) :=
  do (ab, fi) <- s;
  do (ab1, f) <- sweep n_r dr (bk k) (get_col t k) ab (get_col fi k);
  Ok (ab1, set_col fi k f).
Definition sweeps (n_r n_z : Z) (dr : R) (bk : Z -> R) (t : arr) (s : (vec * vec) * arr)
  : outcome ((vec * vec) * arr) :=
  for_up 0 n_z (sweep_harmonic n_r dr bk t) (Ok s).

(** A transform applied to every row, poissonDirichlet.cpp 49-51 and 80-85. *)
Definition transform_rows (n_r : Z) (tr : vec -> outcome vec) (a : arr) : outcome arr :=
  for_up 0 n_r (fun i s => do x <- s; do r <- tr (x i); Ok (set_row x i r)) (Ok a).

(** poissonDirichlet.cpp 88-90 *)
Definition poisson_e_r (n_r n_z : Z) (dr : R) (fi e : arr) : arr :=
  fun i k => if ((0 <=? i) && (i <? n_r - 1) && ((0 <=? k) && (k <? n_z)))%Z%bool
             then (fi i k - fi (i + 1)%Z k) / dr else e i k.

(** poissonDirichlet.cpp 92-94 *)
Definition poisson_e_z (n_r n_z : Z) (dz : R) (fi e : arr) : arr :=
  fun i k => if ((0 <=? i) && (i <? n_r) && ((0 <=? k) && (k <? n_z - 1)))%Z%bool
             then (fi i k - fi i (k + 1)%Z) / dz else e i k.

Record poisson_out := Pout { po_fi : arr; po_er : arr; po_ez : arr }.

(** poissonDirichlet.cpp 23-98: poisson_solve. [ab0] is the content of the new arrays alpha and
    beta (indeterminate); [fi], [er], [ez] are the arrays of the field object before the call. *)
Definition poisson_dirichlet (pi : R) (n_r n_z : Z) (dr dz : R) (rho fi er ez : arr) (ab0 : vec * vec)
  : outcome poisson_out :=
  do t <- transform_rows n_r (fast_sine_transform pi n_z false) rho;
  do (_, fi1) <- sweeps n_r n_z dr (b_dirichlet pi dr dz n_z) t (ab0, fi);
  do fi2 <- transform_rows n_r (fast_sine_transform pi n_z true) fi1;
  Ok (Pout fi2 (poisson_e_r n_r n_z dr fi2 er) (poisson_e_z n_r n_z dz fi2 ez)).

(** poissonNeumann.cpp 20-90, executed by a single thread. *)
Definition poisson_neumann (pi : R) (n_r n_z : Z) (dr dz : R) (rho fi er ez : arr) (ab0 : vec * vec)
  : outcome poisson_out :=
  do t <- transform_rows n_r (fast_cosine_transform pi n_z false) rho;
  do (_, fi1) <- sweeps n_r n_z dr (b_neumann pi dr dz n_z) t (ab0, fi);
  do fi2 <- transform_rows n_r (fast_cosine_transform pi n_z true) fi1;
  Ok (Pout fi2 (poisson_e_r n_r n_z dr fi2 er) (poisson_e_z n_r n_z dz fi2 ez)).

(** ** The loop over the harmonics of poissonNeumann.cpp as it is shared between threads

    The variables a, b, c, d and the arrays alpha and beta are declared before the parallel region
    (lines 22-27), so all threads use the same ones (lines 36, 50-72). One iteration of the
    loop as a list of assignments to shared locations: *)
Inductive loc := Va | Vb | Vc | Vd | Alpha (i : Z) | Beta (i : Z) | Fi (i k : Z) | Rho (i k : Z).

Definition loc_eqb (x y : loc) : bool :=
  match x, y with
  | Va, Va | Vb, Vb | Vc, Vc | Vd, Vd => true
  | Alpha i, Alpha j | Beta i, Beta j => (i =? j)%Z
  | Fi i k, Fi j l | Rho i k, Rho j l => ((i =? j) && (k =? l))%Z%bool
  | _, _ => false
  end.

Definition nth_r (l : list R) (n : nat) : R := nth n l 0.

Definition neumann_forward (dr : R) (k i : Z) : list (asg (L := loc) (V := R)) :=
  [ Asg Va [] (fun _ => sweep_a i);
    Asg Vc [] (fun _ => sweep_c i);
    Asg Vd [Rho i k] (fun l => dr * dr * nth_r l 0 / EPSILON0);
    Asg (Alpha (i + 1)) [Vc; Vb; Alpha i; Va]
      (fun l => nth_r l 0 / (nth_r l 1 - nth_r l 2 * nth_r l 3));
    Asg (Beta (i + 1)) [Vd; Beta i; Va; Vb; Alpha i; Va]
      (fun l => (nth_r l 0 + nth_r l 1 * nth_r l 2) / (nth_r l 3 - nth_r l 4 * nth_r l 5)) ].

Definition neumann_back (k i : Z) : asg (L := loc) (V := R) :=
  Asg (Fi i k) [Beta (i + 1); Alpha (i + 1); Fi (i + 1) k]
    (fun l => nth_r l 0 + nth_r l 1 * nth_r l 2).

Definition neumann_harmonic (pi dr dz : R) (n_r n_z k : Z) : list (asg (L := loc) (V := R)) :=
  [ Asg Vb [] (fun _ => b_neumann pi dr dz n_z k);
    Asg Vd [Rho 0 k] (fun l => dr * dr * nth_r l 0 / EPSILON0);
    Asg (Alpha 1) [Vb] (fun l => 4 / (2 + nth_r l 0));
    Asg (Beta 1) [Vd; Vb] (fun l => nth_r l 0 / (2 + nth_r l 1)) ] ++
  flat_map (neumann_forward dr k) (zrange 1 (n_r - 1)) ++
  map (neumann_back k) (rev (zrange 0 (n_r - 1))).

Definition neumann_loop (pi dr dz : R) (n_r n_z : Z) : list (list (asg (L := loc) (V := R))) :=
  map (neumann_harmonic pi dr dz n_r n_z) (zrange 0 n_z).

(** poissonNeumann.cpp 88-89: "delete [] alpha; delete [] beta;" inside the parallel region, so
    each of the [threads] threads executes them; freeing a freed block is undefined. *)
Fixpoint free_by (threads : nat) (allocated : bool) : outcome bool :=
  match threads with
  | O => Ok allocated
  | S n => if allocated then free_by n false else UB
  end.
