(** Model of the map post-processing in src/lib.cpp lines 222-311: bilinear_interpolation and
    bicubic_interpolation.

    The source map is array [true] = a, the result array [false] = b. The loop bodies are
    assignments that name the locations they read. Simplifications: the two maps do not overlap
    (they are allocated separately by the callers), and both have x_size rows of y_size elements; that the
    callers allocate one row and one column less is the subject of C42. *)
From Coq Require Import Reals ZArith Lia List Bool Permutation.
From Verif.Lib Require Import RAux Grid Par.
Import ListNotations.
Local Open Scope R_scope.

(** (is it the source map, row, column) *)
Definition mloc := (bool * Z * Z)%type.

Definition mloc_eqb (x y : mloc) : bool :=
  match x, y with (a, i, k), (b, i', k') => Bool.eqb a b && (i =? i')%Z && (k =? k')%Z end.

Lemma mloc_eqb_spec : forall x y, reflect (x = y) (mloc_eqb x y).
Proof.
  intros [[a i] k] [[b i'] k']. unfold mloc_eqb.
  destruct (Z.eqb_spec i i') as [->|N]; [|rewrite andb_false_r; constructor; congruence].
  destruct (Z.eqb_spec k k') as [->|N]; [|rewrite !andb_false_r; constructor; congruence].
  destruct a, b; cbn; constructor; congruence.
Qed.

Notation masg := (@asg mloc R).

(** line 230: mean of four *)
Definition asg_mean4 (i j : Z) : masg :=
  Asg (false, i, j) [(true, (i - 1)%Z, (j - 1)%Z); (true, i, (j - 1)%Z); (true, (i - 1)%Z, j); (true, i, j)]
    (fun v => match v with [p; q; r; s] => (p + q + r + s) / 4 | _ => 0 end).

(** line 235: mean of two on the column 0 *)
Definition asg_mean_col (i : Z) : masg :=
  Asg (false, i, 0%Z) [(true, (i - 1)%Z, 0%Z); (true, i, 0%Z)]
    (fun v => match v with [p; q] => (p + q) / 2 | _ => 0 end).

(** line 239: mean of two on the row 0 *)
Definition asg_mean_row (j : Z) : masg :=
  Asg (false, 0%Z, j) [(true, 0%Z, (j - 1)%Z); (true, 0%Z, j)]
    (fun v => match v with [p; q] => (p + q) / 2 | _ => 0 end).

(** lines 242-245: copy *)
Definition asg_copy (i j : Z) : masg :=
  Asg (false, i, j) [(true, i, j)] (fun v => match v with [p] => p | _ => 0 end).

(** All assignments of bilinear_interpolation in program order, lines 228-245. *)
Definition bilinear_loops (x_size y_size : Z) : list masg :=
  map (fun c => asg_mean4 (fst c) (snd c)) (cells 1 x_size 1 (y_size - 1))
  ++ map asg_mean_col (zrange 1 (x_size - 1))
  ++ map asg_mean_row (zrange 1 (y_size - 1)).

Definition bilinear_corners (x_size y_size : Z) : list masg :=
  [asg_copy 0 0; asg_copy (x_size - 1) 0; asg_copy 0 (y_size - 1); asg_copy (x_size - 1) (y_size - 1)].

(** One execution of bilinear_interpolation by a team of threads, [m] to [m']: the loop iterations
    are distributed over the threads in some way ("omp for"), each thread also copies the
    corners, and loads and stores interleave in some way. (The barriers after the loops rule out
    some of these executions.) *)
Definition bilinear_interpolation (x_size y_size : Z) (m m' : mloc -> R) : Prop :=
  exists shares : list (list masg), shares <> [] /\
    Permutation (concat shares) (bilinear_loops x_size y_size) /\
    interleaved mloc_eqb (map (fun s => compile_all (s ++ bilinear_corners x_size y_size)) shares) m m'.

(** bicubic_interpolation, lines 249-311. "int x = 0.5; int y = 0.5;" (lines 253-254) make both
    0, and the coefficients b1 ... b16 (lines 260-275) are computed in integers. *)
Definition bicubic_coefficients (x y : Z) : list Z :=
  let d := Z.quot in
  [ d ((x-1) * (x-2) * (x+1) * (y-1) * (y-2) * (y+1)) 4;
    d (- x * (x+1) * (x-2) * (y-1) * (y-2) * (y+1)) 4;
    d (- (x-1) * (x-2) * (x+1) * y * (y-2) * (y+1)) 4;
    d (x * (x-2) * (x+1) * y * (y-2) * (y+1)) 4;
    d (- x * (x-1) * (x-2) * (y-1) * (y-2) * (y+1)) 12;
    d (- (x-1) * (x-2) * (x+1) * y * (y-2) * (y-1)) 12;
    d (x * (x-2) * (x-1) * y * (y-2) * (y+1)) 12;
    d (x * (x-2) * (x+1) * y * (y-2) * (y-1)) 12;
    d (x * (x-1) * (x+1) * (y-1) * (y-2) * (y+1)) 12;
    d ((x-1) * (x-2) * (x+1) * y * (y-1) * (y+1)) 12;
    d (x * (x-2) * (x-1) * y * (y-2) * (y-1)) 36;
    d (- x * (x-1) * (x+1) * y * (y-2) * (y+1)) 12;
    d (- x * (x-2) * (x+1) * y * (y-1) * (y+1)) 12;
    d (- x * (x-1) * (x+1) * y * (y-2) * (y-1)) 36;
    d (- x * (x-2) * (x-1) * y * (y-1) * (y+1)) 36;
    d (x * (x-1) * (x+1) * y * (y-1) * (y+1)) 36 ]%Z.

(** The offsets of the elements multiplied by b1 ... b16, lines 277-292. *)
Definition bicubic_offsets : list (Z * Z) :=
  [ (0, 0); (0, 1); (1, 0); (1, 1); (0, -1); (-1, 0); (1, -1); (-1, 1); (0, 2); (2, 0); (-1, -1);
    (1, 2); (2, 1); (-1, 2); (2, -1); (2, 2) ]%Z.

(** lines 277-292 *)
Definition asg_bicubic (i j : Z) : masg :=
  Asg (false, i, j) (map (fun o => (true, i + fst o, j + snd o)%Z) bicubic_offsets)
    (fun v => rsum (map (fun bc => IZR (fst bc) * snd bc) (combine (bicubic_coefficients 0 0) v))).

(** lines 298-309 *)
Definition asg_zero (i j : Z) : masg := Asg (false, i, j) [] (fun _ => 0).

(** The assignments in program order. The coefficient variables are declared outside the parallel
    loop and so shared, but every thread stores the same values into them; the model keeps them
    as constants and runs the loop serially. *)
Definition bicubic_loops (x_size y_size : Z) : list masg :=
  map (fun c => asg_bicubic (fst c) (snd c)) (cells 2 (x_size - 2) 2 (y_size - 2))
  ++ flat_map (fun j => [asg_zero 0 j; asg_zero 1 j; asg_zero (x_size - 1) j; asg_zero (x_size - 2) j])
       (zrange 0 y_size)
  ++ flat_map (fun i => [asg_zero i 0; asg_zero i 1; asg_zero i (y_size - 1); asg_zero i (y_size - 2)])
       (zrange 0 x_size).

Definition bicubic_interpolation (x_size y_size : Z) (m : mloc -> R) : mloc -> R :=
  exec mloc_eqb (bicubic_loops x_size y_size) m.
