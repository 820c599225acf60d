(** Model of the electric and magnetic field arrays and of their update:
    src/field.cpp, src/eField.cpp lines 1-178, src/hField.cpp lines 1-157,
    src/boundaryMaxwellConditions.cpp lines 17-39.

    Every loop body is a list of assignments that name the locations they read, so the loops
    can be run serially ([exec]) and under an arbitrary thread schedule ([omp_region]).
    Where "omp for" runs over rows and the columns of a row are an inner serial loop, the
    model's bodies are single cells: every distribution of rows over threads is also a
    distribution of cells. *)
From Coq Require Import Reals ZArith Lia Lra List Bool.
From Verif.Lib Require Import RAux Grid Par.
From Verif.Model Require Import Constants Geometry.
Import ListNotations.
Local Open Scope R_scope.

(** The arrays: EField::field_r, field_phi, field_z; HField::field_r, field_phi, field_z;
    HField::field_r_half_time, field_phi_half_time, field_z_half_time; Current::j_r, j_phi, j_z;
    EField::fi. *)
Inductive farr := ER | EPHI | EZ | HR | HPHI | HZ | HRH | HPHIH | HZH | JR | JPHI | JZ | FI.

Definition farr_eqb (a b : farr) : bool :=
  match a, b with
  | ER, ER | EPHI, EPHI | EZ, EZ | HR, HR | HPHI, HPHI | HZ, HZ
  | HRH, HRH | HPHIH, HPHIH | HZH, HZH | JR, JR | JPHI, JPHI | JZ, JZ | FI, FI => true
  | _, _ => false
  end.

(** array, row, column *)
Definition loc := (farr * Z * Z)%type.

Definition loc_eqb (x y : loc) : bool :=
  match x, y with (a, i, k), (b, i', k') => farr_eqb a b && (i =? i')%Z && (k =? k')%Z end.

Lemma loc_eqb_spec : forall x y, reflect (x = y) (loc_eqb x y).
Proof.
  intros [[a i] k] [[b i'] k']. unfold loc_eqb.
  destruct (Z.eqb_spec i i') as [->|N]; [|rewrite andb_false_r; constructor; congruence].
  destruct (Z.eqb_spec k k') as [->|N]; [|rewrite !andb_false_r; constructor; congruence].
  destruct a, b; cbn; constructor; congruence.
Qed.

Definition fmem := loc -> R.
Notation fasg := (@asg loc R).

(** Number of rows and columns each array is allocated with: src/field.cpp lines 13-24,
    src/eField.cpp lines 15-21, src/hField.cpp lines 9-25, src/current.cpp lines 8-24. *)
Definition rows_of (g : geom) (a : farr) : Z :=
  match a with HPHIH | HZH => n_r g - 1 | _ => n_r g end.
Definition cols_of (g : geom) (a : farr) : Z :=
  match a with HRH | HPHIH => n_z g - 1 | _ => n_z g end.

Definition loc_inside (g : geom) (x : loc) : Prop :=
  match x with (a, i, k) => (0 <= i < rows_of g a)%Z /\ (0 <= k < cols_of g a)%Z end.

(** Geometry::epsilon and Geometry::sigma (relative permittivity and conductivity per node,
    include/geometry.h lines 14-16). *)
Record medium := Medium { epsilon : arr; sigma : arr }.

(** src/eField.cpp lines 105-110 (the same four lines in every loop):
    epsilonx2 = 2 eps eps0; sigma_t = sigma dt;
    koef_e = (epsilonx2 - sigma_t) / (epsilonx2 + sigma_t);
    koef_h = 2 dt / (epsilonx2 + sigma_t) *)
Definition epsilonx2 (md : medium) (i k : Z) : R := 2 * epsilon md i k * EPSILON0.
Definition sigma_t (md : medium) (dt : R) (i k : Z) : R := sigma md i k * dt.
Definition koef_e (md : medium) (dt : R) (i k : Z) : R :=
  (epsilonx2 md i k - sigma_t md dt i k) / (epsilonx2 md i k + sigma_t md dt i k).
Definition koef_h (md : medium) (dt : R) (i k : Z) : R :=
  2 * dt / (epsilonx2 md i k + sigma_t md dt i k).

(** ** EField::calc_field, src/eField.cpp lines 85-170 *)

(** lines 112-113 and 141-142 *)
Definition asg_er (g : geom) (md : medium) (dt : R) (i k : Z) : fasg :=
  Asg (ER, i, k) [(ER, i, k); (JR, i, k); (HPHI, i, k); (HPHI, i, (k - 1)%Z)]
    (fun v => match v with
              | [e; j; h; h'] => e * koef_e md dt i k - (j + (h - h') / dz g) * koef_h md dt i k
              | _ => 0
              end).

(** lines 127-128, E_z on the axis *)
Definition asg_ez_axis (g : geom) (md : medium) (dt : R) (k : Z) : fasg :=
  Asg (EZ, 0%Z, k) [(EZ, 0%Z, k); (JZ, 0%Z, k); (HPHI, 0%Z, k)]
    (fun v => match v with
              | [e; j; h] => e * koef_e md dt 0 k - (j - 4 / dr g * h) * koef_h md dt 0 k
              | _ => 0
              end).

(** lines 144-146 *)
Definition asg_ephi (g : geom) (md : medium) (dt : R) (i k : Z) : fasg :=
  Asg (EPHI, i, k)
    [(EPHI, i, k); (JPHI, i, k); (HR, i, k); (HR, i, (k - 1)%Z); (HZ, i, k); (HZ, (i - 1)%Z, k)]
    (fun v => match v with
              | [e; j; hr; hr'; hz; hz'] =>
                  e * koef_e md dt i k
                  - (j - (hr - hr') / dz g + (hz - hz') / dr g) * koef_h md dt i k
              | _ => 0
              end).

(** lines 148-151 and 164-167 *)
Definition asg_ez (g : geom) (md : medium) (dt : R) (i k : Z) : fasg :=
  Asg (EZ, i, k) [(EZ, i, k); (JZ, i, k); (HPHI, i, k); (HPHI, (i - 1)%Z, k)]
    (fun v => match v with
              | [e; j; h; h'] =>
                  e * koef_e md dt i k
                  - (j - (h - h') / dr g - (h + h') / (2 * dr g * IZR i)) * koef_h md dt i k
              | _ => 0
              end).

(** The four "omp for" loops: lines 101-114, 117-129, 131-152, 154-168. *)
Definition efield_loops (g : geom) (md : medium) (dt : R) : list (list (list fasg)) :=
  [ map (fun k => [asg_er g md dt 0 k]) (zrange 1 (n_z g - 1));
    map (fun k => [asg_ez_axis g md dt k]) (zrange 0 (n_z g - 1));
    map (fun c => [asg_er g md dt (fst c) (snd c); asg_ephi g md dt (fst c) (snd c);
                   asg_ez g md dt (fst c) (snd c)]) (cells 1 (n_r g - 1) 1 (n_z g - 1));
    map (fun i => [asg_ez g md dt i 0]) (zrange 1 (n_r g - 1)) ].

(** The serial execution of EField::calc_field. *)
Definition calc_efield (g : geom) (md : medium) (dt : R) (m : fmem) : fmem :=
  exec loc_eqb (concat (concat (efield_loops g md dt))) m.

(** ** HField::calc_field, src/hField.cpp lines 93-157 *)

(** lines 112-113 and 123-124 *)
Definition alpha_r (g : geom) (dt e' e : R) : R := dt * (e' - e) / (dz g * MAGN_CONST).

(** lines 115-116 and 126-127 *)
Definition asg_hr_half (g : geom) (dt : R) (i k : Z) : fasg :=
  Asg (HRH, i, k) [(HR, i, k); (EPHI, i, (k + 1)%Z); (EPHI, i, k)]
    (fun v => match v with [h; e'; e] => h + alpha_r g dt e' e / 2 | _ => 0 end).
Definition asg_hr (g : geom) (dt : R) (i k : Z) : fasg :=
  Asg (HR, i, k) [(HR, i, k); (EPHI, i, (k + 1)%Z); (EPHI, i, k)]
    (fun v => match v with [h; e'; e] => h + alpha_r g dt e' e | _ => 0 end).

(** lines 134-137 *)
Definition alpha_phi (g : geom) (dt ez' ez er' er : R) : R :=
  dt * ((ez' - ez) / dr g - (er' - er) / dz g) / MAGN_CONST.

(** lines 139-140 *)
Definition asg_hphi_half (g : geom) (dt : R) (i k : Z) : fasg :=
  Asg (HPHIH, i, k)
    [(HPHI, i, k); (EZ, (i + 1)%Z, k); (EZ, i, k); (ER, i, (k + 1)%Z); (ER, i, k)]
    (fun v => match v with [h; z'; z; r'; r] => h + alpha_phi g dt z' z r' r / 2 | _ => 0 end).
Definition asg_hphi (g : geom) (dt : R) (i k : Z) : fasg :=
  Asg (HPHI, i, k)
    [(HPHI, i, k); (EZ, (i + 1)%Z, k); (EZ, i, k); (ER, i, (k + 1)%Z); (ER, i, k)]
    (fun v => match v with [h; z'; z; r'; r] => h + alpha_phi g dt z' z r' r | _ => 0 end).

(** lines 147-151 *)
Definition alpha_z (g : geom) (dt : R) (i : Z) (e' e : R) : R :=
  dt * ((e' + e) / (2 * dr g * (IZR i + 1 / 2)) + (e' - e) / dr g) / MAGN_CONST.

(** lines 153-154 *)
Definition asg_hz_half (g : geom) (dt : R) (i k : Z) : fasg :=
  Asg (HZH, i, k) [(HZ, i, k); (EPHI, (i + 1)%Z, k); (EPHI, i, k)]
    (fun v => match v with [h; e'; e] => h - alpha_z g dt i e' e / 2 | _ => 0 end).
Definition asg_hz (g : geom) (dt : R) (i k : Z) : fasg :=
  Asg (HZ, i, k) [(HZ, i, k); (EPHI, (i + 1)%Z, k); (EPHI, i, k)]
    (fun v => match v with [h; e'; e] => h - alpha_z g dt i e' e | _ => 0 end).

(** The four "omp for" loops: lines 107-117, 119-128, 130-141, 143-155. *)
Definition hfield_loops (g : geom) (dt : R) : list (list (list fasg)) :=
  [ map (fun k => [asg_hr_half g dt (n_r g - 1) k; asg_hr g dt (n_r g - 1) k]) (zrange 0 (n_z g - 1));
    map (fun c => [asg_hr_half g dt (fst c) (snd c); asg_hr g dt (fst c) (snd c)])
        (cells 0 (n_r g - 1) 0 (n_z g - 1));
    map (fun c => [asg_hphi_half g dt (fst c) (snd c); asg_hphi g dt (fst c) (snd c)])
        (cells 0 (n_r g - 1) 0 (n_z g - 1));
    map (fun c => [asg_hz_half g dt (fst c) (snd c); asg_hz g dt (fst c) (snd c)])
        (cells 0 (n_r g - 1) 0 (n_z g - 1)) ].

(** The serial execution of HField::calc_field. *)
Definition calc_hfield (g : geom) (dt : R) (m : fmem) : fmem :=
  exec loc_eqb (concat (concat (hfield_loops g dt))) m.

(** ** Initialisation *)

(** Assignment of a constant. *)
Definition asg_const (x : loc) (v : R) : fasg := Asg x [] (fun _ => v).

(** EField::boundary_conditions, src/eField.cpp lines 46-82 *)
Definition boundary_loops (g : geom) : list (list (list fasg)) :=
  [ map (fun i => [asg_const (ER, i, 0%Z) 0; asg_const (ER, i, (n_z g - 1)%Z) 0]) (zrange 0 (n_r g - 1));
    map (fun k => [asg_const (EPHI, 0%Z, k) 0; asg_const (EPHI, (n_r g - 1)%Z, k) 0]) (zrange 0 (n_z g));
    map (fun i => [asg_const (EPHI, i, 0%Z) 0; asg_const (EPHI, i, (n_z g - 1)%Z) 0]) (zrange 0 (n_r g));
    map (fun k => [asg_const (EZ, 0%Z, k) 0; asg_const (EZ, (n_r g - 1)%Z, k) 0]) (zrange 0 (n_z g - 1)) ].

(** EField::set_homogeneous_efield, src/eField.cpp lines 34-44 *)
Definition homogeneous_e_loops (g : geom) (e_r e_phi e_z : R) : list (list (list fasg)) :=
  [ map (fun c => [asg_const (ER, fst c, snd c) e_r; asg_const (EPHI, fst c, snd c) e_phi;
                   asg_const (EZ, fst c, snd c) e_z]) (cells 0 (n_r g - 1) 0 (n_z g - 1)) ].

(** HField::set_homogeneous_h, src/hField.cpp lines 64-90 *)
Definition homogeneous_h_loops (g : geom) (h_r h_phi h_z : R) : list (list (list fasg)) :=
  [ map (fun c => [asg_const (HR, fst c, snd c) h_r; asg_const (HRH, fst c, snd c) h_r])
        (cells 0 (n_r g) 0 (n_z g - 1));
    map (fun c => [asg_const (HPHI, fst c, snd c) h_phi; asg_const (HPHIH, fst c, snd c) h_phi])
        (cells 0 (n_r g - 1) 0 (n_z g - 1));
    map (fun c => [asg_const (HZ, fst c, snd c) h_z; asg_const (HZH, fst c, snd c) h_z])
        (cells 0 (n_r g - 1) 0 (n_z g)) ].

(** EField::set_fi_on_z, src/eField.cpp lines 173-178 *)
Definition fi_on_z_loops (g : geom) : list (list (list fasg)) :=
  [ map (fun k => [asg_const (FI, (n_r g - 1)%Z, k) 0]) (zrange 0 (n_z g)) ].

(** LoadInitParam::init_fields, src/loadInitParam.cpp lines 250-259. The constructor of HField
    (src/hField.cpp lines 27-44) assigns zeros to a subset of what set_homogeneous_h assigns. *)
Definition init_field_loops (g : geom) : list (list (list fasg)) :=
  boundary_loops g ++ homogeneous_e_loops g 0 0 0 ++ homogeneous_h_loops g 0 0 0 ++ fi_on_z_loops g.

Definition init_fields (g : geom) (m : fmem) : fmem :=
  exec loc_eqb (concat (concat (init_field_loops g))) m.

(** BoundaryMaxwellConditions::specify_initial_field,
    src/boundaryMaxwellConditions.cpp lines 17-39 (not called by the program) *)
Definition specify_initial_loops (g : geom) (upper left right : R) : list (list (list fasg)) :=
  [ map (fun i => [asg_const (EPHI, i, 0%Z) left; asg_const (EPHI, i, (n_z g - 1)%Z) right])
        (zrange 0 (n_r g));
    map (fun k => [asg_const (EPHI, (n_r g - 1)%Z, k) upper]) (zrange 0 (n_z g)) ].

(** ** The field part of one step of the main loop *)

(** Writing currents into the current arrays (Current::reset_j and the depositions,
    src/loadInitParam.cpp lines 493-524, seen from the field solver). *)
Definition set_current (jr jphi jz : arr) (m : fmem) : fmem :=
  fun x => match x with
           | (JR, i, k) => jr i k
           | (JPHI, i, k) => jphi i k
           | (JZ, i, k) => jz i k
           | _ => m x
           end.

Record currents3 := Cur3 { cur_r : arr; cur_phi : arr; cur_z : arr }.

(** src/loadInitParam.cpp lines 487-528: magnetic field, then currents, then electric field. *)
Definition field_step (g : geom) (md : medium) (dt : R) (j : currents3) (m : fmem) : fmem :=
  calc_efield g md dt (set_current (cur_r j) (cur_phi j) (cur_z j) (calc_hfield g dt m)).

(** Any number of steps with the given currents. *)
Definition field_run (g : geom) (md : medium) (dt : R) (js : list currents3) (m : fmem) : fmem :=
  fold_left (fun m j => field_step g md dt j m) js m.
