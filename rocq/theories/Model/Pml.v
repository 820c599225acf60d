(** Model of Geometry::set_pml, src/geometry.cpp lines 56-107, of the conductivity array it
    fills (lines 22-30), and of its caller Parameters::init_pml, src/parameters.cpp lines 233-246.

    Layer lengths can be zero and are divided by, so the numbers here are reals extended with the
    infinities and not-a-number of IEEE arithmetic. All zero denominators are +0, since they are products
    of a positive cell size and a floor. Every loop body reads and writes only its own element
    sigma[i][k], so the loops are written element by element. Otherwise real arithmetic. *)
From Coq Require Import Reals ZArith Bool.
From Verif.Lib Require Import RAux.
From Verif.Model Require Import Geometry.
Local Open Scope R_scope.

Inductive ext := Fin (x : R) | PInf | NInf | NotNum.

(** x / y, with 1 / (+0) infinite and 0 / 0 not a number *)
Definition ediv (x y : R) : ext :=
  if Req_EM_T y 0 then
    (if Rlt_dec 0 x then PInf else if Rlt_dec x 0 then NInf else NotNum)
  else Fin (x / y).

Definition eopp (e : ext) : ext := match e with Fin x => Fin (- x) | PInf => NInf | NInf => PInf | NotNum => NotNum end.

(** e * y *)
Definition emul (e : ext) (y : R) : ext :=
  match e with
  | Fin x => Fin (x * y)
  | NotNum => NotNum
  | PInf => if Rlt_dec 0 y then PInf else if Rlt_dec y 0 then NInf else NotNum
  | NInf => if Rlt_dec 0 y then NInf else if Rlt_dec y 0 then PInf else NotNum
  end.

(** x + e *)
Definition eadd (x : R) (e : ext) : ext := match e with Fin y => Fin (x + y) | _ => e end.

(** x < e and x <= e; comparisons with not-a-number are false *)
Definition elt (x : R) (e : ext) : bool :=
  match e with Fin y => if Rlt_dec x y then true else false | PInf => true | NInf | NotNum => false end.
Definition ele (x : R) (e : ext) : bool :=
  match e with Fin y => if Rle_dec x y then true else false | PInf => true | NInf | NotNum => false end.

Section Pml.
Variable g : geom.
Variables l1 l2 l3 sigma1 sigma2 : R.

(** lines 60, 63, 66 *)
Definition length_sigma_left : R := dz g * IZR (floorZ (IZR (n_z g) * l1)).
Definition length_sigma_right : R := dz g * IZR (floorZ (IZR (n_z g) * l2)).
Definition length_sigma_extern : R := dr g * IZR (floorZ (IZR (n_r g) * l3)).

(** sigma1 + (sigma2 - sigma1) / pow(length, 2) * pow(depth, 2), lines 74-75, 84-85, 87-88, 103-104 *)
Definition profile (length depth : R) : ext :=
  eadd sigma1 (emul (ediv (sigma2 - sigma1) (length ^ 2)) (depth ^ 2)).

(** lines 74-75 and 103-104 *)
Definition profile_extern (i : Z) : ext :=
  profile length_sigma_extern (dr g * (IZR i + 1) - r_size g + length_sigma_extern).

(** lines 71-75 *)
Definition pml_only_extern (sigma : Z -> Z -> ext) (i k : Z) : ext :=
  if Rle_dec (r_size g - dr g * IZR i) length_sigma_extern then profile_extern i else sigma i k.

(** lines 80-89 *)
Definition pml_walls (sigma : Z -> Z -> ext) (i k : Z) : ext :=
  let s := if Rlt_dec (dz g * IZR k) length_sigma_left
           then profile length_sigma_left (length_sigma_left - dz g * IZR k) else sigma i k in
  if Rlt_dec (z_size g - dz g * IZR k) length_sigma_right
  then profile length_sigma_right (dz g * (IZR k + 1) - z_size g + length_sigma_right) else s.

(** lines 96-104 *)
Definition pml_extern (sigma : Z -> Z -> ext) (i k : Z) : ext :=
  if Rle_dec (r_size g - dr g * IZR i) length_sigma_extern then
    if (elt (r_size g - dr g * (IZR i + 1)) (ediv (length_sigma_extern * dz g * IZR k) length_sigma_left)
        && ele (r_size g - dr g * IZR i)
               (emul (ediv length_sigma_extern length_sigma_right) (z_size g - dz g * IZR k)))%bool
    then profile_extern i else sigma i k
  else sigma i k.

Definition nonzero (x : R) : bool := if Req_EM_T x 0 then false else true.

(** lines 68-105 *)
Definition set_pml (sigma : Z -> Z -> ext) : Z -> Z -> ext :=
  let s := if (negb (nonzero l1) && negb (nonzero l2) && nonzero l3)%bool
           then pml_only_extern sigma else pml_walls sigma in
  if nonzero l3 then pml_extern s else s.

(** src/geometry.cpp lines 27-30 and src/parameters.cpp lines 243-246: the conductivity the
    simulation runs with. *)
Definition conductivity : Z -> Z -> ext :=
  let zero := fun _ _ : Z => Fin 0 in
  if (nonzero l1 || nonzero l2 || nonzero l3)%bool then set_pml zero else zero.

End Pml.
