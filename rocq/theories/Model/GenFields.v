(** The field part of one step of the main loop for any arithmetic, as Model/Fields.v has it for real numbers. *)
From Coq Require Import ZArith List.
From Verif.Model Require Import Fields Arith GenCode.

Section Gen.
Variable A : arith.

(** The current arrays at the time of the electric field update (src/loadInitParam.cpp lines 493-524, seen from the field solver). *)
Record gcurrents := GCur { gcur_r : Z -> Z -> num A; gcur_phi : Z -> Z -> num A; gcur_z : Z -> Z -> num A }.
Definition gset_current (j : gcurrents) (m : gmem A) : gmem A :=
  fun x => match x with
           | (JR, i, k) => gcur_r j i k
           | (JPHI, i, k) => gcur_phi j i k
           | (JZ, i, k) => gcur_z j i k
           | _ => m x
           end.
(** src/loadInitParam.cpp lines 487-528: magnetic field, then currents, then electric field. *)
Definition gfield_step (g : ggeom A) (md : gmedium A) (dt : num A) (j : gcurrents) (m : gmem A) : gmem A :=
  gcalc_efield A g md dt (gset_current j (gcalc_hfield A g dt m)).
Definition gfield_run (g : ggeom A) (md : gmedium A) (dt : num A) (js : list gcurrents) (m : gmem A) : gmem A :=
  fold_left (fun m j => gfield_step g md dt j m) js m.
End Gen.
