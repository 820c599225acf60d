(** Specification side of short moves in double precision (C78, C79). *)
From Coq Require Import Reals ZArith List Bool.
From Flocq Require Import Core IEEE754.BinarySingleNaN.
From Verif.Model Require Import Binary64 Temperature64 CurrentDeposit Arith GenCode.
From Verif.Spec Require Import Double.
Local Open Scope R_scope.

Section Short.
Variables pw lg : b64 -> b64.
Notation A := (b64_arith pw lg).

(** The border in front of cell number [m], as the program computes it. *)
Definition border (d : b64) (m : Z) : b64 := b64_mul (b64_of_Z m) d.
(** The cell number that the program computes for [x] agrees with the borders that it computes: [x] is behind the border in front of
    the cell and not behind the next one. *)
Definition placed (d x : b64) : Prop :=
  let m := gcell A x d in (m = 0%Z \/ B2R (border d m) < B2R x) /\ B2R x <= B2R (border d (m + 1)).
(** An axis of [n] nodes on which this holds for every position: the border itself belongs to the cell in front of it, the next
    double to the cell behind it. *)
Definition clear_axis (n : Z) (d : b64) : Prop :=
  forall m, (1 <= m <= n - 1)%Z -> gcell A (border d m) d = (m - 1)%Z /\ (m <= gcell A (@Bsucc prec64 emax64 eq_refl eq_refl (border d m)) d)%Z.

(** A move of at most 1/32 of a cell in each direction between two places inside the tube; cells of at most a metre; a charge that is not absurd. *)
Record short_move (g : ggeom A) (dt q rn zn ro zo : b64) : Prop := ShortMove {
  sm_dr : @B2R prec64 emax64 (gdr A g) <= 1;
  sm_dt : bpow radix2 (-200) <= B2R dt;
  sm_q : is_finite q = true /\ bpow radix2 (-200) <= Rabs (B2R q) <= bpow radix2 200;
  sm_rn : radius_fits pw lg g rn; sm_ro : radius_fits pw lg g ro; sm_zn : z_fits pw lg g zn; sm_zo : z_fits pw lg g zo;
  sm_r : Rabs (B2R rn - B2R ro) <= @B2R prec64 emax64 (gdr A g) / 32;
  sm_z : Rabs (B2R zn - B2R zo) <= @B2R prec64 emax64 (gdz A g) / 32 }.
Definition well_placed (g : ggeom A) (rn zn ro zo : b64) : Prop :=
  placed (gdr A g) rn /\ placed (gdr A g) ro /\ placed (gdz A g) zn /\ placed (gdz A g) zo.

(** A current that is a number and no larger than [b] times what one charge makes that passes the smallest face of a cell in a step. *)
Definition modest_value (b : R) (g : ggeom A) (dt q : b64) (x : gjinc A) : Prop :=
  @is_finite prec64 emax64 (gval A (gj_inc A x)) = true /\
  match gj_comp A x with
  | J_Z => B2R dt * @B2R prec64 emax64 (gdr A g) * @B2R prec64 emax64 (gdr A g) * Rabs (@B2R prec64 emax64 (gval A (gj_inc A x))) <= b * Rabs (B2R q)
  | J_R => B2R dt * @B2R prec64 emax64 (gdr A g) * @B2R prec64 emax64 (gdz A g) * Rabs (@B2R prec64 emax64 (gval A (gj_inc A x))) <= b * Rabs (B2R q)
  | J_PHI => False
  end.
Definition modest (b : R) (g : ggeom A) (dt q : b64) (l : list (gjinc A)) : Prop := Forall (modest_value b g dt q) l.
End Short.
