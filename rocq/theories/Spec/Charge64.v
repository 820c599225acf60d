(** Specification side of the charge deposition in double precision (C75). *)
From Coq Require Import Reals ZArith List Bool.
From Flocq Require Import Core IEEE754.BinarySingleNaN.
From Verif.Lib Require Import RAux Grid.
From Verif.Model Require Import Binary64 Arith GenCode.
From Verif.Spec Require Import Cloud.
Local Open Scope R_scope.

Section Charge.
Variables pw lg : b64 -> b64.
Notation A := (b64_arith pw lg).

(** What a list of calls of inc_rho hands to element (i, k) of the density: the exact sum of the doubles. *)
Definition counted (l : list (ginc A)) : arr := fun i k =>
  fold_right (fun x s => (if ((grow A x =? i) && (gcol A x =? k))%Z then @B2R prec64 emax64 (gval A x) else 0) + s) 0 l.
Definition finite_values (l : list (ginc A)) : Prop := Forall (fun x => @is_finite prec64 emax64 (gval A x) = true) l.

(** A finite charge of ordinary size, at a finite position on the grid: not beyond the outermost node row and the last node column. *)
Record placed (g : ggeom A) (q r z : b64) : Prop := Placed {
  pl_r : is_finite r = true; pl_z : is_finite z = true;
  pl_q : is_finite q = true /\ bpow radix2 (-200) <= Rabs (B2R q) <= bpow radix2 200;
  pl_r_in : 0 <= B2R r <= IZR (gn_r A g - 1) * @B2R prec64 emax64 (gdr A g);
  pl_z_in : 0 <= B2R z <= IZR (gn_z A g - 1) * @B2R prec64 emax64 (gdz A g) }.

(** The same asked of all living particles of a list, at half a cell or more from the axis; at most 2^40 particles. *)
Notation r_of := (fun p : gparticle A => @B2R prec64 emax64 (g0 A (gpos A (gph A p)))).
Notation z_of := (fun p : gparticle A => @B2R prec64 emax64 (g2 A (gpos A (gph A p)))).
Notation q_of := (fun p : gparticle A => @B2R prec64 emax64 (gcharge A p)).
Definition all_placed (g : ggeom A) (ps : list (gparticle A)) : Prop :=
  (Z.of_nat (length ps) <= 2 ^ 40)%Z /\
  Forall (fun p => galive A p = true ->
    placed g (gcharge A p) (g0 A (gpos A (gph A p))) (g2 A (gpos A (gph A p))) /\ @B2R prec64 emax64 (gdr A g) / 2 <= r_of p) ps.

(** Sums over the living particles. *)
Definition sum_living (f : gparticle A -> R) (ps : list (gparticle A)) : R :=
  fold_right (fun p s => (if galive A p then f p else 0) + s) 0 ps.
(** The charge that the clouds of the living particles have in the ring of node (i, k). *)
Definition charge_in (g : ggeom A) (ps : list (gparticle A)) (i k : Z) : R :=
  sum_living (fun p => q_of p * share (@B2R prec64 emax64 (gdr A g)) (@B2R prec64 emax64 (gdz A g)) i k (r_of p) (z_of p)) ps.
(** The error allowed: 2^-46 (r / dr + z / dz + 4) + 2^-48 n of the absolute value of each of the n charges. *)
Definition allowed (g : ggeom A) (n : nat) (ps : list (gparticle A)) : R :=
  sum_living (fun p => (bpow radix2 (-46) * (r_of p / @B2R prec64 emax64 (gdr A g) + z_of p / @B2R prec64 emax64 (gdz A g) + 4)
                        + bpow radix2 (-48) * INR n) * Rabs (q_of p)) ps.
End Charge.
