(** Specification side of the deposition in double precision (C73). *)
From Coq Require Import Reals ZArith List Bool.
From Flocq Require Import Core IEEE754.BinarySingleNaN.
From Verif.Lib Require Import RAux Grid.
From Verif.Model Require Import Binary64 Temperature64 CurrentDeposit Arith GenCode.
From Verif.Spec Require Import Cloud Continuity.
Local Open Scope R_scope.

(** The program's log() is the C library's. All that is asked of it: on [1/16, 16] its result is finite and within two
    units of 2^-53, relatively, of the natural logarithm (a bit more than the last place). *)
Definition accurate_log (lg : b64 -> b64) : Prop :=
  forall x, is_finite x = true -> / 16 <= B2R x <= 16 ->
    is_finite (lg x) = true /\ Rabs (B2R (lg x) - ln (B2R x)) <= bpow radix2 (-52) * Rabs (ln (B2R x)).

(** [continuity] up to an error: at every node the charge share of the particle changes by minus the outflow, within [eps]. *)
Definition continuity_upto (eps d_r d_z dt q : R) (jr jz : arr) (rn zn ro zo : R) : Prop :=
  forall i k : Z, Rabs (q * share d_r d_z i k rn zn - q * share d_r d_z i k ro zo + outflow d_r d_z dt jr jz i k) <= eps.

(** A coordinate that is [m] or more away from all grid lines. *)
Definition off_lines (m d x : R) : Prop := forall n : Z, m <= Rabs (x - IZR n * d).

Section Deposit.
Variables pw lg : b64 -> b64.
Notation A := (b64_arith pw lg).

(** What a list of calls of inc_j_r, inc_j_phi and inc_j_z hands to element (i, k) of one component: the exact sum of the
    doubles. *)
Definition handed (c : jcomp) (l : list (gjinc A)) : arr := fun i k =>
  fold_right (fun x s => (if jcomp_eqb c (gj_comp A x) && (grow A (gj_inc A x) =? i)%Z && (gcol A (gj_inc A x) =? k)%Z
                          then @B2R prec64 emax64 (gval A (gj_inc A x)) else 0) + s) 0 l.
Definition all_finite (l : list (gjinc A)) : Prop := Forall (fun x => @is_finite prec64 emax64 (gval A (gj_inc A x)) = true) l.

(** A move from (ro, zo) to (rn, zn) on a grid of [fine] that keeps [m] or more away from doubtful places: both ends are [m] or
    more away from all grid lines, the path passes no node, and all its legs are [m] or more long in both directions. The
    length [m] is 2^-48 (3.6 10^-15) m or more, and 2^-42 (2.3 10^-13) or more of the size of the grid. *)
Record clean_move (m : R) (g : ggeom A) (dt q rn zn ro zo : b64) : Prop := CleanMove {
  cm_rn : is_finite rn = true; cm_zn : is_finite zn = true; cm_ro : is_finite ro = true; cm_zo : is_finite zo = true;
  cm_dt : bpow radix2 (-200) <= B2R dt;
  cm_q : is_finite q = true /\ bpow radix2 (-200) <= Rabs (B2R q) <= bpow radix2 200;
  cm_rn_in : 49 / 100 * @B2R prec64 emax64 (gdr A g) <= B2R rn <= IZR (gn_r A g - 1) * @B2R prec64 emax64 (gdr A g);
  cm_ro_in : 49 / 100 * @B2R prec64 emax64 (gdr A g) <= B2R ro <= IZR (gn_r A g - 1) * @B2R prec64 emax64 (gdr A g);
  cm_zn_in : 0 < B2R zn <= IZR (gn_z A g - 1) * @B2R prec64 emax64 (gdz A g);
  cm_zo_in : 0 < B2R zo <= IZR (gn_z A g - 1) * @B2R prec64 emax64 (gdz A g);
  cm_r : Rabs (B2R rn - B2R ro) <= 9 / 10 * @B2R prec64 emax64 (gdr A g);
  cm_z : Rabs (B2R zn - B2R zo) <= 9 / 10 * @B2R prec64 emax64 (gdz A g);
  cm_m : bpow radix2 (-48) <= m;
  cm_mr : bpow radix2 (-42) * (IZR (gn_r A g) * @B2R prec64 emax64 (gdr A g)) <= m;
  cm_mz : bpow radix2 (-42) * (IZR (gn_z A g) * @B2R prec64 emax64 (gdz A g)) <= m;
  cm_on : off_lines m (@B2R prec64 emax64 (gdr A g)) (B2R rn); cm_oo : off_lines m (@B2R prec64 emax64 (gdr A g)) (B2R ro);
  cm_pn : off_lines m (@B2R prec64 emax64 (gdz A g)) (B2R zn); cm_po : off_lines m (@B2R prec64 emax64 (gdz A g)) (B2R zo);
  cm_legs : legs_at_least m (@B2R prec64 emax64 (gdr A g)) (@B2R prec64 emax64 (gdz A g)) (B2R rn) (B2R zn) (B2R ro) (B2R zo);
  cm_nodes : avoids_nodes (@B2R prec64 emax64 (gdr A g)) (@B2R prec64 emax64 (gdz A g)) (B2R rn) (B2R zn) (B2R ro) (B2R zo) }.
End Deposit.
