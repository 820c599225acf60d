(** Specification side of Gauss's law over whole runs in double precision (C81). *)
From Coq Require Import Reals ZArith List Bool.
From Flocq Require Import Core IEEE754.BinarySingleNaN.
From Verif.Lib Require Import RAux Grid Outcome.
From Verif.Model Require Import Constants Binary64 CurrentDeposit Arith GenCode GenRun GenSim.
From Verif.Spec Require Import Cloud Continuity Charge64 Deposit64 Short Gauss64 Double.
Import ListNotations.
Local Open Scope R_scope.

Section GaussRun64.
Variables pw lg : b64 -> b64.
Notation A := (b64_arith pw lg).
Notation real x := (@B2R prec64 emax64 x).
Notation DR g := (real (gdr A g)).
Notation DZ g := (real (gdz A g)).

(** A run without a beam. *)
Definition no_beam (c : config A) (s : gsim A) : Prop :=
  (c_bunches A c <= gs_bunches A s)%Z /\ Forall (fun x => fst x = false) (gs_groups A s).

(** The density of the charge whose clouds belong to the living particles, and by how much Gauss's law is missed at node (i, k): the flux of
    the electric displacement out of the ring of the node minus the charge in it. Everything here is exact: the real numbers that the fields and positions stand for. *)
Definition density (c : config A) (s : gsim A) : arr := fun i k =>
  charge_in pw lg (c_geom A c) (parts pw lg s) i k / node_volume (DR (c_geom A c)) (DZ (c_geom A c)) i.
Definition gauss_defect (c : config A) (s : gsim A) (i k : Z) : R :=
  residual pw lg (c_geom A c) (c_medium A c) (gs_fields A s) (density c s) i k.

(** The last move of a living particle, from the old position to the new one, was a [clean_move]. *)
Definition moved_clean (l : R) (c : config A) (p : gparticle A) : Prop := galive A p = true ->
  clean_move pw lg l (c_geom A c) (c_dt A c) (gcharge A p) (g0 A (gpos A (gph A p))) (g2 A (gpos A (gph A p))) (gr_old A (gph A p)) (gz_old A (gph A p)).

(** What the last move of all living particles handed to the current arrays, call by call; how many of the calls went to one
    element, and the sum of the absolute values of these. *)
Definition calls (c : config A) (ps : list (gparticle A)) : list (gjinc A) :=
  flat_map (fun p => if galive A p then
    gcurrent_single A (c_geom A c) (c_dt A c) (gcharge A p) (g0 A (gpos A (gph A p))) (g2 A (gpos A (gph A p))) (gr_old A (gph A p)) (gz_old A (gph A p))
    else []) ps.
Definition meant (a : jcomp) (i k : Z) (x : gjinc A) : bool :=
  jcomp_eqb a (gj_comp A x) && (grow A (gj_inc A x) =? i)%Z && (gcol A (gj_inc A x) =? k)%Z.
Definition hits (a : jcomp) (l : list (gjinc A)) (i k : Z) : nat := length (filter (meant a i k) l).
Definition traffic (a : jcomp) (l : list (gjinc A)) (i k : Z) : R :=
  fold_right (fun x s => (if meant a i k x then Rabs (real (gval A (gj_inc A x))) else 0) + s) 0 l.

(** ** What one iteration may add to the defect *)

(** By the moves of the single particles (C73). *)
Definition move_slack (c : config A) (ps : list (gparticle A)) : R :=
  sum_living pw lg (fun p => bpow radix2 (-41) * (real (gr_old A (gph A p)) / DR (c_geom A c) + real (gz_old A (gph A p)) / DZ (c_geom A c) + 4)
                             * Rabs (real (gcharge A p))) ps.
(** By the additions in the current arrays: n additions of numbers of absolute sum T are off by 2^-52 n T at most. *)
Definition sum_error (a : jcomp) (l : list (gjinc A)) (i k : Z) : R := bpow radix2 (-52) * INR (hits a l i k) * traffic a l i k.
Definition sum_slack (c : config A) (ps : list (gparticle A)) (i k : Z) : R :=
  let l := calls c ps in
  let d_r := DR (c_geom A c) in let d_z := DZ (c_geom A c) in
  real (c_dt A c) * (node_area d_r i * (sum_error J_Z l i k + sum_error J_Z l i (k - 1))
                     + node_side d_r d_z i * sum_error J_R l i k + node_side d_r d_z (i - 1) * sum_error J_R l (i - 1) k).
(** And by the update of the electric field (C80). *)
Definition step_slack (c : config A) (K BE BH BJ : R) (s : gsim A) (i k : Z) : R :=
  move_slack c (parts pw lg s) + sum_slack c (parts pw lg s) i k + gauss_slack pw lg (c_geom A c) (c_dt A c) K BE BH BJ i.

(** ** Whole runs *)

(** A state after an iteration: fields within bounds, all living particles moved cleanly, and not too much current in any place. *)
Record orderly (l BE BH BJ : R) (c : config A) (s : gsim A) : Prop := Orderly {
  or_fields : fields_within pw lg BE BH (c_geom A c) (gs_fields A s);
  or_moved : Forall (moved_clean l c) (parts pw lg s);
  or_hits : forall a i k, INR (hits a (calls c (parts pw lg s)) i k) <= bpow radix2 45;
  or_traffic : forall a i k, traffic a (calls c (parts pw lg s)) i k <= BJ / 2 }.
(** All states of a run of at most n iterations. *)
Fixpoint orderly_run (l BE BH BJ : R) (c : config A) (n : nat) (t e : num A) (s : gsim A) : Prop :=
  match n with
  | O => True
  | S n' => if ltb A t e then
      match giteration A c t s with
      | Ok s' => orderly l BE BH BJ c s' /\ orderly_run l BE BH BJ c n' (add A t (c_dt A c)) e s'
      | _ => True
      end else True
  end.
(** What the iterations of the run may add together. *)
Fixpoint run_slack (K BE BH BJ : R) (c : config A) (n : nat) (t e : num A) (s : gsim A) (i k : Z) : R :=
  match n with
  | O => 0
  | S n' => if ltb A t e then
      match giteration A c t s with
      | Ok s' => step_slack c K BE BH BJ s' i k + run_slack K BE BH BJ c n' (add A t (c_dt A c)) e s' i k
      | _ => 0
      end else 0
  end.

(** The fields stay within bounds, all states of the run. *)
Fixpoint within_run (BE BH : R) (c : config A) (n : nat) (t e : num A) (s : gsim A) : Prop :=
  fields_within pw lg BE BH (c_geom A c) (gs_fields A s) /\
  match n with
  | O => True
  | S n' => if ltb A t e then match giteration A c t s with Ok s' => within_run BE BH c n' (add A t (c_dt A c)) e s' | _ => True end else True
  end.
(** After every iteration, the last move of every living particle was clean, and short in the sense of C78. *)
Definition moved_short (c : config A) (p : gparticle A) : Prop := galive A p = true ->
  short_move pw lg (c_geom A c) (c_dt A c) (gcharge A p) (g0 A (gpos A (gph A p))) (g2 A (gpos A (gph A p))) (gr_old A (gph A p)) (gz_old A (gph A p)) /\
  well_placed pw lg (c_geom A c) (g0 A (gpos A (gph A p))) (g2 A (gpos A (gph A p))) (gr_old A (gph A p)) (gz_old A (gph A p)).
Fixpoint gliding_run (l : R) (c : config A) (n : nat) (t e : num A) (s : gsim A) : Prop :=
  match n with
  | O => True
  | S n' => if ltb A t e then
      match giteration A c t s with
      | Ok s' => Forall (fun p => moved_clean l c p /\ moved_short c p) (parts pw lg s') /\ gliding_run l c n' (add A t (c_dt A c)) e s'
      | _ => True
      end else True
  end.

(** The absolute charge of all living particles. *)
Definition total_charge (ps : list (gparticle A)) : R := sum_living pw lg (fun p => Rabs (real (gcharge A p))) ps.
End GaussRun64.
