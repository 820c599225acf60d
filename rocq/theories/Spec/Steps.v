(** Number and shape of the steps of a run: C26, C27. *)
From Coq Require Import Reals List ZArith.
From Verif.Model Require Import MainLoop.
Import ListNotations.
Local Open Scope R_scope.

(** n is the least number of steps whose accumulated time reaches the end time. *)
Definition least_steps (t0 end_time dt : R) (n : nat) : Prop :=
  end_time <= t0 + INR n * dt /\ forall k, end_time <= t0 + INR k * dt -> (n <= k)%nat.

(** The order of the phases named in the property; [rank] of a call that is not one of them
    is [None]. *)
Definition rank (a : action) : option nat :=
  match a with
  | InjectBeam => Some 0%nat | CalcH => Some 1%nat | ResetJ => Some 2%nat | StepV => Some 3%nat
  | FullCurrent => Some 4%nat | CalcE => Some 5%nat | DumpData => Some 6%nat
  | _ => None
  end.

(** A list of calls made at one time. *)
Definition at_time (t : R) (l : list action) : list (action * R) := map (fun a => (a, t)) l.

(** The steps of a run from zero at which a probe of schedule s is to dump: 0, s, 2s, ... below n *)
Definition dump_steps (s n : nat) : list nat := filter (fun k => Nat.eqb (Nat.modulo k s) 0) (seq 0 n).
