(** Model of the main loop, src/loadInitParam.cpp lines 455-589, built without LEGACY. *)
From Coq Require Import Reals ZArith List.
From Verif.Lib Require Import RAux Outcome.
Import ListNotations.
Local Open Scope R_scope.

(** The calls of one iteration, in the order of the text (debug output left out). *)
Inductive action :=
| InjectBeam        (* line 481: init_beam *)
| CalcH             (* line 488: hfield->calc_field *)
| ResetJ            (* line 495: c_current->reset_j *)
| ResetRhoOld       (* line 501: c_rho_old->reset_rho *)
| ResetRhoBunch     (* line 507: c_rho_bunch->reset_rho *)
| StepV             (* line 513: p_list->step_v *)
| FullCurrent       (* line 523: p_list->full_current_distribution *)
| CalcE             (* line 527: efield->calc_field *)
| ResetRhoNew       (* line 534: c_rho_new->reset_rho *)
| WeightBunches     (* lines 582-583: charge_weighting of every bunch into c_rho_bunch *)
| DumpData.         (* line 584: dump_data *)

Definition iteration : list action :=
  [InjectBeam; CalcH; ResetJ; ResetRhoOld; ResetRhoBunch; StepV; FullCurrent; CalcE; ResetRhoNew;
   WeightBunches; DumpData].

(** Executing calls one after the other; [exec a t] is the effect of call [a] at time [t]. *)
Fixpoint exec_all {S : Type} (exec : action -> R -> S -> outcome S) (l : list (action * R)) (s : S) : outcome S :=
  match l with
  | [] => Ok s
  | (a, t) :: rest => bind (exec a t s) (fun s' => exec_all exec rest s')
  end.

(** lines 471-587: the while loop. [fuel] bounds the number of iterations, [None] means that
    the loop has not ended within it. *)
Fixpoint run_loop {S : Type} (exec : action -> R -> S -> outcome S) (fuel : nat) (t end_time dt : R) (s : S)
  : option (outcome S) :=
  if Rlt_dec t end_time then
    match fuel with
    | O => None
    | Datatypes.S fuel' =>
        match exec_all exec (map (fun a => (a, t)) iteration) s with
        | Ok s' => run_loop exec fuel' (t + dt) end_time dt s'
        | Exit c => Some (Exit c)
        | UB => Some UB
        end
    end
  else Some (Ok s).
