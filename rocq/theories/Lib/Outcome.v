(** Result of a piece of code that may end the program or have undefined behaviour. *)
From Coq Require Import ZArith.

Inductive outcome (A : Type) : Type :=
| Ok (a : A)          (* normal return *)
| Exit (code : Z)     (* the program calls exit(code) *)
| UB.                 (* undefined behaviour: invalid memory access, integer overflow, ... *)
Arguments Ok {A} a.
Arguments Exit {A} code.
Arguments UB {A}.

Definition bind {A B : Type} (x : outcome A) (f : A -> outcome B) : outcome B :=
  match x with Ok a => f a | Exit c => Exit c | UB => UB end.

Declare Scope outcome_scope.
Delimit Scope outcome_scope with outcome.
Notation "'do' x <- a ; b" := (bind a (fun x => b))
  (at level 200, x pattern, a at level 100, b at level 200) : outcome_scope.

Lemma bind_ok : forall {A B : Type} (a : A) (f : A -> outcome B), bind (Ok a) f = f a.
Proof. reflexivity. Qed.
