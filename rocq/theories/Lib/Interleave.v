(** Interleavings of the action lists of several threads. Nothing here models code. *)
From Coq Require Import List Permutation.
Import ListNotations.

(** [interleaves ths tr]: [tr] performs all actions of all threads, each thread's actions
    in its own order, in any relative order of the threads. *)
Inductive interleaves {A : Type} : list (list A) -> list A -> Prop :=
| il_done : forall ths, Forall (fun th => th = []) ths -> interleaves ths []
| il_step : forall pre a th post tr,
    interleaves (pre ++ th :: post) tr ->
    interleaves (pre ++ (a :: th) :: post) (a :: tr).

Lemma concat_all_nil : forall {A} (ths : list (list A)),
  Forall (fun th => th = []) ths -> concat ths = [].
Proof. intros A ths H. induction H; [reflexivity|]. cbn. now rewrite H, IHForall. Qed.

Lemma interleaves_perm : forall {A} (ths : list (list A)) tr,
  interleaves ths tr -> Permutation (concat ths) tr.
Proof.
  intros A ths tr H. induction H as [ths H|pre a th post tr _ IH].
  - rewrite concat_all_nil by assumption. constructor.
  - rewrite concat_app in *. cbn [concat] in *. rewrite <- app_comm_cons.
    apply Permutation_sym. apply Permutation_cons_app. now apply Permutation_sym.
Qed.

(** The sequential execution of the threads one after the other is an interleaving. *)
Lemma interleaves_concat : forall {A} (ths : list (list A)), interleaves ths (concat ths).
Proof.
  intros A ths.
  assert (G : forall rest done, Forall (fun th : list A => th = []) done ->
              interleaves (done ++ rest) (concat rest)).
  { induction rest as [|th rest IH]; intros done Hd.
    - rewrite app_nil_r. now constructor.
    - cbn. induction th as [|a th IHt]; cbn.
      + specialize (IH (done ++ [[]])). rewrite <- app_assoc in IH. apply IH.
        apply Forall_app. split; [assumption|]. constructor; [reflexivity|constructor].
      + now constructor. }
  apply (G ths []). constructor.
Qed.
