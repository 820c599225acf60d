(** Proofs for C36. *)
From Coq Require Import String List Bool Arith Lia.
From Verif.Lib Require Import Outcome.
From Verif.Model Require Import CmdLine.
From Verif.Spec Require Import CmdSpec.
Import ListNotations.
Local Open Scope string_scope.
Local Open Scope list_scope.

Lemma find_from_spec : forall left argv i o, (i + left = length argv)%nat ->
  exists j, find_from left argv i o = Ok j /\ (i <= j <= length argv)%nat /\
    (forall k, (i <= k < j)%nat -> nth_error argv k <> Some o) /\
    ((j < length argv)%nat -> nth_error argv j = Some o).
Proof.
  induction left as [|left IH]; intros argv i o H.
  - exists i. split; [reflexivity|]. repeat split; try lia.
  - cbn [find_from]. unfold arg.
    destruct (nth_error argv i) as [a|] eqn:E.
    + rewrite bind_ok. destruct (String.eqb_spec a o) as [->|N].
      * exists i. split; [reflexivity|]. split; [lia|]. split; [lia|]. intros _. exact E.
      * destruct (IH argv (S i) o) as (j & F & B & Q & P); [lia|]. exists j. split; [exact F|].
        split; [lia|]. split; [|exact P]. intros k Hk. destruct (Nat.eq_dec k i) as [->|]; [congruence|].
        apply Q. lia.
    + apply nth_error_None in E. lia.
Qed.

Lemma find_spec : forall argv o, exists j, find argv (length argv) o = Ok j /\ (j <= length argv)%nat /\
  (forall k, (k < j)%nat -> nth_error argv k <> Some o) /\ ((j < length argv)%nat -> nth_error argv j = Some o).
Proof.
  intros argv o. destruct (find_from_spec (length argv) argv 0 o) as (j & F & B & Q & P); [lia|].
  exists j. split; [exact F|]. split; [lia|]. split; [|exact P]. intros k Hk. apply Q. lia.
Qed.

Lemma exists_spec : forall argv o, exists b, cmd_option_exists argv (length argv) o = Ok b /\ (b = true <-> In o argv).
Proof.
  intros argv o. destruct (find_spec argv o) as (j & F & B & Q & P). unfold cmd_option_exists. rewrite F, bind_ok.
  eexists. split; [reflexivity|]. destruct (Nat.eqb_spec j (length argv)) as [->|N]; cbn.
  - split; [discriminate|]. intro I. apply In_nth_error in I. destruct I as (k & K).
    exfalso. apply (Q k); [|exact K]. apply nth_error_Some. congruence.
  - split; [|reflexivity]. intros _. apply nth_error_In with j. apply P. lia.
Qed.

Lemma asks_unique : forall argv a b, asks argv a -> asks argv b -> a = b.
Proof.
  assert (S : forall (l1 l2 m1 m2 : list string) o, l1 ++ o :: l2 = m1 ++ o :: m2 -> ~ In o l1 -> ~ In o m1 -> l2 = m2).
  { induction l1 as [|x l1 IH]; intros l2 m1 m2 o E N1 N2; destruct m1 as [|y m1]; cbn in *.
    - now inversion E.
    - inversion E; subst. exfalso. apply N2. now left.
    - inversion E; subst. exfalso. apply N1. now left.
    - inversion E; subst. apply (IH l2 m1 m2 o); tauto. }
  assert (I : forall l1 l2 (o : string), In o (l1 ++ o :: l2)) by (intros; apply in_or_app; right; now left).
  intros argv a b Ha Hb. inversion Ha; inversion Hb; subst; try contradiction; try reflexivity;
    try (exfalso; match goal with H : ~ In "-f" (_ ++ _) |- _ => apply H; apply I end).
  - match goal with H : _ ++ _ = _ ++ _ |- _ => apply S in H; [|assumption|assumption]; inversion H end. reflexivity.
  - match goal with H : _ ++ _ = _ ++ _ |- _ => apply S in H; [|assumption|assumption]; inversion H end.
  - match goal with H : _ ++ _ = _ ++ _ |- _ => apply S in H; [|assumption|assumption]; inversion H end.
Qed.

Lemma main_asks : forall argv, exists a, main argv (length argv) = Ok a /\ asks argv a.
Proof.
  intros argv. unfold main.
  destruct (exists_spec argv "-h") as (h & -> & H). rewrite bind_ok. destruct h.
  { exists Usage. split; [reflexivity|]. constructor. tauto. }
  destruct (exists_spec argv "--version") as (v & -> & V). rewrite bind_ok. destruct v.
  { exists Version. split; [reflexivity|]. constructor; [intro A; apply H in A; discriminate|tauto]. }
  assert (H' : ~ In "-h" argv) by (intro A; apply H in A; discriminate).
  assert (V' : ~ In "--version" argv) by (intro A; apply V in A; discriminate).
  destruct (exists_spec argv "-f") as (f & -> & F). rewrite bind_ok. destruct f.
  - unfold get_cmd_option. destruct (find_spec argv "-f") as (j & -> & B & Q & P). rewrite bind_ok.
    assert (J : j <> length argv).
    { intros ->. assert (I : In "-f" argv) by tauto. apply In_nth_error in I. destruct I as (k & K).
      apply (Q k); [|exact K]. apply nth_error_Some. congruence. }
    destruct (Nat.eqb_spec j (length argv)) as [|_]; [contradiction|]. cbn [negb].
    specialize (P ltac:(lia)). apply nth_error_split in P. destruct P as (l1 & l2 & E & L).
    assert (N1 : ~ In "-f" l1).
    { intro I. apply In_nth_error in I. destruct I as (k & K). apply (Q k).
      - assert (k < length l1)%nat by (apply nth_error_Some; congruence). lia.
      - rewrite E, nth_error_app1; [exact K|]. apply nth_error_Some. congruence. }
    destruct (Nat.eqb_spec (S j) (length argv)) as [Z|Z]; cbn [negb].
    + exists NoPath. rewrite bind_ok. split; [reflexivity|]. destruct l2 as [|f l2].
      * apply (AsksNothing argv l1); assumption.
      * rewrite E, app_length in Z. cbn in Z. lia.
    + destruct l2 as [|f l2]; [rewrite E, app_length in Z; cbn in Z; lia|].
      unfold arg. rewrite E, nth_error_app2 by lia. replace (S j - length l1)%nat with 1%nat by lia. cbn [nth_error].
      rewrite !bind_ok. exists (Start f). split; [reflexivity|]. rewrite <- E. apply (AsksFile argv l1 f l2); assumption.
  - exists (Start "parameters.xml"). split; [reflexivity|]. apply AsksDefault; try assumption.
    intro A. apply F in A. discriminate.
Qed.
