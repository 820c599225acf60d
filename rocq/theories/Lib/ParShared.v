(** Threads that read only what nobody writes, and that agree on the value of every location
    they write: every interleaving has the same result, although several threads may store to the
    same location. Nothing here models particular code. *)
From Coq Require Import ZArith List Bool Relations.
From Verif.Lib Require Import Par.
Import ListNotations.

Section Shared.
Context {L V : Type} (eqb : L -> L -> bool).
Hypothesis eqb_spec : forall x y, reflect (x = y) (eqb x y).
Notation memory := (L -> V).
Notation asg := (@asg L V).
Notation thread := (@thread L V).

Definition value_of (m : memory) (a : asg) : V := rhs a (map m (reads a)).

(** A thread that still has to do the stores of the assignments [l]. *)
Definition th_st (m : memory) (l : list asg) (th : thread) : Prop :=
  match l with
  | [] => fst th = []
  | a :: l' => exists rs rs', reads a = rs ++ rs' /\ snd th = map m rs /\
                 fst th = map Load rs' ++ Store (tgt a) (rhs a) :: compile_all l'
  end.

Lemma th_st_start : forall m l, th_st m l (compile_all l, []).
Proof.
  intros m [|a l]; [reflexivity|]. exists [], (reads a). repeat split.
  cbn [fst]. unfold compile_all. cbn [flat_map]. unfold compile. rewrite <- app_assoc. reflexivity.
Qed.

Section Run.
Variable m : memory.
Variable all : list asg.
Hypothesis Hr : forall a b x, In a all -> In b all -> In x (reads a) -> tgt b <> x.
Hypothesis Hv : forall a b, In a all -> In b all -> tgt a = tgt b -> value_of m a = value_of m b.

Definition inv (s : memory * list thread) : Prop :=
  exists ls, Forall2 (th_st m) ls (snd s) /\ (forall a, In a (concat ls) -> In a all) /\
    (forall x, (forall a, In a all -> tgt a <> x) -> fst s x = m x) /\
    (forall a, In a all -> In a (concat ls) \/ fst s (tgt a) = value_of m a).

Lemma inv_step : forall s s', inv s -> cstep eqb s s' -> inv s'.
Proof.
  intros s s' (ls & HF & Hin & Hx & Ha) H. inversion H as [mm pre op ops buf post E1 E2]; subst.
  cbn [fst snd] in *.
  apply Forall2_app_inv_r in HF. destruct HF as (l1 & l2 & F1 & F2 & ->).
  inversion F2 as [|l th l2' post' Ht F3]; subst. clear F2.
  destruct l as [|a l]; [cbn in Ht; discriminate|].
  destruct Ht as (rs & rs' & R1 & R2 & R3). cbn [fst snd] in R2, R3. subst buf.
  assert (Ain : In a all).
  { apply Hin. rewrite concat_app. apply in_or_app. right. cbn. now left. }
  destruct rs' as [|x rs']; cbn in R3; injection R3 as -> ->.
  - rewrite app_nil_r in R1. subst rs. exists (l1 ++ l :: l2').
    cbn [ustep fst snd]. repeat split.
    + apply Forall2_app; [exact F1|]. constructor; [|exact F3]. apply th_st_start.
    + intros b Hb. apply Hin. rewrite concat_app in *. apply in_app_or in Hb. apply in_or_app.
      destruct Hb as [Hb|Hb]; [now left|]. right. cbn in *. now right.
    + intros y Hy. rewrite (store_other eqb eqb_spec); [now apply Hx|]. intro E. apply (Hy a Ain). now symmetry.
    + intros b Hb. destruct (eqb_spec (tgt b) (tgt a)) as [E|N].
      * right. rewrite E, (store_same eqb eqb_spec). symmetry. now apply Hv.
      * destruct (Ha b Hb) as [I|I].
        -- left. rewrite concat_app in *. apply in_app_or in I. apply in_or_app.
           destruct I as [I|I]; [now left|]. right. cbn in *. destruct I as [->|I]; [congruence|exact I].
        -- right. now rewrite (store_other eqb eqb_spec) by exact N.
  - exists (l1 ++ (a :: l) :: l2'). cbn [ustep fst snd]. repeat split; auto.
    apply Forall2_app; [exact F1|]. constructor; [|exact F3].
    exists (rs ++ [x]), rs'. rewrite <- app_assoc. split; [exact R1|]. split; [|reflexivity].
    cbn [snd]. rewrite map_app. cbn. f_equal. f_equal. apply Hx. intros b Hb.
    apply (Hr a b x Ain Hb). rewrite R1. apply in_or_app. right. now left.
Qed.

Lemma inv_steps : forall s s', clos_refl_trans_1n _ (cstep eqb) s s' -> inv s -> inv s'.
Proof. intros s s' H. induction H as [s|s t s' H _ IH]; intro I; [exact I|]. apply IH. eapply inv_step; eauto. Qed.

End Run.

Theorem interleaved_shared : forall m m' progs,
  (forall a b x, In a (concat progs) -> In b (concat progs) -> In x (reads a) -> tgt b <> x) ->
  (forall a b, In a (concat progs) -> In b (concat progs) -> tgt a = tgt b -> value_of m a = value_of m b) ->
  interleaved eqb (map compile_all progs) m m' ->
  (forall a, In a (concat progs) -> m' (tgt a) = value_of m a) /\
  (forall x, (forall a, In a (concat progs) -> tgt a <> x) -> m' x = m x).
Proof.
  intros m m' progs Hr Hv (ths & Hs & Hd).
  assert (I : inv m (concat progs) (m', ths)).
  { eapply inv_steps; [exact Hr|exact Hv|exact Hs|]. exists progs. cbn [fst snd]. repeat split; auto.
    rewrite map_map. clear. induction progs as [|p ps IH]; cbn; constructor; auto. apply th_st_start. }
  destruct I as (ls & F & _ & Hx & Ha). cbn [fst snd] in *.
  assert (N : concat ls = []).
  { clear -F Hd. induction F as [|l th ls ths Ht F IH]; [reflexivity|].
    inversion Hd as [|u v Hu Hv]; subst. cbn. rewrite IH by assumption. rewrite app_nil_r.
    destruct l as [|a l]; [reflexivity|]. destruct Ht as (rs & rs' & _ & _ & E). rewrite Hu in E.
    destruct rs'; discriminate. }
  split; [|exact Hx]. intros a Hin. destruct (Ha a Hin) as [C|C]; [|exact C].
  rewrite N in C. destruct C.
Qed.

End Shared.
