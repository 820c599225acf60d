(** The interpolated field in binary64 is finite. *)
From Coq Require Import ZArith Reals Lra Lia Psatz Bool List.
From Flocq Require Import Core IEEE754.BinarySingleNaN.
From Verif.Lib Require Import RAux Outcome.
From Verif.Model Require Import Binary64 Temperature64 Arith Geometry Fields Pusher GenCode GenRun.
From Verif.Spec Require Import Double.
From Verif.Proof Require Import Binary64P FloatP Axis64P Motion64R Motion64P Cells64P Push64P GenIndexP Err64P Limit64P.
Import ListNotations.
Local Open Scope R_scope.

Section Field.
Variables pw lg : b64 -> b64.
Notation A := (b64_arith pw lg).
Variable g : ggeom A.
Variable dt : b64.
Hypothesis HF : fine pw lg g dt.
Notation dr := (dr pw lg g).
Notation dz := (dz pw lg g).

Definition tg (t : gterm A) : Prop := ring pw lg g (t_z A t) (t_r1 A t) (t_r2 A t) (t_v A t).

Lemma rng_ok : forall x t, mg x 251 -> tg t -> mg (gRNG A x (t_z A t) (t_r1 A t) (t_r2 A t) (t_v A t)) 261.
Proof.
  intros x t X T. assert (R : rg (bp 251) (-400) 600) by (split; apply bpow_le; lia). destruct (ring_value pw lg g dt HF _ _ _ _ _ _ X R T) as (F & B). split; [exact F|].
  replace (bp 261) with (1024 * bp 251) by (change 261%Z with (10 + 251)%Z; rewrite bpow_plus; reflexivity). exact B.
Qed.

Lemma weighted_ok : forall m l s e, mg s e -> (261 <= e)%Z -> (e + Z.of_nat (length l) <= 1000)%Z -> (forall t, In t l -> tg t /\ mg (m (t_at A t)) 251) ->
  mg (fold_left (fun s t => gterm_add A s t (m (t_at A t))) l s) (e + Z.of_nat (length l)).
Proof.
  intros m l. induction l as [|t l IH]; intros s e S E L H.
  - cbn [fold_left length]. apply (mg_weaken _ _ _ S). cbn. lia.
  - cbn [fold_left length] in *. apply mg_weaken with (e + 1 + Z.of_nat (length l))%Z; [|lia]. destruct (H t (or_introl eq_refl)) as (T & X).
    apply IH; [|lia|lia|intros t' I; apply H; now right]. apply (mg_add2 _ _ e 261); [exact S|now apply rng_ok|lia..].
Qed.

Lemma corner_ok : forall a i k z1 z2 r1 r2 r3 v1 v2, (forall z, z = z1 \/ z = z2 -> ring pw lg g z r1 r2 v1 /\ ring pw lg g z r2 r3 v2) ->
  Forall tg (gcorner_terms A a i k z1 z2 r1 r2 r3 v1 v2).
Proof.
  intros a i k z1 z2 r1 r2 r3 v1 v2 H. destruct (H z1 (or_introl eq_refl)) as (H1 & H2). destruct (H z2 (or_intror eq_refl)) as (H3 & H4). unfold gcorner_terms.
  apply Forall_cons; [exact H1|]. apply Forall_cons; [exact H2|]. apply Forall_cons; [exact H3|]. apply Forall_cons; [exact H4|]. apply Forall_nil.
Qed.

Lemma corner_at : forall a i k z1 z2 r1 r2 r3 v1 v2 t, In t (gcorner_terms A a i k z1 z2 r1 r2 r3 v1 v2) -> fst (fst (t_at A t)) = a.
Proof. intros a i k z1 z2 r1 r2 r3 v1 v2 t [<-|[<-|[<-|[<-|[]]]]]; reflexivity. Qed.

Lemma terms_ok : forall a r z, home pw lg g r z ->
  Forall tg (gterms_half_r A a g r z) /\ Forall tg (gterms_half_z A a g r z) /\ Forall tg (gterms_whole A a g r z) /\ Forall tg (gterms_half_both A a g r z).
Proof.
  intros a r z H. destruct (home_range pw lg g dt HF r z H) as (FR & R & FZ & Z). assert (AR := axr pw lg g dt HF). assert (AZ := axz pw lg g dt HF).
  assert (L1 := len_pos _ _ _ AR). assert (L2 := len_pos _ _ _ AZ). unfold len in *.
  destruct (heights pw lg g dt HF z FZ ltac:(lra)) as (H1 & H2 & H3 & H4 & _).
  assert (RH := fun w => radii_half pw lg g dt HF r w FR ltac:(lra)). assert (RW := fun w => radii_whole pw lg g dt HF r w FR ltac:(lra)). cbv zeta in RH, RW.
  unfold gterms_half_r, gterms_half_z, gterms_whole, gterms_half_both. cbv zeta.
  change (add A) with b64_add. change (sub A) with b64_sub. change (mul A) with b64_mul. change (of_int A) with b64_of_Z. change (ghalf A) with (b64_lit 1 2). change (g3half A) with (b64_lit 3 2).
  change (gdr A g) with dr. change (gdz A g) with dz.
  split; [|split; [|split]]; apply corner_ok; intros w [->| ->].
  - exact (RH _ H1).
  - exact (RH _ H2).
  - destruct (RW _ H3) as (X & Y). split; [exact X|]. apply Y. now right.
  - destruct (RW _ H4) as (X & Y). split; [exact X|]. apply Y. now right.
  - destruct (RW _ H1) as (X & Y). split; [exact X|]. apply Y. now right.
  - destruct (RW _ H2) as (X & Y). split; [exact X|]. apply Y. now right.
  - exact (RH _ H3).
  - exact (RH _ H4).
Qed.

Theorem felt : forall m r z, home pw lg g r z -> calm pw lg g m -> mgv pw lg (gget_efield A g m r z) 265 /\ mgv pw lg (gget_hfield A g m r z) 265.
Proof.
  intros m r z H CM. assert (RD := home_reads pw lg g dt HF r z H). rewrite Forall_forall in RD.
  assert (W : forall l, length l = 4%nat -> Forall tg l -> (forall t, In t l -> mg (m (t_at A t)) 251) -> mg (gweighted_sum A m l) 265).
  { intros l N T X. unfold gweighted_sum. change 265%Z with (261 + Z.of_nat 4)%Z. rewrite <- N. apply weighted_ok; [apply mg_zero|lia|rewrite N; cbn; lia|].
    intros t I. rewrite Forall_forall in T. split; [now apply T|now apply X]. }
  assert (RX : forall a t l, In a (ER :: EPHI :: EZ :: HRH :: HPHIH :: HZH :: nil) -> In t l -> incl (map (t_at A) l) (interpolation_reads A g r z) -> fst (fst (t_at A t)) = a -> mg (m (t_at A t)) 251).
  { intros a t l IA IT IN E. assert (I := RD (t_at A t) (IN _ (in_map (t_at A) _ _ IT))). destruct (t_at A t) as ((a' & i) & k). cbn in E, I. subst a'. exact (CM a i k IA I). }
  assert (IC : forall l1 l2 l3 : list (gterm A), incl (map (t_at A) l2) (map (t_at A) (l1 ++ l2 ++ l3))).
  { intros l1 l2 l3 x I. rewrite !map_app, !in_app_iff. auto. }
  unfold gget_efield, gget_hfield, mgv. cbn [g0 g1 g2].
  destruct (terms_ok ER r z H) as (T1 & _). destruct (terms_ok EPHI r z H) as (_ & _ & T2 & _). destruct (terms_ok EZ r z H) as (_ & T3 & _).
  destruct (terms_ok HRH r z H) as (_ & T4 & _). destruct (terms_ok HPHIH r z H) as (_ & _ & _ & T5). destruct (terms_ok HZH r z H) as (T6 & _).
  split; (split; [|split]); apply W; try assumption; try reflexivity; intros t I.
  - apply (RX ER t _ ltac:(cbn; auto 10) I); [unfold interpolation_reads; apply (IC nil)|]. unfold gterms_half_r in I. cbv zeta in I. exact (corner_at _ _ _ _ _ _ _ _ _ _ _ I).
  - apply (RX EPHI t _ ltac:(cbn; auto 10) I); [unfold interpolation_reads; apply IC|]. unfold gterms_whole in I. cbv zeta in I. exact (corner_at _ _ _ _ _ _ _ _ _ _ _ I).
  - apply (RX EZ t _ ltac:(cbn; auto 10) I); [unfold interpolation_reads; rewrite (app_assoc (gterms_half_r A ER g r z)); apply IC|]. unfold gterms_half_z in I. cbv zeta in I. exact (corner_at _ _ _ _ _ _ _ _ _ _ _ I).
  - apply (RX HRH t _ ltac:(cbn; auto 10) I); [unfold interpolation_reads; rewrite (app_assoc (gterms_half_r A ER g r z)), (app_assoc (_ ++ _)); apply IC|]. unfold gterms_half_z in I. cbv zeta in I. exact (corner_at _ _ _ _ _ _ _ _ _ _ _ I).
  - apply (RX HPHIH t _ ltac:(cbn; auto 10) I); [unfold interpolation_reads; rewrite (app_assoc (gterms_half_r A ER g r z)), (app_assoc (_ ++ _)), (app_assoc ((_ ++ _) ++ _)); apply IC|]. unfold gterms_half_both in I. cbv zeta in I. exact (corner_at _ _ _ _ _ _ _ _ _ _ _ I).
  - apply (RX HZH t _ ltac:(cbn; auto 10) I); [unfold interpolation_reads; intros x Hx; rewrite !map_app, !in_app_iff; auto 10|]. unfold gterms_half_r in I. cbv zeta in I. exact (corner_at _ _ _ _ _ _ _ _ _ _ _ I).
Qed.
End Field.
