(** The loads and stores of Model/GenRun.v for one particle have the effect of the functions of Model/GenCode.v. *)
From Coq Require Import ZArith List Bool Lia.
From Verif.Lib Require Import Outcome Par ParProg.
From Verif.Model Require Import Arith Geometry CurrentDeposit Fields Pusher GenCode GenRun.
From Verif.Proof Require Import GenRunP.
Import ListNotations.

Section GenLinkP.
Variable A : arith.
Notation num := (num A).
Notation code := (@prog place (value A)).
Notation cmem := (place -> value A).
Notation prun := (@ParProg.prun place (value A) place_eqb).
Notation put := (@ParProg.put place (value A) place_eqb).

(** Memory [m] holds particle [p] at [n], [i]; the fields are [f]. *)
Definition holds_at (m : cmem) (n : nat) (i : Z) (a : bool) (q mass : num) (x0 x1 x2 u0 u1 u2 o0 o2 s : num) : Prop :=
  m (PT n i ALIVE) = VB A a /\ m (PT n i CHARGE) = VN A q /\ m (PT n i MASS) = VN A mass /\
  m (PT n i POS0) = VN A x0 /\ m (PT n i POS1) = VN A x1 /\ m (PT n i POS2) = VN A x2 /\
  m (PT n i VEL0) = VN A u0 /\ m (PT n i VEL1) = VN A u1 /\ m (PT n i VEL2) = VN A u2 /\
  m (PT n i OLD0) = VN A o0 /\ m (PT n i OLD2) = VN A o2 /\ m (PT n i SIN) = VN A s.

Definition holds (m : cmem) (n : nat) (i : Z) (p : gparticle A) : Prop :=
  let f := gph A p in
  holds_at m n i (galive A p) (gcharge A p) (gmass A p) (g0 A (gpos A f)) (g1 A (gpos A f)) (g2 A (gpos A f))
    (g0 A (gvel A f)) (g1 A (gvel A f)) (g2 A (gvel A f)) (gr_old A f) (gz_old A f) (gsin A f).

Definition fields_are (m : cmem) (f : loc -> num) : Prop := forall x, m (FLD x) = VN A (f x).

(** [o] is the end of the program that [r] says, and the memory then holds the particle. *)
Definition particle_end (n : nat) (i : Z) (o : outcome cmem) (r : outcome (gparticle A)) : Prop :=
  match r with
  | Ok p => exists m, o = Ok m /\ holds m n i p
  | Exit c => o = Exit c
  | UB => o = UB
  end.

Lemma prun_ldn : forall m l x k, m l = VN A x -> prun (ldn A l k) m = prun (k x) m.
Proof. intros m l x k H. cbn. now rewrite H. Qed.
Lemma prun_ldb : forall m l x k, m l = VB A x -> prun (ldb A l k) m = prun (k x) m.
Proof. intros m l x k H. cbn. now rewrite H. Qed.
Lemma prun_stn : forall m l x p, prun (stn A l x p) m = prun p (put m l (VN A x)).
Proof. reflexivity. Qed.
Lemma prun_st : forall m l (x : value A) (p : code), prun (St l x p) m = prun p (put m l x).
Proof. reflexivity. Qed.
Lemma prun_done : forall m, prun Done m = Ok m. Proof. reflexivity. Qed.

Lemma get_put_own : forall (m : cmem) n i f g v,
  put m (PT n i f) v (PT n i g) = if pfield_eqb g f then v else m (PT n i g).
Proof.
  intros. unfold ParProg.put. cbn. now rewrite Nat.eqb_refl, Z.eqb_refl.
Qed.

Ltac gets := rewrite ?get_put_own; cbn [pfield_eqb]; (reflexivity || eassumption).
Ltac run1 :=
  match goal with
  | |- context [ParProg.prun _ (ldn _ _ _) _] => erewrite prun_ldn by gets
  | |- context [ParProg.prun _ (ldb _ _ _) _] => erewrite prun_ldb by gets
  | |- context [ParProg.prun _ (stn _ _ _ _) _] => rewrite prun_stn
  | |- context [ParProg.prun _ (St _ _ _) _] => rewrite prun_st
  | |- context [ParProg.prun _ Done _] => rewrite prun_done
  | |- context [ParProg.prun _ (pseq _ _) _] => rewrite (prun_pseq place_eqb)
  end; cbn [bind].
Ltac held := unfold holds, holds_at; cbn [gph gpos gvel g0 g1 g2 gr_old gz_old gsin galive gcharge gmass gwith_phase];
  repeat match goal with |- _ /\ _ => split end; gets.

Lemma prun_terms : forall m f l s k, fields_are m f ->
  prun (ld_terms A l s k) m = prun (k (fold_left (fun s t => gterm_add A s t (f (t_at A t))) l s)) m.
Proof.
  intros m f l. induction l as [|t l IH]; intros s k H; cbn [ld_terms fold_left]; [reflexivity|].
  rewrite (prun_ldn m _ (f (t_at A t))) by apply H. now apply IH.
Qed.

Lemma prun_efield : forall m f g r z k, fields_are m f ->
  prun (ld_efield A g r z k) m = prun (k (gget_efield A g f r z)) m.
Proof. intros m f g r z k H. unfold ld_efield. now rewrite !(prun_terms m f). Qed.
Lemma prun_hfield : forall m f g r z k, fields_are m f ->
  prun (ld_hfield A g r z k) m = prun (k (gget_hfield A g f r z)) m.
Proof. intros m f g r z k H. unfold ld_hfield. now rewrite !(prun_terms m f). Qed.

Lemma step_v_link : forall m n i p f pu g dt, holds m n i p -> fields_are m f ->
  particle_end n i (prun (step_v_code A n i pu g dt) m) (gstep_v_one A pu g dt f p).
Proof.
  intros m n i [a q mass [[x0 x1 x2] [u0 u1 u2] o0 o2 s]] f pu g dt H Hf.
  assert (H0 := H). destruct H as (Ha & Hq & Hm & H1 & H2 & H3 & H4 & H5 & H6 & H7 & H8 & H9).
  cbn [gph gpos gvel g0 g1 g2 gr_old gz_old gsin galive gcharge gmass] in *.
  unfold gstep_v_one, step_v_code, if_alive. cbn [gph gpos gvel g0 g1 g2 gr_old gz_old gsin galive gcharge gmass].
  run1. destruct a; [|run1; exists m; split; [reflexivity|exact H0]].
  run1. unfold push_code. run1. run1. destruct (finite A x0 && finite A x2) eqn:F; [|reflexivity].
  rewrite (prun_efield m f), (prun_hfield m f) by exact Hf. run1. run1. unfold ld_vec. run1. run1. run1.
  destruct (gpush A pu dt q mass _ _ _) as [[w0 w1 w2]|c|]; cbn [bind]; [|reflexivity|reflexivity].
  unfold st_vec. cbn [g0 g1 g2]. repeat run1.
  unfold dump_old_code. repeat run1.
  unfold half_step_code, ghalf_step_pos, gdump_position_to_old. cbv zeta. repeat run1.
  cbn [gph gpos gvel g0 g1 g2 gr_old gz_old gsin]. rewrite F.
  repeat run1. cbn [bind]. unfold back_position_code. cbv zeta. repeat run1. eexists. split; [reflexivity|].
  held.
Qed.

Lemma half_reflect_link : forall m n i p g dt b, holds m n i p ->
  particle_end n i (prun (half_reflect_code A n i g dt b) m) (ghalf_reflect A g dt b p).
Proof.
  intros m n i [a q mass [[x0 x1 x2] [u0 u1 u2] o0 o2 s]] g dt b H.
  assert (H0 := H). destruct H as (Ha & Hq & Hm & H1 & H2 & H3 & H4 & H5 & H6 & H7 & H8 & H9).
  cbn [gph gpos gvel g0 g1 g2 gr_old gz_old gsin galive gcharge gmass] in *.
  unfold ghalf_reflect, half_reflect_code, if_alive. cbn [gph gpos gvel g0 g1 g2 gr_old gz_old gsin galive gcharge gmass].
  run1. destruct a; [|run1; exists m; split; [reflexivity|exact H0]].
  unfold half_step_code, ghalf_step_pos. cbv zeta. repeat run1.
  cbn [gph gpos gvel g0 g1 g2 gr_old gz_old gsin]. destruct (finite A x0 && finite A x2) eqn:F; [|reflexivity].
  repeat run1.
  set (y0 := add A x0 _). set (y1 := add A x1 _). set (y2 := add A x2 _).
  repeat run1. destruct b.
  - unfold bunch_reflection_code, gbunch_reflection, die_code, reflect_code. cbv zeta.
    cbn [gph gpos gvel g0 g1 g2 gr_old gz_old gsin].
    set (wr := sub A (gr_size A g) _). set (wz := sub A (gz_size A g) _).
    repeat run1.
    destruct (ltb A wr y0); cbn [orb]; repeat run1;
    (destruct (ltb A wz y2); cbn [negb]; repeat run1;
     (destruct (ltb A y0 _); repeat run1;
      (destruct (ltb A y2 _); repeat run1; unfold back_position_code; cbv zeta; repeat run1;
       eexists; (split; [reflexivity|]); held))).
  - unfold reflection_code, greflection, reflect_code. cbv zeta.
    cbn [gph gpos gvel g0 g1 g2 gr_old gz_old gsin].
    set (wr := sub A (gr_size A g) _). set (wz := sub A (gz_size A g) _).
    repeat run1.
    destruct (ltb A wr y0); repeat run1;
    (destruct (ltb A wz y2); repeat run1;
     (match goal with |- context [if ltb A ?x (div A (gdr A g) _) then _ else _] => destruct (ltb A x (div A (gdr A g) (of_int A 2))) end;
      repeat run1;
      (match goal with |- context [if ltb A ?x (div A (gdz A g) _) then _ else _] => destruct (ltb A x (div A (gdz A g) (of_int A 2))) end;
       repeat run1; unfold back_position_code; cbv zeta; repeat run1;
       eexists; (split; [reflexivity|]); held))).
Qed.

Lemma velocity_back_link : forall m n i p, holds m n i p ->
  particle_end n i (prun (velocity_back_code A n i) m) (Ok (gvelocity_back A p)).
Proof.
  intros m n i [a q mass [[x0 x1 x2] [u0 u1 u2] o0 o2 s]] H.
  assert (H0 := H). destruct H as (Ha & Hq & Hm & H1 & H2 & H3 & H4 & H5 & H6 & H7 & H8 & H9).
  cbn [gph gpos gvel g0 g1 g2 gr_old gz_old gsin galive gcharge gmass] in *.
  unfold gvelocity_back, velocity_back_code, if_alive. cbn [gph gpos gvel g0 g1 g2 gr_old gz_old gsin galive gcharge gmass].
  run1. destruct a; [|run1; exists m; split; [reflexivity|exact H0]].
  unfold back_velocity_code. cbv zeta. repeat run1. eexists. split; [reflexivity|]. held.
Qed.

End GenLinkP.
