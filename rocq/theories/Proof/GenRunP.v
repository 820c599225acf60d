(** Schedules of the main loop for any arithmetic: the iterations of every parallel loop keep apart. *)
From Coq Require Import ZArith List Bool Lia.
From Verif.Lib Require Import Outcome Par ParProg.
From Verif.Model Require Import Arith Geometry CurrentDeposit Fields Pusher GenCode GenRun.
Import ListNotations.

Section GenRunP.
Variable A : arith.
Notation code := (@prog place (value A)).
Notation cmem := (place -> value A).

(** ** A sequence of pieces *)

(** Footprints that are pairwise apart exist for the parallel loops. *)
Definition piece_ok (x : piece A) : Prop :=
  match x with
  | Serial _ _ => True
  | Parallel _ idx body => exists F, (forall i, In i idx -> fits (F i) (body i)) /\
                                     ForallOrdPairs (fun i j => apart (F i) (F j)) idx
  end.

Lemma piece_runs_alone : forall x m o, piece_ok x -> piece_runs A x m o -> same_end o (piece_alone A x m).
Proof.
  intros [p|I idx body] m o; cbn.
  - intros _ ->. apply same_end_refl.
  - intros (F & H1 & H2) H. exact (omp_progs_serial place_eqb place_eqb_spec body F idx m o H1 H2 H).
Qed.

Lemma pieces_run_alone : forall l m o, Forall piece_ok l -> pieces_run A l m o -> same_end o (pieces_alone A l m).
Proof.
  induction l as [|x l IH]; intros m o Hl H; cbn in *; [subst; apply same_end_refl|].
  inversion Hl as [|y z Hx Hr]; subst. destruct H as (o1 & H1 & H2).
  assert (E := piece_runs_alone x m o1 Hx H1).
  destruct o1 as [m1|c|], (piece_alone A x m) as [m2|c'|]; cbn in *; subst; try tauto; auto.
Qed.

Lemma pieces_run_exists : forall l m, pieces_run A l m (pieces_alone A l m).
Proof.
  induction l as [|x l IH]; intro m; cbn; [reflexivity|]. exists (piece_alone A x m). split.
  - destruct x as [p|I idx body]; cbn; [reflexivity|]. apply omp_progs_exists.
  - destruct (piece_alone A x m); cbn; auto.
Qed.

Lemma FOP_nodup : forall {I} (P : I -> I -> Prop) l, NoDup l -> (forall i j, In i l -> In j l -> i <> j -> P i j) ->
  ForallOrdPairs P l.
Proof.
  intros I P l H. induction H as [|x l Hx H IH]; intro HP; constructor.
  - apply Forall_forall. intros y Hy. apply HP; [now left|now right|]. intros ->. contradiction.
  - apply IH. intros i j Hi Hj. apply HP; now right.
Qed.

(** ** Footprints *)

(** Loads and stores of the programs of one particle: it writes its own members, reads them and the fields. *)
Definition own (n : nat) (i : Z) (x : place) : Prop := exists f, x = PT n i f.
Definition sees (n : nat) (i : Z) (x : place) : Prop := own n i x \/ exists l, x = FLD l.
Definition particle_foot (n : nat) (i : Z) : foot := Foot (sees n i) (own n i).

Lemma particle_apart : forall n i j, i <> j -> apart (particle_foot n i) (particle_foot n j).
Proof.
  intros n i j N. split; intros x (f & ->); cbn; unfold sees, own; split; intro H; repeat (destruct H as [H|H]);
    destruct H; congruence.
Qed.

Notation fit n i p := (fits (particle_foot n i) p).

Lemma fit_ldn : forall f l k, f_rd f l -> (forall x, fits f (k x)) -> fits f (ldn A l k).
Proof. intros f l k H Hk. split; [exact H|]. intros [x|b|s]; [apply Hk|exact I|exact I]. Qed.
Lemma fit_ldb : forall f l k, f_rd f l -> (forall x, fits f (k x)) -> fits f (ldb A l k).
Proof. intros f l k H Hk. split; [exact H|]. intros [x|b|s]; [exact I|apply Hk|exact I]. Qed.
Lemma fit_stn : forall f l x p, f_wr f l -> fits f p -> fits f (stn A l x p).
Proof. intros f l x p H Hp. now split. Qed.
Lemma fit_pseq : forall f (p q : code), fits f p -> fits f q -> fits f (pseq p q).
Proof. intros f p q. apply within_pseq. Qed.
Lemma fit_terms : forall n i l s k, (forall x, fit n i (k x)) -> fit n i (ld_terms A l s k).
Proof.
  intros n i l. induction l as [|t l IH]; intros s k H; cbn [ld_terms]; [apply H|].
  apply fit_ldn; [right; eauto|]. intro x. now apply IH.
Qed.

Lemma fit_efield : forall n i g r z k, (forall x, fit n i (k x)) -> fit n i (ld_efield A g r z k).
Proof. intros. unfold ld_efield. repeat (apply fit_terms; intro). auto. Qed.
Lemma fit_hfield : forall n i g r z k, (forall x, fit n i (k x)) -> fit n i (ld_hfield A g r z k).
Proof. intros. unfold ld_hfield. repeat (apply fit_terms; intro). auto. Qed.

Ltac fit1 :=
  match goal with
  | |- forall _, _ => intro
  | |- fits _ (if ?b then _ else _) => destruct b
  | |- fits _ (pseq _ _) => apply fit_pseq
  | |- fits _ (ldn _ _ _) => apply fit_ldn
  | |- fits _ (ldb _ _ _) => apply fit_ldb
  | |- fits _ (stn _ _ _ _) => apply fit_stn
  | |- fits _ Done => exact I
  | |- fits _ (Halt _) => exact I
  | |- fits _ (St _ _ _) => split
  | |- fits _ (match ?o with Ok _ => _ | Exit _ => _ | UB => _ end) => destruct o
  | |- f_wr (particle_foot _ _) _ => eexists; reflexivity
  | |- own _ _ _ => eexists; reflexivity
  | |- f_rd (particle_foot _ _) _ => left; eexists; reflexivity
  | |- within (f_rd ?f) (f_wr ?f) ?p => change (fits f p)
  end.

Lemma fit_push : forall n i pu g dt, fit n i (push_code A n i pu g dt).
Proof.
  intros. unfold push_code, ld_vec, st_vec. repeat fit1. apply fit_efield. intro. apply fit_hfield. intro. repeat fit1.
Qed.
Lemma fit_half_step : forall n i dt, fit n i (half_step_code A n i dt).
Proof. intros. unfold half_step_code. cbv zeta. repeat fit1. Qed.
Lemma fit_back_position : forall n i, fit n i (back_position_code A n i).
Proof. intros. unfold back_position_code. cbv zeta. repeat fit1. Qed.

Lemma fit_step_v : forall n i pu g dt, fit n i (step_v_code A n i pu g dt).
Proof.
  intros. unfold step_v_code, if_alive. repeat fit1; [apply fit_push| |apply fit_half_step|apply fit_back_position].
  unfold dump_old_code. repeat fit1.
Qed.

Lemma fit_reflect : forall n i above p v w t, fit n i (reflect_code A n i above p v w t).
Proof. intros. unfold reflect_code. repeat fit1. Qed.
Lemma fit_die : forall n i p w, fit n i (die_code A n i p w).
Proof. intros. unfold die_code. repeat fit1. Qed.

Lemma fit_half_reflect : forall n i g dt b, fit n i (half_reflect_code A n i g dt b).
Proof.
  intros. unfold half_reflect_code, if_alive, bunch_reflection_code, reflection_code.  cbv zeta.
  repeat fit1; auto using fit_half_step, fit_back_position, fit_reflect, fit_die.
Qed.

Lemma fit_velocity_back : forall n i, fit n i (velocity_back_code A n i).
Proof. intros. unfold velocity_back_code, if_alive, back_velocity_code. cbv zeta. repeat fit1. Qed.

Lemma particles_ok : forall n cnt (body : Z -> code), (forall i, fit n i (body i)) -> piece_ok (Parallel A (zrange 0 cnt) body).
Proof.
  intros n cnt body H. exists (particle_foot n). split; [auto|]. apply FOP_nodup; [apply zrange_nodup|].
  intros i j _ _. apply particle_apart.
Qed.

(** Injection with random_reverse. *)
Lemma inject_ok : forall c t k, (exists f, c_rand A c = Reverse A f) -> piece_ok (inject_piece A c t k).
Proof.
  intros c t k (f & E). unfold inject_piece. cbv zeta. rewrite E. destruct (_ =? 0)%Z; [exact I|].
  destruct (_ && _); [|exact I].
  set (s := trunc_int A _). eexists (fun i => particle_foot (bunch_pos A c k) (i + s)%Z). split.
  - intros i _. cbn [ld_rand]. unfold inject_code. repeat fit1.
  - apply FOP_nodup; [apply zrange_nodup|]. intros i j _ _ N. apply particle_apart. lia.
Qed.

(** Resets. *)
Lemma reset_rho_ok : forall c a, piece_ok (reset_rho_piece A c a).
Proof.
  intros c a. exists (fun x => Foot (fun _ => False) (fun l => l = RHO a (fst x) (snd x))). split.
  - intros x _. now repeat split.
  - apply FOP_nodup; [apply cells_nodup|]. intros [i k] [i' k'] _ _ N.
    split; cbn; intros x Hx; split; [tauto| |tauto|]; intro Hy; subst; congruence.
Qed.
Lemma reset_j_ok : forall c, piece_ok (reset_j_piece A c).
Proof.
  intros c. exists (fun x => Foot (fun _ => False) (fun l => exists a, l = FLD (a, fst x, snd x))). split.
  - intros x _. repeat split; eexists; reflexivity.
  - apply FOP_nodup; [apply cells_nodup|]. intros [i k] [i' k'] _ _ N.
    split; cbn; intros x (a & Hx); split; [tauto| |tauto|]; intros (b & Hy); subst; congruence.
Qed.

(** Fields. *)
Definition asg_foot (l : list (gasg A)) : foot :=
  Foot (fun x => exists y, In y (reads_of l) /\ x = FLD y) (fun x => exists y, In y (writes_of l) /\ x = FLD y).

Lemma independent_apart : forall a b, independent a b -> apart (asg_foot a) (asg_foot b).
Proof.
  intros a b [H1 H2]. split; intros x (y & Hy & ->); cbn; split; intros (z & Hz & E); injection E as <-.
  - now destruct (H1 y Hy).
  - now destruct (H1 y Hy).
  - now destruct (H2 y Hy).
  - now destruct (H2 y Hy).
Qed.

Lemma fit_ldns : forall f ls k, (forall l, In l ls -> f_rd f l) -> (forall xs, fits f (k xs)) -> fits f (ldns A ls k).
Proof.
  intros f ls. induction ls as [|l ls IH]; intros k H Hk; cbn [ldns]; [apply Hk|].
  apply fit_ldn; [apply H; now left|]. intro x. apply IH; [|intro; apply Hk]. intros y Hy. apply H. now right.
Qed.

Lemma fit_body : forall l, fits (asg_foot l) (body_code A l).
Proof.
  intro l. unfold body_code. apply within_pconcat. rewrite Forall_map. apply Forall_forall. intros a Ha.
  unfold asg_code. apply (fit_ldns (asg_foot l)).
  - intros x Hx. apply in_map_iff in Hx. destruct Hx as (y & <- & Hy). exists y. split; [|reflexivity].
    unfold reads_of. apply in_flat_map. eauto.
  - intro xs. split; [|exact I]. exists (tgt a). split; [|reflexivity]. unfold writes_of. now apply in_map.
Qed.

Lemma field_ok : forall loops, Forall (ForallOrdPairs independent) loops -> Forall piece_ok (field_pieces A loops).
Proof.
  intros loops H. unfold field_pieces. rewrite Forall_map. eapply Forall_impl; [|exact H]. cbn. intros l Hl.
  exists asg_foot. split; [intros; apply fit_body|]. clear H. induction Hl as [|a l Ha Hl IH]; constructor; auto.
  eapply Forall_impl; [|exact Ha]. intro. apply independent_apart.
Qed.

Ltac split_in :=
  repeat match goal with H : _ \/ _ |- _ => destruct H as [H|H] | H : False |- _ => destruct H end.
Ltac gloops_indep :=
  repeat constructor; apply loop_independent; try apply zrange_nodup; try apply cells_nodup;
  intros a b _ _ N; try destruct a as [? ?]; try destruct b as [? ?]; cbn [fst snd] in *;
  unfold independent, writes_of, reads_of; cbn; split; intros x Hx; split; intro Hy; split_in; congruence.

Lemma gefield_loops_independent : forall g md dt, Forall (ForallOrdPairs independent) (gefield_loops A g md dt).
Proof. intros. unfold gefield_loops. gloops_indep. Qed.
Lemma ghfield_loops_independent : forall g dt, Forall (ForallOrdPairs independent) (ghfield_loops A g dt).
Proof. intros. unfold ghfield_loops. gloops_indep. Qed.

(** ** The run *)

Lemma iteration_ok : forall c nb, Forall piece_ok (iteration_pieces A c nb).
Proof.
  intros c nb. unfold iteration_pieces. cbv zeta. rewrite !Forall_app. repeat match goal with |- _ /\ _ => split end.
  - apply field_ok, ghfield_loops_independent.
  - repeat constructor; [apply reset_j_ok|apply reset_rho_ok|apply reset_rho_ok].
  - rewrite Forall_map. apply Forall_forall. intros [[n cnt] b] _. apply (particles_ok n). intro. apply fit_step_v.
  - apply Forall_flat_map, Forall_forall. intros [[n cnt] b] _.
    repeat constructor; [apply (particles_ok n); intro; apply fit_half_reflect|apply (particles_ok n); intro; apply fit_velocity_back].
  - apply field_ok, gefield_loops_independent.
  - repeat constructor. apply reset_rho_ok.
  - rewrite Forall_map. apply Forall_forall. intros k _. exact I.
Qed.

Lemma beam_ok : forall c t nb, (exists f, c_rand A c = Reverse A f) -> Forall piece_ok (fst (beam_pieces A c t nb)).
Proof.
  intros c t nb H. unfold beam_pieces. destruct (erase_reached A c t nb); [repeat constructor|]. cbn [fst].
  apply Forall_app. split; [destruct (creates A c t nb); repeat constructor|].
  rewrite Forall_map. apply Forall_forall. intros k _. now apply inject_ok.
Qed.

Lemma run_ok : forall c fuel t te nb, (exists f, c_rand A c = Reverse A f) -> Forall piece_ok (run_pieces A c fuel t te nb).
Proof.
  intros c fuel. induction fuel as [|fuel IH]; intros t te nb H; cbn [run_pieces]; [constructor|].
  destruct (ltb A t te); [|constructor]. assert (B := beam_ok c t nb H). destruct (beam_pieces A c t nb) as [beam nb'].
  apply Forall_app. split; [exact B|]. apply Forall_app. split; [apply iteration_ok|now apply IH].
Qed.

Theorem run_schedule : forall c fuel t te nb m o, (exists f, c_rand A c = Reverse A f) ->
  pieces_run A (run_pieces A c fuel t te nb) m o -> same_end o (pieces_alone A (run_pieces A c fuel t te nb) m).
Proof. intros c fuel t te nb m o H. apply pieces_run_alone. now apply run_ok. Qed.

End GenRunP.
