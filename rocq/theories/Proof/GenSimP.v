(** The main loop over memory (Model/GenRun.v) with one thread does what the function of Model/GenSim.v says. *)
From Coq Require Import ZArith List Bool Lia FunctionalExtensionality.
From Verif.Lib Require Import Outcome Par ParProg.
From Verif.Model Require Sim.
From Verif.Model Require Import Arith Geometry CurrentDeposit Fields Pusher GenCode GenRun GenSim.
From Verif.Proof Require Import GenRunP GenLinkP.
Import ListNotations.

Lemma zrange_cons : forall lo n, zrange lo (lo + Z.of_nat (S n)) = lo :: zrange (lo + 1) (lo + 1 + Z.of_nat n).
Proof.
  intros lo n. unfold zrange.
  replace (Z.to_nat (lo + Z.of_nat (S n) - lo)) with (S n) by lia.
  replace (Z.to_nat (lo + 1 + Z.of_nat n - (lo + 1))) with n by lia.
  cbn [seq map]. f_equal; [lia|]. rewrite <- seq_shift, map_map. apply map_ext. intro. lia.
Qed.
Lemma zrange_nil : forall lo hi, (hi <= lo)%Z -> zrange lo hi = [].
Proof. intros. unfold zrange. replace (Z.to_nat (hi - lo)) with O by lia. reflexivity. Qed.

Section GenSimP.
Variable A : arith.
Notation num := (num A).
Notation code := (@prog place (value A)).
Notation cmem := (place -> value A).
Notation prun := (@ParProg.prun place (value A) place_eqb).
Notation put := (@ParProg.put place (value A) place_eqb).
Notation serial := (@ParProg.serial place (value A) place_eqb).

(** [o] ends as [r] says, and a normal end satisfies [P]. *)
Definition ends_as {X : Type} (P : cmem -> X -> Prop) (o : outcome cmem) (r : outcome X) : Prop :=
  match r with
  | Ok x => exists m, o = Ok m /\ P m x
  | Exit c => o = Exit c
  | UB => o = UB
  end.

Lemma ends_as_bind : forall {X Y} (P : cmem -> X -> Prop) (Q : cmem -> Y -> Prop) o r (k : cmem -> outcome cmem) f,
  ends_as P o r -> (forall m x, P m x -> ends_as Q (k m) (f x)) -> ends_as Q (bind o k) (bind r f).
Proof. intros X Y P Q o [x|c|] k f H HQ; cbn in *; [destruct H as (m & -> & Hm); now apply HQ| |]; now subst. Qed.

Lemma ends_as_weaken : forall {X} (P Q : cmem -> X -> Prop) o r, ends_as P o r -> (forall m x, P m x -> Q m x) -> ends_as Q o r.
Proof. intros X P Q o [x|c|] H HQ; cbn in *; auto. destruct H as (m & -> & Hm). eauto. Qed.

(** ** Particles of one group *)

Definition holds_list (m : cmem) (n : nat) (i : Z) (ps : list (gparticle A)) : Prop :=
  forall j p, nth_error ps j = Some p -> holds A m n (i + Z.of_nat j) p.

Definition of_group (n : nat) (x : place) : Prop := exists i f, x = PT n i f.
Definition same_but (P : place -> Prop) (m m' : cmem) : Prop := forall x, ~ P x -> m' x = m x.

Lemma holds_ext : forall m m' n i p, (forall f, m' (PT n i f) = m (PT n i f)) -> holds A m n i p -> holds A m' n i p.
Proof. intros m m' n i p E H. unfold holds, holds_at in *. now rewrite !E. Qed.

Lemma fields_ext : forall m m' f, (forall x, m' (FLD x) = m (FLD x)) -> fields_are A m f -> fields_are A m' f.
Proof. intros m m' f E H x. now rewrite E. Qed.

Lemma loop_link : forall (body : Z -> code) (F : gparticle A -> outcome (gparticle A)) n f,
  (forall i, fits (particle_foot n i) (body i)) ->
  (forall m i p, holds A m n i p -> fields_are A m f -> particle_end A n i (prun (body i) m) (F p)) ->
  forall ps lo m, holds_list m n lo ps -> fields_are A m f ->
  ends_as (fun m' ps' => holds_list m' n lo ps' /\ same_but (fun x => exists i g, (lo <= i)%Z /\ x = PT n i g) m m')
    (serial (map body (zrange lo (lo + Z.of_nat (length ps)))) m) (Sim.traverse F ps).
Proof.
  intros body F n f Hfit Hlink. induction ps as [|p ps IH]; intros lo m Hh Hf.
  - cbn [length Sim.traverse]. rewrite zrange_nil by lia. exists m. split; [reflexivity|]. split; [|now intros x _].
    intros [|j] p E; discriminate.
  - cbn [length Sim.traverse]. rewrite zrange_cons. cbn [map]. rewrite serial_cons.
    assert (Hp : holds A m n lo p). { replace lo with (lo + Z.of_nat 0)%Z by lia. now apply Hh. }
    assert (L := Hlink m lo p Hp Hf). unfold particle_end in L. destruct (F p) as [p'|c|]; cbn [bind]; [|now rewrite L|now rewrite L].
    destruct L as (m1 & E1 & H1). rewrite E1. cbn [bind].
    assert (K : forall x, ~ own n lo x -> m1 x = m x).
    { intros x Hx. exact (prun_keeps place_eqb place_eqb_spec _ _ _ _ x (Hfit lo) Hx E1). }
    assert (Hh1 : holds_list m1 n (lo + 1) ps).
    { intros j q Hq. apply (holds_ext m).
      - intro g. apply K. intros (g' & E). injection E as E _. lia.
      - replace (lo + 1 + Z.of_nat j)%Z with (lo + Z.of_nat (S j))%Z by lia. now apply Hh. }
    assert (Hf1 : fields_are A m1 f). { apply (fields_ext m); [|exact Hf]. intro x. apply K. intros (g & E). discriminate. }
    assert (R := IH (lo + 1)%Z m1 Hh1 Hf1). destruct (Sim.traverse F ps) as [ps'|c|]; cbn [bind]; [|exact R|exact R].
    destruct R as (m2 & E2 & H2 & S2). exists m2. split; [exact E2|]. split.
    + intros [|j] q Hq; cbn in Hq.
      * injection Hq as <-. replace (lo + Z.of_nat 0)%Z with lo by lia. apply (holds_ext m1); [|exact H1].
        intro g. apply S2. intros (i & g' & Hi & E). injection E as E _. lia.
      * replace (lo + Z.of_nat (S j))%Z with (lo + 1 + Z.of_nat j)%Z by lia. now apply H2.
    + intros x Hx. rewrite S2, K; [reflexivity| |].
      * intros (g & ->). apply Hx. exists lo, g. split; [lia|reflexivity].
      * intros (i & g & Hi & ->). apply Hx. exists i, g. split; [lia|reflexivity].
Qed.

Lemma traverse_pure : forall {X Y} (F : X -> Y) l, Sim.traverse (fun x => Ok (F x)) l = Ok (map F l).
Proof. intros X Y F l. induction l as [|x l IH]; cbn; [reflexivity|]. now rewrite IH. Qed.

Lemma traverse_length : forall {X Y} (F : X -> outcome Y) l l', Sim.traverse F l = Ok l' -> length l' = length l.
Proof.
  intros X Y F l. induction l as [|x l IH]; intros l' E; cbn in E; [now injection E as <-|].
  destruct (F x); cbn in E; try discriminate. destruct (Sim.traverse F l) as [y|c|]; cbn in E; try discriminate.
  injection E as <-. cbn. f_equal. now apply IH.
Qed.

(** ** Fields *)
Definition is_fld (x : place) : Prop := exists l, x = FLD l.

Lemma put_fields : forall m f l v, fields_are A m f -> fields_are A (put m (FLD l) (VN A v)) (fun x => if loc_eqb x l then v else f x).
Proof.
  intros m f l v H x. unfold ParProg.put. cbn. destruct (loc_eqb x l); [reflexivity|apply H].
Qed.
Lemma put_same_but : forall (P : place -> Prop) m l v, P l -> same_but P m (put m l v).
Proof. intros P m l v H x Hx. apply (put_other place_eqb place_eqb_spec). intros ->. contradiction. Qed.
Lemma same_but_trans : forall P m1 m2 m3, same_but P m1 m2 -> same_but P m2 m3 -> same_but P m1 m3.
Proof. intros P m1 m2 m3 H1 H2 x Hx. now rewrite H2, H1. Qed.
Lemma same_but_refl : forall P m, same_but P m m.
Proof. intros P m x _. reflexivity. Qed.
Lemma same_but_weaken : forall (P Q : place -> Prop) m m', (forall x, P x -> Q x) -> same_but P m m' -> same_but Q m m'.
Proof. intros P Q m m' H S x Hx. apply S. auto. Qed.

Lemma prun_ldns : forall m ls k f, fields_are A m f ->
  prun (ldns A (map FLD ls) k) m = prun (k (map f ls)) m.
Proof.
  intros m ls. induction ls as [|l ls IH]; intros k f H; cbn [map ldns]; [reflexivity|].
  rewrite (prun_ldn A m _ (f l)) by apply H. now apply (IH (fun xs => k (f l :: xs)) f).
Qed.

Definition field_end (m m' : cmem) (f' : loc -> num) : Prop := fields_are A m' f' /\ same_but is_fld m m'.

Lemma asgs_link : forall l m f, fields_are A m f ->
  ends_as (field_end m) (serial (map (asg_code A) l) m) (Ok (exec loc_eqb l f)).
Proof.
  induction l as [|a l IH]; intros m f H.
  - exists m. split; [reflexivity|]. split; [exact H|apply same_but_refl].
  - cbn [map]. rewrite serial_cons. unfold asg_code at 1. rewrite (prun_ldns m _ _ f H). cbn [stn ParProg.prun bind].
    destruct (IH (put m (FLD (tgt a)) (VN A (rhs a (map f (Par.reads a))))) (exec_asg loc_eqb f a)) as (m' & E & F & S).
    { apply put_fields. exact H. }
    exists m'. split; [exact E|]. split; [exact F|]. eapply same_but_trans; [|exact S]. apply put_same_but. now exists (tgt a).
Qed.

Lemma gexec_app : forall (a b : list (gasg A)) f, exec loc_eqb (a ++ b) f = exec loc_eqb b (exec loc_eqb a f).
Proof. intros. unfold exec. apply fold_left_app. Qed.

Lemma body_link : forall L m f, fields_are A m f ->
  ends_as (field_end m) (serial (map (body_code A) L) m) (Ok (exec loc_eqb (concat L) f)).
Proof.
  induction L as [|l L IH]; intros m f H.
  - exists m. split; [reflexivity|]. split; [exact H|apply same_but_refl].
  - cbn [map concat]. rewrite serial_cons, gexec_app. unfold body_code at 1. rewrite (prun_pconcat place_eqb).
    destruct (asgs_link l m f H) as (m1 & -> & F1 & S1). cbn [bind].
    destruct (IH m1 _ F1) as (m2 & -> & F2 & S2). exists m2. split; [reflexivity|]. split; [exact F2|].
    now apply (same_but_trans _ m m1 m2).
Qed.

Lemma pieces_alone_app : forall a b m, pieces_alone A (a ++ b) m = bind (pieces_alone A a m) (pieces_alone A b).
Proof.
  induction a as [|x a IH]; intros b m; cbn; [reflexivity|]. destruct (piece_alone A x m); cbn; auto.
Qed.

Lemma field_pieces_link : forall loops m f, fields_are A m f ->
  ends_as (field_end m) (pieces_alone A (field_pieces A loops) m) (Ok (exec loc_eqb (concat (concat loops)) f)).
Proof.
  induction loops as [|L loops IH]; intros m f H.
  - exists m. split; [reflexivity|]. split; [exact H|apply same_but_refl].
  - cbn [field_pieces map pieces_alone piece_alone concat]. rewrite concat_app, gexec_app.
    destruct (body_link L m f H) as (m1 & -> & F1 & S1). cbn [bind].
    destruct (IH m1 _ F1) as (m2 & E2 & F2 & S2). exists m2. split; [exact E2|]. split; [exact F2|].
    now apply (same_but_trans _ m m1 m2).
Qed.

(** ** Resets *)
Lemma inside_in : forall g i k, inside A g i k = true <-> In (i, k) (cells 0 (gn_r A g) 0 (gn_z A g)).
Proof.
  intros g i k. rewrite cells_in. unfold inside. rewrite !andb_true_iff, !Z.leb_le, !Z.ltb_lt. lia.
Qed.

Lemma reset_link : forall (T : Z * Z -> place -> bool) (body : Z * Z -> code) v,
  (forall c m, exists m', prun (body c) m = Ok m' /\ forall x, m' x = if T c x then v else m x) ->
  forall l m, exists m', serial (map body l) m = Ok m' /\ forall x, m' x = if existsb (fun c => T c x) l then v else m x.
Proof.
  intros T body v H. induction l as [|c l IH]; intro m; [exists m; split; [reflexivity|intro; reflexivity]|].
  cbn [map existsb]. rewrite serial_cons. destruct (H c m) as (m1 & -> & H1). cbn [bind].
  destruct (IH m1) as (m2 & -> & H2). exists m2. split; [reflexivity|]. intro x. rewrite H2, H1.
  destruct (T c x), (existsb (fun c0 => T c0 x) l); reflexivity.
Qed.

Definition at_cell (i k : Z) (c : Z * Z) : bool := ((i =? fst c) && (k =? snd c))%Z.
Lemma exists_cell : forall g i k, existsb (at_cell i k) (cells 0 (gn_r A g) 0 (gn_z A g)) = inside A g i k.
Proof.
  intros g i k. apply eq_iff_eq_true. rewrite inside_in, existsb_exists. split.
  - intros ([a b] & H & E). unfold at_cell in E. cbn in E. apply andb_true_iff in E. rewrite !Z.eqb_eq in E. destruct E; subst. exact H.
  - intro H. exists (i, k). split; [exact H|]. unfold at_cell. cbn. now rewrite !Z.eqb_refl.
Qed.

Lemma existsb_false : forall {X} (l : list X), existsb (fun _ => false) l = false.
Proof. induction l; cbn; auto. Qed.

Lemma reset_rho_link : forall c a m, exists m', piece_alone A (reset_rho_piece A c a) m = Ok m' /\
  (forall i k, m' (RHO a i k) = if inside A (c_geom A c) i k then VN A (of_int A 0) else m (RHO a i k)) /\
  (forall x, (forall i k, x <> RHO a i k) -> m' x = m x).
Proof.
  intros c a m. cbn [piece_alone reset_rho_piece].
  destruct (reset_link (fun c x => match x with RHO b i k => rarr_eqb b a && at_cell i k c | _ => false end)
             (fun x => stn A (RHO a (fst x) (snd x)) (of_int A 0) Done) (VN A (of_int A 0))) with
    (l := cells 0 (gn_r A (c_geom A c)) 0 (gn_z A (c_geom A c))) (m := m) as (m' & E & H).
  - intros [i k] m0. eexists. split; [reflexivity|]. intros [l|b i' k'|n i' f|]; cbn; try reflexivity.
    unfold ParProg.put, at_cell. cbn. now destruct b, a, (i' =? i)%Z, (k' =? k)%Z.
  - exists m'. split; [exact E|]. split.
    + intros i k. rewrite H, <- exists_cell. replace (rarr_eqb a a) with true by now destruct a. reflexivity.
    + intros [l|b i' k'|n i' f|] Hx; rewrite H; rewrite ?existsb_false; try reflexivity.
      replace (rarr_eqb b a) with false; [now rewrite existsb_false|].
      destruct b, a; cbn; try reflexivity; now destruct (Hx i' k').
Qed.

Definition is_j (a : farr) : bool := match a with JR | JPHI | JZ => true | _ => false end.

Lemma reset_j_link : forall c m f, fields_are A m f ->
  ends_as (field_end m) (piece_alone A (reset_j_piece A c) m) (Ok (greset_j A (c_geom A c) f)).
Proof.
  intros c m f Hf. cbn [piece_alone reset_j_piece].
  destruct (reset_link (fun c x => match x with FLD (a, i, k) => is_j a && at_cell i k c | _ => false end)
             (fun x => stn A (FLD (JR, fst x, snd x)) (of_int A 0) (stn A (FLD (JPHI, fst x, snd x)) (of_int A 0)
             (stn A (FLD (JZ, fst x, snd x)) (of_int A 0) Done))) (VN A (of_int A 0))) with
    (l := cells 0 (gn_r A (c_geom A c)) 0 (gn_z A (c_geom A c))) (m := m) as (m' & E & H).
  - intros [i k] m0. eexists. split; [reflexivity|]. intros [[[a i'] k']|b i' k'|n i' f'|]; cbn; try reflexivity.
    unfold ParProg.put, at_cell. cbn. now destruct a, (i' =? i)%Z, (k' =? k)%Z.
  - exists m'. split; [exact E|]. split.
    + intros [[a i] k]. rewrite H. unfold greset_j. rewrite <- exists_cell.
      destruct a; cbn [is_j andb]; rewrite ?existsb_false; try apply Hf;
        change (fun c0 : Z * Z => at_cell i k c0) with (at_cell i k);
        destruct (existsb (at_cell i k) _); try reflexivity; apply Hf.
    + intros [[[a i'] k']|b i' k'|n i' f'|] Hx; rewrite H; rewrite ?existsb_false; try reflexivity.
      destruct Hx. now exists (a, i', k').
Qed.

(** ** Deposition *)
Lemma jincs_link : forall g l m f, fields_are A m f ->
  ends_as (field_end m) (prun (jincs_code A g l) m) (ofold (gadd_j A g) l f).
Proof.
  intros g l. induction l as [|[c [r k v]] l IH]; intros m f H; cbn [jincs_code ofold].
  - exists m. split; [reflexivity|]. split; [exact H|apply same_but_refl].
  - unfold inc_code, gadd_j at 1. cbn [grow gcol gj_inc gval]. destruct (inside A g r k); cbn [bind]; [|reflexivity].
    set (loc := gj_loc A _). change (jplace c r k) with (FLD loc).
    rewrite (prun_ldn A m _ (f loc)) by apply H. rewrite prun_stn.
    eapply ends_as_weaken; [apply IH; apply put_fields; exact H|]. intros m' f' [F S]. split; [exact F|].
    eapply same_but_trans; [|exact S]. apply put_same_but. now exists loc.
Qed.

Definition is_beam_rho (x : place) : Prop := exists i k, x = RHO RHO_BUNCH i k.
Definition rho_is (m : cmem) (rho : Z -> Z -> num) : Prop := forall i k, m (RHO RHO_BUNCH i k) = VN A (rho i k).
Definition rho_end (m m' : cmem) (rho' : Z -> Z -> num) : Prop := rho_is m' rho' /\ same_but is_beam_rho m m'.

Lemma incs_link : forall g l m rho, rho_is m rho ->
  ends_as (rho_end m) (prun (incs_code A g RHO_BUNCH l) m) (ofold (gadd_rho A g) l rho).
Proof.
  intros g l. induction l as [|[r k v] l IH]; intros m rho H; cbn [incs_code ofold].
  - exists m. split; [reflexivity|]. split; [exact H|apply same_but_refl].
  - unfold inc_code, gadd_rho at 1. cbn [grow gcol gval]. destruct (inside A g r k); cbn [bind]; [|reflexivity].
    rewrite (prun_ldn A m _ (rho r k)) by apply H. rewrite prun_stn.
    eapply ends_as_weaken; [apply IH|].
    + intros i j. unfold ParProg.put. cbn. rewrite H. now destruct (i =? r)%Z, (j =? k)%Z.
    + intros m' f' [F S]. split; [exact F|].
      eapply same_but_trans; [|exact S]. apply put_same_but. now exists r, k.
Qed.

(** A serial loop over the particles of a group that does not change them. *)
Lemma scan_link : forall {S} (is : cmem -> S -> Prop) (P : place -> Prop) (body : Z -> code) (F : gparticle A -> S -> outcome S) n,
  (forall x, P x -> ~ of_group n x) ->
  (forall m i p s, holds A m n i p -> is m s -> ends_as (fun m' s' => is m' s' /\ same_but P m m') (prun (body i) m) (F p s)) ->
  forall ps lo m s, holds_list m n lo ps -> is m s ->
  ends_as (fun m' s' => is m' s' /\ same_but P m m')
    (serial (map body (zrange lo (lo + Z.of_nat (length ps)))) m) (ofold F ps s).
Proof.
  intros S is P body F n HP HF. induction ps as [|p ps IH]; intros lo m s Hh Hs.
  - cbn [length ofold]. rewrite zrange_nil by lia. exists m. split; [reflexivity|]. split; [exact Hs|apply same_but_refl].
  - cbn [length ofold]. rewrite zrange_cons. cbn [map]. rewrite serial_cons.
    eapply ends_as_bind; [apply HF|].
    + replace lo with (lo + Z.of_nat 0)%Z by lia. now apply Hh.
    + exact Hs.
    + cbn. intros m1 s1 [H1 S1]. eapply ends_as_weaken; [apply IH|].
      * intros j q Hq. apply (holds_ext m).
        -- intro g. apply S1. intro K. apply (HP _ K). now exists (lo + 1 + Z.of_nat j)%Z, g.
        -- replace (lo + 1 + Z.of_nat j)%Z with (lo + Z.of_nat (Datatypes.S j))%Z by lia. now apply Hh.
      * exact H1.
      * cbn. intros m2 s2 [H2 S2]. split; [exact H2|]. now apply (same_but_trans P m m1 m2).
Qed.

Ltac ldp H := rewrite (prun_ldn A _ _ _ _ H).
Lemma azimuthal_link : forall g m n i p f, holds A m n i p -> fields_are A m f ->
  ends_as (field_end m) (prun (azimuthal_code A n i g) m) (gazimuthal_one A g p f).
Proof.
  intros g m n i p f (Ha & Hq & Hm & H1 & H2 & H3 & H4 & H5 & H6 & H7 & H8 & H9) Hf.
  unfold azimuthal_code, if_alive, gazimuthal_one. rewrite (prun_ldb A _ _ _ _ Ha). destruct (galive A p).
  - ldp H1. ldp H3. ldp Hq. ldp H5. now apply jincs_link.
  - exists m. split; [reflexivity|]. split; [exact Hf|apply same_but_refl].
Qed.
Lemma current_link : forall g dt m n i p f, holds A m n i p -> fields_are A m f ->
  ends_as (field_end m) (prun (current_code A n i g dt) m) (gcurrent_one A g dt p f).
Proof.
  intros g dt m n i p f (Ha & Hq & Hm & H1 & H2 & H3 & H4 & H5 & H6 & H7 & H8 & H9) Hf.
  unfold current_code, if_alive, gcurrent_one. rewrite (prun_ldb A _ _ _ _ Ha). destruct (galive A p).
  - ldp H1. ldp H3. ldp H7. ldp H8. ldp Hq. now apply jincs_link.
  - exists m. split; [reflexivity|]. split; [exact Hf|apply same_but_refl].
Qed.
Lemma charge_link : forall g m n i p rho, holds A m n i p -> rho_is m rho ->
  ends_as (rho_end m) (prun (charge_code A n i g RHO_BUNCH) m) (gcharge_one A g p rho).
Proof.
  intros g m n i p rho (Ha & Hq & Hm & H1 & H2 & H3 & H4 & H5 & H6 & H7 & H8 & H9) Hf.
  unfold charge_code, if_alive, gcharge_one. rewrite (prun_ldb A _ _ _ _ Ha). destruct (galive A p).
  - ldp H1. ldp H3. cbv zeta. destruct (finite A _ && finite A _); [|reflexivity]. ldp Hq. now apply incs_link.
  - exists m. split; [reflexivity|]. split; [exact Hf|apply same_but_refl].
Qed.

(** ** Groups *)

(** Memory holds the particles of the element of part_list at position n. *)
Definition grp (m : cmem) (y : nat * Z * bool) (x : bool * list (gparticle A)) : Prop :=
  match y with (n, cnt, b) => b = fst x /\ cnt = Z.of_nat (length (snd x)) /\ holds_list m n 0 (snd x) end.
Definition where_ (y : nat * Z * bool) : nat := match y with (n, _, _) => n end.
Definition of_groups (ys : list (nat * Z * bool)) (x : place) : Prop := exists y, In y ys /\ of_group (where_ y) x.

Lemma holds_list_ext : forall m m' n i ps, (forall j f, m' (PT n j f) = m (PT n j f)) -> holds_list m n i ps -> holds_list m' n i ps.
Proof. intros m m' n i ps E H j p Hp. apply (holds_ext m); [intro; apply E|now apply H]. Qed.

Lemma grps_ext : forall m m' ys gs, (forall y j f, In y ys -> m' (PT (where_ y) j f) = m (PT (where_ y) j f)) ->
  Forall2 (grp m) ys gs -> Forall2 (grp m') ys gs.
Proof.
  intros m m' ys gs E H. induction H as [|[[n cnt] b] x ys gs (H1 & H2 & H3) H IH]; constructor.
  - split; [exact H1|]. split; [exact H2|]. apply (holds_list_ext m); [|exact H3]. intros j f. apply (E (n, cnt, b)). now left.
  - apply IH. intros y j f Hy. apply E. now right.
Qed.

Lemma grps_other : forall P m m' ys gs, same_but P m m' -> (forall x, P x -> ~ of_groups ys x) ->
  Forall2 (grp m) ys gs -> Forall2 (grp m') ys gs.
Proof.
  intros P m m' ys gs S HP. apply grps_ext. intros y j f Hy. apply S. intro K. apply (HP _ K). exists y. split; [exact Hy|]. now exists j, f.
Qed.

Variable c : config A.
Notation g := (c_geom A c).
Notation dt := (c_dt A c).

Lemma step_v_groups : forall ys gs m f, NoDup (map where_ ys) -> Forall2 (grp m) ys gs -> fields_are A m f ->
  ends_as (fun m' gs' => Forall2 (grp m') ys gs' /\ same_but (of_groups ys) m m')
    (pieces_alone A (map (fun x => match x with (n, cnt, _) =>
       Parallel A (zrange 0 cnt) (fun i => step_v_code A n i (c_pusher A c) g dt) end) ys) m)
    (Sim.traverse (gstep_v_group A c f) gs).
Proof.
  intros ys gs m f ND H. revert gs m H. induction ys as [|[[n cnt] b] ys IH]; intros gs m H Hf.
  - inversion H; subst. exists m. split; [reflexivity|]. split; [constructor|apply same_but_refl].
  - inversion H as [|y x ys' gs' G H']; subst. destruct G as (E1 & E2 & E3). subst b cnt. cbn [map pieces_alone piece_alone Sim.traverse].
    cbn [map where_] in ND. apply NoDup_cons_iff in ND. destruct ND as [Nn ND'].
    assert (L := loop_link (fun i => step_v_code A n i (c_pusher A c) g dt) (gstep_v_one A (c_pusher A c) g dt f) n f
                   (fun i => fit_step_v A n i _ _ _) (fun m i p Hp Hm => step_v_link A m n i p f _ _ _ Hp Hm) (snd x) 0 m E3 Hf).
    rewrite Z.add_0_l in L. unfold gstep_v_group at 1.
    destruct (Sim.traverse (gstep_v_one A (c_pusher A c) g dt f) (snd x)) as [ps|e|] eqn:ET; cbn [bind ends_as] in *; [|now rewrite L|now rewrite L].
    destruct L as (m1 & -> & L1 & S1). cbn [bind].
    assert (H1 : Forall2 (grp m1) ys gs').
    { eapply grps_other; [exact S1| |exact H']. intros z (i & q & _ & ->) (y & Hy & (j & q' & E)).
      injection E as E _ _. apply Nn. rewrite E. apply in_map. exact Hy. }
    assert (F1 : fields_are A m1 f). { apply (fields_ext m); [|exact Hf]. intro. apply S1. intros (i & q & _ & E). discriminate. }
    assert (R := IH ND' gs' m1 H1 F1). destruct (Sim.traverse (gstep_v_group A c f) gs') as [gs2|e|]; cbn [bind]; [|exact R|exact R].
    destruct R as (m2 & E & G2 & S2). exists m2. split; [exact E|]. split.
    + constructor; [|exact G2]. split; [reflexivity|]. cbn [snd]. split; [now rewrite (traverse_length _ _ _ ET)|].
      apply (holds_list_ext m1); [|exact L1]. intros j q. apply S2. intros (y & Hy & (j' & q' & E')).
      injection E' as E' _ _. apply Nn. rewrite E'. now apply in_map.
    + intros z Hz. rewrite S2, S1; [reflexivity| |].
      * intros (i & q & _ & ->). apply Hz. exists (n, Z.of_nat (length (snd x)), fst x). split; [now left|]. now exists i, q.
      * intros (y & Hy & Oy). apply Hz. exists y. split; [now right|exact Oy].
Qed.

Definition moves (ys : list (nat * Z * bool)) (x : place) : Prop := of_groups ys x \/ is_fld x.

Lemma serial_piece : forall (l : list code) m, piece_alone A (Serial A (pconcat l)) m = serial l m.
Proof. intros. cbn. apply (prun_pconcat place_eqb). Qed.

Lemma fld_not_group : forall n x, is_fld x -> ~ of_group n x.
Proof. intros n x (l & ->) (i & f & E). discriminate. Qed.

(** The four loops of full_current_distribution for one group. *)
Lemma full_current_one : forall n x m f, holds_list m n 0 (snd x) -> fields_are A m f ->
  ends_as (fun m' r => holds_list m' n 0 (snd (snd r)) /\ fst (snd r) = fst x /\ length (snd (snd r)) = length (snd x) /\
                       fields_are A m' (fst r) /\ same_but (fun y => of_group n y \/ is_fld y) m m')
    (pieces_alone A
       [ Serial A (pconcat (map (fun i => azimuthal_code A n i g) (zrange 0 (Z.of_nat (length (snd x))))));
         Parallel A (zrange 0 (Z.of_nat (length (snd x)))) (fun i => half_reflect_code A n i g dt (fst x));
         Serial A (pconcat (map (fun i => current_code A n i g dt) (zrange 0 (Z.of_nat (length (snd x))))));
         Parallel A (zrange 0 (Z.of_nat (length (snd x)))) (fun i => velocity_back_code A n i) ] m)
    (gfull_current_group A c x f).
Proof.
  intros n [b ps] m f Hh Hf. cbn [fst snd pieces_alone] in *. unfold gfull_current_group. cbn [fst snd].
  rewrite serial_piece.
  assert (S1 := scan_link (fun m => fields_are A m) is_fld (fun i => azimuthal_code A n i g) (gazimuthal_one A g) n
    (fld_not_group n) (fun m i p s Hp Hs => azimuthal_link g m n i p s Hp Hs) ps 0 m f Hh Hf). rewrite Z.add_0_l in S1.
  eapply ends_as_bind; [exact S1|]. clear S1. cbn. intros m1 f1 [F1 S1].
  assert (H1 : holds_list m1 n 0 ps).
  { apply (holds_list_ext m); [|exact Hh]. intros j q. apply S1. intros (l & E). discriminate. }
  assert (L2 := loop_link (fun i => half_reflect_code A n i g dt b) (ghalf_reflect A g dt b) n f1
                   (fun i => fit_half_reflect A n i _ _ _) (fun m i p Hp _ => half_reflect_link A m n i p _ _ _ Hp) ps 0 m1 H1 F1).
  rewrite Z.add_0_l in L2.
  destruct (Sim.traverse (ghalf_reflect A g dt b) ps) as [ps2|e|] eqn:ET; cbn [bind ends_as] in *; [|now rewrite L2|now rewrite L2].
  destruct L2 as (m2 & -> & H2 & S2). cbn [bind].
  assert (LEN := traverse_length _ _ _ ET).
  assert (F2 : fields_are A m2 f1). { apply (fields_ext m1); [|exact F1]. intro. apply S2. intros (i & q & _ & E). discriminate. }
  rewrite (prun_pconcat place_eqb), <- LEN.
  assert (S3 := scan_link (fun m => fields_are A m) is_fld (fun i => current_code A n i g dt) (gcurrent_one A g dt) n
    (fld_not_group n) (fun m i p s Hp Hs => current_link g dt m n i p s Hp Hs) ps2 0 m2 f1 H2 F2). rewrite Z.add_0_l in S3.
  eapply ends_as_bind; [exact S3|]. clear S3. cbn. intros m3 f3 [F3 S3].
  assert (H3 : holds_list m3 n 0 ps2).
  { apply (holds_list_ext m2); [|exact H2]. intros j q. apply S3. intros (l & E). discriminate. }
  assert (L4 := loop_link (fun i => velocity_back_code A n i) (fun p => Ok (gvelocity_back A p)) n f3
                   (fun i => fit_velocity_back A n i) (fun m i p Hp _ => velocity_back_link A m n i p Hp) ps2 0 m3 H3 F3).
  rewrite Z.add_0_l, traverse_pure in L4. destruct L4 as (m4 & E4 & H4 & S4). rewrite E4. cbn [bind].
  exists m4. split; [reflexivity|]. cbn [fst snd]. split; [exact H4|]. split; [reflexivity|]. split; [now rewrite map_length|].
  split.
  - apply (fields_ext m3); [|exact F3]. intro. apply S4. intros (i & q & _ & E). discriminate.
  - intros y Hy. rewrite S4, S3, S2, S1; [reflexivity| | | |].
    + intro K. apply Hy. now right.
    + intros (i & q & _ & ->). apply Hy. left. now exists i, q.
    + intro K. apply Hy. now right.
    + intros (i & q & _ & ->). apply Hy. left. now exists i, q.
Qed.

Definition current_pieces (ys : list (nat * Z * bool)) : list (piece A) :=
  flat_map (fun x => match x with (n, cnt, b) =>
       [ Serial A (pconcat (map (fun i => azimuthal_code A n i g) (zrange 0 cnt)));
         Parallel A (zrange 0 cnt) (fun i => half_reflect_code A n i g dt b);
         Serial A (pconcat (map (fun i => current_code A n i g dt) (zrange 0 cnt)));
         Parallel A (zrange 0 cnt) (fun i => velocity_back_code A n i) ] end) ys.

Lemma full_current_groups : forall ys gs m f, NoDup (map where_ ys) -> Forall2 (grp m) ys gs -> fields_are A m f ->
  ends_as (fun m' r => Forall2 (grp m') ys (snd r) /\ fields_are A m' (fst r) /\ same_but (moves ys) m m')
    (pieces_alone A (current_pieces ys) m) (gfull_current A c gs f).
Proof.
  intros ys gs m f ND H. revert gs m f H. induction ys as [|[[n cnt] b] ys IH]; intros gs m f H Hf.
  - inversion H; subst. exists m. split; [reflexivity|]. split; [constructor|]. split; [exact Hf|apply same_but_refl].
  - inversion H as [|y x ys' gs' G H']; subst. destruct G as (E1 & E2 & E3). subst b cnt. unfold current_pieces. cbn [flat_map gfull_current]. fold (current_pieces ys).
    cbn [map where_] in ND. apply NoDup_cons_iff in ND. destruct ND as [Nn ND'].
    rewrite pieces_alone_app. eapply ends_as_bind; [exact (full_current_one n x m f E3 Hf)|].
    cbn. intros m1 [f1 [b1 ps1]] (H1 & EB & EL & F1 & S1). cbn [fst snd] in *. subst b1.
    assert (G1 : Forall2 (grp m1) ys gs').
    { eapply grps_other; [exact S1| |exact H']. intros z [(i & q & ->)|(l & ->)] (y & Hy & (j & q' & E)); [|discriminate].
      injection E as E _ _. apply Nn. rewrite E. apply in_map. exact Hy. }
    assert (R := IH ND' gs' m1 f1 G1 F1). destruct (gfull_current A c gs' f1) as [[f2 gs2]|e|]; cbn [bind]; [|exact R|exact R].
    destruct R as (m2 & E & G2 & F2 & S2). cbn [fst snd] in *. exists m2. split; [exact E|]. cbn [fst snd]. split; [|split; [exact F2|]].
    + constructor; [|exact G2]. split; [reflexivity|]. cbn [snd]. split; [congruence|].
      apply (holds_list_ext m1); [|exact H1]. intros j q. apply S2. intros [(y & Hy & (j' & q' & E'))|(l & E')]; [|discriminate].
      injection E' as E' _ _. apply Nn. rewrite E'. now apply in_map.
    + intros z Hz. rewrite S2, S1; [reflexivity| |].
      * intros [K|K]; apply Hz; [|now right]. left. exists (n, Z.of_nat (length (snd x)), fst x). split; [now left|exact K].
      * intros [(y & Hy & Oy)|K]; apply Hz; [left|now right]. exists y. split; [now right|exact Oy].
Qed.

(** ** Beam density *)
Lemma weight_link : forall ks pss m rho,
  Forall2 (fun k ps => holds_list m (bunch_pos A c k) 0 ps /\ c_macro A c = Z.of_nat (length ps)) ks pss -> rho_is m rho ->
  ends_as (rho_end m)
    (pieces_alone A (map (fun k => Serial A (pconcat (map (fun i => charge_code A (bunch_pos A c k) i g RHO_BUNCH)
                                                     (zrange 0 (c_macro A c))))) ks) m)
    (ofold (fun ps rho => ofold (gcharge_one A g) ps rho) pss rho).
Proof.
  intros ks pss m rho H. revert pss m rho H. induction ks as [|k ks IH]; intros pss m rho H Hr; inversion H as [|k' ps ks' pss' [H1 H2] H3]; subst.
  - exists m. split; [reflexivity|]. split; [exact Hr|apply same_but_refl].
  - cbn [map pieces_alone ofold]. rewrite serial_piece.
    assert (S1 := scan_link rho_is is_beam_rho (fun i => charge_code A (bunch_pos A c k) i g RHO_BUNCH) (gcharge_one A g) (bunch_pos A c k)).
    assert (T1 := S1 ltac:(intros x (i & j & ->) (u & v & E); discriminate) (fun m i p s Hp Hs => charge_link g m _ i p s Hp Hs) ps 0%Z m rho H1 Hr).
    clear S1. rewrite Z.add_0_l, <- H2 in T1. eapply ends_as_bind; [exact T1|]. cbn. intros m1 rho1 [R1 S1].
    eapply ends_as_weaken; [apply IH; [|exact R1]|].
    + clear -H3 S1. induction H3 as [|k ps ks pss [H1 H2] H3 IH]; constructor; auto. split; [|exact H2].
      apply (holds_list_ext m); [|exact H1]. intros j f. apply S1. intros (i & l & E). discriminate.
    + intros m2 rho2 [R2 S2]. split; [exact R2|]. now apply (same_but_trans _ m m1 m2).
Qed.

End GenSimP.
