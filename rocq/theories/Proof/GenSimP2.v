(** The whole loop: Model/GenRun.v with one thread does what Model/GenSim.v says. *)
From Coq Require Import ZArith List Bool Lia.
From Verif.Lib Require Import Outcome Par ParProg.
From Verif.Model Require Sim.
From Verif.Model Require Import Arith Geometry CurrentDeposit Fields Pusher GenCode GenRun GenSim.
From Verif.Proof Require Import GenRunP GenLinkP GenSimP.
Import ListNotations.

Lemma update_nth_get : forall {X} (f : X -> X) l k j,
  nth_error (Sim.update_nth k f l) j = if (j =? k)%nat then option_map f (nth_error l j) else nth_error l j.
Proof.
  intros X f l. induction l as [|x l IH]; intros [|k] [|j]; cbn; try reflexivity.
  - now destruct (_ =? _)%nat.
  - apply IH.
Qed.
Lemma update_nth_len : forall {X} (f : X -> X) l k, length (Sim.update_nth k f l) = length l.
Proof. intros X f l. induction l as [|x l IH]; intros [|k]; cbn; auto. Qed.

Section GenSimP2.
Variable A : arith.
Notation num := (num A).
Notation code := (@prog place (value A)).
Notation cmem := (place -> value A).
Notation prun := (@ParProg.prun place (value A) place_eqb).
Notation put := (@ParProg.put place (value A) place_eqb).
Notation serial := (@ParProg.serial place (value A) place_eqb).
Variable c : config A.

(** ** Creation of a bunch *)
Lemma create_one : forall m n i p, exists m', prun (create_code A n i p) m = Ok m' /\ holds A m' n i p /\
  same_but A (own n i) m m'.
Proof.
  intros m n i [a q mass [[x0 x1 x2] [u0 u1 u2] o0 o2 s]]. eexists. split; [reflexivity|]. split.
  - unfold holds, holds_at. cbn [gph gpos gvel g0 g1 g2 gr_old gz_old gsin galive gcharge gmass].
    repeat match goal with |- _ /\ _ => split end; rewrite ?get_put_own; reflexivity.
  - intros x Hx. cbn [gph gpos gvel g0 g1 g2 gr_old gz_old gsin galive gcharge gmass].
    rewrite !(put_other place_eqb place_eqb_spec); [reflexivity|..]; intros ->; apply Hx; eexists; reflexivity.
Qed.

Lemma create_link : forall n ps lo m, exists m',
  serial (map (fun x => create_code A n (fst x) (snd x)) (combine (map Z.of_nat (seq lo (length ps))) ps)) m = Ok m' /\
  holds_list A m' n (Z.of_nat lo) ps /\ same_but A (fun x => exists i f, (Z.of_nat lo <= i)%Z /\ x = PT n i f) m m'.
Proof.
  intros n ps. induction ps as [|p ps IH]; intros lo m.
  - exists m. split; [reflexivity|]. split; [intros [|j] q E; discriminate|apply same_but_refl].
  - cbn [length seq map combine]. rewrite serial_cons. cbn [fst snd].
    destruct (create_one m n (Z.of_nat lo) p) as (m1 & -> & H1 & S1). cbn [bind].
    destruct (IH (S lo) m1) as (m2 & -> & H2 & S2). exists m2. split; [reflexivity|]. split.
    + intros [|j] q E; cbn in E.
      * injection E as <-. replace (Z.of_nat lo + Z.of_nat 0)%Z with (Z.of_nat lo) by lia.
        apply (holds_ext A m1); [|exact H1]. intro f. apply S2. intros (i & f' & Hi & E). injection E as E _. lia.
      * replace (Z.of_nat lo + Z.of_nat (S j))%Z with (Z.of_nat (S lo) + Z.of_nat j)%Z by lia. now apply H2.
    + intros x Hx. rewrite S2, S1; [reflexivity| |].
      * intros (f & ->). apply Hx. exists (Z.of_nat lo), f. split; [lia|reflexivity].
      * intros (i & f & Hi & ->). apply Hx. exists i, f. split; [lia|reflexivity].
Qed.

(** ** Injection *)
Variable rf : Z -> num.
Hypothesis Hrand : c_rand A c = Reverse A rf.
Hypothesis Hbunch : forall k, Z.of_nat (length (c_bunch A c k)) = c_macro A c.

Lemma inject_body : forall m n x z v ps, holds_list A m n 0 ps -> (0 <= x < Z.of_nat (length ps))%Z ->
  exists m', prun (inject_code A n x z v) m = Ok m' /\
    holds_list A m' n 0 (Sim.update_nth (Z.to_nat x) (ginject_one A z v) ps) /\ same_but A (of_group n) m m'.
Proof.
  intros m n x z v ps H Hx. eexists. split; [reflexivity|]. split.
  - intros j q. rewrite update_nth_get. destruct (Nat.eqb_spec j (Z.to_nat x)) as [->|N]; intro E.
    + destruct (nth_error ps (Z.to_nat x)) as [p|] eqn:EP; [|discriminate]. cbn in E. injection E as <-.
      assert (Hp := H _ _ EP). replace (0 + Z.of_nat (Z.to_nat x))%Z with x in * by lia.
      destruct Hp as (Ha & Hq & Hm & H1 & H2 & H3 & H4 & H5 & H6 & H7 & H8 & H9).
      unfold holds, holds_at, ginject_one. cbn [gph gpos gvel g0 g1 g2 gr_old gz_old gsin galive gcharge gmass].
      repeat match goal with |- _ /\ _ => split end; rewrite ?get_put_own; cbn [pfield_eqb]; (reflexivity || assumption).
    + apply (holds_ext A m); [|now apply H]. intro f. rewrite !(put_other place_eqb place_eqb_spec); [reflexivity|..];
        intro K; injection K as K _; lia.
  - intros y Hy. rewrite !(put_other place_eqb place_eqb_spec); [reflexivity|..]; intros ->; apply Hy; eexists; eexists; reflexivity.
Qed.

Lemma inject_link : forall t k ps m, holds_list A m (bunch_pos A c k) 0 ps -> Z.of_nat (length ps) = c_macro A c ->
  ends_as A (fun m' ps' => holds_list A m' (bunch_pos A c k) 0 ps' /\ length ps' = length ps /\
                           same_but A (of_group (bunch_pos A c k)) m m')
    (piece_alone A (inject_piece A c t k) m) (ginject A c t k ps).
Proof.
  intros t k ps m H HL. unfold inject_piece, ginject. cbv zeta. rewrite Hrand.
  destruct (_ =? 0)%Z; [reflexivity|]. destruct (_ && _).
  2: { exists m. split; [reflexivity|]. split; [exact H|]. split; [reflexivity|apply same_but_refl]. }
  cbn [piece_alone ld_rand]. set (s := trunc_int A _). generalize (zrange 0 (c_macro A c / ceil_int A (div A (c_duration A c) (c_dt A c)))).
  intro idx. revert ps m H HL. induction idx as [|i idx IH]; intros ps m H HL.
  - exists m. split; [reflexivity|]. split; [exact H|]. split; [reflexivity|apply same_but_refl].
  - cbn [map fold_left]. rewrite serial_cons. destruct ((0 <=? i + s)%Z && (i + s <? c_macro A c)%Z) eqn:E.
    + apply andb_true_iff in E. destruct E as [E1 E2]. apply Z.leb_le in E1. apply Z.ltb_lt in E2.
      destruct (inject_body m (bunch_pos A c k) (i + s)%Z
        (add A (mul A (mul A (c_velocity A c) (c_dt A c)) (rf (i + s)%Z)) (div A (gdz A (c_geom A c)) (of_int A 2))) (c_velocity A c) ps H)
        as (m1 & -> & H1 & S1); [lia|]. cbn [bind].
      destruct (IH _ m1 H1) as (m2 & E & H2 & L2 & S2); [rewrite update_nth_len; exact HL|].
      exists m2. split; [exact E|]. split; [exact H2|]. rewrite update_nth_len in L2. split; [exact L2|].
      now apply (same_but_trans A _ m m1 m2).
    + cbn [ParProg.prun bind]. destruct (IH _ m H HL) as (m2 & E' & K). exists m2. split; [exact E'|exact K].
Qed.

(** ** part_list *)
Definition bunch_groups (lo : Z) (n : nat) : list (nat * Z * bool) :=
  map (fun k => (bunch_pos A c k, c_macro A c, true)) (zrange lo (lo + Z.of_nat n)).
Definition species_groups : list (nat * Z * bool) :=
  combine (combine (seq 0 (length (c_species A c))) (c_species A c)) (repeat false (length (c_species A c))).

Lemma groups_split : forall nb, (0 <= nb)%Z -> groups A c nb = species_groups ++ bunch_groups 0 (Z.to_nat nb).
Proof. intros nb H. unfold groups, bunch_groups. now rewrite Z.add_0_l, Z2Nat.id. Qed.

Lemma zrange_snoc : forall n, zrange 0 (Z.of_nat (S n)) = zrange 0 (Z.of_nat n) ++ [Z.of_nat n].
Proof.
  intro n. unfold zrange. rewrite !Z.sub_0_r, !Nat2Z.id, seq_S, map_app. reflexivity.
Qed.
Lemma groups_succ : forall nb, (0 <= nb)%Z -> groups A c (nb + 1) = groups A c nb ++ [(bunch_pos A c nb, c_macro A c, true)].
Proof.
  intros nb H. unfold groups. rewrite <- app_assoc. f_equal.
  replace (nb + 1)%Z with (Z.of_nat (S (Z.to_nat nb))) by lia. rewrite zrange_snoc, map_app. cbn [map].
  now rewrite Z2Nat.id.
Qed.

Lemma in_combine3 : forall (l : list Z) lo y,
  In y (combine (combine (seq lo (length l)) l) (repeat false (length l))) -> (lo <= where_ y < lo + length l)%nat /\ snd y = false.
Proof.
  induction l as [|x l IH]; intros lo y H; cbn in H; [destruct H|]. destruct H as [<-|H]; [cbn; split; [lia|reflexivity]|].
  destruct (IH _ _ H). cbn. split; [lia|assumption].
Qed.
Lemma species_nodup : forall (l : list Z) lo, NoDup (map where_ (combine (combine (seq lo (length l)) l) (repeat false (length l)))).
Proof.
  induction l as [|x l IH]; intro lo; cbn; constructor; auto. intro H. apply in_map_iff in H. destruct H as (y & E & H).
  apply in_combine3 in H. lia.
Qed.

Lemma groups_nodup : forall nb, NoDup (map where_ (groups A c nb)).
Proof.
  intro nb. unfold groups. rewrite map_app, map_map. cbn [where_].
  assert (D : forall (a b : list nat), NoDup a -> NoDup b -> (forall x, In x a -> ~ In x b) -> NoDup (a ++ b)).
  { clear. induction a as [|x a IH]; intros b Ha Hb H; [exact Hb|]. cbn. inversion Ha; subst. constructor.
    - intro K. apply in_app_or in K. destruct K; [contradiction|]. apply (H x); [now left|assumption].
    - apply IH; auto. intros y Hy. apply H. now right. }
  apply D.
  - apply species_nodup.
  - change (fun x : Z => bunch_pos A c x) with (bunch_pos A c).
    assert (G : forall l, NoDup l -> (forall x, In x l -> (0 <= x)%Z) -> NoDup (map (bunch_pos A c) l)).
    { induction l as [|x l IH]; intros Hl Hp; cbn; constructor; inversion Hl; subst.
      - intro K. apply in_map_iff in K. destruct K as (y & E & Hy). unfold bunch_pos in E.
        assert (0 <= x)%Z by (apply Hp; now left). assert (0 <= y)%Z by (apply Hp; now right).
        assert (x = y) by lia. subst. contradiction.
      - apply IH; auto. intros y Hy. apply Hp. now right. }
    apply G; [apply zrange_nodup|]. intros x Hx. apply zrange_in in Hx. lia.
  - intros x Hx K. apply in_map_iff in Hx. destruct Hx as (y & E & Hy). apply in_combine3 in Hy.
    apply in_map_iff in K. destruct K as (k & E' & _). unfold bunch_pos in E'. lia.
Qed.

Lemma inject_bunches : forall t n lo gs m, (0 <= lo)%Z -> Forall2 (grp A m) (bunch_groups lo n) gs ->
  ends_as A (fun m' gs' => Forall2 (grp A m') (bunch_groups lo n) gs' /\ same_but A (of_groups (bunch_groups lo n)) m m')
    (pieces_alone A (map (inject_piece A c t) (zrange lo (lo + Z.of_nat n))) m) (ginject_groups A c t lo gs).
Proof.
  intros t. induction n as [|n IH]; intros lo gs m Hlo H.
  - unfold bunch_groups in *. rewrite zrange_nil in * by lia. cbn in *. inversion H; subst. exists m. split; [reflexivity|].
    split; [constructor|apply same_but_refl].
  - unfold bunch_groups in H |- *. rewrite zrange_cons in *. cbn [map] in H |- *. fold (bunch_groups (lo + 1) n) in *.
    inversion H as [|y x ys gs' G H']; subst. destruct x as [b ps]. destruct G as (E1 & E2 & E3). cbn [fst snd] in *. subst b.
    cbn [pieces_alone ginject_groups]. eapply ends_as_bind; [apply (inject_link t lo ps m E3); now symmetry|].
    cbn. intros m1 ps1 (H1 & L1 & S1).
    assert (DIS : forall z, of_group (bunch_pos A c lo) z -> ~ of_groups (bunch_groups (lo + 1) n) z).
    { intros z (i & f & ->) (y & Hy & (j & f' & E)). injection E as E _ _. unfold bunch_groups in Hy. apply in_map_iff in Hy.
      destruct Hy as (k & <- & Hk). apply zrange_in in Hk. cbn [where_] in E. unfold bunch_pos in E. lia. }
    assert (R := IH (lo + 1)%Z gs' m1 ltac:(lia) (grps_other A _ m m1 _ _ S1 DIS H')).
    destruct (ginject_groups A c t (lo + 1) gs') as [gs2|e|]; cbn [bind]; [|exact R|exact R].
    destruct R as (m2 & E & G2 & S2). exists m2. split; [exact E|]. split.
    + constructor; [|exact G2]. split; [reflexivity|]. cbn [snd]. split; [congruence|].
      apply (holds_list_ext A m1); [|exact H1]. intros j f. apply S2. intro K. apply (DIS (PT (bunch_pos A c lo) j f)); [now exists j, f|exact K].
    + intros z Hz. rewrite S2, S1; [reflexivity| |].
      * intro K. apply Hz. exists (bunch_pos A c lo, c_macro A c, true). split; [now left|exact K].
      * intros (y & Hy & K). apply Hz. exists y. split; [now right|exact K].
Qed.

Lemma inject_species : forall t k gs1 gs2, Forall (fun x => fst x = false) gs1 ->
  ginject_groups A c t k (gs1 ++ gs2) = (do r <- ginject_groups A c t k gs2; Ok (gs1 ++ r))%outcome.
Proof.
  intros t k gs1 gs2 H. induction H as [|[b ps] gs1 Hb H IH]; cbn [app ginject_groups].
  - now destruct (ginject_groups A c t k gs2).
  - cbn in Hb. subst b. rewrite IH. now destruct (ginject_groups A c t k gs2).
Qed.

Lemma species_false : forall m gs, Forall2 (grp A m) species_groups gs -> Forall (fun x => fst x = false) gs.
Proof.
  intros m gs H. assert (K : Forall (fun y : nat * Z * bool => snd y = false) species_groups).
  { apply Forall_forall. intros y Hy. now apply in_combine3 in Hy. }
  revert K. induction H as [|[[n cnt] b] x ys gs (E & _) H IH]; intro K; constructor; inversion K; subst; auto.
Qed.

(** ** State and memory *)
Definition repr (m : cmem) (s : gsim A) : Prop :=
  fields_are A m (gs_fields A s) /\ rho_is A m (gs_rho A s) /\
  Forall2 (grp A m) (groups A c (gs_bunches A s)) (gs_groups A s) /\ (0 <= gs_bunches A s)%Z.

Lemma repr_groups : forall m m' f rho gs nb P, same_but A P m m' ->
  (forall x, P x -> ~ is_fld x) -> (forall x, P x -> ~ is_beam_rho x) ->
  fields_are A m f -> rho_is A m rho -> Forall2 (grp A m') (groups A c nb) gs -> (0 <= nb)%Z ->
  repr m' (GSim A f rho gs nb).
Proof.
  intros m m' f rho gs nb P S H1 H2 Hf Hr Hg Hn. split; [|split; [|split]]; cbn; auto.
  - apply (fields_ext A m); [|exact Hf]. intro x. apply S. intro K. apply (H1 _ K). now exists x.
  - intros i k. rewrite S; [apply Hr|]. intro K. apply (H2 _ K). now exists i, k.
Qed.

Lemma beam_link : forall t m s, repr m s ->
  ends_as A (fun m' s' => repr m' s' /\ gs_bunches A s' = snd (beam_pieces A c t (gs_bunches A s)))
    (pieces_alone A (fst (beam_pieces A c t (gs_bunches A s))) m) (gbeam A c t s).
Proof.
  intros t m [f rho gs nb] (Hf & Hr & Hg & Hn). cbn [gs_fields gs_rho gs_groups gs_bunches] in *.
  unfold beam_pieces, gbeam. cbn [gs_fields gs_rho gs_groups gs_bunches].
  destruct (erase_reached A c t nb); [reflexivity|]. cbn [fst snd]. rewrite pieces_alone_app.
  set (nb' := if creates A c t nb then (nb + 1)%Z else nb).
  assert (Hn' : (0 <= nb')%Z) by (unfold nb'; destruct (creates A c t nb); lia).
  assert (C : exists m1, pieces_alone A (if creates A c t nb
      then [Serial A (pconcat (map (fun x => create_code A (bunch_pos A c nb) (fst x) (snd x))
             (combine (map Z.of_nat (seq 0 (length (c_bunch A c nb)))) (c_bunch A c nb))))] else []) m = Ok m1 /\
      fields_are A m1 f /\ rho_is A m1 rho /\
      Forall2 (grp A m1) (groups A c nb') (if creates A c t nb then gs ++ [(true, c_bunch A c nb)] else gs)).
  { unfold nb'. destruct (creates A c t nb); [|exists m; repeat split; auto].
    destruct (create_link (bunch_pos A c nb) (c_bunch A c nb) 0 m) as (m1 & E & H1 & S1).
    exists m1. cbn [pieces_alone]. rewrite serial_piece, E. split; [reflexivity|].
    assert (S1' : same_but A (of_group (bunch_pos A c nb)) m m1).
    { eapply same_but_weaken; [|exact S1]. intros x (i & g & _ & ->). now exists i, g. }
    assert (K1 : fields_are A m1 f). { apply (fields_ext A m); [|exact Hf]. intro x. apply S1'. intros (i & g & E'). discriminate. }
    assert (K2 : rho_is A m1 rho). { intros i k. rewrite S1'; [apply Hr|]. intros (i' & g & E'). discriminate. }
    split; [exact K1|]. split; [exact K2|]. rewrite groups_succ by exact Hn. apply Forall2_app.
    - eapply grps_other; [exact S1'| |exact Hg]. intros x (i & g & ->) (y & Hy & (j & g' & E')). injection E' as E' _ _.
      assert (ND := groups_nodup (nb + 1)). rewrite groups_succ, map_app in ND by exact Hn. cbn [map where_] in ND.
      apply NoDup_remove_2 in ND. apply ND. rewrite app_nil_r, E'. now apply in_map.
    - constructor; [|constructor]. split; [reflexivity|]. split; [symmetry; apply Hbunch|]. exact H1. }
  destruct C as (m1 & -> & Hf1 & Hr1 & Hg1). cbn [bind].
  rewrite groups_split in Hg1 by exact Hn'. apply Forall2_app_inv_l in Hg1. destruct Hg1 as (gs1 & gs2 & G1 & G2 & EG).
  rewrite EG, inject_species by (eapply species_false; exact G1).
  assert (R := inject_bunches t (Z.to_nat nb') 0 gs2 m1 (Z.le_refl 0) G2). rewrite Z.add_0_l, Z2Nat.id in R by exact Hn'.
  destruct (ginject_groups A c t 0 gs2) as [gs3|e|]; cbn [bind]; [|exact R|exact R].
  destruct R as (m2 & E & G3 & S2). exists m2. split; [exact E|]. split; [|reflexivity].
  apply (repr_groups m1 m2 f rho (gs1 ++ gs3) nb' _ S2); auto.
  - intros x (y & _ & (i & g & ->)) (l & E'). discriminate.
  - intros x (y & _ & (i & g & ->)) (l & l' & E'). discriminate.
  - rewrite groups_split by exact Hn'. apply Forall2_app; [|exact G3].
    eapply grps_other; [exact S2| |exact G1]. intros x (y & Hy & (i & g & ->)) (y' & Hy' & (i' & g' & E')). injection E' as E' _ _.
    unfold bunch_groups in Hy. apply in_map_iff in Hy. destruct Hy as (k & <- & _). cbn [where_] in E'. unfold bunch_pos in E'.
    apply in_combine3 in Hy'. lia.
Qed.

(** ** One iteration *)
Lemma bunches_of_species : forall gs, Forall (fun x : bool * list (gparticle A) => fst x = false) gs -> gbunches_of A gs = [].
Proof. intros gs H. induction H as [|[b ps] gs Hb H IH]; [reflexivity|]. cbn in *. now subst. Qed.

Lemma bunches_held : forall m n lo gs, Forall2 (grp A m) (bunch_groups lo n) gs ->
  Forall2 (fun k ps => holds_list A m (bunch_pos A c k) 0 ps /\ c_macro A c = Z.of_nat (length ps))
    (zrange lo (lo + Z.of_nat n)) (gbunches_of A gs).
Proof.
  intros m n. induction n as [|n IH]; intros lo gs H; unfold bunch_groups in H.
  - rewrite zrange_nil in * by lia. inversion H; subst. constructor.
  - rewrite zrange_cons in *. cbn [map] in H. inversion H as [|y x ys gs' G H']; subst. destruct x as [b ps].
    destruct G as (E1 & E2 & E3). cbn in E1, E2, E3. subst b. cbn. constructor; [now split|]. now apply IH.
Qed.

Lemma rho_weaken : forall m m' rho P, same_but A P m m' -> (forall x, P x -> ~ is_beam_rho x) -> rho_is A m rho -> rho_is A m' rho.
Proof. intros m m' rho P S H Hr i k. rewrite S; [apply Hr|]. intro K. apply (H _ K). now exists i, k. Qed.

Lemma fld_not_rho : forall x, is_fld x -> ~ is_beam_rho x.
Proof. intros x (l & ->) (i & k & E). discriminate. Qed.
Lemma fld_not_groups : forall ys x, is_fld x -> ~ of_groups ys x.
Proof. intros ys x (l & ->) (y & _ & (i & f & E)). discriminate. Qed.
Lemma groups_not_rho : forall ys x, of_groups ys x -> ~ is_beam_rho x.
Proof. intros ys x (y & _ & (i & f & ->)) (j & k & E). discriminate. Qed.

Lemma iteration_link : forall t m s, repr m s ->
  ends_as A (fun m' s' => repr m' s' /\ gs_bunches A s' = snd (beam_pieces A c t (gs_bunches A s)))
    (pieces_alone A (fst (beam_pieces A c t (gs_bunches A s)) ++ iteration_pieces A c (snd (beam_pieces A c t (gs_bunches A s)))) m)
    (giteration A c t s).
Proof.
  intros t m s Hs. rewrite pieces_alone_app. unfold giteration.
  eapply ends_as_bind; [exact (beam_link t m s Hs)|]. cbv beta. intros m0 [f0 rho0 gs0 nb] [(Hf & Hr & Hg & Hn) EN].
  cbn [gs_fields gs_rho gs_groups gs_bunches] in *. rewrite <- EN. unfold iteration_pieces. cbv zeta.
  rewrite pieces_alone_app.
  destruct (field_pieces_link A (ghfield_loops A (c_geom A c) (c_dt A c)) m0 f0 Hf) as (m1 & -> & F1 & S1). cbn [bind].
  change (exec loc_eqb (concat (concat (ghfield_loops A (c_geom A c) (c_dt A c)))) f0) with (gcalc_hfield A (c_geom A c) (c_dt A c) f0) in F1.
  rewrite pieces_alone_app. cbn [pieces_alone].
  destruct (reset_j_link A c m1 _ F1) as (m2 & -> & F2 & S2). cbn [bind].
  destruct (reset_rho_link A c RHO_OLD m2) as (m3 & -> & _ & S3). cbn [bind].
  destruct (reset_rho_link A c RHO_BUNCH m3) as (m4 & -> & R4 & S4). cbn [bind].
  set (f2 := greset_j A (c_geom A c) (gcalc_hfield A (c_geom A c) (c_dt A c) f0)) in *.
  assert (F4 : fields_are A m4 f2). { apply (fields_ext A m2); [|exact F2]. intro x. rewrite S4, S3; [reflexivity| |]; discriminate. }
  assert (RH4 : rho_is A m4 (greset_rho A (c_geom A c) rho0)).
  { intros i k. rewrite R4. unfold greset_rho. destruct (inside A (c_geom A c) i k); [reflexivity|].
    rewrite S3 by discriminate. rewrite S2 by (intros (l & E); discriminate). rewrite S1 by (intros (l & E); discriminate). apply Hr. }
  assert (G4 : Forall2 (grp A m4) (groups A c nb) gs0).
  { apply (grps_ext A m0); [|exact Hg]. intros y j q _. rewrite S4, S3 by discriminate.
    rewrite S2 by (intros (l & E); discriminate). apply S1. intros (l & E). discriminate. }
  rewrite pieces_alone_app.
  eapply ends_as_bind; [exact (step_v_groups A c (groups A c nb) gs0 m4 f2 (groups_nodup nb) G4 F4)|].
  cbv beta. intros m5 gs5 [G5 S5].
  assert (F5 : fields_are A m5 f2). { apply (fields_ext A m4); [|exact F4]. intro x. apply S5. apply fld_not_groups. now exists x. }
  assert (RH5 := rho_weaken m4 m5 _ _ S5 (groups_not_rho _) RH4).
  rewrite pieces_alone_app.
  eapply ends_as_bind; [exact (full_current_groups A c (groups A c nb) gs5 m5 f2 (groups_nodup nb) G5 F5)|].
  cbv beta. intros m6 [f6 gs6] (G6 & F6 & S6). cbn [fst snd] in *.
  assert (RH6 : rho_is A m6 (greset_rho A (c_geom A c) rho0)).
  { apply (rho_weaken m5 m6 _ _ S6); [|exact RH5]. intros x [K|K]; [now apply (groups_not_rho _ x K)|now apply fld_not_rho]. }
  rewrite pieces_alone_app.
  destruct (field_pieces_link A (gefield_loops A (c_geom A c) (c_medium A c) (c_dt A c)) m6 f6 F6) as (m7 & -> & F7 & S7). cbn [bind].
  change (exec loc_eqb (concat (concat (gefield_loops A (c_geom A c) (c_medium A c) (c_dt A c)))) f6)
    with (gcalc_efield A (c_geom A c) (c_medium A c) (c_dt A c) f6) in F7.
  cbn [app pieces_alone]. destruct (reset_rho_link A c RHO_NEW m7) as (m8 & -> & _ & S8). cbn [bind].
  assert (F8 : fields_are A m8 (gcalc_efield A (c_geom A c) (c_medium A c) (c_dt A c) f6)).
  { apply (fields_ext A m7); [|exact F7]. intro x. apply S8. discriminate. }
  assert (RH8 : rho_is A m8 (greset_rho A (c_geom A c) rho0)).
  { intros i k. rewrite S8 by discriminate. rewrite S7 by (intros (l & E); discriminate). apply RH6. }
  assert (G8 : Forall2 (grp A m8) (groups A c nb) gs6).
  { apply (grps_ext A m6); [|exact G6]. intros y j q _. rewrite S8 by discriminate. apply S7. intros (l & E). discriminate. }
  assert (B8 := G8). rewrite groups_split in B8 by exact Hn. apply Forall2_app_inv_l in B8. destruct B8 as (gsa & gsb & Ga & Gb & EG).
  apply bunches_held in Gb. rewrite Z.add_0_l, Z2Nat.id in Gb by exact Hn.
  assert (EB : gbunches_of A gs6 = gbunches_of A gsb).
  { rewrite EG. unfold gbunches_of. rewrite flat_map_app. fold (gbunches_of A gsa). rewrite bunches_of_species; [reflexivity|].
    eapply species_false. exact Ga. }
  rewrite EB.
  assert (W := weight_link A c (zrange 0 nb) (gbunches_of A gsb) m8 _ Gb RH8).
  destruct (ofold _ (gbunches_of A gsb) _) as [rho9|e|]; cbn [bind]; [|exact W|exact W].
  destruct W as (m9 & -> & R9 & S9). exists m9. split; [reflexivity|]. split; [|reflexivity].
  split; [|split; [|split]]; cbn [gs_fields gs_rho gs_groups gs_bunches].
  - apply (fields_ext A m8); [|exact F8]. intro x. apply S9. intros (i & k & E). discriminate.
  - exact R9.
  - apply (grps_ext A m8); [|exact G8]. intros y j q _. apply S9. intros (i & k & E). discriminate.
  - exact Hn.
Qed.

Theorem run_link : forall fuel t te m s, repr m s ->
  ends_as A repr (pieces_alone A (run_pieces A c fuel t te (gs_bunches A s)) m) (gsim_run A c fuel t te s).
Proof.
  induction fuel as [|fuel IH]; intros t te m s Hs; cbn [run_pieces gsim_run].
  - exists m. split; [reflexivity|exact Hs].
  - destruct (ltb A t te); [|exists m; split; [reflexivity|exact Hs]].
    assert (L := iteration_link t m s Hs). destruct (beam_pieces A c t (gs_bunches A s)) as [beam nb'] eqn:EB. cbn [fst snd] in L.
    rewrite app_assoc, pieces_alone_app. eapply ends_as_bind; [exact L|]. cbv beta. intros m' s' [Hs' <-]. now apply IH.
Qed.

End GenSimP2.
