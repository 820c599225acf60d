(** Proofs about bilinear and bicubic post-processing. *)
From Coq Require Import Reals ZArith Lia Lra List Bool Permutation.
From Verif.Lib Require Import RAux Grid Par ParShared.
From Verif.Model Require Import Smooth.
From Verif.Spec Require Import MapSpec.
Import ListNotations.
Local Open Scope R_scope.

Lemma bilinear_loops_in : forall x y a, In a (bilinear_loops x y) <->
  (exists i j, (1 <= i < x /\ 1 <= j < y - 1)%Z /\ a = asg_mean4 i j) \/
  (exists i, (1 <= i < x - 1)%Z /\ a = asg_mean_col i) \/
  (exists j, (1 <= j < y - 1)%Z /\ a = asg_mean_row j).
Proof.
  intros x y a. unfold bilinear_loops. rewrite !in_app_iff, !in_map_iff. split.
  - intros [((i & j) & <- & H)|[(i & <- & H)|(j & <- & H)]].
    + apply cells_in in H. left. now exists i, j.
    + apply zrange_in in H. right. left. now exists i.
    + apply zrange_in in H. right. right. now exists j.
  - intros [(i & j & H & ->)|[(i & H & ->)|(j & H & ->)]].
    + left. exists (i, j). split; [reflexivity|]. now apply cells_in.
    + right. left. exists i. split; [reflexivity|]. now apply zrange_in.
    + right. right. exists j. split; [reflexivity|]. now apply zrange_in.
Qed.

(** The assignments that some thread executes. *)
Lemma shares_in : forall x y shares a, shares <> [] ->
  Permutation (concat shares) (bilinear_loops x y) ->
  (In a (concat (map (fun s => s ++ bilinear_corners x y) shares)) <->
   In a (bilinear_loops x y) \/ In a (bilinear_corners x y)).
Proof.
  intros x y shares a Hn Hp.
  assert (E : In a (concat (map (fun s => s ++ bilinear_corners x y) shares)) <->
              In a (concat shares) \/ In a (bilinear_corners x y)).
  { destruct shares as [|s shares]; [contradiction|]. clear Hn Hp. revert s. induction shares as [|t shares IH]; intro s.
    - cbn [map concat]. rewrite !app_nil_r, in_app_iff. tauto.
    - cbn [map concat] in IH |- *. specialize (IH t). rewrite !in_app_iff in *. tauto. }
  rewrite E. assert (P : In a (concat shares) <-> In a (bilinear_loops x y)).
  { split; apply Permutation_in; [exact Hp|now apply Permutation_sym]. }
  tauto.
Qed.

Lemma corners_in : forall x y a, In a (bilinear_corners x y) ->
  exists i j, a = asg_copy i j /\ (i = 0 \/ i = x - 1)%Z /\ (j = 0 \/ j = y - 1)%Z.
Proof.
  intros x y a [<-|[<-|[<-|[<-|[]]]]]; eexists; eexists; (split; [reflexivity|]); lia.
Qed.

Definition src (m : mloc -> R) : Z -> Z -> R := fun i j => m (true, i, j).
Definition dst (m : mloc -> R) : Z -> Z -> R := fun i j => m (false, i, j).

Lemma bilinear_result : forall x y m m', (2 <= x)%Z -> (2 <= y)%Z -> bilinear_interpolation x y m m' ->
  (forall i j, (1 <= i < x)%Z -> (1 <= j < y - 1)%Z ->
     dst m' i j = (src m (i - 1) (j - 1) + src m i (j - 1) + src m (i - 1) j + src m i j) / 4) /\
  (forall i, (1 <= i < x - 1)%Z -> dst m' i 0 = (src m (i - 1) 0 + src m i 0) / 2) /\
  (forall j, (1 <= j < y - 1)%Z -> dst m' 0 j = (src m 0 (j - 1) + src m 0 j) / 2) /\
  dst m' 0 0 = src m 0 0 /\ dst m' (x - 1) 0 = src m (x - 1) 0 /\
  dst m' 0 (y - 1) = src m 0 (y - 1) /\ dst m' (x - 1) (y - 1) = src m (x - 1) (y - 1) /\
  (forall i, (1 <= i < x - 1)%Z -> dst m' i (y - 1) = dst m i (y - 1)) /\
  (forall i j, src m' i j = src m i j).
Proof.
  intros x y m m' Hx Hy (shares & Hn & Hp & Hi).
  set (progs := map (fun s => s ++ bilinear_corners x y) shares) in *.
  assert (HI := fun a => shares_in x y shares a Hn Hp).
  assert (Hi' : interleaved mloc_eqb (map compile_all progs) m m').
  { unfold progs. rewrite map_map. exact Hi. }
  clear Hi. assert (T : forall a, In a (concat progs) -> fst (fst (tgt a)) = false).
  { intros a Ha. apply HI in Ha. destruct Ha as [Ha|Ha].
    - apply bilinear_loops_in in Ha. destruct Ha as [(i & j & H & ->)|[(i & H & ->)|(j & H & ->)]]; reflexivity.
    - apply corners_in in Ha. destruct Ha as (i & j & -> & _). reflexivity. }
  assert (RD : forall a z, In a (concat progs) -> In z (reads a) -> fst (fst z) = true).
  { intros a z Ha. apply HI in Ha. destruct Ha as [Ha|Ha].
    - apply bilinear_loops_in in Ha.
      destruct Ha as [(i & j & H & ->)|[(i & H & ->)|(j & H & ->)]]; cbn;
        intuition (subst; reflexivity).
    - apply corners_in in Ha. destruct Ha as (i & j & -> & _). cbn. intuition (subst; reflexivity). }
  assert (KEY : forall a, In a (concat progs) ->
     (exists i j, (1 <= i < x /\ 1 <= j < y - 1)%Z /\ a = asg_mean4 i j) \/
     (exists i, (1 <= i < x - 1)%Z /\ a = asg_mean_col i) \/
     (exists j, (1 <= j < y - 1)%Z /\ a = asg_mean_row j) \/
     (exists i j, a = asg_copy i j /\ (i = 0 \/ i = x - 1)%Z /\ (j = 0 \/ j = y - 1)%Z)).
  { intros a Ha. apply HI in Ha. destruct Ha as [Ha|Ha].
    - apply bilinear_loops_in in Ha. tauto.
    - apply corners_in in Ha. tauto. }
  destruct (interleaved_shared mloc_eqb mloc_eqb_spec m m' progs) as [W U].
  - intros a b z Ha Hb Hz E. assert (A := T b Hb). assert (B := RD a z Ha Hz). rewrite E in A. congruence.
  - intros a b Ha Hb E. apply KEY in Ha, Hb.
    destruct Ha as [(i & j & H & ->)|[(i & H & ->)|[(j & H & ->)|(i & j & -> & Hi & Hj)]]];
    destruct Hb as [(i' & j' & H' & ->)|[(i' & H' & ->)|[(j' & H' & ->)|(i' & j' & -> & Hi'' & Hj')]]];
    assert (E1 := f_equal (fun t : mloc => snd (fst t)) E); assert (E2 := f_equal (fun t : mloc => snd t) E);
    cbn in E1, E2; clear E; try (exfalso; lia); subst; reflexivity.
  - exact Hi'.
  - assert (WL : forall a, In a (bilinear_loops x y) -> m' (tgt a) = value_of m a).
    { intros a Ha. apply W. apply HI. now left. }
    assert (WC : forall a, In a (bilinear_corners x y) -> m' (tgt a) = value_of m a).
    { intros a Ha. apply W. apply HI. now right. }
    unfold dst, src.
    repeat match goal with |- _ /\ _ => split end.
    + intros i j Hi Hj. apply (WL (asg_mean4 i j)). apply bilinear_loops_in. left. exists i, j. auto.
    + intros i Hi. apply (WL (asg_mean_col i)). apply bilinear_loops_in. right. left. exists i. auto.
    + intros j Hj. apply (WL (asg_mean_row j)). apply bilinear_loops_in. right. right. exists j. auto.
    + apply (WC (asg_copy 0 0)). cbn. tauto.
    + apply (WC (asg_copy (x - 1) 0)). cbn. tauto.
    + apply (WC (asg_copy 0 (y - 1))). cbn. tauto.
    + apply (WC (asg_copy (x - 1) (y - 1))). cbn. tauto.
    + intros i Hi. apply U. intros a Ha E. apply KEY in Ha.
      destruct Ha as [(i' & j & H & ->)|[(i' & H & ->)|[(j & H & ->)|(i' & j & -> & Hi'' & Hj)]]];
        assert (E1 := f_equal (fun t : mloc => snd (fst t)) E); assert (E2 := f_equal (fun t : mloc => snd t) E);
        cbn in E1, E2; lia.
    + intros i j. apply U. intros a Ha E. apply T in Ha. rewrite E in Ha. discriminate.
Qed.

Lemma bilinear_within : forall x y m m' i j, (2 <= x)%Z -> (2 <= y)%Z -> bilinear_interpolation x y m m' ->
  node x y i j -> (j < y - 1 \/ i = 0 \/ i = x - 1)%Z -> within_neighbours x y (src m) i j (dst m' i j).
Proof.
  intros x y m m' i j Hx Hy HB [Hi Hj] Hl lo hi HA.
  destruct (bilinear_result x y m m' Hx Hy HB) as (B1 & B2 & B3 & B4 & B5 & B6 & B7 & _ & _).
  assert (V : forall i' j', node x y i' j' -> (Z.abs (i' - i) <= 1)%Z -> (Z.abs (j' - j) <= 1)%Z ->
                lo <= src m i' j' <= hi) by exact HA.
  destruct (Z.eq_dec i 0) as [->|Ni].
  - destruct (Z.eq_dec j 0) as [->|Nj]; [rewrite B4; apply V; unfold node; lia|].
    destruct (Z.eq_dec j (y - 1)) as [->|Nj']; [rewrite B6; apply V; unfold node; lia|].
    rewrite B3 by lia.
    assert (V1 := V 0%Z (j - 1)%Z). assert (V2 := V 0%Z j).
    unfold node in *. specialize (V1 ltac:(lia) ltac:(lia) ltac:(lia)). specialize (V2 ltac:(lia) ltac:(lia) ltac:(lia)). lra.
  - destruct (Z.eq_dec j 0) as [->|Nj].
    + destruct (Z.eq_dec i (x - 1)) as [->|Ni']; [rewrite B5; apply V; unfold node; lia|].
      rewrite B2 by lia. assert (V1 := V (i - 1)%Z 0%Z). assert (V2 := V i 0%Z).
      unfold node in *. specialize (V1 ltac:(lia) ltac:(lia) ltac:(lia)). specialize (V2 ltac:(lia) ltac:(lia) ltac:(lia)). lra.
    + destruct (Z.eq_dec j (y - 1)) as [->|Nj'].
      * assert (i = x - 1)%Z as -> by lia. rewrite B7. apply V; unfold node; lia.
      * rewrite B1 by lia.
        assert (V1 := V (i - 1)%Z (j - 1)%Z). assert (V2 := V i (j - 1)%Z).
        assert (V3 := V (i - 1)%Z j). assert (V4 := V i j). unfold node in *.
        specialize (V1 ltac:(lia) ltac:(lia) ltac:(lia)). specialize (V2 ltac:(lia) ltac:(lia) ltac:(lia)).
        specialize (V3 ltac:(lia) ltac:(lia) ltac:(lia)). specialize (V4 ltac:(lia) ltac:(lia) ltac:(lia)). lra.
Qed.

(** At least one execution exists. *)
Lemma bilinear_exists : forall x y m, exists m', bilinear_interpolation x y m m'.
Proof.
  intros x y m. eexists. exists [bilinear_loops x y]. split; [discriminate|]. split.
  - cbn [concat]. rewrite app_nil_r. apply Permutation_refl.
  - cbn [map]. apply interleaved_one.
Qed.

(** ** Bicubic *)

Lemma bicubic_coefficients_00 : bicubic_coefficients 0 0 = [1; 0; 0; 0; 0; 0; 0; 0; 0; 0; 0; 0; 0; 0; 0; 0]%Z.
Proof. reflexivity. Qed.

Lemma bicubic_value : forall m i j, value_of m (asg_bicubic i j) = src m i j.
Proof.
  intros m i j. unfold value_of, asg_bicubic, src. cbn [rhs reads]. rewrite bicubic_coefficients_00.
  unfold bicubic_offsets. cbn [map combine fst snd rsum fold_right]. rewrite !Z.add_0_r. ring.
Qed.

Lemma exec_readonly : forall (l : list masg) m,
  (forall a b z, In a l -> In b l -> In z (reads a) -> tgt b <> z) ->
  forall pre a post, l = pre ++ a :: post -> (forall b, In b post -> tgt b <> tgt a) ->
  exec mloc_eqb l m (tgt a) = value_of m a.
Proof.
  intros l m Hr pre a post -> Hp. rewrite exec_app.
  change (exec mloc_eqb (a :: post) (exec mloc_eqb pre m))
    with (exec mloc_eqb post (exec_asg mloc_eqb (exec mloc_eqb pre m) a)).
  rewrite (exec_unwritten mloc_eqb mloc_eqb_spec) by exact Hp.
  unfold exec_asg. rewrite (store_same mloc_eqb mloc_eqb_spec). unfold value_of. f_equal.
  apply map_ext_in. intros z Hz. apply (exec_unwritten mloc_eqb mloc_eqb_spec).
  intros b Hb. apply (Hr a b z); [apply in_elt|apply in_or_app; now left|exact Hz].
Qed.

Lemma bicubic_zero_in : forall x y a,
  In a (flat_map (fun j => [asg_zero 0 j; asg_zero 1 j; asg_zero (x - 1) j; asg_zero (x - 2) j]) (zrange 0 y)
        ++ flat_map (fun i => [asg_zero i 0; asg_zero i 1; asg_zero i (y - 1); asg_zero i (y - 2)]) (zrange 0 x)) <->
  exists i j, a = asg_zero i j /\
   (((i = 0 \/ i = 1 \/ i = x - 1 \/ i = x - 2) /\ 0 <= j < y) \/
    ((j = 0 \/ j = 1 \/ j = y - 1 \/ j = y - 2) /\ 0 <= i < x))%Z.
Proof.
  intros x y a. rewrite in_app_iff, !in_flat_map. split.
  - intros [(j & Hj & Ha)|(i & Hi & Ha)]; [apply zrange_in in Hj|apply zrange_in in Hi]; cbn in Ha;
      destruct Ha as [<-|[<-|[<-|[<-|[]]]]]; eexists; eexists; (split; [reflexivity|]); lia.
  - intros (i & j & -> & [[Hi Hj]|[Hj Hi]]).
    + left. exists j. split; [now apply zrange_in|]. cbn. destruct Hi as [->|[->|[->| ->]]]; tauto.
    + right. exists i. split; [now apply zrange_in|]. cbn. destruct Hj as [->|[->|[->| ->]]]; tauto.
Qed.

Lemma exec_zeros : forall zs m i j, Forall (fun a => exists i j, a = asg_zero i j) zs ->
  In (asg_zero i j) zs -> exec mloc_eqb zs m (false, i, j) = 0.
Proof.
  intros zs. induction zs as [|a zs IH] using rev_ind; intros m i j HF Hin; [destruct Hin|].
  rewrite exec_app. cbn [exec fold_left]. unfold exec_asg.
  apply Forall_app in HF. destruct HF as [F1 F2]. inversion F2 as [|u v (i' & j' & ->) _]; subst.
  cbn [tgt asg_zero rhs]. unfold store. destruct (mloc_eqb_spec (false, i, j) (false, i', j')) as [E|N]; [reflexivity|].
  apply IH; [exact F1|]. apply in_app_or in Hin. destruct Hin as [H|[H|[]]]; [exact H|].
  exfalso. apply N. assert (Q := f_equal tgt H). cbn in Q. congruence.
Qed.

Lemma map_single : forall {A B} (f : A -> B) l, map f l = flat_map (fun x => [f x]) l.
Proof. intros A B f l. induction l as [|x l IH]; [reflexivity|]. cbn. now rewrite <- IH. Qed.

Lemma bicubic_result : forall x y m i j, (4 <= x)%Z -> (4 <= y)%Z -> node x y i j ->
  dst (bicubic_interpolation x y m) i j =
  if ((2 <=? i) && (i <? x - 2) && (2 <=? j) && (j <? y - 2))%Z then src m i j else 0.
Proof.
  intros x y m i j Hx Hy [Hi Hj]. unfold bicubic_interpolation, bicubic_loops, dst.
  set (zs := flat_map _ (zrange 0 y) ++ flat_map _ (zrange 0 x)).
  assert (HZ := bicubic_zero_in x y). fold zs in HZ. rewrite exec_app.
  destruct ((2 <=? i) && (i <? x - 2) && (2 <=? j) && (j <? y - 2))%Z eqn:C.
  - rewrite !andb_true_iff in C. destruct C as (((C1 & C2) & C3) & C4).
    apply Z.leb_le in C1, C3. apply Z.ltb_lt in C2, C4.
    rewrite (exec_unwritten mloc_eqb mloc_eqb_spec).
    2:{ intros a Ha E. apply HZ in Ha. destruct Ha as (i' & j' & -> & H). 
      assert (E1 := f_equal (fun t : mloc => snd (fst t)) E); assert (E2 := f_equal (fun t : mloc => snd t) E).
      cbn in E1, E2. lia. }
    rewrite map_single.
    rewrite (exec_loop_at mloc_eqb mloc_eqb_spec (fun c => [asg_bicubic (fst c) (snd c)]) _ m (i, j)).
    + cbn [exec fold_left]. unfold exec_asg. rewrite (store_same mloc_eqb mloc_eqb_spec). apply bicubic_value.
    + apply cells_nodup.
    + intros [a b] [c d] _ _ N. split; intros z [<-|[]]; (split;
        [unfold reads_of; cbn; intuition discriminate|cbn; intros [E|[]]; apply N; congruence]).
    + apply cells_in. lia.
    + now left.
  - apply exec_zeros.
    + apply Forall_forall. intros a Ha. apply HZ in Ha. destruct Ha as (i' & j' & -> & _). eauto.
    + apply HZ. exists i, j. split; [reflexivity|].
      rewrite !andb_false_iff, !Z.leb_gt, !Z.ltb_ge in C. lia.
Qed.
