(** What the particles add to the current arrays in binary64 (C79): the azimuthal currents of one particle, and sums of many small numbers. *)
From Coq Require Import ZArith Reals Lra Lia Psatz Bool List.
From Flocq Require Import Core IEEE754.BinarySingleNaN.
From Verif.Lib Require Import RAux Outcome.
From Verif.Model Require Import Constants Binary64 Temperature64 Arith Geometry CurrentDeposit Fields Pusher GenCode GenRun GenSim.
From Verif.Spec Require Import Double Short.
From Verif.Proof Require Import Binary64P FloatP Axis64P Motion64R Motion64P Cells64P Push64P Err64P Ana64P Log64P Leg64P Limit64P.
Import ListNotations.
Local Open Scope R_scope.

Lemma lit_rg : forall x a b, bp a <= x -> x <= bp b -> rg x a b. Proof. intros x a b L U. split; assumption. Qed.

(** ** The azimuthal currents *)
Section Around.
Variables pw lg : b64 -> b64.
Notation A := (b64_arith pw lg).
Variable g : ggeom A.
Variable dt : b64.
Hypothesis HF : fine pw lg g dt.
Notation dr := (dr pw lg g).
Notation dz := (dz pw lg g).
Notation DR := (B2R dr). Notation DZ := (B2R dz).
Let AR := axr pw lg g dt HF.
Let AZ := axz pw lg g dt HF.
Variable Q : R.
Hypothesis HQ : rg Q (-200) 200.

Lemma sheet_low : forall r : b64, fin r -> 8 / 100 * DR <= B2R r <= 1200000 * DR ->
  DR * DR * DZ / 2 <= B2R (b64_mul (b64_mul (b64_mul (b64_mul (b64_of_Z 2) (gPI A)) dz) dr) r).
Proof.
  intros r FR HR. assert (P := rg_pos _ _ _ (DR_rg pw lg g dt HF)). assert (PZ := rg_pos _ _ _ (DZ_rg pw lg g dt HF)).
  assert (RR : rg (B2R r) (-34) 31).
  { destruct (DR_rg pw lg g dt HF) as (L & U). split.
    - apply Rle_trans with (2 := proj1 HR). replace (bp (-34)) with (bp (-4) * bp (-30)) by (rewrite <- bpow_plus; reflexivity). apply Rmult_le_compat; try apply bpow_ge_0; [cbn; lra|exact L].
    - apply Rle_trans with (1 := proj2 HR). replace (bp 31) with (bp 21 * bp 10) by (rewrite <- bpow_plus; reflexivity). apply Rmult_le_compat; [lra|lra|cbn; lra|exact U]. }
  assert (G2 : good (b64_of_Z 2) 2 2 (Sh 0 1 1 true)) by (apply (good_Z 2 1 1); [reflexivity|change (bp 1) with 2; lra]).
  assert (GR : good r (B2R r) (B2R r) (Sh 0 (-34) 31 true)) by (apply good_exact; [exact FR|reflexivity|exact RR]).
  assert (GS := goods_cons _ _ _ _ _ _ _ _ good_PI (goods_cons _ _ _ _ _ _ _ _ (d_z pw lg g dt HF) (goods_cons _ _ _ _ _ _ _ _ (d_r pw lg g dt HF) (goods_cons _ _ _ _ _ _ _ _ G2 (goods_cons _ _ _ _ _ _ _ _ GR goods_nil))))).
  assert (G := analysed _ _ _ _ (Ti (Ti (Ti (Ti (V 3) (V 0)) (V 1)) (V 2)) (V 4)) _ GS eq_refl). cbn [eb er em nth] in G.
  destruct G as (N & R & _). assert (PR := rg_pos _ _ _ RR). assert (PI0 : 3 < c_PI) by (unfold c_PI; lra).
  assert (W : 0 < DR * DZ) by (apply Rmult_lt_0_compat; assumption). assert (RW : 8 / 100 * DR * (DR * DZ) <= B2R r * (DR * DZ)) by (apply Rmult_le_compat_r; lra).
  replace (2 * c_PI * DZ * DR * B2R r) with (2 * c_PI * (B2R r * (DR * DZ))) in N by ring.
  assert (P3 : 0 < B2R r * (DR * DZ)) by (apply Rmult_lt_0_compat; assumption).
  assert (K := small_error _ _ _ N ltac:(unfold c_PI; lra)). apply Rle_trans with (2 := K). unfold c_PI. lra.
Qed.

Lemma azimuthal_lim : forall ro zo r z (q v : b64), midway pw lg g ro zo r z -> lim q Q -> lim v 300000001 ->
  Forall (fun x => lim (gval A (gj_inc A x)) (4096 * 300000001 * (Q / (DR * DR * DZ)))) (gazimuthal_single A g q v r z).
Proof.
  intros ro zo r z q v (_ & FR & R & _ & FZ & Z & _) LQ LV. assert (L1 := len_pos _ _ _ AR). assert (L2 := len_pos _ _ _ AZ). assert (T1 := top_r pw lg g). assert (T2 := top_z pw lg g).
  assert (H1 := top_hi _ _ _ AR). assert (H2 := top_hi _ _ _ AZ). unfold len in *.
  assert (PU := rg_pos _ _ _ (unit_rg pw lg g dt HF)). assert (PQ := rg_pos _ _ _ HQ).
  destruct (heights pw lg g dt HF z FZ ltac:(lra)) as (_ & _ & _ & _ & H3 & H4).
  assert (RW := fun w => radii_whole pw lg g dt HF r w FR ltac:(lra)). cbv zeta in RW.
  set (W := DR * DR * DZ) in *. assert (RQ : rg (Q / W) (-230) 290) by exact (rg_div _ _ _ _ _ _ HQ (unit_rg pw lg g dt HF)).
  assert (R2 : rg (Q / (W / 2)) (-229) 291).
  { replace (Q / (W / 2)) with (2 * (Q / W)) by (field; lra). apply (rg_mul 2 _ 1 1 (-230) 290); [apply lit_rg; cbn; lra|exact RQ]. }
  assert (LR : lim (b64_div q (b64_mul (b64_mul (b64_mul (b64_mul (b64_of_Z 2) (gPI A)) dz) dr) r)) (5 / 4 * (Q / (W / 2)))).
  { apply lim_div; [exact LQ| |exact (rg_weaken _ _ _ (-900) 1000 R2 ltac:(lia) ltac:(lia))]. split; [lra|]. apply sheet_low; [exact FR|lra]. }
  set (rv := b64_div q _) in LR. assert (R3 : rg (5 / 4 * (Q / (W / 2))) (-229) 292) by (apply (rg_mul (5 / 4) _ 0 1 (-229) 291); [apply lit_rg; cbn; lra|exact R2]).
  assert (K : forall w r1 r2 vv, ring pw lg g w r1 r2 vv -> lim (b64_mul (gRNG A rv w r1 r2 vv) v) (4096 * 300000001 * (Q / W))).
  { intros w r1 r2 vv RG. assert (X := ring_value pw lg g dt HF _ _ _ _ _ _ LR (rg_weaken _ _ _ (-400) 600 R3 ltac:(lia) ltac:(lia)) RG).
    assert (R4 : rg (1024 * (5 / 4 * (Q / (W / 2)))) (-219) 302) by (apply (rg_mul 1024 _ 10 10 (-229) 292); [apply lit_rg; cbn; lra|exact R3]).
    assert (R5 : rg (1024 * (5 / 4 * (Q / (W / 2))) * 300000001) (-191) 331) by (apply (rg_mul _ 300000001 (-219) 302 28 29); [exact R4|apply lit_rg; cbn; lra]).
    assert (Y := lim_mul _ _ _ _ X LV (rg_weaken _ _ _ (-900) 1000 R5 ltac:(lia) ltac:(lia))). apply (lim_weaken _ _ _ Y).
    assert (0 < Q / W) by exact (rg_pos _ _ _ RQ). replace (Q / (W / 2)) with (2 * (Q / W)) by (field; lra). lra. }
  unfold gazimuthal_single. cbv zeta. change (add A) with b64_add. change (sub A) with b64_sub. change (mul A) with b64_mul. change (div A) with b64_div. change (of_int A) with b64_of_Z. change (ghalf A) with (b64_lit 1 2).
  change (gdr A g) with dr. change (gdz A g) with dz. fold rv. destruct (RW _ H3) as (X1 & X2). destruct (RW _ H4) as (X3 & X4). assert (X2' := X2 _ (or_introl eq_refl)). assert (X4' := X4 _ (or_introl eq_refl)). clear X2 X4 RW.
  apply Forall_cons; [exact (K _ _ _ _ X1)|]. apply Forall_cons; [exact (K _ _ _ _ X2')|]. apply Forall_cons; [exact (K _ _ _ _ X3)|]. apply Forall_cons; [exact (K _ _ _ _ X4')|]. apply Forall_nil.
Qed.

(** In one step of the time in which light passes at most a fortieth of a cell, per unit of time *)
Hypothesis HR : 300000000 * B2R dt <= DR / 40.
Hypothesis HT : bp (-80) <= B2R dt.
Definition jmax : R := bp 67 * Q / B2R dt.
Lemma dt_one : B2R dt <= 1.
Proof. assert (X := proj2 (DR_rg pw lg g dt HF)). change (bp 10) with 1024 in X. lra. Qed.
Lemma jmax_rg : rg jmax (-133) 347.
Proof.
  unfold jmax. assert (R1 : rg (bp 67 * Q) (-133) 267) by (apply (rg_mul _ _ 67 67 (-200) 200); [split; lra|exact HQ]).
  assert (RT : rg (B2R dt) (-80) 0) by (split; [exact HT|change (bp 0) with 1; exact dt_one]).
  exact (rg_div _ _ _ _ _ _ R1 RT).
Qed.
Lemma face_dr : DR * DR >= bp (-60). Proof. destruct (DR_rg pw lg g dt HF) as (L & _). assert (P := bpow_gt_0 radix2 (-30)). change (-60)%Z with (-30 + -30)%Z. rewrite bpow_plus. apply Rle_ge. apply Rmult_le_compat; lra. Qed.
Lemma face_dz : DR * DZ >= bp (-60). Proof. destruct (DR_rg pw lg g dt HF) as (L & _). destruct (DZ_rg pw lg g dt HF) as (L' & _). assert (P := bpow_gt_0 radix2 (-30)). change (-60)%Z with (-30 + -30)%Z. rewrite bpow_plus. apply Rle_ge. apply Rmult_le_compat; lra. Qed.

Lemma over_face : forall F x c, F >= bp (-60) -> 0 <= c <= 128 -> B2R dt * F * Rabs x <= c * Q -> Rabs x <= jmax.
Proof.
  intros F x c HFA HC H. assert (PT := Rlt_le_trans _ _ _ (bpow_gt_0 radix2 (-80)) HT). assert (PQ := rg_pos _ _ _ HQ). assert (PF := bpow_gt_0 radix2 (-60)). assert (X0 := Rabs_pos x).
  unfold jmax. apply Rmult_le_reg_r with (B2R dt * bp (-60)); [apply Rmult_lt_0_compat; assumption|].
  replace (bp 67 * Q / B2R dt * (B2R dt * bp (-60))) with (bp 67 * bp (-60) * Q) by (field; lra). rewrite <- bpow_plus. change (bp (67 + -60)) with 128.
  apply Rle_trans with (B2R dt * F * Rabs x); [|apply Rle_trans with (1 := H); apply Rmult_le_compat_r; lra].
  replace (Rabs x * (B2R dt * bp (-60))) with (B2R dt * bp (-60) * Rabs x) by ring. apply Rmult_le_compat_r; [exact X0|]. apply Rmult_le_compat_l; lra.
Qed.
Lemma azimuthal_jmax : forall ro zo r z (q v : b64), midway pw lg g ro zo r z -> lim q Q -> lim v 300000001 -> Forall (fun x => lim (gval A (gj_inc A x)) jmax) (gazimuthal_single A g q v r z).
Proof.
  intros ro zo r z q v M LQ LV. refine (Forall_impl _ _ (azimuthal_lim ro zo r z q v M LQ LV)). intros x (F & B). split; [exact F|].
  assert (P := rg_pos _ _ _ (DR_rg pw lg g dt HF)). assert (PZ := rg_pos _ _ _ (DZ_rg pw lg g dt HF)). assert (PQ := rg_pos _ _ _ HQ). assert (PT := Rlt_le_trans _ _ _ (bpow_gt_0 radix2 (-80)) HT).
  apply (over_face (DR * DZ) _ 103 face_dz ltac:(lra)).
  apply Rle_trans with (B2R dt * (DR * DZ) * (4096 * 300000001 * (Q / (DR * DR * DZ)))); [apply Rmult_le_compat_l; [left; apply Rmult_lt_0_compat; [exact PT|now apply Rmult_lt_0_compat]|exact B]|].
  replace (B2R dt * (DR * DZ) * (4096 * 300000001 * (Q / (DR * DR * DZ)))) with (4096 * (300000001 * B2R dt) / DR * Q) by (field; lra). apply Rmult_le_compat_r; [lra|].
  apply Rmult_le_reg_r with DR; [exact P|]. unfold Rdiv. rewrite Rmult_assoc, Rinv_l by lra. lra.
Qed.
Lemma modest_jmax : forall (q : b64) l, Rabs (B2R q) <= Q -> modest pw lg 8 g dt q l -> Forall (fun x => lim (gval A (gj_inc A x)) jmax) l.
Proof.
  intros q l BQ. apply Forall_impl. intros x (F & B). split; [exact F|]. destruct (gj_comp A x).
  - apply (over_face (DR * DZ) _ 8 face_dz ltac:(lra)). rewrite <- Rmult_assoc. apply Rle_trans with (1 := B). lra.
  - contradiction.
  - apply (over_face (DR * DR) _ 8 face_dr ltac:(lra)). rewrite <- Rmult_assoc. apply Rle_trans with (1 := B). lra.
Qed.
End Around.

(** ** Sums *)
Section Sums.
Variables pw lg : b64 -> b64.
Notation A := (b64_arith pw lg).
Variable g : ggeom A.
Variable J : R.
Hypothesis HJ : rg J (-400) 400.
Definition jarr (a : farr) : Prop := a = JR \/ a = JPHI \/ a = JZ.
Definition filled (k : nat) (f : gmem A) : Prop := forall a i j, jarr a -> GenRun.inside A g i j = true -> lim (f (a, i, j)) (2 * INR k * J).
Definition outside_j (f f' : gmem A) : Prop := forall a i j, ~ jarr a -> f' (a, i, j) = f (a, i, j).
Definition fills (k : nat) (f f' : gmem A) : Prop := forall n, INR (n + k) <= bp 50 -> filled n f -> filled (n + k) f' /\ outside_j f f'.
Lemma outside_refl : forall f, outside_j f f. Proof. intros f a i j _. reflexivity. Qed.
Lemma outside_trans : forall f f' f'', outside_j f f' -> outside_j f' f'' -> outside_j f f''.
Proof. intros f f' f'' H K a i j N. now rewrite K, H. Qed.
Lemma filled_mono : forall n m f, (n <= m)%nat -> filled n f -> filled m f.
Proof.
  intros n m f L H a i j JA IN. apply (lim_weaken _ _ _ (H a i j JA IN)). assert (P := rg_pos _ _ _ HJ). apply Rmult_le_compat_r; [lra|]. apply le_INR in L. lra.
Qed.
Lemma fills_nil : forall f, fills 0 f f. Proof. intros f n _ H. rewrite Nat.add_0_r. split; [exact H|apply outside_refl]. Qed.
Lemma fills_app : forall k l f f' f'', fills k f f' -> fills l f' f'' -> fills (k + l) f f''.
Proof.
  intros k l f f' f'' H K n B F. rewrite Nat.add_assoc in *. destruct (H n) as (F1 & O1); [|exact F|].
  - apply Rle_trans with (2 := B). apply le_INR. lia.
  - destruct (K (n + k)%nat B F1) as (F2 & O2). split; [exact F2|]. exact (outside_trans _ _ _ O1 O2).
Qed.
Lemma fills_mono : forall k l f f', (k <= l)%nat -> fills k f f' -> fills l f f'.
Proof.
  intros k l f f' L H n B F. destruct (H n) as (F1 & O1); [|exact F|].
  - apply Rle_trans with (2 := B). apply le_INR. lia.
  - split; [|exact O1]. apply (filled_mono (n + k)); [lia|exact F1].
Qed.

Lemma sum_step : forall n (x y : b64), INR (n + 1) <= bp 50 -> lim x (2 * INR n * J) -> lim y J -> lim (b64_add x y) (2 * INR (n + 1) * J).
Proof.
  intros n x y B (FX & HX) (FY & HY). assert (P := rg_pos _ _ _ HJ). rewrite plus_INR in *. change (INR 1) with 1 in *. assert (N := pos_INR n). set (k := INR n) in *.
  assert (H : Rabs (B2R x + B2R y) <= (2 * k + 1) * J) by (apply Rle_trans with (1 := Rabs_triang _ _); lra).
  assert (U : (2 * k + 1) * J <= bp 1000).
  { apply Rle_trans with (bp 52 * bp 400); [|rewrite <- bpow_plus; apply bpow_le; lia]. apply Rmult_le_compat; [lra|lra| |apply HJ]. replace (bp 52) with (4 * bp 50) by (change 52%Z with (2 + 50)%Z; rewrite bpow_plus; reflexivity). lra. }
  destruct (add_ok x y FX FY (big_fits _ _ H U)) as (F & E). split; [exact F|]. rewrite E. assert (ER := rnd_err (B2R x + B2R y)). assert (T := tiny_scale J ltac:(apply Rle_trans with (2 := proj1 HJ); apply bpow_le; lia)).
  assert (UK : u * (2 * k + 2) <= 1) by (assert (X : u * (2 * k + 2) <= u * bp 51) by (apply Rmult_le_compat_l; [left; apply u_pos|]; replace (bp 51) with (2 * bp 50) by (change 51%Z with (1 + 50)%Z; rewrite bpow_plus; reflexivity); lra); apply Rle_trans with (1 := X); unfold u; rewrite <- bpow_plus; cbn; lra).
  assert (TI := Rabs_triang_inv (rnd (B2R x + B2R y)) (B2R x + B2R y)). assert (U0 := u_pos).
  assert (UH : u * Rabs (B2R x + B2R y) <= u * ((2 * k + 1) * J)) by (apply Rmult_le_compat_l; lra).
  assert (UJ : u * (2 * k + 2) * J <= 1 * J) by (apply Rmult_le_compat_r; lra).
  replace (u * (2 * k + 2) * J) with (u * ((2 * k + 1) * J) + u * J) in UJ by ring. assert (UP : 0 < u * J) by (now apply Rmult_lt_0_compat). lra.
Qed.

Lemma add_fills : forall c f f', lim (gval A (gj_inc A c)) J -> gadd_j A g c f = Ok f' -> fills 1 f f'.
Proof.
  intros c f f' L E n B F. unfold gadd_j in E. destruct (GenRun.inside A g _ _) eqn:IN; [|discriminate E]. injection E as <-. split.
  - intros a i j JA IJ. cbv beta. destruct (loc_eqb_spec (a, i, j) (gj_loc A c)) as [EQ|NE].
    + apply (sum_step n _ _ B); [|exact L]. rewrite <- EQ. exact (F a i j JA IJ).
    + apply (lim_weaken _ _ _ (F a i j JA IJ)). assert (P := rg_pos _ _ _ HJ). apply Rmult_le_compat_r; [lra|]. rewrite plus_INR. cbn. lra.
  - intros a i j NJ. cbv beta. destruct (loc_eqb_spec (a, i, j) (gj_loc A c)) as [EQ|NE]; [|reflexivity]. exfalso. apply NJ. unfold gj_loc in EQ. injection EQ as -> _ _. unfold jarr. destruct (gj_comp A c); auto.
Qed.
Lemma ofold_fills : forall l f f', Forall (fun x => lim (gval A (gj_inc A x)) J) l -> ofold (gadd_j A g) l f = Ok f' -> fills (length l) f f'.
Proof.
  intros l f f' F. revert f. induction F as [|c l Hc _ IH]; intros f E; [injection E as <-; apply fills_nil|]. cbn [ofold length] in *.
  destruct (gadd_j A g c f) as [f1| |] eqn:E1; try discriminate E. cbn [bind] in E. apply (fills_app 1 (length l) _ f1); [exact (add_fills c f f1 Hc E1)|exact (IH f1 E)].
Qed.
Lemma particles_fill : forall (one : gparticle A -> gmem A -> outcome (gmem A)) d (P : gparticle A -> Prop),
  (forall p f f', P p -> one p f = Ok f' -> fills d f f') -> forall ps f f', Forall P ps -> ofold one ps f = Ok f' -> fills (d * length ps) f f'.
Proof.
  intros one d P H ps f f' F. revert f. induction F as [|p ps Hp _ IH]; intros f E; [injection E as <-; cbn [length]; rewrite Nat.mul_0_r; apply fills_nil|]. cbn [ofold length] in *.
  destruct (one p f) as [f1| |] eqn:E1; try discriminate E. cbn [bind] in E. rewrite Nat.mul_succ_r, Nat.add_comm. apply (fills_app d _ _ f1); [exact (H p f f1 Hp E1)|exact (IH f1 E)].
Qed.
End Sums.

(** ** How many *)
Section Count.
Variable A : arith.
Ltac branches := repeat match goal with |- (length (if ?b then _ else _) <= _)%nat => destruct b end.
Lemma simple_count : forall g dt q rn zn ro zo i k, (length (gsimple_current A g dt q rn zn ro zo i k) <= 4)%nat.
Proof. intros. unfold gsimple_current. cbv zeta. branches; cbn [length]; lia. Qed.
Lemma axial_count : forall g dt q rn zn zo i k ko, (length (gstrict_axial A g dt q rn zn zo i k ko) <= 12)%nat.
Proof. intros. unfold gstrict_axial. cbv zeta. branches; cbn [length app]; lia. Qed.
Lemma radial_count : forall g dt q rn zn ro i k io, (length (gstrict_radial A g dt q rn zn ro i k io) <= 12)%nat.
Proof. intros. unfold gstrict_radial. cbv zeta. branches; cbn [length app]; lia. Qed.
Lemma strict_count : forall g dt q rn zn ro zo, (length (gstrict_motion A g dt q rn zn ro zo) <= 12)%nat.
Proof. intros. unfold gstrict_motion. cbv zeta. branches; try apply axial_count; try apply radial_count; cbn [length]; lia. Qed.
Lemma app3 : forall {X} (a b c : list X), (length a <= 4 -> length b <= 4 -> length c <= 4 -> length (a ++ b ++ c) <= 12)%nat.
Proof. intros X a b c. rewrite !app_length. lia. Qed.
Lemma app2 : forall {X} (a b : list X), (length a <= 4 -> length b <= 4 -> length (a ++ b) <= 12)%nat.
Proof. intros X a b. rewrite !app_length. lia. Qed.
Lemma one_count : forall g dt q rn zn ro zo i k io ko, (length (gcurrent_one_border A g dt q rn zn ro zo i k io ko) <= 12)%nat.
Proof. intros. unfold gcurrent_one_border. cbv zeta. branches; try (apply app2; apply simple_count); cbn [length]; lia. Qed.
Lemma two_count : forall g dt q rn zn ro zo i k io ko, (length (gcurrent_two_borders A g dt q rn zn ro zo i k io ko) <= 12)%nat.
Proof. intros. unfold gcurrent_two_borders. cbv zeta. branches; try (apply app3; apply simple_count); cbn [length]; lia. Qed.
Lemma current_count : forall g dt q rn zn ro zo, (length (gcurrent_single A g dt q rn zn ro zo) <= 12)%nat.
Proof.
  intros. unfold gcurrent_single. destruct (gtie_cells A (gdr A g) rn ro) as (i & io). destruct (gtie_cells A (gdz A g) zn zo) as (k & ko). cbv zeta.
  branches; [apply strict_count|apply strict_count|apply Nat.le_trans with (1 := simple_count _ _ _ _ _ _ _ _ _); lia|apply one_count|apply two_count|cbn [length]; lia].
Qed.
End Count.
