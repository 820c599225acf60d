(** The currents of moves along the axis and along the radius in binary64 are finite and bounded. *)
From Coq Require Import Reals ZArith List Bool Lia Lra Psatz.
From Flocq Require Import Core IEEE754.BinarySingleNaN.
From Verif.Lib Require Import RAux Outcome.
From Verif.Model Require Import Constants Binary64 Temperature64 Arith CurrentDeposit GenCode.
From Verif.Spec Require Import Double Deposit64 Short.
From Verif.Proof Require Import Binary64P FloatP Axis64P Motion64P Push64P Cells64P Err64P Ana64P Log64P Leg64P LegBound64P Short64P.
Import ListNotations.
Local Open Scope R_scope.

(** A computed double is exactly itself; only its size matters here. *)
Lemma good_self : forall (x : b64) lo hi, fin x -> bp lo <= B2R x <= bp hi -> good x (B2R x) (B2R x) (Sh 0 lo hi true).
Proof. intros. now apply good_exact. Qed.
Lemma good_size : forall (x : b64) M lo hi, fin x -> Rabs (B2R x) <= M -> bp lo <= M <= bp hi -> good x (B2R x) M (Sh 0 lo hi false).
Proof.
  intros x M lo hi F B R. split; [|split; [exact R|discriminate]]. cbn [s_k]. split; [exact F|]. split; [split; [lra|rewrite u_val; lra]|]. split; [exact B|].
  unfold Rminus. rewrite Rplus_opp_r, Rabs_R0. assert (0 <= M) by (apply Rle_trans with (2 := B); apply Rabs_pos). assert (U := u_pos). assert (0 <= u * M) by (apply Rmult_le_pos; lra). lra.
Qed.
Lemma good_charge : forall q : b64, fin q -> bp (-200) <= Rabs (B2R q) <= bp 200 -> good q (B2R q) (Rabs (B2R q)) (Sh 0 (-200) 200 true).
Proof.
  intros q F B. destruct (good_size q (Rabs (B2R q)) (-200) 200 F (Rle_refl _) B) as (N & R & _). split; [exact N|]. split; [exact R|]. intros _. split; [|reflexivity].
  intro Z. rewrite Z, Rabs_R0 in B. assert (P := bpow_gt_0 radix2 (-200)). lra.
Qed.
Lemma of_half : forall i s, (Z.abs i <= 2 ^ 20)%Z -> (s = 1 \/ s = 3 \/ s = -1)%Z -> forall (x : b64), fin x -> B2R x = IZR s / 2 -> fin (b64_add (b64_of_Z i) x) /\ B2R (b64_add (b64_of_Z i) x) = IZR i + IZR s / 2.
Proof.
  intros i s I S x FX EX. destruct (of_Z_exact i ltac:(lia)) as (F1 & E1). assert (B : -1048576 <= IZR i <= 1048576) by (split; apply IZR_le; lia). assert (SB : -1 <= IZR s <= 3) by (split; apply IZR_le; lia).
  destruct (add_ok (b64_of_Z i) x F1 FX) as (F & V); [rewrite E1, EX; apply Rle_trans with (bp 21); [apply Rabs_le; change (bp 21) with 2097152; lra|apply bpow_le; lia]|].
  split; [exact F|]. rewrite V, E1, EX. replace (IZR i + IZR s / 2) with (IZR (2 * i + s) * bp (-1)) by (rewrite plus_IZR, mult_IZR; cbn; lra). apply rnd_exact; lia.
Qed.
Lemma lit_3half : fin (b64_lit 3 2) /\ B2R (b64_lit 3 2) = 3 / 2.
Proof. split; [reflexivity|]. unfold b64_lit. destruct (of_Z_exact 3 eq_refl) as (F1 & E1). destruct (of_Z_exact 2 eq_refl) as (F2 & E2).
  destruct (div_ok (b64_of_Z 3) (b64_of_Z 2) F1 ltac:(rewrite E2; lra)) as (_ & E); [rewrite E1, E2; apply Rle_trans with (bp 1); [cbn; rewrite Rabs_pos_eq; lra|apply bpow_le; lia]|].
  rewrite E, E1, E2. replace (3 / 2) with (IZR 3 * bp (-1)) by (cbn; lra). rewrite rnd_exact; [cbn; lra|reflexivity|lia].
Qed.

(** the analysis succeeds *)
Definition fine_ex (S : list shape) (e : ex) : bool := match sh S e with Some _ => true | None => false end.
Lemma analysis : forall B X M S e, goods B X M S -> fine_ex S e = true -> exists s, good (eb B e) (er X e) (em M e) s.
Proof. intros B X M S e G E. unfold fine_ex in E. destruct (sh S e) as [s|] eqn:H; [|discriminate]. exists s. now apply analysed with (1 := G). Qed.

Section Strict.
Variables pw lg : b64 -> b64.
Notation A := (b64_arith pw lg).
Variables (g : ggeom A) (dt q : b64).
Hypothesis HF : fine pw lg g dt.
Hypothesis HT : bp (-200) <= B2R dt.
Hypothesis HQ : fin q /\ bp (-200) <= Rabs (B2R q) <= bp 200.
Hypothesis H1 : @B2R prec64 emax64 (gdr A g) <= 1.
Notation dr := (sdr pw lg g). Notation dz := (sdz pw lg g).
Notation DR := (B2R dr). Notation DZ := (B2R dz). Notation DT := (B2R dt). Notation Q := (B2R q). Notation AQ := (Rabs (B2R q)).
Notation PI64 := (b64_lit 7853981633974483 2500000000000000).
Notation half64 := (b64_lit 1 2).

Lemma sizes : bp (-30) <= DR <= bp 10 /\ bp (-30) <= DZ <= bp 10 /\ bp (-200) <= DT <= bp 10 /\ fin dr /\ fin dz /\ fin dt /\ 0 < DR /\ 0 < DZ /\ 0 < DT /\ 3 <= c_PI /\ 0 <= AQ.
Proof.
  assert (R := fine_dr _ _ _ _ HF). assert (Z := fine_dz _ _ _ _ HF). destruct (fine_dt _ _ _ _ HF) as (FT & PT). assert (CR := fine_cr _ _ _ _ HF). change (gdr A g) with dr in *. change (gdz A g) with dz in *.
  assert (P := bpow_gt_0 radix2 (-30)). assert (fin dr) by exact (fin_d _ _ _ (AXR pw lg g dt HF)). assert (fin dz) by exact (fin_d _ _ _ (AXZ pw lg g dt HF)). assert (AP := Rabs_pos Q). assert (3 <= c_PI) by (unfold c_PI; lra).
  repeat split; try tauto; lra.
Qed.

(** ** Along the axis *)
Section Axial.
Variables (c : Z) (r w : b64).
Hypothesis C : (0 <= c < 2 ^ 20)%Z.
Hypothesis FR : fin r.
Hypothesis BR : 9 / 20 * ((IZR c + 1) * DR) <= B2R r <= 21 / 20 * ((IZR c + 1) * DR).
Hypothesis FW : fin w.
Hypothesis BW : Rabs (B2R w) <= 11 / 10 * DZ.
Notation RR := (B2R r).
Lemma cb : 0 <= IZR c <= 1048575. Proof. split; apply IZR_le; lia. Qed.
Lemma cd : DR <= (IZR c + 1) * DR. Proof. destruct sizes as (_ & _ & _ & _ & _ & _ & P & _). assert (B := cb). rewrite <- (Rmult_1_l DR) at 1. apply Rmult_le_compat_r; lra. Qed.
Lemma r_rg : bp (-32) <= RR <= bp 31.
Proof.
  destruct sizes as ((D1 & D2) & _ & _ & _ & _ & _ & P & _). assert (B := cb). assert (L := cd). change (bp (-30)) with (bp (2 + -32)) in D1. rewrite bpow_plus in D1. change (bp 2) with 4 in D1. split; [lra|].
  assert ((IZR c + 1) * DR <= 1048576 * bp 10) by (apply Rmult_le_compat; lra). change (bp 31) with 2147483648. change (bp 10) with 1024 in *. lra.
Qed.
Definition avals : list b64 := [dr; dz; dt; q; PI64; b64_of_Z (c + 1); b64_add (b64_of_Z c) half64; r; w; b64_of_Z 2; b64_of_Z 4; half64].
Definition areals : list R := [DR; DZ; DT; Q; c_PI; IZR (c + 1); IZR c + / 2; RR; B2R w; 2; 4; / 2].
Definition amags : list R := [DR; DZ; DT; AQ; c_PI; IZR (c + 1); IZR c + / 2; RR; 11 / 10 * DZ; 2; 4; / 2].
Definition ashapes : list shape := [Sh 0 (-30) 10 true; Sh 0 (-30) 10 true; Sh 0 (-200) 10 true; Sh 0 (-200) 200 true; Sh 7 1 2 true; Sh 0 0 20 true; Sh 0 (-1) 20 true; Sh 0 (-32) 31 true; Sh 0 (-30) 11 false; Sh 0 1 1 true; Sh 0 2 2 true; Sh 0 (-1) (-1) true].
Lemma aenv : goods avals areals amags ashapes.
Proof.
  destruct sizes as (R & Z & T & F1 & F2 & F3 & P1 & P2 & P3 & _). assert (B := cb). destruct HQ as (FQ & BQ). destruct lit_half as (FH & EH).
  destruct (of_half c 1 ltac:(lia) ltac:(lia) half64 FH ltac:(rewrite EH; lra)) as (FHc & EHc).
  apply goods_cons; [now apply good_self|]. apply goods_cons; [now apply good_self|]. apply goods_cons; [now apply good_self|]. apply goods_cons; [now apply good_charge|]. apply goods_cons; [exact good_PI|].
  apply goods_cons; [apply good_Z; [lia|]; rewrite plus_IZR; change (bp 0) with 1; change (bp 20) with 1048576; lra|].
  apply goods_cons; [apply good_exact; [exact FHc|rewrite EHc; lra|]; change (bp (-1)) with (/ 2); change (bp 20) with 1048576; lra|].
  apply goods_cons; [apply good_self; [exact FR|exact r_rg]|].
  apply goods_cons; [apply good_size; [exact FW|exact BW|]; change (bp 11) with (2 * bp 10); lra|].
  apply goods_cons; [apply good_Z; [lia|]; cbn; lra|]. apply goods_cons; [apply good_Z; [lia|]; cbn; lra|].
  apply goods_cons; [apply good_exact; [exact FH|exact EH|]; cbn; lra|]. exact goods_nil.
Qed.
Definition cenv : 1 <= IZR c -> goods (b64_of_Z c :: avals) (IZR c :: areals) (IZR c :: amags) (Sh 0 0 20 true :: ashapes).
Proof. intro L. apply goods_cons; [|exact aenv]. assert (B := cb). apply good_Z; [lia|]. change (bp 0) with 1. change (bp 20) with 1048576. lra. Qed.

Section Forms.
Variable v : nat -> ex.
Let DRv := v 0%nat. Let DZv := v 1%nat. Let DTv := v 2%nat. Let Qv := v 3%nat. Let PIv := v 4%nat. Let C1v := v 5%nat. Let Hv := v 6%nat. Let Rv := v 7%nat. Let Wv := v 8%nat. Let Two := v 9%nat. Let Four := v 10%nat. Let Half := v 11%nat.
Definition f_vp : ex := Ti (Ti (Ti (Ti Two PIv) Rv) DRv) DZv.
Definition f_r1 : ex := Mi Rv (Ti Half DRv).
Definition f_r2 : ex := Ti Hv DRv.
Definition f_r3 : ex := Pl Rv (Ti Half DRv).
Definition f_low (i : ex) : ex := Ti (Di (Ti (Ti (Di Qv (Ti (Ti (Ti (Ti (Ti DTv Two) PIv) i) DRv) DRv)) PIv) (Mi (Ti f_r2 f_r2) (Ti f_r1 f_r1))) f_vp) Wv.
Definition f_low0 : ex := Ti (Di (Ti (Ti (Di Qv (Di (Ti (Ti (Ti DTv PIv) DRv) DRv) Four)) PIv) (Mi (Ti f_r2 f_r2) (Ti f_r1 f_r1))) f_vp) Wv.
Definition f_up : ex := Ti (Di (Ti (Ti (Di Qv (Ti (Ti (Ti (Ti (Ti DTv Two) PIv) C1v) DRv) DRv)) PIv) (Mi (Ti f_r3 f_r3) (Ti f_r2 f_r2))) f_vp) Wv.
End Forms.

(** the size of the difference of squares *)
Lemma squares : ((IZR c + / 2) * DR) * ((IZR c + / 2) * DR) + (RR + / 2 * DR) * (RR + / 2 * DR) <= 19 / 2 * (RR * RR).
Proof.
  destruct sizes as (_ & _ & _ & _ & _ & _ & P & _). assert (B := cb). assert (L := cd). assert (X : 0 <= (IZR c + / 2) * DR <= 20 / 9 * RR) by (split; [apply Rmult_le_pos; lra|lra]). assert (Y : 0 <= RR + / 2 * DR <= 19 / 9 * RR) by lra.
  assert (((IZR c + / 2) * DR) * ((IZR c + / 2) * DR) <= 20 / 9 * RR * (20 / 9 * RR)) by (apply Rmult_le_compat; lra).
  assert ((RR + / 2 * DR) * (RR + / 2 * DR) <= 19 / 9 * RR * (19 / 9 * RR)) by (apply Rmult_le_compat; lra). assert (0 <= RR * RR) by (apply Rmult_le_pos; lra). lra.
Qed.
Lemma squares' : ((IZR c + / 2) * DR) * ((IZR c + / 2) * DR) + (RR + / 2 * DR) * (RR + / 2 * DR) <= 10 * ((IZR c + 1) * RR * DR).
Proof.
  assert (S := squares). destruct sizes as (_ & _ & _ & _ & _ & _ & P & _). assert (L := cd). assert (RR * RR <= 21 / 20 * ((IZR c + 1) * DR) * RR) by (apply Rmult_le_compat_r; lra). assert (0 <= (IZR c + 1) * DR * RR) by (apply Rmult_le_pos; lra). lra.
Qed.
Lemma low_size : 1 <= IZR c -> DT * DR * DR * em (IZR c :: amags) (f_low (fun n => V (S n)) (V 0)) <= 39 / 5 * AQ.
Proof.
  intro L1. destruct sizes as (_ & _ & _ & _ & _ & _ & P1 & P2 & P3 & PP & PQ). assert (L := cd). assert (RP : 0 < RR) by lra. assert (S := squares'). cbn [em f_low f_r1 f_r2 f_vp nth amags].
  set (X := (IZR c + / 2) * DR * ((IZR c + / 2) * DR) + (RR + / 2 * DR) * (RR + / 2 * DR)) in *. assert (X0 : 0 <= X) by (unfold X; assert (K := Rle_0_sqr ((IZR c + / 2) * DR)); assert (K2 := Rle_0_sqr (RR + / 2 * DR)); unfold Rsqr in *; lra).
  replace (DT * DR * DR * _) with (AQ * (11 / 40 * (X / (c_PI * (IZR c * RR * DR))))) by (field; repeat split; lra).
  assert (PM : 0 < IZR c * RR * DR) by (repeat apply Rmult_lt_0_compat; lra). assert (X / (c_PI * (IZR c * RR * DR)) <= 7).
  { apply le_quot; [apply Rmult_lt_0_compat; lra|]. assert (3 * (IZR c * RR * DR) <= c_PI * (IZR c * RR * DR)) by (apply Rmult_le_compat_r; lra). assert (RR * DR <= IZR c * RR * DR) by (rewrite <- (Rmult_1_l (RR * DR)) at 1; rewrite Rmult_assoc; apply Rmult_le_compat_r; [apply Rmult_le_pos|]; lra). lra. }
  rewrite Rmult_comm. apply Rmult_le_compat_r; lra.
Qed.
Lemma low0_size : c = 0%Z -> DT * DR * DR * em amags (f_low0 V) <= 39 / 5 * AQ.
Proof.
  intro L1. destruct sizes as (_ & _ & _ & _ & _ & _ & P1 & P2 & P3 & PP & PQ). assert (L := cd). assert (RP : 0 < RR) by lra. assert (S := squares'). cbn [em f_low0 f_r1 f_r2 f_vp nth amags].
  set (X := (IZR c + / 2) * DR * ((IZR c + / 2) * DR) + (RR + / 2 * DR) * (RR + / 2 * DR)) in *. replace (DT * DR * DR * _) with (AQ * (11 / 5 * (X / (c_PI * (RR * DR))))) by (field; repeat split; lra).
  assert (PM : 0 < RR * DR) by (apply Rmult_lt_0_compat; lra). assert (X / (c_PI * (RR * DR)) <= 7 / 2).
  { apply le_quot; [apply Rmult_lt_0_compat; lra|]. assert (3 * (RR * DR) <= c_PI * (RR * DR)) by (apply Rmult_le_compat_r; lra). rewrite L1 in S. lra. }
  rewrite Rmult_comm. apply Rmult_le_compat_r; lra.
Qed.
Lemma up_size : DT * DR * DR * em amags (f_up V) <= 39 / 5 * AQ.
Proof.
  destruct sizes as (_ & _ & _ & _ & _ & _ & P1 & P2 & P3 & PP & PQ). assert (L := cd). assert (CB := cb). assert (RP : 0 < RR) by lra. assert (S := squares'). cbn [em f_up f_r3 f_r2 f_vp nth amags]. rewrite plus_IZR.
  rewrite (Rplus_comm ((RR + / 2 * DR) * _)). set (X := (IZR c + / 2) * DR * ((IZR c + / 2) * DR) + (RR + / 2 * DR) * (RR + / 2 * DR)) in *. replace (DT * DR * DR * _) with (AQ * (11 / 40 * (X / (c_PI * ((IZR c + 1) * RR * DR))))) by (field; repeat split; lra).
  assert (PM : 0 < (IZR c + 1) * RR * DR) by (repeat apply Rmult_lt_0_compat; lra). assert (X / (c_PI * ((IZR c + 1) * RR * DR)) <= 4).
  { apply le_quot; [apply Rmult_lt_0_compat; lra|]. assert (3 * ((IZR c + 1) * RR * DR) <= c_PI * ((IZR c + 1) * RR * DR)) by (apply Rmult_le_compat_r; lra). lra. }
  rewrite Rmult_comm. apply Rmult_le_compat_r; lra.
Qed.

Lemma z_value : forall x X M s i k, good x X M s -> DT * DR * DR * M <= 39 / 5 * AQ -> modest_value pw lg 8 g dt q (gj_z A i k x).
Proof.
  intros x X M s i k G B. destruct sizes as (_ & _ & _ & _ & _ & _ & P1 & P2 & P3 & PP & PQ). destruct (near_size _ _ _ _ G) as (F & _). split; [exact F|]. cbn [gj_z gj_comp gj_inc gval].
  assert (K := size_scaled _ _ _ _ (DT * DR * DR) _ G ltac:(repeat apply Rmult_le_pos; lra) B). change (@B2R prec64 emax64 (gdr A g)) with DR. lra.
Qed.
Definition low : b64 := if (c =? 0)%Z then eb avals (f_low0 V) else eb (b64_of_Z c :: avals) (f_low (fun n => V (S n)) (V 0)).
Lemma low_modest : forall i k, modest_value pw lg 8 g dt q (gj_z A i k low).
Proof.
  intros i k. unfold low. destruct (Z.eqb_spec c 0) as [E|E].
  - destruct (analysis _ _ _ _ (f_low0 V) aenv) as (s & G); [vm_cast_no_check (eq_refl true)|]. exact (z_value _ _ _ _ i k G (low0_size E)).
  - assert (L : 1 <= IZR c) by (apply IZR_le; lia). destruct (analysis _ _ _ _ (f_low (fun n => V (S n)) (V 0)) (cenv L)) as (s & G); [vm_cast_no_check (eq_refl true)|]. exact (z_value _ _ _ _ i k G (low_size L)).
Qed.
Lemma up_modest : forall i k, modest_value pw lg 8 g dt q (gj_z A i k (eb avals (f_up V))).
Proof. intros i k. destruct (analysis _ _ _ _ (f_up V) aenv) as (s & G); [vm_cast_no_check (eq_refl true)|]. exact (z_value _ _ _ _ i k G up_size). Qed.
End Axial.

Lemma zero_value : forall i k, modest_value pw lg 8 g dt q (gj_r A i k (of_int A 0)).
Proof.
  intros i k. destruct sizes as (_ & _ & _ & _ & _ & _ & P1 & P2 & P3 & PP & PQ). destruct (of_Z_exact 0 eq_refl) as (F & E). split; [exact F|]. cbn [gj_r gj_comp gj_inc gval]. change (of_int A 0) with (b64_of_Z 0). rewrite E, Rabs_R0. lra.
Qed.
Theorem axial_modest : forall r zn zo c kn ko, (0 <= c < 2 ^ 20)%Z -> fin r -> 9 / 20 * ((IZR c + 1) * DR) <= B2R r <= 21 / 20 * ((IZR c + 1) * DR) ->
  (fin (b64_sub zn zo) /\ Rabs (B2R (b64_sub zn zo)) <= 11 / 10 * DZ) ->
  (kn = (ko + 1)%Z -> forall z, (z = zn \/ z = zo) -> (fin (b64_sub (border dz kn) z) /\ Rabs (B2R (b64_sub (border dz kn) z)) <= 11 / 10 * DZ) /\ (fin (b64_sub z (border dz kn)) /\ Rabs (B2R (b64_sub z (border dz kn))) <= 11 / 10 * DZ)) ->
  (kn = (ko - 1)%Z -> forall z, (z = zn \/ z = zo) -> (fin (b64_sub (border dz (kn + 1)) z) /\ Rabs (B2R (b64_sub (border dz (kn + 1)) z)) <= 11 / 10 * DZ) /\ (fin (b64_sub z (border dz (kn + 1))) /\ Rabs (B2R (b64_sub z (border dz (kn + 1)))) <= 11 / 10 * DZ)) ->
  modest pw lg 8 g dt q (gstrict_axial A g dt q r zn zo c kn ko).
Proof.
  intros r zn zo c kn ko C FR BR D0 DU DD. unfold gstrict_axial. cbv zeta.
  assert (Z0 := zero_value c kn). assert (Z1 := zero_value c (kn + 1)).
  assert (LM : forall w, fin w -> Rabs (B2R w) <= 11 / 10 * DZ -> forall i k, modest_value pw lg 8 g dt q (gj_z A i k (low c r w))) by (intros; apply low_modest; assumption).
  assert (UM : forall w, fin w -> Rabs (B2R w) <= 11 / 10 * DZ -> forall i k, modest_value pw lg 8 g dt q (gj_z A i k (eb (avals c r w) (f_up V)))) by (intros; apply up_modest; assumption).
  unfold low in LM. destruct (c =? 0)%Z.
  all: cbn [eb f_low f_low0 f_up f_r1 f_r2 f_r3 f_vp nth avals] in LM, UM.
  all: destruct (Z.eqb_spec (kn - ko) 0) as [E0|E0]; [|destruct (Z.eqb_spec (kn - ko) 1) as [E1|E1]; [|destruct (Z.eqb_spec (kn - ko) (-1)) as [E2|E2]]].
  - destruct D0 as (FW & BW). exact (Forall_cons _ Z0 (Forall_cons _ Z1 (Forall_cons _ (LM _ FW BW _ _) (Forall_cons _ (UM _ FW BW _ _) (Forall_nil _))))).
  - assert (DU1 := proj1 (DU ltac:(lia) zo ltac:(auto))). assert (DU2 := proj2 (DU ltac:(lia) zn ltac:(auto))).
    exact (Forall_cons _ Z0 (Forall_cons _ Z1 (Forall_cons _ (LM _ (proj1 DU1) (proj2 DU1) _ _) (Forall_cons _ (UM _ (proj1 DU1) (proj2 DU1) _ _) (Forall_cons _ (LM _ (proj1 DU2) (proj2 DU2) _ _) (Forall_cons _ (UM _ (proj1 DU2) (proj2 DU2) _ _) (Forall_nil _))))))).
  - assert (DU1 := proj1 (DD ltac:(lia) zo ltac:(auto))). assert (DU2 := proj2 (DD ltac:(lia) zn ltac:(auto))).
    exact (Forall_cons _ Z0 (Forall_cons _ Z1 (Forall_cons _ (LM _ (proj1 DU1) (proj2 DU1) _ _) (Forall_cons _ (UM _ (proj1 DU1) (proj2 DU1) _ _) (Forall_cons _ (LM _ (proj1 DU2) (proj2 DU2) _ _) (Forall_cons _ (UM _ (proj1 DU2) (proj2 DU2) _ _) (Forall_nil _))))))).
  - exact (Forall_cons _ Z0 (Forall_cons _ Z1 (Forall_nil _))).
  - destruct D0 as (FW & BW). exact (Forall_cons _ Z0 (Forall_cons _ Z1 (Forall_cons _ (LM _ FW BW _ _) (Forall_cons _ (UM _ FW BW _ _) (Forall_nil _))))).
  - assert (DU1 := proj1 (DU ltac:(lia) zo ltac:(auto))). assert (DU2 := proj2 (DU ltac:(lia) zn ltac:(auto))).
    exact (Forall_cons _ Z0 (Forall_cons _ Z1 (Forall_cons _ (LM _ (proj1 DU1) (proj2 DU1) _ _) (Forall_cons _ (UM _ (proj1 DU1) (proj2 DU1) _ _) (Forall_cons _ (LM _ (proj1 DU2) (proj2 DU2) _ _) (Forall_cons _ (UM _ (proj1 DU2) (proj2 DU2) _ _) (Forall_nil _))))))).
  - assert (DU1 := proj1 (DD ltac:(lia) zo ltac:(auto))). assert (DU2 := proj2 (DD ltac:(lia) zn ltac:(auto))).
    exact (Forall_cons _ Z0 (Forall_cons _ Z1 (Forall_cons _ (LM _ (proj1 DU1) (proj2 DU1) _ _) (Forall_cons _ (UM _ (proj1 DU1) (proj2 DU1) _ _) (Forall_cons _ (LM _ (proj1 DU2) (proj2 DU2) _ _) (Forall_cons _ (UM _ (proj1 DU2) (proj2 DU2) _ _) (Forall_nil _))))))).
  - exact (Forall_cons _ Z0 (Forall_cons _ Z1 (Forall_nil _))).
Qed.

(** *** along the radius *)
Section Radial.
Variables (m mm : Z) (h o S' e w : b64).
Hypothesis HM : (0 <= m < 2 ^ 20)%Z.
Hypothesis HMM : (1 <= mm <= 2 ^ 20)%Z.
Hypothesis HMN : (m <= mm)%Z.
Hypothesis FH : fin h. Hypothesis EH : B2R h = IZR m + / 2.
Hypothesis FO : fin o. Hypothesis BO : 9 / 20 * ((IZR m + 1) * DR) <= B2R o <= 21 / 20 * ((IZR m + 1) * DR).
Hypothesis FS : fin S'. Hypothesis BS : 9 / 20 * ((IZR m + 1) * DR) <= B2R S' <= 21 / 20 * ((IZR m + 1) * DR).
Hypothesis FE : fin e. Hypothesis BE : Rabs (B2R e) <= DR.
Hypothesis FW : fin w. Hypothesis BW : Rabs (B2R w) <= 11 / 10 * DZ.
Lemma mb : 0 <= IZR m <= 1048575. Proof. split; apply IZR_le; lia. Qed.
Lemma mmb : 1 <= IZR mm <= 1048576 /\ IZR m <= IZR mm. Proof. repeat split; apply IZR_le; lia. Qed.
Lemma rad_rg : forall x : b64, 9 / 20 * ((IZR m + 1) * DR) <= B2R x <= 21 / 20 * ((IZR m + 1) * DR) -> bp (-32) <= B2R x <= bp 31.
Proof.
  intros x X. destruct sizes as ((D1 & D2) & _ & _ & _ & _ & _ & P & _). assert (B := mb). assert (L : DR <= (IZR m + 1) * DR) by (rewrite <- (Rmult_1_l DR) at 1; apply Rmult_le_compat_r; lra).
  change (bp (-30)) with (bp (2 + -32)) in D1. rewrite bpow_plus in D1. change (bp 2) with 4 in D1. split; [lra|].
  assert ((IZR m + 1) * DR <= 1048576 * bp 10) by (apply Rmult_le_compat; lra). change (bp 31) with 2147483648. change (bp 10) with 1024 in *. lra.
Qed.
Definition rvals : list b64 := [dr; dz; dt; q; PI64; h; o; S'; e; w; b64_of_Z 4; b64_of_Z mm].
Definition rreals : list R := [DR; DZ; DT; Q; c_PI; IZR m + / 2; B2R o; B2R S'; B2R e; B2R w; 4; IZR mm].
Definition rmags : list R := [DR; DZ; DT; AQ; c_PI; IZR m + / 2; B2R o; B2R S'; DR; 11 / 10 * DZ; 4; IZR mm].
Definition rshapes : list shape := [Sh 0 (-30) 10 true; Sh 0 (-30) 10 true; Sh 0 (-200) 10 true; Sh 0 (-200) 200 true; Sh 7 1 2 true; Sh 0 (-1) 20 true; Sh 0 (-32) 31 true; Sh 0 (-32) 31 true; Sh 0 (-30) 10 false; Sh 0 (-30) 11 false; Sh 0 2 2 true; Sh 0 0 20 true].
Lemma renv : goods rvals rreals rmags rshapes.
Proof.
  destruct sizes as (R & Z & T & F1 & F2 & F3 & P1 & P2 & P3 & _). assert (B := mb). destruct mmb as (B2 & B3). destruct HQ as (FQ & BQ).
  apply goods_cons; [now apply good_self|]. apply goods_cons; [now apply good_self|]. apply goods_cons; [now apply good_self|]. apply goods_cons; [now apply good_charge|]. apply goods_cons; [exact good_PI|].
  apply goods_cons; [apply good_exact; [exact FH|exact EH|]; change (bp (-1)) with (/ 2); change (bp 20) with 1048576; lra|].
  apply goods_cons; [apply good_self; [exact FO|exact (rad_rg _ BO)]|]. apply goods_cons; [apply good_self; [exact FS|exact (rad_rg _ BS)]|].
  apply goods_cons; [apply good_size; [exact FE|exact BE|exact R]|].
  apply goods_cons; [apply good_size; [exact FW|exact BW|]; change (bp 11) with (2 * bp 10); lra|].
  apply goods_cons; [apply good_Z; [lia|]; cbn; lra|]. apply goods_cons; [apply good_Z; [lia|]; change (bp 0) with 1; change (bp 20) with 1048576; lra|]. exact goods_nil.
Qed.
Definition f_r0 : ex := Ti (V 5) (V 0).
Definition f_dens : ex := Di (V 3) (Ti (Ti (Ti (Ti (Ti (Ti (V 4) (V 10)) f_r0) (V 1)) (V 1)) (V 0)) (V 2)).
Definition f_leg : ex := Mi (Pl (Pl (Mi (V 8) (Di (Ti f_r0 f_r0) (V 7))) (Di (Ti f_r0 f_r0) (V 6))) (Di (Ti (V 0) (V 0)) (Ti (V 10) (V 7)))) (Di (Ti (V 0) (V 0)) (Ti (V 10) (V 6))).
Definition f_leg2 : ex := Mi (Pl (Pl (Mi (V 8) (Di (Ti f_r0 f_r0) (V 7))) (Ti (Di (Ti f_r0 f_r0) (V 11)) (V 0))) (Di (Ti (V 0) (V 0)) (Ti (V 10) (V 7)))) (Di (Ti (V 0) (V 0)) (Ti (Ti (V 10) (V 11)) (V 0))).
Definition f_rad (l : ex) : ex := Ti (Ti f_dens l) (V 9).
Lemma r_value : forall x X M s i k, good x X M s -> DT * DR * DZ * M <= 39 / 5 * AQ -> modest_value pw lg 8 g dt q (gj_r A i k x).
Proof.
  intros x X M s i k G B. destruct sizes as (_ & _ & _ & _ & _ & _ & P1 & P2 & P3 & PP & PQ). destruct (near_size _ _ _ _ G) as (F & _). split; [exact F|]. cbn [gj_r gj_comp gj_inc gval].
  assert (K := size_scaled _ _ _ _ (DT * DR * DZ) _ G ltac:(repeat apply Rmult_le_pos; lra) B). change (@B2R prec64 emax64 (gdr A g)) with DR. change (@B2R prec64 emax64 (gdz A g)) with DZ. lra.
Qed.
Notation R0 := ((IZR m + / 2) * DR).
Lemma r0_facts : 0 < R0 /\ DR <= 2 * R0 /\ R0 <= (IZR m + 1) * DR /\ DR <= (IZR m + 1) * DR.
Proof. destruct sizes as (_ & _ & _ & _ & _ & _ & P1 & _). assert (B := mb). assert (0 <= IZR m * DR) by (apply Rmult_le_pos; lra). repeat split; lra. Qed.
Lemma over_r0 : forall x : b64, 9 / 20 * ((IZR m + 1) * DR) <= B2R x -> R0 * R0 / B2R x <= 20 / 9 * R0 /\ DR * DR / (4 * B2R x) <= 10 / 9 * R0.
Proof.
  intros x X. destruct sizes as (_ & _ & _ & _ & _ & _ & P1 & _). destruct r0_facts as (P & D1 & D2 & D3). split; (apply le_quot; [lra|]).
  - apply Rle_trans with (R0 * (20 / 9 * B2R x)); [apply Rmult_le_compat_l; lra|lra].
  - apply Rle_trans with (10 / 9 * R0 * (9 / 5 * DR)); [|apply Rmult_le_compat_l; lra]. assert (DR * DR <= 2 * R0 * DR) by (apply Rmult_le_compat_r; lra). lra.
Qed.
Lemma rad_size : forall l, 0 <= em rmags l <= 10 * R0 -> DT * DR * DZ * em rmags (f_rad l) <= 39 / 5 * AQ.
Proof.
  intros l (L0 & L1). destruct sizes as (_ & _ & _ & _ & _ & _ & P1 & P2 & P3 & PP & PQ). destruct r0_facts as (P & D1 & D2 & D3). assert (MB := mb). cbn [em f_rad f_dens f_r0 nth rmags]. fold rmags. set (L := em rmags l) in *.
  replace (DT * DR * DZ * _) with (AQ * (11 / 40 * (L / (c_PI * R0)))) by (field; repeat split; lra).
  assert (L / (c_PI * R0) <= 10 / 3). { apply le_quot; [apply Rmult_lt_0_compat; lra|]. assert (3 * R0 <= c_PI * R0) by (apply Rmult_le_compat_r; lra). lra. }
  rewrite Rmult_comm. apply Rmult_le_compat_r; lra.
Qed.
Lemma leg_size : 0 <= em rmags f_leg <= 10 * R0.
Proof.
  destruct sizes as (_ & _ & _ & _ & _ & _ & P1 & _). destruct r0_facts as (P & D1 & D2 & D3). destruct (over_r0 S' (proj1 BS)) as (A1 & A2). destruct (over_r0 o (proj1 BO)) as (A3 & A4). cbn [em f_leg f_r0 nth rmags].
  assert (PS : 0 < B2R S') by lra. assert (PO : 0 < B2R o) by lra. assert (0 <= R0 * R0) by (apply Rmult_le_pos; lra). assert (0 <= DR * DR) by (apply Rmult_le_pos; lra).
  assert (0 <= R0 * R0 / B2R S') by (apply Rmult_le_pos; [lra|left; apply Rinv_0_lt_compat; lra]). assert (0 <= R0 * R0 / B2R o) by (apply Rmult_le_pos; [lra|left; apply Rinv_0_lt_compat; lra]).
  assert (0 <= DR * DR / (4 * B2R S')) by (apply Rmult_le_pos; [lra|left; apply Rinv_0_lt_compat; lra]). assert (0 <= DR * DR / (4 * B2R o)) by (apply Rmult_le_pos; [lra|left; apply Rinv_0_lt_compat; lra]). lra.
Qed.
Lemma leg2_size : 0 <= em rmags f_leg2 <= 10 * R0.
Proof.
  destruct sizes as (_ & _ & _ & _ & _ & _ & P1 & _). destruct r0_facts as (P & D1 & D2 & D3). destruct (over_r0 S' (proj1 BS)) as (A1 & A2). destruct mmb as (M1 & M2). assert (M0 := mb). cbn [em f_leg2 f_r0 nth rmags]. change (gdr A g) with dr in H1.
  assert (PS : 0 < B2R S') by lra. assert (0 <= R0 * R0) by (apply Rmult_le_pos; lra). assert (0 <= DR * DR) by (apply Rmult_le_pos; lra).
  assert (0 <= R0 * R0 / B2R S') by (apply Rmult_le_pos; [lra|left; apply Rinv_0_lt_compat; lra]).
  assert (0 <= DR * DR / (4 * B2R S')) by (apply Rmult_le_pos; [lra|left; apply Rinv_0_lt_compat; lra]).
  assert (N3 : 0 <= R0 * R0 / IZR mm) by (apply Rmult_le_pos; [lra|left; apply Rinv_0_lt_compat; lra]).
  assert (B3 : R0 * R0 / IZR mm <= 3 / 2 * R0). { apply le_quot; [lra|]. assert (R0 * R0 <= R0 * (IZR m + / 2)) by (apply Rmult_le_compat_l; [lra|]; rewrite <- (Rmult_1_r (IZR m + / 2)) at 2; apply Rmult_le_compat_l; lra). assert (R0 * (IZR m + / 2) <= R0 * (3 / 2 * IZR mm)) by (apply Rmult_le_compat_l; lra). lra. }
  assert (B4 : R0 * R0 / IZR mm * DR <= 3 / 2 * R0) by (apply Rle_trans with (R0 * R0 / IZR mm * 1); [apply Rmult_le_compat_l|]; lra). assert (0 <= R0 * R0 / IZR mm * DR) by (apply Rmult_le_pos; lra).
  assert (PM : 0 < 4 * IZR mm * DR) by (apply Rmult_lt_0_compat; lra). assert (0 <= DR * DR / (4 * IZR mm * DR)) by (apply Rmult_le_pos; [lra|left; apply Rinv_0_lt_compat; lra]).
  assert (B5 : DR * DR / (4 * IZR mm * DR) <= R0). { apply le_quot; [lra|]. assert (R0 * (2 * DR) <= R0 * (4 * IZR mm * DR)) by (apply Rmult_le_compat_l; [lra|]; apply Rmult_le_compat_r; lra). assert (DR * DR <= 2 * R0 * DR) by (apply Rmult_le_compat_r; lra). lra. }
  lra.
Qed.
Lemma leg_modest : forall i k, modest_value pw lg 8 g dt q (gj_r A i k (eb rvals (f_rad f_leg))).
Proof. intros i k. destruct (analysis _ _ _ _ (f_rad f_leg) renv) as (s & G); [vm_cast_no_check (eq_refl true)|]. exact (r_value _ _ _ _ i k G (rad_size _ leg_size)). Qed.
Lemma leg2_modest : forall i k, modest_value pw lg 8 g dt q (gj_r A i k (eb rvals (f_rad f_leg2))).
Proof. intros i k. destruct (analysis _ _ _ _ (f_rad f_leg2) renv) as (s & G); [vm_cast_no_check (eq_refl true)|]. exact (r_value _ _ _ _ i k G (rad_size _ leg2_size)). Qed.
End Radial.
End Strict.
