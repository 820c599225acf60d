(** The density of a whole species in binary64: the additions of the array included. *)
From Coq Require Import Reals ZArith List Bool Lia Lra Psatz.
From Flocq Require Import Core IEEE754.BinarySingleNaN Plus_error Relative.
From Verif.Lib Require Import RAux Grid Outcome.
From Verif.Model Require GenRun.
From Verif.Model Require Import Constants Binary64 Temperature64 Arith GenCode GenSim.
From Verif.Spec Require Import Cloud Double Charge64.
From Verif.Proof Require Import ChargeP ChargeP2 Binary64P FloatP Axis64P Err64P GenIndexP Charge64P.
Import ListNotations.
Local Open Scope R_scope.

(** ** Sums *)
Lemma rnd_plus : forall a b : b64, Rabs (rnd (B2R a + B2R b) - (B2R a + B2R b)) <= u * Rabs (B2R a + B2R b).
Proof.
  intros a b. destruct (FLT_plus_error_N_ex radix2 (-1074) 53 (fun z => negb (Z.even z)) (B2R a) (B2R b)) as (eps & E1 & E2);
    [exact (generic_format_B2R prec64 emax64 a)|exact (generic_format_B2R prec64 emax64 b)|].
  change (round radix2 (FLT_exp (-1074) 53) ZnearestE (B2R a + B2R b) = (B2R a + B2R b) * (1 + eps)) in E2. change (rnd (B2R a + B2R b)) with (round radix2 (FLT_exp (-1074) 53) ZnearestE (B2R a + B2R b)). rewrite E2. clear E2. set (s := B2R a + B2R b) in *. replace (s * (1 + eps) - s) with (eps * s) by ring. rewrite Rabs_mult.
  apply Rmult_le_compat_r; [apply Rabs_pos|]. apply Rle_trans with (1 := E1). assert (U : u_ro radix2 53 = u) by (unfold u_ro; rewrite u_val; cbn; lra). rewrite U. assert (P := u_pos).
  apply Rmult_le_reg_r with (1 + u); [lra|]. unfold Rdiv. rewrite Rmult_assoc, Rinv_l by lra. nra.
Qed.
Definition close (a : b64) (s : R) (n : nat) (M : R) : Prop := fin a /\ Rabs s <= M /\ Rabs (B2R a - s) <= 2 * INR n * u * M.
Definition many (n : nat) : Prop := INR n <= bp 45.
Lemma close_add : forall a s n M v, close a s n M -> fin v -> many (S n) -> M + Rabs (B2R v) <= bp 990 -> close (b64_add a v) (s + B2R v) (S n) (M + Rabs (B2R v)).
Proof.
  intros a s n M v (Fa & HS & HE) Fv HN HM. assert (U := u_pos). assert (N0 := pos_INR n). unfold many in HN. rewrite S_INR in *. assert (PV := Rabs_pos (B2R v)). assert (PS := Rabs_pos s).
  assert (NU : 2 * INR n * u <= / 16). { rewrite u_val. change (bp 45) with 35184372088832 in HN. lra. }
  assert (E0 : 0 <= 2 * INR n * u) by (apply Rmult_le_pos; lra).
  assert (A1 : Rabs (B2R a + B2R v - (s + B2R v)) <= 2 * INR n * u * M) by (replace (B2R a + B2R v - (s + B2R v)) with (B2R a - s) by ring; exact HE).
  assert (A2 : Rabs (s + B2R v) <= M + Rabs (B2R v)) by (apply Rle_trans with (1 := Rabs_triang _ _); lra).
  assert (A3 : 2 * INR n * u * M <= 2 * INR n * u * (M + Rabs (B2R v))) by (apply Rmult_le_compat_l; lra).
  assert (A4 : 2 * INR n * u * (M + Rabs (B2R v)) <= / 16 * (M + Rabs (B2R v))) by (apply Rmult_le_compat_r; lra).
  assert (A5 : Rabs (B2R a + B2R v) <= 17 / 16 * (M + Rabs (B2R v))). { assert (T := Rabs_triang_inv (B2R a + B2R v) (s + B2R v)). lra. }
  destruct (add_ok a v Fa Fv) as (F & E). { apply Rle_trans with (1 := A5). apply Rle_trans with (2 * bp 990); [lra|]. replace (2 * bp 990) with (bp 991) by (change 991%Z with (990 + 1)%Z; rewrite bp_succ; reflexivity). apply bpow_le. lia. }
  split; [exact F|]. split; [exact A2|]. rewrite E. assert (R := rnd_plus a v).
  replace (rnd (B2R a + B2R v) - (s + B2R v)) with ((rnd (B2R a + B2R v) - (B2R a + B2R v)) + (B2R a + B2R v - (s + B2R v))) by ring. apply Rle_trans with (1 := Rabs_triang _ _).
  assert (R2 : u * Rabs (B2R a + B2R v) <= u * (17 / 16 * (M + Rabs (B2R v)))) by (apply Rmult_le_compat_l; lra).
  assert (UM : 0 <= u * (M + Rabs (B2R v))) by (apply Rmult_le_pos; lra).
  rewrite S_INR. replace (2 * (INR n + 1) * u * (M + Rabs (B2R v))) with (2 * INR n * u * (M + Rabs (B2R v)) + 2 * (u * (M + Rabs (B2R v)))) by ring.
  replace (u * (17 / 16 * (M + Rabs (B2R v)))) with (17 / 16 * (u * (M + Rabs (B2R v)))) in R2 by ring. lra.
Qed.
Lemma close_weaken : forall a s n M n' M', close a s n M -> (n <= n')%nat -> M <= M' -> close a s n' M'.
Proof.
  intros a s n M n' M' (F & HS & HE) HN HM. assert (U := u_pos). split; [exact F|]. split; [lra|]. apply Rle_trans with (1 := HE). apply le_INR in HN. assert (N0 := pos_INR n). assert (PS := Rabs_pos s).
  apply Rmult_le_compat; try lra; [repeat apply Rmult_le_pos; lra|]. apply Rmult_le_compat_r; lra.
Qed.

Section Species.
Variables pw lg : b64 -> b64.
Notation A := (b64_arith pw lg).
Variable g : ggeom A.
Variable dt : b64.
Hypothesis HF : fine pw lg g dt.
Notation DR := (B2R (gdr A g : b64)). Notation DZ := (B2R (gdz A g : b64)).

(** the sum of the absolute values handed to one element *)
Definition acounted (l : list (ginc A)) (i k : Z) : R :=
  fold_right (fun x s => (if ((grow A x =? i) && (gcol A x =? k))%Z then Rabs (B2R (gval A x : b64)) else 0) + s) 0 l.
Lemma acounted_pos : forall l i k, 0 <= acounted l i k.
Proof. induction l as [|a l IH]; intros i k; cbn [acounted fold_right]; [lra|]. specialize (IH i k). unfold acounted in IH. destruct ((grow A a =? i)%Z && (gcol A a =? k)%Z); [assert (P := Rabs_pos (B2R (gval A a : b64)))|]; lra. Qed.

Lemma add_rho_close : forall l rho, Forall (rin A g) l -> finite_values pw lg l -> exists rho', ofold (gadd_rho A g) l rho = Ok rho' /\
  forall i k s n M, close (rho i k) s n M -> many (n + length l) -> M + acounted l i k <= bp 990 -> close (rho' i k) (s + counted pw lg l i k) (n + length l) (M + acounted l i k).
Proof.
  induction l as [|a l IH]; intros rho HI HV.
  - exists rho. split; [reflexivity|]. intros i k s n M HC _ _. cbn [counted acounted fold_right length]. rewrite Nat.add_0_r, !Rplus_0_r. exact HC.
  - inversion HI as [|? ? I1 I2]; subst. inversion HV as [|? ? V1 V2]; subst. cbn [ofold]. unfold gadd_rho at 1. unfold rin in I1. rewrite I1. cbn [bind].
    destruct (IH (fun i k => if ((i =? grow A a) && (k =? gcol A a))%Z then add A (rho (grow A a) (gcol A a)) (gval A a) else rho i k) I2 V2) as (rho' & E & H).
    exists rho'. split; [exact E|]. intros i k s n M HC HN HM. cbn [length] in *. rewrite Nat.add_succ_r in *. cbn [counted acounted fold_right] in *.
    assert (AP := acounted_pos l i k). unfold acounted in AP, H. unfold counted in H. assert (PV := Rabs_pos (B2R (gval A a : b64))).
    assert (N1 : many (S n)). { unfold many in *. apply Rle_trans with (2 := HN). apply le_INR. lia. }
    specialize (H i k). cbv beta in H. rewrite (Z.eqb_sym i), (Z.eqb_sym k) in H. destruct ((grow A a =? i)%Z && (gcol A a =? k)%Z) eqn:EQ.
    + apply andb_true_iff in EQ. destruct EQ as (Q1 & Q2). apply Z.eqb_eq in Q1, Q2. subst i k.
      assert (K := H (s + B2R (gval A a : b64)) (S n) (M + Rabs (B2R (gval A a : b64))) (close_add _ _ _ _ _ HC V1 N1 ltac:(lra)) HN ltac:(lra)).
      rewrite Rplus_assoc in K. rewrite (Rplus_assoc M) in K. exact K.
    + rewrite !Rplus_0_l in *. assert (K := H s (S n) M (close_weaken _ _ _ _ (S n) M HC ltac:(lia) ltac:(lra)) HN HM). exact K.
Qed.

(** ** One particle *)
Section One.
Variables q r z : b64.
Hypothesis HP : placed pw lg g q r z.
Hypothesis HR : DR / 2 <= B2R r.
Notation l := (gcharge_weighting_single A g q r z).
Lemma four_inside : Forall (rin A g) l /\ length l = 4%nat.
Proof.
  destruct (four_values pw lg g dt q r z HF HP) as (v00 & v10 & v01 & v11 & h0 & h1 & E & _). rewrite E. destruct (cell_c pw lg g dt q r z HF HP) as (C & _). destruct (cell_k pw lg g dt q r z HF HP) as (K & _).
  split; [|reflexivity]. assert (IN : forall i k v, (0 <= i < gn_r A g)%Z -> (0 <= k < gn_z A g)%Z -> rin A g (GInc A i k v)).
  { intros i k v Hi Hk. unfold rin, GenRun.inside. cbn [grow gcol]. apply andb_true_iff; split; [apply andb_true_iff; split; [apply andb_true_iff; split|]|]; rewrite ?Z.leb_le, ?Z.ltb_lt; lia. }
  apply Forall_cons; [apply IN; lia|]. apply Forall_cons; [apply IN; lia|]. apply Forall_cons; [apply IN; lia|]. apply Forall_cons; [apply IN; lia|]. apply Forall_nil.
Qed.
Lemma acounted_abs : forall i k, acounted l i k = Rabs (counted pw lg l i k).
Proof.
  intros i k. destruct (four_values pw lg g dt q r z HF HP) as (v00 & v10 & v01 & v11 & h0 & h1 & E & _). rewrite E. set (c := gcell A r (gdr A g)). set (kk := gcell A z (gdz A g)). unfold acounted, counted. cbn [fold_right grow gcol gval].
  destruct (Z.eqb_spec c i), (Z.eqb_spec (c + 1) i), (Z.eqb_spec kk k), (Z.eqb_spec (kk + 1) k); try lia; cbn [andb]; rewrite ?Rplus_0_l, ?Rplus_0_r, ?Rabs_R0; reflexivity.
Qed.
Lemma share_bound : forall i k, Rabs (share DR DZ i k (B2R r) (B2R z)) <= 9 / 4.
Proof.
  intros i j. destruct (cell_c pw lg g dt q r z HF HP) as (C & OC & EC). destruct (cell_k pw lg g dt q r z HF HP) as (K & OK & EK). destruct (xb pw lg g dt q r z HF HP) as (XB & _). destruct (yb pw lg g dt q r z HF HP) as (YB & _). assert (U := u_pos).
  set (c := gcell A r (gdr A g)) in *. set (k := gcell A z (gdz A g)) in *. set (x := Charge64P.x pw lg g r) in *. set (y := Charge64P.y pw lg g z) in *.
  assert (X0 : 0 <= u * (x + 1)) by (apply Rmult_le_pos; lra). assert (Y0 : 0 <= u * (y + 1)) by (apply Rmult_le_pos; lra). assert (PD := DRp pw lg g dt HF). assert (PZ0 := DZp pw lg g dt HF).
  assert (BR := fr_bounds DR c (B2R r) (2 * u * (x + 1)) PD ltac:(lia) ltac:(split; lra) HR OC). assert (BZ := fz_bounds DZ k (B2R z) (2 * u * (y + 1)) PZ0 ltac:(lra) OK). destruct BR as (BR1 & BR2 & _). destruct BZ as (BZ1 & BZ2 & _).
  assert (SR := share_r_over DR c (B2R r) (2 * u * (x + 1)) i PD ltac:(lia) ltac:(split; lra) HR OC). assert (SZ := share_z_over DZ k (B2R z) (2 * u * (y + 1)) j PZ0 ltac:(split; lra) OK).
  assert (PR := pick_2 _ _ (2 * u * (x + 1)) c i ltac:(split; lra) BR1 BR2). assert (PZ := pick_2 _ _ (2 * u * (y + 1)) k j ltac:(split; lra) BZ1 BZ2).
  unfold share. rewrite Rabs_mult. set (sr := share_r _ _ _) in *. set (sz := share_z _ _ _) in *. set (FR := pick _ _ c i) in *. set (FZ := pick _ _ k j) in *.
  assert (T1 := Rabs_triang_inv sr FR). rewrite Rabs_minus_sym in T1. assert (T2 := Rabs_triang_inv sz FZ). rewrite Rabs_minus_sym in T2.
  replace (9 / 4) with (3 / 2 * (3 / 2)) by field. apply Rmult_le_compat; try apply Rabs_pos; lra.
Qed.
Lemma V_pos : forall i, (0 <= i <= gn_r A g - 1)%Z -> bp (-100) <= node_volume DR DZ i.
Proof.
  intros i Hi. destruct (ax_n _ _ _ (AR pw lg g dt HF)) as (_ & NR). destruct (Z.eq_dec i 0) as [->|N].
  - exact (proj1 (proj2 (vol_0 pw lg g dt HF))).
  - exact (proj1 (proj2 (vol_pos pw lg g dt HF i ltac:(lia)))).
Qed.
Lemma one_share : forall i k, Rabs (counted pw lg l i k * node_volume DR DZ i - B2R q * share DR DZ i k (B2R r) (B2R z)) <= bpow radix2 (-46) * (B2R r / DR + B2R z / DZ + 4) * Rabs (B2R q).
Proof.
  intros i k. apply Rle_trans with (1 := node_share pw lg g dt q r z HF HP HR i k). right. replace (bpow radix2 (-46)) with (128 * u) by (rewrite u_val; cbn; lra). reflexivity.
Qed.
Lemma one_bound : forall i k, (0 <= i <= gn_r A g - 1)%Z -> acounted l i k * node_volume DR DZ i <= 3 * Rabs (B2R q).
Proof.
  intros i k Hi. rewrite acounted_abs. assert (VP := V_pos i Hi). assert (VB := bpow_gt_0 radix2 (-100)). rewrite <- (Rabs_pos_eq (node_volume DR DZ i)) by lra. rewrite <- Rabs_mult. assert (S := one_share i k). assert (B := share_bound i k).
  destruct (xb pw lg g dt q r z HF HP) as (XB & _). destruct (yb pw lg g dt q r z HF HP) as (YB & _). unfold Charge64P.x in XB. unfold Charge64P.y in YB. cbn [num b64_arith] in *. change (bpow radix2 (-46)) with (/ 70368744177664) in S.
  set (v := counted pw lg l i k * node_volume DR DZ i) in *. set (w := share DR DZ i k (B2R r) (B2R z)) in *. assert (T := Rabs_triang_inv v (B2R q * w)). rewrite Rabs_mult in T. assert (QP := Rabs_pos (B2R q)).
  assert (M1 : Rabs (B2R q) * Rabs w <= Rabs (B2R q) * (9 / 4)) by (apply Rmult_le_compat_l; lra).
  assert (M2 : / 70368744177664 * (B2R r / DR + B2R z / DZ + 4) * Rabs (B2R q) <= / 2 * Rabs (B2R q)) by (apply Rmult_le_compat_r; lra). lra.
Qed.
End One.

(** ** All particles *)
Definition ok (p : gparticle A) : Prop := galive A p = true ->
  placed pw lg g (gcharge A p) (g0 A (gpos A (gph A p))) (g2 A (gpos A (gph A p))) /\ DR / 2 <= B2R (g0 A (gpos A (gph A p)) : b64).
Notation incs p := (gcharge_weighting_single A g (gcharge A p) (g0 A (gpos A (gph A p))) (g2 A (gpos A (gph A p)))).
Notation sumc ps i k := (sum_living pw lg (fun p => counted pw lg (incs p) i k) ps).
Notation suma ps i k := (sum_living pw lg (fun p => acounted (incs p) i k) ps).
Lemma suma_pos : forall ps i k, 0 <= suma ps i k.
Proof. intros ps i k. induction ps as [|p ps IH]; cbn [sum_living fold_right]; [lra|]. unfold sum_living in IH. assert (B := acounted_pos (incs p) i k). destruct (galive A p); lra. Qed.

Lemma species_close : forall ps, Forall ok ps -> forall rho, exists rho', ofold (gcharge_one A g) ps rho = Ok rho' /\
  forall i k s n M, close (rho i k) s n M -> many (n + 4 * length ps) -> M + suma ps i k <= bp 990 -> close (rho' i k) (s + sumc ps i k) (n + 4 * length ps) (M + suma ps i k).
Proof.
  induction ps as [|p ps IH]; intros HO rho.
  - exists rho. split; [reflexivity|]. intros i k s n M HC _ _. cbn [sum_living fold_right length]. rewrite Nat.mul_0_r, Nat.add_0_r, !Rplus_0_r. exact HC.
  - inversion HO as [|? ? O1 O2]; subst. specialize (IH O2). cbn [ofold]. unfold gcharge_one at 1. unfold ok in O1. destruct (galive A p) eqn:EA.
    + destruct (O1 eq_refl) as (HP & HR). destruct (four_inside _ _ _ HP) as (HI & HL).
      assert (FR : finite A (g0 A (gpos A (gph A p))) = true) by exact (pl_r _ _ _ _ _ _ HP). assert (FZ : finite A (g2 A (gpos A (gph A p))) = true) by exact (pl_z _ _ _ _ _ _ HP). rewrite FR, FZ. cbn [andb].
      destruct (add_rho_close (incs p) rho HI (values_finite pw lg g dt _ _ _ HF HP)) as (rho1 & E1 & H1). rewrite E1. cbn [bind]. destruct (IH rho1) as (rho2 & E2 & H2). exists rho2. split; [exact E2|].
      intros i k s n M HC HN HM. cbn [length] in *. cbn [sum_living fold_right] in *. rewrite EA in *. unfold sum_living in H2.
      assert (SP := suma_pos ps i k). unfold sum_living in SP. rewrite HL in H1.
      assert (N1 : many (n + 4)). { unfold many in *. apply Rle_trans with (2 := HN). apply le_INR. lia. }
      specialize (H1 i k s n M HC N1 ltac:(lra)). replace (n + 4 * S (length ps))%nat with (n + 4 + 4 * length ps)%nat in * by lia. 
      assert (K := H2 i k _ _ _ H1 HN ltac:(lra)). rewrite !Rplus_assoc in K. exact K.
    + cbn [bind]. destruct (IH rho) as (rho2 & E2 & H2). exists rho2. split; [exact E2|]. intros i k s n M HC HN HM. cbn [length] in *. cbn [sum_living fold_right] in *. rewrite EA in *. rewrite !Rplus_0_l in *. unfold sum_living in H2.
      assert (N1 : many (n + 4 * length ps)). { unfold many in *. apply Rle_trans with (2 := HN). apply le_INR. lia. }
      assert (K := H2 i k s n M HC N1 HM). apply (close_weaken _ _ _ _ _ _ K); [lia|lra].
Qed.

Notation absq := (sum_living pw lg (fun p => Rabs (B2R (gcharge A p : b64)))).
Lemma sum_bounds : forall ps n, Forall ok ps -> forall i k, (0 <= i <= gn_r A g - 1)%Z ->
  Rabs (sumc ps i k * node_volume DR DZ i - charge_in pw lg g ps i k) + bpow radix2 (-48) * INR n * absq ps <= allowed pw lg g n ps /\
  suma ps i k * node_volume DR DZ i <= 3 * absq ps /\ 0 <= absq ps <= INR (length ps) * bp 200.
Proof.
  induction ps as [|p ps IH]; intros n HO i k Hi.
  - unfold charge_in, allowed. cbn [sum_living fold_right length]. change (INR 0) with 0. rewrite !Rmult_0_l, Rminus_0_r, Rabs_R0. lra.
  - inversion HO as [|? ? O1 O2]; subst. destruct (IH n O2 i k Hi) as (I1 & I2 & I3). unfold charge_in, allowed in *. cbn [length]. rewrite S_INR. assert (B2 := bpow_gt_0 radix2 200). cbn [sum_living fold_right]. unfold sum_living in I1, I2, I3. unfold ok in O1. destruct (galive A p) eqn:EA.
    + destruct (O1 eq_refl) as (HP & HR). assert (S := one_share _ _ _ HP HR i k). assert (B := one_bound _ _ _ HP HR i k Hi). destruct (pl_q _ _ _ _ _ _ HP) as (_ & _ & QB). assert (QP := Rabs_pos (B2R (gcharge A p : b64))).
      cbn [num b64_arith] in *.
      set (c0 := counted pw lg (incs p) i k) in *. set (a0 := acounted (incs p) i k) in *. set (V := node_volume DR DZ i) in *. set (aq := Rabs (B2R (gcharge A p : b64))) in *. set (sh := B2R (gcharge A p : b64) * share _ _ i k _ _) in *.
      set (t0 := bpow radix2 (-46) * _) in *. set (sc := fold_right _ 0 ps) in I1 at 1. set (b48 := bpow radix2 (-48) * INR n) in *.
      set (sc' := fold_right (fun p s => (if galive A p then counted pw lg (incs p) i k else 0) + s) 0 ps) in *.
      set (sa := fold_right (fun p s => (if galive A p then acounted (incs p) i k else 0) + s) 0 ps) in *.
      set (sq := fold_right (fun p s => (if galive A p then Rabs (B2R (gcharge A p : b64)) else 0) + s) 0 ps) in *.
      match type of I1 with Rabs (_ - ?a) + _ <= ?b => set (ch := a) in *; set (al := b) in * end.
      split; [|split; [|split]].
      * replace ((c0 + sc') * V - (sh + ch)) with ((c0 * V - sh) + (sc' * V - ch)) by ring. assert (T := Rabs_triang (c0 * V - sh) (sc' * V - ch)).
        replace (b48 * (aq + sq)) with (b48 * aq + b48 * sq) by ring. replace ((t0 + b48) * aq) with (t0 * aq + b48 * aq) by ring. change sc with sc' in I1. lra.
      * rewrite Rmult_plus_distr_r. lra.
      * lra.
      * lra.
    + rewrite !Rplus_0_l. split; [exact I1|]. split; [exact I2|]. lra.
Qed.

Theorem species_density : forall ps rho0, all_placed pw lg g ps -> (forall i k, GenRun.inside A g i k = true -> rho0 i k = of_int A 0) ->
  exists rho, ofold (gcharge_one A g) ps rho0 = Ok rho /\
  forall i k, (0 <= i < gn_r A g)%Z -> (0 <= k < gn_z A g)%Z -> fin (rho i k : b64) /\ Rabs (B2R (rho i k : b64) * node_volume DR DZ i - charge_in pw lg g ps i k) <= allowed pw lg g (length ps) ps.
Proof.
  intros ps rho0 (HN & HO) H0. destruct (species_close ps HO rho0) as (rho & E & H). exists rho. split; [exact E|]. intros i k Hi Hk.
  destruct (sum_bounds ps (length ps) HO i k ltac:(lia)) as (S1 & S2 & S3).
  assert (N40 : INR (length ps) <= bp 40). { rewrite INR_IZR_INZ. change (bp 40) with (IZR (2 ^ 40)). apply IZR_le. exact HN. }
  assert (N0 := pos_INR (length ps)).
  assert (VP : bp (-100) <= node_volume DR DZ i).
  { destruct (ax_n _ _ _ (AR pw lg g dt HF)) as (_ & NR). destruct (Z.eq_dec i 0) as [->|N]; [exact (proj1 (proj2 (vol_0 pw lg g dt HF)))|exact (proj1 (proj2 (vol_pos pw lg g dt HF i ltac:(lia))))]. }
  assert (VB := bpow_gt_0 radix2 (-100)). set (V := node_volume DR DZ i) in *. assert (SP := suma_pos ps i k).
  assert (B2 := bpow_gt_0 radix2 200).
  assert (BIG : suma ps i k <= bp 990).
  { apply Rmult_le_reg_r with V; [lra|]. apply Rle_trans with (1 := S2). apply Rle_trans with (4 * (bp 40 * bp 200)). { assert (INR (length ps) * bp 200 <= bp 40 * bp 200) by (apply Rmult_le_compat_r; lra). lra. }
    change 4 with (bp 2). rewrite <- !bpow_plus. apply Rle_trans with (bp 990 * bp (-100)); [rewrite <- bpow_plus; apply bpow_le; lia|]. apply Rmult_le_compat_l; [apply bpow_ge_0|exact VP]. }
  assert (C0 : close (rho0 i k) 0 0 0). { rewrite H0 by (unfold GenRun.inside; apply andb_true_iff; split; [apply andb_true_iff; split; [apply andb_true_iff; split|]|]; rewrite ?Z.leb_le, ?Z.ltb_lt; lia). destruct (of_Z_exact 0 eq_refl) as (F & E0). split; [exact F|]. rewrite Rabs_R0. split; [lra|]. change (Rabs (B2R (b64_of_Z 0) - 0) <= 2 * INR 0 * u * 0). rewrite E0, Rminus_0_r, Rabs_R0. lra. }
  destruct (H i k 0 0%nat 0 C0) as (F & _ & HE).
  { unfold many. cbn [Nat.add]. rewrite mult_INR. replace (INR 4) with 4 by (cbn; ring). change (bp 40) with 1099511627776 in N40. change (bp 45) with 35184372088832. lra. }
  { rewrite Rplus_0_l. exact BIG. }
  split; [exact F|]. rewrite !Rplus_0_l in HE. cbn [Nat.add] in HE. rewrite mult_INR in HE. replace (INR 4) with 4 in HE by (cbn; ring).
  apply Rle_trans with (2 := S1). assert (U := u_pos).
  replace (B2R (rho i k : b64) * V - charge_in pw lg g ps i k) with ((B2R (rho i k : b64) - sumc ps i k) * V + (sumc ps i k * V - charge_in pw lg g ps i k)) by ring.
  apply Rle_trans with (1 := Rabs_triang _ _). rewrite Rabs_mult, (Rabs_pos_eq V) by lra.
  assert (M1 : Rabs (B2R (rho i k : b64) - sumc ps i k) * V <= 2 * (4 * INR (length ps)) * u * suma ps i k * V) by (apply Rmult_le_compat_r; [lra|exact HE]).
  replace (2 * (4 * INR (length ps)) * u * suma ps i k * V) with (8 * (INR (length ps) * u) * (suma ps i k * V)) in M1 by ring.
  assert (NU : 0 <= INR (length ps) * u) by (apply Rmult_le_pos; lra).
  assert (M2 : 8 * (INR (length ps) * u) * (suma ps i k * V) <= 8 * (INR (length ps) * u) * (3 * absq ps)) by (apply Rmult_le_compat_l; lra).
  assert (M3 : 0 <= INR (length ps) * u * absq ps) by (apply Rmult_le_pos; lra).
  replace (bpow radix2 (-48) * INR (length ps) * absq ps) with (32 * (INR (length ps) * u * absq ps)) by (rewrite u_val; change (bpow radix2 (-48)) with (/ 281474976710656); field).
  replace (8 * (INR (length ps) * u) * (3 * absq ps)) with (24 * (INR (length ps) * u * absq ps)) in M2 by ring. lra.
Qed.

Lemma ofold_concat : forall (X S : Type) (f : X -> S -> outcome S) xss s, ofold (fun xs s => ofold f xs s) xss s = ofold f (concat xss) s.
Proof.
  intros X S f xss. induction xss as [|xs xss IH]; intro s; [reflexivity|]. cbn [ofold concat].
  assert (AP : forall xs ys s, ofold f (xs ++ ys) s = bind (ofold f xs s) (fun s => ofold f ys s)).
  { clear. intros xs ys. induction xs as [|x xs IH]; intro s; [reflexivity|]. cbn [ofold app]. destruct (f x s); cbn [bind]; [apply IH|reflexivity|reflexivity]. }
  rewrite AP. destruct (ofold f xs s); cbn [bind]; [apply IH|reflexivity|reflexivity].
Qed.
Theorem bunches_density : forall bs old, all_placed pw lg g (concat bs) ->
  exists rho, ofold (fun ps rho => ofold (gcharge_one A g) ps rho) bs (greset_rho A g old) = Ok rho /\
  forall i k, (0 <= i < gn_r A g)%Z -> (0 <= k < gn_z A g)%Z -> fin (rho i k : b64) /\
    Rabs (B2R (rho i k : b64) * node_volume DR DZ i - charge_in pw lg g (concat bs) i k) <= allowed pw lg g (length (concat bs)) (concat bs).
Proof.
  intros bs old H. rewrite ofold_concat. apply species_density; [exact H|]. intros i k I. unfold greset_rho. rewrite I. reflexivity.
Qed.
End Species.
