(** The constructor of a bunch in binary64. *)
From Coq Require Import ZArith Reals Lra Lia Psatz List Bool.
From Flocq Require Import Core IEEE754.BinarySingleNaN.
From Verif.Lib Require Import RAux Outcome Par.
From Verif.Model Require Import Binary64 Temperature64 Arith Constants GenCode GenRun GenSim GenLoad.
From Verif.Spec Require Import Double Loop64 Load64.
From Verif.Proof Require Import Binary64P FloatP Motion64R Axis64P Err64P Push64P Ana64P Leg64P RandP Rand64P Place64P BunchP DumpP Load64P.
Import ListNotations.
Local Open Scope R_scope.

(** A sum of positive numbers with relative errors *)
Lemma fold_near : forall (f : b64 -> b64) (F : b64 -> R) B rs (s : b64) S k, Forall (fun r => pn (f r) (F r) 15 (-91) 74) rs -> near s S S k -> 0 <= S -> 15 <= k ->
  S + INR (length rs) * bp 74 <= B -> B <= bp 600 -> (k + 5 / 4 * INR (length rs)) * u <= / 1024 ->
  near (fold_left (fun x r => b64_add x (f r)) rs s) (S + rsum (map F rs)) (S + rsum (map F rs)) (k + 5 / 4 * INR (length rs)).
Proof.
  assert (U := u_pos). intros f F B rs. induction rs as [|r rs IH]; intros s S k HR HS S0 HK SB BB HU.
  - cbn [length INR fold_left map rsum]. rewrite Rmult_0_r, !Rplus_0_r. exact HS.
  - inversion HR as [|? ? H1 H2]. subst. change (length (r :: rs)) with (Datatypes.S (length rs)) in *. rewrite S_INR in *. cbn [fold_left map rsum].
    assert (PL : 0 <= INR (length rs)) by apply pos_INR. destruct H1 as (NR & RR). assert (RP := rg_pos _ _ _ RR). assert (B74 := bpow_gt_0 radix2 74). assert (RU : F r <= bp 74) by apply RR.
    assert (KU : (k + 5 / 4) * u <= / 1024) by (apply Rle_trans with (2 := HU); apply Rmult_le_compat_r; lra).
    assert (N1 : near (b64_add s (f r)) (S + F r) (S + F r) (k + 5 / 4)).
    { apply (near_add _ _ _ _ _ _ _ _ k HS NR); try lra. destruct RR as (R1 & R2). split; [apply Rle_trans with (bp (-91)); [apply bpow_le; lia|lra]|].
      apply Rle_trans with (bp 600); [|apply bpow_le; lia]. nra. }
    specialize (IH (b64_add s (f r)) (S + F r) (k + 5 / 4) H2 N1 ltac:(lra) ltac:(lra) ltac:(lra) BB).
    replace (k + 5 / 4 * (INR (length rs) + 1)) with (k + 5 / 4 + 5 / 4 * INR (length rs)) in * by lra.
    replace (S + (F r + rsum (map F rs))) with (S + F r + rsum (map F rs)) by ring. apply IH. exact HU.
Qed.
Lemma rsum_pn : forall (f : b64 -> b64) (F : b64 -> R) rs, Forall (fun r => pn (f r) (F r) 15 (-91) 74) rs -> 0 <= rsum (map F rs) <= INR (length rs) * bp 74.
Proof.
  intros f F rs H. induction H as [|r l (_ & R1 & R2) _ IH]; [cbn; lra|]. change (length (r :: l)) with (S (length l)). rewrite S_INR. cbn [map rsum]. assert (P := bpow_gt_0 radix2 (-91)). lra.
Qed.

(** charge and mass from the number of particles in a macroparticle *)
Section Weigh.
Variables (n : b64) (N K T : R).
Hypothesis HN : pn n N K (-590) 470.
Hypothesis NR : bp (-53) <= N <= 4 * T.
Hypothesis HT : 1 <= T <= bp 292.
Hypothesis K0 : 0 <= K.
Hypothesis KU : (K + 2) * u <= / 1024.
Variables charge mass : b64.
Hypothesis HP : physical_particle charge mass.

Lemma b_times : forall x : b64, fin x -> bp (-200) <= Rabs (B2R x) <= bp 200 -> near (b64_mul x n) (B2R x * N) (Rabs (B2R x) * N) (K + 2).
Proof.
  intros x Fx RX. destruct HN as (NC & RC). assert (NX := near_exact x (Rabs (B2R x)) Fx (Rle_refl _)). assert (U := u_pos).
  assert (M := near_mul _ _ _ _ _ _ _ _ K NX NC ltac:(lra)). apply near_weaken with (Rabs (B2R x) * N) (K + 5 / 4); [|lra|lra|exact KU].
  apply M; [apply Rle_trans with (2 := KU); apply Rmult_le_compat_r; lra|]. apply rg_weaken with (-200 + -590)%Z (200 + 470)%Z; [now apply rg_mul|lia|lia].
Qed.
Lemma b_weights : let c := b64_mul charge n in let m := b64_mul mass n in fin c /\ fin m /\
  Rabs (B2R c - B2R charge * N) <= (K + 2) * u * (Rabs (B2R charge) * N) /\ Rabs (B2R m - B2R mass * N) <= (K + 2) * u * (B2R mass * N) /\
  sane c m /\ bp (-200) <= Rabs (B2R c) <= 5 * (Rabs (B2R charge) * T).
Proof.
  intros c m. destruct HP as (FC & FM & (M1 & M2) & (C1 & C2)). assert (PM := bpow_gt_0 radix2 (-200)).
  assert (NC := b_times charge FC). assert (NM := b_times mass FM). fold c in NC. fold m in NM. rewrite (Rabs_pos_eq (B2R mass)) in NM by lra.
  destruct NC as (Fc & (_ & KC) & _ & EC).
  { split; [apply Rle_trans with (2 := C1); apply bpow_le; lia|]. apply Rle_trans with (1 := C2). apply Rle_trans with (bp 49 * bp 100); [apply Rmult_le_compat_l; [apply bpow_ge_0|exact M2]|]. rewrite <- bpow_plus. apply bpow_le. lia. }
  destruct NM as (Fm & _ & _ & EM).
  { split; [exact M1|apply Rle_trans with (1 := M2); apply bpow_le; lia]. }
  split; [exact Fc|]. split; [exact Fm|]. split; [exact EC|]. split; [exact EM|].
  assert (P53 := bpow_gt_0 radix2 (-53)).
  set (k := (K + 2) * u) in *. assert (K1 : 0 <= k <= / 1024) by (split; [apply Rmult_le_pos; [lra|apply Rlt_le, u_pos]|exact KU]).
  set (ac := Rabs (B2R charge)) in *. assert (P100 := bpow_gt_0 radix2 (-100)).
  assert (AC : (1 - / 1024) * (ac * N) <= Rabs (B2R c) <= (1 + / 1024) * (ac * N)).
  { assert (AE : Rabs (B2R charge * N) = ac * N) by (unfold ac; rewrite Rabs_mult, (Rabs_pos_eq N) by lra; reflexivity).
    assert (T1 := Rabs_triang_inv (B2R charge * N) (B2R c)). assert (T2 := Rabs_triang_inv (B2R c) (B2R charge * N)). rewrite Rabs_minus_sym in T1. rewrite AE in *.
    assert (0 <= ac * N) by (apply Rmult_le_pos; lra). assert (k * (ac * N) <= / 1024 * (ac * N)) by (apply Rmult_le_compat_r; lra). lra. }
  assert (AM : (1 - / 1024) * (B2R mass * N) <= B2R m <= (1 + / 1024) * (B2R mass * N)).
  { apply Rabs_le_inv in EM. assert (0 <= B2R mass * N) by (apply Rmult_le_pos; lra). assert (k * (B2R mass * N) <= / 1024 * (B2R mass * N)) by (apply Rmult_le_compat_r; lra). lra. }
  assert (V50 : bp 50 = 2 * bp 49) by (rewrite <- bp_succ; reflexivity). assert (P49 := bpow_gt_0 radix2 49).
  assert (MN : bp (-253) <= B2R mass * N) by (apply Rle_trans with (bp (-200) * bp (-53)); [rewrite <- bpow_plus; apply bpow_le; lia|apply Rmult_le_compat; lra]).
  assert (V294 : bp 294 = 4 * bp 292) by (change 294%Z with (2 + 292)%Z; rewrite bpow_plus; reflexivity). assert (P292 := bpow_gt_0 radix2 292).
  assert (MN2 : B2R mass * N <= bp 394) by (apply Rle_trans with (bp 100 * bp 294); [apply Rmult_le_compat; lra|rewrite <- bpow_plus; apply bpow_le; lia]).
  assert (P253 := bpow_gt_0 radix2 (-253)). assert (P394 := bpow_gt_0 radix2 394).
  split.
  - split; [exact Fc|]. split; [exact Fm|]. split; [split|].
    + apply Rle_trans with (bp (-254)); [apply bpow_le; lia|]. assert (bp (-253) = 2 * bp (-254)) by (rewrite <- bp_succ; reflexivity). lra.
    + apply Rle_trans with (bp 395); [|apply bpow_le; lia]. assert (bp 395 = 2 * bp 394) by (rewrite <- bp_succ; reflexivity). lra.
    + apply Rle_trans with (1 := proj2 AC). assert (ac * N <= bp 49 * B2R mass * N) by (apply Rmult_le_compat_r; lra). change (bpow radix2 50) with (bp 50). rewrite V50.
      assert (bp 49 * ((1 - / 1024) * (B2R mass * N)) <= bp 49 * B2R m) by (apply Rmult_le_compat_l; lra). assert (0 <= bp 49 * B2R mass * N) by (apply Rmult_le_pos; [apply Rmult_le_pos|]; lra). nra.
  - split.
    + assert (bp (-153) <= ac * N) by (apply Rle_trans with (bp (-100) * bp (-53)); [rewrite <- bpow_plus; apply bpow_le; lia|apply Rmult_le_compat; lra]).
      assert (P153 := bpow_gt_0 radix2 (-154)). assert (bp (-153) = 2 * bp (-154)) by (rewrite <- bp_succ; reflexivity). assert (bp (-200) <= bp (-154)) by (apply bpow_le; lia). lra.
    + assert (ac * N <= ac * (4 * T)) by (apply Rmult_le_compat_l; lra). assert (0 <= ac * T) by (apply Rmult_le_pos; lra). lra.
Qed.
End Weigh.

Section Bunch64.
Variables pw lg : b64 -> b64.
Notation A := (b64_arith pw lg).
Variables (g : ggeom A) (dt : b64).
Hypothesis HF : fine pw lg g dt.
Let AR : axis (gn_r A g) (gr_size A g) (gdr A g). Proof. exact (Motion64P.axr pw lg g dt HF). Qed.
Let AZ : axis (gn_z A g) (gz_size A g) (gdz A g). Proof. exact (Motion64P.axz pw lg g dt HF). Qed.
Notation dr := (@B2R prec64 emax64 (gdr A g)).
Notation dz := (@B2R prec64 emax64 (gdz A g)).
Ltac sml := rewrite ?u_val; lra.

(** The place *)
Variable radius : b64.
Hypothesis FR : fin radius.
Hypothesis N4 : (4 <= gn_r A g)%Z.
Hypothesis RR : dr <= B2R radius <= IZR (gn_r A g - 2) * dr.
Definition brad (r : b64) : Prop := fin r /\ dr / 2 <= B2R r <= IZR (gn_r A g - 1) * dr - 3 / 2 * dr.

Lemma bunch_place : forall x : b64, fraction x -> brad (gbunch_r A g radius x) /\
  Rabs (B2R (gbunch_r A g radius x : b64) - ((B2R radius - dr) * B2R x + dr / 2)) <= bp (-23) * dr.
Proof.
  intros x (Fx & Rx). destruct (half_exact _ _ _ AR) as (FH & EH). assert (Fd := fin_d _ _ _ AR). assert (L := len_lo _ _ _ AR). assert (Lh := len_hi _ _ _ AR). change (len (gdr A g)) with dr in *.
  set (d := dr) in *. assert (TN := tiny_num). assert (UV := u_val). replace (bpow radix2 (-36)) with (/ 68719476736) in Rx by (cbn; lra). replace (bp (-23)) with (/ 8388608) by (cbn; lra).
  assert (NN : 4 <= IZR (gn_r A g) <= 1048576) by (destruct (fine_nr _ _ _ _ HF) as (_ & NU); split; [apply (IZR_le 4)|apply (IZR_le _ 1048576)]; lia). rewrite !minus_IZR in *. 
  set (nr := IZR (gn_r A g)) in *. set (S := B2R radius - d).
  assert (S0 : 0 <= S <= 1048576 * d) by (unfold S; nra). assert (BIG : 1073741824 * 2 <= bp 1023) by (replace (1073741824 * 2) with (bp 31) by (cbn; lra); apply bpow_le; lia).
  assert (SB : S <= 1073741824) by lra.
  destruct (sub_ok radius (gdr A g) FR Fd) as (F1 & E1). { fold d. fold S. rewrite Rabs_pos_eq; lra. } fold d in E1. fold S in E1. set (s := b64_sub radius (gdr A g)) in *.
  assert (R1 := rnd_err S). rewrite (Rabs_pos_eq S), UV in R1 by lra. rewrite <- E1 in R1. assert (s0 : 0 <= B2R s) by (rewrite E1; apply rnd_nonneg; lra). apply Rabs_le_inv in R1.
  assert (PX : 0 <= B2R s * B2R x <= B2R s * (1 - / 68719476736)) by (split; [apply Rmult_le_pos; lra|apply Rmult_le_compat_l; lra]).
  destruct (mul_ok s x F1 Fx) as (F2 & E2). { rewrite Rabs_pos_eq; lra. } set (p := b64_mul s x) in *.
  assert (R2 := rnd_err (B2R s * B2R x)). rewrite (Rabs_pos_eq (B2R s * B2R x)), UV in R2 by lra. rewrite <- E2 in R2. assert (p0 : 0 <= B2R p) by (rewrite E2; apply rnd_nonneg; lra). apply Rabs_le_inv in R2.
  assert (PU : B2R p <= S + 1) by lra.
  unfold gbunch_r. change (add A) with b64_add. change (mul A) with b64_mul. change (sub A) with b64_sub. fold s. fold p. change (div A (gdr A g) (of_int A 2)) with (b64_div (gdr A g) (b64_of_Z 2)).
  set (h := b64_div (gdr A g) (b64_of_Z 2)) in *.
  destruct (add_ok p h F2 FH) as (F3 & E3). { rewrite EH, Rabs_pos_eq; lra. } rewrite EH in E3. set (r := b64_add p h) in *.
  assert (R3 := rnd_err (B2R p + d / 2)). rewrite (Rabs_pos_eq (B2R p + d / 2)), UV in R3 by lra. rewrite <- E3 in R3. apply Rabs_le_inv in R3.
  assert (LO : d / 2 <= B2R r). { rewrite E3. rewrite <- EH. rewrite <- (rnd_B2R h) at 1. apply rnd_mono. lra. }
  assert (XX : Rabs (B2R s * B2R x - S * B2R x) <= / 9007199254740992 * S + tiny).
  { rewrite <- Rmult_minus_distr_r, Rabs_mult, (Rabs_pos_eq (B2R x)) by lra. rewrite <- (Rmult_1_r (/ 9007199254740992 * S + tiny)). apply Rmult_le_compat; try lra; [apply Rabs_pos|apply Rabs_le; lra]. }
  apply Rabs_le_inv in XX. split.
  - split; [exact F3|]. rewrite minus_IZR. fold nr. fold d. split; [exact LO|].
    assert (TD : tiny <= / 100000000000000000000 * d) by lra.
    assert (SN : S <= (nr - 3) * d) by (unfold S; lra).
    destruct (Rle_dec (d / 2) S) as [H|H].
    + assert (B2R r <= S + d / 2); [|lra]. lra.
    + assert (1 * d <= (nr - 3) * d) by (apply Rmult_le_compat_r; lra). lra.
  - fold d. fold S. apply Rabs_le. assert (TD : tiny <= / 100000000000000000000 * d) by lra. assert (0 <= S * B2R x <= S) by (split; [apply Rmult_le_pos; lra|rewrite <- (Rmult_1_r S) at 2; apply Rmult_le_compat_l; lra]). lra.
Qed.

Lemma brad_rad : forall r, brad r -> rad pw lg g r.
Proof.
  intros r (F & R). split; [exact F|]. change (len (gdr A g)) with dr. assert (L := len_pos _ _ _ AR). assert (Q := q_bounds _ _ _ AR). change (len (gdr A g)) with dr in *. unfold top. change (len (gdr A g)) with dr. lra.
Qed.

(** lines 50-53 *)
Definition bvolR (r : b64) : R := if Rlt_dec dr (B2R r) then ringR pw lg g (B2R r) else c_PI * B2R r * B2R r * dz.
Lemma p_bvol : forall r, brad r -> pn (gbunch_volume A g r) (bvolR r) 15 (-91) 74.
Proof.
  intros r Hr. assert (RD := brad_rad r Hr). destruct Hr as (F & R). unfold gbunch_volume, bvolR. change (ltb A) with (@Bltb prec64 emax64).
  destruct (Rlt_dec dr (B2R r)) as [H|H].
  - rewrite (proj2 (ltb_ok (gdr A g) r (fin_d _ _ _ AR) F) H). apply (pn_weaken _ _ _ _ _ _ _ _ (p_ring pw lg g dt HF r RD)); [lra|sml|lia|lia].
  - destruct (Bltb (gdr A g) r) eqn:E; [exfalso; apply H; apply ltb_ok; [exact (fin_d _ _ _ AR)|exact F|exact E]|].
    change (mul A) with b64_mul. change (gPI A) with (b64_lit 7853981633974483 2500000000000000). assert (PR := p_rad pw lg g dt HF r RD).
    assert (Q1 := pn_mul _ _ _ _ _ _ _ _ _ _ 4 pn_PI PR ltac:(sml) ltac:(sml) ltac:(lia) ltac:(lia)).
    assert (Q2 := pn_mul _ _ _ _ _ _ _ _ _ _ 6 Q1 PR ltac:(sml) ltac:(sml) ltac:(lia) ltac:(lia)).
    assert (Q3 := pn_mul _ _ _ _ _ _ _ _ _ _ 8 Q2 (p_dz pw lg g dt HF) ltac:(sml) ltac:(sml) ltac:(lia) ltac:(lia)).
    apply (pn_weaken _ _ _ _ _ _ _ _ Q3); [lra|sml|lia|lia].
Qed.

Variable rs : list b64.
Hypothesis RS : Forall brad rs.
Hypothesis NS : (1 <= Z.of_nat (length rs) < 2 ^ 31)%Z.
Notation num := (INR (length rs)).
Definition bsum : R := rsum (map bvolR rs).
Lemma all_pn : Forall (fun r => pn (gbunch_volume A g r) (bvolR r) 15 (-91) 74) rs.
Proof. apply Forall_impl with (2 := RS). exact p_bvol. Qed.
Lemma p_bsum : pn (fold_left (fun s r => b64_add s (gbunch_volume A g r)) rs (b64_of_Z 0)) bsum (15 + 5 / 4 * num) (-91) 105.
Proof.
  assert (N := num_range rs NS). assert (P := rsum_pn _ _ _ all_pn). split.
  - assert (Z0 : near (b64_of_Z 0) 0 0 15).
    { destruct (of_Z_exact 0 eq_refl) as (F & E). split; [exact F|]. split; [rewrite u_val; lra|]. rewrite E, Rminus_0_r, Rabs_R0. split; [lra|]. rewrite Rmult_0_r. lra. }
    assert (Q := fold_near _ _ (bp 105) rs (b64_of_Z 0) 0 15 all_pn Z0 ltac:(lra) ltac:(lra)). rewrite !Rplus_0_l in Q. apply Q; [|apply bpow_le; lia|rewrite u_val; lra].
    change 105%Z with (31 + 74)%Z. rewrite bpow_plus. apply Rmult_le_compat_r; [apply bpow_ge_0|]. change (bp 31) with 2147483648. lra.
  - split.
    + assert (NE : exists r l, rs = r :: l) by (destruct rs as [|r l]; [cbn in NS; lia|eauto]). destruct NE as (r & l & E). assert (AP := all_pn). unfold bsum. rewrite E in *. inversion AP as [|? ? (_ & (H1 & _)) H2]. subst. cbn [map rsum].
      assert (P2 := rsum_pn _ _ _ H2). lra.
    + apply Rle_trans with (1 := proj2 P). change 105%Z with (31 + 74)%Z. rewrite bpow_plus. apply Rmult_le_compat_r; [apply bpow_ge_0|]. change (bp 31) with 2147483648. lra.
Qed.
Lemma p_bavg : pn (gbunch_avg A g rs) (bsum / num) (17 + 126 / 100 * num) (-122) 105.
Proof.
  assert (N := num_range rs NS). unfold gbunch_avg. exact (pn_div _ _ _ _ _ _ _ _ _ _ (17 + 126 / 100 * num) p_bsum (p_num rs NS) ltac:(lra) ltac:(apply (Ku rs NS); lra) ltac:(lia) ltac:(lia)).
Qed.

Variables duration density velocity : b64.
Hypothesis HDu : fin duration /\ bp (-100) <= B2R duration <= bp 100.
Hypothesis HVe : fin velocity /\ bp (-100) <= B2R velocity <= 300000000.
Hypothesis HDe : fin density /\ bp (-100) <= B2R density <= bp 100.
Definition bT : R := 31415926535897932 / 10000000000000000 * B2R radius ^ 2 * (B2R duration * B2R velocity) * B2R density.
Lemma p_btotal : pn (gbunch_total A duration radius density velocity) bT 18 (-360) 292.
Proof.
  assert (L := len_lo _ _ _ AR). assert (Lh := len_hi _ _ _ AR). change (len (gdr A g)) with dr in *.
  assert (NU : IZR (gn_r A g - 2) <= 1048576) by (destruct (fine_nr _ _ _ _ HF) as (_ & NU); apply (IZR_le _ 1048576); lia).
  assert (PR : pn radius (B2R radius) 0 (-30) 30).
  { apply pn_exact; [exact FR|]. rewrite bp_m30. change (bp 30) with 1073741824. split; [lra|]. apply Rle_trans with (1 := proj2 RR). apply Rle_trans with (1048576 * dr); [apply Rmult_le_compat_r; lra|lra]. }
  assert (P1 := pn_exact duration (-100) 100 (proj1 HDu) (proj2 HDu)). assert (P3 := pn_exact density (-100) 100 (proj1 HDe) (proj2 HDe)).
  assert (P2 : pn velocity (B2R velocity) 0 (-100) 29) by (apply pn_exact; [apply HVe|]; split; [apply HVe|]; apply Rle_trans with (1 := proj2 (proj2 HVe)); cbn; lra).
  unfold gbunch_total, bT. change (mul A) with b64_mul. change (gPI A) with (b64_lit 7853981633974483 2500000000000000).
  assert (Q1 := pn_mul _ _ _ _ _ _ _ _ _ _ 2 PR PR ltac:(sml) ltac:(sml) ltac:(lia) ltac:(lia)).
  assert (Q2 := pn_mul _ _ _ _ _ _ _ _ _ _ 6 pn_PI Q1 ltac:(sml) ltac:(sml) ltac:(lia) ltac:(lia)).
  assert (Q3 := pn_mul _ _ _ _ _ _ _ _ _ _ 2 P1 P2 ltac:(sml) ltac:(sml) ltac:(lia) ltac:(lia)).
  assert (Q4 := pn_mul _ _ _ _ _ _ _ _ _ _ 10 Q2 Q3 ltac:(sml) ltac:(sml) ltac:(lia) ltac:(lia)).
  assert (Q5 := pn_mul _ _ _ _ _ _ _ _ _ _ 12 Q4 P3 ltac:(sml) ltac:(sml) ltac:(lia) ltac:(lia)).
  assert (Q6 := pn_weaken _ _ _ _ _ 18 (-360) 292 Q5 ltac:(lra) ltac:(sml) ltac:(lia) ltac:(lia)).
  apply (pn_eq _ _ _ _ _ _ Q6). unfold c_PI. cbn [pow]. ring.
Qed.
Definition bcountR (r : b64) : R := bT * (ringR pw lg g (B2R r) / bsum).
Lemma p_bcount : forall r, brad r -> pn (gbunch_count A g (gbunch_total A duration radius density velocity) rs r) (bcountR r) (57 + 13 / 10 * num) (-590) 470.
Proof.
  intros r Hr. assert (N := num_range rs NS). unfold gbunch_count. rewrite gnorm_vol.
  change (mul A) with b64_mul. change (div A) with b64_div. change (of_int A (Z.of_nat (length rs))) with (b64_of_Z (Z.of_nat (length rs))).
  assert (Q1 := pn_div _ _ _ _ _ _ _ _ _ _ 20 p_btotal (p_num rs NS) ltac:(lra) ltac:(sml) ltac:(lia) ltac:(lia)).
  assert (Q2 := pn_div _ _ _ _ _ _ _ _ _ _ (34 + 127 / 100 * num) (p_vol pw lg g dt HF r (brad_rad r Hr)) p_bavg ltac:(lra) ltac:(apply (Ku rs NS); lra) ltac:(lia) ltac:(lia)).
  assert (Q3 := pn_mul _ _ _ _ _ _ _ _ _ _ (57 + 13 / 10 * num) Q1 Q2 ltac:(rewrite u_val; lra) ltac:(apply (Ku rs NS); lra) ltac:(lia) ltac:(lia)).
  apply (pn_weaken _ _ _ _ _ (57 + 13 / 10 * num) (-590) 470) in Q3; [|lra|apply (Ku rs NS); lra|lia|lia].
  apply (pn_eq _ _ _ _ _ _ Q3). unfold bcountR. assert (SP := pn_pos _ _ _ _ _ p_bsum). field. split; lra.
Qed.

(** ring and volume *)
Lemma vol_ring : forall r, brad r -> 0 < bvolR r /\ bvolR r <= ringR pw lg g (B2R r) <= 4 * bvolR r.
Proof.
  intros r Hr. assert (P := pn_pos _ _ _ _ _ (p_bvol r Hr)). split; [exact P|]. destruct Hr as (F & R). revert P. unfold bvolR. assert (PP := c_PI_pos). assert (PZ := len_pos _ _ _ AZ). change (len (gdz A g)) with dz in PZ. assert (L := len_pos _ _ _ AR). change (len (gdr A g)) with dr in L.
  destruct (Rlt_dec dr (B2R r)) as [H|H]; intro P; [lra|]. unfold ringR.
  replace (2 * c_PI * B2R r * dr * dz) with (c_PI * B2R r * dz * (2 * dr)) by ring. replace (c_PI * B2R r * B2R r * dz) with (c_PI * B2R r * dz * B2R r) by ring.
  assert (0 < c_PI * B2R r * dz) by (apply Rmult_lt_0_compat; [apply Rmult_lt_0_compat|]; lra). split; [apply Rmult_le_compat_l; lra|].
  replace (4 * (c_PI * B2R r * dz * B2R r)) with (c_PI * B2R r * dz * (4 * B2R r)) by ring. apply Rmult_le_compat_l; lra.
Qed.
Lemma in_bsum : forall l r, Forall brad l -> In r l -> bvolR r <= rsum (map bvolR l).
Proof.
  induction l as [|y l IH]; intros r H I; [destruct I|]. inversion H as [|? ? H1 H2]. subst. cbn [map rsum]. destruct (vol_ring y H1) as (P & _).
  assert (P2 : 0 <= rsum (map bvolR l)). { clear - H2 AR AZ HF. induction H2 as [|z l Hz _ IH]; [cbn; lra|]. cbn [map rsum]. destruct (vol_ring z Hz). lra. }
  destruct I as [->|I]; [lra|]. specialize (IH r H2 I). lra.
Qed.
Lemma bsum_up : forall l, Forall brad l -> rsum (map bvolR l) <= INR (length l) * (c_PI * dr * dr * dz * 2097152).
Proof.
  assert (PP := c_PI_pos). assert (PZ := len_pos _ _ _ AZ). change (len (gdz A g)) with dz in PZ. assert (L := len_pos _ _ _ AR). change (len (gdr A g)) with dr in L.
  assert (NU : IZR (gn_r A g - 1) <= 1048576) by (destruct (fine_nr _ _ _ _ HF) as (_ & NU); apply (IZR_le _ 1048576); lia).
  intros l H. induction H as [|r l Hr _ IH]; [cbn; lra|]. change (length (r :: l)) with (S (length l)). rewrite S_INR. cbn [map rsum]. destruct (vol_ring r Hr) as (_ & V & _). destruct Hr as (_ & R).
  assert (ringR pw lg g (B2R r) <= c_PI * dr * dr * dz * 2097152); [|lra]. unfold ringR. replace (2 * c_PI * B2R r * dr * dz) with (c_PI * dr * dz * 2 * B2R r) by ring. replace (c_PI * dr * dr * dz * 2097152) with (c_PI * dr * dz * 2 * (1048576 * dr)) by ring.
  apply Rmult_le_compat_l; [apply Rmult_le_pos; [apply Rmult_le_pos; [apply Rmult_le_pos|]|]; lra|]. assert (IZR (gn_r A g - 1) * dr <= 1048576 * dr) by (apply Rmult_le_compat_r; lra). lra.
Qed.
Lemma bshare : forall r, brad r -> In r rs -> bp (-53) <= ringR pw lg g (B2R r) / bsum <= 4.
Proof.
  intros r Hr I. assert (N := num_range rs NS). assert (SP := pn_pos _ _ _ _ _ p_bsum). destruct (vol_ring r Hr) as (V0 & V1 & V2). assert (B1 := in_bsum rs r RS I). assert (B2 := bsum_up rs RS). fold bsum in *.
  assert (PP := c_PI_pos). assert (PZ := len_pos _ _ _ AZ). change (len (gdz A g)) with dz in PZ. assert (L := len_pos _ _ _ AR). change (len (gdr A g)) with dr in L. destruct Hr as (_ & R).
  set (w := c_PI * dr * dr * dz) in *. assert (W0 : 0 < w) by (unfold w; apply Rmult_lt_0_compat; [apply Rmult_lt_0_compat; [apply Rmult_lt_0_compat|]|]; lra).
  assert (RW : w <= ringR pw lg g (B2R r)). { unfold ringR. replace (2 * c_PI * B2R r * dr * dz) with (c_PI * dr * dz * (2 * B2R r)) by ring. unfold w. replace (c_PI * dr * dr * dz) with (c_PI * dr * dz * dr) by ring. apply Rmult_le_compat_l; [apply Rmult_le_pos; [apply Rmult_le_pos|]; lra|lra]. }
  split; apply Rmult_le_reg_r with bsum; try exact SP; unfold Rdiv; rewrite Rmult_assoc, Rinv_l, Rmult_1_r by lra.
  - apply Rle_trans with (bp (-53) * (num * (w * 2097152))); [apply Rmult_le_compat_l; [apply bpow_ge_0|exact B2]|]. apply Rle_trans with (2 := RW). replace (bp (-53)) with (/ 9007199254740992) by (cbn; lra).
    assert (num * w <= 2147483648 * w) by (apply Rmult_le_compat_r; lra). lra.
  - lra.
Qed.

Variables charge mass : b64.
Hypothesis HP : physical_particle charge mass.
Hypothesis H1 : 1 <= bT.
Lemma bweights : forall r, brad r -> In r rs -> let n := gbunch_count A g (gbunch_total A duration radius density velocity) rs r in
  let c := b64_mul charge n in let m := b64_mul mass n in fin c /\ fin m /\
  Rabs (B2R c - B2R charge * bcountR r) <= (59 + 13 / 10 * num) * u * (Rabs (B2R charge) * bcountR r) /\ Rabs (B2R m - B2R mass * bcountR r) <= (59 + 13 / 10 * num) * u * (B2R mass * bcountR r) /\
  sane c m /\ bp (-200) <= Rabs (B2R c) <= 5 * (Rabs (B2R charge) * bT).
Proof.
  intros r Hr I. assert (N := num_range rs NS). destruct (bshare r Hr I) as (S1 & S2). assert (P53 := bpow_gt_0 radix2 (-53)).
  replace (59 + 13 / 10 * num) with (57 + 13 / 10 * num + 2) by ring. apply b_weights; try assumption.
  - exact (p_bcount r Hr).
  - unfold bcountR. split; [rewrite <- (Rmult_1_l (bp (-53))); apply Rmult_le_compat; lra|]. replace (4 * bT) with (bT * 4) by ring. apply Rmult_le_compat_l; lra.
  - split; [exact H1|apply p_btotal].
  - lra.
  - replace (57 + 13 / 10 * num + 2) with (59 + 13 / 10 * num) by ring. apply (Ku rs NS); lra.
Qed.
End Bunch64.

(** ** The whole bunch *)
Lemma nth_combine2 : forall (T U : Type) (l : list T) (l' : list U) n y d, nth_error (combine l l') n = Some (y, d) -> nth_error l n = Some y.
Proof. exact nth_combine. Qed.
Lemma Forall2_len : forall (T U : Type) (P : T -> U -> Prop) l l', Forall2 P l l' -> length l = length l'.
Proof. intros T U P l l' H. induction H; cbn; congruence. Qed.
Lemma Forall2_right : forall (T U : Type) (P : T -> U -> Prop) (Q : U -> Prop) l l', Forall2 P l l' -> (forall a b, P a b -> Q b) -> Forall Q l'.
Proof. intros T U P Q l l' H HQ. induction H; constructor; eauto. Qed.
Lemma Forall2_nth : forall (T U : Type) (P : T -> U -> Prop) l l', Forall2 P l l' -> forall n a b, nth_error l n = Some a -> nth_error l' n = Some b -> P a b.
Proof. intros T U P l l' H. induction H as [|a b l l' H1 _ IH]; intros [|n] a' b' E1 E2; cbn in *; try discriminate; [injection E1 as <-; injection E2 as <-; exact H1|exact (IH n a' b' E1 E2)]. Qed.
Lemma nth_map_some : forall (T U : Type) (f : T -> U) l n b, nth_error (map f l) n = Some b -> exists a, nth_error l n = Some a /\ f a = b.
Proof. intros T U f l. induction l as [|a l IH]; intros [|n] b E; cbn in *; try discriminate; [injection E as <-; eauto|eauto]. Qed.
Lemma map_over_fst : forall (T U V : Type) (h : T -> V) (l : list T) (l' : list U), length l = length l' -> map (fun y => h (fst y)) (combine l l') = map h l.
Proof. intros T U V h l. induction l as [|y l IH]; intros [|y' l'] H; cbn in *; try discriminate; [reflexivity|]. rewrite IH by lia. reflexivity. Qed.
Lemma zrange_nth : forall k n, (n < k)%nat -> nth_error (zrange 0 (Z.of_nat k)) n = Some (Z.of_nat n).
Proof.
  intros k n H. unfold zrange. rewrite Z.sub_0_r, Nat2Z.id. rewrite nth_error_map. rewrite (nth_error_nth' _ 0%nat) by (rewrite seq_length; exact H). rewrite seq_nth by exact H. cbn [option_map Nat.add]. f_equal.
Qed.

Section Group.
Variables pw lg : b64 -> b64.
Notation A := (b64_arith pw lg).
Variable ipow : Z -> Z -> b64.
Hypothesis HI : good_ipow ipow.
Variables (g : ggeom A) (dt : b64).
Hypothesis HF : fine pw lg g dt.
Variable x : bunch64 pw lg.
Hypothesis HX : bunchable pw lg g x.
Let AR : axis (gn_r A g) (gr_size A g) (gdr A g). Proof. exact (Motion64P.axr pw lg g dt HF). Qed.
Notation number := (Z.of_nat (length (bn_draws pw lg x))).
Notation dr := (@B2R prec64 emax64 (gdr A g)).
Notation radius := (bn_radius pw lg x).
Notation total := (gbunch_total A (bn_duration pw lg x) (bn_radius pw lg x) (bn_density pw lg x) (bn_velocity pw lg x)).
Notation T := (bunch_physical pw lg x).
Definition one_ok (n : Z) (y : b64) : Prop := fraction y /\ Rabs (B2R y - val 9 n) <= bp (-44).

Lemma brands : exists rands, gbunch_rands A ipow (zrange 0 number) = Some rands /\ Forall2 one_ok (zrange 0 number) rands.
Proof.
  assert (S := bb_some _ _ _ _ HX). assert (G : forall ns, (forall n, In n ns -> (0 <= n < number)%Z) -> exists rands, gbunch_rands A ipow ns = Some rands /\ Forall2 one_ok ns rands).
  { induction ns as [|n ns IH]; intro H; [exists []; split; [reflexivity|constructor]|]. destruct IH as (l & E & F); [intros m Hm; apply H; now right|].
    assert (Hn := H n (or_introl eq_refl)). destruct (rr64 pw lg ipow HI 9 ltac:(lia) n ltac:(lia)) as (y & EY & FY & DY). exists (y :: l). cbn [gbunch_rands]. rewrite EY, E. split; [reflexivity|]. constructor; [split; assumption|exact F]. }
  apply G. intros n Hn. apply zrange_in in Hn. exact Hn.
Qed.

Definition bpart (rands : list b64) (r : b64) (d : draw A) : gparticle A :=
  gbunch_one A g (bn_charge pw lg x) (bn_mass pw lg x) total (map (gbunch_r A g radius) rands) r d.
Lemma bstructure : exists rands, Forall2 one_ok (zrange 0 number) rands /\
  bunch_loaded pw lg ipow g x (map (fun y => bpart rands (fst y) (snd y)) (combine (map (gbunch_r A g radius) rands) (bn_draws pw lg x))).
Proof. destruct brands as (rands & E & F). exists rands. split; [exact F|]. unfold bunch_loaded, gbunch_load. rewrite E. reflexivity. Qed.

Section Rands.
Variable rands : list b64.
Hypothesis HR : Forall2 one_ok (zrange 0 number) rands.
Notation rs := (map (gbunch_r A g radius) rands : list b64).
Lemma brs_length : length rs = length (bn_draws pw lg x).
Proof. transitivity (length rands); [apply map_length|]. assert (L := Forall2_len _ _ _ _ _ HR). unfold zrange in L. rewrite map_length, seq_length in L. lia. Qed.
Lemma brs_ok : Forall (brad pw lg g) rs.
Proof.
  destruct (bb_radius _ _ _ _ HX) as (FR & RR). destruct (bb_grid _ _ _ _ HX) as (N4 & _).
  assert (G := Forall2_right _ _ _ fraction _ _ HR (fun a b H => proj1 H)). apply Forall_forall. intros r I. apply in_map_iff in I. destruct I as (y & <- & Iy). rewrite Forall_forall in G. specialize (G y Iy).
  exact (proj1 (bunch_place pw lg g dt HF radius FR N4 RR y G)).
Qed.
Lemma brs_number : (1 <= Z.of_nat (length rs) < 2 ^ 31)%Z.
Proof. rewrite brs_length. exact (bb_some _ _ _ _ HX). Qed.

Lemma bpart_ok : forall r d, In r rs -> let p := bpart rands r d in waiting pw lg g p /\ deep pw lg g p /\ laden pw lg (5 * (Rabs (B2R (bn_charge pw lg x)) * T)) p /\
  Rabs (@B2R prec64 emax64 (gcharge A p) - B2R (bn_charge pw lg x) * bcountR pw lg g radius rs (bn_duration pw lg x) (bn_density pw lg x) (bn_velocity pw lg x) r)
    <= (59 + 13 / 10 * INR (length rs)) * u * (Rabs (B2R (bn_charge pw lg x)) * bcountR pw lg g radius rs (bn_duration pw lg x) (bn_density pw lg x) (bn_velocity pw lg x) r) /\
  Rabs (@B2R prec64 emax64 (gmass A p) - B2R (bn_mass pw lg x) * bcountR pw lg g radius rs (bn_duration pw lg x) (bn_density pw lg x) (bn_velocity pw lg x) r)
    <= (59 + 13 / 10 * INR (length rs)) * u * (B2R (bn_mass pw lg x) * bcountR pw lg g radius rs (bn_duration pw lg x) (bn_density pw lg x) (bn_velocity pw lg x) r).
Proof.
  intros r d I p. destruct (bb_radius _ _ _ _ HX) as (FR & RR). destruct (bb_grid _ _ _ _ HX) as (N4 & NZ).
  assert (RS := brs_ok). assert (Hr : brad pw lg g r) by (rewrite Forall_forall in RS; exact (RS r I)).
  destruct (bweights pw lg g dt HF radius FR RR rs RS brs_number _ _ _ (bb_duration _ _ _ _ HX) (bb_velocity _ _ _ _ HX) (bb_density _ _ _ _ HX) _ _ (bb_particle _ _ _ _ HX) (bb_one _ _ _ _ HX) r Hr I) as (FC & FM & EC & EM & SA & LA).
  destruct Hr as (F & R1 & R2). destruct (of_Z_exact 0 eq_refl) as (F0 & E0). assert (L := len_pos _ _ _ AR). change (len (gdr A g)) with dr in L.
  assert (M0 : moderate (b64_of_Z 0)) by (split; [exact F0|]; rewrite E0, Rabs_R0; apply bpow_ge_0). assert (P30 := bpow_gt_0 radix2 (-30)).
  split; [|split; [|split; [|split]]].
  - split; [reflexivity|]. split.
    + split; [exact F|]. cbv zeta. change (g0 A (gpos A (gph A p))) with r. split; [|lra]. assert (0 <= dr * bpow radix2 (-30)) by (apply Rmult_le_pos; lra). lra.
    + split; [exact F0|]. split; [exact E0|]. split; [exact M0|]. split; [exact M0|]. exact SA.
  - split; [exact NZ|]. cbv zeta. change (g0 A (gpos A (gph A p))) with r. exact R2.
  - split; [exact FC|exact LA].
  - exact EC.
  - exact EM.
Qed.
End Rands.

Theorem bunch_made : exists ps, bunch_loaded pw lg ipow g x ps /\ length ps = length (bn_draws pw lg x) /\
  Forall (fun p => waiting pw lg g p /\ deep pw lg g p /\ laden pw lg (5 * (Rabs (B2R (bn_charge pw lg x)) * T)) p) ps.
Proof.
  destruct bstructure as (rands & HR & E). eexists. split; [exact E|]. assert (LE := brs_length rands HR). split.
  - rewrite map_length, combine_length. change (length (map (gbunch_r A g radius) rands)) with (length (map (gbunch_r A g radius) rands : list b64)). rewrite LE. apply Nat.min_id.
  - apply Forall_forall. intros p Hp. apply in_map_iff in Hp. destruct Hp as ((r & d) & <- & I). apply in_combine_l in I. cbn [fst snd]. destruct (bpart_ok rands HR r d I) as (Q1 & Q2 & Q3 & _). auto.
Qed.

Variable ps : list (gparticle A).
Hypothesis HL : bunch_loaded pw lg ipow g x ps.
Lemma made_structure : exists rands, Forall2 one_ok (zrange 0 number) rands /\ ps = map (fun y => bpart rands (fst y) (snd y)) (combine (map (gbunch_r A g radius) rands) (bn_draws pw lg x)).
Proof. destruct bstructure as (rands & HR & E). exists rands. split; [exact HR|]. unfold bunch_loaded in *. rewrite E in HL. injection HL as <-. reflexivity. Qed.
Lemma made_length : length ps = length (bn_draws pw lg x).
Proof. destruct made_structure as (rands & HR & ->). assert (LE := brs_length rands HR). rewrite map_length, combine_length. change (length (map (gbunch_r A g radius) rands)) with (length (map (gbunch_r A g radius) rands : list b64)). rewrite LE. apply Nat.min_id. Qed.

Lemma made_place : forall n p, nth_error ps n = Some p -> Rabs (radius_of pw lg p - ((B2R radius - dr) * val 9 (Z.of_nat n) + dr / 2)) <= bp (-22) * dr.
Proof.
  intros n p Hn. assert (ML := made_length). destruct made_structure as (rands & HR & E). assert (LT : (n < length ps)%nat) by (apply nth_error_Some; congruence). rewrite E in Hn.
  apply nth_map_some in Hn. destruct Hn as ((r & d) & C & <-). cbn [fst snd]. apply nth_combine in C.
  apply nth_map_some in C. destruct C as (y & Y & <-).
  assert (O : one_ok (Z.of_nat n) y) by (apply (Forall2_nth _ _ _ _ _ HR n); [apply zrange_nth; lia|exact Y]). destruct O as (FY & DY).
  destruct (bb_radius _ _ _ _ HX) as (FR & RR). destruct (bb_grid _ _ _ _ HX) as (N4 & _). destruct (bunch_place pw lg g dt HF radius FR N4 RR y FY) as (_ & P).
  change (radius_of pw lg (bpart rands (gbunch_r A g radius y) d)) with (B2R (gbunch_r A g radius y : b64)).
  assert (L := len_pos _ _ _ AR). change (len (gdr A g)) with dr in L.
  assert (NU : IZR (gn_r A g - 2) <= 1048576) by (destruct (fine_nr _ _ _ _ HF) as (_ & NU); apply (IZR_le _ 1048576); lia).
  assert (SB : 0 <= B2R radius - dr <= 1048576 * dr) by (split; [lra|]; assert (IZR (gn_r A g - 2) * dr <= 1048576 * dr) by (apply Rmult_le_compat_r; lra); lra).
  assert (G : Rabs ((B2R radius - dr) * (B2R y - val 9 (Z.of_nat n))) <= 1048576 * dr * bp (-44)) by (rewrite Rabs_mult; apply Rmult_le_compat; auto using Rabs_pos; rewrite Rabs_pos_eq; lra).
  replace (bp (-44)) with (/ 17592186044416) in G by (cbn; lra). replace (bp (-23)) with (/ 8388608) in P by (cbn; lra). replace (bp (-22)) with (/ 4194304) by (cbn; lra). apply Rabs_le_inv in G, P. apply Rabs_le. lra.
Qed.

(** the weights: 2 r dr over the sum of what the constructor takes for volumes *)
Definition cell_volume (r : R) : R := if Rlt_dec dr r then 2 * r * dr else r * r.
Definition all_volumes : R := rsum (map (fun p => cell_volume (radius_of pw lg p)) ps).
Definition bshare_of (p : gparticle A) : R := T * (2 * radius_of pw lg p * dr / all_volumes).
Definition berr : R := (2 * INR (length ps) + 64) * bp (-53).

Lemma made_sum : forall rands, Forall2 one_ok (zrange 0 number) rands -> ps = map (fun y => bpart rands (fst y) (snd y)) (combine (map (gbunch_r A g radius) rands) (bn_draws pw lg x)) ->
  bsum pw lg g (map (gbunch_r A g radius) rands : list b64) = c_PI * @B2R prec64 emax64 (gdz A g) * all_volumes.
Proof.
  intros rands HR E. transitivity (rsum (map (fun y : b64 * draw A => bvolR pw lg g (fst y)) (combine (map (gbunch_r A g radius) rands : list b64) (bn_draws pw lg x)))).
  { unfold bsum. f_equal. symmetry. exact (map_over_fst _ _ _ (bvolR pw lg g) (map (gbunch_r A g radius) rands : list b64) (bn_draws pw lg x) (brs_length rands HR)). }
  transitivity (rsum (map (fun p => c_PI * @B2R prec64 emax64 (gdz A g) * cell_volume (radius_of pw lg p)) ps)); [|unfold all_volumes; apply rsum_times].
  f_equal. transitivity (map (fun p => c_PI * @B2R prec64 emax64 (gdz A g) * cell_volume (radius_of pw lg p)) (map (fun y => bpart rands (fst y) (snd y)) (combine (map (gbunch_r A g radius) rands) (bn_draws pw lg x)))); [|f_equal; symmetry; exact E].
  symmetry. etransitivity; [apply map_map|]. apply map_ext. intros (r & d). cbn [fst snd].
  change (radius_of pw lg (bpart rands r d)) with (B2R r). unfold bvolR, cell_volume, ringR. destruct (Rlt_dec dr (B2R r)); ring.
Qed.

Lemma made_weight : forall p, In p ps -> 0 < radius_of pw lg p /\ cell_volume (radius_of pw lg p) <= 2 * radius_of pw lg p * dr <= 4 * cell_volume (radius_of pw lg p) /\ 0 < cell_volume (radius_of pw lg p) /\ 0 < all_volumes /\
  Rabs (@B2R prec64 emax64 (gcharge A p) - B2R (bn_charge pw lg x) * bshare_of p) <= berr * (Rabs (B2R (bn_charge pw lg x)) * bshare_of p) /\
  Rabs (@B2R prec64 emax64 (gmass A p) - B2R (bn_mass pw lg x) * bshare_of p) <= berr * (B2R (bn_mass pw lg x) * bshare_of p).
Proof.
  intros p Hp. destruct made_structure as (rands & HR & E). assert (MS := made_sum rands HR E). assert (ML := made_length). assert (LE := brs_length rands HR). rewrite E in Hp. apply in_map_iff in Hp. destruct Hp as ((r & d) & <- & I). apply in_combine_l in I. cbn [fst snd].
  destruct (bpart_ok rands HR r d I) as (_ & _ & _ & EC & EM). assert (RS := brs_ok rands HR). assert (Hr : brad pw lg g r) by (rewrite Forall_forall in RS; exact (RS r I)).
  destruct (vol_ring pw lg g dt HF r Hr) as (V0 & V1 & V2). assert (NS := brs_number rands HR). assert (SP := pn_pos _ _ _ _ _ (p_bsum pw lg g dt HF _ RS NS)). rewrite MS in SP.
  assert (PP := c_PI_pos). assert (AZ := Motion64P.axz pw lg g dt HF). assert (PZ := len_pos _ _ _ AZ). change (len (gdz A g)) with (@B2R prec64 emax64 (gdz A g)) in PZ. assert (L := len_pos _ _ _ AR). change (len (gdr A g)) with dr in L.
  assert (W : 0 < c_PI * @B2R prec64 emax64 (gdz A g)) by (apply Rmult_lt_0_compat; assumption). assert (AP : 0 < all_volumes) by (apply Rmult_lt_reg_l with (1 := W); rewrite Rmult_0_r; exact SP).
  change (radius_of pw lg (bpart rands r d)) with (B2R r). set (p := bpart rands r d) in *.
  assert (BV : bvolR pw lg g r = c_PI * @B2R prec64 emax64 (gdz A g) * cell_volume (B2R r)) by (unfold bvolR, cell_volume, ringR; destruct (Rlt_dec dr (B2R r)); ring).
  assert (RV : ringR pw lg g (B2R r) = c_PI * @B2R prec64 emax64 (gdz A g) * (2 * B2R r * dr)) by (unfold ringR; ring). rewrite BV, RV in *.
  assert (CE : bcountR pw lg g radius (map (gbunch_r A g radius) rands : list b64) (bn_duration pw lg x) (bn_density pw lg x) (bn_velocity pw lg x) r = bshare_of p).
  { unfold bcountR, bshare_of. change (radius_of pw lg p) with (B2R r). rewrite RV, MS. change (bT radius (bn_duration pw lg x) (bn_density pw lg x) (bn_velocity pw lg x)) with T. clear - PP PZ AP. field. repeat split; apply Rgt_not_eq; assumption. }
  assert (RP : 0 < B2R r) by (destruct Hr as (_ & Hr & _); lra). assert (CV : 0 < cell_volume (B2R r)) by (apply Rmult_lt_reg_l with (1 := W); lra).
  assert (SH : 0 <= bshare_of p). { assert (O := bb_one _ _ _ _ HX). unfold bshare_of. change (radius_of pw lg p) with (B2R r). apply Rmult_le_pos; [lra|]. apply Rmult_le_pos; [apply Rmult_le_pos; lra|left; now apply Rinv_0_lt_compat]. }
  rewrite CE in EC, EM. assert (NR := num_range _ NS). change (length (map (gbunch_r A g radius) rands)) with (length (map (gbunch_r A g radius) rands : list b64)) in *. rewrite LE, <- ML in EC, EM, NR.
  assert (ER : (59 + 13 / 10 * INR (length ps)) * u <= berr) by (unfold berr; rewrite u_val; replace (bp (-53)) with (/ 9007199254740992) by (cbn; lra); lra).
  destruct (bb_particle _ _ _ _ HX) as (_ & _ & (M1 & _) & _). assert (PM := bpow_gt_0 radix2 (-200)).
  split; [exact RP|]. split; [split; apply Rmult_le_reg_l with (1 := W); lra|]. split; [exact CV|]. split; [exact AP|]. split.
  - apply Rle_trans with (1 := EC). apply Rmult_le_compat_r; [apply Rmult_le_pos; [apply Rabs_pos|exact SH]|exact ER].
  - apply Rle_trans with (1 := EM). apply Rmult_le_compat_r; [apply Rmult_le_pos; [lra|exact SH]|exact ER].
Qed.

(** The charge of the whole bunch is between once and four times the charge that was asked for. *)
Lemma made_total : let Qs := rsum (map (fun p => @B2R prec64 emax64 (gcharge A p)) ps) in let C := B2R (bn_charge pw lg x) in
  exists f, 1 <= f <= 4 /\ f = rsum (map (fun p => 2 * radius_of pw lg p * dr) ps) / all_volumes /\ Rabs (Qs - C * (T * f)) <= berr * (Rabs C * (T * f)) /\
  (Forall (fun p => dr < radius_of pw lg p) ps -> f = 1).
Proof.
  intros Qs C. assert (ML := made_length). assert (S1 := bb_some _ _ _ _ HX).
  assert (NE : exists p, In p ps). { destruct ps as [|p l]; [cbn in ML; lia|]. exists p. now left. }
  destruct NE as (p0 & I0). destruct (made_weight p0 I0) as (_ & _ & _ & AP & _).
  set (F := rsum (map (fun p => 2 * radius_of pw lg p * dr) ps)). exists (F / all_volumes).
  assert (SE : forall k, rsum (map (fun p => k * bshare_of p) ps) = k * (T * (F / all_volumes))).
  { intro k. unfold bshare_of. transitivity (rsum (map (fun p => k * T * / all_volumes * (2 * radius_of pw lg p * dr)) ps)); [f_equal; apply map_ext; intro p; field; lra|]. rewrite rsum_times. fold F. field. lra. }
  assert (FB : all_volumes <= F <= 4 * all_volumes).
  { unfold F, all_volumes. rewrite <- (rsum_times _ (fun p => cell_volume (radius_of pw lg p))). assert (W : forall p, In p ps -> cell_volume (radius_of pw lg p) <= 2 * radius_of pw lg p * dr <= 4 * cell_volume (radius_of pw lg p)) by (intros p Hp; apply (made_weight p Hp)).
    clear - W. induction ps as [|p l IH]; [cbn; lra|]. cbn [map rsum]. assert (W1 := W p (or_introl eq_refl)). assert (W2 := IH (fun q Hq => W q (or_intror Hq))). lra. }
  split; [|split; [reflexivity|split]].
  - split; apply Rmult_le_reg_r with all_volumes; try exact AP; unfold Rdiv; rewrite Rmult_assoc, Rinv_l, Rmult_1_r by lra; lra.
  - assert (CL := rsum_close _ (fun p => @B2R prec64 emax64 (gcharge A p)) (fun p => C * bshare_of p) (fun p => berr * Rabs C * bshare_of p) ps).
    rewrite !SE in CL. replace (berr * (Rabs C * (T * (F / all_volumes)))) with (berr * Rabs C * (T * (F / all_volumes))) by ring. apply CL. intros p Hp. destruct (made_weight p Hp) as (_ & _ & _ & _ & W & _). fold C in W. rewrite Rmult_assoc. exact W.
  - intro H. assert (FE : F = all_volumes). { unfold F, all_volumes. f_equal. apply map_ext_in. intros p Hp. rewrite Forall_forall in H. specialize (H p Hp). unfold cell_volume. destruct (Rlt_dec dr (radius_of pw lg p)); [reflexivity|contradiction]. }
    rewrite FE. field. lra.
Qed.
End Group.

(** ** The beam *)
Section Fired.
Variables pw lg : b64 -> b64.
Notation A := (b64_arith pw lg).
Variable ipow : Z -> Z -> b64.
Hypothesis HI : good_ipow ipow.
Lemma inject_rand_ok : forall x, is_finite (ginject_rand A ipow x : b64) = true /\ 0 <= B2R (ginject_rand A ipow x : b64) <= 1.
Proof.
  intro x. unfold ginject_rand. destruct (of_Z_exact 0 eq_refl) as (F0 & E0).
  destruct ((0 <=? x) && (x <? 2 ^ 31))%Z%bool eqn:B.
  - apply andb_true_iff in B. destruct B as (B1 & B2). apply Z.leb_le in B1. apply Z.ltb_lt in B2.
    destruct (rr64 pw lg ipow HI 11 ltac:(lia) x ltac:(lia)) as (y & E & (F & Y) & _). rewrite E. assert (P := bpow_gt_0 radix2 (-36)). split; [exact F|]. lra.
  - split; [exact F0|]. change (B2R (of_int A 0 : b64)) with (B2R (b64_of_Z 0)). rewrite E0. lra.
Qed.
Lemma fired_beam : forall c n t bs Q, fine pw lg (c_geom A c) (c_dt A c) -> fired pw lg ipow c n t bs Q ->
  Forall (laden pw lg Q) (beam pw lg c) /\ ((0 < c_bunches A c)%Z -> beam_ok pw lg c n t).
Proof.
  intros c n t bs Q HF HB. destruct HB as [B1 B2 B3 B4 B5 B6 B7 B8 B9 B10].
  assert (G : forall k, (0 <= k < c_bunches A c)%Z -> Forall (fun p => waiting pw lg (c_geom A c) p /\ deep pw lg (c_geom A c) p /\ laden pw lg Q p) (c_bunch A c k)).
  { intros k Hk. destruct (B1 k Hk) as (K1 & K2). destruct (bunch_made pw lg ipow HI (c_geom A c) (c_dt A c) HF (bs k) K1) as (ps & L & _ & F).
    unfold bunch_loaded in *. rewrite L in K2. injection K2 as <-. apply Forall_impl with (2 := F). intros p (W & Dp & LF & L1 & L2). split; [exact W|]. split; [exact Dp|]. split; [exact LF|]. split; [exact L1|]. apply Rle_trans with (1 := L2). exact (B3 k Hk). }
  split.
  - apply Forall_forall. intros p I. unfold beam in I. apply in_flat_map in I. destruct I as (k & Hk & I). apply zrange_in in Hk. specialize (G k Hk). rewrite Forall_forall in G. exact (proj2 (proj2 (G p I))).
  - intro HN. assert (H0 : (0 <= 0 < c_bunches A c)%Z) by lia. destruct (B2 0%Z H0) as (V & D & M). destruct (B1 0%Z H0) as (K1 & _). assert (P := bpow_gt_0 radix2 (-100)).
    constructor; try assumption.
    + destruct (bb_velocity _ _ _ _ K1) as (VF & VV). rewrite V in VF, VV. split; [exact VF|]. lra.
    + rewrite <- M. assert (S := bb_some _ _ _ _ K1). lia.
    + destruct (bb_duration _ _ _ _ K1) as (DF & DD). rewrite D in DF, DD. split; [exact DF|]. lra.
    + exists (ginject_rand A ipow). split; [exact B4|]. exact inject_rand_ok.
    + intros k Hk. apply Forall_impl with (2 := G k Hk). tauto.
    + intros k Hk. apply Forall_impl with (2 := G k Hk). tauto.
Qed.
End Fired.
