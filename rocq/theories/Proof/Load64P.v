(** Charge, mass and velocity of loaded particles in binary64. *)
From Coq Require Import ZArith Reals Lra Lia Psatz List Bool.
From Flocq Require Import Core IEEE754.BinarySingleNaN.
From Verif.Lib Require Import RAux Outcome Par.
From Verif.Model Require Import Binary64 Temperature64 Arith Constants GenCode GenRun GenSim GenLoad.
From Verif.Spec Require Import Double Loop64 Load64.
From Verif.Proof Require Import Binary64P FloatP Motion64R Axis64P Err64P Push64P Ana64P Leg64P RandP Rand64P Place64P BunchP DumpP.
Import ListNotations.
Local Open Scope R_scope.

(** ** Positive values with a relative error *)
Definition pn (x : b64) (X k : R) (a b : Z) : Prop := near x X X k /\ rg X a b.
Lemma pn_pos : forall x X k a b, pn x X k a b -> 0 < X.
Proof. intros x X k a b (_ & R). now apply rg_pos in R. Qed.
Lemma pn_mul : forall x X k a b y Y l c d K, pn x X k a b -> pn y Y l c d -> k + l + k * l * u + 5 / 4 <= K -> K * u <= / 1024 -> (-900 <= a + c)%Z -> (b + d <= 1000)%Z ->
  pn (b64_mul x y) (X * Y) K (a + c) (b + d).
Proof.
  intros x X k a b y Y l c d K (NX & RX) (NY & RY) HK HU H1 H2. assert (R := rg_mul _ _ _ _ _ _ RX RY). split; [|exact R].
  replace K with (K - 5 / 4 + 5 / 4) by lra. apply (near_mul _ _ _ _ _ _ _ _ (K - 5 / 4) NX NY); [lra|replace (K - 5 / 4 + 5 / 4) with K by lra; exact HU|]. now apply rg_weaken with (a + c)%Z (b + d)%Z.
Qed.
Lemma pn_div : forall x X k a b y Y l c d K, pn x X k a b -> pn y Y l c d -> (k + l) * (1 + / 1000) + 5 / 4 <= K -> K * u <= / 1024 -> (-900 <= a - d)%Z -> (b - c <= 1000)%Z ->
  pn (b64_div x y) (X / Y) K (a - d) (b - c).
Proof.
  intros x X k a b y Y l c d K (NX & RX) (NY & RY) HK HU H1 H2. assert (R := rg_div _ _ _ _ _ _ RX RY). split; [|exact R].
  replace K with (K - 5 / 4 + 5 / 4) by lra. apply (near_div _ _ _ _ _ _ _ (K - 5 / 4) NX NY); [now apply rg_pos in RY|lra|replace (K - 5 / 4 + 5 / 4) with K by lra; exact HU|]. now apply rg_weaken with (a - d)%Z (b - c)%Z.
Qed.
Lemma pn_add : forall x X k a b y Y l c d K, pn x X k a b -> pn y Y l c d -> k + 5 / 4 <= K -> l + 5 / 4 <= K -> K * u <= / 1024 -> (-900 <= Z.max a c)%Z -> (Z.max b d + 1 <= 1000)%Z ->
  pn (b64_add x y) (X + Y) K (Z.max a c) (Z.max b d + 1).
Proof.
  intros x X k a b y Y l c d K (NX & RX) (NY & RY) HK HL HU H1 H2. assert (R := rg_add _ _ _ _ _ _ RX RY). split; [|exact R].
  replace K with (K - 5 / 4 + 5 / 4) by lra. apply (near_add _ _ _ _ _ _ _ _ (K - 5 / 4) NX NY); [lra|lra|replace (K - 5 / 4 + 5 / 4) with K by lra; exact HU|]. now apply rg_weaken with (Z.max a c)%Z (Z.max b d + 1)%Z.
Qed.
Lemma pn_exact : forall (x : b64) a b, fin x -> bp a <= B2R x <= bp b -> pn x (B2R x) 0 a b.
Proof. intros x a b F R. split; [|exact R]. apply near_exact; [exact F|]. assert (P := bpow_gt_0 radix2 a). rewrite Rabs_pos_eq; lra. Qed.
Lemma pn_weaken : forall x X k a b k' a' b', pn x X k a b -> k <= k' -> k' * u <= / 1024 -> (a' <= a)%Z -> (b <= b')%Z -> pn x X k' a' b'.
Proof. intros x X k a b k' a' b' (N & R) HK HU HA HB. split; [apply near_weaken with X k; try assumption; lra|now apply rg_weaken with a b]. Qed.
Lemma pn_eq : forall x X k a b Y, pn x X k a b -> X = Y -> pn x Y k a b.
Proof. intros; subst; assumption. Qed.
Lemma pn_Z : forall m a b, (0 < m < 2 ^ 53)%Z -> bp a <= IZR m <= bp b -> pn (b64_of_Z m) (IZR m) 0 a b.
Proof. intros m a b Hm R. destruct (of_Z_exact m) as (F & E); [lia|]. rewrite <- E. apply pn_exact; [exact F|rewrite E; exact R]. Qed.
Lemma pn_PI : pn (b64_lit 7853981633974483 2500000000000000) c_PI 2 1 2.
Proof.
  destruct good_PI as (N & R & _). cbn [s_k s_lo s_hi] in N, R. split; [|exact R]. apply near_weaken with c_PI (7 / 4); try (rewrite u_val; lra); try lra. exact N.
Qed.

Section Charges.
Variables pw lg : b64 -> b64.
Notation A := (b64_arith pw lg).
Variables (g : ggeom A) (dt : b64).
Hypothesis HF : fine pw lg g dt.
Let AR : axis (gn_r A g) (gr_size A g) (gdr A g). Proof. exact (Motion64P.axr pw lg g dt HF). Qed.
Let AZ : axis (gn_z A g) (gz_size A g) (gdz A g). Proof. exact (Motion64P.axz pw lg g dt HF). Qed.
Notation dr := (@B2R prec64 emax64 (gdr A g)).
Notation dz := (@B2R prec64 emax64 (gdz A g)).
Notation rsize := (@B2R prec64 emax64 (gr_size A g)).
Notation zsize := (@B2R prec64 emax64 (gz_size A g)).

Lemma p_dr : pn (gdr A g) dr 0 (-30) 10.
Proof. apply pn_exact; [exact (fin_d _ _ _ AR)|]. split; [apply (ax_lo _ _ _ AR)|apply (ax_hi _ _ _ AR)]. Qed.
Lemma p_dz : pn (gdz A g) dz 0 (-30) 10.
Proof. apply pn_exact; [exact (fin_d _ _ _ AZ)|]. split; [apply (ax_lo _ _ _ AZ)|apply (ax_hi _ _ _ AZ)]. Qed.
Lemma size_range : forall n (s d : b64), axis n s d -> pn s (B2R s) 0 (-30) 31.
Proof.
  intros n s d AX. apply pn_exact; [exact (ax_fin _ _ _ AX)|]. assert (S := size_ok _ _ _ AX). apply Rabs_le_inv in S. assert (T := top_hi _ _ _ AX). assert (L := len_lo _ _ _ AX). assert (Lh := len_hi _ _ _ AX). assert (Q := q_bounds _ _ _ AX). assert (T2 := top_lo _ _ _ AX).
  rewrite bp_m30. change (bp 31) with 2147483648. lra.
Qed.
Lemma p_rs : pn (gr_size A g) rsize 0 (-30) 31. Proof. exact (size_range _ _ _ AR). Qed.
Lemma p_zs : pn (gz_size A g) zsize 0 (-30) 31. Proof. exact (size_range _ _ _ AZ). Qed.
Lemma p_2 : pn (b64_of_Z 2) 2 0 1 1. Proof. apply (pn_Z 2); [lia|cbn; lra]. Qed.
Lemma p_4 : pn (b64_of_Z 4) 4 0 2 2. Proof. apply (pn_Z 4); [lia|cbn; lra]. Qed.

(** a radius as it is loaded *)
Definition rad (r : b64) : Prop := fin r /\ len (gdr A g) / 2 <= B2R r <= top (gn_r A g) (gdr A g) - len (gdr A g) / 2 + 6 * q (gdr A g).
Lemma p_rad : forall r, rad r -> pn r (B2R r) 0 (-31) 31.
Proof.
  intros r (F & R). apply pn_exact; [exact F|]. assert (T := top_hi _ _ _ AR). assert (L := len_lo _ _ _ AR). assert (Lh := len_hi _ _ _ AR). assert (Q := q_bounds _ _ _ AR).
  replace (bp (-31)) with (/ 2147483648) by (cbn; lra). change (bp 31) with 2147483648. lra.
Qed.
Definition ringR (r : R) : R := 2 * c_PI * r * dr * dz.
Ltac sml := rewrite ?u_val; lra.
Lemma p_ring : forall r, rad r -> pn (gring A g r) (ringR (B2R r)) 15 (-89) 54.
Proof.
  intros r Hr. unfold gring, ringR. change (mul A) with b64_mul. change (gPI A) with (b64_lit 7853981633974483 2500000000000000). change (of_int A 2) with (b64_of_Z 2).
  assert (P1 := pn_mul _ _ _ _ _ _ _ _ _ _ 4 p_2 pn_PI ltac:(sml) ltac:(sml) ltac:(lia) ltac:(lia)).
  assert (P2 := pn_mul _ _ _ _ _ _ _ _ _ _ 6 P1 (p_rad r Hr) ltac:(sml) ltac:(sml) ltac:(lia) ltac:(lia)).
  assert (P3 := pn_mul _ _ _ _ _ _ _ _ _ _ 8 P2 p_dr ltac:(sml) ltac:(sml) ltac:(lia) ltac:(lia)).
  assert (P4 := pn_mul _ _ _ _ _ _ _ _ _ _ 10 P3 p_dz ltac:(sml) ltac:(sml) ltac:(lia) ltac:(lia)).
  apply (pn_weaken _ _ _ _ _ _ _ _ P4); [lra|sml|lia|lia].
Qed.

(** lines 320-323: the volume, in both branches *)
Definition gvol (r : b64) : b64 :=
  if ltb A (div A (gdr A g) (of_int A 2)) r then gring A g r
  else mul A (mul A (gPI A) (add A (add A (mul A r r) (mul A r (gdr A g))) (div A (mul A (gdr A g) (gdr A g)) (of_int A 4)))) (gdz A g).
Lemma gnorm_vol : forall v r, gnorm A g v r = div A (gvol r) v.
Proof. intros v r. unfold gnorm, gvol, gring. destruct (ltb A (div A (gdr A g) (of_int A 2)) r); reflexivity. Qed.
Lemma p_vol : forall r, rad r -> pn (gvol r) (ringR (B2R r)) 15 (-89) 54.
Proof.
  intros r Hr. unfold gvol. destruct (ltb A (div A (gdr A g) (of_int A 2)) r) eqn:E; [now apply p_ring|].
  destruct Hr as (F & R). destruct (half_exact _ _ _ AR) as (FH & EH). 
  assert (RE : B2R r = dr / 2).
  { destruct (Rle_lt_or_eq_dec (dr / 2) (B2R r)) as [H|H]; [apply R| |lra]. exfalso.
    assert (ltb A (div A (gdr A g) (of_int A 2)) r = true); [|congruence]. change (ltb A) with (@Bltb prec64 emax64). apply ltb_ok; [exact FH|exact F|]. change (div A (gdr A g) (of_int A 2)) with (b64_div (gdr A g) (b64_of_Z 2)). rewrite EH. exact H. }
  assert (PR := p_rad r (conj F R)).
  change (mul A) with b64_mul. change (add A) with b64_add. change (div A) with b64_div. change (gPI A) with (b64_lit 7853981633974483 2500000000000000). change (of_int A 4) with (b64_of_Z 4).
  assert (Q1 := pn_mul _ _ _ _ _ _ _ _ _ _ 2 PR PR ltac:(sml) ltac:(sml) ltac:(lia) ltac:(lia)).
  assert (Q2 := pn_mul _ _ _ _ _ _ _ _ _ _ 2 PR p_dr ltac:(sml) ltac:(sml) ltac:(lia) ltac:(lia)).
  assert (Q3 := pn_add _ _ _ _ _ _ _ _ _ _ 4 Q1 Q2 ltac:(sml) ltac:(sml) ltac:(sml) ltac:(lia) ltac:(lia)).
  assert (Q4 := pn_mul _ _ _ _ _ _ _ _ _ _ 2 p_dr p_dr ltac:(sml) ltac:(sml) ltac:(lia) ltac:(lia)).
  assert (Q5 := pn_div _ _ _ _ _ _ _ _ _ _ 4 Q4 p_4 ltac:(sml) ltac:(sml) ltac:(lia) ltac:(lia)).
  assert (Q6 := pn_add _ _ _ _ _ _ _ _ _ _ 6 Q3 Q5 ltac:(sml) ltac:(sml) ltac:(sml) ltac:(lia) ltac:(lia)).
  assert (Q7 := pn_mul _ _ _ _ _ _ _ _ _ _ 10 pn_PI Q6 ltac:(sml) ltac:(sml) ltac:(lia) ltac:(lia)).
  assert (Q8 := pn_mul _ _ _ _ _ _ _ _ _ _ 12 Q7 p_dz ltac:(sml) ltac:(sml) ltac:(lia) ltac:(lia)).
  destruct Q8 as (N8 & _). destruct (p_ring r (conj F R)) as (_ & RR). split; [|exact RR].
  assert (E8 : c_PI * (B2R r * B2R r + B2R r * dr + dr * dr / 4) * dz = ringR (B2R r)) by (unfold ringR; rewrite RE; field).
  rewrite E8 in N8. apply near_weaken with (ringR (B2R r)) 12; [exact N8|lra|lra|sml].
Qed.

(** line 306 over all particles *)
Definition sum_r (rs : list b64) : R := rsum (map (fun r : b64 => B2R r) rs).
Lemma p_sum : forall rs (s : b64) S k, Forall rad rs -> near s S S k -> 0 <= S -> 15 <= k -> S <= bp 500 -> (k + 5 / 4 * INR (length rs)) * u <= / 1024 -> INR (length rs) <= bp 31 ->
  near (fold_left (fun x r => add A x (gring A g r)) rs s) (S + 2 * c_PI * dr * dz * sum_r rs) (S + 2 * c_PI * dr * dz * sum_r rs) (k + 5 / 4 * INR (length rs)).
Proof.
  assert (U := u_pos). enough (H : forall rs (s : b64) S k B, Forall rad rs -> near s S S k -> 0 <= S -> 15 <= k -> S + INR (length rs) * bp 54 <= B -> B <= bp 600 -> (k + 5 / 4 * INR (length rs)) * u <= / 1024 ->
    near (fold_left (fun x r => add A x (gring A g r)) rs s) (S + 2 * c_PI * dr * dz * sum_r rs) (S + 2 * c_PI * dr * dz * sum_r rs) (k + 5 / 4 * INR (length rs))).
  { intros rs s S k HR HS S0 HK SB HU HL. apply (H rs s S k (bp 500 + bp 31 * bp 54)); try assumption.
    - apply Rplus_le_compat; [exact SB|apply Rmult_le_compat_r; [apply bpow_ge_0|exact HL]].
    - rewrite <- bpow_plus. apply Rle_trans with (bp 500 + bp 500); [apply Rplus_le_compat_l, bpow_le; lia|]. replace (bp 500 + bp 500) with (bp 501) by (change 501%Z with (500 + 1)%Z; rewrite bp_succ; lra). apply bpow_le. lia. }
  induction rs as [|r rs IH]; intros s S k B HR HS S0 HK SB BB HU.
  - cbn [length INR fold_left]. unfold sum_r. cbn [map rsum]. rewrite !Rmult_0_r, !Rplus_0_r. exact HS.
  - inversion HR as [|? ? H1 H2]. subst. change (length (r :: rs)) with (Datatypes.S (length rs)) in *. rewrite S_INR in *. cbn [fold_left]. unfold sum_r. cbn [map rsum]. fold (sum_r rs).
    assert (PL : 0 <= INR (length rs)) by apply pos_INR. destruct (p_ring r H1) as (NR & RR). assert (RP := rg_pos _ _ _ RR). assert (B54 := bpow_gt_0 radix2 54).
    assert (KU : (k + 5 / 4) * u <= / 1024) by (apply Rle_trans with (2 := HU); apply Rmult_le_compat_r; lra).
    assert (N1 : near (b64_add s (gring A g r)) (S + ringR (B2R r)) (S + ringR (B2R r)) (k + 5 / 4)).
    { apply (near_add _ _ _ _ _ _ _ _ k HS NR); try lra. destruct RR as (R1 & R2). split; [apply Rle_trans with (bp (-89)); [apply bpow_le; lia|lra]|].
      apply Rle_trans with (bp 600); [|apply bpow_le; lia]. nra. }
    assert (RU : ringR (B2R r) <= bp 54) by apply RR.
    specialize (IH (b64_add s (gring A g r)) (S + ringR (B2R r)) (k + 5 / 4) B H2 N1 ltac:(lra) ltac:(lra) ltac:(lra) BB).
    replace (k + 5 / 4 * (INR (length rs) + 1)) with (k + 5 / 4 + 5 / 4 * INR (length rs)) in * by lra.
    replace (S + 2 * c_PI * dr * dz * (B2R r + sum_r rs)) with (S + ringR (B2R r) + 2 * c_PI * dr * dz * sum_r rs) by (unfold ringR; ring). apply IH. exact HU.
Qed.

Variable rs : list b64.
Hypothesis RS : Forall rad rs.
Hypothesis NS : (1 <= Z.of_nat (length rs) < 2 ^ 31)%Z.
Notation num := (INR (length rs)).
Lemma num_range : 1 <= num <= 2147483648.
Proof. rewrite INR_IZR_INZ. split; apply IZR_le; cbn in *; lia. Qed.
Lemma p_num : pn (b64_of_Z (Z.of_nat (length rs))) num 0 0 31.
Proof. rewrite INR_IZR_INZ. apply pn_Z; [cbn in *; lia|]. assert (N := num_range). rewrite INR_IZR_INZ in N. change (bp 0) with 1. change (bp 31) with 2147483648. exact N. Qed.

Lemma sum_range : len (gdr A g) / 2 * num <= sum_r rs <= 1048576 * len (gdr A g) * num /\ len (gdr A g) / 2 <= sum_r rs.
Proof.
  assert (T := top_hi _ _ _ AR). assert (L := len_pos _ _ _ AR). assert (Q := q_bounds _ _ _ AR).
  assert (H : forall l, Forall rad l -> len (gdr A g) / 2 * INR (length l) <= sum_r l <= 1048576 * len (gdr A g) * INR (length l)).
  { induction l as [|r l IH]; intro HL; [cbn; lra|]. inversion HL as [|? ? H1 H2]. subst. specialize (IH H2). change (length (r :: l)) with (S (length l)). rewrite S_INR. unfold sum_r. cbn [map rsum]. fold (sum_r l). destruct H1 as (_ & R). lra. }
  specialize (H rs RS). split; [exact H|]. assert (N := num_range). nra.
Qed.

Definition volR : R := 2 * c_PI * dr * dz * sum_r rs.
Lemma p_vsum : pn (gv_sum A g rs) volR (15 + 5 / 4 * num) (-89) 85.
Proof.
  assert (N := num_range). destruct sum_range as (SR1 & SR2). split.
  - assert (Z0 : near (b64_of_Z 0) 0 0 15).
    { destruct (of_Z_exact 0 eq_refl) as (F & E). split; [exact F|]. split; [rewrite u_val; lra|]. rewrite E, Rminus_0_r, Rabs_R0. split; [lra|]. rewrite Rmult_0_r. lra. }
    assert (P := p_sum rs (b64_of_Z 0) 0 15 RS Z0 ltac:(lra) ltac:(lra) ltac:(apply bpow_ge_0)). rewrite !Rplus_0_l in P. apply P; [rewrite u_val; lra|change (bp 31) with 2147483648; lra].
  - assert (PD := pn_pos _ _ _ _ _ p_dr). assert (PZ := pn_pos _ _ _ _ _ p_dz).
    assert (H : rg (2 * c_PI * (1 + 0) * dr * dz) (1 + 1 + 0 + -30 + -30) (1 + 2 + 0 + 10 + 10)).
    { apply rg_mul; [apply rg_mul; [apply rg_mul; [apply rg_mul|]|]|]; [apply p_2|apply pn_PI|split; cbn; lra|apply p_dr|apply p_dz]. }
    assert (H2 : rg (sum_r rs) (-31) 61).
    { assert (L := len_lo _ _ _ AR). assert (Lh := len_hi _ _ _ AR). split; [replace (bp (-31)) with (/ 2147483648) by (cbn; lra); lra|].
      apply Rle_trans with (1048576 * 1024 * 2147483648); [apply Rle_trans with (1 := proj2 SR1); apply Rmult_le_compat; lra|]. change (bp 61) with 2305843009213693952. lra. }
    assert (K := rg_mul _ _ _ _ _ _ H H2). replace volR with (2 * c_PI * (1 + 0) * dr * dz * sum_r rs) by (unfold volR; ring). apply (rg_weaken _ _ _ _ _ K); lia.
Qed.

Lemma Ku : forall a b, 0 <= a <= 1000 -> 0 <= b <= 100 -> (a + b * num) * u <= / 1024.
Proof. intros a b HA HB. assert (N := num_range). rewrite u_val. assert (b * num <= 100 * 2147483648) by (apply Rmult_le_compat; lra). lra. Qed.

Lemma p_vavg : pn (gv_avg A g rs) (volR / num) (17 + 126 / 100 * num) (-120) 85.
Proof.
  assert (N := num_range). unfold gv_avg. assert (P := pn_div _ _ _ _ _ _ _ _ _ _ (17 + 126 / 100 * num) p_vsum p_num ltac:(lra) ltac:(apply Ku; lra) ltac:(lia) ltac:(lia)). exact P.
Qed.

Variables n1 n2 : b64.
Hypothesis HD : densities n1 n2.
Lemma p_total : pn (gn_total A g n1 n2) (physical pw lg g n1 n2) 18 (-190) 195.
Proof.
  destruct HD as (F1 & F2 & D1 & D2 & PP & _). assert (P100 := bpow_gt_0 radix2 (-100)). assert (PU := bpow_gt_0 radix2 100).
  assert (V101 : bp 101 = 2 * bp 100) by (rewrite <- bp_succ; reflexivity).
  assert (S1 : pn (b64_add n1 n2) (B2R n1 + B2R n2) (5 / 4) (-100) 101).
  { assert (RG : rg (B2R n1 + B2R n2) (-100) 101) by (split; [destruct D1, D2; lra|rewrite V101; destruct D1, D2; lra]). split; [|exact RG].
    replace (5 / 4) with (0 + 5 / 4) by lra. apply (near_add n1 (B2R n1) (B2R n1) 0 n2 (B2R n2) (B2R n2) 0 0); try lra; try (rewrite u_val; lra).
    - apply near_exact; [exact F1|rewrite Rabs_pos_eq; [lra|destruct D1; lra]].
    - apply near_exact; [exact F2|rewrite Rabs_pos_eq; [lra|destruct D2; lra]].
    - apply (rg_weaken _ _ _ _ _ RG); lia. }
  unfold gn_total, physical. cbv zeta. change (mul A) with b64_mul. change (add A) with b64_add. change (div A) with b64_div. change (gPI A) with (b64_lit 7853981633974483 2500000000000000). change (of_int A 2) with (b64_of_Z 2).
  assert (Q1 := pn_div _ _ _ _ _ _ _ _ _ _ 3 S1 p_2 ltac:(sml) ltac:(sml) ltac:(lia) ltac:(lia)).
  assert (Q2 := pn_mul _ _ _ _ _ _ _ _ _ _ 7 Q1 pn_PI ltac:(sml) ltac:(sml) ltac:(lia) ltac:(lia)).
  assert (Q3 := pn_mul _ _ _ _ _ _ _ _ _ _ 9 Q2 p_rs ltac:(sml) ltac:(sml) ltac:(lia) ltac:(lia)).
  assert (Q4 := pn_mul _ _ _ _ _ _ _ _ _ _ 11 Q3 p_rs ltac:(sml) ltac:(sml) ltac:(lia) ltac:(lia)).
  assert (Q5 := pn_mul _ _ _ _ _ _ _ _ _ _ 13 Q4 p_zs ltac:(sml) ltac:(sml) ltac:(lia) ltac:(lia)).
  assert (Q6 := pn_weaken _ _ _ _ _ 18 (-190) 195 Q5 ltac:(lra) ltac:(sml) ltac:(lia) ltac:(lia)).
  apply (pn_eq _ _ _ _ _ _ Q6). unfold c_PI. cbn [pow]. ring.
Qed.

(** the number of physical particles in a macroparticle *)
Definition countR (r : b64) : R := physical pw lg g n1 n2 * (B2R r / sum_r rs).
Lemma p_count : forall r, rad r -> pn (gn_per_macro A g n1 n2 rs r) (countR r) (57 + 13 / 10 * num) (-395) 369.
Proof.
  intros r Hr. assert (N := num_range). unfold gn_per_macro. rewrite gnorm_vol.
  change (mul A) with b64_mul. change (div A) with b64_div. change (of_int A (Z.of_nat (length rs))) with (b64_of_Z (Z.of_nat (length rs))).
  assert (Q1 := pn_div _ _ _ _ _ _ _ _ _ _ 20 p_total p_num ltac:(lra) ltac:(sml) ltac:(lia) ltac:(lia)).
  assert (Q2 := pn_div _ _ _ _ _ _ _ _ _ _ (34 + 127 / 100 * num) (p_vol r Hr) p_vavg ltac:(lra) ltac:(apply Ku; lra) ltac:(lia) ltac:(lia)).
  assert (Q3 := pn_mul _ _ _ _ _ _ _ _ _ _ (57 + 13 / 10 * num) Q1 Q2 ltac:(rewrite u_val; lra) ltac:(apply Ku; lra) ltac:(lia) ltac:(lia)).
  apply (pn_weaken _ _ _ _ _ (57 + 13 / 10 * num) (-395) 369) in Q3; [|lra|apply Ku; lra|lia|lia].
  apply (pn_eq _ _ _ _ _ _ Q3). unfold countR, volR, ringR. destruct sum_range as (_ & SR). assert (L := len_pos _ _ _ AR). assert (PD := pn_pos _ _ _ _ _ p_dr). assert (PZ := pn_pos _ _ _ _ _ p_dz). assert (PP := c_PI_pos).
  field. repeat split; lra.
Qed.

Lemma share_range : forall r, rad r -> In r rs -> bp (-53) <= B2R r / sum_r rs <= 1.
Proof.
  intros r (F & R) I. destruct sum_range as (SR1 & SR2). assert (L := len_pos _ _ _ AR). assert (N := num_range). assert (SP : 0 < sum_r rs) by lra. split.
  - apply Rmult_le_reg_r with (sum_r rs); [exact SP|]. unfold Rdiv. rewrite Rmult_assoc, Rinv_l, Rmult_1_r by lra. apply Rle_trans with (len (gdr A g) / 2); [|apply R].
    apply Rle_trans with (bp (-53) * (1048576 * len (gdr A g) * 2147483648)); [apply Rmult_le_compat_l; [apply bpow_ge_0|]; apply Rle_trans with (1 := proj2 SR1); apply Rmult_le_compat_l; lra|].
    replace (bp (-53)) with (/ 9007199254740992) by (cbn; lra). lra.
  - apply Rmult_le_reg_r with (sum_r rs); [exact SP|]. unfold Rdiv. rewrite Rmult_assoc, Rinv_l, Rmult_1_r, Rmult_1_l by lra.
    assert (H : forall l, Forall rad l -> In r l -> B2R r <= sum_r l).
    { induction l as [|x l IH]; intros HL HI; [destruct HI|]. inversion HL as [|? ? H1 H2]. subst. unfold sum_r. cbn [map rsum]. fold (sum_r l).
      assert (P : forall l', Forall rad l' -> 0 <= sum_r l'). { induction l' as [|y l' IH']; intro HL'; [cbn; lra|]. inversion HL' as [|? ? G1 G2]. subst. specialize (IH' G2). unfold sum_r. cbn [map rsum]. fold (sum_r l'). destruct G1 as (_ & ?). lra. }
      destruct HI as [->|HI]; [assert (G := P l H2); lra|]. specialize (IH H2 HI). destruct H1 as (_ & ?). lra. }
    exact (H rs RS I).
Qed.

(** ** Charge and mass *)
Variables charge mass : b64.
Hypothesis HP : physical_particle charge mass.
Hypothesis H1 : 1 <= physical pw lg g n1 n2.
Notation T := (physical pw lg g n1 n2).

Lemma mass_times : forall (x : b64) r, rad r -> fin x -> bp (-300) <= Rabs (B2R x) <= bp 200 ->
  near (b64_mul x (gn_per_macro A g n1 n2 rs r)) (B2R x * countR r) (Rabs (B2R x) * countR r) (59 + 13 / 10 * num).
Proof.
  intros x r Hr Fx RX. assert (N := num_range). destruct (p_count r Hr) as (NC & RC). assert (NX := near_exact x (Rabs (B2R x)) Fx (Rle_refl _)).
  assert (M := near_mul _ _ _ _ _ _ _ _ (57 + 13 / 10 * num) NX NC ltac:(lra)). apply near_weaken with (Rabs (B2R x) * countR r) (57 + 13 / 10 * num + 5 / 4); [|lra|lra|apply Ku; lra].
  apply M; [replace (57 + 13 / 10 * num + 5 / 4) with (57 + 5 / 4 + 13 / 10 * num) by lra; apply Ku; lra|]. apply rg_weaken with (-300 + -395)%Z (200 + 369)%Z; [now apply rg_mul|lia|lia].
Qed.

Lemma weights : forall r, rad r -> In r rs ->
  let c := b64_mul charge (gn_per_macro A g n1 n2 rs r) in let m := b64_mul mass (gn_per_macro A g n1 n2 rs r) in
  fin c /\ fin m /\
  Rabs (B2R c - B2R charge * countR r) <= (59 + 13 / 10 * num) * u * (Rabs (B2R charge) * countR r) /\
  Rabs (B2R m - B2R mass * countR r) <= (59 + 13 / 10 * num) * u * (B2R mass * countR r) /\
  sane c m /\ bp (-200) <= Rabs (B2R c) <= 2 * (Rabs (B2R charge) * T).
Proof.
  intros r Hr I c m. destruct HP as (FC & FM & (M1 & M2) & (C1 & C2)). assert (PM := bpow_gt_0 radix2 (-200)). assert (N := num_range).
  assert (NC := mass_times charge r Hr FC). assert (NM := mass_times mass r Hr FM). fold c in NC. fold m in NM. rewrite (Rabs_pos_eq (B2R mass)) in NM by lra.
  destruct NC as (Fc & (_ & KC) & _ & EC).
  { split; [apply Rle_trans with (2 := C1); apply bpow_le; lia|]. apply Rle_trans with (1 := C2). apply Rle_trans with (bp 49 * bp 100); [apply Rmult_le_compat_l; [apply bpow_ge_0|exact M2]|]. rewrite <- bpow_plus. apply bpow_le. lia. }
  destruct NM as (Fm & _ & _ & EM).
  { split; [apply Rle_trans with (2 := M1)|apply Rle_trans with (1 := M2)]; apply bpow_le; lia. }
  split; [exact Fc|]. split; [exact Fm|]. split; [exact EC|]. split; [exact EM|].
  destruct (share_range r Hr I) as (S1 & S2). assert (P53 := bpow_gt_0 radix2 (-53)).
  assert (CR : bp (-53) <= countR r <= T) by (unfold countR; split; [|rewrite <- (Rmult_1_r T) at 2; apply Rmult_le_compat_l; lra]; rewrite <- (Rmult_1_l (bp (-53))); apply Rmult_le_compat; lra).
  assert (TU : T <= bp 195) by apply p_total.
  set (k := (59 + 13 / 10 * num) * u) in *. assert (K0 : 0 <= k <= / 1024) by (split; [apply Rmult_le_pos; [lra|apply Rlt_le, u_pos]|exact KC]).
  set (n := countR r) in *. set (ac := Rabs (B2R charge)) in *. assert (P100 := bpow_gt_0 radix2 (-100)).
  assert (AC : (1 - / 1024) * (ac * n) <= Rabs (B2R c) <= (1 + / 1024) * (ac * n)).
  { assert (AE : Rabs (B2R charge * n) = ac * n) by (unfold ac; rewrite Rabs_mult, (Rabs_pos_eq n) by lra; reflexivity).
    assert (T1 := Rabs_triang_inv (B2R charge * n) (B2R c)). assert (T2 := Rabs_triang_inv (B2R c) (B2R charge * n)). rewrite Rabs_minus_sym in T1. rewrite AE in *.
    assert (0 <= ac * n) by (apply Rmult_le_pos; lra). assert (k * (ac * n) <= / 1024 * (ac * n)) by (apply Rmult_le_compat_r; lra). lra. }
  assert (AM : (1 - / 1024) * (B2R mass * n) <= B2R m <= (1 + / 1024) * (B2R mass * n)).
  { apply Rabs_le_inv in EM. assert (0 <= B2R mass * n) by (apply Rmult_le_pos; lra). assert (k * (B2R mass * n) <= / 1024 * (B2R mass * n)) by (apply Rmult_le_compat_r; lra). lra. }
  assert (V50 : bp 50 = 2 * bp 49) by (rewrite <- bp_succ; reflexivity). assert (P49 := bpow_gt_0 radix2 49).
  assert (MN : bp (-253) <= B2R mass * n) by (apply Rle_trans with (bp (-200) * bp (-53)); [rewrite <- bpow_plus; apply bpow_le; lia|apply Rmult_le_compat; lra]).
  assert (MN2 : B2R mass * n <= bp 295) by (apply Rle_trans with (bp 100 * bp 195); [apply Rmult_le_compat; lra|rewrite <- bpow_plus; apply bpow_le; lia]).
  assert (P253 := bpow_gt_0 radix2 (-253)). assert (P295 := bpow_gt_0 radix2 295).
  split.
  - split; [exact Fc|]. split; [exact Fm|]. split; [split|].
    + apply Rle_trans with (bp (-254)); [apply bpow_le; lia|]. assert (bp (-253) = 2 * bp (-254)) by (rewrite <- bp_succ; reflexivity). lra.
    + apply Rle_trans with (bp 296); [|apply bpow_le; lia]. assert (bp 296 = 2 * bp 295) by (rewrite <- bp_succ; reflexivity). lra.
    + apply Rle_trans with (1 := proj2 AC). assert (ac * n <= bp 49 * B2R mass * n) by (apply Rmult_le_compat_r; lra). change (bpow radix2 50) with (bp 50). rewrite V50.
      assert (bp 49 * ((1 - / 1024) * (B2R mass * n)) <= bp 49 * B2R m) by (apply Rmult_le_compat_l; lra). assert (0 <= bp 49 * B2R mass * n) by (apply Rmult_le_pos; [apply Rmult_le_pos|]; lra). nra.
  - split.
    + assert (bp (-153) <= ac * n) by (apply Rle_trans with (bp (-100) * bp (-53)); [rewrite <- bpow_plus; apply bpow_le; lia|apply Rmult_le_compat; lra]).
      assert (P153 := bpow_gt_0 radix2 (-154)). assert (bp (-153) = 2 * bp (-154)) by (rewrite <- bp_succ; reflexivity). assert (bp (-200) <= bp (-154)) by (apply bpow_le; lia). lra.
    + assert (ac * n <= ac * T) by (apply Rmult_le_compat_l; lra). assert (0 <= ac * T) by (apply Rmult_le_pos; lra). lra.
Qed.
End Charges.

(** ** Velocities *)
Section Velocity.
Variables pw lg : b64 -> b64.
Notation A := (b64_arith pw lg).
Hypothesis HP : good_pow pw.

Lemma component : forall x : b64, mg x 300 -> let y := b64_mul x (gget_gamma_inv A (b64_mul x x)) in fin y /\ Rabs (B2R y) <= 300000002.
Proof.
  intros x (Fx & Bx) y. unfold gget_gamma_inv in y.
  change (add A) with b64_add in y. change (div A) with b64_div in y. change (of_int A 1) with (b64_of_Z 1) in y. change (gLIGHT_SPEED_POW_2 A) with C2 in y. change (pow_mhalf A) with pw in y.
  destruct HP as (HP1 & _). assert (CB := C2_bt). assert (CP := bt_pos _ _ _ CB). assert (CH := C2_hi). destruct (CB) as (FC & CL & _). destruct (of_Z_exact 1 eq_refl) as (FO & EO).
  assert (X2 : 0 <= B2R x * B2R x) by (assert (Q := Rle_0_sqr (B2R x)); exact Q).
  assert (XX : B2R x * B2R x <= bp 600).
  { rewrite <- (Rabs_pos_eq (B2R x * B2R x)) by exact X2. rewrite Rabs_mult. change 600%Z with (300 + 300)%Z. rewrite bpow_plus. apply Rmult_le_compat; auto using Rabs_pos. }
  destruct (mul_ok x x Fx Fx) as (FS & ES); [rewrite Rabs_pos_eq by exact X2; apply Rle_trans with (1 := XX); apply bpow_le; lia|]. set (s := b64_mul x x) in *.
  assert (S0 : 0 <= B2R s) by (rewrite ES; now apply rnd_nonneg). assert (SU : B2R s <= bp 600) by (rewrite ES, <- (rnd_bp 600) by lia; now apply rnd_mono).
  assert (BN : 0 <= B2R s / B2R C2) by (apply Rmult_le_pos; [exact S0|left; now apply Rinv_0_lt_compat]).
  assert (SM : B2R s / B2R C2 <= bp 600).
  { apply Rmult_le_reg_r with (B2R C2); [exact CP|]. replace (B2R s / B2R C2 * B2R C2) with (B2R s) by (field; lra). apply Rle_trans with (1 := SU). rewrite <- (Rmult_1_r (bp 600)) at 1. apply Rmult_le_compat_l; [apply bpow_ge_0|].
    apply Rle_trans with (2 := CL). apply (bpow_le radix2 0 56). lia. }
  destruct (div_ok s C2 FS) as (FB & EB); [lra|rewrite Rabs_pos_eq by exact BN; apply Rle_trans with (1 := SM); apply bpow_le; lia|].
  assert (PB : 0 <= rnd (B2R s / B2R C2) <= bp 600) by (split; [now apply rnd_nonneg|rewrite <- (rnd_bp 600) by lia; now apply rnd_mono]).
  destruct (add_ok (b64_of_Z 1) (b64_div s C2) FO FB) as (FX & EX).
  { rewrite EO, EB, Rabs_pos_eq by lra. assert (2 * bp 600 = bp 601) by (rewrite <- bp_succ; reflexivity). assert (bp 601 <= bp 1023) by (apply bpow_le; lia).
    assert (1 <= bp 600) by (apply (bpow_le radix2 0 600); lia). lra. }
  rewrite EO, EB in EX. set (X := b64_add (b64_of_Z 1) (b64_div s C2)) in *.
  assert (X1 : 1 <= B2R X).
  { rewrite EX. rewrite <- (rnd_exact_Z 1) at 1 by reflexivity. apply rnd_mono. lra. }
  destruct (HP1 X FX X1) as (FP & PP & BP). set (p := pw X) in *.
  assert (LIM : B2R x * B2R x * (B2R p * B2R p) <= 90000000000000000 * (1 + / 10000000000)).
  { apply (limit_R _ (B2R s) (rnd (B2R s / B2R C2)) (B2R C2) (B2R X)); try lra.
    - rewrite ES. assert (L := err_lo _ X2). assert (T := tiny_num). assert (0 <= u * (B2R x * B2R x)) by (apply Rmult_le_pos; [apply Rlt_le, u_pos|exact X2]). lra.
    - assert (L := err_lo _ BN). lra.
    - rewrite EX. assert (L := err_lo (1 + rnd (B2R s / B2R C2)) ltac:(lra)). lra. }
  assert (AB : Rabs (B2R x * B2R p) <= 300000001).
  { replace (B2R x * B2R x * (B2R p * B2R p)) with (B2R x * B2R p * (B2R x * B2R p)) in LIM by ring. apply Rabs_le. split; [apply Ropp_le_cancel; rewrite Ropp_involutive|]; apply sq_le_inv; lra. }
  destruct (mul_ok x p Fx FP) as (FY & EY); [apply Rle_trans with (1 := AB); apply Rle_trans with (bp 30); [cbn; lra|apply bpow_le; lia]|].
  fold y in FY, EY. split; [exact FY|]. rewrite EY. assert (R := rnd_err (B2R x * B2R p)). assert (T := tiny_num). rewrite u_val in R. assert (TT := Rabs_triang_inv (rnd (B2R x * B2R p)) (B2R x * B2R p)). lra.
Qed.

Lemma e_charge : mg (gEL_CHARGE A) 0 /\ 0 <= B2R (gEL_CHARGE A : b64).
Proof.
  destruct (of_Z_exact 16 eq_refl) as (F1 & E1).
  assert (SZ : bp 66 <= IZR (10 ^ 20) <= bp 67) by (rewrite <- !(IZR_Zpower radix2) by lia; split; apply IZR_le; now vm_compute). assert (P66 := bpow_gt_0 radix2 66).
  destruct (of_Z_ok (10 ^ 20)) as (F2 & E2); [rewrite Rabs_pos_eq by lra; apply Rle_trans with (1 := proj2 SZ); apply bpow_le; lia|].
  assert (L : bp 66 <= B2R (b64_of_Z (10 ^ 20))) by (rewrite E2, <- (rnd_bp 66) by lia; apply rnd_mono; apply SZ).
  change (gEL_CHARGE A) with (b64_div (b64_of_Z 16) (b64_of_Z (10 ^ 20))). split.
  - apply mg_weaken with (4 - 66)%Z; [|lia]. apply mg_div; [apply mg_of_Z; [cbn; rewrite Rabs_pos_eq; lra|lia]|rewrite Rabs_pos_eq; lra|lia|lia].
  - destruct (div_ok (b64_of_Z 16) (b64_of_Z (10 ^ 20)) F1) as (_ & ->); [lra| |].
    + rewrite E1. unfold Rdiv. rewrite Rabs_pos_eq by (apply Rmult_le_pos; [lra|left; apply Rinv_0_lt_compat; lra]). apply Rle_trans with (16 * 1); [|apply Rle_trans with (bp 4); [cbn; lra|apply bpow_le; lia]].
      apply Rmult_le_compat_l; [lra|]. rewrite <- Rinv_1. apply Rinv_le; [lra|]. apply Rle_trans with (2 := L). apply (bpow_le radix2 0 66). lia.
    + apply rnd_nonneg. rewrite E1. apply Rmult_le_pos; [lra|left; apply Rinv_0_lt_compat; lra].
Qed.

Lemma mul_nonneg : forall x y : b64, mg x 400 -> mg y 400 -> 0 <= B2R x -> 0 <= B2R y -> 0 <= B2R (b64_mul x y).
Proof.
  intros x y (Fx & Mx) (Fy & My) X Y. destruct (mul_ok x y Fx Fy) as (_ & ->).
  - rewrite Rabs_mult. apply Rle_trans with (bp 400 * bp 400); [apply Rmult_le_compat; auto using Rabs_pos|]. rewrite <- bpow_plus. apply bpow_le. lia.
  - apply rnd_nonneg. now apply Rmult_le_pos.
Qed.

Lemma thermal_size : forall mass energy : b64, fin mass -> bp (-200) <= B2R mass -> fin energy -> 0 <= B2R energy <= bp 100 ->
  mg (b64_mul (b64_sqrt (b64_div (b64_mul (b64_mul (b64_of_Z 2) (gEL_CHARGE A)) energy) mass)) (b64_lit 74 100)) 299.
Proof.
  intros m e Fm Hm Fe He. destruct e_charge as (ME & PE). assert (P200 := bpow_gt_0 radix2 (-200)). destruct (of_Z_exact 2 eq_refl) as (F2 & E2).
  assert (M2 : mg (b64_of_Z 2) 1) by (apply mg_of_Z; [cbn; rewrite Rabs_pos_eq; lra|lia]).
  assert (MA : mg (b64_mul (b64_of_Z 2) (gEL_CHARGE A)) 1) by (apply (mg_mul _ _ 1 0 M2 ME); lia).
  assert (PA : 0 <= B2R (b64_mul (b64_of_Z 2) (gEL_CHARGE A))).
  { apply mul_nonneg; [apply mg_weaken with 1%Z; [exact M2|lia]|apply mg_weaken with 0%Z; [exact ME|lia]|lra|exact PE]. }
  assert (MEn : mg e 100) by (split; [exact Fe|rewrite Rabs_pos_eq; lra]).
  assert (MB : mg (b64_mul (b64_mul (b64_of_Z 2) (gEL_CHARGE A)) e) 101) by (apply (mg_mul _ _ 1 100 MA MEn); lia).
  assert (PB : 0 <= B2R (b64_mul (b64_mul (b64_of_Z 2) (gEL_CHARGE A)) e)) by (apply mul_nonneg; [apply mg_weaken with 1%Z; [exact MA|lia]|apply mg_weaken with 100%Z; [exact MEn|lia]|exact PA|lra]).
  set (a := b64_mul (b64_mul (b64_of_Z 2) (gEL_CHARGE A)) e) in *.
  assert (MC : mg (b64_div a m) (101 - -200)) by (apply mg_div; [exact MB|rewrite Rabs_pos_eq; lra|lia|lia]).
  assert (PC : 0 <= B2R (b64_div a m)).
  { destruct (div_ok a m (proj1 MB)) as (_ & ->); [lra| |].
    - unfold Rdiv. rewrite Rabs_mult, (Rabs_pos_eq (/ B2R m)) by (left; apply Rinv_0_lt_compat; lra). apply Rle_trans with (bp 101 * bp 200); [|rewrite <- bpow_plus; apply bpow_le; lia].
      apply Rmult_le_compat; [apply Rabs_pos|left; apply Rinv_0_lt_compat; lra|apply MB|]. replace (bp 200) with (/ bp (-200)) by (rewrite <- bpow_opp; reflexivity). apply Rinv_le; lra.
    - apply rnd_nonneg. apply Rmult_le_pos; [exact PB|left; apply Rinv_0_lt_compat; lra]. }
  destruct MC as (FC & MC). change (101 - -200)%Z with 301%Z in MC. rewrite Rabs_pos_eq in MC by exact PC.
  destruct (sqrt_ok (b64_div a m) FC PC) as (FR & ER).
  assert (MR : mg (b64_sqrt (b64_div a m)) 151).
  { split; [exact FR|]. rewrite ER, Rabs_pos_eq by (apply rnd_nonneg, sqrt_pos). rewrite <- (rnd_bp 151) by lia. apply rnd_mono. rewrite <- (sqrt_square (bp 151)) by apply bpow_ge_0. apply sqrt_le_1_alt. rewrite <- bpow_plus. apply Rle_trans with (1 := MC). apply bpow_le. lia. }
  apply mg_weaken with (151 + 1)%Z; [|lia]. apply mg_mul; [exact MR| |lia|lia].
  apply mg_weaken with (7 - 6)%Z; [|lia]. unfold b64_lit. apply mg_div; [apply mg_of_Z; [cbn; rewrite Rabs_pos_eq; lra|lia]| |lia|lia]. destruct (of_Z_exact 100 eq_refl) as (_ & ->). cbn. rewrite Rabs_pos_eq; lra.
Qed.

Lemma thermal_ok : forall mass d, fin mass -> bp (-200) <= B2R mass -> drawn pw lg d -> let v := gthermal A mass (d_energy A d) (d_rnd A d) in
  (fin (g0 A v : b64) /\ Rabs (B2R (g0 A v : b64)) <= 300000002) /\ (fin (g1 A v : b64) /\ Rabs (B2R (g1 A v : b64)) <= 300000002) /\ (fin (g2 A v : b64) /\ Rabs (B2R (g2 A v : b64)) <= 300000002).
Proof.
  intros mass d Fm Hm ((Fe & He) & (F0 & R0) & (F1 & R1) & (F2 & R2)) v. subst v. unfold gthermal. cbn [g0 g1 g2].
  assert (T := thermal_size mass (d_energy A d) Fm Hm Fe He).
  assert (K : forall x : b64, fin x -> -1 <= B2R x <= 1 -> mg (b64_mul x (b64_mul (b64_sqrt (b64_div (b64_mul (b64_mul (b64_of_Z 2) (gEL_CHARGE A)) (d_energy A d)) mass)) (b64_lit 74 100))) 300).
  { intros x Fx Rx. apply mg_weaken with (0 + 299)%Z; [|lia]. apply mg_mul; [split; [exact Fx|apply Rabs_le; cbn; lra]|exact T|lia|lia]. }
  split; [|split]; apply component; apply K; assumption.
Qed.
End Velocity.

(** ** A species *)
Section Group.
Variables pw lg : b64 -> b64.
Notation A := (b64_arith pw lg).
Hypothesis HP : good_pow pw.
Variable ipow : Z -> Z -> b64.
Hypothesis HI : good_ipow ipow.

Definition pair_ok (number n : Z) (x : b64 * b64) : Prop :=
  fraction (fst x) /\ fraction (snd x) /\ Rabs (B2R (fst x) - val 13 n) <= bp (-44) /\ Rabs (B2R (snd x) - val 11 (number - 1 - n)) <= bp (-44).
Lemma pairs_fraction : forall number ns l, Forall2 (pair_ok number) ns l -> Forall (fun y => fraction (fst y) /\ fraction (snd y)) l.
Proof. intros number ns l H. induction H as [|n z ns l HN H IH]; [constructor|]. constructor; [split; apply HN|exact IH]. Qed.
Lemma rands_ok : forall number ns, (number < 2 ^ 31)%Z -> Forall (fun n => (0 <= n < number)%Z) ns ->
  exists l, gload_rands A ipow number ns = Some l /\ Forall2 (pair_ok number) ns l.
Proof.
  intros number ns Hn. induction ns as [|n ns IH]; intro H; [exists []; split; [reflexivity|constructor]|].
  inversion H as [|? ? H1 H2]. subst. destruct (IH H2) as (l & E & F).
  destruct (rr64 pw lg ipow HI 13 ltac:(lia) n ltac:(lia)) as (x & Ex & Fx & Dx).
  destruct (rr64 pw lg ipow HI 11 ltac:(lia) (number - 1 - n)%Z ltac:(lia)) as (y & Ey & Fy & Dy).
  exists ((x, y) :: l). cbn [gload_rands]. unfold gload_rand. rewrite Ex, Ey, E. split; [reflexivity|]. constructor; [|exact F]. split; [exact Fx|]. split; [exact Fy|]. split; [exact Dx|exact Dy].
Qed.

Variables (g : ggeom A) (dt : b64).
Hypothesis HF : fine pw lg g dt.
Let AR : axis (gn_r A g) (gr_size A g) (gdr A g). Proof. exact (Motion64P.axr pw lg g dt HF). Qed.
Let AZ : axis (gn_z A g) (gz_size A g) (gdz A g). Proof. exact (Motion64P.axz pw lg g dt HF). Qed.
Variable x : species pw lg.
Hypothesis HX : loadable pw lg g x.
Notation number := (Z.of_nat (length (sp_draws pw lg x))).
Notation n1 := (sp_n1 pw lg x).
Notation n2 := (sp_n2 pw lg x).

Lemma group_some : exists rands ps, gload_group A ipow g n1 n2 (sp_charge pw lg x) (sp_mass pw lg x) (sp_draws pw lg x) = Some ps /\
  Forall2 (pair_ok number) (zrange 0 number) rands /\
  ps = map (fun y => gload_one A g n1 n2 (sp_charge pw lg x) (sp_mass pw lg x) (map (fun x => gload_r A g (fst x)) rands) (fst y) (snd y)) (combine rands (sp_draws pw lg x)).
Proof.
  destruct (rands_ok number (zrange 0 number)) as (l & E & F).
  - apply (ld_some _ _ _ _ HX).
  - apply Forall_forall. intros n Hn. now apply zrange_in in Hn.
  - exists l. unfold gload_group. rewrite E. eexists. split; [reflexivity|]. split; [exact F|reflexivity].
Qed.

Variable rands : list (b64 * b64).
Hypothesis HR : Forall2 (pair_ok number) (zrange 0 number) rands.
Notation rs := (map (fun x => gload_r A g (fst x)) rands : list b64).
Lemma rands_length : length rands = length (sp_draws pw lg x).
Proof. assert (L : length (zrange 0 number) = length rands) by (clear HX; induction HR as [|? ? ? ? ? ? IH]; [reflexivity|cbn; now rewrite IH]). rewrite zrange_length_nat in L. lia. Qed.
Lemma rs_rad : Forall (rad pw lg g) rs.
Proof.
  apply Forall_forall. intros r Hr. apply in_map_iff in Hr. destruct Hr as (y & <- & Hy).
  assert (P := pairs_fraction _ _ _ HR). assert (Fy := proj1 (proj1 (Forall_forall _ _) P y Hy)). destruct (load_r_ok pw lg g dt HF (fst y) Fy) as (F & R & _). split; assumption.
Qed.
Lemma rs_length : length rs = length (sp_draws pw lg x). Proof. rewrite map_length. exact rands_length. Qed.

Definition part (y : b64 * b64) (d : draw A) : gparticle A := gload_one A g n1 n2 (sp_charge pw lg x) (sp_mass pw lg x) rs y d.

Lemma moderate_of : forall v : b64, fin v /\ Rabs (B2R v) <= 300000002 -> moderate v.
Proof. intros v (F & B). split; [exact F|]. apply Rle_trans with (1 := B). cbn. lra. Qed.

Lemma part_ok : forall y d, In y rands -> fraction (fst y) -> fraction (snd y) -> drawn pw lg d ->
  in_place pw lg g (part y d) /\ off_wall pw lg g (part y d) /\ galive A (part y d) = true /\
  laden pw lg (2 * (Rabs (B2R (sp_charge pw lg x)) * physical pw lg g n1 n2)) (part y d).
Proof.
  intros y d Hy F1 F2 Hd. destruct (load_r_ok pw lg g dt HF (fst y) F1) as (FR & RR & _). destruct (load_z_ok pw lg g dt HF n1 n2 (snd y) (ld_densities _ _ _ _ HX) F2) as (FZ & RZ & _).
  assert (LR := len_pos _ _ _ AR). assert (LZ := len_pos _ _ _ AZ). assert (QR := q_bounds _ _ _ AR). assert (QZ := q_bounds _ _ _ AZ).
  assert (RA : rad pw lg g (gload_r A g (fst y))) by (split; assumption).
  assert (IR : In (gload_r A g (fst y) : b64) rs) by (apply in_map_iff; exists y; split; [reflexivity|exact Hy]).
  assert (NS : (1 <= Z.of_nat (length rs) < 2 ^ 31)%Z) by (rewrite rs_length; apply (ld_some _ _ _ _ HX)).
  destruct (weights pw lg g dt HF rs rs_rad NS n1 n2 (ld_densities _ _ _ _ HX) (sp_charge pw lg x) (sp_mass pw lg x) (ld_particle _ _ _ _ HX) (ld_one _ _ _ _ HX) _ RA IR) as (FC & FM & _ & _ & SN & LD).
  destruct (ld_particle _ _ _ _ HX) as (_ & Fmass & (Mm & _) & _).
  destruct (thermal_ok pw lg HP (sp_mass pw lg x) d Fmass Mm Hd) as (V0 & V1 & V2).
  destruct (of_Z_exact 0 eq_refl) as (F0 & E0).
  split; [|split; [|split]].
  - intros _. unfold part, gload_one. cbn [gph gpos gvel g0 g1 g2 gcharge gmass].
    split; [split; [exact FR|]; cbv zeta; unfold top, q, len in *; split; [apply Rle_trans with (2 := proj1 RR)|apply Rle_trans with (1 := proj2 RR)]; lra|].
    split; [split; [exact FZ|]; cbv zeta; unfold top, q, len in *; split; [apply Rle_trans with (2 := proj1 RZ)|apply Rle_trans with (1 := proj2 RZ)]; lra|].
    split; [exact F0|]. split; [exact E0|]. split; [now apply moderate_of|]. split; [now apply moderate_of|]. split; [now apply moderate_of|]. exact SN.
  - intros _. unfold part, gload_one. cbn [gph gpos g0]. cbv zeta. unfold top, q, len in *. apply Rle_trans with (1 := proj2 RR). lra.
  - reflexivity.
  - split; [exact FC|exact LD].
Qed.

Lemma combine_in : forall y d, In (y, d) (combine rands (sp_draws pw lg x)) -> In y rands /\ fraction (fst y) /\ fraction (snd y) /\ drawn pw lg d.
Proof.
  intros y d H. assert (I1 := in_combine_l _ _ _ _ H). assert (I2 := in_combine_r _ _ _ _ H). split; [exact I1|].
  assert (P := pairs_fraction _ _ _ HR).
  destruct (proj1 (Forall_forall _ _) P y I1) as (Q1 & Q2). split; [exact Q1|]. split; [exact Q2|]. exact (proj1 (Forall_forall _ _) (ld_draws _ _ _ _ HX) d I2).
Qed.
End Group.

Theorem species_loaded : forall pw lg ipow (g : ggeom (b64_arith pw lg)) dt x, good_pow pw -> good_ipow ipow -> fine pw lg g dt -> loadable pw lg g x ->
  exists ps, loaded pw lg ipow g x ps /\ length ps = length (sp_draws pw lg x) /\
  Forall (fun p => galive _ p = true /\ in_place pw lg g p /\ off_wall pw lg g p /\ laden pw lg (2 * (Rabs (B2R (sp_charge pw lg x)) * physical pw lg g (sp_n1 pw lg x) (sp_n2 pw lg x))) p) ps.
Proof.
  intros pw lg ipow g dt x HP HI HF HX. destruct (group_some pw lg ipow HI g x HX) as (rands & ps & E & HR & ->). exists (map (fun y => part pw lg g x rands (fst y) (snd y)) (combine rands (sp_draws pw lg x))).
  split; [exact E|]. split.
  - rewrite map_length, combine_length, (rands_length pw lg x rands HR), Nat.min_id. reflexivity.
  - apply Forall_forall. intros p Hp. apply in_map_iff in Hp. destruct Hp as ((y & d) & <- & Hy). destruct (combine_in pw lg g x HX rands HR y d Hy) as (I & F1 & F2 & Hd).
    destruct (part_ok pw lg HP g dt HF x HX rands HR y d I F1 F2 Hd) as (Q1 & Q2 & Q3 & Q4). cbn [fst snd]. auto.
Qed.

(** ** Particle number n, and all of them *)
Lemma rsum_close : forall (T : Type) (f h e : T -> R) l, (forall x, In x l -> Rabs (f x - h x) <= e x) -> Rabs (rsum (map f l) - rsum (map h l)) <= rsum (map e l).
Proof.
  intros T f h e l. induction l as [|x l IH]; intro H; cbn [map rsum]; [rewrite Rminus_0_r, Rabs_R0; lra|].
  replace (f x + rsum (map f l) - (h x + rsum (map h l))) with ((f x - h x) + (rsum (map f l) - rsum (map h l))) by ring.
  apply Rle_trans with (1 := Rabs_triang _ _). apply Rplus_le_compat; [apply H; now left|apply IH; intros y Hy; apply H; now right].
Qed.
Lemma rsum_times : forall (T : Type) (f : T -> R) k l, rsum (map (fun x => k * f x) l) = k * rsum (map f l).
Proof. intros T f k l. induction l as [|x l IH]; cbn [map rsum]; [ring|]. rewrite IH. ring. Qed.

Lemma pairs_nth : forall number lo k rands, Forall2 (pair_ok number) (map (fun n => (lo + Z.of_nat n)%Z) (seq k (length rands))) rands ->
  forall n y, nth_error rands n = Some y -> pair_ok number (lo + Z.of_nat (k + n)) y.
Proof.
  intros number lo k rands. revert k. induction rands as [|z l IH]; intros k H n y Hn; [destruct n; discriminate|].
  cbn [length seq map] in H. inversion H as [|? ? ? ? H1 H2]. subst. destruct n as [|n]; cbn in Hn.
  - injection Hn as <-. rewrite Nat.add_0_r. exact H1.
  - replace (k + S n)%nat with (S k + n)%nat by lia. exact (IH (S k) H2 n y Hn).
Qed.

Lemma nth_combine : forall (T U : Type) (l : list T) (l' : list U) n y d, nth_error (combine l l') n = Some (y, d) -> nth_error l n = Some y.
Proof. intros T U l. induction l as [|x l IH]; intros l' n y d H; [destruct n; discriminate|]. destruct l' as [|x' l']; [destruct n; discriminate|]. destruct n; cbn in *; [injection H as <- _; reflexivity|exact (IH _ _ _ _ H)]. Qed.
Lemma map_fst_combine : forall (T U : Type) (l : list T) (l' : list U), length l = length l' -> map fst (combine l l') = l.
Proof. intros T U l. induction l as [|x l IH]; intros [|x' l'] H; cbn in *; try discriminate; [reflexivity|]. rewrite IH by lia. reflexivity. Qed.

Section Numbered.
Variables pw lg : b64 -> b64.
Notation A := (b64_arith pw lg).
Variable ipow : Z -> Z -> b64.
Hypothesis HI : good_ipow ipow.
Variables (g : ggeom A) (dt : b64).
Hypothesis HF : fine pw lg g dt.
Let AR : axis (gn_r A g) (gr_size A g) (gdr A g). Proof. exact (Motion64P.axr pw lg g dt HF). Qed.
Let AZ : axis (gn_z A g) (gz_size A g) (gdz A g). Proof. exact (Motion64P.axz pw lg g dt HF). Qed.
Variable x : species pw lg.
Hypothesis HX : loadable pw lg g x.
Variable ps : list (gparticle A).
Hypothesis HL : loaded pw lg ipow g x ps.
Notation number := (Z.of_nat (length (sp_draws pw lg x))).
Notation n1 := (sp_n1 pw lg x).
Notation n2 := (sp_n2 pw lg x).
Notation dr := (@B2R prec64 emax64 (gdr A g)).
Notation dz := (@B2R prec64 emax64 (gdz A g)).
Definition radius_of (p : gparticle A) : R := @B2R prec64 emax64 (g0 A (gpos A (gph A p))).
Definition z_of (p : gparticle A) : R := @B2R prec64 emax64 (g2 A (gpos A (gph A p))).

Lemma structure : exists rands, Forall2 (pair_ok number) (zrange 0 number) rands /\ ps = map (fun y => part pw lg g x rands (fst y) (snd y)) (combine rands (sp_draws pw lg x)).
Proof.
  destruct (group_some pw lg ipow HI g x HX) as (rands & qs & E & HR & EQ). exists rands. split; [exact HR|]. unfold loaded in HL. rewrite E in HL. injection HL as <-. exact EQ.
Qed.

Lemma numbered : forall n p, nth_error ps n = Some p -> exists rands y d, Forall2 (pair_ok number) (zrange 0 number) rands /\ p = part pw lg g x rands y d /\ pair_ok number (Z.of_nat n) y /\ In y rands.
Proof.
  intros n p Hn. destruct structure as (rands & HR & E). rewrite E in Hn. rewrite nth_error_map in Hn. destruct (nth_error (combine rands (sp_draws pw lg x)) n) as [(y & d)|] eqn:C; [|discriminate]. cbn in Hn. injection Hn as <-.
  assert (Y := nth_combine _ _ _ _ _ _ _ C). exists rands, y, d. split; [exact HR|]. split; [reflexivity|]. split; [|now apply nth_error_In in Y].
  assert (LE := rands_length pw lg x rands HR). unfold zrange in HR. replace (Z.to_nat (number - 0)) with (length rands) in HR by lia.
  exact (pairs_nth number 0 0 rands HR n y Y).
Qed.

Lemma place_r : forall n p, nth_error ps n = Some p -> Rabs (radius_of p - (IZR (gn_r A g - 2) * dr * val 13 (Z.of_nat n) + dr / 2)) <= bp (-22) * dr.
Proof.
  intros n p Hn. destruct (numbered n p Hn) as (rands & y & d & HR & -> & (F1 & _ & D1 & _) & _). destruct (load_r_ok pw lg g dt HF (fst y) F1) as (_ & _ & E).
  unfold radius_of, part, gload_one. cbn [gph gpos g0]. change (@B2R prec64 emax64 (gload_r A g (fst y))) with (B2R (gload_r A g (fst y) : b64)).
  assert (L := len_pos _ _ _ AR). assert (T := top_hi _ _ _ AR). assert (T2 := top_lo _ _ _ AR). assert (QE := q_eq (gdr A g)).
  assert (TE : IZR (gn_r A g - 2) * dr = top (gn_r A g) (gdr A g) - len (gdr A g)) by (unfold top, len; rewrite !minus_IZR; ring). rewrite TE.
  set (t := top (gn_r A g) (gdr A g) - len (gdr A g)) in *. change dr with (len (gdr A g)). set (l := len (gdr A g)) in *.
  assert (G : Rabs (t * (B2R (fst y) - val 13 (Z.of_nat n))) <= 1048576 * l * bp (-44)).
  { rewrite Rabs_mult. apply Rmult_le_compat; auto using Rabs_pos. rewrite Rabs_pos_eq; unfold t; lra. }
  replace (bp (-44)) with (/ 17592186044416) in G by (cbn; lra). replace (bp (-22)) with (/ 4194304) by (cbn; lra). apply Rabs_le_inv in G, E. rewrite QE in E. apply Rabs_le. lra.
Qed.

Lemma place_z : forall n p, nth_error ps n = Some p ->
  let v := val 11 (number - 1 - Z.of_nat n) in
  (B2R n1 = B2R n2 -> Rabs (z_of p - (IZR (gn_z A g - 2) * dz * v + dz / 2)) <= bp (-22) * dz) /\
  (B2R n1 <> B2R n2 -> let zeta := (z_of p - dz / 2) / (IZR (gn_z A g - 2) * dz) in let w := B2R n1 + (B2R n2 - B2R n1) * zeta in
    Rabs (w * w - (B2R n1 * B2R n1 + v * (B2R n2 * B2R n2 - B2R n1 * B2R n1))) <= bp (-25) * (Rmax (B2R n1) (B2R n2) * Rmax (B2R n1) (B2R n2))).
Proof.
  intros n p Hn v. destruct (numbered n p Hn) as (rands & y & d & HR & -> & (_ & F2 & _ & D2) & _). fold v in D2.
  destruct (load_z_ok pw lg g dt HF n1 n2 (snd y) (ld_densities _ _ _ _ HX) F2) as (_ & _ & E1 & E2). unfold z_of, part, gload_one. cbn [gph gpos g2].
  assert (L := len_pos _ _ _ AZ). assert (T := top_hi _ _ _ AZ). assert (T2 := top_lo _ _ _ AZ). assert (QE := q_eq (gdz A g)).
  assert (TE : IZR (gn_z A g - 2) * dz = top (gn_z A g) (gdz A g) - len (gdz A g)) by (unfold top, len; rewrite !minus_IZR; ring). rewrite TE. split.
  - intro EN. specialize (E1 EN). change (@B2R prec64 emax64 (gload_z A g n1 n2 (of_int A 0) (snd y))) with (B2R (gload_z A g n1 n2 (of_int A 0) (snd y) : b64)).
    set (t := top (gn_z A g) (gdz A g) - len (gdz A g)) in *. change dz with (len (gdz A g)). set (l := len (gdz A g)) in *.
    assert (G : Rabs (t * (B2R (snd y) - v)) <= 1048576 * l * bp (-44)).
    { rewrite Rabs_mult. apply Rmult_le_compat; auto using Rabs_pos. rewrite Rabs_pos_eq; unfold t; lra. }
    replace (bp (-44)) with (/ 17592186044416) in G by (cbn; lra). replace (bp (-22)) with (/ 4194304) by (cbn; lra). apply Rabs_le_inv in G, E1. rewrite QE in E1. apply Rabs_le. lra.
  - intro NE. specialize (E2 NE). cbv zeta in E2 |- *. destruct (den_range _ _ (ld_densities _ _ _ _ HX) NE) as (HA & HB & _).
    change (@B2R prec64 emax64 (gload_z A g n1 n2 (of_int A 0) (snd y))) with (B2R (gload_z A g n1 n2 (of_int A 0) (snd y) : b64)). change dz with (len (gdz A g)).
    set (zeta := (B2R (gload_z A g n1 n2 (of_int A 0) (snd y) : b64) - len (gdz A g) / 2) / (top (gn_z A g) (gdz A g) - len (gdz A g))) in *.
    set (w := B2R n1 + (B2R n2 - B2R n1) * zeta) in *. set (a := B2R n1) in *. set (b := B2R n2) in *. set (M := Rmax a b) in *.
    assert (MM : 0 <= M * M) by nra. assert (SQ : Rabs (b * b - a * a) <= M * M).
    { assert (a * a <= M * M) by (apply Rmult_le_compat; lra). assert (b * b <= M * M) by (apply Rmult_le_compat; lra). apply Rabs_le. nra. }
    assert (G : Rabs ((B2R (snd y) - v) * (b * b - a * a)) <= bp (-44) * (M * M)) by (rewrite Rabs_mult; apply Rmult_le_compat; auto using Rabs_pos).
    replace (bp (-44)) with (/ 17592186044416) in G by (cbn; lra). replace (bp (-26)) with (/ 67108864) in E2 by (cbn; lra). replace (bp (-25)) with (/ 33554432) by (cbn; lra). apply Rabs_le_inv in G, E2. apply Rabs_le. lra.
Qed.

Definition all_r : R := rsum (map radius_of ps).
Definition T : R := physical pw lg g n1 n2.
Definition err : R := (2 * INR (length ps) + 64) * bp (-53).

Lemma ps_length : length ps = length (sp_draws pw lg x).
Proof. destruct structure as (rands & HR & ->). rewrite map_length, combine_length, (rands_length pw lg x rands HR), Nat.min_id. reflexivity. Qed.

Lemma sum_all : forall rands, Forall2 (pair_ok number) (zrange 0 number) rands -> ps = map (fun y => part pw lg g x rands (fst y) (snd y)) (combine rands (sp_draws pw lg x)) ->
  sum_r (map (fun x => gload_r A g (fst x)) rands : list b64) = all_r.
Proof.
  intros rands HR E. unfold all_r, sum_r. rewrite E at 1. rewrite !map_map. rewrite <- (map_fst_combine _ _ rands (sp_draws pw lg x)) at 1 by exact (rands_length pw lg x rands HR). rewrite map_map. reflexivity.
Qed.

Lemma weight : forall p, In p ps ->
  Rabs (@B2R prec64 emax64 (gcharge A p) - B2R (sp_charge pw lg x) * (T * (radius_of p / all_r))) <= err * (Rabs (B2R (sp_charge pw lg x)) * (T * (radius_of p / all_r))) /\
  Rabs (@B2R prec64 emax64 (gmass A p) - B2R (sp_mass pw lg x) * (T * (radius_of p / all_r))) <= err * (B2R (sp_mass pw lg x) * (T * (radius_of p / all_r))) /\ 0 < radius_of p /\ 0 < all_r.
Proof.
  intros p Hp. destruct structure as (rands & HR & E). assert (SA := sum_all rands HR E). assert (PL := ps_length). rewrite E in Hp. apply in_map_iff in Hp. destruct Hp as ((y & d) & <- & Hy). cbn [fst snd].
  destruct (combine_in pw lg g x HX rands HR y d Hy) as (I & F1 & F2 & Hd). destruct (load_r_ok pw lg g dt HF (fst y) F1) as (FR & RR & _).
  assert (RA : rad pw lg g (gload_r A g (fst y))) by (split; assumption).
  assert (IR : In (gload_r A g (fst y) : b64) (map (fun x => gload_r A g (fst x)) rands : list b64)) by (apply in_map_iff; exists y; split; [reflexivity|exact I]).
  assert (LR := rs_length pw lg g x rands HR). assert (RSR := rs_rad pw lg g dt HF x rands HR).
  assert (NS : (1 <= Z.of_nat (length (map (fun x => gload_r A g (fst x)) rands : list b64)) < 2 ^ 31)%Z) by (rewrite LR; apply (ld_some _ _ _ _ HX)).
  destruct (weights pw lg g dt HF _ RSR NS n1 n2 (ld_densities _ _ _ _ HX) (sp_charge pw lg x) (sp_mass pw lg x) (ld_particle _ _ _ _ HX) (ld_one _ _ _ _ HX) _ RA IR) as (_ & _ & EC & EM & _ & _).
  destruct (sum_range pw lg g dt HF _ RSR NS) as (_ & SR). assert (NR := num_range _ NS). rewrite LR, <- PL in EC, EM, NR. unfold countR in EC, EM. rewrite SA in EC, EM, SR. fold T in EC, EM. assert (L := len_pos _ _ _ AR).
  assert (RP : 0 < radius_of (part pw lg g x rands y d)) by (unfold radius_of, part, gload_one; cbn [gph gpos g0]; apply Rlt_le_trans with (2 := proj1 RR); lra).
  assert (AP : 0 < all_r) by lra.
  assert (CP : 0 <= T * (radius_of (part pw lg g x rands y d) / all_r)).
  { assert (O := ld_one _ _ _ _ HX). fold T in O. apply Rmult_le_pos; [lra|]. apply Rmult_le_pos; [lra|left; now apply Rinv_0_lt_compat]. }
  destruct (ld_particle _ _ _ _ HX) as (_ & _ & (M1 & _) & _). assert (PM := bpow_gt_0 radix2 (-200)).
  assert (ER : (59 + 13 / 10 * INR (length ps)) * u <= err) by (unfold err; rewrite u_val; replace (bp (-53)) with (/ 9007199254740992) by (cbn; lra); lra).
  split; [|split; [|split; assumption]].
  - apply Rle_trans with (1 := EC). apply Rmult_le_compat_r; [apply Rmult_le_pos; [apply Rabs_pos|exact CP]|exact ER].
  - apply Rle_trans with (1 := EM). apply Rmult_le_compat_r; [apply Rmult_le_pos; [lra|exact CP]|exact ER].
Qed.

Lemma total_charge : Rabs (rsum (map (fun p => @B2R prec64 emax64 (gcharge A p)) ps) - B2R (sp_charge pw lg x) * T) <= err * (Rabs (B2R (sp_charge pw lg x)) * T).
Proof.
  assert (PL := ps_length). assert (S1 := ld_some _ _ _ _ HX).
  assert (NE : exists p, In p ps). { destruct ps as [|p l]; [cbn in PL; lia|]. exists p. now left. }
  destruct NE as (p0 & I0). destruct (weight p0 I0) as (_ & _ & _ & AP).
  set (c := B2R (sp_charge pw lg x)). assert (SE : forall k, rsum (map (fun p => k * (T * (radius_of p / all_r))) ps) = k * T).
  { intro k. transitivity (rsum (map (fun p => k * T * / all_r * radius_of p) ps)); [f_equal; apply map_ext; intro p; field; lra|]. rewrite rsum_times. fold all_r. field. lra. }
  assert (CL := rsum_close _ (fun p => @B2R prec64 emax64 (gcharge A p)) (fun p => c * (T * (radius_of p / all_r))) (fun p => err * Rabs c * (T * (radius_of p / all_r))) ps).
  rewrite !SE in CL. replace (err * (Rabs c * T)) with (err * Rabs c * T) by ring. apply CL. intros p Hp. destruct (weight p Hp) as (W & _). fold c in W. rewrite Rmult_assoc. exact W.
Qed.
Lemma total_mass : Rabs (rsum (map (fun p => @B2R prec64 emax64 (gmass A p)) ps) - B2R (sp_mass pw lg x) * T) <= err * (B2R (sp_mass pw lg x) * T).
Proof.
  assert (PL := ps_length). assert (S1 := ld_some _ _ _ _ HX).
  assert (NE : exists p, In p ps). { destruct ps as [|p l]; [cbn in PL; lia|]. exists p. now left. }
  destruct NE as (p0 & I0). destruct (weight p0 I0) as (_ & _ & _ & AP).
  set (c := B2R (sp_mass pw lg x)). assert (SE : forall k, rsum (map (fun p => k * (T * (radius_of p / all_r))) ps) = k * T).
  { intro k. transitivity (rsum (map (fun p => k * T * / all_r * radius_of p) ps)); [f_equal; apply map_ext; intro p; field; lra|]. rewrite rsum_times. fold all_r. field. lra. }
  assert (CL := rsum_close _ (fun p => @B2R prec64 emax64 (gmass A p)) (fun p => c * (T * (radius_of p / all_r))) (fun p => err * c * (T * (radius_of p / all_r))) ps).
  rewrite !SE in CL. replace (err * (c * T)) with (err * c * T) by ring. apply CL. intros p Hp. destruct (weight p Hp) as (_ & W & _). fold c in W. rewrite Rmult_assoc. exact W.
Qed.
End Numbered.

(** ** All the species *)
Section Everything.
Variables pw lg : b64 -> b64.
Notation A := (b64_arith pw lg).
Variable ipow : Z -> Z -> b64.
Hypothesis HP : good_pow pw.
Hypothesis HI : good_ipow ipow.
Variables (c : GenRun.config A) (n : nat) (f : gmem A) (xs : list (species pw lg)) (theta K Q : R).

Lemma each_species : Forall (fun x => loadable pw lg (c_geom A c) x /\ 2 * (Rabs (B2R (sp_charge pw lg x)) * physical pw lg (c_geom A c) (sp_n1 pw lg x) (sp_n2 pw lg x)) <= Q) xs ->
  fine pw lg (c_geom A c) (c_dt A c) ->
  exists pss, Forall2 (loaded pw lg ipow (c_geom A c)) xs pss /\ population pw lg xs = INR (length (flat_map snd (map (fun ps : list (gparticle A) => (false, ps)) pss))) /\
  forall p, In p (flat_map snd (map (fun ps : list (gparticle A) => (false, ps)) pss)) -> in_place pw lg (c_geom A c) p /\ off_wall pw lg (c_geom A c) p /\ laden pw lg Q p.
Proof.
  intros H HF. induction H as [|x l (HX & HQ) _ IH].
  - exists []. split; [constructor|]. split; [reflexivity|]. intros p [].
  - destruct IH as (pss & F2 & EP & IN). destruct (species_loaded pw lg ipow (c_geom A c) (c_dt A c) x HP HI HF HX) as (ps & L & LE & FA). exists (ps :: pss).
    split; [constructor; assumption|]. split.
    + unfold population in *. cbn [map rsum flat_map snd]. rewrite EP, app_length, plus_INR, LE. reflexivity.
    + intros p I. cbn [map flat_map snd] in I. apply in_app_or in I. destruct I as [I|I]; [|exact (IN p I)]. rewrite Forall_forall in FA. destruct (FA p I) as (_ & Q2 & Q3 & Q4 & Q5). split; [exact Q2|]. split; [exact Q3|]. split; [exact Q4|lra].
Qed.

Lemma species_all : plasma pw lg c n f xs theta K Q -> exists pss, Forall2 (loaded pw lg ipow (c_geom A c)) xs pss /\
  forall rho, let s := GSim A f rho (map (fun ps => (false, ps)) pss) 0 in contained pw lg c n s theta K Q /\ starts pw lg c s.
Proof.
  intro P. destruct (each_species (pl_species _ _ _ _ _ _ _ _ _ P) (pl_fine _ _ _ _ _ _ _ _ _ P)) as (pss & F2 & EP & IN). exists pss. split; [exact F2|]. intros rho s.
  assert (CL : INR (length (crowd pw lg c s)) = population pw lg xs + INR (length (beam pw lg c))).
  { unfold crowd. rewrite app_length, plus_INR. unfold parts, s. cbn [gs_groups]. rewrite <- EP. reflexivity. }
  split.
  - destruct P as [P1 P2 P3 P4 P5 P6 P7 P8 P9 P10 P11 P12 P13 P14 P15 P16]. constructor; try assumption.
    + intros p I. unfold crowd in I. apply in_app_or in I. destruct I as [I|I]; [apply (IN p I)|]. rewrite Forall_forall in P13. exact (P13 p I).
    + intros p I. apply (IN p I).
    + rewrite CL. exact P14.
    + rewrite CL. exact P15.
  - split; [reflexivity|]. split.
    + unfold s. cbn [gs_groups]. apply Forall_forall. intros y Hy. apply in_map_iff in Hy. destruct Hy as (ps & <- & _). reflexivity.
    + apply Forall_forall. intros p I. apply (IN p I).
Qed.
End Everything.
