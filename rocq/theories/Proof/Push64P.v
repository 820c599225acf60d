(** The relativistic Boris pusher in binary64. *)
From Coq Require Import ZArith Reals Lra Lia Psatz Bool List.
From Flocq Require Import Core IEEE754.BinarySingleNaN.
From Verif.Lib Require Import RAux Outcome.
From Verif.Model Require Import Binary64 Temperature64 Arith Geometry Fields Pusher GenCode GenRun.
From Verif.Spec Require Import Double.
From Verif.Proof Require Import Binary64P FloatP Axis64P Motion64R Motion64P Cells64P.
Local Open Scope R_scope.

(** ** Sizes with free exponents *)

Lemma mg_add2 : forall x y a b e, mg x a -> mg y b -> (Z.max a b + 1 <= e)%Z -> (-1074 <= a)%Z -> (Z.max a b < 1023)%Z -> mg (b64_add x y) e.
Proof.
  intros x y a b e X Y H L U. apply mg_weaken with (Z.max a b + 1)%Z; [|exact H]. apply mg_add; [apply (mg_weaken _ _ _ X); lia|apply (mg_weaken _ _ _ Y); lia|lia|lia].
Qed.
Lemma mg_sub2 : forall x y a b e, mg x a -> mg y b -> (Z.max a b + 1 <= e)%Z -> (-1074 <= a)%Z -> (Z.max a b < 1023)%Z -> mg (b64_sub x y) e.
Proof.
  intros x y a b e X Y H L U. apply mg_weaken with (Z.max a b + 1)%Z; [|exact H]. apply mg_sub; [apply (mg_weaken _ _ _ X); lia|apply (mg_weaken _ _ _ Y); lia|lia|lia].
Qed.
Lemma mg_mul2 : forall x y a b e, mg x a -> mg y b -> (a + b <= e)%Z -> (-1074 <= a + b)%Z -> (a + b <= 1023)%Z -> mg (b64_mul x y) e.
Proof. intros x y a b e X Y H L U. apply mg_weaken with (a + b)%Z; [|exact H]. now apply mg_mul. Qed.

(** Between powers of two *)
Definition bt (x : b64) (a b : Z) : Prop := fin x /\ bp a <= B2R x <= bp b.
Lemma bt_mg : forall x a b, bt x a b -> mg x b.
Proof. intros x a b (F & L & U). split; [exact F|]. assert (P := bpow_gt_0 radix2 a). rewrite Rabs_pos_eq; lra. Qed.
Lemma bt_pos : forall x a b, bt x a b -> 0 < B2R x.
Proof. intros x a b (F & L & U). assert (P := bpow_gt_0 radix2 a). lra. Qed.
Lemma bt_abs : forall x a b, bt x a b -> bp a <= Rabs (B2R x).
Proof. intros x a b H. assert (P := bt_pos _ _ _ H). rewrite Rabs_pos_eq by lra. apply H. Qed.
Lemma bt_round : forall x a b, (-1074 <= a)%Z -> (-1074 <= b)%Z -> bp a <= x <= bp b -> bp a <= rnd x <= bp b.
Proof. intros x a b Ha Hb (L & U). rewrite <- (rnd_bp a Ha), <- (rnd_bp b Hb). split; now apply rnd_mono. Qed.
Lemma bt_mul : forall x y a b c d, bt x a b -> bt y c d -> (-1074 <= a + c)%Z -> (-1074 <= b + d <= 1023)%Z -> bt (b64_mul x y) (a + c) (b + d).
Proof.
  intros x y a b c d X Y H1 H2. assert (P1 := bt_pos _ _ _ X). assert (P2 := bt_pos _ _ _ Y). destruct X as (FX & X1 & X2). destruct Y as (FY & Y1 & Y2).
  assert (Q1 := bpow_gt_0 radix2 a). assert (Q2 := bpow_gt_0 radix2 c).
  assert (B : bp (a + c) <= B2R x * B2R y <= bp (b + d)) by (rewrite !bpow_plus; split; apply Rmult_le_compat; lra).
  destruct (mul_ok x y FX FY) as (F & E); [rewrite Rabs_pos_eq by (apply Rmult_le_pos; lra); apply Rle_trans with (bp (b + d)); [apply B|apply bpow_le; lia]|].
  split; [exact F|]. rewrite E. apply bt_round; try lia. exact B.
Qed.
Lemma bt_div : forall x y a b c d, bt x a b -> bt y c d -> (-1074 <= a - d)%Z -> (-1074 <= b - c <= 1023)%Z -> bt (b64_div x y) (a - d) (b - c).
Proof.
  intros x y a b c d X Y H1 H2. assert (P1 := bt_pos _ _ _ X). assert (P2 := bt_pos _ _ _ Y). destruct X as (FX & X1 & X2). destruct Y as (FY & Y1 & Y2).
  assert (Q1 := bpow_gt_0 radix2 a). assert (Q2 := bpow_gt_0 radix2 c). assert (Q3 := bpow_gt_0 radix2 d).
  assert (B : bp (a - d) <= B2R x / B2R y <= bp (b - c)).
  { unfold Zminus, Rdiv. rewrite !bpow_plus, !bpow_opp. split; apply Rmult_le_compat; try lra; try (left; apply Rinv_0_lt_compat; lra); apply Rinv_le; lra. }
  assert (0 < B2R x / B2R y) by (apply Rdiv_lt_0_compat; lra).
  destruct (div_ok x y FX) as (F & E); [lra|rewrite Rabs_pos_eq by lra; apply Rle_trans with (bp (b - c)); [apply B|apply bpow_le; lia]|].
  split; [exact F|]. rewrite E. apply bt_round; try lia. exact B.
Qed.
Lemma bt_of_Z : forall n a b, (-1074 <= a)%Z -> (-1074 <= b <= 1023)%Z -> bp a <= IZR n <= bp b -> bt (b64_of_Z n) a b.
Proof.
  intros n a b Ha Hb H. assert (P := bpow_gt_0 radix2 a). destruct (of_Z_ok n) as (F & E); [rewrite Rabs_pos_eq by lra; apply Rle_trans with (bp b); [apply H|apply bpow_le; lia]|].
  split; [exact F|]. rewrite E. now apply bt_round.
Qed.
Lemma bt_lit : forall n m a b, (0 < n < 2 ^ 53)%Z -> (0 < m < 2 ^ 53)%Z -> (-1074 <= a)%Z -> (-1074 <= b <= 1023)%Z -> bp a <= IZR n / IZR m <= bp b -> bt (b64_lit n m) a b.
Proof.
  intros n m a b Hn Hm Ha Hb H. destruct (of_Z_exact n) as (FN & EN); [lia|]. destruct (of_Z_exact m) as (FM & EM); [lia|].
  assert (0 < IZR m) by (apply IZR_lt; lia). assert (P := bpow_gt_0 radix2 a).
  destruct (div_ok (b64_of_Z n) (b64_of_Z m) FN) as (F & E); [rewrite EM; lra|rewrite EN, EM, Rabs_pos_eq by lra; apply Rle_trans with (bp b); [apply H|apply bpow_le; lia]|].
  split; [exact F|]. unfold b64_lit. rewrite E, EN, EM. now apply bt_round.
Qed.

(** ** The speed of light as a bound *)

Lemma err_lo : forall y, 0 <= y -> y - u * y - tiny <= rnd y.
Proof. intros y H. assert (E := rnd_err y). apply Rabs_le_inv in E. rewrite (Rabs_pos_eq y H) in E. lra. Qed.
Lemma rnd_nonneg : forall y, 0 <= y -> 0 <= rnd y.
Proof. intros y H. rewrite <- rnd_0. now apply rnd_mono. Qed.

Lemma tiny_num : 0 < tiny <= / 1000000000000000000000000000000.
Proof. split; [apply tiny_pos|]. apply Rle_trans with (1 := tiny_100). rewrite bp_m100. lra. Qed.

Lemma sum3_lower : forall x y z, 0 <= x -> 0 <= y -> 0 <= z ->
  (x + y + z) * (1 - 4 * u) - 6 * tiny <= rnd (rnd (rnd x + rnd y) + rnd z).
Proof.
  intros x y z X Y Z. assert (X1 := rnd_nonneg x X). assert (Y1 := rnd_nonneg y Y). assert (Z1 := rnd_nonneg z Z).
  assert (X2 := err_lo x X). assert (Y2 := err_lo y Y). assert (Z2 := err_lo z Z).
  assert (A1 := rnd_nonneg (rnd x + rnd y) ltac:(lra)). assert (A2 := err_lo (rnd x + rnd y) ltac:(lra)).
  assert (B2 := err_lo (rnd (rnd x + rnd y) + rnd z) ltac:(lra)). assert (T := tiny_num). rewrite u_val in *. lra.
Qed.

Lemma limit_R : forall S ss beta C x p, 0 <= S -> 0 <= ss -> 0 <= beta -> 1 <= x -> 0 <= p -> 0 < C <= 90000000000000000 * (1 + 2 * u) ->
  S * (1 - 4 * u) - 6 * tiny <= ss -> ss / C * (1 - u) - tiny <= beta -> (1 + beta) * (1 - u) - tiny <= x -> p * sqrt x <= 1 + bp (-40) ->
  S * (p * p) <= 90000000000000000 * (1 + / 10000000000).
Proof.
  intros S ss beta C x p HS Hss Hb Hx Hp HC H1 H2 H3 H4. assert (T := tiny_num). rewrite u_val in *.
  set (K := 90000000000000000) in *.
  assert (A : ss * (1 - / 9007199254740992) <= C * (beta + tiny)).
  { assert (E : ss = C * (ss / C)) by (field; lra). rewrite E, Rmult_assoc. apply Rmult_le_compat_l; lra. }
  assert (B : C * (beta + tiny) <= K * (1 + 2 * / 9007199254740992) * (beta + tiny)) by (apply Rmult_le_compat_r; lra).
  assert (D : S <= K * (1 + 3 * / 100000000000) * x) by (unfold K in *; lra).
  assert (X : x * (p * p) <= (1 + bp (-40)) * (1 + bp (-40))).
  { replace (x * (p * p)) with (p * sqrt x * (p * sqrt x)).
    - assert (0 <= p * sqrt x) by (apply Rmult_le_pos; [lra|apply sqrt_pos]). apply Rmult_le_compat; lra.
    - replace (p * sqrt x * (p * sqrt x)) with (sqrt x * sqrt x * (p * p)) by ring. rewrite sqrt_sqrt by lra. reflexivity. }
  assert (P2 : 0 <= p * p) by now apply Rmult_le_pos.
  apply Rle_trans with (K * (1 + 3 * / 100000000000) * x * (p * p)); [apply Rmult_le_compat_r; assumption|].
  rewrite (Rmult_assoc _ x). replace (bp (-40)) with (/ 1099511627776) in X by (cbn; lra).
  apply Rle_trans with (K * (1 + 3 * / 100000000000) * ((1 + / 1099511627776) * (1 + / 1099511627776))); [apply Rmult_le_compat_l; [unfold K; lra|exact X]|unfold K; lra].
Qed.

Lemma product_R : forall a, Rabs a <= 310000000 -> rnd a * rnd a <= a * a * (1 + / 1000000000000) + / 1000000000.
Proof.
  intros a Ha. assert (E := rnd_err a). assert (T := tiny_num). assert (P := Rabs_pos a).
  assert (B : Rabs (rnd a) <= Rabs a * (1 + u) + tiny) by (assert (TI := Rabs_triang_inv (rnd a) a); lra).
  replace (rnd a * rnd a) with (Rabs (rnd a) * Rabs (rnd a)) by (unfold Rabs; destruct (Rcase_abs (rnd a)); ring).
  replace (a * a) with (Rabs a * Rabs a) by (unfold Rabs; destruct (Rcase_abs a); ring).
  assert (P' := Rabs_pos (rnd a)). rewrite u_val in B. set (b := Rabs a) in *.
  apply Rle_trans with ((b * (1 + / 9007199254740992) + tiny) * (b * (1 + / 9007199254740992) + tiny)); [apply Rmult_le_compat; lra|].
  assert (BT : b * tiny <= 310000000 * / 1000000000000000000000000000000) by (apply Rmult_le_compat; lra).
  assert (TT : tiny * tiny <= / 1000000000000000000000000000000 * / 1000000000000000000000000000000) by (apply Rmult_le_compat; lra).
  assert (BB : 0 <= b * b) by now apply Rmult_le_pos. lra.
Qed.

Lemma products_R : forall x y z p, (x * x + y * y + z * z) * (p * p) <= 90000000000000000 * (1 + / 10000000000) ->
  rnd (x * p) * rnd (x * p) + rnd (y * p) * rnd (y * p) + rnd (z * p) * rnd (z * p) <= 300000001 * 300000001.
Proof.
  intros x y z p H. assert (E : (x * x + y * y + z * z) * (p * p) = x * p * (x * p) + y * p * (y * p) + z * p * (z * p)) by ring. rewrite E in H.
  assert (X := Rle_0_sqr (x * p)). assert (Y := Rle_0_sqr (y * p)). assert (Z := Rle_0_sqr (z * p)). unfold Rsqr in *.
  assert (K : forall a, a * a <= 90000000000000000 * (1 + / 10000000000) -> Rabs a <= 310000000).
  { intros a Ha. apply Rabs_le. split; [apply Ropp_le_cancel; rewrite Ropp_involutive|]; apply sq_le_inv; lra. }
  assert (X1 := product_R (x * p) (K (x * p) ltac:(lra))). assert (Y1 := product_R (y * p) (K (y * p) ltac:(lra))). assert (Z1 := product_R (z * p) (K (z * p) ltac:(lra))). lra.
Qed.

(** ** Sums that may overflow *)

Definition ni (x : b64) : Prop := (fin x /\ 0 <= B2R x) \/ x = B754_infinity false.

Lemma mul_self : forall x : b64, fin x -> ni (b64_mul x x) /\ (fin (b64_mul x x) -> B2R (b64_mul x x) = rnd (B2R x * B2R x)).
Proof.
  intros x Fx. assert (C := Bmult_correct prec64 emax64 _ _ mode_NE x x). unfold b64_mul in *.
  change (round radix2 (SpecFloat.fexp prec64 emax64) (round_mode mode_NE) (B2R x * B2R x)) with (rnd (B2R x * B2R x)) in C.
  destruct (Rlt_bool_spec (Rabs (rnd (B2R x * B2R x))) (bp emax64)) as [H|H].
  - destruct C as (E & F & _). rewrite Fx in F. split; [|intros _; exact E]. left. split; [exact F|]. rewrite E. apply rnd_nonneg. assert (Q := Rle_0_sqr (B2R x)). exact Q.
  - assert (I : Bmult mode_NE x x = B754_infinity false).
    { rewrite xorb_nilpotent in C. destruct (Bmult mode_NE x x) as [s|s| |s m e He]; cbn in C; try discriminate. now injection C as ->. }
    rewrite I. split; [now right|]. discriminate.
Qed.

Lemma ni_add : forall x y, ni x -> ni y -> ni (b64_add x y) /\ (fin (b64_add x y) -> fin x /\ fin y /\ B2R (b64_add x y) = rnd (B2R x + B2R y)).
Proof.
  intros x y [(Fx & Px)| ->] [(Fy & Py)| ->].
  - assert (C := Bplus_correct prec64 emax64 _ _ mode_NE x y Fx Fy). unfold b64_add in *.
    change (round radix2 (SpecFloat.fexp prec64 emax64) (round_mode mode_NE) (B2R x + B2R y)) with (rnd (B2R x + B2R y)) in C.
    destruct (Rlt_bool_spec (Rabs (rnd (B2R x + B2R y))) (bp emax64)) as [H|H].
    + destruct C as (E & F & _). split; [left; split; [exact F|rewrite E; apply rnd_nonneg; lra]|now auto].
    + destruct C as (C & SG). assert (P := bpow_gt_0 radix2 emax64).
      assert (N : rnd (B2R x + B2R y) <> 0) by (intro Z; rewrite Z, Rabs_R0 in H; lra).
      assert (NZ : B2R x <> 0 \/ B2R y <> 0).
      { destruct (Req_dec (B2R x) 0) as [X|X]; [|now left]. destruct (Req_dec (B2R y) 0) as [Y|Y]; [|now right]. exfalso. apply N. rewrite X, Y, Rplus_0_r. apply rnd_0. }
      assert (SX : Bsign x = false).
      { destruct NZ as [Z|Z]; [|rewrite SG]; [destruct x as [s|s| |s m e He]|destruct y as [s|s| |s m e He]]; cbn in Z, Fx, Fy; try discriminate; try lra;
        destruct s; [|reflexivity| |reflexivity]; exfalso; [apply Rlt_not_le with (2 := Px)|apply Rlt_not_le with (2 := Py)]; apply F2R_lt_0; reflexivity. }
      rewrite SX in C. assert (I : Bplus mode_NE x y = B754_infinity false) by (destruct (Bplus mode_NE x y) as [s|s| |s m e He]; cbn in C; try discriminate; now injection C as ->).
      rewrite I. split; [now right|discriminate].
  - assert (I : b64_add x (B754_infinity false) = B754_infinity false) by (destruct x as [s|s| |s m e He]; cbn in Fx; try discriminate; reflexivity).
    rewrite I. split; [now right|discriminate].
  - assert (I : b64_add (B754_infinity false) y = B754_infinity false) by (destruct y as [s|s| |s m e He]; cbn in Fy; try discriminate; reflexivity).
    rewrite I. split; [now right|discriminate].
  - split; [now right|discriminate].
Qed.

Section Push.
Variables pw lg : b64 -> b64.
Notation A := (b64_arith pw lg).
Hypothesis HP : good_pow pw.

Ltac arith64 := cbv beta iota zeta delta [gtv_dot gtv_squared_sum gtv_product gtv_add g0 g1 g2 add sub mul div opp absv root of_int lit ltb leb eqb ceil_int finite inf_quot pow_mhalf b64_arith gLIGHT_SPEED_POW_2 gLIGHT_SPEED gPI gMAGN_CONST ghalf g3half gMNZL].

Lemma PI_bt : bt (b64_lit 7853981633974483 2500000000000000) 1 2.
Proof. apply bt_lit; try (split; reflexivity); try lia. cbn. lra. Qed.
Lemma MAGN_bt : bt (b64_lit 126 100000000) (-20) (-19).
Proof. apply bt_lit; try (split; reflexivity); try lia. cbn. lra. Qed.
Lemma c_exact : fin (b64_of_Z 300000000) /\ B2R (b64_of_Z 300000000) = 300000000.
Proof. now apply of_Z_exact. Qed.
Definition C2 : b64 := b64_mul (b64_of_Z 300000000) (b64_of_Z 300000000).
Lemma C2_val : fin C2 /\ B2R C2 = rnd 90000000000000000.
Proof.
  destruct c_exact as (F & E). destruct (mul_ok _ _ F F) as (F2 & E2).
  - rewrite E, Rabs_pos_eq by lra. apply Rle_trans with (bp 60); [cbn; lra|apply bpow_le; lia].
  - split; [exact F2|]. unfold C2. rewrite E2, E. f_equal. lra.
Qed.
Lemma C2_bt : bt C2 56 57.
Proof. destruct C2_val as (F & E). split; [exact F|]. rewrite E. apply bt_round; try lia. cbn. lra. Qed.
Lemma C2_hi : B2R C2 <= 90000000000000000 * (1 + 2 * u).
Proof.
  destruct C2_val as (_ & E). rewrite E. assert (R := rnd_err 90000000000000000). apply Rabs_le_inv in R. rewrite Rabs_pos_eq in R by lra. assert (T := tiny_num). rewrite u_val in *. lra.
Qed.

Lemma squared_sum : forall v : gvec A, fin (g0 A v : b64) -> fin (g1 A v : b64) -> fin (g2 A v : b64) ->
  let s := gtv_squared_sum A v in ni s /\
  (fin (s : b64) -> B2R (s : b64) = rnd (rnd (rnd (B2R (g0 A v : b64) * B2R (g0 A v : b64)) + rnd (B2R (g1 A v : b64) * B2R (g1 A v : b64))) + rnd (B2R (g2 A v : b64) * B2R (g2 A v : b64)))).
Proof.
  intros v F0 F1 F2 s. destruct v as [x y z]. subst s. cbn [g0 g1 g2] in *. unfold gtv_squared_sum, gtv_dot. cbn [g0 g1 g2].
  change (add A) with b64_add. change (mul A) with b64_mul. change (of_int A 0) with (b64_of_Z 0). cbn [num b64_arith] in *.
  destruct (mul_self x F0) as (NX & EX). destruct (mul_self y F1) as (NY & EY). destruct (mul_self z F2) as (NZ & EZ).
  destruct (of_Z_exact 0 eq_refl) as (FO & EO).
  destruct (ni_add (b64_of_Z 0) (b64_mul x x)) as (N1 & E1); [left; split; [exact FO|lra]|exact NX|].
  destruct (ni_add _ _ N1 NY) as (N2 & E2). destruct (ni_add _ _ N2 NZ) as (N3 & E3). split; [exact N3|]. intro F.
  destruct (E3 F) as (F3 & G3 & ->). destruct (E2 F3) as (F4 & G4 & ->). destruct (E1 F4) as (_ & G5 & ->).
  rewrite EO, Rplus_0_l, rnd_B2R, EX, EY, EZ by assumption. reflexivity.
Qed.

(** u -> u / sqrt(1 + u^2 / c^2) *)
Theorem speed_limit : forall v : gvec A, fin (g0 A v : b64) -> fin (g1 A v : b64) -> fin (g2 A v : b64) ->
  limited pw lg (gtv_product A v (gget_gamma_inv A (gtv_squared_sum A v))).
Proof.
  intros v F0 F1 F2. destruct (squared_sum v F0 F1 F2) as (N & E). unfold gget_gamma_inv.
  change (add A) with b64_add. change (div A) with b64_div. change (of_int A 1) with (b64_of_Z 1). change (gLIGHT_SPEED_POW_2 A) with C2. change (pow_mhalf A) with pw.
  set (s := gtv_squared_sum A v : b64) in *. assert (CB := C2_bt). assert (CP := bt_pos _ _ _ CB). assert (CH := C2_hi). destruct (CB) as (FC & _).
  destruct (of_Z_exact 1 eq_refl) as (FO & EO). unfold limited, gtv_product. cbn [g0 g1 g2]. change (mul A) with b64_mul.
  destruct v as [x y z]. cbn [g0 g1 g2] in *. cbn [num b64_arith] in *.
  destruct HP as (HP1 & HPI & HP0).
  assert (ZERO : forall p : b64, fin p -> B2R p = 0 -> limited pw lg (GV A (b64_mul x p) (b64_mul y p) (b64_mul z p))).
  { intros p FP EP. assert (K : forall a : b64, fin a -> fin (b64_mul a p) /\ B2R (b64_mul a p) = 0).
    { intros a FA. destruct (mul_ok a p FA FP) as (F & E'); [rewrite EP, Rmult_0_r, Rabs_R0; apply bpow_ge_0|]. split; [exact F|]. rewrite E', EP, Rmult_0_r. apply rnd_0. }
    destruct (K x F0) as (A1 & B1). destruct (K y F1) as (A2 & B2). destruct (K z F2) as (A3 & B3).
    unfold limited. cbn [g0 g1 g2 num b64_arith]. repeat split; try assumption. rewrite B1, B2, B3. lra. }
  destruct N as [(FS & PS)|I].
  2: { rewrite I. destruct C2 as [sc|sc| |sc m e He]; cbn in CP, FC; try discriminate; try lra.
       assert (sc = false) by (destruct sc; [exfalso; apply Rlt_not_le with (1 := CP); apply F2R_le_0; cbn; lia|reflexivity]). subst sc.
       change (b64_div (B754_infinity false) (B754_finite false m e He)) with (B754_infinity false : b64).
       assert (IO : b64_add (b64_of_Z 1) (B754_infinity false) = B754_infinity false) by (destruct (b64_of_Z 1) as [s1|s1| |s1 m1 e1 He1]; cbn in FO; try discriminate; reflexivity).
       rewrite IO. apply ZERO; assumption. }
  specialize (E FS).
  (* beta *)
  assert (BN : 0 <= B2R s / B2R C2) by (apply Rmult_le_pos; [exact PS|left; now apply Rinv_0_lt_compat]).
  assert (SM : B2R s / B2R C2 <= bp 1000).
  { assert (U := abs_B2R_lt_emax prec64 emax64 s). rewrite Rabs_pos_eq in U by exact PS. apply Rmult_le_reg_r with (B2R C2); [exact CP|].
    replace (B2R s / B2R C2 * B2R C2) with (B2R s) by (field; lra). apply Rle_trans with (bp 1000 * bp 56); [rewrite <- bpow_plus; left; apply Rlt_le_trans with (1 := U); apply bpow_le; cbv; discriminate|].
    apply Rmult_le_compat_l; [apply bpow_ge_0|apply CB]. }
  destruct (div_ok s C2 FS) as (FB & EB); [lra|rewrite Rabs_pos_eq by exact BN; apply Rle_trans with (1 := SM); apply bpow_le; lia|].
  assert (PB : 0 <= rnd (B2R s / B2R C2) <= bp 1000) by (split; [now apply rnd_nonneg|rewrite <- (rnd_bp 1000) by lia; now apply rnd_mono]).
  destruct (add_ok (b64_of_Z 1) (b64_div s C2) FO FB) as (FX & EX).
  { rewrite EO, EB, Rabs_pos_eq by lra. assert (2 * bp 1000 = bp 1001) by (rewrite <- bp_succ; reflexivity). assert (bp 1001 <= bp 1023) by (apply bpow_le; lia).
    assert (1 <= bp 1000) by (apply (bpow_le radix2 0 1000); lia). lra. }
  rewrite EO, EB in EX. set (X := b64_add (b64_of_Z 1) (b64_div s C2)) in *.
  assert (X1 : 1 <= B2R X).
  { rewrite EX. rewrite <- (rnd_exact_Z 1) at 1 by reflexivity. apply rnd_mono. lra. }
  destruct (HP1 X FX X1) as (FP & PP & BP). set (p := pw X) in *.
  assert (LIM : (B2R x * B2R x + B2R y * B2R y + B2R z * B2R z) * (B2R p * B2R p) <= 90000000000000000 * (1 + / 10000000000)).
  { assert (QX := Rle_0_sqr (B2R x)). assert (QY := Rle_0_sqr (B2R y)). assert (QZ := Rle_0_sqr (B2R z)). unfold Rsqr in *.
    apply (limit_R _ (B2R s) (rnd (B2R s / B2R C2)) (B2R C2) (B2R X)); try lra.
    - rewrite E. apply sum3_lower; assumption.
    - assert (L := err_lo _ BN). lra.
    - rewrite EX. assert (L := err_lo (1 + rnd (B2R s / B2R C2)) ltac:(lra)). lra. }
  assert (FIT : forall a b c : R, (a * a + b * b + c * c) * (B2R p * B2R p) <= 90000000000000000 * (1 + / 10000000000) -> Rabs (a * B2R p) <= bp 1023).
  { intros a b c L. assert (E' : (a * a + b * b + c * c) * (B2R p * B2R p) = a * B2R p * (a * B2R p) + b * B2R p * (b * B2R p) + c * B2R p * (c * B2R p)) by ring.
    assert (QY := Rle_0_sqr (b * B2R p)). assert (QZ := Rle_0_sqr (c * B2R p)). unfold Rsqr in *. rewrite E' in L.
    apply Rle_trans with 310000000; [|apply Rle_trans with (bp 30); [cbn; lra|apply bpow_le; lia]].
    apply Rabs_le. split; [apply Ropp_le_cancel; rewrite Ropp_involutive|]; apply sq_le_inv; lra. }
  destruct (mul_ok x p F0 FP (FIT (B2R x) (B2R y) (B2R z) ltac:(lra))) as (G0 & V0).
  destruct (mul_ok y p F1 FP (FIT (B2R y) (B2R x) (B2R z) ltac:(lra))) as (G1 & V1).
  destruct (mul_ok z p F2 FP (FIT (B2R z) (B2R y) (B2R x) ltac:(lra))) as (G2 & V2).
  repeat split; try assumption. rewrite V0, V1, V2. now apply products_R.
Qed.

(** ** The pusher *)

Definition mgv (v : gvec A) (e : Z) : Prop := mg (g0 A v) e /\ mg (g1 A v) e /\ mg (g2 A v) e.

Lemma mgv_product : forall v x a b e, mgv v a -> mg x b -> (a + b <= e)%Z -> (-1074 <= a + b)%Z -> (a + b <= 1023)%Z -> mgv (gtv_product A v x) e.
Proof. intros v x a b e (V0 & V1 & V2) X H L U. split; [|split]; apply (mg_mul2 _ _ a b); assumption. Qed.
Lemma mgv_add : forall v w a b e, mgv v a -> mgv w b -> (Z.max a b + 1 <= e)%Z -> (-1074 <= a)%Z -> (Z.max a b < 1023)%Z -> mgv (gtv_add A v w) e.
Proof. intros v w a b e (V0 & V1 & V2) (W0 & W1 & W2) H L U. split; [|split]; apply (mg_add2 _ _ a b); assumption. Qed.
Lemma mg_squared : forall v a, mgv v a -> (0 <= a)%Z -> (2 * a + 3 <= 1023)%Z -> mg (gtv_squared_sum A v) (2 * a + 3) /\ 0 <= B2R (gtv_squared_sum A v : b64).
Proof.
  intros v a (V0 & V1 & V2) H L. assert (M : mg (gtv_squared_sum A v) (2 * a + 3)).
  { unfold gtv_squared_sum, gtv_dot. apply (mg_add2 _ _ (2 * a + 2) (2 * a)); [|apply (mg_mul2 _ _ a a); try assumption; lia|lia|lia|lia].
    apply (mg_add2 _ _ (2 * a + 1) (2 * a)); [|apply (mg_mul2 _ _ a a); try assumption; lia|lia|lia|lia].
    apply (mg_add2 _ _ (2 * a) (2 * a)); [apply mg_zero|apply (mg_mul2 _ _ a a); try assumption; lia|lia|lia|lia]. }
  split; [exact M|]. destruct (squared_sum v (proj1 V0) (proj1 V1) (proj1 V2)) as ([(_ & P)|I] & _); [exact P|]. destruct M as (F & _). rewrite I in F. discriminate.
Qed.

Lemma ground_mg : forall x e, mg x e -> mg (ground_small A x) e.
Proof. intros x e H. unfold ground_small. destruct (ltb A _ _); [apply mg_zero|exact H]. Qed.

(** the Lorentz factor of a velocity *)
Lemma gamma_ok : forall s : b64, mg s 65 -> 0 <= B2R s -> gget_gamma A s = Exit 1 \/ exists y, gget_gamma A s = Ok y /\ mg y 333.
Proof.
  intros s (FS & BS) PS. unfold gget_gamma. cbv zeta.
  change (div A) with b64_div. change (ltb A) with (@Bltb prec64 emax64). change (sub A) with b64_sub. change (of_int A) with b64_of_Z. change (root A) with b64_sqrt.
  change (gLIGHT_SPEED_POW_2 A) with C2. assert (CB := C2_bt). assert (CP := bt_pos _ _ _ CB). destruct (CB) as (FC & CL & CU).
  rewrite Rabs_pos_eq in BS by exact PS. destruct (of_Z_exact 1 eq_refl) as (FO & EO).
  assert (Q0 : 0 <= B2R s / B2R C2) by (apply Rmult_le_pos; [exact PS|left; now apply Rinv_0_lt_compat]).
  assert (Q1 : B2R s / B2R C2 <= bp 9).
  { apply Rmult_le_reg_r with (B2R C2); [exact CP|]. replace (B2R s / B2R C2 * B2R C2) with (B2R s) by (field; lra).
    apply Rle_trans with (1 := BS). change 65%Z with (9 + 56)%Z. rewrite bpow_plus. apply Rmult_le_compat_l; [apply bpow_ge_0|exact CL]. }
  destruct (div_ok s C2 FS) as (FB & EB); [lra|rewrite Rabs_pos_eq by exact Q0; apply Rle_trans with (1 := Q1); apply bpow_le; lia|].
  set (beta := b64_div s C2) in *. assert (B0 : 0 <= B2R beta) by (rewrite EB; now apply rnd_nonneg).
  destruct (Bltb (b64_of_Z 1) beta) eqn:E; [now left|]. right.
  assert (B1 : B2R beta <= 1).
  { destruct (Rle_dec (B2R beta) 1) as [K|K]; [exact K|]. exfalso. assert (Bltb (b64_of_Z 1) beta = true) by (apply ltb_ok; [assumption|assumption|lra]). congruence. }
  destruct (sub_ok (b64_of_Z 1) beta FO FB) as (FD & ED).
  { rewrite EO, Rabs_pos_eq by lra. apply Rle_trans with (bp 0); [cbn; lra|apply bpow_le; lia]. }
  rewrite EO in ED. set (d := b64_sub (b64_of_Z 1) beta) in *.
  assert (D0 : 0 <= B2R d) by (rewrite ED; apply rnd_nonneg; lra).
  destruct (sqrt_ok d FD D0) as (FQ & EQ). set (r := b64_sqrt d) in *.
  change (inf_quot A (b64_of_Z 1) r) with (b64_is_inf (b64_div (b64_of_Z 1) r)).
  destruct (b64_is_inf (b64_div (b64_of_Z 1) r)) eqn:EI.
  - exists (b64_of_Z (10 ^ 100)). split; [reflexivity|]. apply mg_of_Z; [|lia]. rewrite Rabs_pos_eq by (apply IZR_le; discriminate).
    change (bp 333) with (IZR (Z.pow_pos 2 333)). apply IZR_le. vm_compute. discriminate.
  - exists (b64_div (b64_of_Z 1) r). split; [reflexivity|].
    assert (RN : B2R r <> 0).
    { intro Z. clearbody r.
      destruct r as [sr|sr| |sr m e He]; cbn in FQ; try discriminate.
      cbn in Z. apply eq_0_F2R in Z. destruct sr; discriminate. }
    assert (DP : bp (-53) <= B2R d).
    { assert (B2 : B2R beta < 1).
      { destruct B1 as [B1|B1]; [exact B1|]. exfalso. apply RN. rewrite EQ, ED, B1. replace (1 - 1) with 0 by ring. rewrite rnd_0, sqrt_0. apply rnd_0. }
      assert (PR : B2R beta <= pred radix2 (FLT_exp (-1074) 53) 1).
      { apply pred_ge_gt; [exact (@FLT_exp_valid (-1074) 53 eq_refl)|apply generic_format_B2R| |exact B2]. rewrite <- EO. apply generic_format_B2R. }
      assert (P1 : pred radix2 (FLT_exp (-1074) 53) 1 = 1 - bp (-53)).
      { change 1 with (bp 0) at 1 2. rewrite pred_bpow. reflexivity. }
      rewrite ED, <- (rnd_bp (-53)) by lia. apply rnd_mono. lra. }
    assert (RL : bp (-27) <= B2R r).
    { rewrite EQ, <- (rnd_bp (-27)) by lia. apply rnd_mono. rewrite <- (sqrt_square (bp (-27))) by apply bpow_ge_0. apply sqrt_le_1_alt.
      rewrite <- bpow_plus. apply Rle_trans with (2 := DP). apply bpow_le. lia. }
    apply mg_weaken with 27%Z; [|lia]. change 27%Z with (0 - -27)%Z. apply mg_div; try lia.
    + split; [exact FO|]. rewrite EO. cbn. rewrite Rabs_pos_eq; lra.
    + assert (P := bpow_gt_0 radix2 (-27)). rewrite Rabs_pos_eq; lra.
Qed.

(** pow of 1 + a sum of squares *)
Lemma gamma_inv_ok : forall s : b64, mg s 1000 -> 0 <= B2R s -> mg (gget_gamma_inv A s) 1.
Proof.
  intros s (FS & BS) PS. unfold gget_gamma_inv. change (add A) with b64_add. change (div A) with b64_div. change (of_int A 1) with (b64_of_Z 1). change (gLIGHT_SPEED_POW_2 A) with C2. change (pow_mhalf A) with pw.
  assert (CB := C2_bt). assert (CP := bt_pos _ _ _ CB). destruct (of_Z_exact 1 eq_refl) as (FO & EO).
  assert (M : mg (b64_div s C2) 944). { change 944%Z with (1000 - 56)%Z. apply mg_div; try lia; [split; assumption|exact (bt_abs _ _ _ CB)]. }
  assert (P : 0 <= B2R (b64_div s C2)).
  { destruct (div_ok s C2 FS) as (FB & EB); [lra| |].
    - destruct M as (_ & M). assert (BN : 0 <= B2R s / B2R C2) by (apply Rmult_le_pos; [exact PS|left; now apply Rinv_0_lt_compat]).
      rewrite Rabs_pos_eq in * by assumption. apply Rmult_le_reg_r with (B2R C2); [exact CP|]. replace (B2R s / B2R C2 * B2R C2) with (B2R s) by (field; lra).
      apply Rle_trans with (1 := BS). apply Rle_trans with (bp 1023 * bp 56); [rewrite <- bpow_plus; apply bpow_le; lia|apply Rmult_le_compat_l; [apply bpow_ge_0|apply CB]].
    - rewrite EB. apply rnd_nonneg. apply Rmult_le_pos; [exact PS|left; now apply Rinv_0_lt_compat]. }
  destruct M as (FM & MM). rewrite Rabs_pos_eq in MM by exact P.
  destruct (add_ok (b64_of_Z 1) (b64_div s C2) FO FM) as (FX & EX).
  { rewrite EO, Rabs_pos_eq by lra. assert (2 * bp 944 = bp 945) by (rewrite <- bp_succ; reflexivity). assert (bp 945 <= bp 1023) by (apply bpow_le; lia).
    assert (1 <= bp 944) by (apply (bpow_le radix2 0 944); lia). lra. }
  rewrite EO in EX. set (X := b64_add (b64_of_Z 1) (b64_div s C2)) in *.
  assert (X1 : 1 <= B2R X). { rewrite EX. rewrite <- (rnd_exact_Z 1) at 1 by reflexivity. apply rnd_mono. lra. }
  destruct (proj1 HP X FX X1) as (FP & PP & BP). split; [exact FP|]. rewrite Rabs_pos_eq by exact PP.
  assert (S1 : 1 <= sqrt (B2R X)) by (rewrite <- sqrt_1; now apply sqrt_le_1_alt).
  assert (B2R (pw X) <= B2R (pw X) * sqrt (B2R X)) by (rewrite <- (Rmult_1_r (B2R (pw X))) at 1; apply Rmult_le_compat_l; assumption).
  replace (bp (-40)) with (/ 1099511627776) in BP by (cbn; lra). change (bp 1) with 2. lra.
Qed.

Ltac sz := solve [assumption | apply mg_opp; sz | lia].

Lemma rotation_ok : forall b v, mgv b 299 -> mgv v 365 -> mgv (gboris_rotation A b v) 980.
Proof.
  intros b v HB HV. destruct (mg_squared b 299 HB ltac:(lia) ltac:(lia)) as (SM & SP). destruct HB as (B0 & B1 & B2). destruct HV as (V0 & V1 & V2).
  unfold gboris_rotation. cbv zeta. cbn [g0 g1 g2].
  change (add A) with b64_add. change (sub A) with b64_sub. change (mul A) with b64_mul. change (div A) with b64_div. change (opp A) with (@Bopp prec64 emax64). change (of_int A) with b64_of_Z.
  set (ss := gtv_squared_sum A b : b64) in *.
  assert (C2m : mg (b64_div (b64_of_Z 2) (b64_add (b64_of_Z 1) ss)) 1).
  { destruct (of_Z_exact 1 eq_refl) as (FO & EO). destruct SM as (FS & SB). rewrite Rabs_pos_eq in SB by exact SP.
    destruct (add_ok (b64_of_Z 1) ss FO FS) as (FX & EX).
    { rewrite EO, Rabs_pos_eq by lra. assert (1 <= bp 610) by (apply (bpow_le radix2 0 610); lia). assert (bp (2 * 299 + 3) <= bp 610) by (apply bpow_le; lia).
      assert (2 * bp 610 = bp 611) by (rewrite <- bp_succ; reflexivity). assert (bp 611 <= bp 1023) by (apply bpow_le; lia). lra. }
    change 1%Z with (1 - 0)%Z at 2. apply mg_div; try lia.
    - apply mg_of_Z; [rewrite Rabs_pos_eq by lra; cbn; lra|lia].
    - assert (1 <= B2R (b64_add (b64_of_Z 1) ss)). { rewrite EX, EO. rewrite <- (rnd_exact_Z 1) at 1 by reflexivity. apply rnd_mono. lra. }
      rewrite Rabs_pos_eq by lra. change (bp 0) with 1. lra. }
  assert (PR : forall x y, mg x 365 -> mg y 299 -> mg (b64_mul x y) 664) by (intros x y X Y; apply (mg_mul2 _ _ 365 299); sz).
  assert (IN1 : forall a x y s t, mg a 365 -> mg x 365 -> mg y 299 -> mg s 365 -> mg t 299 -> mg (b64_sub (b64_add a (b64_mul x y)) (b64_mul s t)) 666).
  { intros a x y s t Ha Hx Hy Hs Ht. apply (mg_sub2 _ _ 665 664); [apply (mg_add2 _ _ 365 664); [exact Ha|now apply PR|lia..]|now apply PR|lia..]. }
  assert (IN2 : forall a x y s t, mg a 365 -> mg x 365 -> mg y 299 -> mg s 365 -> mg t 299 -> mg (b64_add (b64_sub a (b64_mul x y)) (b64_mul s t)) 666).
  { intros a x y s t Ha Hx Hy Hs Ht. apply (mg_add2 _ _ 665 664); [apply (mg_sub2 _ _ 365 664); [exact Ha|now apply PR|lia..]|now apply PR|lia..]. }
  assert (OUT : forall a c i, mg a 365 -> mg c 1 -> mg i 966 -> mg (b64_add a (b64_mul c i)) 980).
  { intros a c i Ha Hc Hi. apply (mg_add2 _ _ 365 967); [exact Ha|apply (mg_mul2 _ _ 1 966); sz|lia..]. }
  assert (TM : forall i b, mg i 666 -> mg b 299 -> mg (b64_mul i b) 965) by (intros i b' Hi Hb; apply (mg_mul2 _ _ 666 299); sz).
  split; [|split]; (apply OUT; [assumption|exact C2m|]).
  - apply (mg_sub2 _ _ 965 965); [apply TM; [apply IN2; assumption|assumption]|apply TM; [apply IN1; assumption|assumption]|lia..].
  - apply (mg_add2 _ _ 965 965); [apply TM; [apply mg_opp; apply IN1; assumption|assumption]|apply TM; [apply IN1; assumption|assumption]|lia..].
  - apply (mg_sub2 _ _ 965 965); [apply TM; [apply IN1; assumption|assumption]|apply TM; [apply IN2; assumption|assumption]|lia..].
Qed.

Lemma const1_ok : forall charge mass dt : b64, sane charge mass -> fin dt -> 0 < B2R dt <= bp (-18) -> mg (b64_div (b64_mul charge dt) (b64_mul (b64_of_Z 2) mass)) 33.
Proof.
  intros q m dt (FQ & FM & (ML & MU) & QM) FD HD. assert (MP : 0 < B2R m) by (apply Rlt_le_trans with (2 := ML); apply bpow_gt_0).
  assert (QD : Rabs (B2R q * B2R dt) <= bp 32 * B2R m).
  { rewrite Rabs_mult, (Rabs_pos_eq (B2R dt)) by lra. apply Rle_trans with (bp 50 * B2R m * bp (-18)); [apply Rmult_le_compat; [apply Rabs_pos|lra|exact QM|lra]|].
    replace (bp 50 * B2R m * bp (-18)) with (bp 50 * bp (-18) * B2R m) by ring. rewrite <- bpow_plus. right. reflexivity. }
  assert (QF : Rabs (B2R q * B2R dt) <= bp 1023).
  { apply Rle_trans with (1 := QD). apply Rle_trans with (bp 32 * bp 400); [apply Rmult_le_compat_l; [apply bpow_ge_0|exact MU]|rewrite <- bpow_plus; apply bpow_le; lia]. }
  destruct (mul_ok q dt FQ FD QF) as (F1 & E1). destruct (of_Z_exact 2 eq_refl) as (F2 & E2).
  destruct (mul_ok (b64_of_Z 2) m F2 FM) as (F3 & E3).
  { rewrite E2, Rabs_pos_eq by lra. assert (2 * bp 400 = bp 401) by (rewrite <- bp_succ; reflexivity). assert (bp 401 <= bp 1023) by (apply bpow_le; lia). lra. }
  assert (M2 : B2R m <= B2R (b64_mul (b64_of_Z 2) m)). { rewrite E3, E2. rewrite <- (rnd_B2R m) at 1. apply rnd_mono. lra. }
  assert (N1 : Rabs (B2R (b64_mul q dt)) <= bp 33 * B2R m).
  { rewrite E1. assert (R := rnd_err (B2R q * B2R dt)). assert (TI := Rabs_triang_inv (rnd (B2R q * B2R dt)) (B2R q * B2R dt)).
    assert (T : tiny <= B2R m) by (apply Rle_trans with (2 := ML); apply bpow_le; lia). rewrite u_val in R. change (bp 33) with 8589934592. change (bp 32) with 4294967296 in QD. lra. }
  assert (S : Rabs (B2R (b64_mul q dt) / B2R (b64_mul (b64_of_Z 2) m)) <= bp 33).
  { unfold Rdiv. rewrite Rabs_mult, Rabs_inv, (Rabs_pos_eq (B2R (b64_mul (b64_of_Z 2) m))) by lra. apply Rmult_le_reg_r with (B2R (b64_mul (b64_of_Z 2) m)); [lra|].
    rewrite Rmult_assoc, Rinv_l, Rmult_1_r by lra. apply Rle_trans with (1 := N1). apply Rmult_le_compat_l; [apply bpow_ge_0|exact M2]. }
  destruct (div_ok (b64_mul q dt) (b64_mul (b64_of_Z 2) m) F1) as (F & E); [lra|apply Rle_trans with (1 := S); apply bpow_le; lia|].
  split; [exact F|]. rewrite E. apply rnd_abs_le; [lia|exact S].
Qed.

Theorem boris_ok : forall (dt charge mass : b64) (e h v : gvec A), sane charge mass -> fin dt -> 0 < B2R dt <= bp (-18) ->
  mgv e 265 -> mgv h 265 -> mgv v 31 ->
  gboris_push A true dt charge mass e h v = Exit 1 \/ exists v', gboris_push A true dt charge mass e h v = Ok v' /\ limited pw lg v'.
Proof.
  intros dt q m e h v HQ FD HD HE HH HV. assert (C1 := const1_ok q m dt HQ FD HD). unfold gboris_push. cbv zeta.
  change (div A (mul A q dt) (mul A (of_int A 2) m)) with (b64_div (b64_mul q dt) (b64_mul (b64_of_Z 2) m)). set (c1 := b64_div (b64_mul q dt) _) in *.
  assert (E1 : mgv (gtv_product A e c1) 298) by (apply (mgv_product _ _ 265 33); sz).
  assert (B1 : mgv (gtv_product A h (mul A (gMAGN_CONST A) c1)) 298).
  { apply (mgv_product _ _ 265 14); [exact HH| |lia..]. apply (mg_mul2 _ _ (-19) 33); [exact (bt_mg _ _ _ MAGN_bt)|exact C1|lia..]. }
  set (e1 := gtv_product A e c1) in *. set (b1 := gtv_product A h _) in *.
  assert (V1 : mgv (ground_velocity A v) 31) by (destruct HV as (X & Y & Z); split; [|split]; apply ground_mg; assumption).
  destruct (mg_squared _ 31 V1 ltac:(lia) ltac:(lia)) as (SM & SP).
  destruct (gamma_ok (gtv_squared_sum A (ground_velocity A v)) SM SP) as [G|(y & G & MY)]; rewrite G; cbn [bind]; [now left|right].
  assert (V2 : mgv (gtv_add A (gtv_product A (ground_velocity A v) y) e1) 365) by (apply (mgv_add _ _ 364 298); [apply (mgv_product _ _ 31 333); sz|sz|lia..]).
  set (v2 := gtv_add A (gtv_product A (ground_velocity A v) y) e1) in *.
  destruct (mg_squared _ 365 V2 ltac:(lia) ltac:(lia)) as (S2 & P2).
  assert (G2 : mg (gget_gamma_inv A (gtv_squared_sum A v2)) 1) by (apply gamma_inv_ok; [apply (mg_weaken _ _ _ S2); lia|exact P2]).
  assert (B2 : mgv (gtv_product A b1 (gget_gamma_inv A (gtv_squared_sum A v2))) 299) by (apply (mgv_product _ _ 298 1); sz).
  assert (V3 := rotation_ok _ _ B2 V2).
  assert (V4 : mgv (gtv_add A (gboris_rotation A (gtv_product A b1 (gget_gamma_inv A (gtv_squared_sum A v2))) v2) e1) 981) by (apply (mgv_add _ _ 980 298); sz).
  set (v4 := gtv_add A _ e1) in *. eexists. split; [reflexivity|]. destruct V4 as ((F0 & _) & (F1 & _) & (F2 & _)). now apply speed_limit.
Qed.
End Push.
