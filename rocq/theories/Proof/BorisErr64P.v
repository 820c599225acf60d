(** One push of a particle in binary64, compared with the exact scheme. *)
From Coq Require Import Reals ZArith List Bool Lia Lra Psatz.
From Flocq Require Import Core IEEE754.BinarySingleNaN.
From Verif.Lib Require Import RAux Outcome.
From Verif.Model Require Import Constants Binary64 Temperature64 Arith Pusher GenCode.
From Verif.Spec Require Import Double Momentum.
From Verif.Proof Require Import Binary64P FloatP Motion64R Axis64P Push64P Err64P MomentumR Ana64P Cell64P Thermal64P Boost64P Gentle64P.
From Verif.Spec Require Import Boris.
Local Open Scope R_scope.

(** ** The exact scheme, solved *)
Definition turned (b v : triple) : triple :=
  let k := 2 / (1 + (c0 b * c0 b + c1 b * c1 b + c2 b * c2 b)) in
  Triple (c0 v + k * ((c1 v - c0 v * c2 b + c2 v * c0 b) * c2 b - (c2 v + c0 v * c1 b - c1 v * c0 b) * c1 b))
         (c1 v + k * (- (c0 v + c1 v * c2 b - c2 v * c1 b) * c2 b + (c2 v + c0 v * c1 b - c1 v * c0 b) * c0 b))
         (c2 v + k * ((c0 v + c1 v * c2 b - c2 v * c1 b) * c1 b - (c1 v - c0 v * c2 b + c2 v * c0 b) * c0 b)).
Lemma turned_solves : forall b v, minus (turned b v) v = cross (plus (turned b v) v) b.
Proof.
  intros [b0 b1 b2] [v0 v1 v2]. unfold turned, minus, cross, plus. cbv zeta. cbn [c0 c1 c2]. assert (D := sq_pos3 b0 b1 b2). f_equal; field; lra.
Qed.
Lemma turned_only : forall b v w, minus w v = cross (plus w v) b -> w = turned b v.
Proof.
  intros b v w H. assert (K := turned_solves b v). destruct (turned b v) as [t0 t1 t2]. destruct b as [b0 b1 b2], v as [v0 v1 v2], w as [w0 w1 w2].
  unfold minus, cross, plus in H, K. cbn [c0 c1 c2] in H, K. injection H as H0 H1 H2. injection K as K0 K1 K2.
  assert (Z : (w0 - t0) * (w0 - t0) + (w1 - t1) * (w1 - t1) + (w2 - t2) * (w2 - t2) = 0).
  { assert (E0 : w0 - t0 = (w1 - t1) * b2 - (w2 - t2) * b1) by lra. assert (E1 : w1 - t1 = (w2 - t2) * b0 - (w0 - t0) * b2) by lra. assert (E2 : w2 - t2 = (w0 - t0) * b1 - (w1 - t1) * b0) by lra.
    set (x := w0 - t0) in *. set (y := w1 - t1) in *. set (z := w2 - t2) in *. assert (X : x * x = x * (y * b2 - z * b1)) by (rewrite <- E0; reflexivity). assert (Y : y * y = y * (z * b0 - x * b2)) by (rewrite <- E1; reflexivity). assert (W : z * z = z * (x * b1 - y * b0)) by (rewrite <- E2; reflexivity). rewrite X, Y, W. ring. }
  assert (Q0 := Rle_0_sqr (w0 - t0)). assert (Q1 := Rle_0_sqr (w1 - t1)). assert (Q2 := Rle_0_sqr (w2 - t2)). unfold Rsqr in *.
  assert (S0 : (w0 - t0) * (w0 - t0) = 0) by lra. assert (S1 : (w1 - t1) * (w1 - t1) = 0) by lra. assert (S2 : (w2 - t2) * (w2 - t2) = 0) by lra.
  f_equal; [destruct (Rmult_integral _ _ S0)|destruct (Rmult_integral _ _ S1)|destruct (Rmult_integral _ _ S2)]; lra.
Qed.

(** ** The exact scheme has one solution *)
Definition before (q m dt : R) (e v : triple) : triple := plus (scale (gamma_v (quiet v)) (quiet v)) (scale (q * dt / (2 * m)) e).
Definition after (q m dt : R) (e h v : triple) : triple :=
  let b := before q m dt e v in plus (turned (scale (mu0 * (q * dt / (2 * m)) / gamma_p b) h) b) (scale (q * dt / (2 * m)) e).
Lemma gamma_p_ge : forall p, 1 <= gamma_p p.
Proof.
  intro p. unfold gamma_p. rewrite <- sqrt_1 at 1. apply sqrt_le_1_alt. unfold dot, light. assert (Q := sq_pos3 (c0 p) (c1 p) (c2 p)). assert (0 <= (c0 p * c0 p + c1 p * c1 p + c2 p * c2 p) / (300000000 * 300000000)) by (apply Rmult_le_pos; lra). lra.
Qed.
Lemma boris_step_is : forall q m dt e h v w, boris_step q m dt e h v w <-> w = scale (/ gamma_p (after q m dt e h v)) (after q m dt e h v).
Proof.
  intros q m dt e h v w. assert (G := gamma_p_ge (after q m dt e h v)). unfold boris_step. cbv zeta. fold (before q m dt e v). split.
  - intros (b & p & -> & T & E). apply turned_only in T. subst p. change (plus (turned _ _) _) with (after q m dt e h v) in E. set (p := after q m dt e h v) in *. rewrite E at 2. unfold scale. cbn [c0 c1 c2]. destruct w as [w0 w1 w2]. cbn [c0 c1 c2]. f_equal; field; lra.
  - intros ->. exists (before q m dt e v), (turned (scale (mu0 * (q * dt / (2 * m)) / gamma_p (before q m dt e v)) h) (before q m dt e v)). split; [reflexivity|]. split; [apply turned_solves|].
    change (plus (turned _ _) _) with (after q m dt e h v). set (p := after q m dt e h v) in *. unfold scale. cbn [c0 c1 c2]. destruct p as [p0 p1 p2]. cbn [c0 c1 c2]. f_equal; field; lra.
Qed.
Definition after_classic (q m dt : R) (e h v : triple) : triple :=
  plus (turned (scale (mu0 * (q * dt / (2 * m))) h) (plus (quiet v) (scale (q * dt / (2 * m)) e))) (scale (q * dt / (2 * m)) e).
Lemma classic_step_is : forall q m dt e h v w, classic_step q m dt e h v w <-> w = after_classic q m dt e h v.
Proof.
  intros q m dt e h v w. unfold classic_step. cbv zeta. split.
  - intros (b & p & -> & T & E). apply turned_only in T. now subst p.
  - intros ->. eexists _, _. split; [reflexivity|]. split; [apply turned_solves|reflexivity].
Qed.

(** ** Lorentz factors *)
Lemma boost_lip : forall x y, 300000000 * Rabs (boost y - boost x) <= Rabs (x - y).
Proof. intros x y. exact (gam_lip x y). Qed.
Lemma boost_abs : forall x, Rabs x <= 300000000 * boost x.
Proof. intro x. exact (gam_abs x). Qed.
Lemma inv_lip : forall x y, Rabs (/ boost x - / boost y) <= Rabs (x - y) / 300000000.
Proof.
  intros x y. assert (X := boost_ge x). assert (Y := boost_ge y). assert (L := boost_lip x y).
  replace (/ boost x - / boost y) with ((boost y - boost x) * (/ boost x * / boost y)) by (field; lra). rewrite Rabs_mult.
  assert (IX : 0 < / boost x <= 1) by (split; [apply Rinv_0_lt_compat; lra|rewrite <- Rinv_1; apply Rinv_le; lra]). assert (IY : 0 < / boost y <= 1) by (split; [apply Rinv_0_lt_compat; lra|rewrite <- Rinv_1; apply Rinv_le; lra]).
  assert (I : 0 <= / boost x * / boost y <= 1) by (split; [apply Rmult_le_pos; lra|rewrite <- (Rmult_1_l 1); apply Rmult_le_compat; lra]). rewrite (Rabs_pos_eq (/ boost x * / boost y)) by lra.
  apply Rle_trans with (Rabs (boost y - boost x) * 1); [apply Rmult_le_compat_l; [apply Rabs_pos|lra]|lra].
Qed.
Lemma speed3 : forall x x' n n' d, Rabs x <= n -> Rabs (x - x') <= d -> Rabs (n - n') <= 2 * d -> 0 <= n -> Rabs (x * / boost n - x' * / boost n') <= 3 * d.
Proof.
  intros x x' n n' d HX HD HN N0. assert (B := boost_ge n). assert (B' := boost_ge n'). assert (L := boost_lip n n'). assert (AB := boost_abs n). rewrite (Rabs_pos_eq n) in AB by exact N0.
  assert (IB : 0 < / boost n) by (apply Rinv_0_lt_compat; lra). assert (IB' : 0 < / boost n' <= 1) by (split; [apply Rinv_0_lt_compat; lra|rewrite <- Rinv_1; apply Rinv_le; lra]).
  replace (x * / boost n - x' * / boost n') with ((x - x') * / boost n' + x * / boost n * ((boost n' - boost n) * / boost n')) by (field; lra).
  apply Rle_trans with (1 := Rabs_triang _ _). rewrite !Rabs_mult, (Rabs_pos_eq (/ boost n')), (Rabs_pos_eq (/ boost n)) by lra.
  assert (D0 := Rabs_pos (x - x')). assert (E0 := Rabs_pos (boost n' - boost n)). assert (X0 := Rabs_pos x).
  assert (H1 : Rabs (x - x') * / boost n' <= d * 1) by (apply Rmult_le_compat; lra).
  assert (H2 : Rabs x * / boost n <= 300000000). { apply Rmult_le_reg_r with (boost n); [lra|]. rewrite Rmult_assoc, Rinv_l by lra. lra. }
  assert (H3 : Rabs (boost n' - boost n) * / boost n' <= Rabs (boost n' - boost n) * 1) by (apply Rmult_le_compat_l; lra).
  assert (H4 : Rabs x * / boost n * (Rabs (boost n' - boost n) * / boost n') <= 300000000 * (Rabs (boost n' - boost n) * 1)) by (apply Rmult_le_compat; [apply Rmult_le_pos; lra|apply Rmult_le_pos; lra|exact H2|exact H3]).
  lra.
Qed.

Section Boris.
Variables pw lg : b64 -> b64.
Notation A := (b64_arith pw lg).
Notation x0 v := (@B2R prec64 emax64 (g0 A v)).
Notation x1 v := (@B2R prec64 emax64 (g1 A v)).
Notation x2 v := (@B2R prec64 emax64 (g2 A v)).
Definition near3 (v : gvec A) (t : triple) (M k : R) : Prop := near (g0 A v) (c0 t) M k /\ near (g1 A v) (c1 t) M k /\ near (g2 A v) (c2 t) M k.

(** ** The rotation *)
Lemma turned_near : forall (b v : gvec A) B V T k, near3 b B 1 k -> near3 v V T k -> 20 <= k -> 64 * k * u <= / 1024 -> rg T (-60) 61 ->
  near3 (gboris_rotation A b v) (turned B V) (13 * T) (32 * k).
Proof.
  intros b v [B0 B1 B2] [V0 V1 V2] T k (NB0 & NB1 & NB2) (NV0 & NV1 & NV2) K20 KU RT. cbn [c0 c1 c2] in *. cbn [num b64_arith] in *.
  assert (PU := u_pos). assert (UB : u <= / 1000000000000) by (rewrite u_val; lra). assert (PP := phi_val). assert (RP := phi_rg). assert (TP := rg_pos _ _ _ RT).
  assert (KK : 0 <= k * k * u <= k * / 65536). { replace (k * k * u) with (k * (k * u)) by ring. split; [apply Rmult_le_pos; [lra|apply Rmult_le_pos; lra]|apply Rmult_le_compat_l; lra]. }
  assert (SQ : forall x X, near x X 1 k -> near (b64_mul x x) (X * X) (1 * 1) (3 * k)).
  { intros x X HX. assert (Z := near_mul _ _ _ _ _ _ _ _ (201 / 100 * k) HX HX ltac:(lra) ltac:(lra)). give Z ltac:(rgs). apply (near_weaken _ _ _ _ (1 * 1) (3 * k) Z); lra. }
  assert (S1 := near_add _ _ _ _ _ _ _ _ (3 * k) near_0 (SQ _ _ NB0) ltac:(lra) ltac:(lra) ltac:(lra)). give S1 ltac:(rgs).
  assert (S2 := near_add _ _ _ _ _ _ _ _ (3 * k + 5 / 4) S1 (SQ _ _ NB1) ltac:(lra) ltac:(lra) ltac:(lra)). give S2 ltac:(rgs).
  assert (S3 := near_add _ _ _ _ _ _ _ _ (3 * k + 5 / 4 + 5 / 4) S2 (SQ _ _ NB2) ltac:(lra) ltac:(lra) ltac:(lra)). give S3 ltac:(rgs).
  assert (S4 := near_add _ _ _ _ _ _ _ _ (3 * k + 5 / 4 + 5 / 4 + 5 / 4) near_1 S3 ltac:(lra) ltac:(lra) ltac:(lra)). give S4 ltac:(rgs).
  set (S := B0 * B0 + B1 * B1 + B2 * B2). assert (QS : 0 <= S) by apply sq_pos3.
  assert (ND : near (b64_add (b64_of_Z 1) (gtv_squared_sum A b)) (1 + S) (1 + S) (20 * k)).
  { destruct S4 as (F4 & _ & A4 & E4). split; [exact F4|]. split; [split; lra|]. split; [rewrite Rabs_pos_eq; lra|].
    replace (1 + (0 + B0 * B0 + B1 * B1 + B2 * B2)) with (1 + S) in E4 by (unfold S; ring). apply Rle_trans with (1 := E4).
    apply Rle_trans with (4 * k * u * 5).
    - apply Rmult_le_compat; [apply Rmult_le_pos; lra|lra|apply Rmult_le_compat_r; lra|lra].
    - replace (4 * k * u * 5) with (20 * k * u * 1) by ring. apply Rmult_le_compat_l; [apply Rmult_le_pos; lra|lra]. }
  assert (S3M : Rabs S <= 4). { destruct S3 as (_ & _ & A3 & _). replace (0 + B0 * B0 + B1 * B1 + B2 * B2) with S in A3 by (unfold S; ring). lra. }
  rewrite (Rabs_pos_eq S) in S3M by exact QS.
  assert (RS : rg (1 + S) 0 3) by (split; cbn; lra).
  assert (C1 := near_div _ _ _ _ _ _ _ (21 * k) near_2 ND ltac:(lra) ltac:(lra) ltac:(lra)). give C1 ltac:(rgs).
  set (c := 2 / (1 + S)) in *. assert (C2' : 0 < c <= 2). { unfold c, Rdiv. split; [apply Rmult_lt_0_compat; [lra|apply Rinv_0_lt_compat; lra]|]. rewrite <- (Rmult_1_r 2) at 2. apply Rmult_le_compat_l; [lra|]. rewrite <- Rinv_1. apply Rinv_le; lra. }
  apply (near_weaken _ _ _ _ 2 (22 * k)) in C1; [|lra|lra|lra].
  assert (PR : forall x y X Y, near x X T k -> near y Y 1 k -> near (b64_mul x y) (X * Y) T (3 * k)).
  { intros x y X Y HX HY. assert (Z := near_mul _ _ _ _ _ _ _ _ (201 / 100 * k) HX HY ltac:(lra) ltac:(lra)). give Z ltac:(rgs). apply (near_weaken _ _ _ _ T (3 * k) Z); lra. }
  assert (T1 : forall p x y s t X Y Pr Sr Tr, near p Pr T k -> near x X T k -> near y Y 1 k -> near s Sr T k -> near t Tr 1 k ->
     near (b64_sub (b64_add p (b64_mul x y)) (b64_mul s t)) (Pr + X * Y - Sr * Tr) (T + T + T) (4 * k)).
  { intros p x y s t X Y Pr Sr Tr Hp Hx Hy Hs Ht. assert (Z1 := near_add _ _ _ _ _ _ _ _ (3 * k) Hp (PR _ _ _ _ Hx Hy) ltac:(lra) ltac:(lra) ltac:(lra)). give Z1 ltac:(rgs).
    assert (Z2 := near_sub _ _ _ _ _ _ _ _ (3 * k + 5 / 4) Z1 (PR _ _ _ _ Hs Ht) ltac:(lra) ltac:(lra) ltac:(lra)). give Z2 ltac:(rgs).
    apply (near_weaken _ _ _ _ (T + T + T) (4 * k) Z2); lra. }
  assert (T2 : forall p x y s t X Y Pr Sr Tr, near p Pr T k -> near x X T k -> near y Y 1 k -> near s Sr T k -> near t Tr 1 k ->
     near (b64_add (b64_sub p (b64_mul x y)) (b64_mul s t)) (Pr - X * Y + Sr * Tr) (T + T + T) (4 * k)).
  { intros p x y s t X Y Pr Sr Tr Hp Hx Hy Hs Ht. assert (Z1 := near_sub _ _ _ _ _ _ _ _ (3 * k) Hp (PR _ _ _ _ Hx Hy) ltac:(lra) ltac:(lra) ltac:(lra)). give Z1 ltac:(rgs).
    assert (Z2 := near_add _ _ _ _ _ _ _ _ (3 * k + 5 / 4) Z1 (PR _ _ _ _ Hs Ht) ltac:(lra) ltac:(lra) ltac:(lra)). give Z2 ltac:(rgs).
    apply (near_weaken _ _ _ _ (T + T + T) (4 * k) Z2); lra. }
  assert (T3 : forall x X y Y, near x X (T + T + T) (4 * k) -> near y Y 1 k -> near (b64_mul x y) (X * Y) (T + T + T) (6 * k)).
  { intros x X y Y Hx Hy. assert (Z1 := near_mul _ _ _ _ _ _ _ _ (501 / 100 * k) Hx Hy ltac:(lra) ltac:(lra)). give Z1 ltac:(rgs). apply (near_weaken _ _ _ _ (T + T + T) (6 * k) Z1); lra. }
  set (L := T + T + T) in *. assert (RL : rg L (-60) 63) by (unfold L; rgs).
  assert (TS : forall x X y Y, near x X L (6 * k) -> near y Y L (6 * k) -> near (b64_sub x y) (X - Y) (L + L) (7 * k)).
  { intros x X y Y Hx Hy. assert (Z1 := near_sub _ _ _ _ _ _ _ _ (6 * k) Hx Hy ltac:(lra) ltac:(lra) ltac:(lra)). give Z1 ltac:(rgs). apply (near_weaken _ _ _ _ (L + L) (7 * k) Z1); lra. }
  assert (TA : forall x X y Y, near x X L (6 * k) -> near y Y L (6 * k) -> near (b64_add x y) (X + Y) (L + L) (7 * k)).
  { intros x X y Y Hx Hy. assert (Z1 := near_add _ _ _ _ _ _ _ _ (6 * k) Hx Hy ltac:(lra) ltac:(lra) ltac:(lra)). give Z1 ltac:(rgs). apply (near_weaken _ _ _ _ (L + L) (7 * k) Z1); lra. }
  assert (T4 : forall p Pr x X, near p Pr T k -> near x X (L + L) (7 * k) -> near (b64_add p (b64_mul (b64_div (b64_of_Z 2) (b64_add (b64_of_Z 1) (gtv_squared_sum A b))) x)) (Pr + c * X) (13 * T) (32 * k)).
  { intros p Pr x X Hp Hx. cbn [num b64_arith]. assert (Z1 := near_mul _ _ _ _ _ _ _ _ (30 * k) C1 Hx ltac:(lra) ltac:(lra)). give Z1 ltac:(rgs).
    assert (Z2 := near_add _ _ _ _ _ _ _ _ (30 * k + 5 / 4) Hp Z1 ltac:(lra) ltac:(lra) ltac:(lra)). give Z2 ltac:(rgs).
    apply (near_weaken _ _ _ _ (13 * T) (32 * k) Z2); [unfold L; lra|lra|lra]. }
  unfold near3, gboris_rotation, turned. cbv zeta. cbn [c0 c1 c2 g0 g1 g2]. fold S. fold c.
  change (add A) with b64_add. change (sub A) with b64_sub. change (mul A) with b64_mul. change (div A) with b64_div. change (opp A) with (@Bopp prec64 emax64). change (of_int A) with b64_of_Z.
  cbn [num b64_arith] in *. split; [|split].
  - exact (T4 _ _ _ _ NV0 (TS _ _ _ _ (T3 _ _ _ _ (T2 _ _ _ _ _ _ _ _ _ _ NV1 NV0 NB2 NV2 NB0) NB2) (T3 _ _ _ _ (T1 _ _ _ _ _ _ _ _ _ _ NV2 NV0 NB1 NV1 NB0) NB1))).
  - exact (T4 _ _ _ _ NV1 (TA _ _ _ _ (T3 _ _ _ _ (near_opp _ _ _ _ (T1 _ _ _ _ _ _ _ _ _ _ NV0 NV1 NB2 NV2 NB1)) NB2) (T3 _ _ _ _ (T1 _ _ _ _ _ _ _ _ _ _ NV2 NV0 NB1 NV1 NB0) NB0))).
  - exact (T4 _ _ _ _ NV2 (TS _ _ _ _ (T3 _ _ _ _ (T1 _ _ _ _ _ _ _ _ _ _ NV0 NV1 NB2 NV2 NB1) NB1) (T3 _ _ _ _ (T2 _ _ _ _ _ _ _ _ _ _ NV1 NV0 NB2 NV2 NB0) NB0))).
Qed.

(** ** The factor in front of the fields *)
Lemma const1_near : forall q m dt : b64, sane q m -> fin dt -> 0 < B2R dt <= bp (-18) -> let k := B2R q * B2R dt / (2 * B2R m) in
  near (b64_div (b64_mul q dt) (b64_mul (b64_of_Z 2) m)) k (Rabs k + bp (-400)) 4 /\ Rabs k <= bp 32.
Proof.
  intros q m dt (FQ & FM & (ML & MU) & QM) FD HD k. assert (MP : 0 < B2R m) by (apply Rlt_le_trans with (2 := ML); apply bpow_gt_0).
  assert (PU := u_pos). assert (PP := phi_val).
  assert (QD : Rabs (B2R q * B2R dt) <= bp 32 * B2R m).
  { rewrite Rabs_mult, (Rabs_pos_eq (B2R dt)) by lra. apply Rle_trans with (bp 50 * B2R m * bp (-18)); [apply Rmult_le_compat; [apply Rabs_pos|lra|exact QM|lra]|].
    replace (bp 50 * B2R m * bp (-18)) with (bp 50 * bp (-18) * B2R m) by ring. rewrite <- bpow_plus. right. reflexivity. }
  assert (QF : Rabs (B2R q * B2R dt) <= bp 432).
  { apply Rle_trans with (1 := QD). apply Rle_trans with (bp 32 * bp 400); [apply Rmult_le_compat_l; [apply bpow_ge_0|exact MU]|rewrite <- bpow_plus; apply bpow_le; lia]. }
  assert (N1 := near_prod q dt FQ FD (Rle_trans _ _ _ QF (bpow_le radix2 432 999 ltac:(lia)))).
  assert (RM : rg (B2R m) (-400) 400) by (split; assumption).
  assert (NM := near_exact m (B2R m) FM ltac:(rewrite Rabs_pos_eq; lra)).
  assert (N2 := near_mul _ _ _ _ _ _ _ _ 0 near_2 NM ltac:(lra) ltac:(ku)). give N2 ltac:(rgs).
  set (W := Rabs (B2R q * B2R dt) + 2 * B2R m * bp (-400)).
  assert (WM : bp (-900) <= 2 * B2R m * bp (-400)).
  { apply Rle_trans with (bp (-400) * bp (-400)); [rewrite <- bpow_plus; apply bpow_le; lia|]. apply Rmult_le_compat_r; [apply bpow_ge_0|lra]. }
  apply (near_weaken _ _ _ _ W (5 / 4)) in N1; [|unfold W; lra|lra|ku].
  assert (BK : Rabs k <= bp 32).
  { unfold k, Rdiv. rewrite Rabs_mult, (Rabs_pos_eq (/ (2 * B2R m))) by (left; apply Rinv_0_lt_compat; lra). apply Rmult_le_reg_r with (2 * B2R m); [lra|]. rewrite Rmult_assoc, Rinv_l, Rmult_1_r by lra.
    apply Rle_trans with (1 := QD). apply Rmult_le_compat_l; [apply bpow_ge_0|lra]. }
  assert (EW : W / (2 * B2R m) = Rabs k + bp (-400)).
  { unfold W, k, Rdiv. rewrite (Rabs_mult (B2R q * B2R dt)), (Rabs_pos_eq (/ (2 * B2R m))) by (left; apply Rinv_0_lt_compat; lra). field. lra. }
  assert (RK : rg (Rabs k + bp (-400)) (-400) 33).
  { assert (Q := Rabs_pos k). split; [lra|]. change (bp 33) with (bp (32 + 1)). rewrite bp_succ. assert (bp (-400) <= bp 32) by (apply bpow_le; lia). lra. }
  assert (N3 := near_div _ _ _ _ _ _ _ (26 / 10) N1 N2 ltac:(lra) ltac:(lra) ltac:(ku)). rewrite EW in N3. give N3 ltac:(rgs).
  fold k in N3. split; [|exact BK]. apply (near_weaken _ _ _ _ (Rabs k + bp (-400)) 4) in N3; [exact N3|lra|lra|ku].
Qed.
Lemma magnetic_near : forall (q m dt x : b64), sane q m -> fin dt -> 0 < B2R dt <= bp (-18) -> mg x 265 -> let k := B2R q * B2R dt / (2 * B2R m) in
  Rabs (mu0 * k * B2R x) <= 9 / 10 ->
  near (b64_mul x (b64_mul (gMAGN_CONST A) (b64_div (b64_mul q dt) (b64_mul (b64_of_Z 2) m)))) (mu0 * k * B2R x) 1 9.
Proof.
  intros q m dt x HQ FD HD (FX & BX) k HS. destruct (const1_near q m dt HQ FD HD) as (NC & BK). fold k in NC, BK. set (c := b64_div _ _) in *.
  destruct good_mu0 as (NM & RM & _). cbn [s_k s_lo s_hi] in NM, RM. change (b64_lit 126 100000000) with (gMAGN_CONST A) in NM. change MAGN_CONST with mu0 in NM, RM.
  assert (PU := u_pos). assert (UB : u <= / 1000000000000) by (rewrite u_val; lra). assert (PP := phi_val). assert (KP := Rabs_pos k). assert (XP := Rabs_pos (B2R x)).
  assert (RK : rg (Rabs k + bp (-400)) (-400) 33).
  { split; [lra|]. change (bp 33) with (bp (32 + 1)). rewrite bp_succ. assert (bp (-400) <= bp 32) by (apply bpow_le; lia). lra. }
  assert (N1 := near_mul _ _ _ _ _ _ _ _ 6 NM NC ltac:(lra) ltac:(lra)). give N1 ltac:(rgs).
  assert (FL := bpow_gt_0 radix2 (-200)). assert (FL4 := bpow_gt_0 radix2 (-400)).
  assert (NX := near_exact x (Rabs (B2R x) + bp (-200)) FX ltac:(lra)).
  assert (RX : rg (Rabs (B2R x) + bp (-200)) (-200) 266).
  { split; [lra|]. change (bp 266) with (bp (265 + 1)). rewrite bp_succ. assert (bp (-200) <= bp 265) by (apply bpow_le; lia). lra. }
  assert (N4 := near_mul _ _ _ _ _ _ _ _ (6 + 5 / 4) NX N1 ltac:(lra) ltac:(lra)). give N4 ltac:(rgs).
  assert (M1 : 0 < mu0 <= 1) by (unfold mu0; lra).
  assert (LE : (Rabs (B2R x) + bp (-200)) * (mu0 * (Rabs k + bp (-400))) <= 1).
  { assert (PH4 : phi / 4 = bp (-102)) by (unfold phi; change (-100)%Z with (-102 + 2)%Z; rewrite bpow_plus; change (bp 2) with 4; lra).
    assert (H1 : mu0 * Rabs k * Rabs (B2R x) <= 9 / 10) by (rewrite !Rabs_mult, (Rabs_pos_eq mu0) in HS by lra; exact HS).
    assert (H2 : Rabs (B2R x) * bp (-400) <= phi / 4).
    { apply Rle_trans with (bp 265 * bp (-400)); [apply Rmult_le_compat_r; [apply bpow_ge_0|exact BX]|]. rewrite PH4, <- bpow_plus. apply bpow_le. lia. }
    assert (H3 : bp (-200) * Rabs k <= phi / 4).
    { apply Rle_trans with (bp (-200) * bp 32); [apply Rmult_le_compat_l; [lra|exact BK]|]. rewrite PH4, <- bpow_plus. apply bpow_le. lia. }
    assert (H4 : bp (-200) * bp (-400) <= phi / 4) by (rewrite PH4, <- bpow_plus; apply bpow_le; lia).
    set (s := Rabs (B2R x) * bp (-400) + bp (-200) * Rabs k + bp (-200) * bp (-400)).
    assert (H5 : mu0 * s <= 1 * (3 / 4 * phi)) by (apply Rmult_le_compat; [lra|unfold s; assert (0 <= Rabs (B2R x) * bp (-400)) by (apply Rmult_le_pos; lra); assert (0 <= bp (-200) * Rabs k) by (apply Rmult_le_pos; lra); assert (0 <= bp (-200) * bp (-400)) by (apply Rmult_le_pos; lra); lra|lra|unfold s; lra]).
    replace ((Rabs (B2R x) + bp (-200)) * (mu0 * (Rabs k + bp (-400)))) with (mu0 * Rabs k * Rabs (B2R x) + mu0 * s) by (unfold s; ring). lra. }
  apply (near_weaken _ _ _ _ 1 9) in N4; [|exact LE|lra|lra]. refine (near_eq _ _ _ _ _ _ N4 _ eq_refl). ring.
Qed.

(** ** Components that are taken as zero: the literal 1e-15 is the double next above 10^-15, so that the test is exact *)
Lemma ground_quiet : forall x : b64, fin x -> fin (ground_small A x : b64) /\ B2R (ground_small A x : b64) = quiet1 (B2R x).
Proof.
  intros x F. unfold ground_small, quiet1. change (ltb A) with (@Bltb prec64 emax64). change (absv A) with (@Babs prec64 emax64). change (of_int A 0) with (b64_of_Z 0).
  destruct (mnzl_small pw lg) as (FM & _). cbn [num b64_arith] in *. destruct (of_Z_exact 0 eq_refl) as (F0 & E0).
  assert (FA : fin (Babs x)) by (rewrite is_finite_Babs; exact F). assert (EA : B2R (Babs x) = Rabs (B2R x)) by apply B2R_Babs.
  assert (VM : B2R (gMNZL A : b64) = rnd (1 / 1000000000000000)).
  { destruct (of_Z_exact 1 eq_refl) as (F1 & E1). destruct (of_Z_exact 1000000000000000 eq_refl) as (F2 & E2).
    destruct (div_ok (b64_of_Z 1) (b64_of_Z 1000000000000000) F1) as (F' & E'); [rewrite E2; lra|rewrite E1, E2, Rabs_pos_eq by lra; apply Rle_trans with (bp 0); [cbn; lra|apply bpow_le; lia]|].
    change (gMNZL A) with (b64_div (b64_of_Z 1) (b64_of_Z 1000000000000000)). now rewrite E', E1, E2. }
  assert (LM : 1 / 1000000000000000 < B2R (gMNZL A : b64)).
  { assert (S : B2SF (gMNZL A : b64) = SpecFloat.S754_finite false 5070602400912918 (-102)) by (vm_compute; reflexivity).
    assert (V : B2R (gMNZL A : b64) = SF2R radix2 (B2SF (gMNZL A : b64))) by (symmetry; apply SF2R_B2SF). rewrite V, S. unfold SF2R, F2R. cbn [Fnum Fexp cond_Zopp].
    change (bpow radix2 (-102)) with (/ IZR (2 ^ 102)). assert (P : 0 < IZR (2 ^ 102)) by (apply IZR_lt; reflexivity). apply Rmult_lt_reg_r with (IZR (2 ^ 102)); [exact P|]. rewrite Rmult_assoc, Rinv_l, Rmult_1_r by lra.
    apply Rmult_lt_reg_r with 1000000000000000; [lra|]. unfold Rdiv. rewrite Rmult_1_l, (Rmult_comm (/ _)), Rmult_assoc, Rinv_l, Rmult_1_r by lra. rewrite <- mult_IZR. apply IZR_lt. reflexivity. }
  destruct (Bltb (Babs x) (gMNZL A)) eqn:E; destruct (Rlt_dec (Rabs (B2R x)) (1 / 1000000000000000)) as [L|L]; rewrite ?E0; try (split; [assumption|reflexivity]); exfalso.
  - apply ltb_ok in E; [|exact FA|exact FM]. rewrite EA, VM in E. apply Rnot_lt_le in L. apply rnd_mono in L. rewrite <- EA, rnd_B2R, EA in L. lra.
  - assert (Bltb (Babs x) (gMNZL A) = true); [|congruence]. apply ltb_ok; [exact FA|exact FM|]. rewrite EA. lra.
Qed.

Lemma quiet_ground : forall v, finite3 pw lg v -> quiet (real3 pw lg v) = real3 pw lg (ground_velocity A v) /\ finite3 pw lg (ground_velocity A v).
Proof.
  intros v (F0 & F1 & F2). destruct (ground_quiet _ F0) as (G0 & E0). destruct (ground_quiet _ F1) as (G1 & E1). destruct (ground_quiet _ F2) as (G2 & E2).
  split; [|split; [exact G0|split; [exact G1|exact G2]]]. unfold quiet, real3, ground_velocity. cbn [c0 c1 c2 g0 g1 g2]. cbn [num b64_arith] in *. now rewrite E0, E1, E2.
Qed.
Lemma gamma_p_boost : forall p, gamma_p p = boost (length3 (c0 p) (c1 p) (c2 p)).
Proof. intro p. unfold gamma_p, boost. rewrite length_sq. reflexivity. Qed.

Theorem classic_near : forall (dt q m : b64) (e h v : gvec A), sane q m -> fin dt -> 0 < B2R dt <= bp (-18) -> mgv pw lg e 265 -> mgv pw lg h 265 -> finite3 pw lg v ->
  let K := kick pw lg q m dt e in let s := size3 pw lg v in s + 2 * K <= bp 59 -> turns_little (B2R q) (B2R m) (B2R dt) (real3 pw lg h) ->
  exists v', gboris_push A false dt q m e h v = Ok v' /\ finite3 pw lg v' /\
    forall w, classic_step (B2R q) (B2R m) (B2R dt) (real3 pw lg e) (real3 pw lg h) (real3 pw lg v) w -> within (10000 * u * (s + 2 * K + 4 * psi)) (real3 pw lg v') w.
Proof.
  intros dt q m e h v HQ FD HD HE HH FV K s SB HT.
  assert (PU := u_pos). assert (UB : u <= / 1000000000000) by (rewrite u_val; lra). assert (PP := phi_val). assert (PS := psi_val).
  destruct (quiet_ground v FV) as (EQ & (F0 & F1 & F2)). destruct FV as (FV0 & FV1 & FV2).
  destruct (ground_near pw lg (g0 A v) FV0) as (_ & Q0 & _). destruct (ground_near pw lg (g1 A v) FV1) as (_ & Q1 & _). destruct (ground_near pw lg (g2 A v) FV2) as (_ & Q2 & _).
  set (v0 := ground_velocity A v) in *.
  assert (SQ0 : sq pw lg v0 <= sq pw lg v) by (unfold sq, v0; cbn [ground_velocity g0 g1 g2 num b64_arith] in *; lra).
  assert (V0 := size_pos pw lg v0). assert (VV := size_pos pw lg v). assert (SV0 := sq_size pw lg v0). assert (SV := sq_size pw lg v).
  assert (LE0 : size3 pw lg v0 <= size3 pw lg v) by (unfold size3 at 1; apply length_le; [exact VV|fold (sq pw lg v0); lra]). fold s in LE0, VV. set (s0 := size3 pw lg v0) in *.
  assert (C0 := length_part (x0 v0) (x1 v0) (x2 v0)). fold (size3 pw lg v0) in C0. fold s0 in C0.
  assert (K0 : 0 <= K). { unfold K, kick. apply Rmult_le_pos; [|apply size_pos]. destruct HQ as (_ & _ & (ML & _) & _). assert (0 < B2R m) by (apply Rlt_le_trans with (2 := ML); apply bpow_gt_0).
    apply Rmult_le_pos; [apply Rmult_le_pos; [apply Rabs_pos|lra]|left; apply Rinv_0_lt_compat; lra]. }
  set (T := s + 2 * K + 4 * psi). assert (B60 : bp 60 = 1152921504606846976) by reflexivity. assert (B59 : bp 59 = 576460752303423488) by reflexivity.
  assert (RT : rg T (-60) 60). { unfold T. split; [change (bp (-60)) with psi; rewrite psi_val in *; lra|rewrite B60; rewrite psi_val in *; lra]. }
  assert (TP := rg_pos _ _ _ RT).
  destruct (kick_near pw lg q m dt e HQ FD HD HE) as (E0 & E1 & E2). fold K in E0, E1, E2.
  destruct HT as (T20 & T21 & T22). destruct HH as (H0 & H1 & H2).
  assert (B0 := magnetic_near q m dt _ HQ FD HD H0 T20). assert (B1 := magnetic_near q m dt _ HQ FD HD H1 T21). assert (B2 := magnetic_near q m dt _ HQ FD HD H2 T22).
  set (k := B2R q * B2R dt / (2 * B2R m)) in *.
  unfold gboris_push. cbv zeta. cbn [num b64_arith bind] in *. fold v0.
  change (div A (mul A q dt) (mul A (of_int A 2) m)) with (b64_div (b64_mul q dt) (b64_mul (b64_of_Z 2) m)). change (mul A (gMAGN_CONST A)) with (b64_mul (gMAGN_CONST A)).
  set (k1 := b64_div (b64_mul q dt) (b64_mul (b64_of_Z 2) m)) in *. set (e1 := gtv_product A e k1) in *. set (b1 := gtv_product A h (b64_mul (gMAGN_CONST A) k1)) in *.
  set (u2 := gtv_add A v0 e1). set (U2 := plus (quiet (real3 pw lg v)) (scale k (real3 pw lg e))).
  assert (RPK : rg (s + psi + (K + phi)) (-60) 60). { unfold T in *. split; [change (bp (-60)) with psi|rewrite B60]; rewrite psi_val in *; lra. }
  assert (ADD : forall x z Z0, fin x -> Rabs (B2R x) <= s0 -> near z Z0 (K + phi) 6 -> near (b64_add x z) (B2R x + Z0) T 20).
  { intros x z Z0 FX SX HZ. assert (NX := near_exact x (s + psi) FX ltac:(rewrite psi_val; lra)). assert (N := near_add _ _ _ _ _ _ _ _ 6 NX HZ ltac:(lra) ltac:(lra) ltac:(lra)). give N ltac:(rgs).
    apply (near_weaken _ _ _ _ T 20 N); [unfold T; rewrite psi_val in *; lra|lra|lra]. }
  assert (NU2 : near3 u2 U2 T 20).
  { unfold U2. rewrite EQ. split; [|split]; cbn [plus scale c0 c1 c2 real3]; [exact (ADD _ _ _ F0 (proj1 C0) E0)|exact (ADD _ _ _ F1 (proj1 (proj2 C0)) E1)|exact (ADD _ _ _ F2 (proj2 (proj2 C0)) E2)]. }
  set (BB := scale (mu0 * k) (real3 pw lg h)).
  assert (NB : near3 b1 BB 1 20). { split; [|split]; cbn [BB scale c0 c1 c2 real3]; [apply (near_weaken _ _ _ _ 1 20 B0)|apply (near_weaken _ _ _ _ 1 20 B1)|apply (near_weaken _ _ _ _ 1 20 B2)]; lra. }
  assert (N3 := turned_near b1 u2 BB U2 T 20 NB NU2 ltac:(lra) ltac:(lra) ltac:(apply rg_weaken with (1 := RT); lia)).
  set (u3 := gboris_rotation A b1 u2) in *.
  assert (R13 : rg (13 * T + (K + phi)) (-60) 64). { split; [change (bp (-60)) with psi; unfold T in *; rewrite psi_val in *; lra|change (bp 64) with (bp (4 + 60)); rewrite bpow_plus, B60; change (bp 4) with 16; unfold T in *; rewrite psi_val in *; lra]. }
  assert (ADD4 : forall x X z Z0, near x X (13 * T) (32 * 20) -> near z Z0 (K + phi) 6 -> fin (b64_add x z) /\ Rabs (B2R (b64_add x z) - (X + Z0)) <= 10000 * u * T).
  { intros x X z Z0 HX HZ. assert (N := near_add _ _ _ _ _ _ _ _ (32 * 20) HX HZ ltac:(lra) ltac:(lra) ltac:(lra)). give N ltac:(rgs).
    apply (near_weaken _ _ _ _ (14 * T) 642) in N; [|unfold T in *; rewrite psi_val in *; lra|lra|lra]. destruct N as (FN & _ & _ & EN). split; [exact FN|]. apply Rle_trans with (1 := EN).
    assert (0 <= u * T) by (apply Rmult_le_pos; lra). lra. }
  destruct N3 as (Z0 & Z1 & Z2). destruct (ADD4 _ _ _ _ Z0 E0) as (FF0 & D0). destruct (ADD4 _ _ _ _ Z1 E1) as (FF1 & D1). destruct (ADD4 _ _ _ _ Z2 E2) as (FF2 & D2).
  exists (gtv_add A u3 e1). split; [reflexivity|]. split; [split; [exact FF0|split; [exact FF1|exact FF2]]|].
  intros w HW. apply classic_step_is in HW. subst w. split; [exact D0|split; [exact D1|exact D2]].
Qed.

Variable a : R.
Hypothesis HA : 0 <= a <= 8192.
Hypothesis HP : close_pow pw a.

Theorem boris_near : forall (dt q m : b64) (e h v : gvec A) g, sane q m -> fin dt -> 0 < B2R dt <= bp (-18) -> mgv pw lg e 265 -> mgv pw lg h 265 -> finite3 pw lg v ->
  1 <= g -> (a + 100 * (g * g * g)) * u <= bp (-17) -> 1 <= g * g * (1 - size3 pw lg v * size3 pw lg v / cc) ->
  let K := kick pw lg q m dt e in let P := momentum pw lg v in
  1 + (P + 2 * K + 1) * (P + 2 * K + 1) / cc <= g * g -> turns_little (B2R q) (B2R m) (B2R dt) (real3 pw lg h) ->
  exists v', gboris_push A true dt q m e h v = Ok v' /\ finite3 pw lg v' /\
    forall w, boris_step (B2R q) (B2R m) (B2R dt) (real3 pw lg e) (real3 pw lg h) (real3 pw lg v) w ->
    within (2048 * (a + 100 * (g * g * g)) * u * (P + 2 * K + 4 * psi)) (real3 pw lg v') w.
Proof.
  intros dt q m e h v g HQ FD HD HE HH FV G HG GV K P GK HT.
  assert (PU := u_pos). assert (UB : u <= / 1000000000000) by (rewrite u_val; lra). assert (PP := phi_val). assert (PS := psi_val). assert (C := cc_pos). assert (GG : g <= g * g) by nra. assert (GGG : g * g <= g * g * g) by nra.
  change (bp (-17)) with (/ 131072) in HG. set (L := a + 100 * (g * g * g)) in *. assert (LB : 100 * (g * g * g) <= L) by (unfold L; lra).
  destruct (quiet_ground v FV) as (EQ & (F0 & F1 & F2)). destruct FV as (FV0 & FV1 & FV2).
  destruct (ground_near pw lg (g0 A v) FV0) as (_ & Q0 & _). destruct (ground_near pw lg (g1 A v) FV1) as (_ & Q1 & _). destruct (ground_near pw lg (g2 A v) FV2) as (_ & Q2 & _).
  set (v0 := ground_velocity A v) in *.
  assert (SQ0 : sq pw lg v0 <= sq pw lg v) by (unfold sq, v0; cbn [ground_velocity g0 g1 g2 num b64_arith] in *; lra).
  assert (V0 := size_pos pw lg v0). assert (VV := size_pos pw lg v). assert (SV0 := sq_size pw lg v0). assert (SV := sq_size pw lg v).
  assert (LE0 : size3 pw lg v0 <= size3 pw lg v) by (unfold size3 at 1; apply length_le; [exact VV|fold (sq pw lg v0); lra]).
  rewrite <- SV in GV.
  assert (GV0 : 1 <= g * g * (1 - sq pw lg v0 / cc)).
  { apply Rle_trans with (1 := GV). apply Rmult_le_compat_l; [lra|]. assert (sq pw lg v0 / cc <= sq pw lg v / cc) by (apply Rmult_le_compat_r; [left; now apply Rinv_0_lt_compat|exact SQ0]). lra. }
  set (s0 := size3 pw lg v0) in *. set (s := size3 pw lg v) in *.
  assert (DV0 : 0 < 1 - s0 * s0 / cc) by (rewrite <- SV0; nra). assert (DV : 0 < 1 - s * s / cc) by (rewrite <- SV; nra).
  assert (W0 := momentum_pos s0 V0 DV0). assert (WP := momentum_mono s s0 ltac:(lra) DV). change (momentum_at s) with P in WP.
  set (w0 := momentum_at s0) in *.
  assert (SC : s0 < 300000000).
  { apply Rnot_le_lt. intro X. assert (cc <= s0 * s0) by (unfold cc; apply Rmult_le_compat; lra).
    assert (1 <= s0 * s0 / cc) by (apply Rmult_le_reg_r with cc; [exact C|]; unfold Rdiv at 1; rewrite Rmult_assoc, Rinv_l; lra). lra. }
  assert (C0 := length_part (x0 v0) (x1 v0) (x2 v0)). fold (size3 pw lg v0) in C0. fold s0 in C0.
  assert (MV0 : mgv pw lg v0 31). { assert (B31 : bp 31 = 2147483648) by reflexivity. cbn [num b64_arith] in C0. split; [|split]; (split; [assumption|rewrite B31; lra]). }
  assert (GU : 0 <= g * g * u <= L * u * / 100). { split; [apply Rmult_le_pos; lra|]. replace (L * u * / 100) with (L * / 100 * u) by ring. apply Rmult_le_compat_r; lra. }
  destruct (gamma_near pw lg v0 g MV0 G ltac:(lra) GV0) as (y & EY & NY).
  (* sizes *)
  assert (K0 : 0 <= K). { unfold K, kick. apply Rmult_le_pos; [|apply size_pos]. destruct HQ as (_ & _ & (ML & _) & _). assert (0 < B2R m) by (apply Rlt_le_trans with (2 := ML); apply bpow_gt_0).
    apply Rmult_le_pos; [apply Rmult_le_pos; [apply Rabs_pos|lra]|left; apply Rinv_0_lt_compat; lra]. }
  assert (P0 : 0 <= P) by lra.
  assert (G9 : g * g * g <= 1000000000). { rewrite u_val in *. lra. }
  assert (TG : P + 2 * K + 1 <= 300000000 * g).
  { apply Motion64R.sq_le_inv; [lra|]. assert (X : (P + 2 * K + 1) * (P + 2 * K + 1) / cc <= g * g) by lra. apply Rmult_le_compat_r with (r := cc) in X; [|lra]. unfold Rdiv in X. rewrite Rmult_assoc, Rinv_l in X by lra. unfold cc in X. lra. }
  assert (TB : P + 2 * K + 1 <= 1152921504606846976) by lra.
  set (T := w0 + 2 * K + 4 * psi). assert (B60 : bp 60 = 1152921504606846976) by reflexivity.
  assert (T0 : 4 * psi <= T <= P + 2 * K + 4 * psi) by (unfold T; lra).
  assert (T1 : T <= P + 2 * K + 1) by (rewrite PS in *; lra).
  assert (RT : rg T (-60) 60). { split; [change (bp (-60)) with psi; rewrite psi_val in *; lra|rewrite B60; lra]. }
  assert (TP := rg_pos _ _ _ RT).
  (* gamma v0 *)
  set (ga := / sqrt (1 - sq pw lg v0 / cc)) in *.
  assert (GA : 0 < ga <= g).
  { assert (DD : 0 < 1 - sq pw lg v0 / cc) by nra. assert (SP := sqrt_lt_R0 _ DD). unfold ga. split; [now apply Rinv_0_lt_compat|]. apply Rmult_le_reg_r with (sqrt (1 - sq pw lg v0 / cc)); [exact SP|]. rewrite Rinv_l by lra.
    apply Rsqr_incr_0; [|lra|apply Rmult_le_pos; lra]. unfold Rsqr. replace (g * sqrt (1 - sq pw lg v0 / cc) * (g * sqrt (1 - sq pw lg v0 / cc))) with (g * g * (sqrt (1 - sq pw lg v0 / cc) * sqrt (1 - sq pw lg v0 / cc))) by ring. rewrite sqrt_sqrt by lra. lra. }
  assert (EW : s0 * ga = w0) by (unfold w0, momentum_at, ga, s0; rewrite SV0; reflexivity).
  assert (GPhi : ga * phi <= psi).
  { rewrite psi_val. apply Rle_trans with (1000000000 * / 1000000000000000000000000000000); [apply Rmult_le_compat; lra|lra]. }
  assert (GA1 : 1 <= ga).
  { unfold ga. apply Rle_trans with (/ 1); [rewrite Rinv_1; lra|]. assert (QC : 0 <= sq pw lg v0 / cc) by (apply Rmult_le_pos; [apply sq_pos|left; now apply Rinv_0_lt_compat]). assert (DD : 0 < 1 - sq pw lg v0 / cc) by nra.
    apply Rinv_le; [now apply sqrt_lt_R0|]. apply Rle_trans with (sqrt 1); [apply sqrt_le_1_alt; lra|rewrite sqrt_1; lra]. }
  assert (RSA : rg ((s0 + phi) * ga) (-100) 60).
  { split; [change (bp (-100)) with phi|rewrite B60].
    - apply Rle_trans with (phi * 1); [lra|apply Rmult_le_compat; lra].
    - rewrite Rmult_plus_distr_r, EW. rewrite psi_val in *. lra. }
  set (kp := 20 * (g * g) + 4). assert (KPU : kp * u <= L * u * / 4) by (unfold kp; replace ((20 * (g * g) + 4) * u) with (20 * (g * g * u) + 4 * u) by ring; assert (u <= g * g * u) by (rewrite <- (Rmult_1_l u) at 1; apply Rmult_le_compat_r; lra); lra).
  assert (X0 : forall x : b64, fin x -> Rabs (B2R x) <= s0 -> near (b64_mul x y) (ga * B2R x) (w0 + psi) (20 * (g * g) + 2)).
  { intros x FX SX. assert (NX := near_exact x (s0 + phi) FX ltac:(lra)).
    assert (N3 := near_mul _ _ _ _ _ _ _ _ (20 * (g * g)) NX NY ltac:(lra) ltac:(unfold kp in KPU; lra)). give N3 ltac:(rgs).
    apply (near_weaken _ _ _ _ (w0 + psi) (20 * (g * g) + 2)) in N3; [|rewrite Rmult_plus_distr_r, EW; lra|lra|unfold kp in KPU; lra].
    refine (near_eq _ _ _ _ _ _ N3 _ eq_refl). ring. }
  destruct (kick_near pw lg q m dt e HQ FD HD HE) as (E0 & E1 & E2). fold K in E0, E1, E2.
  destruct HT as (T20 & T21 & T22). destruct HH as (H0 & H1 & H2).
  assert (B0 := magnetic_near q m dt _ HQ FD HD H0 T20). assert (B1 := magnetic_near q m dt _ HQ FD HD H1 T21). assert (B2 := magnetic_near q m dt _ HQ FD HD H2 T22).
  set (k := B2R q * B2R dt / (2 * B2R m)) in *.
  unfold gboris_push. cbv zeta. cbn [num b64_arith] in *. fold v0. rewrite EY. cbn [bind].
  change (div A (mul A q dt) (mul A (of_int A 2) m)) with (b64_div (b64_mul q dt) (b64_mul (b64_of_Z 2) m)). change (mul A (gMAGN_CONST A)) with (b64_mul (gMAGN_CONST A)).
  set (k1 := b64_div (b64_mul q dt) (b64_mul (b64_of_Z 2) m)) in *. set (e1 := gtv_product A e k1) in *. set (b1 := gtv_product A h (b64_mul (gMAGN_CONST A) k1)) in *.
  (* half a kick *)
  set (u2 := gtv_add A (gtv_product A v0 y) e1). set (U2 := before (B2R q) (B2R m) (B2R dt) (real3 pw lg e) (real3 pw lg v)).
  assert (RPK : rg (w0 + psi + (K + phi)) (-60) 60). { split; [change (bp (-60)) with psi|rewrite B60]; rewrite psi_val in *; lra. }
  assert (ADD : forall x X z Z0, near x X (w0 + psi) (20 * (g * g) + 2) -> near z Z0 (K + phi) 6 -> near (b64_add x z) (X + Z0) T kp).
  { intros x X z Z0 HX HZ. assert (N3 := near_add _ _ _ _ _ _ _ _ (20 * (g * g) + 2) HX HZ ltac:(lra) ltac:(lra) ltac:(unfold kp in KPU; lra)). give N3 ltac:(rgs).
    apply (near_weaken _ _ _ _ T kp N3); [unfold T; rewrite psi_val in *; lra|unfold kp; lra|lra]. }
  assert (EGA : gamma_v (quiet (real3 pw lg v)) = ga) by (rewrite EQ; unfold gamma_v, ga, Rdiv at 1; rewrite Rmult_1_l; reflexivity).
  assert (NU2 : near3 u2 U2 T kp).
  { unfold U2, before. rewrite EGA, EQ. split; [|split]; cbn [plus scale c0 c1 c2 real3]; [exact (ADD _ _ _ _ (X0 (g0 A v0) F0 (proj1 C0)) E0)|exact (ADD _ _ _ _ (X0 (g1 A v0) F1 (proj1 (proj2 C0))) E1)|exact (ADD _ _ _ _ (X0 (g2 A v0) F2 (proj2 (proj2 C0))) E2)]. }
  assert (TT : T * (1 + / 1024) <= bp 61) by (change (bp 61) with (bp (60 + 1)); rewrite bp_succ, B60; lra).
  assert (MU2 : mgv pw lg u2 61) by (destruct NU2 as (Z0 & Z1 & Z2); split; [|split]; eapply near_mg; eauto).
  (* the Lorentz factor of it *)
  assert (NG := gamma_inv_near pw lg a HA HP u2 (mgv_weaken pw lg u2 61 400 MU2 ltac:(lia))). assert (W2 := boost_ge (size3 pw lg u2)).
  set (gi := gget_gamma_inv A (gtv_squared_sum A u2)) in *.
  assert (L2 : Rabs (size3 pw lg u2 - length3 (c0 U2) (c1 U2) (c2 U2)) <= 2 * (kp * u * T)).
  { destruct NU2 as (Z0 & Z1 & Z2). exact (length_near _ _ _ _ _ _ _ (proj2 (proj2 (proj2 Z0))) (proj2 (proj2 (proj2 Z1))) (proj2 (proj2 (proj2 Z2)))). }
  assert (IL := inv_lip (size3 pw lg u2) (length3 (c0 U2) (c1 U2) (c2 U2))). rewrite <- gamma_p_boost in IL.
  assert (KG : kp * g <= 24 * (g * g * g) /\ 0 <= kp * g). { unfold kp. split; [replace ((20 * (g * g) + 4) * g) with (20 * (g * g * g) + 4 * g) by ring; lra|apply Rmult_le_pos; lra]. }
  assert (NGI : near gi (/ gamma_p U2) 1 (a + 10 + 2 * (kp * g))).
  { destruct NG as (FG & (GK0 & GK1) & AG & EG). assert (GP1 := gamma_p_ge U2). assert (IG : 0 < / gamma_p U2 <= 1) by (split; [apply Rinv_0_lt_compat; lra|rewrite <- Rinv_1; apply Rinv_le; lra]).
    assert (IB : 0 < / boost (size3 pw lg u2) <= 1) by (split; [apply Rinv_0_lt_compat; lra|rewrite <- Rinv_1; apply Rinv_le; lra]).
    split; [exact FG|]. split; [split; [lra|]|]. { apply Rle_trans with (2 * L * u); [apply Rmult_le_compat_r; [lra|unfold L in *; lra]|lra]. }
    split; [rewrite Rabs_pos_eq; lra|]. replace (B2R gi - / gamma_p U2) with (B2R gi - / boost (size3 pw lg u2) + (/ boost (size3 pw lg u2) - / gamma_p U2)) by ring.
    apply Rle_trans with (1 := Rabs_triang _ _). assert (H3 : (a + 10) * u * / boost (size3 pw lg u2) <= (a + 10) * u * 1) by (apply Rmult_le_compat_l; [apply Rmult_le_pos; lra|lra]).
    assert (H4 : kp * u * T <= kp * u * (300000000 * g)) by (apply Rmult_le_compat_l; [apply Rmult_le_pos; [unfold kp; lra|lra]|lra]). lra. }
  assert (GB : forall x X, near x X 1 9 -> near (b64_mul x gi) (X * / gamma_p U2) 1 L).
  { intros x X HX. assert (Z := near_mul _ _ _ _ _ _ _ _ (a + 20 + 2 * (kp * g)) HX NGI). destruct NGI as (_ & (_ & KU1) & _).
    assert (BU : 9 * (a + 10 + 2 * (kp * g)) * u <= 1) by lra.
    assert (KU3 : (a + 20 + 2 * (kp * g) + 5 / 4) * u <= / 1024) by (apply Rle_trans with (2 * L * u); [apply Rmult_le_compat_r; [lra|unfold L in *; lra]|lra]).
    specialize (Z ltac:(lra) KU3). give Z ltac:(rgs). apply (near_weaken _ _ _ _ 1 L Z); [lra|unfold L in *; lra|lra]. }
  set (b2 := gtv_product A b1 gi). set (BB := scale (mu0 * k / gamma_p U2) (real3 pw lg h)).
  assert (NB2 : near3 b2 BB 1 L).
  { split; [|split]; cbn [BB scale c0 c1 c2 real3]; [refine (near_eq _ _ _ _ _ _ (GB _ _ B0) _ eq_refl); unfold Rdiv; ring|refine (near_eq _ _ _ _ _ _ (GB _ _ B1) _ eq_refl); unfold Rdiv; ring|refine (near_eq _ _ _ _ _ _ (GB _ _ B2) _ eq_refl); unfold Rdiv; ring]. }
  (* rotation *)
  assert (NV2 : near3 u2 U2 T L). { destruct NU2 as (Z0 & Z1 & Z2). split; [|split]; (eapply near_weaken; [eassumption|lra|unfold kp; lra|lra]). }
  assert (N3 := turned_near b2 u2 BB U2 T L NB2 NV2 ltac:(lra) ltac:(lra) ltac:(apply rg_weaken with (1 := RT); lia)).
  set (u3 := gboris_rotation A b2 u2) in *. set (U3 := turned BB U2) in *.
  (* the other half *)
  set (u4 := gtv_add A u3 e1). set (U4 := after (B2R q) (B2R m) (B2R dt) (real3 pw lg e) (real3 pw lg h) (real3 pw lg v)).
  assert (R13 : rg (13 * T + (K + phi)) (-60) 64). { split; [change (bp (-60)) with psi; lra|change (bp 64) with (bp (4 + 60)); rewrite bpow_plus, B60; change (bp 4) with 16; unfold T in *; rewrite psi_val in *; lra]. }
  assert (ADD4 : forall x X z Z0, near x X (13 * T) (32 * L) -> near z Z0 (K + phi) 6 -> near (b64_add x z) (X + Z0) (14 * T) (33 * L)).
  { intros x X z Z0 HX HZ. assert (N := near_add _ _ _ _ _ _ _ _ (32 * L) HX HZ ltac:(lra) ltac:(lra) ltac:(lra)). give N ltac:(rgs).
    apply (near_weaken _ _ _ _ (14 * T) (33 * L) N); [unfold T in *; rewrite psi_val in *; lra|lra|lra]. }
  assert (NU4 : near3 u4 U4 (14 * T) (33 * L)).
  { destruct N3 as (Z0 & Z1 & Z2). split; [|split]; [exact (ADD4 _ _ _ _ Z0 E0)|exact (ADD4 _ _ _ _ Z1 E1)|exact (ADD4 _ _ _ _ Z2 E2)]. }
  assert (MU4 : mgv pw lg u4 65).
  { destruct NU4 as (Z0 & Z1 & Z2). split; [|split]; (eapply near_mg; [eassumption|]; change (bp 65) with (bp (5 + 60)); rewrite bpow_plus, B60; change (bp 5) with 32; lra). }
  assert (NG4 := gamma_inv_near pw lg a HA HP u4 (mgv_weaken pw lg u4 65 400 MU4 ltac:(lia))). set (n4 := size3 pw lg u4) in *. assert (W4 := boost_ge n4). set (ga4 := boost n4) in *.
  set (p := gget_gamma_inv A (gtv_squared_sum A u4)) in *. cbn [num b64_arith] in *.
  assert (S4P : 0 <= n4) by apply size_pos.
  assert (N4 : n4 <= 29 * T).
  { destruct NU4 as (Z0 & Z1 & Z2). apply near_size in Z0, Z1, Z2. unfold n4, size3. apply Rle_trans with (2 * (14 * T * (1 + / 1024))); [apply length_parts; [apply Z0|apply Z1|apply Z2]|lra]. }
  assert (G66 : ga4 <= bp 66).
  { assert (ga4 <= 1 + n4). { apply Motion64R.sq_le_inv; [lra|]. unfold ga4. rewrite boost_sq. assert (n4 * n4 / cc <= n4 * n4); [|nra]. unfold Rdiv. rewrite <- (Rmult_1_r (n4 * n4)) at 2. apply Rmult_le_compat_l; [nra|]. rewrite <- Rinv_1. apply Rinv_le; [lra|unfold cc; lra]. }
    change (bp 66) with (bp (6 + 60)). rewrite bpow_plus, B60. change (bp 6) with 64. lra. }
  assert (IG : 0 < / ga4 <= 1) by (split; [apply Rinv_0_lt_compat; lra|rewrite <- Rinv_1; apply Rinv_le; lra]).
  assert (RG4 : rg (/ ga4) (-66) 0). { split; [|change (bp 0) with 1; lra]. change (-66)%Z with (- (66))%Z. rewrite bpow_opp. apply Rinv_le; lra. }
  assert (RN4 : rg (n4 + psi) (-60) 65). { split; [change (bp (-60)) with psi; lra|change (bp 65) with (bp (5 + 60)); rewrite bpow_plus, B60; change (bp 5) with 32; rewrite psi_val in *; lra]. }
  assert (C4 := length_part (x0 u4) (x1 u4) (x2 u4)). fold (size3 pw lg u4) in C4. fold n4 in C4.
  assert (AU : (a + 12) * u <= / 1024). { rewrite u_val. lra. }
  assert (MUL : forall x : b64, fin x -> Rabs (B2R x) <= n4 -> near (b64_mul x p) (B2R x * / ga4) ((n4 + psi) * / ga4) (a + 12)).
  { intros x FX SX. assert (NX := near_exact x (n4 + psi) FX ltac:(rewrite psi_val; lra)). assert (N := near_mul _ _ _ _ _ _ _ _ (a + 10) NX NG4 ltac:(lra) ltac:(lra)). give N ltac:(rgs).
    apply (near_weaken _ _ _ _ ((n4 + psi) * / ga4) (a + 12) N); lra. }
  assert (L4 : Rabs (n4 - length3 (c0 U4) (c1 U4) (c2 U4)) <= 2 * (33 * L * u * (14 * T))).
  { destruct NU4 as (Z0 & Z1 & Z2). exact (length_near _ _ _ _ _ _ _ (proj2 (proj2 (proj2 Z0))) (proj2 (proj2 (proj2 Z1))) (proj2 (proj2 (proj2 Z2)))). }
  assert (FIN : forall (x : b64) X, near x X (14 * T) (33 * L) -> Rabs (B2R x) <= n4 -> fin (b64_mul x p) /\ Rabs (B2R (b64_mul x p) - / gamma_p U4 * X) <= 2048 * L * u * (P + 2 * K + 4 * psi)).
  { intros x X (FX & _ & _ & EX) SX. destruct (MUL x FX SX) as (FM & _ & _ & EM). split; [exact FM|].
    assert (S3 := speed3 (B2R x) X n4 (length3 (c0 U4) (c1 U4) (c2 U4)) _ SX EX L4 S4P). rewrite <- gamma_p_boost in S3. fold ga4 in S3.
    replace (B2R (b64_mul x p) - / gamma_p U4 * X) with (B2R (b64_mul x p) - B2R x * / ga4 + (B2R x * / ga4 - X * / gamma_p U4)) by ring. apply Rle_trans with (1 := Rabs_triang _ _).
    assert (H3 : (n4 + psi) * / ga4 <= 30 * T * 1) by (apply Rmult_le_compat; lra).
    assert (H4 : (a + 12) * u * ((n4 + psi) * / ga4) <= L * u * (30 * T * 1)).
    { apply Rmult_le_compat; [apply Rmult_le_pos; lra|apply Rmult_le_pos; lra|apply Rmult_le_compat_r; [lra|unfold L; lra]|exact H3]. }
    assert (LU : 0 <= L * u) by (apply Rmult_le_pos; lra). assert (LUT : L * u * T <= L * u * (P + 2 * K + 4 * psi)) by (apply Rmult_le_compat_l; lra). assert (0 <= L * u * T) by (apply Rmult_le_pos; lra). lra. }
  destruct NU4 as (Z0 & Z1 & Z2).
  destruct (FIN _ _ Z0 (proj1 C4)) as (FF0 & D0). destruct (FIN _ _ Z1 (proj1 (proj2 C4))) as (FF1 & D1). destruct (FIN _ _ Z2 (proj2 (proj2 C4))) as (FF2 & D2).
  exists (gtv_product A u4 p). split; [reflexivity|]. split; [split; [exact FF0|split; [exact FF1|exact FF2]]|].
  intros w HW. apply boris_step_is in HW. fold U4 in HW. subst w. split; [exact D0|split; [exact D1|exact D2]].
Qed.
End Boris.

(** ** In terms of speed and momentum *)
Section Step.
Variables pw lg : b64 -> b64.
Notation A := (b64_arith pw lg).
Variable a : R.
Hypothesis HA : 0 <= a <= 8192.
Hypothesis HP : close_pow pw a.

Lemma impulse_kick : forall q m dt (e : gvec A), sane q m -> 0 < B2R dt -> 2 * kick pw lg q m dt e = impulse pw lg q m dt e /\ 0 <= impulse pw lg q m dt e.
Proof.
  intros q m dt e (_ & _ & (ML & _) & _) HD. assert (0 < B2R m) by (apply Rlt_le_trans with (2 := ML); apply bpow_gt_0). unfold kick, impulse. split; [field; lra|].
  apply Rmult_le_pos; [|apply size_pos]. apply Rmult_le_pos; [apply Rmult_le_pos; [apply Rabs_pos|lra]|left; now apply Rinv_0_lt_compat].
Qed.
Theorem boris_step_mgv : forall (dt q m : b64) (e h v : gvec A) b, sane q m -> fin dt -> 0 < B2R dt <= bp (-18) ->
  mgv pw lg e 265 -> mgv pw lg h 265 -> finite3 pw lg v -> size3 pw lg v < 300000000 ->
  momentum pw lg v + impulse pw lg q m dt e <= b -> turns_little (B2R q) (B2R m) (B2R dt) (real3 pw lg h) ->
  let g := lorentz (b + 1) in (a + 100 * (g * g * g)) * u <= bp (-17) ->
  exists v', gboris_push A true dt q m e h v = Ok v' /\ finite3 pw lg v' /\
    forall w, boris_step (B2R q) (B2R m) (B2R dt) (real3 pw lg e) (real3 pw lg h) (real3 pw lg v) w ->
    within (2048 * (a + 100 * (g * g * g)) * u * (b + bp (-58))) (real3 pw lg v') w.
Proof.
  intros dt q m e h v b HQ FD HD ME MH FV SV HB HT g HG. unfold g in *. rewrite lorentz_boost in *. clear g. set (g := boost (b + 1)) in *.
  destruct (impulse_kick q m dt e HQ (proj1 HD)) as (KK & I0). assert (VP := size_pos pw lg v). destruct (speed_of _ (conj VP SV)) as (W0 & WS & WB). fold (momentum pw lg v) in W0, WS, WB.
  assert (G := boost_ge (b + 1)). fold g in G. assert (GE := boost_mono (momentum pw lg v) (b + 1) ltac:(lra)). fold g in GE. assert (GB := boost_ge (momentum pw lg v)). assert (C := cc_pos).
  assert (DV : 0 <= 1 - size3 pw lg v * size3 pw lg v / cc).
  { destruct (Rle_lt_dec 0 (1 - size3 pw lg v * size3 pw lg v / cc)) as [X|X]; [exact X|]. exfalso. assert (0 <= boost (momentum pw lg v) * boost (momentum pw lg v)) by nra. nra. }
  destruct (boris_near pw lg a HA HP dt q m e h v g HQ FD HD ME MH FV G HG) as (v' & E & F & D).
  - apply Rle_trans with (1 := Req_le _ _ (eq_sym WB)). apply Rmult_le_compat_r; [exact DV|]. apply Rmult_le_compat; lra.
  - rewrite KK. unfold g. rewrite boost_sq. apply Rplus_le_compat_l. apply Rmult_le_compat_r; [left; now apply Rinv_0_lt_compat|]. apply Rmult_le_compat; lra.
  - exact HT.
  - exists v'. split; [exact E|]. split; [exact F|]. intros w HW. specialize (D w HW). rewrite KK in D.
    assert (PH : 4 * psi = bp (-58)) by (unfold psi; change 4 with (bp 2); rewrite <- bpow_plus; reflexivity). rewrite PH in D.
    assert (P := u_pos). assert (G3 : 0 <= g * g * g) by (repeat apply Rmult_le_pos; lra).
    assert (LE : 2048 * (a + 100 * (g * g * g)) * u * (momentum pw lg v + impulse pw lg q m dt e + bp (-58)) <= 2048 * (a + 100 * (g * g * g)) * u * (b + bp (-58))) by (apply Rmult_le_compat_l; [repeat apply Rmult_le_pos; lra|lra]).
    destruct D as (D0 & D1 & D2). split; [lra|]. split; lra.
Qed.
Theorem boris_step_near : forall (dt q m : b64) (e h v : gvec A) b, sane q m -> fin dt -> 0 < B2R dt <= bp (-18) ->
  finite3 pw lg e -> size3 pw lg e <= bp 251 -> finite3 pw lg h -> size3 pw lg h <= bp 251 -> finite3 pw lg v -> size3 pw lg v < 300000000 ->
  momentum pw lg v + impulse pw lg q m dt e <= b -> turns_little (B2R q) (B2R m) (B2R dt) (real3 pw lg h) ->
  let g := lorentz (b + 1) in (a + 100 * (g * g * g)) * u <= bp (-17) ->
  exists v', gboris_push A true dt q m e h v = Ok v' /\ finite3 pw lg v' /\
    forall w, boris_step (B2R q) (B2R m) (B2R dt) (real3 pw lg e) (real3 pw lg h) (real3 pw lg v) w ->
    within (2048 * (a + 100 * (g * g * g)) * u * (b + bp (-58))) (real3 pw lg v') w.
Proof.
  intros dt q m e h v b HQ FD HD FE SE FH SH. exact (boris_step_mgv dt q m e h v b HQ FD HD (mgv_of pw lg e FE SE) (mgv_of pw lg h FH SH)).
Qed.
Theorem classic_step_near : forall (dt q m : b64) (e h v : gvec A), sane q m -> fin dt -> 0 < B2R dt <= bp (-18) ->
  finite3 pw lg e -> size3 pw lg e <= bp 251 -> finite3 pw lg h -> size3 pw lg h <= bp 251 -> finite3 pw lg v ->
  size3 pw lg v + impulse pw lg q m dt e <= bp 59 -> turns_little (B2R q) (B2R m) (B2R dt) (real3 pw lg h) ->
  exists v', gboris_push A false dt q m e h v = Ok v' /\ finite3 pw lg v' /\
    forall w, classic_step (B2R q) (B2R m) (B2R dt) (real3 pw lg e) (real3 pw lg h) (real3 pw lg v) w ->
    within (10000 * u * (size3 pw lg v + impulse pw lg q m dt e + bp (-58))) (real3 pw lg v') w.
Proof.
  intros dt q m e h v HQ FD HD FE SE FH SH FV HB HT. destruct (impulse_kick q m dt e HQ (proj1 HD)) as (KK & I0).
  assert (PH : 4 * psi = bp (-58)) by (unfold psi; change 4 with (bp 2); rewrite <- bpow_plus; reflexivity). rewrite <- PH, <- KK. rewrite <- KK in HB.
  exact (classic_near pw lg dt q m e h v HQ FD HD (mgv_of pw lg e FE SE) (mgv_of pw lg h FH SH) FV HB HT).
Qed.
End Step.

(** ** The code in exact arithmetic is the scheme *)
Definition t3 (v : vec3) : triple := Triple (v0 v) (v1 v) (v2 v).
Lemma quiet_round : forall v, quiet (t3 v) = t3 (round_velocity v).
Proof.
  assert (E : 1 / 1000000000000000 = MNZL) by (unfold MNZL; lra). assert (Q : forall x, quiet1 x = round_small x) by (intro x; unfold quiet1, round_small; now rewrite E).
  intros [a b c]. unfold quiet, t3, round_velocity. cbn [c0 c1 c2 v0 v1 v2]. now rewrite !Q.
Qed.
Lemma exact_step : forall q m dt e h v, dot (quiet (t3 v)) (quiet (t3 v)) < light * light ->
  exists w, boris_push true dt q m e h v = Ok w /\ boris_step q m dt (t3 e) (t3 h) (t3 v) (t3 w).
Proof.
  intros q m dt e h v HV. unfold boris_push. cbv zeta. unfold get_gamma. cbv zeta.
  assert (EB : tv_squared_sum (round_velocity v) / LIGHT_SPEED_POW_2 = dot (quiet (t3 v)) (quiet (t3 v)) / (light * light)).
  { rewrite quiet_round. unfold tv_squared_sum, tv_dot, LIGHT_SPEED_POW_2, LIGHT_SPEED, dot, light, t3. cbn [c0 c1 c2]. f_equal; ring. }
  assert (BL : dot (quiet (t3 v)) (quiet (t3 v)) / (light * light) < 1) by (unfold light in *; lra).
  rewrite EB. destruct (Rlt_dec 1 _) as [X|_]; [lra|]. destruct (Req_EM_T _ 1) as [X|_]; [lra|]. cbn [bind].
  eexists. split; [reflexivity|]. apply boris_step_is.
  set (U := tv_add (tv_product (round_velocity v) (1 / sqrt (1 - dot (quiet (t3 v)) (quiet (t3 v)) / (light * light)))) (tv_product e (q * dt / (2 * m)))).
  assert (GI : forall p, get_gamma_inv (tv_squared_sum p) = / gamma_p (t3 p)).
  { intro p. unfold get_gamma_inv, gamma_p, Rdiv at 1. rewrite Rmult_1_l. do 2 f_equal. unfold tv_squared_sum, tv_dot, LIGHT_SPEED_POW_2, LIGHT_SPEED, dot, light, t3. cbn [c0 c1 c2]. f_equal. f_equal; ring. }
  rewrite !GI.
  assert (EU : t3 U = before q m dt (t3 e) (t3 v)).
  { unfold U, before. fold (gamma_v (quiet (t3 v))). rewrite quiet_round. unfold tv_add, tv_product, plus, scale, t3. cbn [c0 c1 c2 v0 v1 v2]. f_equal; ring. }
  set (b := tv_product (tv_product h (MAGN_CONST * (q * dt / (2 * m)))) (/ gamma_p (t3 U))).
  assert (ER : t3 (boris_rotation b U) = turned (scale (mu0 * (q * dt / (2 * m)) / gamma_p (t3 U)) (t3 h)) (t3 U)).
  { assert (EBB : scale (mu0 * (q * dt / (2 * m)) / gamma_p (t3 U)) (t3 h) = t3 b) by (unfold b, scale, tv_product, t3; cbn [c0 c1 c2 v0 v1 v2]; change mu0 with MAGN_CONST; unfold Rdiv; f_equal; ring).
    rewrite EBB. unfold turned, boris_rotation, t3, tv_squared_sum, tv_dot. cbv zeta. cbn [c0 c1 c2 v0 v1 v2]. replace (0 + v0 b * v0 b + v1 b * v1 b + v2 b * v2 b) with (v0 b * v0 b + v1 b * v1 b + v2 b * v2 b) by ring. reflexivity. }
  set (w := tv_add (boris_rotation b U) (tv_product e (q * dt / (2 * m)))).
  assert (EW : t3 w = after q m dt (t3 e) (t3 h) (t3 v)).
  { unfold after. cbv zeta. rewrite <- EU, <- ER. unfold w, tv_add, tv_product, plus, scale, t3. cbn [c0 c1 c2 v0 v1 v2]. f_equal; ring. }
  rewrite <- EW. unfold tv_product at 1, scale, t3. cbn [c0 c1 c2 v0 v1 v2]. f_equal; ring.
Qed.
