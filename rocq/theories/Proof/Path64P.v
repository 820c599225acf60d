(** Paths across cell borders in binary64: cells, borders and crossing points as the program computes them. *)
From Coq Require Import Reals ZArith List Bool Lia Lra Psatz.
From Flocq Require Import Core IEEE754.BinarySingleNaN.
From Verif.Lib Require Import RAux Outcome Grid.
From Verif.Model Require Import Constants Binary64 Temperature64 Arith CurrentDeposit GenCode.
From Verif.Spec Require Import Cloud Continuity Double Deposit64.
From Verif.Proof Require Import GeometryP ChargeP CurrentP Binary64P FloatP Axis64P Motion64P Push64P Cells64P Err64P Ana64P Log64P Leg64P Poly64P Flow64P.
Import ListNotations.
Local Open Scope R_scope.

(** ** Cells and borders along one axis *)
Section Axis.
Variables pw lg : b64 -> b64.
Notation A := (b64_arith pw lg).
Variables (n : Z) (size d : b64) (m : R).
Hypothesis AX : axis n size d.
Hypothesis Hm : bp (-42) * (IZR n * B2R d) <= m.
Notation D := (B2R d).

Lemma dpos : 0 < D. Proof. exact (len_pos _ _ _ AX). Qed.
Lemma n_hi : 3 <= IZR n <= 1048576.
Proof. assert (N := ax_n _ _ _ AX). cbn in N. split; apply IZR_le; lia. Qed.
Lemma m_quot : bp (-42) * IZR n <= m / D.
Proof. assert (P := dpos). apply Rmult_le_reg_r with D; [exact P|]. unfold Rdiv. rewrite (Rmult_assoc m), Rinv_l by lra. lra. Qed.
Lemma u42 : u = / 2048 * bp (-42). Proof. rewrite u_val. change (bp (-42)) with (/ 4398046511104). lra. Qed.

Lemma cell_clear : forall x, fin x -> 0 < B2R x <= IZR (n - 1) * D -> off_lines m D (B2R x) ->
  (0 <= gcell A x d <= n - 2)%Z /\ IZR (gcell A x d) * D + m <= B2R x <= (IZR (gcell A x d) + 1) * D - m.
Proof.
  intros x Fx (X0 & X1) HO. assert (P := dpos). assert (N := n_hi). assert (MQ := m_quot). assert (N1 : IZR (n - 1) = IZR n - 1) by (now rewrite minus_IZR).
  assert (M0 : 0 < m) by (apply Rlt_le_trans with (2 := Hm); apply Rmult_lt_0_compat; [apply bpow_gt_0|apply Rmult_lt_0_compat; lra]).
  assert (QD : B2R x / D * D = B2R x) by (field; lra).
  set (c := Zfloor (B2R x / D)). assert (L1 := Zfloor_lb (B2R x / D)). assert (L2 := Zfloor_ub (B2R x / D)). fold c in L1, L2.
  assert (A1 : IZR c * D <= B2R x) by (rewrite <- QD; apply Rmult_le_compat_r; lra).
  assert (A2 : B2R x < (IZR c + 1) * D) by (rewrite <- QD; apply Rmult_lt_compat_r; lra).
  assert (B1 := HO c). assert (B2 := HO (c + 1)%Z). rewrite plus_IZR in B2. rewrite Rabs_pos_eq in B1 by lra. rewrite Rabs_left1 in B2 by lra.
  assert (Q0 : 0 < B2R x / D) by (apply Rmult_lt_0_compat; [lra|now apply Rinv_0_lt_compat]).
  assert (Q1 : B2R x / D <= IZR n) by (apply Rmult_le_reg_r with D; [exact P|]; rewrite QD; nra).
  assert (C0 : (0 <= c)%Z). { apply Zlt_succ_le. apply lt_IZR. unfold Z.succ. rewrite plus_IZR. lra. }
  assert (C2 : (c <= n - 2)%Z). { apply Zlt_succ_le. apply lt_IZR. unfold Z.succ. rewrite plus_IZR, minus_IZR. apply Rmult_lt_reg_r with D; [exact P|]. rewrite N1 in X1. lra. }
  assert (E : gcell A x d = c).
  { rewrite cell64_eq. assert (XS : Rabs (B2R x) <= 4194304 * len d). { unfold len. rewrite Rabs_pos_eq by lra. rewrite N1 in X1. nra. }
    destruct (quot _ _ _ AX x Fx XS) as (_ & EQ & _). rewrite EQ. unfold len. assert (R := rnd_err (B2R x / D)). rewrite (Rabs_pos_eq (B2R x / D)) in R by lra. apply Rabs_le_inv in R.
    assert (U := u42). assert (UP := u_pos). assert (T := tiny_100). assert (T45 : bp (-100) <= bp (-44)) by (apply bpow_le; lia). assert (TT : bp (-44) = / 4 * bp (-42)) by (change (bp (-44)) with (/ 17592186044416); change (bp (-42)) with (/ 4398046511104); lra).
    assert (P45 := bpow_gt_0 radix2 (-45)). assert (UQ : u * (B2R x / D) <= / 2048 * (bp (-42) * IZR n)). { rewrite U. replace (/ 2048 * (bp (-42) * IZR n)) with (/ 2048 * bp (-42) * IZR n) by ring. apply Rmult_le_compat_l; lra. }
    assert (PN : bp (-42) * 3 <= bp (-42) * IZR n) by (apply Rmult_le_compat_l; lra).
    assert (C1' : IZR c + m / D <= B2R x / D). { apply Rmult_le_reg_r with D; [exact P|]. rewrite QD. replace ((IZR c + m / D) * D) with (IZR c * D + m) by (field; lra). lra. }
    assert (C2' : B2R x / D <= IZR c + 1 - m / D). { apply Rmult_le_reg_r with D; [exact P|]. rewrite QD. replace ((IZR c + 1 - m / D) * D) with ((IZR c + 1) * D - m) by (field; lra). lra. }
    rewrite (Zceil_imp (c + 1)); [lia|]. rewrite plus_IZR. replace (c + 1 - 1)%Z with c by lia. lra. }
  rewrite E. repeat split; try assumption; lra.
Qed.

Lemma border : forall j, (1 <= j <= n)%Z -> fin (b64_mul (b64_of_Z j) d) /\ Rabs (B2R (b64_mul (b64_of_Z j) d) - IZR j * D) <= u * (IZR j * D).
Proof.
  intros j Hj. assert (P := dpos). assert (N := n_hi). assert (N3 := ax_n _ _ _ AX). cbn in N3. assert (J : 1 <= IZR j <= IZR n) by (split; apply IZR_le; lia).
  destruct (of_Z_exact j ltac:(lia)) as (F & E). assert (LL := ax_lo _ _ _ AX). assert (LH := len_hi _ _ _ AX). unfold len in LH.
  assert (JD : bp (-30) <= IZR j * D) by nra.
  destruct (mul_ok (b64_of_Z j) d F (fin_d _ _ _ AX)) as (F2 & E2).
  { rewrite E, Rabs_pos_eq by (assert (K := bpow_gt_0 radix2 (-30)); lra). apply Rle_trans with (bp 30); [|apply bpow_le; lia]. change (bp 30) with 1073741824. nra. }
  split; [exact F2|]. rewrite E2, E. apply rnd_rel. apply Rle_trans with (2 := JD). apply bpow_le. lia.
Qed.

Lemma border_m : forall j, (1 <= j <= n)%Z -> u * (IZR j * D) <= / 2048 * m.
Proof.
  intros j Hj. assert (P := dpos). assert (J : 1 <= IZR j <= IZR n) by (split; apply IZR_le; lia). rewrite u42. rewrite Rmult_assoc. apply Rmult_le_compat_l; [lra|]. apply Rle_trans with (2 := Hm).
  apply Rmult_le_compat_l; [left; apply bpow_gt_0|]. apply Rmult_le_compat_r; lra.
Qed.

Lemma not_border : forall x, fin x -> 0 < B2R x <= IZR (n - 1) * D -> off_lines m D (B2R x) -> Beqb x (b64_mul (b64_of_Z (gcell A x d + 1)) d) = false.
Proof.
  intros x Fx HX HO. destruct (cell_clear x Fx HX HO) as ((C0 & C1) & H1 & H2). assert (J : (1 <= gcell A x d + 1 <= n)%Z) by lia.
  destruct (border _ J) as (F & E). assert (B := border_m _ J). apply Rabs_le_inv in E.
  assert (M0 : 0 < m). { assert (P := dpos). assert (N := n_hi). apply Rlt_le_trans with (2 := Hm). apply Rmult_lt_0_compat; [apply bpow_gt_0|apply Rmult_lt_0_compat; lra]. }
  destruct (Beqb x (b64_mul (b64_of_Z (gcell A x d + 1)) d)) eqn:Q; [|reflexivity]. apply (eqb_ok _ _ Fx F) in Q. rewrite plus_IZR in *. lra.
Qed.

Lemma tie_clear : forall xn xo, fin xn -> fin xo -> 0 < B2R xn <= IZR (n - 1) * D -> 0 < B2R xo <= IZR (n - 1) * D ->
  off_lines m D (B2R xn) -> off_lines m D (B2R xo) -> gtie_cells A d xn xo = (gcell A xn d, gcell A xo d).
Proof.
  intros xn xo Fn Fo Hn Ho On Oo. unfold gtie_cells. cbv zeta. change (eqb A) with (@Beqb prec64 emax64). change (mul A) with b64_mul. change (of_int A) with b64_of_Z.
  now rewrite (not_border xo Fo Ho Oo), (not_border xn Fn Hn On).
Qed.
End Axis.

(** ** Where the path meets a border *)
Lemma big_diff : forall x y : b64, fin x -> fin y -> bp (-49) <= Rabs (B2R x - B2R y) <= bp 12 -> Bltb (Babs (b64_sub x y)) (b64_lit 1 1000000000000000) = false.
Proof.
  intros x y Fx Fy (H1 & H2). destruct (sub_ok x y Fx Fy) as (F & E); [apply Rle_trans with (1 := H2), bpow_le; lia|]. destruct mnzl_val as (FM & _ & M).
  assert (FA : fin (Babs (b64_sub x y))) by (now rewrite is_finite_Babs).
  apply ltb_false; [exact FA|exact FM|]. rewrite B2R_Babs, E. apply Rle_trans with (1 := M). apply Rle_trans with (bp (-49)).
  { change (bp (-49)) with (/ 562949953421312). lra. }
  assert (G : bp (-49) <= rnd (Rabs (B2R x - B2R y))). { rewrite <- (rnd_bp (-49)) by lia. now apply rnd_mono. }
  destruct (Rle_lt_dec 0 (B2R x - B2R y)) as [L|L].
  - rewrite (Rabs_pos_eq (_ - _)) in G by exact L. apply Rle_trans with (1 := G). apply Rle_abs.
  - rewrite (Rabs_left (_ - _)) in G by exact L. rewrite rnd_opp in G. apply Rle_trans with (1 := G). rewrite <- Rabs_Ropp. apply Rle_abs.
Qed.

Section Cross.
Variables (bs xs xe ys ye : b64) (B S S' m : R).
Notation X := (B2R xe - B2R xs). Notation Y := (B2R ye - B2R ys).
Hypothesis Fb : fin bs. Hypothesis Fxs : fin xs. Hypothesis Fxe : fin xe. Hypothesis Fys : fin ys. Hypothesis Fye : fin ye.
Hypothesis Hm : bp (-48) <= m.
Hypothesis HX : m <= Rabs X <= bp 11. Hypothesis HY : m <= Rabs Y <= bp 11.
Hypothesis HS : bp (-42) * S <= m. Hypothesis HS' : bp (-42) * S' <= m. Hypothesis PS' : bp (-40) <= S' <= bp 40.
Hypothesis HB : Rabs (B2R bs - B) <= u * S. Hypothesis HBx : m <= Rabs (B - B2R xs) <= Rabs X.
Hypothesis HYs : Rabs (B2R ys) + Rabs Y <= S'.

Lemma m_pos : 0 < m. Proof. assert (P := bpow_gt_0 radix2 (-48)). lra. Qed.
Lemma uS : u * S <= / 2048 * m. Proof. rewrite u42. lra. Qed.
Lemma uS' : u * S' <= / 2048 * m. Proof. rewrite u42. lra. Qed.
Lemma bx : Rabs ((B2R bs - B2R xs) - (B - B2R xs)) <= / 2048 * m. Proof. replace (B2R bs - B2R xs - (B - B2R xs)) with (B2R bs - B) by ring. assert (U := uS). lra. Qed.
Lemma bx_rg : bp (-49) <= Rabs (B2R bs - B2R xs) <= bp 12.
Proof.
  assert (E := bx). assert (P := m_pos). assert (T1 := Rabs_triang_inv (B - B2R xs) ((B - B2R xs) - (B2R bs - B2R xs))). replace (B - B2R xs - (B - B2R xs - (B2R bs - B2R xs))) with (B2R bs - B2R xs) in T1 by ring.
  rewrite Rabs_minus_sym in E. assert (T2 := Rabs_triang (B - B2R xs) (- ((B - B2R xs) - (B2R bs - B2R xs)))). rewrite Rabs_Ropp in T2. replace (B - B2R xs + - (B - B2R xs - (B2R bs - B2R xs))) with (B2R bs - B2R xs) in T2 by ring.
  change (bp (-48)) with (/ 281474976710656) in *. change (bp (-49)) with (/ 562949953421312). change (bp 11) with 2048 in *. change (bp 12) with 4096. lra.
Qed.
Lemma x_rg : bp (-49) <= Rabs X <= bp 12.
Proof. change (bp (-48)) with (/ 281474976710656) in *. change (bp (-49)) with (/ 562949953421312). change (bp 11) with 2048 in *. change (bp 12) with 4096. lra. Qed.
Lemma y_rg : bp (-49) <= Rabs Y <= bp 12.
Proof. change (bp (-48)) with (/ 281474976710656) in *. change (bp (-49)) with (/ 562949953421312). change (bp 11) with 2048 in *. change (bp 12) with 4096. lra. Qed.

Lemma good_ext : forall (x x' : b64) X M s, fin x' -> B2R x' = B2R x -> good x X M s -> good x' X M s.
Proof. intros x x' X' M s F E ((_ & K & S1 & N) & R & L). split; [|split; assumption]. split; [exact F|]. split; [exact K|]. split; [exact S1|]. now rewrite E. Qed.

(** A difference as the program has it, up to the sign of zero. *)
Definition minus (v x y : b64) : Prop := fin v /\ B2R v = B2R (b64_sub x y).

Lemma diffs : forall v, minus v bs xs ->
  goods [v; b64_sub xe xs; b64_sub ye ys] [B2R bs - B2R xs; X; Y] [Rabs (B2R bs - B2R xs); Rabs X; Rabs Y] [Sh 5 (-51) 12 true; Sh 5 (-51) 12 true; Sh 5 (-51) 12 true].
Proof.
  intros v (FV & EV). assert (R1 := bx_rg). assert (R2 := x_rg). assert (R3 := y_rg).
  apply goods_cons; [apply good_ext with (1 := FV) (2 := EV)|apply goods_cons; [|apply goods_cons; [|apply goods_nil]]]; apply small_diff; try assumption; try (apply big_diff; assumption); lra.
Qed.

(** All ways in which the program computes the other coordinate. *)
Notation W := ((B2R bs - B2R xs) * (Y / X)).
Definition step (w : b64) : Prop := exists s, good w W (Rabs W) s /\ (s_k s <= 40)%Z.
Ltac analyse e := match goal with G : goods _ _ _ _ |- _ => assert (G' := analysed _ _ _ _ e _ G eq_refl); cbn [eb er em nth] in G'; eexists; split; [|shelve];
  destruct G' as (N & R & L); destruct (L eq_refl) as (L1 & L2); rewrite L2 in N, R end.

Lemma by_quot : forall v, minus v bs xs -> step (b64_div v (b64_div (b64_sub xe xs) (b64_sub ye ys))).
Proof.
  intros v HV. assert (G := diffs v HV). assert (X0 : X <> 0) by (assert (Q := x_rg); assert (Q2 := bpow_gt_0 radix2 (-49)); intro Z; rewrite Z, Rabs_R0 in Q; lra).
  assert (Y0 : Y <> 0) by (assert (Q := y_rg); assert (Q2 := bpow_gt_0 radix2 (-49)); intro Z; rewrite Z, Rabs_R0 in Q; lra).
  analyse (Di (V 0) (Di (V 1) (V 2))). assert (E : (B2R bs - B2R xs) / (X / Y) = W) by (field; split; assumption). rewrite E in N, R, L1.
  split; [exact N|]. split; [exact R|]. intros _. split; [exact L1|reflexivity].
  Unshelve. cbn. lia.
Qed.
Lemma by_mult : forall v, minus v bs xs -> step (b64_mul (b64_div (b64_sub ye ys) (b64_sub xe xs)) v).
Proof.
  intros v HV. assert (G := diffs v HV). analyse (Ti (Di (V 2) (V 1)) (V 0)). rewrite (Rmult_comm (Y / X)) in N, R, L1.
  split; [exact N|]. split; [exact R|]. intros _. split; [exact L1|reflexivity].
  Unshelve. cbn. lia.
Qed.
Lemma by_mult' : forall v, minus v bs xs -> step (b64_mul v (b64_div (b64_sub ye ys) (b64_sub xe xs))).
Proof.
  intros v HV. assert (G := diffs v HV). analyse (Ti (V 0) (Di (V 2) (V 1))).
  split; [exact N|]. split; [exact R|]. intros _. split; [exact L1|reflexivity].
  Unshelve. cbn. lia.
Qed.

Lemma cross_any : forall w, step w ->
  fin w /\ Rabs (B2R w) <= bp 40 /\
  Rabs (rnd (B2R ys + B2R w) - (B2R ys + (B - B2R xs) / X * Y)) <= m / 64 * (1 + Rabs Y / Rabs X) /\ Rabs (B2R ys + B2R w) <= bp 41.
Proof.
  intros w (s & ((F & (K1 & K2) & _ & E) & _ & _) & HK). assert (P := m_pos). assert (X0 : X <> 0) by (intro Z; rewrite Z, Rabs_R0 in HX; lra).
  assert (PX : 0 < Rabs X) by lra. assert (PY : 0 < Rabs Y) by lra. assert (UP := u_pos). assert (UV := u_val).
  assert (KS : IZR (s_k s) / 4 <= 10). { apply IZR_le in HK. lra. }
  assert (R := bx). assert (US := uS). assert (US' := uS').
  assert (BX : Rabs (B2R bs - B2R xs) <= 2 * Rabs X).
  { replace (B2R bs - B2R xs) with ((B - B2R xs) + ((B2R bs - B2R xs) - (B - B2R xs))) by ring. apply Rle_trans with (1 := Rabs_triang _ _). lra. }
  assert (SL : Rabs (Y / X) = Rabs Y / Rabs X) by (unfold Rdiv; rewrite Rabs_mult, Rabs_inv; reflexivity).
  set (sl := Rabs Y / Rabs X) in *. assert (SL0 : 0 <= sl) by (rewrite <- SL; apply Rabs_pos). assert (SLX : sl * Rabs X = Rabs Y) by (unfold sl; field; lra).
  assert (WS : Rabs ((B2R bs - B2R xs) * (Y / X)) <= 2 * Rabs Y) by (rewrite Rabs_mult, SL; nra).
  assert (EW : Rabs (B2R w - (B2R bs - B2R xs) * (Y / X)) <= 20 * u * Rabs Y).
  { apply Rle_trans with (1 := E). apply Rle_trans with (10 * u * (2 * Rabs Y)); [|lra]. apply Rmult_le_compat; try lra; [|apply Rabs_pos|]; [apply Rmult_le_pos; lra|apply Rmult_le_compat_r; lra]. }
  assert (ED : Rabs ((B2R bs - B2R xs) * (Y / X) - (B - B2R xs) / X * Y) <= / 2048 * m * sl).
  { replace ((B2R bs - B2R xs) * (Y / X) - (B - B2R xs) / X * Y) with (((B2R bs - B2R xs) - (B - B2R xs)) * (Y / X)) by (field; exact X0). rewrite Rabs_mult, SL. apply Rmult_le_compat_r; lra. }
  assert (WB : Rabs (B2R w) <= 3 * Rabs Y).
  { replace (B2R w) with ((B2R bs - B2R xs) * (Y / X) + (B2R w - (B2R bs - B2R xs) * (Y / X))) by ring. apply Rle_trans with (1 := Rabs_triang _ _). assert (20 * u * Rabs Y <= 1 * Rabs Y) by (apply Rmult_le_compat_r; lra). lra. }
  change (bp 40) with 1099511627776 in *. change (bp 41) with 2199023255552. change (bp 11) with 2048 in *.
  split; [exact F|]. split; [lra|].
  assert (SB : Rabs (B2R ys + B2R w) <= 3 * S'). { apply Rle_trans with (1 := Rabs_triang _ _). assert (0 <= Rabs (B2R ys)) by apply Rabs_pos. lra. }
  split; [|assert (0 <= Rabs (B2R ys)) by apply Rabs_pos; apply Rle_trans with (1 := Rabs_triang _ _); lra].
  assert (RE := rnd_err (B2R ys + B2R w)). assert (T := tiny_100). assert (TB : bp (-100) <= / 1024 * bp (-48)) by (change (/ 1024) with (bp (-10)); rewrite <- bpow_plus; apply bpow_le; lia).
  replace (rnd (B2R ys + B2R w) - (B2R ys + (B - B2R xs) / X * Y)) with ((rnd (B2R ys + B2R w) - (B2R ys + B2R w)) + (B2R w - (B2R bs - B2R xs) * (Y / X)) + ((B2R bs - B2R xs) * (Y / X) - (B - B2R xs) / X * Y)) by ring.
  apply Rle_trans with (1 := Rabs_triang _ _). assert (T2 := Rabs_triang (rnd (B2R ys + B2R w) - (B2R ys + B2R w)) (B2R w - (B2R bs - B2R xs) * (Y / X))).
  assert (UR : u * Rabs (B2R ys + B2R w) <= 3 * (u * S')) by (replace (3 * (u * S')) with (u * (3 * S')) by ring; apply Rmult_le_compat_l; lra).
  assert (YS : Rabs Y <= S') by (assert (0 <= Rabs (B2R ys)) by apply Rabs_pos; lra).
  assert (UY : 20 * u * Rabs Y <= 20 * (u * S')) by (replace (20 * (u * S')) with (20 * u * S') by ring; apply Rmult_le_compat_l; lra).
  assert (MS : 0 <= m * sl) by (apply Rmult_le_pos; lra). lra.
Qed.

Theorem cross_add : forall w, step w -> fin (b64_add ys w) /\ Rabs (B2R (b64_add ys w) - (B2R ys + (B - B2R xs) / X * Y)) <= m / 64 * (1 + Rabs Y / Rabs X).
Proof.
  intros w H. destruct (cross_any w H) as (F & _ & E & L). destruct (add_ok ys w Fys F) as (F2 & E2); [apply Rle_trans with (1 := L), bpow_le; lia|]. split; [exact F2|]. now rewrite E2.
Qed.
Theorem cross_sub : forall w w', step w -> fin w' -> B2R w' = - B2R w -> fin (b64_sub ys w') /\ Rabs (B2R (b64_sub ys w') - (B2R ys + (B - B2R xs) / X * Y)) <= m / 64 * (1 + Rabs Y / Rabs X).
Proof.
  intros w w' H F' EW. destruct (cross_any w H) as (F & _ & E & L). assert (EQ : B2R ys - B2R w' = B2R ys + B2R w) by lra.
  destruct (sub_ok ys w' Fys F') as (F2 & E2); [rewrite EQ; apply Rle_trans with (1 := L), bpow_le; lia|]. split; [exact F2|]. now rewrite E2, EQ.
Qed.
(** The negated difference, times the slope *)
Lemma by_mult_opp : forall v v', minus v bs xs -> fin v' -> B2R v' = - B2R v ->
  fin (b64_mul v' (b64_div (b64_sub ye ys) (b64_sub xe xs))) /\ B2R (b64_mul v' (b64_div (b64_sub ye ys) (b64_sub xe xs))) = - B2R (b64_mul v (b64_div (b64_sub ye ys) (b64_sub xe xs))).
Proof.
  intros v v' HV F' E'. assert (G := diffs v HV). set (a := b64_div (b64_sub ye ys) (b64_sub xe xs)).
  assert (GA := analysed _ _ _ _ (Di (V 2) (V 1)) _ G eq_refl). cbn [eb er em nth] in GA. fold a in GA.
  assert (GV := analysed _ _ _ _ (V 0) _ G eq_refl). cbn [eb er em nth] in GV.
  assert (SA : fin a /\ Rabs (B2R a) <= bp 100).
  { destruct GA as ((F & (K1 & K2) & S1 & E) & (_ & R) & _). split; [exact F|]. cbn [s_hi s_lo s_k] in *. change (bp 100) with (bp (64 + 36)). set (M := Rabs Y / Rabs X) in *. set (Z := Y / X) in *.
    replace (B2R a) with (Z + (B2R a - Z)) by ring. apply Rle_trans with (1 := Rabs_triang _ _). assert (0 <= M) by (apply Rle_trans with (2 := S1); apply Rabs_pos).
    assert (UP := u_pos). match type of K2 with ?k * u <= _ => assert (k * u * M <= / 1024 * M) by (apply Rmult_le_compat_r; lra) end.
    match type of R with _ <= bp ?h => assert (R' : bp h <= bp 99) by (apply bpow_le; lia) end. change (bp (64 + 36)) with (bp (1 + 99)). rewrite bpow_plus. change (bp 1) with 2. lra. }
  assert (SV : fin v /\ Rabs (B2R v) <= bp 100).
  { destruct GV as ((F & (K1 & K2) & S1 & E) & (_ & R) & _). split; [exact F|]. cbn [s_hi s_lo s_k] in *. set (M := Rabs (B2R bs - B2R xs)) in *. set (Z := B2R bs - B2R xs) in *.
    replace (B2R v) with (Z + (B2R v - Z)) by ring. apply Rle_trans with (1 := Rabs_triang _ _). assert (0 <= M) by apply Rabs_pos.
    assert (UP := u_pos). match type of K2 with ?k * u <= _ => assert (k * u * M <= / 1024 * M) by (apply Rmult_le_compat_r; lra) end.
    match type of R with _ <= bp ?h => assert (R' : bp h <= bp 99) by (apply bpow_le; lia) end. change (bp 100) with (bp (1 + 99)). rewrite bpow_plus. change (bp 1) with 2. change (Rabs Z) with M. lra. }
  destruct SA as (FA & BA). destruct SV as (FV & BV).
  assert (L : Rabs (B2R v * B2R a) <= bp 1023). { rewrite Rabs_mult. apply Rle_trans with (bp 100 * bp 100); [apply Rmult_le_compat; try apply Rabs_pos; assumption|]. rewrite <- bpow_plus. apply bpow_le. lia. }
  destruct (mul_ok v a FV FA L) as (F1 & E1). destruct (mul_ok v' a F' FA) as (F2 & E2); [rewrite E', Ropp_mult_distr_l_reverse, Rabs_Ropp; exact L|].
  split; [exact F2|]. rewrite E2, E1, E', Ropp_mult_distr_l_reverse. apply rnd_opp.
Qed.
End Cross.
