(** One axis of the grid in binary64: cell length, walls, cells, displacement, distance to the axis. *)
From Coq Require Import ZArith Reals Lra Lia Psatz Bool.
From Flocq Require Import Core IEEE754.BinarySingleNaN.
From Verif.Lib Require Import RAux.
From Verif.Model Require Import Binary64 Temperature64 Arith GenCode.
From Verif.Proof Require Import Binary64P FloatP Motion64R.
Local Open Scope R_scope.

Lemma bp_m30 : bp (-30) = / 1073741824. Proof. cbn. lra. Qed.
Lemma bp_20 : bp 20 = 1048576. Proof. cbn. lra. Qed.
Lemma bp_21 : bp 21 = 2097152. Proof. cbn. lra. Qed.
Lemma bp_22 : bp 22 = 4194304. Proof. cbn. lra. Qed.
Lemma bp_10 : bp 10 = 1024. Proof. cbn. lra. Qed.
Lemma tiny_small : tiny <= bp (-1000).
Proof. apply bpow_le. lia. Qed.
Lemma tiny_100 : tiny <= bp (-100).
Proof. apply bpow_le. lia. Qed.
Lemma bp_m100 : bp (-100) = / 1267650600228229401496703205376.
Proof. cbn. lra. Qed.

Record axis (n : Z) (size d : b64) : Prop := Axis {
  ax_n : (3 <= n <= 2 ^ 20)%Z;
  ax_fin : fin size;
  ax_d : d = b64_div size (b64_of_Z (n - 1));
  ax_lo : bp (-30) <= B2R d;
  ax_hi : B2R d <= bp 10 }.

Section Axis.
Variables (n : Z) (size d : b64).
Hypothesis AX : axis n size d.

Definition len : R := B2R d.
Definition q : R := len * bp (-30).
Definition top : R := IZR (n - 1) * len.
Definition wall : R := top - len / 2.

Lemma len_lo : / 1073741824 <= len. Proof. rewrite <- bp_m30. apply AX. Qed.
Lemma len_hi : len <= 1024. Proof. rewrite <- bp_10. apply AX. Qed.
Lemma len_pos : 0 < len. Proof. assert (L := len_lo). lra. Qed.
Lemma q_eq : q = len / 1073741824. Proof. unfold q. rewrite bp_m30. unfold Rdiv. reflexivity. Qed.
Lemma q_bounds : 0 < q <= len / 1000000.
Proof. rewrite q_eq. assert (L := len_pos). split; lra. Qed.
Lemma n_bounds : 2 <= IZR (n - 1) <= 1048575.
Proof. destruct (ax_n _ _ _ AX) as (A & B). split; apply IZR_le; cbn in B; lia. Qed.
Lemma wall_lo : 3 / 2 * len <= wall.
Proof. unfold wall, top. assert (N := n_bounds). assert (L := len_pos). nra. Qed.
Lemma top_hi : top <= 1048575 * len.
Proof. unfold top. assert (N := n_bounds). assert (L := len_pos). nra. Qed.

Lemma fin_d : fin d.
Proof.
  assert (L := len_pos). unfold len in L. destruct d as [s|s| |s m e He]; try reflexivity; cbn in L; lra.
Qed.

(** Rounding a number of the size of the tube *)
Lemma rnd_q : forall x, Rabs x <= 4194304 * len -> Rabs (rnd x - x) <= q.
Proof.
  intros x H. apply Rle_trans with (1 := rnd_err x). assert (T := tiny_100). rewrite bp_m100 in T. rewrite u_val, q_eq.
  assert (L := len_lo). lra.
Qed.

Lemma small_fits : forall x, Rabs x <= 4194304 * len -> Rabs x <= bp 1023.
Proof.
  intros x H. apply Rle_trans with (1 := H). apply Rle_trans with (bp 32); [|apply bpow_le; lia].
  assert (L := len_hi). change (bp 32) with 4294967296. lra.
Qed.

Lemma add_q : forall x y : b64, fin x -> fin y -> Rabs (B2R x + B2R y) <= 4194304 * len ->
  fin (b64_add x y) /\ Rabs (B2R (b64_add x y) - (B2R x + B2R y)) <= q.
Proof. intros x y Fx Fy H. destruct (add_ok x y Fx Fy (small_fits _ H)) as (F & E). rewrite E. split; [exact F|now apply rnd_q]. Qed.
Lemma sub_q : forall x y : b64, fin x -> fin y -> Rabs (B2R x - B2R y) <= 4194304 * len ->
  fin (b64_sub x y) /\ Rabs (B2R (b64_sub x y) - (B2R x - B2R y)) <= q.
Proof. intros x y Fx Fy H. destruct (sub_ok x y Fx Fy (small_fits _ H)) as (F & E). rewrite E. split; [exact F|now apply rnd_q]. Qed.
Lemma mul_q : forall x y : b64, fin x -> fin y -> Rabs (B2R x * B2R y) <= 4194304 * len ->
  fin (b64_mul x y) /\ Rabs (B2R (b64_mul x y) - (B2R x * B2R y)) <= q.
Proof. intros x y Fx Fy H. destruct (mul_ok x y Fx Fy (small_fits _ H)) as (F & E). rewrite E. split; [exact F|now apply rnd_q]. Qed.

Lemma two : fin (b64_of_Z 2) /\ B2R (b64_of_Z 2) = 2.
Proof. now apply of_Z_exact. Qed.

Definition hd : b64 := b64_div d (b64_of_Z 2).
Definition wf : b64 := b64_sub size hd.
Definition wx2 : b64 := b64_mul wf (b64_of_Z 2).

Lemma hd_ok : fin hd /\ Rabs (B2R hd - len / 2) <= q.
Proof.
  destruct two as (F2 & E2). assert (L := len_pos). assert (S : Rabs (B2R d / 2) <= 4194304 * len) by (unfold len in *; rewrite Rabs_pos_eq; lra).
  destruct (div_ok d (b64_of_Z 2) fin_d) as (F & E); [rewrite E2; lra|rewrite E2; now apply small_fits|].
  split; [exact F|]. unfold hd. rewrite E, E2. now apply rnd_q.
Qed.

Lemma size_ok : Rabs (B2R size - top) <= q.
Proof.
  assert (NB := n_bounds). destruct (of_Z_exact (n - 1)) as (FN & EN).
  { destruct (ax_n _ _ _ AX). cbn in *. lia. }
  assert (L := len_pos). assert (Ed := ax_d _ _ _ AX).
  set (r := B2R size / IZR (n - 1)).
  assert (DD : len = rnd r).
  { unfold len. assert (C := Bdiv_correct prec64 emax64 _ _ mode_NE size (b64_of_Z (n - 1)) ltac:(rewrite EN; lra)). rewrite EN in C.
    change (round radix2 (SpecFloat.fexp prec64 emax64) (round_mode mode_NE) (B2R size / IZR (n - 1))) with (rnd r) in C.
    destruct (Rlt_bool_spec (Rabs (rnd r)) (bp emax64)) as [H|H].
    - rewrite Ed. unfold b64_div. apply C.
    - exfalso. unfold len in L. rewrite Ed in L. unfold b64_div in L. destruct (Bdiv mode_NE size (b64_of_Z (n - 1))) as [s|s| |s m e He]; cbn in L, C; try lra.
      unfold binary_overflow in C. cbn in C. discriminate. }
  assert (E := rnd_err r). rewrite <- DD in E. apply Rabs_le_inv in E. assert (T := tiny_100). rewrite bp_m100 in T. rewrite u_val in E.
  assert (LL := len_lo). assert (RB : Rabs r <= 2 * len).
  { unfold Rabs in *. destruct (Rcase_abs r); lra. }
  replace (B2R size) with (IZR (n - 1) * r) by (unfold r; field; lra). unfold top. rewrite <- Rmult_minus_distr_l, Rabs_mult, (Rabs_pos_eq (IZR (n - 1))) by lra.
  apply Rle_trans with (1048575 * Rabs (r - len)); [apply Rmult_le_compat_r; [apply Rabs_pos|lra]|]. rewrite q_eq.
  assert (Rabs (r - len) <= / 9007199254740992 * (2 * len) + tiny) by (apply Rabs_le; lra). lra.
Qed.

Lemma wf_ok : fin wf /\ Rabs (B2R wf - wall) <= 3 * q.
Proof.
  destruct hd_ok as (FH & H). assert (S := size_ok). assert (QB := q_bounds). assert (W := wall_lo). assert (T := top_hi). apply Rabs_le_inv in H, S.
  destruct (sub_q size hd (ax_fin _ _ _ AX) FH) as (F & E); [apply Rabs_le; unfold wall in W; lra|].
  split; [exact F|]. apply Rabs_le_inv in E. unfold wf, wall. apply Rabs_le. lra.
Qed.

Lemma wx2_ok : fin wx2 /\ Rabs (B2R wx2 - 2 * wall) <= 7 * q.
Proof.
  destruct wf_ok as (FW & W). destruct two as (F2 & E2). apply Rabs_le_inv in W. assert (QB := q_bounds). assert (T := top_hi). assert (W0 := wall_lo). assert (L := len_pos).
  destruct (mul_q wf (b64_of_Z 2) FW F2) as (F & E); [rewrite E2; apply Rabs_le; unfold wall in *; lra|].
  split; [exact F|]. rewrite E2 in E. apply Rabs_le_inv in E. unfold wx2. apply Rabs_le. lra.
Qed.

(** ** Cells *)

Lemma quot : forall x : b64, fin x -> Rabs (B2R x) <= 4194304 * len ->
  fin (b64_div x d) /\ B2R (b64_div x d) = rnd (B2R x / len) /\ Rabs (rnd (B2R x / len) - B2R x / len) <= / 1000000.
Proof.
  intros x Fx H. assert (L := len_pos).
  assert (B : Rabs (B2R x / len) <= 4194304).
  { unfold Rdiv. rewrite Rabs_mult, Rabs_inv, (Rabs_pos_eq len) by lra. apply Rmult_le_reg_r with len; [exact L|]. rewrite Rmult_assoc, Rinv_l by lra. lra. }
  destruct (div_ok x d Fx) as (F & E); [unfold len in L; lra| |].
  - apply Rle_trans with (1 := B). apply Rle_trans with (bp 23); [cbn; lra|apply bpow_le; lia].
  - split; [exact F|]. split; [exact E|]. apply Rle_trans with (1 := rnd_err _). rewrite u_val. assert (T := tiny_100). rewrite bp_m100 in T. lra.
Qed.

Variables pw lg : b64 -> b64.
Notation cell64 := (gcell (b64_arith pw lg)).

Lemma cell64_eq : forall x : b64, cell64 x d = Z.max 0 (Zceil (B2R (b64_div x d)) - 1).
Proof.
  intro x. unfold gcell, gCELL_NUMBER. change (div (b64_arith pw lg) x d) with (b64_div x d).
  change (ceil_int (b64_arith pw lg) (b64_div x d)) with (b64_ceil_int (b64_div x d)). rewrite ceil_ok.
  destruct (Z.ltb_spec (Zceil (B2R (b64_div x d)) - 1) 0); lia.
Qed.

Lemma cell64_le : forall (x : b64) m, fin x -> Rabs (B2R x) <= 4194304 * len -> (1 <= m < 2 ^ 53)%Z -> B2R x <= IZR m * len -> (cell64 x d <= m - 1)%Z.
Proof.
  intros x m Fx Hx Hm H. destruct (quot x Fx Hx) as (_ & E & _). rewrite cell64_eq, E. assert (L := len_pos).
  assert (K : rnd (B2R x / len) <= IZR m).
  { rewrite <- (rnd_exact_Z m) by lia. apply rnd_mono. apply Rmult_le_reg_r with len; [exact L|]. unfold Rdiv. rewrite Rmult_assoc, Rinv_l by lra. lra. }
  assert (Z := Zceil_glb m _ K). lia.
Qed.

Lemma cell64_top : forall x : b64, fin x -> 0 <= B2R x <= top -> (cell64 x d <= n - 2)%Z.
Proof.
  intros x Fx H. assert (T := top_hi). assert (L := len_pos). replace (n - 2)%Z with (n - 1 - 1)%Z by lia.
  apply cell64_le; [exact Fx|rewrite Rabs_pos_eq; lra|destruct (ax_n _ _ _ AX); cbn in *; lia|apply H].
Qed.

Lemma cell64_near : forall x y : b64, fin x -> fin y -> Rabs (B2R x) <= 4194304 * len -> Rabs (B2R y) <= 4194304 * len ->
  Rabs (B2R x - B2R y) <= 98 / 100 * len -> (-1 <= cell64 x d - cell64 y d <= 1)%Z.
Proof.
  intros x y Fx Fy Hx Hy H. destruct (quot x Fx Hx) as (_ & Ex & Ax). destruct (quot y Fy Hy) as (_ & Ey & Ay).
  rewrite !cell64_eq, Ex, Ey. assert (L := len_pos). apply Rabs_le_inv in Ax, Ay, H.
  assert (D : -98 / 100 <= B2R x / len - B2R y / len <= 98 / 100).
  { replace (B2R x / len - B2R y / len) with ((B2R x - B2R y) / len) by (field; lra).
    assert (M : (B2R x - B2R y) / len * len = B2R x - B2R y) by (field; lra). split; apply Rmult_le_reg_r with len; try exact L; rewrite M; lra. }
  assert (K : forall a b, a <= b + 1 -> (Zceil a <= Zceil b + 1)%Z).
  { intros a b Hab. apply Zceil_glb. rewrite plus_IZR. assert (Z := Zceil_ub b). lra. }
  assert (K1 := K (rnd (B2R x / len)) (rnd (B2R y / len)) ltac:(lra)). assert (K2 := K (rnd (B2R y / len)) (rnd (B2R x / len)) ltac:(lra)). lia.
Qed.

Lemma cell64_pos : forall x : b64, fin x -> Rabs (B2R x) <= 4194304 * len -> (1 <= cell64 x d)%Z <-> len < B2R x.
Proof.
  intros x Fx Hx. destruct (quot x Fx Hx) as (_ & Ex & _). rewrite cell64_eq, Ex. assert (L := len_pos). split; intro H.
  - destruct (Rlt_dec len (B2R x)) as [K|K]; [exact K|]. exfalso.
    assert (K1 : rnd (B2R x / len) <= 1).
    { rewrite <- (rnd_exact_Z 1) by reflexivity. apply rnd_mono. apply Rmult_le_reg_r with len; [exact L|]. unfold Rdiv. rewrite Rmult_assoc, Rinv_l by lra. lra. }
    assert (K2 := Zceil_glb 1 _ K1). lia.
  - assert (K : 1 < rnd (B2R x / len)).
    { unfold len in *. apply quot_gt_one; [|exact H]. apply Rle_trans with (bp (-30)); [apply bpow_le; lia|apply AX]. }
    assert (K2 : (1 < Zceil (rnd (B2R x / len)))%Z). { apply lt_IZR. apply Rlt_le_trans with (1 := K). apply Zceil_ub. } lia.
Qed.

(** ** Displacement in half a step *)

Lemma half_move : forall (x v dt : b64), fin x -> fin v -> fin dt -> Rabs (B2R x) <= 2097152 * len -> Rabs (B2R v) <= bp 30 -> 0 < B2R dt ->
  Rabs (B2R v) * B2R dt <= 81 / 100 * len ->
  let x' := b64_add x (b64_mul v (b64_div dt (b64_of_Z 2))) in
  fin x' /\ Rabs (B2R x' - (B2R x + B2R v * (B2R dt / 2))) <= 3 * q.
Proof.
  intros x v dt Fx Fv Fd Hx Hv Pt H x'. destruct two as (F2 & E2). assert (QB := q_bounds). assert (L := len_pos).
  assert (MD : B2R dt < bp emax64). { apply Rle_lt_trans with (1 := Rle_abs _). apply abs_B2R_lt_emax. }
  assert (B23 : bp emax64 = 2 * bp 1023) by (change emax64 with (1023 + 1)%Z; apply bp_succ).
  destruct (div_ok dt (b64_of_Z 2) Fd) as (FH & EH); [rewrite E2; lra|rewrite E2; rewrite Rabs_pos_eq; lra|].
  rewrite E2 in EH. set (h := b64_div dt (b64_of_Z 2)) in *.
  assert (ER := rnd_err (B2R dt / 2)). rewrite <- EH, (Rabs_pos_eq (B2R dt / 2)) in ER by lra.
  assert (VT : Rabs (B2R v * B2R h - B2R v * (B2R dt / 2)) <= len / 10 ^ 15).
  { rewrite <- Rmult_minus_distr_l, Rabs_mult.
    apply Rle_trans with (Rabs (B2R v) * (u * (B2R dt / 2) + tiny)); [apply Rmult_le_compat_l; [apply Rabs_pos|exact ER]|].
    rewrite Rmult_plus_distr_l. assert (T1 : Rabs (B2R v) * tiny <= bp (-120)).
    { apply Rle_trans with (bp 30 * bp (-1000)); [apply Rmult_le_compat; [apply Rabs_pos|left; apply tiny_pos|exact Hv|apply tiny_small]|].
      rewrite <- bpow_plus. apply bpow_le. lia. }
    change (bp (-120)) with (/ 1329227995784915872903807060280344576) in T1.
    assert (LL := len_lo). rewrite u_val.
    assert (Rabs (B2R v) * (/ 9007199254740992 * (B2R dt / 2)) = / 9007199254740992 * (Rabs (B2R v) * B2R dt) / 2) by field. rewrite H0. cbn [pow]. lra. }
  assert (VH : Rabs (B2R v * B2R h) <= 41 / 100 * len).
  { replace (B2R v * B2R h) with (B2R v * (B2R dt / 2) + (B2R v * B2R h - B2R v * (B2R dt / 2))) by ring.
    apply Rle_trans with (1 := Rabs_triang _ _). assert (Rabs (B2R v * (B2R dt / 2)) <= 405 / 1000 * len).
    { rewrite Rabs_mult, (Rabs_pos_eq (B2R dt / 2)) by lra. lra. }
    cbn [pow] in VT. lra. }
  destruct (mul_q v h Fv FH) as (FM & EM); [lra|].
  apply Rabs_le_inv in EM, VT, VH, Hx.
  destruct (add_q x (b64_mul v h) Fx FM) as (FA & EA); [apply Rabs_le; lra|].
  split; [exact FA|]. apply Rabs_le_inv in EA. unfold x'. apply Rabs_le. rewrite q_eq in *. cbn [pow] in VT. lra.
Qed.

(** ** Distance to the axis *)

Lemma distance : forall x y : b64, fin x -> fin y -> Rabs (B2R x) <= 1500000 * len -> Rabs (B2R y) <= len -> len / 100 <= Rabs (B2R x) ->
  let r := b64_sqrt (b64_add (b64_mul x x) (b64_mul y y)) in
  fin r /\ Rabs (B2R r - sqrt (B2R x * B2R x + B2R y * B2R y)) <= 4 * q.
Proof.
  intros x y Fx Fy Hx Hy Lx r. assert (L := len_pos). assert (LL := len_lo). assert (LH := len_hi).
  set (X := B2R x * B2R x). set (Y := B2R y * B2R y).
  assert (XE : Rabs (B2R x) * Rabs (B2R x) = X) by (unfold X, Rabs; destruct (Rcase_abs (B2R x)); ring).
  assert (YE : Rabs (B2R y) * Rabs (B2R y) = Y) by (unfold Y, Rabs; destruct (Rcase_abs (B2R y)); ring).
  assert (X0 : len / 100 * (len / 100) <= X <= 1500000 * len * (1500000 * len)).
  { rewrite <- XE. split; apply Rmult_le_compat; try lra; apply Rabs_pos. }
  assert (Y0 : 0 <= Y <= len * len). { rewrite <- YE. assert (P := Rabs_pos (B2R y)). split; [nra|apply Rmult_le_compat; lra]. }
  assert (LL2 : len * len <= 1024 * 1024) by (apply Rmult_le_compat; lra).
  assert (BB : forall z, 0 <= z <= 3 * 10 ^ 18 -> Rabs z <= bp 1023).
  { intros z Hz. rewrite Rabs_pos_eq by apply Hz. apply Rle_trans with (bp 62); [|apply bpow_le; lia]. change (bp 62) with 4611686018427387904. cbn [pow] in Hz. lra. }
  assert (LS : len / 100 * (len / 100) = len * len / 10000) by field.
  assert (T0 : tiny <= / 10 ^ 16 * (len * len / 10000)).
  { assert (T := tiny_small). assert (/ 1073741824 * / 1073741824 <= len * len) by (apply Rmult_le_compat; lra).
    assert (bp (-1000) <= bp (-130)) by (apply bpow_le; lia). change (bp (-130)) with (/ 1361129467683753853853498429727072845824) in H0. cbn [pow]. lra. }
  assert (TP := tiny_pos). cbn [pow] in T0.
  destruct (mul_ok x x Fx Fx) as (F1 & E1); [fold X; apply BB; cbn [pow]; lra|].
  destruct (mul_ok y y Fy Fy) as (F2 & E2); [fold Y; apply BB; cbn [pow]; lra|].
  fold X in E1. fold Y in E2. assert (R1 := rnd_err X). assert (R2 := rnd_err Y). rewrite <- E1 in R1. rewrite <- E2 in R2.
  rewrite (Rabs_pos_eq X) in R1 by lra. rewrite (Rabs_pos_eq Y) in R2 by lra. rewrite u_val in R1, R2. apply Rabs_le_inv in R1, R2.
  destruct (add_ok (b64_mul x x) (b64_mul y y) F1 F2) as (F3 & E3); [apply BB; cbn [pow]; lra|].
  assert (R3 := rnd_err (B2R (b64_mul x x) + B2R (b64_mul y y))). rewrite <- E3 in R3.
  rewrite (Rabs_pos_eq (B2R (b64_mul x x) + B2R (b64_mul y y))) in R3 by lra. rewrite u_val in R3. apply Rabs_le_inv in R3.
  set (S := B2R (b64_add (b64_mul x x) (b64_mul y y))) in *.
  assert (SS : Rabs (S - (X + Y)) <= / 10 ^ 15 * (X + Y)) by (cbn [pow]; apply Rabs_le; lra).
  assert (S0 : 0 <= S) by (cbn [pow] in SS; apply Rabs_le_inv in SS; lra).
  destruct (sqrt_ok _ F3 S0) as (F4 & E4). fold S in E4. fold r in F4, E4.
  set (H := sqrt (X + Y)).
  assert (HP : 0 <= H) by apply sqrt_pos. assert (HS : H * H = X + Y) by (apply sqrt_sqrt; lra).
  assert (RP : 0 <= sqrt S) by apply sqrt_pos. assert (RS : sqrt S * sqrt S = S) by now apply sqrt_sqrt.
  assert (HU : H <= 1500002 * len). { apply sq_le_inv; [lra|]. rewrite HS. assert (0 < len * len) by now apply Rmult_lt_0_compat. lra. }
  assert (HL : len / 100 <= H). { apply sq_le_inv; [lra|]. rewrite HS. lra. }
  assert (DH : Rabs (sqrt S - H) <= / 10 ^ 15 * H).
  { assert (K : (sqrt S - H) * (sqrt S + H) = S - (X + Y)) by (transitivity (sqrt S * sqrt S - H * H); [ring|now rewrite RS, HS]).
    assert (K2 : Rabs (sqrt S - H) * (sqrt S + H) <= / 10 ^ 15 * (X + Y)).
    { rewrite <- (Rabs_pos_eq (sqrt S + H)) by lra. rewrite <- Rabs_mult, K. exact SS. }
    rewrite <- HS in K2. assert (P := Rabs_pos (sqrt S - H)). apply Rmult_le_reg_r with H; [lra|]. cbn [pow] in *. nra. }
  split; [exact F4|]. rewrite E4. fold X Y. fold H.
  assert (R4 : Rabs (sqrt S) <= 4194304 * len). { rewrite Rabs_pos_eq by exact RP. cbn [pow] in DH. apply Rabs_le_inv in DH. lra. }
  assert (R5 := rnd_q _ R4). apply Rabs_le_inv in R5, DH. cbn [pow] in DH. apply Rabs_le. rewrite q_eq in *. lra.
Qed.

End Axis.
