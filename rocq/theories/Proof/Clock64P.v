(** The clock and the injection of bunches in binary64. *)
From Coq Require Import ZArith Reals Lra Lia Psatz Bool List.
From Flocq Require Import Core IEEE754.BinarySingleNaN.
From Verif.Lib Require Import RAux Outcome.
From Verif.Model Require Import Binary64 Temperature64 Arith Geometry Fields Pusher GenCode GenRun GenSim.
From Verif.Spec Require Import Double.
From Verif.Proof Require Import Binary64P FloatP Push64P.
Local Open Scope R_scope.

Lemma div_nonneg : forall a b, 0 <= a -> 0 < b -> 0 <= a / b.
Proof. intros a b Ha Hb. apply Rmult_le_pos; [exact Ha|]. now apply Rlt_le, Rinv_0_lt_compat. Qed.

Lemma ni_mul : forall x y : b64, fin x -> 0 <= B2R x -> fin y -> 0 <= B2R y -> ni (b64_mul x y) \/ B2R (b64_mul x y) = 0 /\ fin (b64_mul x y).
Proof.
  intros x y Fx Px Fy Py. destruct (Rle_dec (B2R x * B2R y) 0) as [Z|Z].
  - right. assert (E : B2R x * B2R y = 0) by (assert (PP := Rmult_le_pos _ _ Px Py); lra).
    destruct (mul_ok x y Fx Fy) as (F & V); [rewrite E, Rabs_R0; apply bpow_ge_0|]. rewrite V, E, rnd_0. split; [reflexivity|exact F].
  - left. assert (C := Bmult_correct prec64 emax64 _ _ mode_NE x y). unfold b64_mul.
    destruct (Rlt_bool_spec (Rabs (round radix2 (SpecFloat.fexp prec64 emax64) (round_mode mode_NE) (B2R x * B2R y))) (bpow radix2 emax64)) as [L|L].
    + destruct C as (V & F & _). left. split; [rewrite Fx, Fy in F; exact F|]. rewrite V. apply rnd_nonneg. lra.
    + right. assert (P : 0 < B2R x) by (destruct (Rle_lt_or_eq_dec _ _ Px) as [P|P]; [exact P|rewrite <- P in Z; lra]).
      assert (Q : 0 < B2R y) by (destruct (Rle_lt_or_eq_dec _ _ Py) as [Q|Q]; [exact Q|rewrite <- Q in Z; lra]).
      assert (Sx : Bsign x = false) by (destruct x as [[]|[]| |[]]; try reflexivity; cbn in P; try lra; exfalso; revert P; apply Rle_not_lt; apply F2R_le_0; cbn; lia).
      assert (Sy : Bsign y = false) by (destruct y as [[]|[]| |[]]; try reflexivity; cbn in Q; try lra; exfalso; revert Q; apply Rle_not_lt; apply F2R_le_0; cbn; lia).
      rewrite Sx, Sy in C. cbn in C. destruct (Bmult mode_NE x y) as [|[]| |]; try discriminate; reflexivity.
Qed.
Lemma ni_mul' : forall x y : b64, fin x -> 0 <= B2R x -> fin y -> 0 <= B2R y -> ni (b64_mul x y).
Proof. intros x y Fx Px Fy Py. destruct (ni_mul x y Fx Px Fy Py) as [H|(E & F)]; [exact H|]. left. split; [exact F|lra]. Qed.

Section Clock.
Variables pw lg : b64 -> b64.
Notation A := (b64_arith pw lg).
Variable c : config A.
Notation dt := (c_dt A c : b64).
Hypothesis Fdt : fin dt.
Hypothesis Hdt : bp (-300) <= B2R dt <= 1.
Notation d := (B2R dt).

Lemma d_pos : 0 < d. Proof. assert (H := bpow_gt_0 radix2 (-300)). lra. Qed.
Lemma tiny_d : tiny <= u * d.
Proof. apply Rle_trans with (u * bp (-300)); [|apply Rmult_le_compat_l; [apply bpow_ge_0|lra]]. unfold u, tiny. rewrite <- bpow_plus. apply bpow_le. lia. Qed.

Definition in_range (t : b64) : Prop := fin t /\ 0 <= B2R t <= bp 30 * d.

Lemma bp30_val : bp 30 = 1073741824. Proof. reflexivity. Qed.

(** One tick *)
Lemma tick : forall t : b64, in_range t -> fin (b64_add t dt) /\ B2R t + d - d / 4000000 <= B2R (b64_add t dt).
Proof.
  intros t (F & H). assert (D := d_pos). assert (TD := tiny_d). rewrite bp30_val in H. rewrite u_val in TD.
  destruct (add_ok t dt F Fdt) as (FA & E); [cbn [num b64_arith] in *; rewrite Rabs_pos_eq by lra; apply Rle_trans with (bp 31); [change (bp 31) with 2147483648; lra|apply bpow_le; lia]|].
  split; [exact FA|]. assert (R := rnd_err (B2R t + d)). rewrite <- E, u_val, (Rabs_pos_eq (B2R t + d)) in R by lra. apply Rabs_le_inv in R. lra.
Qed.

(** The number of the first particle *)
Definition place_of (t b : b64) (per : Z) : b64 := b64_mul (b64_div (b64_sub t b) dt) (b64_of_Z per).

Lemma place_near : forall t b per, in_range t -> fin b -> 0 <= B2R b <= B2R t -> (0 <= per < 2 ^ 53)%Z ->
  0 <= B2R (place_of t b per) /\ Rabs (B2R (place_of t b per) - IZR per * ((B2R t - B2R b) / d)) <= IZR per / 1000000.
Proof.
  intros t b per (F & H) FB HB PR. assert (D := d_pos). assert (TD := tiny_d). rewrite bp30_val in H. unfold place_of.
  set (w := B2R t - B2R b). assert (W : 0 <= w <= 1073741824 * d) by (unfold w; lra).
  destruct (sub_ok t b F FB) as (F1 & E1); [fold w; cbn [num b64_arith] in *; rewrite Rabs_pos_eq by lra; apply Rle_trans with (bp 31); [change (bp 31) with 2147483648; lra|apply bpow_le; lia]|].
  fold w in E1. set (s := b64_sub t b) in *. clearbody s. assert (R1 := rnd_err w). rewrite <- E1, (Rabs_pos_eq w), u_val in R1 by lra. rewrite u_val in TD.
  assert (S0 : 0 <= B2R s) by (rewrite E1; apply rnd_nonneg; lra). apply Rabs_le_inv in R1.
  assert (WD : 0 <= w / d <= 1073741824). { split; [apply div_nonneg; lra|]. apply Rmult_le_reg_r with d; [exact D|]. unfold Rdiv. rewrite Rmult_assoc, Rinv_l by lra. lra. }
  assert (SD : Rabs (B2R s / d - w / d) <= 1 / 8000000).
  { replace (B2R s / d - w / d) with ((B2R s - w) / d) by (field; lra). unfold Rdiv at 1. rewrite Rabs_mult, Rabs_inv, (Rabs_pos_eq d) by lra.
    apply Rmult_le_reg_r with d; [exact D|]. rewrite Rmult_assoc, Rinv_l, Rmult_1_r by lra. apply Rabs_le. lra. }
  assert (SD0 : 0 <= B2R s / d) by (apply div_nonneg; lra). apply Rabs_le_inv in SD.
  destruct (div_ok s dt F1) as (F2 & E2); [lra|cbn [num b64_arith] in *; rewrite Rabs_pos_eq by lra; apply Rle_trans with (bp 31); [change (bp 31) with 2147483648; lra|apply bpow_le; lia]|].
  set (r := b64_div s dt) in *. clearbody r. assert (R2 := rnd_err (B2R s / d)). rewrite <- E2, (Rabs_pos_eq (B2R s / d)), u_val in R2 by lra.
  assert (T1 : tiny <= / 9007199254740992) by (lra). apply Rabs_le_inv in R2.
  assert (R0 : 0 <= B2R r) by (rewrite E2; apply rnd_nonneg; lra).
  destruct (of_Z_exact per) as (FP & EP); [lia|]. assert (PN : 0 <= IZR per) by (apply IZR_le; lia).
  assert (PU : IZR per <= 9007199254740992) by (apply IZR_le; lia).
  assert (RU : B2R r <= 1073741826) by lra.
  assert (RP : 0 <= B2R r * IZR per) by (apply Rmult_le_pos; lra).
  destruct (mul_ok r (b64_of_Z per) F2 FP) as (F3 & E3).
  { rewrite EP, Rabs_pos_eq by exact RP. apply Rle_trans with (bp 31 * bp 53); [|rewrite <- bpow_plus; apply bpow_le; lia].
    apply Rmult_le_compat; [exact R0|exact PN|change (bp 31) with 2147483648; lra|change (bp 53) with 9007199254740992; lra]. }
  rewrite EP in E3. rewrite E3. split; [apply rnd_nonneg; exact RP|].
  assert (Z0 : per = 0%Z \/ (1 <= per)%Z) by lia. destruct Z0 as [-> |Z1].
  - rewrite Rmult_0_r, rnd_0. unfold Rdiv. rewrite !Rmult_0_l, Rminus_0_r, Rabs_R0. lra.
  - apply IZR_le in Z1. assert (R3 := rnd_err (B2R r * IZR per)). rewrite (Rabs_pos_eq _ RP), u_val in R3.
    assert (RR : Rabs (B2R r - w / d) <= 1 / 3000000) by (apply Rabs_le; lra).
    assert (K1 : Rabs (B2R r * IZR per - IZR per * (w / d)) <= IZR per / 3000000).
    { replace (B2R r * IZR per - IZR per * (w / d)) with ((B2R r - w / d) * IZR per) by ring. rewrite Rabs_mult, (Rabs_pos_eq (IZR per)) by lra.
      unfold Rdiv at 2. rewrite (Rmult_comm (IZR per) (/ 3000000)). apply Rmult_le_compat_r; lra. }
    assert (K2 : B2R r * IZR per <= 1073741826 * IZR per) by (apply Rmult_le_compat_r; lra).
    apply Rabs_le_inv in R3, K1. apply Rabs_le. lra.
Qed.

Lemma place_gap : forall t t' b per, in_range t -> in_range t' -> fin b -> 0 <= B2R b <= B2R t -> (0 <= per < 2 ^ 53)%Z ->
  B2R t + 3 / 2 * d <= B2R t' -> (Btrunc (place_of t b per) + per <= Btrunc (place_of t' b per))%Z.
Proof.
  intros t t' b per I I' FB HB PR G. assert (D := d_pos).
  destruct (place_near t b per I FB HB PR) as (P0 & P). destruct (place_near t' b per I' FB ltac:(lra) PR) as (P0' & P').
  rewrite !trunc_correct. rewrite !Ztrunc_floor by assumption. assert (PN : 0 <= IZR per) by (apply IZR_le; lia).
  assert (K : B2R (place_of t b per) + IZR per <= B2R (place_of t' b per)).
  { apply Rabs_le_inv in P, P'.
    assert (X : IZR per * ((B2R t - B2R b) / d) + 3 / 2 * IZR per <= IZR per * ((B2R t' - B2R b) / d)).
    { replace (IZR per * ((B2R t - B2R b) / d) + 3 / 2 * IZR per) with (IZR per * ((B2R t - B2R b + 3 / 2 * d) / d)) by (field; lra).
      apply Rmult_le_compat_l; [exact PN|]. apply Rmult_le_compat_r; [apply Rlt_le, Rinv_0_lt_compat, D|]. lra. }
    lra. }
  apply Zfloor_le in K. rewrite <- (Zfloor_imp (Zfloor (B2R (place_of t b per)) + per) (B2R (place_of t b per) + IZR per)); [exact K|].
  rewrite !plus_IZR. assert (L := Zfloor_lb (B2R (place_of t b per))). assert (M := Zfloor_ub (B2R (place_of t b per))). cbn. lra.
Qed.

Lemma time_add : forall i j t, time pw lg c (i + j) t = time pw lg c j (time pw lg c i t).
Proof. induction i as [|i IH]; intros j t; [reflexivity|]. cbn [Nat.add time]. apply IH. Qed.

(** Two ticks or more *)
Lemma ticks : forall n t, (forall i, (i < n)%nat -> in_range (time pw lg c i t)) -> forall j, (1 <= j < n)%nat ->
  B2R t + d - d / 4000000 <= B2R (time pw lg c j t) /\ ((2 <= j)%nat -> B2R t + 3 / 2 * d <= B2R (time pw lg c j t)).
Proof.
  assert (D := d_pos). induction n as [|n IH]; intros t H j Hj; [lia|]. destruct j as [|j]; [lia|].
  destruct (tick t (H 0%nat ltac:(lia))) as (_ & T). change (b64_add t dt) with (add A t (c_dt A c)) in T. cbn [time]. destruct j as [|j]; [cbn [time]; split; [lra|lia]|].
  destruct (IH (add A t (c_dt A c)) (fun i Hi => H (S i) ltac:(lia)) (S j) ltac:(lia)) as (T1 & _). cbn [num b64_arith] in *. split; [lra|intros _; lra].
Qed.

Theorem injected_again : forall n t k x i j, (forall i, (i < n)%nat -> in_range (time pw lg c i t)) ->
  (fin (c_duration A c : b64) /\ 0 <= B2R (c_duration A c : b64)) -> (fin (c_hole A c : b64) /\ 0 <= B2R (c_hole A c : b64)) ->
  (ceil_int A (div A (c_duration A c) (c_dt A c)) <> 0)%Z -> (0 <= c_macro A c < 2 ^ 53)%Z -> (0 <= k < 2 ^ 53)%Z -> (i < j < n)%nat ->
  injected pw lg c (time pw lg c i t) k x -> injected pw lg c (time pw lg c j t) k x -> j = S i.
Proof.
  intros n t k x i j CL (FU & PU) (FH & PH) ST MA K L (I1 & _ & I3 & _) (_ & _ & J3 & _).
  destruct (Nat.eq_dec j (S i)) as [E|NE]; [exact E|]. exfalso. assert (D := d_pos).
  set (b := add A (mul A (c_duration A c) (of_int A k)) (mul A (c_hole A c) (of_int A k))) in *.
  set (per := (c_macro A c / ceil_int A (div A (c_duration A c) (c_dt A c)))%Z) in *.
  assert (SP : (0 < ceil_int A (div A (c_duration A c) (c_dt A c)))%Z).
  { change (ceil_int A) with b64_ceil_int in *. change (div A) with b64_div in *. rewrite ceil_ok in *.
    assert (Q : 0 <= B2R (b64_div (c_duration A c) dt)).
    { assert (C := Bdiv_correct prec64 emax64 _ _ mode_NE (c_duration A c) dt ltac:(lra)). unfold b64_div.
      destruct (Rlt_bool _ _); [destruct C as (-> & _); apply rnd_nonneg, div_nonneg; lra|].
      destruct (Bdiv mode_NE (c_duration A c) dt) as [| | |]; cbn [B2R]; try lra. exfalso. cbn in C. revert C. destruct (xorb _ _); discriminate. }
    assert (Z0 : (0 <= Zceil (B2R (b64_div (c_duration A c) dt)))%Z) by (rewrite <- (Zceil_IZR 0); now apply Zceil_le). unfold num in *. cbn [b64_arith] in *. lia. }
  assert (PR : (0 <= per < 2 ^ 53)%Z).
  { unfold per. split; [apply Z.div_pos; lia|]. apply Z.le_lt_trans with (c_macro A c); [|lia]. apply Z.div_le_upper_bound; [exact SP|]. nia. }
  clearbody per. destruct (of_Z_exact k) as (FK & EK); [lia|]. assert (PK : 0 <= B2R (b64_of_Z k)) by (rewrite EK; apply IZR_le; lia).
  assert (NB : ni b) by (apply ni_add; apply ni_mul'; assumption). clearbody b.
  assert (R1 := CL i ltac:(lia)). assert (R2 := CL j ltac:(lia)). change (leb A) with (@Bleb prec64 emax64) in I1.
  destruct NB as [(FB & PB)| ->]; [|destruct R1 as (F & _); destruct (time pw lg c i t) as [[]|[]| |[]]; discriminate].
  apply leb_ok in I1; [|exact FB|apply R1].
  assert (G : B2R (time pw lg c i t) + 3 / 2 * d <= B2R (time pw lg c j t)).
  { replace j with (i + (j - i))%nat by lia. rewrite time_add. apply (ticks (n - i)); [|lia|lia]. intros m Hm. rewrite <- time_add. apply CL. lia. }
  assert (Q := place_gap _ _ b per R1 R2 FB (conj PB I1) PR G). unfold place_of in Q.
  change (trunc_int A) with (@Btrunc prec64 emax64) in *. change (mul A) with b64_mul in *. change (div A) with b64_div in *. change (sub A) with b64_sub in *. change (of_int A) with b64_of_Z in *. lia.
Qed.
End Clock.
