(** The oblique part of a short move in binary64: every branch of the border crossings. *)
From Coq Require Import Reals ZArith List Bool Lia Lra Psatz.
From Flocq Require Import Core IEEE754.BinarySingleNaN.
From Verif.Lib Require Import RAux Outcome.
From Verif.Model Require Import Constants Binary64 Temperature64 Arith CurrentDeposit GenCode.
From Verif.Spec Require Import Double Deposit64 Short.
From Verif.Proof Require Import Binary64P FloatP Axis64P Motion64P Push64P Cells64P Err64P Ana64P Log64P Leg64P LegBound64P Short64P.
Import ListNotations.
Local Open Scope R_scope.

Lemma lt_true : forall x y : b64, fin x -> fin y -> B2R x < B2R y -> Bltb x y = true.
Proof. intros x y FX FY L. now apply (ltb_ok x y FX FY). Qed.
Lemma test_sym : forall x y : b64, fin x -> fin y -> Rabs (B2R x - B2R y) <= bp 12 -> Bltb (Babs (b64_sub x y)) (b64_lit 1 1000000000000000) = false -> Bltb (Babs (b64_sub y x)) (b64_lit 1 1000000000000000) = false.
Proof.
  intros x y FX FY B T. assert (BB : Rabs (B2R x - B2R y) <= bp 1023) by (apply Rle_trans with (1 := B); apply bpow_le; lia).
  destruct (sub_ok x y FX FY BB) as (F1 & E1). destruct (sub_ok y x FY FX) as (F2 & E2); [rewrite Rabs_minus_sym; exact BB|].
  assert (E : B2R (Babs (b64_sub y x)) = B2R (Babs (b64_sub x y))). { rewrite !B2R_Babs, E1, E2. replace (B2R y - B2R x) with (- (B2R x - B2R y)) by ring. rewrite rnd_opp, Rabs_Ropp. reflexivity. }
  destruct (Bltb (Babs (b64_sub y x)) (b64_lit 1 1000000000000000)) eqn:K; [|reflexivity]. rewrite <- T. symmetry. destruct mnzl_val as (FM & _).
  apply ltb_ok in K; [|now rewrite is_finite_Babs|exact FM]. apply ltb_ok; [now rewrite is_finite_Babs|exact FM|]. now rewrite <- E.
Qed.
Lemma opp_differs : forall xs xe b v, fin v -> differs xs xe b v -> forall w, fin w -> B2R w = B2R v -> differs xs xe b w.
Proof. intros xs xe b v FV (_ & E) w FW EW. split; [exact FW|]. now rewrite EW. Qed.
Lemma sub_opp : forall x y : b64, fin x -> fin y -> Rabs (B2R x - B2R y) <= bp 1023 -> fin (Bopp (b64_sub y x)) /\ B2R (Bopp (b64_sub y x)) = B2R (b64_sub x y).
Proof.
  intros x y FX FY B. destruct (sub_ok x y FX FY B) as (F1 & E1). destruct (sub_ok y x FY FX) as (F2 & E2); [rewrite Rabs_minus_sym; exact B|].
  split; [now rewrite is_finite_Bopp|]. rewrite B2R_Bopp, E1, E2. replace (B2R y - B2R x) with (- (B2R x - B2R y)) by ring. rewrite rnd_opp. ring.
Qed.

Lemma mul_opp : forall v a : b64, fin (b64_mul v a) -> fin (b64_mul (Bopp v) a) /\ B2R (b64_mul (Bopp v) a) = - B2R (b64_mul v a).
Proof.
  intros v a F. assert (FV : fin v /\ fin a) by (destruct v, a; split; try reflexivity; try discriminate F; cbn in F; try discriminate F). destruct FV as (FV & FA).
  assert (C := Bmult_correct prec64 emax64 _ _ mode_NE v a). assert (C' := Bmult_correct prec64 emax64 _ _ mode_NE (Bopp v) a).
  change (round radix2 (SpecFloat.fexp prec64 emax64) (round_mode mode_NE)) with rnd in C, C'. rewrite B2R_Bopp, Ropp_mult_distr_l_reverse, rnd_opp, Rabs_Ropp in C'.
  destruct (Rlt_bool (Rabs (rnd (B2R v * B2R a))) (bpow radix2 emax64)).
  - destruct C as (C1 & _). destruct C' as (C1' & C2' & _). unfold b64_mul. rewrite C2', is_finite_Bopp, FV, FA. split; [reflexivity|]. rewrite C1', C1. reflexivity.
  - exfalso. unfold b64_mul in F. rewrite <- is_finite_SF_B2SF, C in F. unfold binary_overflow in F. destruct (overflow_to_inf mode_NE (xorb (Bsign v) (Bsign a))) eqn:O; [discriminate F|discriminate O].
Qed.

Section Move.
Variables pw lg : b64 -> b64.
Notation A := (b64_arith pw lg).
Variables (g : ggeom A) (dt q rn zn ro zo : b64).
Hypothesis HL : accurate_log lg.
Hypothesis HF : fine pw lg g dt.
Hypothesis HM : short_move pw lg g dt q rn zn ro zo.
Notation dr := (sdr pw lg g). Notation dz := (sdz pw lg g).
Notation DR := (B2R dr). Notation DZ := (B2R dz).
Notation nr := (gn_r A g). Notation nz := (gn_z A g).
Notation row := (about nr dr (/ 20)). Notation col := (about nz dz (/ 20)).
Notation off_axis := (off_axis pw lg g).
Notation modest := (modest pw lg 8 g dt q).
Notation simple := (gsimple_current A g dt q).
Notation MN := (b64_lit 1 1000000000000000).
Let AR : axis nr (gr_size A g) dr := AXR pw lg g dt HF.
Let AZ : axis nz (gz_size A g) dz := AXZ pw lg g dt HF.

Lemma fits_r : forall r, radius_fits pw lg g r -> fits nr dr r /\ 4999 / 10000 * DR <= B2R r.
Proof.
  intros r (F & B1 & B2). assert (L := len_pos _ _ _ AR). unfold len in L. change (gdr A g) with dr in *. assert (bp (-30) = / 1073741824) by (cbn; lra). rewrite H in B1. split; [|lra]. split; [exact F|]. unfold len. lra.
Qed.
Lemma fits_z : forall z, z_fits pw lg g z -> fits nz dz z.
Proof.
  intros r (F & B1 & B2). assert (L := len_pos _ _ _ AZ). unfold len in L. change (gdz A g) with dz in *. assert (bp (-30) = / 1073741824) by (cbn; lra). rewrite H in B1, B2. split; [exact F|]. unfold len. lra.
Qed.
Lemma leg : forall c k rA zA rB zB, row c rA -> row c rB -> col k zA -> col k zB -> off_axis rA -> off_axis rB -> modest (simple rB zB rA zA c k).
Proof. exact (leg_modest pw lg g dt q HL HF (sm_dt _ _ _ _ _ _ _ _ _ HM) (sm_q _ _ _ _ _ _ _ _ _ HM)). Qed.

Let FRN : fin rn := proj1 (sm_rn _ _ _ _ _ _ _ _ _ HM).
Let FRO : fin ro := proj1 (sm_ro _ _ _ _ _ _ _ _ _ HM).
Let FZN : fin zn := proj1 (sm_zn _ _ _ _ _ _ _ _ _ HM).
Let FZO : fin zo := proj1 (sm_zo _ _ _ _ _ _ _ _ _ HM).
Lemma small_r : Rabs (B2R rn - B2R ro) <= len dr / 32. Proof. exact (sm_r _ _ _ _ _ _ _ _ _ HM). Qed.
Lemma small_z : Rabs (B2R zn - B2R zo) <= len dz / 32. Proof. exact (sm_z _ _ _ _ _ _ _ _ _ HM). Qed.
Lemma small_r12 : Rabs (B2R rn - B2R ro) <= bp 12.
Proof. assert (S := small_r). assert (H := len_hi _ _ _ AR). change (bp 12) with 4096. assert (L := len_pos _ _ _ AR). lra. Qed.
Lemma small_z12 : Rabs (B2R zn - B2R zo) <= bp 12.
Proof. assert (S := small_z). assert (H := len_hi _ _ _ AZ). change (bp 12) with 4096. assert (L := len_pos _ _ _ AZ). lra. Qed.
Lemma off_rn : off_axis rn. Proof. destruct (fits_r _ (sm_rn _ _ _ _ _ _ _ _ _ HM)) as (_ & B). assert (L := len_pos _ _ _ AR). unfold len, off_axis in *. lra. Qed.
Lemma off_ro : off_axis ro. Proof. destruct (fits_r _ (sm_ro _ _ _ _ _ _ _ _ _ HM)) as (_ & B). assert (L := len_pos _ _ _ AR). unfold len, off_axis in *. lra. Qed.
Lemma off_mid : forall r, between_ends dr rn ro r -> off_axis r.
Proof.
  intros r (F & B). destruct (fits_r _ (sm_rn _ _ _ _ _ _ _ _ _ HM)) as (_ & B1). destruct (fits_r _ (sm_ro _ _ _ _ _ _ _ _ _ HM)) as (_ & B2). assert (L := len_pos _ _ _ AR). assert (QB := q_bounds _ _ _ AR). unfold len, off_axis in *.
  assert (Rmin (B2R ro) (B2R rn) >= 4999 / 10000 * DR) by (unfold Rmin; destruct (Rle_dec (B2R ro) (B2R rn)); lra). lra.
Qed.
Lemma off_border : forall c, (0 <= c)%Z -> (c + 1 <= nr - 2)%Z -> off_axis (border dr (c + 1)).
Proof.
  intros c C C1. destruct (border_at _ _ _ AR (c + 1) ltac:(lia)) as (_ & E). apply Rabs_le_inv in E. rewrite plus_IZR in E. assert (L := len_pos _ _ _ AR). assert (0 <= IZR c) by (apply IZR_le; exact C). unfold off_axis.
  assert (0 <= IZR c * len dr) by (apply Rmult_le_pos; lra). unfold len in *. lra.
Qed.

Hypothesis TR : Bltb (Babs (b64_sub rn ro)) MN = false.
Hypothesis TZ : Bltb (Babs (b64_sub zn zo)) MN = false.
Lemma abs_z : forall z, z_fits pw lg g z -> Rabs (B2R z) <= 2097152 * len dz.
Proof. intros z H. assert (K := fits_abs _ _ _ AZ z (fits_z z H)). assert (L := len_pos _ _ _ AZ). lra. Qed.
Lemma abs_r : forall r, radius_fits pw lg g r -> Rabs (B2R r) <= 2097152 * len dr.
Proof. intros z H. assert (K := fits_abs _ _ _ AR z (proj1 (fits_r z H))). assert (L := len_pos _ _ _ AR). lra. Qed.

(** where the move crosses a border between the rows, and one between the columns *)
Definition mid (xs xe b : b64) : Prop := fin b /\ Rabs (B2R b - B2R xs) <= Rabs (B2R xe - B2R xs) /\ 0 <= (B2R b - B2R xs) * (B2R xe - B2R xs).
Lemma mid_of : forall xs xe b : b64, fin b -> (B2R xs < B2R b < B2R xe \/ B2R xe < B2R b < B2R xs) -> mid xs xe b.
Proof. intros xs xe b F [B|B]; (split; [exact F|]); split; [rewrite !Rabs_pos_eq; lra|apply Rmult_le_pos; lra|rewrite !Rabs_left; lra|nra]. Qed.

(** forwards: from the old place *)
Lemma z_at_border : forall b v, mid ro rn b -> differs ro rn b v -> between_ends dz zn zo (b64_add zo (b64_div v (b64_div (b64_sub rn ro) (b64_sub zn zo)))).
Proof.
  intros b v (FB & B1 & B2) D. assert (S := small_z). assert (L := len_pos _ _ _ AZ).
  apply (cross_add nz (gz_size A g) dz ro rn zo zn b AZ); try assumption; try exact small_r12; try exact small_z12; try (apply abs_z; apply (sm_zo _ _ _ _ _ _ _ _ _ HM)); try lra.
  apply by_quot with (n := nz) (size := gz_size A g); try assumption; try exact small_r12; try exact small_z12; lra.
Qed.
Lemma r_at_border : forall b w, mid zo zn b -> shift dr zo zn ro rn b w -> between_ends dr rn ro (b64_add ro w).
Proof.
  intros b v (FB & B1 & B2) D. assert (S := small_r). assert (L := len_pos _ _ _ AR).
  apply (cross_add nr (gr_size A g) dr zo zn ro rn b AR); try assumption; try exact small_r12; try exact small_z12; try (apply abs_r; apply (sm_ro _ _ _ _ _ _ _ _ _ HM)); lra.
Qed.
(** backwards: from the new place *)
Lemma swap_ends : forall d a b y, between_ends d a b y -> between_ends d b a y.
Proof. intros d a b y (F & B). split; [exact F|]. now rewrite Rmin_comm, Rmax_comm. Qed.
Lemma z_at_border' : forall b v, mid rn ro b -> differs rn ro b v -> between_ends dz zn zo (b64_add zn (b64_div v (b64_div (b64_sub ro rn) (b64_sub zo zn)))).
Proof.
  intros b v (FB & B1 & B2) D. assert (S := small_z). assert (L := len_pos _ _ _ AZ). assert (TR' := test_sym _ _ FRN FRO small_r12 TR). assert (TZ' := test_sym _ _ FZN FZO small_z12 TZ).
  assert (S1 := small_r12). assert (S2 := small_z12). rewrite Rabs_minus_sym in S1, S2, S. apply swap_ends.
  apply (cross_add nz (gz_size A g) dz rn ro zn zo b AZ); try assumption; try (apply abs_z; apply (sm_zn _ _ _ _ _ _ _ _ _ HM)); try lra.
  apply by_quot with (n := nz) (size := gz_size A g); try assumption; lra.
Qed.
Lemma r_at_border' : forall b w, mid zn zo b -> shift dr zn zo rn ro b w -> between_ends dr rn ro (b64_add rn w).
Proof.
  intros b v (FB & B1 & B2) D. assert (S := small_r). assert (L := len_pos _ _ _ AR). assert (TR' := test_sym _ _ FRN FRO small_r12 TR). assert (TZ' := test_sym _ _ FZN FZO small_z12 TZ).
  assert (S1 := small_r12). assert (S2 := small_z12). rewrite Rabs_minus_sym in S1, S2, S. apply swap_ends.
  apply (cross_add nr (gr_size A g) dr zn zo rn ro b AR); try assumption; try (apply abs_r; apply (sm_rn _ _ _ _ _ _ _ _ _ HM)); lra.
Qed.

Lemma shift_mult : forall b v, mid zo zn b -> differs zo zn b v ->
  shift dr zo zn ro rn b (b64_mul (b64_div (b64_sub rn ro) (b64_sub zn zo)) v) /\ shift dr zo zn ro rn b (b64_mul v (b64_div (b64_sub rn ro) (b64_sub zn zo))).
Proof.
  intros b v (FB & B1 & B2) D. assert (S := small_r). assert (L := len_pos _ _ _ AR).
  split; [apply by_mult with (n := nr) (size := gr_size A g)|apply by_mult' with (n := nr) (size := gr_size A g)]; try assumption; try exact small_r12; try exact small_z12; lra.
Qed.
Lemma shift_mult' : forall b v, mid zn zo b -> differs zn zo b v ->
  shift dr zn zo rn ro b (b64_mul (b64_div (b64_sub ro rn) (b64_sub zo zn)) v) /\ shift dr zn zo rn ro b (b64_mul v (b64_div (b64_sub ro rn) (b64_sub zo zn))).
Proof.
  intros b v (FB & B1 & B2) D. assert (S := small_r). assert (L := len_pos _ _ _ AR). assert (TR' := test_sym _ _ FRN FRO small_r12 TR). assert (TZ' := test_sym _ _ FZN FZO small_z12 TZ).
  assert (S1 := small_r12). assert (S2 := small_z12). rewrite Rabs_minus_sym in S1, S2, S.
  split; [apply by_mult with (n := nr) (size := gr_size A g)|apply by_mult' with (n := nr) (size := gr_size A g)]; try assumption; lra.
Qed.
Lemma r_sub_border : forall b v w', mid zo zn b -> differs zo zn b v -> fin w' -> B2R w' = - B2R (b64_mul v (b64_div (b64_sub rn ro) (b64_sub zn zo))) -> between_ends dr rn ro (b64_sub ro w').
Proof.
  intros b v w' M D FW EW. assert (SH := proj2 (shift_mult b v M D)). destruct M as (FB & B1 & B2). assert (S := small_r). assert (L := len_pos _ _ _ AR).
  apply (cross_sub nr (gr_size A g) dr zo zn ro rn b AR) with (w := b64_mul v (b64_div (b64_sub rn ro) (b64_sub zn zo))); try assumption; try exact small_r12; try exact small_z12; try (apply abs_r; apply (sm_ro _ _ _ _ _ _ _ _ _ HM)); lra.
Qed.
(** the differences as the program has them *)
Lemma d_ro : forall b, mid ro rn b -> differs ro rn b (b64_sub b ro) /\ differs ro rn b (Bopp (b64_sub ro b)).
Proof.
  intros b (FB & B1 & B2). assert (S := small_r12). assert (D : differs ro rn b (b64_sub b ro)) by (apply sub_differs; assumption). split; [exact D|].
  destruct (sub_opp b ro FB FRO) as (F & E); [apply Rle_trans with (1 := B1); apply Rle_trans with (1 := S); apply bpow_le; lia|]. now apply opp_differs with (b64_sub b ro); [apply D| | |].
Qed.
Lemma d_zo : forall b, mid zo zn b -> differs zo zn b (b64_sub b zo) /\ differs zo zn b (Bopp (b64_sub zo b)).
Proof.
  intros b (FB & B1 & B2). assert (S := small_z12). assert (D : differs zo zn b (b64_sub b zo)) by (apply sub_differs; assumption). split; [exact D|].
  destruct (sub_opp b zo FB FZO) as (F & E); [apply Rle_trans with (1 := B1); apply Rle_trans with (1 := S); apply bpow_le; lia|]. now apply opp_differs with (b64_sub b zo); [apply D| | |].
Qed.
Lemma d_rn : forall b, mid rn ro b -> differs rn ro b (b64_sub b rn).
Proof. intros b (FB & B1 & B2). assert (S := small_r12). rewrite Rabs_minus_sym in S. apply sub_differs; try assumption. exact (test_sym _ _ FRN FRO small_r12 TR). Qed.
Lemma d_zn : forall b, mid zn zo b -> differs zn zo b (b64_sub b zn).
Proof. intros b (FB & B1 & B2). assert (S := small_z12). rewrite Rabs_minus_sym in S. apply sub_differs; try assumption. exact (test_sym _ _ FZN FZO small_z12 TZ). Qed.

Ltac bor := repeat match goal with
  | |- context [mul A (of_int A ?j) (gdr A g)] => change (mul A (of_int A j) (gdr A g)) with (border dr j)
  | |- context [mul A (of_int A ?j) (gdz A g)] => change (mul A (of_int A j) (gdz A g)) with (border dz j) end.
Ltac ops := bor; change (sub A) with b64_sub; change (add A) with b64_add; change (div A) with b64_div; change (mul A) with b64_mul; change (ltb A) with (@Bltb prec64 emax64); change (opp A) with (@Bopp prec64 emax64).

Notation rcells := (cells nr dr rn ro). Notation zcells := (cells nz dz zn zo).
Lemma row_up : forall c, about nr dr (/ 100) (c + 1) rn -> about nr dr (/ 100) c ro -> B2R ro < B2R (border dr (c + 1)) < B2R rn ->
  (0 <= c)%Z /\ (c + 1 <= nr - 2)%Z /\ mid ro rn (border dr (c + 1)) /\ mid rn ro (border dr (c + 1)) /\ row c (border dr (c + 1)) /\ row (c + 1) (border dr (c + 1)) /\ off_axis (border dr (c + 1)) /\ row (c + 1) rn /\ row c ro /\
  forall y, between_ends dr rn ro y -> row c y /\ row (c + 1) y.
Proof.
  intros c HN HO B. assert (C1 := proj1 HN). assert (C := proj1 HO). destruct (border_at _ _ _ AR (c + 1) ltac:(lia)) as (F & _). destruct (border_point _ _ _ AR c C C1) as (P1 & P2).
  split; [lia|]. split; [lia|]. split; [apply mid_of; tauto|]. split; [apply mid_of; tauto|]. split; [exact P1|]. split; [exact P2|]. split; [apply off_border; lia|].
  split; [exact (end_point _ _ _ AR _ _ HN)|]. split; [exact (end_point _ _ _ AR _ _ HO)|]. intros y Y. apply (across_point _ _ _ AR c rn ro y C C1 small_r); [now left|exact Y].
Qed.
Lemma row_down : forall c, about nr dr (/ 100) c rn -> about nr dr (/ 100) (c + 1) ro -> B2R rn < B2R (border dr (c + 1)) < B2R ro ->
  (0 <= c)%Z /\ (c + 1 <= nr - 2)%Z /\ mid ro rn (border dr (c + 1)) /\ mid rn ro (border dr (c + 1)) /\ row c (border dr (c + 1)) /\ row (c + 1) (border dr (c + 1)) /\ off_axis (border dr (c + 1)) /\ row c rn /\ row (c + 1) ro /\
  forall y, between_ends dr rn ro y -> row c y /\ row (c + 1) y.
Proof.
  intros c HN HO B. assert (C := proj1 HN). assert (C1 := proj1 HO). destruct (border_at _ _ _ AR (c + 1) ltac:(lia)) as (F & _). destruct (border_point _ _ _ AR c C C1) as (P1 & P2).
  split; [lia|]. split; [lia|]. split; [apply mid_of; tauto|]. split; [apply mid_of; tauto|]. split; [exact P1|]. split; [exact P2|]. split; [apply off_border; lia|].
  split; [exact (end_point _ _ _ AR _ _ HN)|]. split; [exact (end_point _ _ _ AR _ _ HO)|]. intros y Y. apply (across_point _ _ _ AR c rn ro y C C1 small_r); [now right|exact Y].
Qed.
Lemma col_up : forall c, about nz dz (/ 100) (c + 1) zn -> about nz dz (/ 100) c zo -> B2R zo < B2R (border dz (c + 1)) < B2R zn ->
  (0 <= c)%Z /\ (c + 1 <= nz - 2)%Z /\ mid zo zn (border dz (c + 1)) /\ mid zn zo (border dz (c + 1)) /\ col c (border dz (c + 1)) /\ col (c + 1) (border dz (c + 1)) /\ col (c + 1) zn /\ col c zo /\
  forall y, between_ends dz zn zo y -> col c y /\ col (c + 1) y.
Proof.
  intros c HN HO B. assert (C1 := proj1 HN). assert (C := proj1 HO). destruct (border_at _ _ _ AZ (c + 1) ltac:(lia)) as (F & _). destruct (border_point _ _ _ AZ c C C1) as (P1 & P2).
  split; [lia|]. split; [lia|]. split; [apply mid_of; tauto|]. split; [apply mid_of; tauto|]. split; [exact P1|]. split; [exact P2|].
  split; [exact (end_point _ _ _ AZ _ _ HN)|]. split; [exact (end_point _ _ _ AZ _ _ HO)|]. intros y Y. apply (across_point _ _ _ AZ c zn zo y C C1 small_z); [now left|exact Y].
Qed.
Lemma col_down : forall c, about nz dz (/ 100) c zn -> about nz dz (/ 100) (c + 1) zo -> B2R zn < B2R (border dz (c + 1)) < B2R zo ->
  (0 <= c)%Z /\ (c + 1 <= nz - 2)%Z /\ mid zo zn (border dz (c + 1)) /\ mid zn zo (border dz (c + 1)) /\ col c (border dz (c + 1)) /\ col (c + 1) (border dz (c + 1)) /\ col c zn /\ col (c + 1) zo /\
  forall y, between_ends dz zn zo y -> col c y /\ col (c + 1) y.
Proof.
  intros c HN HO B. assert (C := proj1 HN). assert (C1 := proj1 HO). destruct (border_at _ _ _ AZ (c + 1) ltac:(lia)) as (F & _). destruct (border_point _ _ _ AZ c C C1) as (P1 & P2).
  split; [lia|]. split; [lia|]. split; [apply mid_of; tauto|]. split; [apply mid_of; tauto|]. split; [exact P1|]. split; [exact P2|].
  split; [exact (end_point _ _ _ AZ _ _ HN)|]. split; [exact (end_point _ _ _ AZ _ _ HO)|]. intros y Y. apply (across_point _ _ _ AZ c zn zo y C C1 small_z); [now right|exact Y].
Qed.
(** the order of two neighbouring borders *)
Lemma border_lt : forall n size d c, axis n size d -> (0 <= c)%Z -> (c + 1 <= n - 1)%Z -> fin (border d c) /\ fin (border d (c + 1)) /\ B2R (border d c) < B2R (border d (c + 1)).
Proof.
  intros n size d c AX C C1. destruct (border_at _ _ _ AX c ltac:(lia)) as (F & E). destruct (border_at _ _ _ AX (c + 1) ltac:(lia)) as (F' & E'). rewrite plus_IZR in E'. apply Rabs_le_inv in E, E'. assert (L := len_pos _ _ _ AX). repeat split; try assumption. lra.
Qed.

Lemma one_modest : forall i_n i_o k_n k_o, rcells i_n i_o -> zcells k_n k_o -> modest (gcurrent_one_border A g dt q rn zn ro zo i_n k_n i_o k_o).
Proof.
  intros i_n i_o k_n k_o CR CZ. assert (ON := off_rn). assert (OO := off_ro). unfold gcurrent_one_border. cbv zeta. ops.
  destruct CR as [c RN RO|c RN RO B|c RN RO B].
  - rewrite Z.eqb_refl. cbn [negb andb]. destruct CZ as [k ZN ZO|k ZN ZO B|k ZN ZO B].
    + rewrite Z.eqb_refl. apply modest_nil.
    + destruct (col_up k ZN ZO B) as (K0 & K1 & M1 & M2 & P1 & P2 & Q1 & Q2 & Y). replace (k + 1 =? k)%Z with false by lia. cbn [negb]. replace (k + 1 - 1)%Z with k by lia.
      rewrite (lt_true zo (border dz (k + 1)) FZO (proj1 M1)) by lra.
      assert (BE := r_at_border _ _ M1 (proj1 (shift_mult _ _ M1 (proj1 (d_zo _ M1))))). assert (PT := same_point _ _ _ AR _ _ _ _ RN RO BE). assert (OM := off_mid _ BE).
      apply modest_app; apply leg; try assumption; try exact (end_point _ _ _ AR _ _ RN); try exact (end_point _ _ _ AR _ _ RO).
    + destruct (col_down k ZN ZO B) as (K0 & K1 & M1 & M2 & P1 & P2 & Q1 & Q2 & Y). replace (k =? k + 1)%Z with false by lia. cbn [negb].
      destruct (border_lt _ _ _ k AZ K0 ltac:(lia)) as (F0 & F1 & LT). rewrite (ltb_false zo (border dz k) FZO F0) by lra.
      assert (BE := r_at_border' _ _ M2 (proj1 (shift_mult' _ _ M2 (d_zn _ M2)))). assert (PT := same_point _ _ _ AR _ _ _ _ RN RO BE). assert (OM := off_mid _ BE).
      apply modest_app; apply leg; try assumption; try exact (end_point _ _ _ AR _ _ RN); try exact (end_point _ _ _ AR _ _ RO).
  - destruct (row_up c RN RO B) as (C0 & C1 & M1 & M2 & P1 & P2 & OB & Q1 & Q2 & Y). replace (c + 1 =? c)%Z with false by lia. cbn [negb andb]. destruct CZ as [k ZN ZO|k ZN ZO BZ|k ZN ZO BZ].
    + rewrite Z.eqb_refl. replace (c + 1 - 1)%Z with c by lia. destruct (border_lt _ _ _ (c + 1) AR ltac:(lia) ltac:(lia)) as (F0 & F1 & LT). rewrite (ltb_false (border dr (c + 1 + 1)) ro F1 FRO) by lra.
      assert (BE := z_at_border _ _ M1 (proj1 (d_ro _ M1))). assert (PT := same_point _ _ _ AZ _ _ _ _ ZN ZO BE).
      apply modest_app; apply leg; try assumption; try exact (end_point _ _ _ AZ _ _ ZN); try exact (end_point _ _ _ AZ _ _ ZO).
    + replace (k + 1 =? k)%Z with false by lia. apply modest_nil.
    + replace (k =? k + 1)%Z with false by lia. apply modest_nil.
  - destruct (row_down c RN RO B) as (C0 & C1 & M1 & M2 & P1 & P2 & OB & Q1 & Q2 & Y). replace (c =? c + 1)%Z with false by lia. cbn [negb andb]. destruct CZ as [k ZN ZO|k ZN ZO BZ|k ZN ZO BZ].
    + rewrite Z.eqb_refl. rewrite (lt_true (border dr (c + 1)) ro (proj1 M1) FRO) by lra.
      assert (BE := z_at_border' _ _ M2 (d_rn _ M2)). assert (PT := same_point _ _ _ AZ _ _ _ _ ZN ZO BE).
      apply modest_app; apply leg; try assumption; try exact (end_point _ _ _ AZ _ _ ZN); try exact (end_point _ _ _ AZ _ _ ZO).
    + replace (k + 1 =? k)%Z with false by lia. apply modest_nil.
    + replace (k =? k + 1)%Z with false by lia. apply modest_nil.
Qed.

(** two borders, in the four directions: all points belong to all cells concerned *)
Lemma three : forall (t1 t2 : bool) r1 z1 r2 z2 ia ib ka kb, row ia ro -> col ka zo -> row ib rn -> col kb zn -> off_axis r1 -> off_axis r2 ->
  row ia r1 -> row ib r1 -> col ka z1 -> col kb z1 -> row ia r2 -> row ib r2 -> col ka z2 -> col kb z2 ->
  modest (if t1 then simple r1 z1 ro zo ia ka ++ simple r2 z2 r1 z1 ib ka ++ simple rn zn r2 z2 ib kb
          else if t2 then simple r2 z2 ro zo ia ka ++ simple r1 z1 r2 z2 ia kb ++ simple rn zn r1 z1 ib kb else []).
Proof.
  intros t1 t2 r1 z1 r2 z2 ia ib ka kb H1 H2 H3 H4 O1 O2 P1 P2 P3 P4 P5 P6 P7 P8. assert (ON := off_rn). assert (OO := off_ro).
  destruct t1; [|destruct t2; [|apply modest_nil]]; (apply modest_app; [|apply modest_app]); apply leg; assumption.
Qed.
Lemma two_modest : forall i_n i_o k_n k_o, rcells i_n i_o -> zcells k_n k_o -> (Z.abs (i_n - i_o) + Z.abs (k_n - k_o) = 2)%Z -> modest (gcurrent_two_borders A g dt q rn zn ro zo i_n k_n i_o k_o).
Proof.
  intros i_n i_o k_n k_o CR CZ TWO. unfold gcurrent_two_borders. cbv zeta. ops.
  destruct CR as [c RN RO|c RN RO B|c RN RO B]; [exfalso; destruct CZ; lia| |].
  - destruct (row_up c RN RO B) as (C0 & C1 & M1 & M2 & P1 & P2 & OB & Q1 & Q2 & Y). replace (c <? c + 1)%Z with true by lia. replace (c + 1 - 1)%Z with c by lia.
    destruct CZ as [k ZN ZO|k ZN ZO BZ|k ZN ZO BZ]; [exfalso; lia| |].
    + destruct (col_up k ZN ZO BZ) as (K0 & K1 & N1 & N2 & S1 & S2 & T1 & T2 & X). replace (k <? k + 1)%Z with true by lia. replace (k + 1 - 1)%Z with k by lia.
      assert (BE := r_at_border _ _ N1 (proj2 (shift_mult _ _ N1 (proj1 (d_zo _ N1))))). assert (BF := z_at_border _ _ M1 (proj1 (d_ro _ M1))). destruct (Y _ BE) as (Y1 & Y2). destruct (X _ BF) as (X1 & X2). assert (OM := off_mid _ BE).
      apply three; assumption.
    + destruct (col_down k ZN ZO BZ) as (K0 & K1 & N1 & N2 & S1 & S2 & T1 & T2 & X). replace (k + 1 <? k)%Z with false by lia.
      assert (BE := r_at_border _ _ N1 (proj2 (shift_mult _ _ N1 (proj2 (d_zo _ N1))))). assert (BF := z_at_border _ _ M1 (proj1 (d_ro _ M1))). destruct (Y _ BE) as (Y1 & Y2). destruct (X _ BF) as (X1 & X2). assert (OM := off_mid _ BE).
      apply three; assumption.
  - destruct (row_down c RN RO B) as (C0 & C1 & M1 & M2 & P1 & P2 & OB & Q1 & Q2 & Y). replace (c + 1 <? c)%Z with false by lia. replace (c <? c + 1)%Z with true by lia.
    destruct CZ as [k ZN ZO|k ZN ZO BZ|k ZN ZO BZ]; [exfalso; lia| |].
    + destruct (col_up k ZN ZO BZ) as (K0 & K1 & N1 & N2 & S1 & S2 & T1 & T2 & X). replace (k <? k + 1)%Z with true by lia. replace (k + 1 - 1)%Z with k by lia.
      assert (BE : between_ends dr rn ro (b64_sub ro (b64_mul (Bopp (b64_sub (border dz (k + 1)) zo)) (b64_div (b64_sub rn ro) (b64_sub zn zo))))).
      { assert (SH := proj2 (shift_mult _ _ N1 (proj1 (d_zo _ N1)))). destruct (mul_opp _ _ (proj1 SH)) as (FM & EM). exact (r_sub_border _ (b64_sub (border dz (k + 1)) zo) _ N1 (proj1 (d_zo _ N1)) FM EM). }
      assert (BF := z_at_border _ _ M1 (proj2 (d_ro _ M1))). destruct (Y _ BE) as (Y1 & Y2). destruct (X _ BF) as (X1 & X2). assert (OM := off_mid _ BE).
      apply three; assumption.
    + destruct (col_down k ZN ZO BZ) as (K0 & K1 & N1 & N2 & S1 & S2 & T1 & T2 & X). replace (k + 1 <? k)%Z with false by lia. replace (k <? k + 1)%Z with true by lia.
      assert (BE := r_at_border' _ _ N2 (proj2 (shift_mult' _ _ N2 (d_zn _ N2)))). assert (BF := z_at_border' _ _ M2 (d_rn _ M2)). destruct (Y _ BE) as (Y1 & Y2). destruct (X _ BF) as (X1 & X2). assert (OM := off_mid _ BE).
      apply three; assumption.
Qed.
End Move.
