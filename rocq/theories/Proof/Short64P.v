(** Short moves in binary64: the currents are finite and bounded. *)
From Coq Require Import Reals ZArith List Bool Lia Lra Psatz.
From Flocq Require Import Core IEEE754.BinarySingleNaN.
From Verif.Lib Require Import RAux Outcome.
From Verif.Model Require Import Constants Binary64 Temperature64 Arith CurrentDeposit GenCode.
From Verif.Spec Require Import Double Deposit64 Short.
From Verif.Proof Require Import Binary64P FloatP Axis64P Motion64P Push64P Cells64P Err64P Ana64P Log64P Leg64P LegBound64P.
Import ListNotations.
Local Open Scope R_scope.

(** ** Where an axis is crossed *)
Section Cross.
Variables (n : Z) (size d xs xe ys ye b : b64).
Hypothesis AX : axis n size d.
Notation X := (B2R xe - B2R xs). Notation Y := (B2R ye - B2R ys). Notation len := (len d). Notation qd := (q d).
Hypothesis Fxs : fin xs. Hypothesis Fxe : fin xe. Hypothesis Fys : fin ys. Hypothesis Fye : fin ye. Hypothesis Fb : fin b.
Hypothesis HX : Rabs X <= bp 12.
Hypothesis HY : Rabs Y <= bp 12.
Hypothesis HYL : Rabs Y <= len.
Hypothesis HYS : Rabs (B2R ys) <= 2097152 * len.
Hypothesis TX : Bltb (Babs (b64_sub xe xs)) (b64_lit 1 1000000000000000) = false.
Hypothesis TY : Bltb (Babs (b64_sub ye ys)) (b64_lit 1 1000000000000000) = false.
(** the border is between the ends *)
Hypothesis HB : Rabs (B2R b - B2R xs) <= Rabs X.
Hypothesis HD : 0 <= (B2R b - B2R xs) * X.

Definition differs (v : b64) : Prop := fin v /\ Rabs (B2R v - (B2R b - B2R xs)) <= 5 / 4 * u * Rabs X.
Lemma diff_good : forall v, differs v -> goods [v; b64_sub xe xs; b64_sub ye ys] [B2R b - B2R xs; X; Y] [Rabs X; Rabs X; Rabs Y] [Sh 5 (-51) 12 false; Sh 5 (-51) 12 true; Sh 5 (-51) 12 true].
Proof.
  intros v (FV & EV). destruct (small_diff xe xs Fxe Fxs HX TX) as (L1 & G1). destruct (small_diff ye ys Fye Fys HY TY) as (L2 & G2).
  apply goods_cons; [|apply goods_cons; [exact G1|apply goods_cons; [exact G2|apply goods_nil]]]. split; [|split; [split; assumption|discriminate]]. cbn [s_k].
  split; [exact FV|]. split; [split; [lra|rewrite u_val; lra]|]. split; [exact HB|]. exact EV.
Qed.
Lemma sub_differs : differs (b64_sub b xs).
Proof.
  destruct (small_diff xe xs Fxe Fxs HX TX) as (L1 & _). destruct (sub_ok b xs Fb Fxs) as (F & E); [apply Rle_trans with (1 := HB); apply Rle_trans with (1 := HX); apply bpow_le; lia|].
  split; [exact F|]. rewrite E. apply Rle_trans with (1 := rnd_err _). assert (TS : tiny <= u * Rabs X * / 1024) by (apply tiny_scale; apply Rle_trans with (2 := L1); apply bpow_le; lia).
  assert (U := u_pos). assert (u * Rabs (B2R b - B2R xs) <= u * Rabs X) by (apply Rmult_le_compat_l; lra). assert (0 <= u * Rabs X) by (apply Rmult_le_pos; [lra|apply Rabs_pos]). lra.
Qed.

(** what the program adds to the coordinate of the start *)
Definition shift (w : b64) : Prop := fin w /\ Rabs (B2R w - (B2R b - B2R xs) / X * Y) <= qd /\ Rabs (B2R w) <= 2 * len.
Lemma shift_of : forall w W s, good w W (Rabs Y) s -> W = (B2R b - B2R xs) / X * Y -> (s_k s <= 400)%Z -> shift w.
Proof.
  intros w W s ((F & (_ & _) & NM & E) & _ & _) -> KS. assert (U := u_pos). assert (L := len_pos _ _ _ AX). assert (QE := q_eq d). split; [exact F|].
  apply IZR_le in KS. assert (K4 : IZR (s_k s) / 4 * u * Rabs Y <= 100 * u * Rabs Y) by (apply Rmult_le_compat_r; [apply Rabs_pos|apply Rmult_le_compat_r; lra]).
  assert (K5 : 100 * u * Rabs Y <= 100 * u * len) by (apply Rmult_le_compat_l; lra). assert (100 * u * len <= qd) by (rewrite QE, u_val; lra). split; [lra|].
  assert (QB := q_bounds _ _ _ AX). set (W := (B2R b - B2R xs) / X * Y) in *. assert (T : Rabs (B2R w) <= Rabs (B2R w - W) + Rabs W) by (replace (B2R w) with ((B2R w - W) + W) at 1 by ring; apply Rabs_triang). lra.
Qed.
Lemma XY0 : X <> 0 /\ Y <> 0.
Proof.
  destruct (small_diff xe xs Fxe Fxs HX TX) as (L1 & _). destruct (small_diff ye ys Fye Fys HY TY) as (L2 & _). assert (P := bpow_gt_0 radix2 (-51)).
  split; intro Z; rewrite Z, Rabs_R0 in *; lra.
Qed.
Lemma XYabs : Rabs X <> 0 /\ Rabs Y <> 0. Proof. destruct XY0. split; now apply Rabs_no_R0. Qed.
Lemma by_quot : forall v, differs v -> shift (b64_div v (b64_div (b64_sub xe xs) (b64_sub ye ys))).
Proof.
  intros v HV. assert (G := diff_good v HV). destruct XY0 as (X0 & Y0). destruct XYabs as (AX0 & AY0). assert (G' := analysed _ _ _ _ (Di (V 0) (Di (V 1) (V 2))) _ G eq_refl). cbn [eb er em nth] in G'.
  replace (Rabs X / (Rabs X / Rabs Y)) with (Rabs Y) in G' by (field; split; assumption). eapply shift_of; [exact G'|field; split; assumption|cbn; lia].
Qed.
Lemma by_mult : forall v, differs v -> shift (b64_mul (b64_div (b64_sub ye ys) (b64_sub xe xs)) v).
Proof.
  intros v HV. assert (G := diff_good v HV). destruct XY0 as (X0 & Y0). destruct XYabs as (AX0 & AY0). assert (G' := analysed _ _ _ _ (Ti (Di (V 2) (V 1)) (V 0)) _ G eq_refl). cbn [eb er em nth] in G'.
  replace (Rabs Y / Rabs X * Rabs X) with (Rabs Y) in G' by (field; assumption). eapply shift_of; [exact G'|field; assumption|cbn; lia].
Qed.
Lemma by_mult' : forall v, differs v -> shift (b64_mul v (b64_div (b64_sub ye ys) (b64_sub xe xs))).
Proof.
  intros v HV. assert (G := diff_good v HV). destruct XY0 as (X0 & Y0). destruct XYabs as (AX0 & AY0). assert (G' := analysed _ _ _ _ (Ti (V 0) (Di (V 2) (V 1))) _ G eq_refl). cbn [eb er em nth] in G'.
  replace (Rabs X * (Rabs Y / Rabs X)) with (Rabs Y) in G' by (field; assumption). eapply shift_of; [exact G'|field; assumption|cbn; lia].
Qed.

(** the coordinate of the crossing point: between the ends, up to rounding *)
Definition within (y : b64) : Prop := fin y /\ Rmin (B2R ys) (B2R ye) - 2 * qd <= B2R y <= Rmax (B2R ys) (B2R ye) + 2 * qd.
Lemma ratio : 0 <= (B2R b - B2R xs) / X <= 1.
Proof.
  destruct XY0 as (X0 & _). assert (E : (B2R b - B2R xs) / X = (B2R b - B2R xs) * X / (X * X)) by (field; exact X0). assert (P : 0 < X * X) by (assert (0 <= X * X) by nra; assert (X * X <> 0) by nra; lra).
  split.
  - rewrite E. unfold Rdiv. apply Rmult_le_pos; [exact HD|left; now apply Rinv_0_lt_compat].
  - apply Rle_trans with (1 := Rle_abs _). unfold Rdiv. rewrite Rabs_mult, Rabs_inv. destruct XYabs as (A0 & _). assert (0 < Rabs X) by (assert (Q := Rabs_pos X); lra).
    apply Rmult_le_reg_r with (Rabs X); [assumption|]. rewrite Rmult_assoc, Rinv_l by assumption. lra.
Qed.
Lemma mid_range : forall t s e, 0 <= t <= 1 -> Rmin s e <= s + t * (e - s) <= Rmax s e.
Proof. intros t s e T. assert (t * (e - s) + (1 - t) * (e - s) = e - s) by ring. destruct (Rle_dec s e); [rewrite Rmin_left, Rmax_right by lra|rewrite Rmin_right, Rmax_left by lra]; split; nra. Qed.
Lemma within_of : forall y w, shift w -> fin y -> Rabs (B2R y - (B2R ys + B2R w)) <= qd -> within y.
Proof.
  intros y w (FW & EW & BW) FY EY. split; [exact FY|]. assert (M := mid_range _ (B2R ys) (B2R ye) ratio). apply Rabs_le_inv in EW, EY. lra.
Qed.
Lemma cross_add : forall w, shift w -> within (b64_add ys w).
Proof.
  intros w S. assert (S' := S). destruct S' as (FW & EW & BW). assert (L := len_pos _ _ _ AX). destruct (add_q _ _ _ AX ys w Fys FW) as (F & E); [apply Rle_trans with (1 := Rabs_triang _ _); lra|]. now apply within_of with w.
Qed.
Lemma cross_sub : forall w w', shift w -> fin w' -> B2R w' = - B2R w -> within (b64_sub ys w').
Proof.
  intros w w' S F' E'. assert (S' := S). destruct S' as (FW & EW & BW). assert (L := len_pos _ _ _ AX). destruct (sub_q _ _ _ AX ys w' Fys F') as (F & E); [rewrite E'; unfold Rminus; rewrite Ropp_involutive; apply Rle_trans with (1 := Rabs_triang _ _); lra|].
  apply within_of with w; [exact S|exact F|]. rewrite E' in E. unfold Rminus in E at 2. rewrite Ropp_involutive in E. exact E.
Qed.
End Cross.

(** ** One axis *)
Section Tie.
Variables pw lg : b64 -> b64.
Notation A := (b64_arith pw lg).
Variables (n : Z) (size d : b64).
Hypothesis AX : axis n size d.
Notation len := (len d).
Definition about (s : R) (m : Z) (x : b64) : Prop := (0 <= m <= n - 2)%Z /\ fin x /\ (IZR m - s) * len <= B2R x <= (IZR m + 1 + s) * len.
Notation end_of := (about (/ 100)). Notation point_of := (about (/ 20)).
Definition fits (x : b64) : Prop := fin x /\ 46 / 100 * len <= B2R x <= IZR (n - 1) * len.
Lemma fits_abs : forall x, fits x -> Rabs (B2R x) <= 1048576 * len.
Proof. intros x (_ & B). assert (L := len_pos _ _ _ AX). assert (N := n_bounds _ _ _ AX). assert (IZR (n - 1) * len <= 1048575 * len) by (apply Rmult_le_compat_r; lra). rewrite Rabs_pos_eq; lra. Qed.
Lemma border_at : forall m, (0 <= m <= n - 1)%Z -> fin (border d m) /\ Rabs (B2R (border d m) - IZR m * len) <= len / 1000000.
Proof. intros m M. destruct (node n size d m AX M) as (F & E). assert (QB := q_bounds _ _ _ AX). unfold border. split; [exact F|lra]. Qed.
Lemma cell_at : forall x, fits x -> placed pw lg d x -> let m := gcell A x d in (0 <= m <= n - 2)%Z /\ (IZR m - / 1000) * len <= B2R x <= (IZR m + 1 + / 1000) * len.
Proof.
  intros x (F & B) (P1 & P2) m. fold m in P1, P2. assert (L := len_pos _ _ _ AX). assert (M : (0 <= m <= n - 2)%Z).
  { split; [unfold m; rewrite (cell64_eq d pw lg); lia|]. apply (cell_range pw lg _ _ _ _ AX F). unfold top. fold len. lra. }
  split; [exact M|]. destruct (border_at (m + 1) ltac:(lia)) as (_ & E1). rewrite plus_IZR in E1. apply Rabs_le_inv in E1. split; [|lra].
  destruct P1 as [Z|P1]; [rewrite Z; lra|]. destruct (border_at m ltac:(lia)) as (_ & E0). apply Rabs_le_inv in E0. lra.
Qed.
Inductive cells (pn po : b64) : Z -> Z -> Prop :=
| cells_same : forall c, end_of c pn -> end_of c po -> cells pn po c c
| cells_up : forall c, end_of (c + 1) pn -> end_of c po -> B2R po < B2R (border d (c + 1)) < B2R pn -> cells pn po (c + 1) c
| cells_down : forall c, end_of c pn -> end_of (c + 1) po -> B2R pn < B2R (border d (c + 1)) < B2R po -> cells pn po c (c + 1).

Lemma tie_cells : forall pn po, fits pn -> fits po -> placed pw lg d pn -> placed pw lg d po -> Rabs (B2R pn - B2R po) <= len / 32 ->
  exists cn co, gtie_cells A d pn po = (cn, co) /\ cells pn po cn co.
Proof.
  intros pn po FN FO PN PO DX. assert (L := len_pos _ _ _ AX). destruct (cell_at pn FN PN) as (MN & BN). destruct (cell_at po FO PO) as (MO & BO).
  assert (NEAR : (-1 <= gcell A pn d - gcell A po d <= 1)%Z).
  { apply (cell64_near _ _ _ AX); [apply FN|apply FO| | |lra]; [assert (K := fits_abs _ FN)|assert (K := fits_abs _ FO)]; lra. }
  unfold gtie_cells. set (a := gcell A pn d) in *. set (b := gcell A po d) in *. assert (PN' := PN). assert (PO' := PO). unfold placed in PN', PO'. cbv zeta in PN', PO'. fold a in PN'. fold b in PO'.
  change (mul A (of_int A (b + 1)) d) with (border d (b + 1)). change (mul A (of_int A (a + 1)) d) with (border d (a + 1)). change (eqb A) with (@Beqb prec64 emax64).
  destruct (border_at (a + 1) ltac:(lia)) as (FA & EA). destruct (border_at (b + 1) ltac:(lia)) as (FB & EB). apply Rabs_le_inv in EA, EB, DX. rewrite plus_IZR in EA, EB.
  assert (FPN := proj1 FN). assert (FPO := proj1 FO). cbv zeta.
  assert (QN := Beqb_correct prec64 emax64 pn (border d (a + 1)) FPN FA). assert (QO := Beqb_correct prec64 emax64 po (border d (b + 1)) FPO FB).
  assert (same : forall c, (c = a \/ c = b) -> (IZR c - / 100) * len <= B2R pn <= (IZR c + 1 + / 100) * len -> (IZR c - / 100) * len <= B2R po <= (IZR c + 1 + / 100) * len -> cells pn po c c).
  { intros c C B1 B2. apply cells_same; (split; [destruct C; subst c; lia|split; assumption]). }
  assert (AB : a = b \/ a = (b + 1)%Z \/ b = (a + 1)%Z) by lia.
  destruct (Req_bool_spec (B2R po) (B2R (border d (b + 1)))) as [TO|TO]; rewrite QO.
  - exists a, a. split; [now destruct (Beqb pn (border d (a + 1)))|]. apply same; [now left| |].
    + lra.
    + destruct AB as [E|[E|E]]; rewrite E in *; rewrite ?plus_IZR in *; lra.
  - destruct (Req_bool_spec (B2R pn) (B2R (border d (a + 1)))) as [TN|TN]; rewrite QN.
    + exists b, b. split; [reflexivity|]. apply same; [now right| |lra].
      destruct AB as [E|[E|E]]; rewrite E in *; rewrite ?plus_IZR in *; lra.
    + exists a, b. split; [reflexivity|]. destruct AB as [E|[E|E]].
      * rewrite E in *. apply same; [now left|lra|lra].
      * rewrite E in *. rewrite plus_IZR in *. apply cells_up; [split; [lia|split; [exact FPN|rewrite plus_IZR; lra]]|split; [lia|split; [exact FPO|lra]]|]. destruct PN' as ([Z|PN1] & PN2); [lia|]. lra.
      * rewrite E in *. rewrite plus_IZR in *. apply cells_down; [split; [lia|split; [exact FPN|lra]]|split; [lia|split; [exact FPO|rewrite plus_IZR; lra]]|]. destruct PO' as ([Z|PO1] & PO2); [lia|]. lra.
Qed.

(** a place between the ends, up to rounding, and the border itself *)
Definition between_ends (pn po y : b64) : Prop := fin y /\ Rmin (B2R po) (B2R pn) - 2 * q d <= B2R y <= Rmax (B2R po) (B2R pn) + 2 * q d.
Lemma same_point : forall c pn po y, end_of c pn -> end_of c po -> between_ends pn po y -> point_of c y.
Proof.
  intros c pn po y (C & _ & B1) (_ & _ & B2) (FY & BY). assert (L := len_pos _ _ _ AX). assert (QB := q_bounds _ _ _ AX). split; [exact C|]. split; [exact FY|].
  destruct (Rle_dec (B2R po) (B2R pn)); [rewrite Rmin_left, Rmax_right in BY by lra|rewrite Rmin_right, Rmax_left in BY by lra]; lra.
Qed.
Lemma end_point : forall c x, end_of c x -> point_of c x.
Proof. intros c x (C & F & B). assert (L := len_pos _ _ _ AX). split; [exact C|]. split; [exact F|lra]. Qed.
Lemma border_point : forall c, (0 <= c <= n - 2)%Z -> (0 <= c + 1 <= n - 2)%Z -> point_of c (border d (c + 1)) /\ point_of (c + 1) (border d (c + 1)).
Proof.
  intros c C C1. assert (L := len_pos _ _ _ AX). destruct (border_at (c + 1) ltac:(lia)) as (F & E). rewrite plus_IZR in E. apply Rabs_le_inv in E. split; (split; [assumption|]; split; [exact F|rewrite ?plus_IZR; lra]).
Qed.
Lemma across_point : forall c pn po y, (0 <= c <= n - 2)%Z -> (0 <= c + 1 <= n - 2)%Z -> Rabs (B2R pn - B2R po) <= len / 32 ->
  (B2R po < B2R (border d (c + 1)) < B2R pn \/ B2R pn < B2R (border d (c + 1)) < B2R po) -> between_ends pn po y -> point_of c y /\ point_of (c + 1) y.
Proof.
  intros c pn po y C C1 DX B (FY & BY). assert (L := len_pos _ _ _ AX). assert (QB := q_bounds _ _ _ AX). destruct (border_at (c + 1) ltac:(lia)) as (F & E). rewrite plus_IZR in E. apply Rabs_le_inv in E, DX.
  destruct B as [B|B]; [rewrite Rmin_left, Rmax_right in BY by lra|rewrite Rmin_right, Rmax_left in BY by lra]; (split; (split; [assumption|]; split; [exact FY|rewrite ?plus_IZR; lra])).
Qed.
End Tie.

(** ** The legs of a short move *)
Section Legs.
Variables pw lg : b64 -> b64.
Notation A := (b64_arith pw lg).
Variables (g : ggeom A) (dt q : b64).
Hypothesis HL : accurate_log lg.
Hypothesis HF : fine pw lg g dt.
Hypothesis HT : bp (-200) <= B2R dt.
Hypothesis HQ : fin q /\ bp (-200) <= Rabs (B2R q) <= bp 200.
Definition sdr : b64 := gdr A g.
Definition sdz : b64 := gdz A g.
Notation DR := (B2R sdr). Notation DZ := (B2R sdz). Notation DT := (B2R dt). Notation AQ := (Rabs (B2R q)).
Notation nr := (gn_r A g). Notation nz := (gn_z A g).
Lemma AXR : axis nr (gr_size A g) sdr. Proof. exact (axr pw lg g dt HF). Qed.
Lemma AXZ : axis nz (gz_size A g) sdz. Proof. exact (axz pw lg g dt HF). Qed.
Lemma DRp : 0 < DR. Proof. exact (len_pos _ _ _ AXR). Qed.
Lemma DZp : 0 < DZ. Proof. exact (len_pos _ _ _ AXZ). Qed.
Notation row := (about nr sdr (/ 20)). Notation col := (about nz sdz (/ 20)).
Definition off_axis (r : b64) : Prop := 455 / 1000 * DR <= B2R r.
Notation modest := (modest pw lg 8 g dt q).
Notation simple := (gsimple_current A g dt q).

Lemma modest_app : forall a b, modest a -> modest b -> modest (a ++ b).
Proof. intros a b HA HB. apply Forall_app. now split. Qed.
Lemma modest_nil : modest []. Proof. constructor. Qed.

Lemma leg_modest : forall c k rA zA rB zB, row c rA -> row c rB -> col k zA -> col k zB -> off_axis rA -> off_axis rB -> modest (simple rB zB rA zA c k).
Proof.
  intros c k rA zA rB zB (C & FRA & BRA) (_ & FRB & BRB) (K & FZA & BZA) (_ & FZB & BZB) OA OB. unfold off_axis in OA, OB.
  assert (T0 : forall a b : b64, Bltb a b = true \/ Bltb a b = false) by (intros a b; destruct (Bltb a b); auto).
  destruct (T0 (Babs (b64_sub rB rA)) (b64_lit 1 1000000000000000)) as [TR|TR].
  { replace (simple rB zB rA zA c k) with (@nil (gjinc A)); [apply modest_nil|]. unfold gsimple_current. cbv zeta. change (ltb A) with (@Bltb prec64 emax64). change (absv A) with (@Babs prec64 emax64). change (sub A) with b64_sub. change (gMNZL A) with (b64_lit 1 1000000000000000). now rewrite TR. }
  destruct (T0 (Babs (b64_sub zB zA)) (b64_lit 1 1000000000000000)) as [TZ|TZ].
  { replace (simple rB zB rA zA c k) with (@nil (gjinc A)); [apply modest_nil|]. unfold gsimple_current. cbv zeta. change (ltb A) with (@Bltb prec64 emax64). change (absv A) with (@Babs prec64 emax64). change (sub A) with b64_sub. change (gMNZL A) with (b64_lit 1 1000000000000000). now rewrite TR, TZ. }
  assert (LR := DRp). assert (LZ := DZp). unfold len in *. assert (NR := ax_n _ _ _ AXR). assert (NZ := ax_n _ _ _ AXZ). assert (C0 : 0 <= IZR c) by (apply IZR_le; lia). assert (K0 : 0 <= IZR k) by (apply IZR_le; lia).
  assert (CC : 0 <= IZR c * DR) by (apply Rmult_le_pos; lra). assert (KK : 0 <= IZR k * DZ) by (apply Rmult_le_pos; lra).
  assert (low : forall r : b64, (IZR c - / 20) * DR <= B2R r -> 455 / 1000 * DR <= B2R r -> 9 / 20 * ((IZR c + 1) * DR) <= B2R r).
  { intros r B1 B2. destruct (Z.eq_dec c 0) as [->|NZc]; [lra|]. assert (1 <= IZR c) by (apply IZR_le; lia). assert (DR <= IZR c * DR) by (rewrite <- (Rmult_1_l DR) at 1; apply Rmult_le_compat_r; lra). lra. }
  assert (OK : leg_ok pw lg g dt q rB zB rA zA c k).
  { assert (FT := fine_dt _ _ _ _ HF). assert (CR := fine_cr _ _ _ _ HF). assert (DRH := fine_dr _ _ _ _ HF). assert (DZH := fine_dz _ _ _ _ HF). change (@B2R prec64 emax64 (gdr A g)) with DR in *. change (@B2R prec64 emax64 (gdz A g)) with DZ in *.
    split; try assumption; change (dr64 pw lg g) with sdr; change (dz64 pw lg g) with sdz; try (exact (fin_d _ _ _ AXR)); try (exact (fin_d _ _ _ AXZ)); try apply FT; try apply HQ; try lia; try lra.
    - split; [apply low; lra|lra].
    - split; [apply low; lra|lra].
    - apply Rabs_le. lra.
    - apply Rabs_le. lra.
    - apply Rabs_le. lra. }
  destruct (leg_sizes pw lg g dt q rB zB rA zA c k OK) as (z0 & z1 & x0 & x1 & E & (F0 & F1 & F2 & F3) & S0 & S1 & S2 & S3); change (dz64 pw lg g) with sdz; try lra.
  rewrite E. clear E. unfold out64. unfold Aa0, Aa1, Ss in *. change (dr64 pw lg g) with sdr in *. change (dz64 pw lg g) with sdz in *. rewrite plus_IZR in S1.
  assert (PT : 0 < DT) by (assert (P := bpow_gt_0 radix2 (-200)); lra). assert (PQ : 0 <= AQ) by apply Rabs_pos. assert (PI3 : 3 <= c_PI) by (unfold c_PI; lra).
  (* divide by the factor in front *)
  assert (scale : forall t s v b, 0 <= v -> 0 < t -> t * s * v <= b -> b <= 8 * AQ * t -> s * v <= 8 * AQ). { intros t s v b Hv Ht S B. apply Rmult_le_reg_l with t; [exact Ht|]. lra. }
  assert (cQ : 0 <= IZR c * AQ) by (apply Rmult_le_pos; lra).
  assert (fac : forall t, 2 * t * AQ <= c_PI * (t * AQ) \/ t * AQ < 0). { intro t. destruct (Rle_dec 0 (t * AQ)) as [P|P]; [left|right; lra]. assert (2 * (t * AQ) <= c_PI * (t * AQ)) by (apply Rmult_le_compat_r; lra). lra. }
  assert (fac3 : forall x, 0 <= x -> 3 * x <= c_PI * x) by (intros x X; apply Rmult_le_compat_r; lra). clear fac.
  repeat apply Forall_cons; try apply Forall_nil; unfold modest_value; cbn [gj_z gj_r gj_comp gj_inc gval]; (split; [assumption|]); change (@B2R prec64 emax64 (gdr A g)) with DR; change (@B2R prec64 emax64 (gdz A g)) with DZ.
  - destruct (Z.leb_spec 1 c) as [LC|LC].
    + assert (1 <= IZR c) by (apply IZR_le; exact LC). apply scale with (t := 2 * c_PI * IZR c) (b := 6 * (IZR c + 1) * AQ); [apply Rabs_pos|apply Rmult_lt_0_compat; lra| |].
      * apply Rle_trans with (2 := S0). right. ring.
      * assert (X := fac3 _ cQ). assert (AQ <= IZR c * AQ) by (rewrite <- (Rmult_1_l AQ) at 1; apply Rmult_le_compat_r; lra). replace (8 * AQ * (2 * c_PI * IZR c)) with (16 * (c_PI * (IZR c * AQ))) by ring. lra.
    + assert (c = 0%Z) by lia. subst c. apply scale with (t := c_PI / 4) (b := 6 * (0 + 1) * AQ); [apply Rabs_pos|lra| |].
      * apply Rle_trans with (2 := S0). right. field.
      * replace (8 * AQ * (c_PI / 4)) with (2 * (c_PI * AQ)) by field. assert (X := fac3 _ PQ). lra.
  - apply scale with (t := 2 * c_PI * (IZR c + 1)) (b := 6 * (IZR c + 1) * AQ); [apply Rabs_pos|apply Rmult_lt_0_compat; lra| |].
    * apply Rle_trans with (2 := S1). right. ring.
    * replace (8 * AQ * (2 * c_PI * (IZR c + 1))) with (16 * (c_PI * (IZR c * AQ)) + 16 * (c_PI * AQ)) by ring. assert (X := fac3 _ PQ). assert (Y := fac3 _ cQ). lra.
  - apply scale with (t := 2 * c_PI * (IZR c + 1 / 2)) (b := 10 * (IZR c + 1) * AQ); [apply Rabs_pos|apply Rmult_lt_0_compat; lra| |].
    * apply Rle_trans with (2 := S2). right. ring.
    * replace (8 * AQ * (2 * c_PI * (IZR c + 1 / 2))) with (16 * (c_PI * (IZR c * AQ)) + 8 * (c_PI * AQ)) by field. assert (X := fac3 _ PQ). assert (Y := fac3 _ cQ). lra.
  - apply scale with (t := 2 * c_PI * (IZR c + 1 / 2)) (b := 10 * (IZR c + 1) * AQ); [apply Rabs_pos|apply Rmult_lt_0_compat; lra| |].
    * apply Rle_trans with (2 := S3). right. ring.
    * replace (8 * AQ * (2 * c_PI * (IZR c + 1 / 2))) with (16 * (c_PI * (IZR c * AQ)) + 8 * (c_PI * AQ)) by field. assert (X := fac3 _ PQ). assert (Y := fac3 _ cQ). lra.
Qed.
End Legs.
