(** Forward error analysis of binary64 expressions, by reflection.

    An expression over values that are known up to rounding (predicate [near] of Err64P) is again known
    up to rounding; the number of units and the range of its size are computed from the shape of the
    expression alone. *)
From Coq Require Import Reals ZArith List Bool Lia Lra Psatz.
From Flocq Require Import Core IEEE754.BinarySingleNaN.
From Verif.Lib Require Import RAux.
From Verif.Model Require Import Binary64 Temperature64 Arith.
From Verif.Proof Require Import Binary64P FloatP Axis64P Push64P Err64P.
Import ListNotations.
Local Open Scope R_scope.

Lemma u_le_1024 : forall K, (0 <= K < 1048576)%Z -> IZR K / 4 * u <= / 1024.
Proof. intros K (H0 & H). apply IZR_lt in H. apply IZR_le in H0. rewrite u_val. lra. Qed.

(** Division, whatever the sign of the divisor *)
Lemma near_div_any : forall x X M k y Y l K, near x X M k -> near y Y (Rabs Y) l -> Y <> 0 -> (k + l) * (1 + / 1000) <= K -> (K + 5 / 4) * u <= / 1024 ->
  rg (M / Rabs Y) (-900) 1000 -> near (b64_div x y) (X / Y) (M / Rabs Y) (K + 5 / 4).
Proof.
  intros x X M k y Y l K HX HY NY HK HC HR. destruct (Rlt_dec 0 Y) as [P|P].
  - rewrite (Rabs_pos_eq Y) in * by lra. now apply near_div with (k := k) (l := l).
  - assert (N : Y < 0) by lra. rewrite (Rabs_left Y N) in *. assert (OX := near_opp _ _ _ _ HX). assert (OY := near_opp _ _ _ _ HY).
    assert (PM : 0 < - Y) by lra. assert (D := near_div _ _ _ _ _ _ _ K OX OY PM HK HC HR). destruct D as (FD & KD & SD & ED).
    replace (- X / - Y) with (X / Y) in SD, ED by (field; lra).
    assert (FX : fin x) by apply HX. assert (FY : fin y) by apply HY.
    destruct HY as (_ & (L0 & L1) & _ & EY). assert (PU := u_pos).
    assert (NZ : B2R y <> 0).
    { intro Z. rewrite Z in EY. rewrite Rabs_pos_eq in EY by lra. assert (l * u * - Y <= / 1024 * - Y) by (apply Rmult_le_compat_r; lra). lra. }
    assert (SB : Rabs (B2R x / B2R y) <= bp 1023).
    { destruct (near_size _ _ _ _ HX) as (M0 & SX). assert (YB : - Y * (1023 / 1024) <= Rabs (B2R y)).
      { assert (T := Rabs_le_inv _ _ EY). assert (l * u * - Y <= / 1024 * - Y) by (apply Rmult_le_compat_r; lra). rewrite Rabs_left1 by lra. lra. }
      apply (fits_M _ (M / - Y)); [|apply HR]. unfold Rdiv. rewrite Rabs_mult, Rabs_inv.
      apply Rle_trans with (M * (1 + / 1024) * / (- Y * (1023 / 1024))).
      + apply Rmult_le_compat; [apply Rabs_pos|left; apply Rinv_0_lt_compat; lra|exact SX|apply Rinv_le; lra].
      + unfold Rdiv. rewrite Rinv_mult. assert (PI := Rinv_0_lt_compat (- Y) ltac:(lra)). assert (0 <= M * / - Y) by (apply Rmult_le_pos; lra).
        replace (/ (1023 / 1024)) with (1024 / 1023) by lra. nra. }
    destruct (div_ok x y FX NZ SB) as (F & E). split; [exact F|]. split; [exact KD|]. split; [exact SD|].
    destruct (opp_ok x FX) as (FOX & VX). destruct (opp_ok y FY) as (FOY & VY).
    assert (NZ' : B2R (Bopp y) <> 0) by (rewrite VY; lra).
    destruct (div_ok (Bopp x) (Bopp y) FOX NZ') as (F' & E'); [rewrite VX, VY; replace (- B2R x / - B2R y) with (B2R x / B2R y) by (field; exact NZ); exact SB|].
    rewrite E', VX, VY in ED. replace (- B2R x / - B2R y) with (B2R x / B2R y) in ED by (field; exact NZ). rewrite E. exact ED.
Qed.

(** ** Expressions *)
Inductive ex := V (n : nat) | Pl (a b : ex) | Mi (a b : ex) | Ti (a b : ex) | Di (a b : ex) | Ng (a : ex).

(** shape of a value: quarter units of error, exponents between which its size lies, and whether the size is
    the absolute value itself *)
Record shape := Sh { s_k : Z; s_lo : Z; s_hi : Z; s_rel : bool }.

Fixpoint eb (B : list b64) (e : ex) : b64 := match e with
  | V n => nth n B (b64_of_Z 0)
  | Pl a b => b64_add (eb B a) (eb B b) | Mi a b => b64_sub (eb B a) (eb B b)
  | Ti a b => b64_mul (eb B a) (eb B b) | Di a b => b64_div (eb B a) (eb B b)
  | Ng a => Bopp (eb B a) end.
Fixpoint er (X : list R) (e : ex) : R := match e with
  | V n => nth n X 0
  | Pl a b => er X a + er X b | Mi a b => er X a - er X b
  | Ti a b => er X a * er X b | Di a b => er X a / er X b
  | Ng a => - er X a end.
Fixpoint em (M : list R) (e : ex) : R := match e with
  | V n => nth n M 0
  | Pl a b | Mi a b => em M a + em M b
  | Ti a b => em M a * em M b | Di a b => em M a / em M b
  | Ng a => em M a end.

Definition okk (s : shape) : bool := ((0 <=? s_k s) && (s_k s <? 1000) && (-900 <=? s_lo s) && (s_hi s <=? 1000))%Z.
Definition mk (s : shape) : option shape := if okk s then Some s else None.
Fixpoint sh (S : list shape) (e : ex) : option shape := match e with
  | V n => match nth_error S n with Some s => mk s | None => None end
  | Pl a b | Mi a b => match sh S a, sh S b with
      | Some s, Some t => mk (Sh (Z.max (s_k s) (s_k t) + 5) (Z.max (s_lo s) (s_lo t)) (Z.max (s_hi s) (s_hi t) + 1) false) | _, _ => None end
  | Ti a b => match sh S a, sh S b with
      | Some s, Some t => mk (Sh (s_k s + s_k t + 6) (s_lo s + s_lo t) (s_hi s + s_hi t) (s_rel s && s_rel t)) | _, _ => None end
  | Di a b => match sh S a, sh S b with
      | Some s, Some t => if s_rel t then mk (Sh (s_k s + s_k t + 7) (s_lo s - s_hi t) (s_hi s - s_lo t) (s_rel s)) else None | _, _ => None end
  | Ng a => sh S a end.

Definition good (x : b64) (X M : R) (s : shape) : Prop :=
  near x X M (IZR (s_k s) / 4) /\ rg M (s_lo s) (s_hi s) /\ (s_rel s = true -> X <> 0 /\ M = Rabs X).
Definition goods (B : list b64) (X M : list R) (S : list shape) : Prop :=
  forall n s, nth_error S n = Some s -> good (nth n B (b64_of_Z 0)) (nth n X 0) (nth n M 0) s.

Lemma goods_nil : goods [] [] [] [].
Proof. intros n s H. destruct n; discriminate. Qed.
Lemma goods_cons : forall b x m s B X M S, good b x m s -> goods B X M S -> goods (b :: B) (x :: X) (m :: M) (s :: S).
Proof. intros b x m s B X M S H G n t E. destruct n; cbn in *; [now inversion E; subst|now apply G]. Qed.

Lemma mk_ok : forall s t, mk s = Some t -> t = s /\ (0 <= s_k s < 1000 /\ -900 <= s_lo s /\ s_hi s <= 1000)%Z.
Proof.
  intros s t H. unfold mk in H. destruct (okk s) eqn:E; [|discriminate]. inversion H; subst. unfold okk in E. rewrite !andb_true_iff in E.
  destruct E as (((E1 & E2) & E3) & E4). apply Z.leb_le in E1, E3, E4. apply Z.ltb_lt in E2. split; [reflexivity|lia].
Qed.

Lemma sh_bounds : forall S e s, sh S e = Some s -> (0 <= s_k s < 1000 /\ -900 <= s_lo s /\ s_hi s <= 1000)%Z.
Proof.
  intros S e. induction e; cbn; intros s H.
  - destruct (nth_error S n); [|discriminate]. apply mk_ok in H. now destruct H as (-> & H).
  - destruct (sh S e1), (sh S e2); try discriminate. apply mk_ok in H. now destruct H as (-> & H).
  - destruct (sh S e1), (sh S e2); try discriminate. apply mk_ok in H. now destruct H as (-> & H).
  - destruct (sh S e1), (sh S e2); try discriminate. apply mk_ok in H. now destruct H as (-> & H).
  - destruct (sh S e1), (sh S e2); try discriminate. destruct (s_rel s1); try discriminate. apply mk_ok in H. now destruct H as (-> & H).
  - now apply IHe.
Qed.

Lemma quarter : forall a b, (0 <= a < 1000)%Z -> (0 <= b < 1000)%Z -> let p := IZR a / 4 in let q := IZR b / 4 in
  0 <= p /\ p < 250 /\ 0 <= q /\ q < 250 /\ p * q * u <= / 4.
Proof.
  intros a b HA HB p q. assert (IZR a < 1000) by (apply IZR_lt; lia). assert (0 <= IZR a) by (apply IZR_le; lia).
  assert (IZR b < 1000) by (apply IZR_lt; lia). assert (0 <= IZR b) by (apply IZR_le; lia).
  subst p q. repeat split; try lra. rewrite u_val. assert (IZR a / 4 * (IZR b / 4) <= 250 * 250) by (apply Rmult_le_compat; lra). lra.
Qed.

Theorem analysed : forall B X M S e s, goods B X M S -> sh S e = Some s -> good (eb B e) (er X e) (em M e) s.
Proof.
  intros B X M S e s G. revert s. induction e; cbn [sh eb er em]; intros s H.
  - destruct (nth_error S n) as [t|] eqn:E; [|discriminate]. apply mk_ok in H. destruct H as (-> & _). now apply G.
  - destruct (sh S e1) as [s1|] eqn:E1; [|discriminate]. destruct (sh S e2) as [s2|] eqn:E2; [|discriminate].
    assert (B1 := sh_bounds _ _ _ E1). assert (B2 := sh_bounds _ _ _ E2).
    destruct (IHe1 _ eq_refl) as (N1 & R1 & _). destruct (IHe2 _ eq_refl) as (N2 & R2 & _). apply mk_ok in H. cbn [s_k s_lo s_hi s_rel] in H. destruct H as (-> & HK & HL & HH).
    assert (RR := rg_add _ _ _ _ _ _ R1 R2). split; [|split]; cbn [s_k s_lo s_hi s_rel]; [|exact RR|discriminate].
    rewrite plus_IZR. replace ((IZR (Z.max (s_k s1) (s_k s2)) + 5) / 4) with (IZR (Z.max (s_k s1) (s_k s2)) / 4 + 5 / 4) by lra.
    apply near_add with (k := IZR (s_k s1) / 4) (l := IZR (s_k s2) / 4); [exact N1|exact N2| | | |].
    + assert (IZR (s_k s1) <= IZR (Z.max (s_k s1) (s_k s2))) by (apply IZR_le; lia). lra.
    + assert (IZR (s_k s2) <= IZR (Z.max (s_k s1) (s_k s2))) by (apply IZR_le; lia). lra.
    + assert (Q := u_le_1024 (Z.max (s_k s1) (s_k s2) + 5) ltac:(lia)). rewrite plus_IZR in Q. lra.
    + apply rg_weaken with (1 := RR); lia.
  - destruct (sh S e1) as [s1|] eqn:E1; [|discriminate]. destruct (sh S e2) as [s2|] eqn:E2; [|discriminate].
    assert (B1 := sh_bounds _ _ _ E1). assert (B2 := sh_bounds _ _ _ E2).
    destruct (IHe1 _ eq_refl) as (N1 & R1 & _). destruct (IHe2 _ eq_refl) as (N2 & R2 & _). apply mk_ok in H. cbn [s_k s_lo s_hi s_rel] in H. destruct H as (-> & HK & HL & HH).
    assert (RR := rg_add _ _ _ _ _ _ R1 R2). split; [|split]; cbn [s_k s_lo s_hi s_rel]; [|exact RR|discriminate].
    rewrite plus_IZR. replace ((IZR (Z.max (s_k s1) (s_k s2)) + 5) / 4) with (IZR (Z.max (s_k s1) (s_k s2)) / 4 + 5 / 4) by lra.
    apply near_sub with (k := IZR (s_k s1) / 4) (l := IZR (s_k s2) / 4); [exact N1|exact N2| | | |].
    + assert (IZR (s_k s1) <= IZR (Z.max (s_k s1) (s_k s2))) by (apply IZR_le; lia). lra.
    + assert (IZR (s_k s2) <= IZR (Z.max (s_k s1) (s_k s2))) by (apply IZR_le; lia). lra.
    + assert (Q := u_le_1024 (Z.max (s_k s1) (s_k s2) + 5) ltac:(lia)). rewrite plus_IZR in Q. lra.
    + apply rg_weaken with (1 := RR); lia.
  - destruct (sh S e1) as [s1|] eqn:E1; [|discriminate]. destruct (sh S e2) as [s2|] eqn:E2; [|discriminate].
    assert (B1 := sh_bounds _ _ _ E1). assert (B2 := sh_bounds _ _ _ E2).
    destruct (IHe1 _ eq_refl) as (N1 & R1 & L1). destruct (IHe2 _ eq_refl) as (N2 & R2 & L2). apply mk_ok in H. cbn [s_k s_lo s_hi s_rel] in H. destruct H as (-> & HK & HL & HH).
    assert (RR := rg_mul _ _ _ _ _ _ R1 R2). split; [|split]; cbn [s_k s_lo s_hi s_rel]; [|exact RR|].
    + rewrite !plus_IZR. replace ((IZR (s_k s1) + IZR (s_k s2) + 6) / 4) with (IZR (s_k s1) / 4 + IZR (s_k s2) / 4 + / 4 + 5 / 4) by lra.
      destruct (quarter (s_k s1) (s_k s2) ltac:(lia) ltac:(lia)) as (Q1 & Q2 & Q3 & Q4 & Q5).
      apply near_mul with (k := IZR (s_k s1) / 4) (l := IZR (s_k s2) / 4); [exact N1|exact N2|lra| |].
      * assert (Q := u_le_1024 (s_k s1 + s_k s2 + 6) ltac:(lia)). rewrite !plus_IZR in Q. lra.
      * apply rg_weaken with (1 := RR); lia.
    + intro HR. apply andb_true_iff in HR. destruct HR as (T1 & T2). destruct (L1 T1) as (Z1 & ->). destruct (L2 T2) as (Z2 & ->).
      split; [now apply Rmult_integral_contrapositive_currified|now rewrite Rabs_mult].
  - destruct (sh S e1) as [s1|] eqn:E1; [|discriminate]. destruct (sh S e2) as [s2|] eqn:E2; [|discriminate]. destruct (s_rel s2) eqn:T2; [|discriminate].
    assert (B1 := sh_bounds _ _ _ E1). assert (B2 := sh_bounds _ _ _ E2).
    destruct (IHe1 _ eq_refl) as (N1 & R1 & L1). destruct (IHe2 _ eq_refl) as (N2 & R2 & L2). apply mk_ok in H. cbn [s_k s_lo s_hi s_rel] in H. destruct H as (-> & HK & HL & HH).
    destruct (L2 T2) as (Z2 & M2). assert (RR := rg_div _ _ _ _ _ _ R1 R2). split; [|split]; cbn [s_k s_lo s_hi s_rel]; [|exact RR|].
    + rewrite !plus_IZR. replace ((IZR (s_k s1) + IZR (s_k s2) + 7) / 4) with (IZR (s_k s1) / 4 + IZR (s_k s2) / 4 + / 2 + 5 / 4) by lra.
      destruct (quarter (s_k s1) (s_k s2) ltac:(lia) ltac:(lia)) as (Q1 & Q2 & Q3 & Q4 & Q5). rewrite M2 in *.
      apply near_div_any with (k := IZR (s_k s1) / 4) (l := IZR (s_k s2) / 4); [exact N1|exact N2|exact Z2|lra| |].
      * assert (Q := u_le_1024 (s_k s1 + s_k s2 + 7) ltac:(lia)). rewrite !plus_IZR in Q. lra.
      * apply rg_weaken with (1 := RR); lia.
    + intro HR. destruct (L1 HR) as (Z1 & ->). rewrite M2. split; [apply Rmult_integral_contrapositive_currified; [exact Z1|now apply Rinv_neq_0_compat]|].
      unfold Rdiv. now rewrite Rabs_mult, Rabs_inv.
  - destruct (IHe _ H) as (N & R & L). split; [|split]; [now apply near_opp|exact R|].
    intro T. destruct (L T) as (Z & ->). split; [lra|now rewrite Rabs_Ropp].
Qed.
