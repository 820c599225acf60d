(** Pushes without relativity, one after the other: the scheme keeps distances, so errors add up. *)
From Coq Require Import Reals ZArith List Bool Lia Lra Psatz.
From Flocq Require Import Core IEEE754.BinarySingleNaN.
From Verif.Lib Require Import RAux Outcome.
From Verif.Model Require Import Binary64 Arith GenCode.
From Verif.Spec Require Import Double Momentum.
From Verif.Proof Require Import Binary64P FloatP Push64P Err64P MomentumR Boost64P Boost64P Gentle64P BorisErr64P.
From Verif.Spec Require Import Boris.
Import ListNotations.
Local Open Scope R_scope.

Definition vlen (t : triple) : R := length3 (c0 t) (c1 t) (c2 t).

Lemma turn_len : forall a b h, minus a b = cross (plus a b) h -> vlen a = vlen b.
Proof.
  intros [a0 a1 a2] [b0 b1 b2] [h0 h1 h2] H. unfold minus, cross, plus in H. cbn [c0 c1 c2] in H. injection H as H0 H1 H2. unfold vlen. cbn [c0 c1 c2]. apply length_eq.
  assert (Z : (a0 - b0) * (a0 + b0) + (a1 - b1) * (a1 + b1) + (a2 - b2) * (a2 + b2) = 0) by (rewrite H0, H1, H2; ring). lra.
Qed.
Lemma turn_minus : forall a b a' b' h, minus a b = cross (plus a b) h -> minus a' b' = cross (plus a' b') h -> minus (minus a a') (minus b b') = cross (plus (minus a a') (minus b b')) h.
Proof.
  intros [a0 a1 a2] [b0 b1 b2] [a0' a1' a2'] [b0' b1' b2'] [h0 h1 h2] H H'. unfold minus, cross, plus in *. cbn [c0 c1 c2] in *. injection H as H0 H1 H2. injection H' as H0' H1' H2'. f_equal; lra.
Qed.
Lemma vlen_plus : forall a b, vlen (plus a b) <= vlen a + vlen b.
Proof. intros a b. apply length_add. Qed.
Lemma vlen_scale : forall k a, vlen (scale k a) = Rabs k * vlen a.
Proof. intros k a. apply length_scale. Qed.
Lemma distance_minus : forall a b, distance a b = vlen (minus a b).
Proof. reflexivity. Qed.
Lemma distance_self : forall a, distance a a = 0.
Proof. intro a. apply Rle_antisym; [|apply length_pos]. unfold distance. apply length_le; [lra|]. apply Req_le. ring. Qed.
Lemma distance_sym : forall a b, distance a b = distance b a.
Proof. intros a b. unfold distance. apply length_eq. ring. Qed.
Lemma distance_tri : forall a b c, distance a c <= distance a b + distance b c.
Proof.
  intros a b c. unfold distance. replace (c0 a - c0 c) with ((c0 a - c0 b) + (c0 b - c0 c)) by ring. replace (c1 a - c1 c) with ((c1 a - c1 b) + (c1 b - c1 c)) by ring.
  replace (c2 a - c2 c) with ((c2 a - c2 b) + (c2 b - c2 c)) by ring. apply length_add.
Qed.

Lemma quiet1_near : forall x, Rabs (quiet1 x - x) <= 1 / 1000000000000000.
Proof. intro x. unfold quiet1. destruct (Rlt_dec _ _); [rewrite Rminus_0_l, Rabs_Ropp; lra|rewrite Rminus_diag_eq, Rabs_R0 by reflexivity; lra]. Qed.
Lemma quiet1_less : forall x, quiet1 x * quiet1 x <= x * x.
Proof. intro x. unfold quiet1. destruct (Rlt_dec _ _); [|lra]. assert (Q := Rle_0_sqr x). unfold Rsqr in Q. lra. Qed.
Lemma quiet_near : forall v, distance (quiet v) v <= 2 / 1000000000000000.
Proof. intro v. unfold distance. replace (2 / 1000000000000000) with (2 * (1 / 1000000000000000)) by lra. apply length_parts; apply quiet1_near. Qed.
Lemma quiet_less : forall v, vlen (quiet v) <= vlen v.
Proof.
  intros [a b c]. unfold vlen, quiet. cbn [c0 c1 c2]. apply length_le; [apply length_pos|]. rewrite length_sq. assert (X := quiet1_less a). assert (Y := quiet1_less b). assert (Z := quiet1_less c). lra.
Qed.

Lemma step_len : forall q m dt e h v w, classic_step q m dt e h v w -> vlen w <= vlen v + 2 * (Rabs (q * dt / (2 * m)) * vlen e).
Proof.
  intros q m dt e h v w (b & a & -> & T & ->). apply turn_len in T. assert (Q := quiet_less v).
  apply Rle_trans with (1 := vlen_plus _ _). rewrite T, vlen_scale. assert (P := vlen_plus (quiet v) (scale (q * dt / (2 * m)) e)). rewrite vlen_scale in P. lra.
Qed.
Lemma step_lip : forall q m dt e h v w v' w', classic_step q m dt e h v w -> classic_step q m dt e h v' w' -> distance w w' <= distance v v' + 4 / 1000000000000000.
Proof.
  intros q m dt e h v w v' w' (b & a & Eb & T & ->) (b' & a' & Eb' & T' & ->).
  assert (L := turn_len _ _ _ (turn_minus _ _ _ _ _ T T')). 
  replace (distance (plus a (scale (q * dt / (2 * m)) e)) (plus a' (scale (q * dt / (2 * m)) e))) with (vlen (minus a a')) by (unfold vlen, distance, minus, plus; cbn [c0 c1 c2]; f_equal; ring).
  rewrite L. replace (vlen (minus b b')) with (distance (quiet v) (quiet v')) by (rewrite Eb, Eb'; unfold vlen, distance, minus, plus; cbn [c0 c1 c2]; f_equal; ring).
  assert (X := quiet_near v). assert (Y := quiet_near v'). assert (P := distance_tri (quiet v) v (quiet v')). assert (Q := distance_tri v v' (quiet v')). rewrite (distance_sym v' (quiet v')) in Q. lra.
Qed.

Section Run.
Variables pw lg : b64 -> b64.
Notation A := (b64_arith pw lg).
Notation r3 := (real3 pw lg).
Theorem classic_run : forall (dt q m : b64) fs (v : gvec A) b, sane q m -> is_finite dt = true -> 0 < B2R dt <= bpow radix2 (-18) ->
  Forall (fun f => (finite3 pw lg (fst f) /\ size3 pw lg (fst f) <= bpow radix2 251) /\ (finite3 pw lg (snd f) /\ size3 pw lg (snd f) <= bpow radix2 251) /\
    turns_little (B2R q) (B2R m) (B2R dt) (r3 (snd f))) fs ->
  finite3 pw lg v -> 0 <= b <= bpow radix2 59 -> size3 pw lg v + total_impulse pw lg q m dt fs + INR (length fs) * classic_error b <= b ->
  exists v', classic_pushes pw lg dt q m fs v = Ok v' /\ finite3 pw lg v' /\
    forall x w, classic_steps (B2R q) (B2R m) (B2R dt) (map (fun f => (r3 (fst f), r3 (snd f))) fs) x w -> distance (r3 v') w <= distance (r3 v) x + INR (length fs) * classic_error b.
Proof.
  intros dt q m fs v b HQ FD HD FS. revert v. induction FS as [|(e & h) fs ((FE & SE) & (FH & SH) & HT) _ IH]; intros v FV HB0 HB.
  { exists v. split; [reflexivity|]. split; [exact FV|]. intros x w E. cbn in E. subst w. cbn [length INR]. lra. }
  cbn [classic_pushes total_impulse fst snd map classic_steps] in *. cbn [length] in *. rewrite S_INR in *.
  assert (T0 : forall l, 0 <= total_impulse pw lg q m dt l).
  { induction l as [|(e' & h') l IHl]; cbn [total_impulse fst]; [lra|]. assert (0 <= impulse pw lg q m dt e') by (apply impulse_kick; [exact HQ|lra]). lra. }
  assert (N0 := pos_INR (length fs)). assert (TF := T0 fs). assert (P := u_pos). assert (S58 := bpow_ge_0 radix2 (-58)). assert (VP := size_pos pw lg v).
  destruct (impulse_kick pw lg q m dt e HQ (proj1 HD)) as (KK & I0).
  assert (CE : 0 <= classic_error b) by (unfold classic_error; change (bpow radix2 (-53)) with u; assert (0 <= 20000 * u * (b + bp (-58))) by (repeat apply Rmult_le_pos; lra); lra).
  assert (NE : 0 <= INR (length fs) * classic_error b) by (apply Rmult_le_pos; lra).
  destruct (classic_step_near pw lg dt q m e h v HQ FD HD FE SE FH SH FV ltac:(lra) HT) as (v1 & E1 & F1 & D1). rewrite E1. cbn [bind].
  set (y := after_classic (B2R q) (B2R m) (B2R dt) (r3 e) (r3 h) (r3 v)). assert (SY : classic_step (B2R q) (B2R m) (B2R dt) (r3 e) (r3 h) (r3 v) y) by (apply classic_step_is; reflexivity).
  assert (DY : distance (r3 v1) y <= 20000 * u * (b + bp (-58))).
  { destruct (D1 y SY) as (D10 & D11 & D12). apply Rle_trans with (2 * (10000 * u * (size3 pw lg v + impulse pw lg q m dt e + bp (-58)))); [apply length_parts; assumption|].
    assert (LE : 10000 * u * (size3 pw lg v + impulse pw lg q m dt e + bp (-58)) <= 10000 * u * (b + bp (-58))) by (apply Rmult_le_compat_l; lra). lra. }
  assert (LY : vlen y <= size3 pw lg v + impulse pw lg q m dt e).
  { apply Rle_trans with (1 := step_len _ _ _ _ _ _ _ SY). apply Rplus_le_compat; [apply Rle_refl|]. rewrite <- KK. unfold kick. apply Req_le.
    assert (0 < B2R m) by (destruct HQ as (_ & _ & (ML & _) & _); apply Rlt_le_trans with (2 := ML); apply bpow_gt_0).
    change (vlen (r3 e)) with (size3 pw lg e). unfold Rdiv. rewrite !Rabs_mult, (Rabs_pos_eq (B2R dt)), (Rabs_pos_eq (/ (2 * B2R m))) by (try (left; apply Rinv_0_lt_compat); lra). field. lra. }
  assert (L1 : size3 pw lg v1 <= size3 pw lg v + impulse pw lg q m dt e + 20000 * u * (b + bp (-58))).
  { change (size3 pw lg v1) with (vlen (r3 v1)). assert (X := length_add (c0 (r3 v1) - c0 y) (c1 (r3 v1) - c1 y) (c2 (r3 v1) - c2 y) (c0 y) (c1 y) (c2 y)).
    replace (c0 (r3 v1) - c0 y + c0 y) with (c0 (r3 v1)) in X by ring. replace (c1 (r3 v1) - c1 y + c1 y) with (c1 (r3 v1)) in X by ring. replace (c2 (r3 v1) - c2 y + c2 y) with (c2 (r3 v1)) in X by ring.
    fold (vlen (r3 v1)) in X. fold (distance (r3 v1) y) in X. fold (vlen y) in X. lra. }
  assert (CD : classic_error b = 20000 * u * (b + bp (-58)) + 4 / 1000000000000000) by reflexivity.
  destruct (IH v1 F1 HB0 ltac:(lra)) as (v' & E2 & F2 & D2). exists v'. split; [exact E2|]. split; [exact F2|].
  intros x w (z & SZ & ST). specialize (D2 z w ST). assert (X := step_lip _ _ _ _ _ _ _ _ _ SY SZ). assert (Y := distance_tri (r3 v1) y z). lra.
Qed.
End Run.
