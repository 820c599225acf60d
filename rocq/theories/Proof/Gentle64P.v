(** Whole runs in binary64 within a momentum budget. *)
From Coq Require Import ZArith Reals Lra Lia Psatz Bool List.
From Flocq Require Import Core IEEE754.BinarySingleNaN.
From Verif.Lib Require Import RAux Outcome Par.
From Verif.Model Require Sim.
From Verif.Model Require Import Binary64 Temperature64 Arith Geometry Fields Pusher GenCode GenRun GenSim.
From Verif.Spec Require Import Double Momentum.
From Verif.Proof Require SimP Clock64P.
From Verif.Proof Require Import Binary64P FloatP Axis64P Motion64R Motion64P Cells64P Push64P Field64P GenIndexP Err64P MomentumR Boost64P Run64P.
Import ListNotations.
Local Open Scope R_scope.

Section Slow.
Variables pw lg : b64 -> b64.
Notation A := (b64_arith pw lg).
Notation size3 := (size3 pw lg).
Notation momentum := (momentum pw lg).
Notation slow := (slow pw lg).
Variable a : R.
Hypothesis HA : 0 <= a <= 8192.
Hypothesis HP : close_pow pw a.

Lemma lorentz_boost : forall w, lorentz w = boost w. Proof. reflexivity. Qed.

(** Speed from momentum *)
Lemma speed_of : forall s, 0 <= s < 300000000 -> let w := momentum_at s in 0 <= w /\ s = w / boost w /\ boost w * boost w * (1 - s * s / cc) = 1.
Proof.
  intros s S w. assert (C := cc_pos). assert (SS : s * s < cc) by (unfold cc; nra).
  assert (D : 0 < 1 - s * s / cc). { assert (s * s / cc < 1); [|lra]. apply Rmult_lt_reg_r with cc; [exact C|]. unfold Rdiv. rewrite Rmult_assoc, Rinv_l; lra. }
  assert (W := momentum_pos s (proj1 S) D). fold w in W. split; [exact W|].
  assert (SP := sqrt_lt_R0 _ D). assert (SQ := sqrt_sqrt (1 - s * s / cc) ltac:(lra)).
  assert (WE : w * sqrt (1 - s * s / cc) = s). { unfold w, momentum_at. fold cc. field. lra. }
  assert (B := boost_sq w). assert (BG := boost_ge w).
  set (r := sqrt (1 - s * s / cc)) in *. clearbody r w. assert (WW : w * w * (r * r) = s * s) by (rewrite <- WE; ring).
  assert (E : boost w * boost w * (r * r) = 1).
  { rewrite B. replace ((1 + w * w / cc) * (r * r)) with (r * r + w * w * (r * r) / cc) by (field; lra). rewrite WW, SQ. lra. }
  split; [|rewrite <- SQ; exact E]. apply Rmult_eq_reg_r with (boost w); [|lra]. unfold Rdiv. rewrite Rmult_assoc, Rinv_l, Rmult_1_r by lra.
  assert (BS : boost w * r = 1).
  { apply Rsqr_inj; [apply Rmult_le_pos; lra|lra|]. unfold Rsqr. rewrite Rmult_1_r. rewrite <- E. ring. }
  rewrite <- WE. rewrite Rmult_assoc, (Rmult_comm r), BS. ring.
Qed.

Lemma boost_mono : forall w b, 0 <= w <= b -> boost w <= boost b.
Proof.
  intros w b H. unfold boost. apply sqrt_le_1_alt. assert (C := cc_pos). assert (w * w / cc <= b * b / cc); [|lra].
  apply Rmult_le_compat_r; [left; now apply Rinv_0_lt_compat|]. apply Rmult_le_compat; lra.
Qed.

(** ** One push *)
Lemma push_slow : forall (dt q m : b64) (e h v : gvec A) w b, sane q m -> fin dt -> 0 < B2R dt <= bp (-18) -> mgv pw lg e 265 -> mgv pw lg h 265 -> finite3 pw lg v ->
  size3 v < 300000000 -> impulse pw lg q m dt e <= w -> momentum v + w <= b -> copes a b ->
  exists v', gboris_push A true dt q m e h v = Ok v' /\ finite3 pw lg v' /\ size3 v' < 300000000 /\
    Rabs (momentum v' - momentum v) <= impulse pw lg q m dt e + (let g := lorentz (b + 1) in (8 * a + 1024) * bpow radix2 (-53) * (g * g) * b + / 100000000000000 * (g * g * g)).
Proof.
  intros dt q m e h v w b HQ FD HD HE HH FV SV HI HB HC. assert (VP := size_pos pw lg v). destruct (speed_of _ (conj VP SV)) as (W0 & WS & WB). fold (momentum v) in W0, WS, WB.
  assert (KK : 2 * kick pw lg q m dt e = impulse pw lg q m dt e).
  { unfold kick, impulse. destruct HQ as (_ & _ & (ML & _) & _). assert (0 < B2R m) by (apply Rlt_le_trans with (2 := ML); apply bpow_gt_0). field. lra. }
  assert (I0 : 0 <= impulse pw lg q m dt e).
  { unfold impulse. destruct HQ as (_ & _ & (ML & _) & _). assert (0 < B2R m) by (apply Rlt_le_trans with (2 := ML); apply bpow_gt_0).
    apply Rmult_le_pos; [|apply size_pos]. apply Rmult_le_pos; [apply Rmult_le_pos; [apply Rabs_pos|lra]|left; now apply Rinv_0_lt_compat]. }
  unfold copes in HC. cbv zeta in *. rewrite lorentz_boost in *. set (g := boost (b + 1)) in *. assert (G := boost_ge (b + 1)). fold g in G. change (bpow radix2 (-53)) with u in *.
  assert (GE := boost_mono (momentum v) (b + 1) ltac:(lra)). fold g in GE. assert (GB := boost_ge (momentum v)).
  assert (DV : 0 <= 1 - size3 v * size3 v / cc).
  { destruct (Rle_lt_dec 0 (1 - size3 v * size3 v / cc)) as [X|X]; [exact X|]. exfalso. assert (0 <= boost (momentum v) * boost (momentum v)) by nra. nra. }
  assert (C := cc_pos).
  destruct (push_momentum pw lg a HA HP dt q m e h v g HQ FD HD HE HH FV G HC) as (v' & E & F & L & _ & D).
  - apply Rle_trans with (1 := Req_le _ _ (eq_sym WB)). apply Rmult_le_compat_r; [exact DV|]. apply Rmult_le_compat; lra.
  - rewrite KK. unfold g. rewrite boost_sq. apply Rplus_le_compat_l. apply Rmult_le_compat_r; [left; now apply Rinv_0_lt_compat|]. apply Rmult_le_compat; lra.
  - exists v'. split; [exact E|]. split; [exact F|]. split; [exact L|]. rewrite KK in D. apply Rle_trans with (1 := D). rewrite Rplus_assoc. apply Rplus_le_compat_l, Rplus_le_compat_r.
    apply Rmult_le_compat_l; [|lra]. assert (P := u_pos). apply Rmult_le_pos; [apply Rmult_le_pos; lra|nra].
Qed.

(** ** Back to the half-plane *)
Lemma cosine_near : forall s : b64, fin s -> Rabs (B2R s) <= 85 / 100 -> let co := b64_sqrt (b64_sub (b64_of_Z 1) (b64_mul s s)) in
  fin co /\ 0 <= B2R co <= 1 /\ Rabs (B2R co * B2R co + B2R s * B2R s - 1) <= 5 * u.
Proof.
  intros s FS SB co. destruct (of_Z_exact 1 eq_refl) as (FO & EO). assert (P := u_pos). assert (TN := tiny_num). assert (UV := u_val).
  assert (TU : tiny <= u / 1000) by (rewrite u_val; lra).
  assert (SS : 0 <= B2R s * B2R s <= 73 / 100).
  { assert (Q := Rle_0_sqr (B2R s)). unfold Rsqr in Q. apply Rabs_le_inv in SB. split; [exact Q|]. nra. }
  destruct (mul_ok s s FS FS) as (FM & EM); [rewrite Rabs_pos_eq by lra; apply Rle_trans with (bp 0); [change (bp 0) with 1; lra|apply bpow_le; lia]|].
  assert (R1 := rnd_err (B2R s * B2R s)). rewrite <- EM in R1. rewrite (Rabs_pos_eq (B2R s * B2R s)) in R1 by lra.
  assert (U1 : u * (B2R s * B2R s) <= u * (73 / 100)) by (apply Rmult_le_compat_l; lra). apply Rabs_le_inv in R1.
  assert (S2 : 0 <= B2R (b64_mul s s) <= 74 / 100) by (split; [rewrite EM; apply rnd_nonneg; lra|lra]).
  destruct (sub_ok (b64_of_Z 1) (b64_mul s s) FO FM) as (FD & ED).
  { rewrite EO, Rabs_pos_eq by lra. apply Rle_trans with (bp 0); [change (bp 0) with 1; lra|apply bpow_le; lia]. }
  rewrite EO in ED. assert (R2 := rnd_err (1 - B2R (b64_mul s s))). rewrite <- ED in R2. rewrite (Rabs_pos_eq (1 - B2R (b64_mul s s))) in R2 by lra.
  assert (U2 : u * (1 - B2R (b64_mul s s)) <= u) by (rewrite <- (Rmult_1_r u) at 2; apply Rmult_le_compat_l; lra). apply Rabs_le_inv in R2.
  assert (DB : 0 <= B2R (b64_sub (b64_of_Z 1) (b64_mul s s)) <= 1).
  { rewrite ED. split; [apply rnd_nonneg; lra|]. rewrite <- (rnd_exact_Z 1) at 2 by reflexivity. apply rnd_mono. lra. }
  destruct (sqrt_ok _ FD (proj1 DB)) as (FQ & EQ). fold co in FQ, EQ. set (D := B2R (b64_sub (b64_of_Z 1) (b64_mul s s))) in *.
  assert (QP := sqrt_pos D). assert (QQ := sqrt_sqrt D (proj1 DB)). assert (Q1 : sqrt D <= 1) by (apply Rle_trans with (sqrt 1); [apply sqrt_le_1_alt; lra|rewrite sqrt_1; lra]).
  assert (R3 := rnd_err (sqrt D)). rewrite <- EQ in R3. rewrite (Rabs_pos_eq (sqrt D)) in R3 by lra.
  assert (U3 : u * sqrt D <= u) by (rewrite <- (Rmult_1_r u) at 2; apply Rmult_le_compat_l; lra). apply Rabs_le_inv in R3.
  assert (C1 : 0 <= B2R co <= 1). { rewrite EQ. split; [apply rnd_nonneg; lra|]. rewrite <- (rnd_exact_Z 1) by reflexivity. apply rnd_mono. lra. }
  split; [exact FQ|]. split; [exact C1|].
  assert (CD : Rabs (B2R co * B2R co - D) <= 1001 / 1000 * u * 2).
  { rewrite <- QQ. replace (B2R co * B2R co - sqrt D * sqrt D) with ((B2R co - sqrt D) * (B2R co + sqrt D)) by ring. rewrite Rabs_mult. apply Rmult_le_compat; try apply Rabs_pos; apply Rabs_le; lra. }
  apply Rabs_le_inv in CD. apply Rabs_le. unfold D in *. lra.
Qed.

Lemma turned_length : forall c s x y z, Rabs (c * c + s * s - 1) <= 5 * u -> Rabs (length3 (c * x - s * y) (s * x + c * y) z - length3 x y z) <= 5 * u * length3 x y z.
Proof.
  intros c s x y z H. assert (P := u_pos). assert (UV := u_val). assert (UL : u <= / 1000000) by (rewrite u_val; lra). apply Rabs_le_inv in H.
  assert (L := length_pos x y z). set (l := length3 x y z) in *. assert (LL : l * l = x * x + y * y + z * z) by apply length_sq.
  assert (N : (c * x - s * y) * (c * x - s * y) + (s * x + c * y) * (s * x + c * y) = (c * c + s * s) * (x * x + y * y)) by ring.
  assert (Q1 := Rle_0_sqr x). assert (Q2 := Rle_0_sqr y). assert (Q3 := Rle_0_sqr z). unfold Rsqr in *.
  assert (XY : Rabs ((c * c + s * s - 1) * (x * x + y * y)) <= 5 * u * (x * x + y * y)).
  { rewrite Rabs_mult, (Rabs_pos_eq (x * x + y * y)) by lra. apply Rmult_le_compat_r; [lra|]. apply Rabs_le. lra. }
  assert (XL : 5 * u * (x * x + y * y) <= 5 * u * (l * l)) by (apply Rmult_le_compat_l; lra). apply Rabs_le_inv in XY.
  set (l' := length3 _ _ z). assert (L' : 0 <= l') by apply length_pos.
  assert (LL' : l' * l' = (c * c + s * s) * (x * x + y * y) + z * z) by (unfold l'; rewrite length_sq, <- N; ring).
  assert (DD : - (5 * u * (l * l)) <= l' * l' - l * l <= 5 * u * (l * l)) by lra. clearbody l l'.
  apply Rabs_le. split.
  - apply Rnot_lt_le. intro X. assert (l' * l' <= (l - 5 * u * l) * (l - 5 * u * l)) by (apply Rmult_le_compat; lra).
    assert (0 < l) by nra. assert (0 <= u * u * (l * l)) by (repeat apply Rmult_le_pos; lra). assert (0 < u * (l * l)) by (repeat apply Rmult_lt_0_compat; lra).
    assert (u * u * (l * l) <= / 1000000 * (u * (l * l))) by (rewrite Rmult_assoc; apply Rmult_le_compat_r; [apply Rmult_le_pos; nra|exact UL]).
    replace ((l - 5 * u * l) * (l - 5 * u * l)) with (l * l - 10 * (u * (l * l)) + 25 * (u * u * (l * l))) in H0 by ring. lra.
  - apply Rnot_lt_le. intro X. assert (XX : l + 5 * u * l <= l') by lra. assert ((l + 5 * u * l) * (l + 5 * u * l) <= l' * l').
    { assert (0 <= u * l) by (apply Rmult_le_pos; lra). apply Rmult_le_compat; lra. }
    assert (0 <= u * u * (l * l)) by (repeat apply Rmult_le_pos; lra).
    destruct (Rle_lt_or_eq_dec 0 l L) as [LP|<-]; [|assert (l' * l' = 0) by lra; assert (l' = 0) by nra; lra].
    assert (0 < u * (l * l)) by (repeat apply Rmult_lt_0_compat; lra).
    replace ((l + 5 * u * l) * (l + 5 * u * l)) with (l * l + 10 * (u * (l * l)) + 25 * (u * u * (l * l))) in H0 by ring. lra.
Qed.

Lemma back_near : forall (s v0 v1 v2 : b64), fin s -> Rabs (B2R s) <= 85 / 100 -> fin v0 -> fin v1 -> fin v2 -> size3 (GV A v0 v1 v2) <= 1000000000 ->
  let co := b64_sqrt (b64_sub (b64_of_Z 1) (b64_mul s s)) in
  let v' := GV A (b64_sub (b64_mul co v0) (b64_mul s v1)) (b64_add (b64_mul s v0) (b64_mul co v1)) v2 in
  finite3 pw lg v' /\ Rabs (size3 v' - size3 (GV A v0 v1 v2)) <= 20 * u * (size3 (GV A v0 v1 v2) + phi).
Proof.
  intros s v0 v1 v2 FS SB F0 F1 F2 SL co v'. destruct (cosine_near s FS SB) as (FC & C1 & CN). fold co in FC, C1, CN.
  assert (P := u_pos). assert (PP := phi_val). assert (VP := size_pos pw lg (GV A v0 v1 v2)). set (S := size3 (GV A v0 v1 v2)) in *.
  assert (CP := length_part (B2R v0) (B2R v1) (B2R v2)). change (length3 (B2R v0) (B2R v1) (B2R v2)) with S in CP.
  assert (RS : rg (S + phi) (-100) 40). { split; [change (bp (-100)) with phi; lra|replace (bp 40) with 1099511627776 by reflexivity; lra]. }
  assert (NS := near_exact s 1 FS ltac:(lra)). assert (NC := near_exact co 1 FC ltac:(rewrite Rabs_pos_eq; lra)).
  assert (MUL : forall x y : b64, near x (B2R x) 1 0 -> fin y -> Rabs (B2R y) <= S -> near (b64_mul x y) (B2R x * B2R y) (S + phi) (5 / 4)).
  { intros x y NX FY YS. assert (NY := near_exact y (S + phi) FY ltac:(lra)). assert (N := near_mul _ _ _ _ _ _ _ _ 0 NX NY ltac:(lra) ltac:(ku)). give N ltac:(rgs).
    refine (near_weaken _ _ _ _ _ _ N _ _ _); try lra. ku. }
  assert (RS2 : rg (S + phi + (S + phi)) (-100) 41) by (split; [destruct RS; lra|replace (bp 41) with 2199023255552 by reflexivity; lra]).
  assert (N0 := near_sub _ _ _ _ _ _ _ _ (5 / 4) (MUL co v0 NC F0 (proj1 CP)) (MUL s v1 NS F1 (proj1 (proj2 CP))) ltac:(lra) ltac:(lra) ltac:(ku)). give N0 ltac:(rgs).
  assert (N1 := near_add _ _ _ _ _ _ _ _ (5 / 4) (MUL s v0 NS F0 (proj1 CP)) (MUL co v1 NC F1 (proj1 (proj2 CP))) ltac:(lra) ltac:(lra) ltac:(ku)). give N1 ltac:(rgs).
  split; [split; [exact (proj1 N0)|split; [exact (proj1 N1)|exact F2]]|].
  assert (E0 := proj2 (proj2 (proj2 N0))). assert (E1 := proj2 (proj2 (proj2 N1))).
  assert (E2 : Rabs (B2R v2 - B2R v2) <= (5 / 4 + 5 / 4) * u * (S + phi + (S + phi))).
  { rewrite Rminus_diag_eq, Rabs_R0 by reflexivity. repeat apply Rmult_le_pos; lra. }
  assert (NE := length_near _ _ _ _ _ _ _ E0 E1 E2). change (length3 (B2R (b64_sub (b64_mul co v0) (b64_mul s v1))) (B2R (b64_add (b64_mul s v0) (b64_mul co v1))) (B2R v2)) with (size3 v') in NE.
  assert (TL := turned_length (B2R co) (B2R s) (B2R v0) (B2R v1) (B2R v2) CN). change (length3 (B2R v0) (B2R v1) (B2R v2)) with S in TL.
  apply Rabs_le_inv in NE. apply Rabs_le_inv in TL. assert (0 <= u * S) by (apply Rmult_le_pos; lra). assert (0 <= u * phi) by (apply Rmult_le_pos; lra). apply Rabs_le. lra.
Qed.

Lemma back_slow : forall (s : b64) (v : gvec A) b, fin s -> Rabs (B2R s) <= 85 / 100 -> finite3 pw lg v -> size3 v < 300000000 -> momentum v <= b -> copes a b ->
  let co := b64_sqrt (b64_sub (b64_of_Z 1) (b64_mul s s)) in
  let v' := GV A (b64_sub (b64_mul co (g0 A v)) (b64_mul s (g1 A v))) (b64_add (b64_mul s (g0 A v)) (b64_mul co (g1 A v))) (g2 A v) in
  finite3 pw lg v' /\ size3 v' < 300000000 /\
  Rabs (momentum v' - momentum v) <= (let g := lorentz (b + 1) in 60 * bpow radix2 (-53) * (g * g) * b + / 1000000000000000 * (g * g * g)).
Proof.
  intros s [v0 v1 v2] b FS SB (F0 & F1 & F2) SV HB HC co v'. cbn [g0 g1 g2] in *. set (v := GV A v0 v1 v2) in *.
  destruct (back_near s v0 v1 v2 FS SB F0 F1 F2 ltac:(unfold v in SV; lra)) as (F' & D). fold co in F', D. fold v' in F', D. fold v in D. split; [exact F'|].
  assert (VP := size_pos pw lg v). assert (VP' := size_pos pw lg v'). destruct (speed_of _ (conj VP SV)) as (W0 & WS & WB). fold (momentum v) in W0, WS, WB. set (w := momentum v) in *.
  unfold copes in HC. cbv zeta in *. rewrite lorentz_boost in *. set (g := boost (b + 1)) in *. assert (G := boost_ge (b + 1)). fold g in G. change (bpow radix2 (-53)) with u in *.
  assert (GE := boost_mono w (b + 1) ltac:(lra)). fold g in GE. assert (GB := boost_ge w). set (k := boost w) in *. assert (P := u_pos). assert (PP := phi_val).
  assert (GG : k * k <= g * g) by (apply Rmult_le_compat; lra). assert (G1 : 1 <= k * k) by (rewrite <- (Rmult_1_l 1) at 1; apply Rmult_le_compat; lra).
  assert (UG : u * (g * g) <= / 65536).
  { assert (0 <= u * (g * g)) by (apply Rmult_le_pos; lra). assert (0 <= a * (u * (g * g))) by (apply Rmult_le_pos; lra). replace ((8 * a + 1024) * u * (g * g)) with (8 * (a * (u * (g * g))) + 1024 * (u * (g * g))) in HC by ring. lra. }
  rewrite WS in D. set (t := w / k) in *. assert (TV : 0 <= t <= 300000000) by (rewrite <- WS; lra).
  assert (SML : Rabs (size3 v' - t) <= 300000000 / (32 * (k * k))).
  { apply Rle_trans with (1 := D). apply Rle_trans with (20 * u * 300000001); [apply Rmult_le_compat_l; lra|].
    apply Rmult_le_reg_r with (32 * (k * k)); [lra|]. replace (300000000 / (32 * (k * k)) * (32 * (k * k))) with 300000000 by (field; lra).
    assert (u * (k * k) <= u * (g * g)) by (apply Rmult_le_compat_l; lra). lra. }
  destruct (momentum_close w (size3 v') k W0 VP' ltac:(apply Rle_refl) SML) as (LT & _ & MC). fold k in MC. fold t in MC. split; [exact LT|]. change (momentum_at (size3 v')) with (momentum v') in MC.
  apply Rle_trans with (1 := MC). apply Rle_trans with (3 * (k * k * k) * (20 * u * (t + phi))); [apply Rmult_le_compat_l; [repeat apply Rmult_le_pos; lra|exact D]|].
  replace (3 * (k * k * k) * (20 * u * (t + phi))) with (60 * (u * (k * k)) * w + 60 * u * phi * (k * k * k)) by (unfold t; field; lra).
  assert (K3 : k * k * k <= g * g * g) by (apply Rmult_le_compat; lra). assert (UK : u * (k * k) <= u * (g * g)) by (apply Rmult_le_compat_l; lra).
  assert (0 <= u * (k * k)) by (apply Rmult_le_pos; lra).
  apply Rplus_le_compat.
  - replace (60 * u * (g * g) * b) with (60 * (u * (g * g)) * b) by ring. apply Rmult_le_compat; lra.
  - apply Rmult_le_compat; [apply Rmult_le_pos; lra|repeat apply Rmult_le_pos; lra| |exact K3]. rewrite u_val in *. lra.
Qed.

End Slow.

(** ** Many pushes of one particle *)
Section Pushes.
Variables pw lg : b64 -> b64.
Notation A := (b64_arith pw lg).
Variable a : R.
Hypothesis HA : 0 <= a <= 8192.
Hypothesis HP : close_pow pw a.

Lemma mgv_of : forall e : gvec A, finite3 pw lg e -> size3 pw lg e <= bpow radix2 251 -> mgv pw lg e 265.
Proof.
  intros e (F0 & F1 & F2) S. destruct (length_part (@B2R prec64 emax64 (g0 A e)) (@B2R prec64 emax64 (g1 A e)) (@B2R prec64 emax64 (g2 A e))) as (L0 & L1 & L2).
  fold (size3 pw lg e) in L0, L1, L2. assert (K : bp 251 <= bp 265) by (apply bpow_le; lia).
  split; [|split]; (split; [assumption|]; eapply Rle_trans; [eassumption|]; eapply Rle_trans; eassumption).
Qed.

Lemma push_close : forall (dt q m : b64) (e h v : gvec A) b, sane q m -> fin dt -> 0 < B2R dt <= bp (-18) -> finite3 pw lg e -> size3 pw lg e <= bpow radix2 251 ->
  finite3 pw lg h -> size3 pw lg h <= bpow radix2 251 -> finite3 pw lg v -> size3 pw lg v < 300000000 -> momentum pw lg v + impulse pw lg q m dt e <= b -> copes a b ->
  exists v', gboris_push A true dt q m e h v = Ok v' /\ finite3 pw lg v' /\ size3 pw lg v' < 300000000 /\
    Rabs (momentum pw lg v' - momentum pw lg v) <= impulse pw lg q m dt e + step_error a b.
Proof.
  intros dt q m e h v b HQ FD HD FE SE FH SH FV SV HB HC.
  destruct (push_slow pw lg a HA HP dt q m e h v (impulse pw lg q m dt e) b HQ FD HD (mgv_of e FE SE) (mgv_of h FH SH) FV SV ltac:(lra) HB HC) as (v' & E & F & L & D).
  exists v'. split; [exact E|]. split; [exact F|]. split; [exact L|]. apply Rle_trans with (1 := D). apply Rplus_le_compat_l. unfold step_error. cbv zeta.
  assert (I0 : 0 <= impulse pw lg q m dt e).
  { unfold impulse. destruct HQ as (_ & _ & (ML & _) & _). assert (0 < B2R m) by (apply Rlt_le_trans with (2 := ML); apply bpow_gt_0).
    apply Rmult_le_pos; [|apply size_pos]. apply Rmult_le_pos; [apply Rmult_le_pos; [apply Rabs_pos|lra]|left; now apply Rinv_0_lt_compat]. }
  destruct (speed_of _ (conj (size_pos pw lg v) SV)) as (W0 & _). fold (momentum pw lg v) in W0.
  assert (G := boost_ge (b + 1)). rewrite lorentz_boost. set (g := boost (b + 1)) in *. assert (P := u_pos). change (bpow radix2 (-53)) with u.
  assert (0 <= u * (g * g) * b) by (repeat apply Rmult_le_pos; lra). assert (0 <= g * g * g) by (repeat apply Rmult_le_pos; lra). lra.
Qed.

Lemma pushes_close : forall (dt q m : b64) fs (v : gvec A) b, 0 <= b -> sane q m -> fin dt -> 0 < B2R dt <= bp (-18) ->
  Forall (fun f => (finite3 pw lg (fst f) /\ size3 pw lg (fst f) <= bpow radix2 251) /\ finite3 pw lg (snd f) /\ size3 pw lg (snd f) <= bpow radix2 251) fs ->
  finite3 pw lg v -> size3 pw lg v < 300000000 -> momentum pw lg v + total_impulse pw lg q m dt fs + INR (length fs) * step_error a b <= b -> copes a b ->
  exists v', pushes pw lg dt q m fs v = Ok v' /\ finite3 pw lg v' /\ size3 pw lg v' < 300000000 /\
    Rabs (momentum pw lg v' - momentum pw lg v) <= total_impulse pw lg q m dt fs + INR (length fs) * step_error a b.
Proof.
  intros dt q m fs v b B0 HQ FD HD FS. revert v. induction FS as [|(e & h) fs ((FE & SE) & FH & SH) _ IH]; intros v FV SV HB HC.
  { exists v. cbn [pushes total_impulse length INR]. split; [reflexivity|]. split; [exact FV|]. split; [exact SV|]. rewrite Rminus_diag_eq, Rabs_R0 by reflexivity. lra. }
  cbn [pushes total_impulse fst snd] in *. cbn [length] in *. rewrite S_INR in *.
  assert (T0 : forall l, 0 <= total_impulse pw lg q m dt l).
  { induction l as [|(e' & h') l IHl]; cbn [total_impulse fst]; [lra|]. assert (0 <= impulse pw lg q m dt e'); [|lra].
    unfold impulse. destruct HQ as (_ & _ & (ML & _) & _). assert (0 < B2R m) by (apply Rlt_le_trans with (2 := ML); apply bpow_gt_0).
    apply Rmult_le_pos; [|apply size_pos]. apply Rmult_le_pos; [apply Rmult_le_pos; [apply Rabs_pos|lra]|left; now apply Rinv_0_lt_compat]. }
  destruct (speed_of _ (conj (size_pos pw lg v) SV)) as (W0 & _). fold (momentum pw lg v) in W0.
  assert (N0 := pos_INR (length fs)). assert (TF := T0 fs). assert (TE := T0 [(e, h)]). cbn [total_impulse fst] in TE.
  assert (E0 : 0 <= step_error a b).
  { unfold step_error. cbv zeta. assert (G := boost_ge (b + 1)). rewrite lorentz_boost. set (g := boost (b + 1)) in *. assert (P := u_pos). change (bpow radix2 (-53)) with u.
    apply Rplus_le_le_0_compat; repeat apply Rmult_le_pos; lra. }
  assert (NE : 0 <= INR (length fs) * step_error a b) by (apply Rmult_le_pos; lra).
  destruct (push_close dt q m e h v b HQ FD HD FE SE FH SH FV SV ltac:(lra) HC) as (v1 & E1 & F1 & L1 & D1). apply Rabs_le_inv in D1. rewrite E1. cbn [bind].
  destruct (IH v1 F1 L1 ltac:(lra) HC) as (v' & E2 & F2 & L2 & D2). apply Rabs_le_inv in D2.
  exists v'. split; [exact E2|]. split; [exact F2|]. split; [exact L2|]. apply Rabs_le. lra.
Qed.
End Pushes.

(** ** Outcomes *)
Definition good {X : Type} (o : outcome X) (P : X -> Prop) : Prop := exists x, o = Ok x /\ P x.
Lemma good_bind : forall {X Y : Type} (o : outcome X) (f : X -> outcome Y) P Q, good o P -> (forall x, P x -> good (f x) Q) -> good (bind o f) Q.
Proof. intros X Y o f P Q (x & -> & H) K. cbn [bind]. now apply K. Qed.
Lemma good_ok : forall {X : Type} (x : X) (P : X -> Prop), P x -> good (Ok x) P.
Proof. intros X x P H. exists x. auto. Qed.
Lemma good_weaken : forall {X : Type} (o : outcome X) (P Q : X -> Prop), good o P -> (forall x, P x -> Q x) -> good o Q.
Proof. intros X o P Q (x & E & H) K. exists x. auto. Qed.
Lemma safe_good : forall {X : Type} (o : outcome X) (P Q : X -> Prop), safe o P -> good o Q -> good o (fun x => P x /\ Q x).
Proof. intros X o P Q [E|(x & E & H)] (y & F & K); [congruence|]. exists x. split; [exact E|]. split; [exact H|]. congruence. Qed.
Lemma traverse_good : forall {X Y : Type} (f : X -> outcome Y) (P : X -> Prop) (Q : X -> Y -> Prop),
  (forall x, P x -> good (f x) (Q x)) -> forall l, Forall P l -> good (Sim.traverse f l) (Forall2 Q l).
Proof.
  intros X Y f P Q H l F. induction F as [|x l Hx _ IH]; [apply good_ok; constructor|]. cbn [Sim.traverse].
  apply good_bind with (1 := H x Hx). intros y Hy. apply good_bind with (1 := IH). intros ys Hys. apply good_ok. now constructor.
Qed.
Lemma ofold_good : forall {X S : Type} (f : X -> S -> outcome S) (P : X -> Prop), (forall x s, P x -> good (f x s) (fun _ => True)) ->
  forall l s, Forall P l -> good (ofold f l s) (fun _ => True).
Proof.
  intros X S f P H l s F. revert s. induction F as [|x l Hx _ IH]; intro s; [now apply good_ok|]. cbn [ofold].
  apply good_bind with (1 := H x s Hx). intros s' _. apply IH.
Qed.

Section Gentle.
Variables pw lg : b64 -> b64.
Notation A := (b64_arith pw lg).
Variable a : R.
Hypothesis HA : 0 <= a <= 8192.
Hypothesis HPC : close_pow pw a.
Hypothesis HP : good_pow pw.
Variable c : config A.
Notation g := (c_geom A c).
Notation dt := (c_dt A c).
Hypothesis HF : fine pw lg g dt.
Hypothesis HB : border_clear pw lg g.
Hypothesis HU : c_pusher A c = BorisRelativistic \/ c_pusher A c = BorisAdaptive true.
Variable b : R.
Hypothesis B0 : 0 <= b.
Hypothesis HC : copes a b.
Notation ok := (ok pw lg c).
Notation mid := (mid pw lg c).
Notation moved := (moved pw lg c).
Notation slow := (slow_particle pw lg).
Notation x0 v := (@B2R prec64 emax64 (g0 A v)).
Notation x1 v := (@B2R prec64 emax64 (g1 A v)).
Notation x2 v := (@B2R prec64 emax64 (g2 A v)).

Definition err1 : R := let g := lorentz (b + 1) in (8 * a + 1024) * bpow radix2 (-53) * (g * g) * b + / 100000000000000 * (g * g * g).
Definition err2 : R := let g := lorentz (b + 1) in 60 * bpow radix2 (-53) * (g * g) * b + / 1000000000000000 * (g * g * g).
Lemma lorentz_ge : 1 <= lorentz (b + 1). Proof. apply boost_ge. Qed.
Lemma err_pos : 0 <= err1 /\ 0 <= err2.
Proof.
  assert (G := lorentz_ge). assert (P := u_pos). unfold err1, err2. cbv zeta. change (bpow radix2 (-53)) with u. set (k := lorentz (b + 1)) in *.
  split; apply Rplus_le_le_0_compat; repeat apply Rmult_le_pos; lra.
Qed.
Lemma errs : err1 + err2 <= step_error a b.
Proof.
  assert (G := lorentz_ge). assert (P := u_pos). unfold err1, err2, step_error. cbv zeta. change (bpow radix2 (-53)) with u. set (k := lorentz (b + 1)) in *.
  assert (0 <= u * (k * k) * b) by (repeat apply Rmult_le_pos; lra). assert (0 <= k * k * k) by (repeat apply Rmult_le_pos; lra). lra.
Qed.

Lemma slow_weaken : forall b1 b2 p, slow b1 p -> b1 <= b2 -> slow b2 p.
Proof. intros b1 b2 p H L AL. destruct (H AL) as (S & M). split; [exact S|lra]. Qed.

(** ** One particle *)

Lemma step_v_good : forall m p b0 w, calm pw lg g m -> ok p -> slow b0 p -> b0 + w <= b ->
  (galive A p = true -> impulse pw lg (gcharge A p) (gmass A p) dt (gget_efield A g m (g0 A (gpos A (gph A p))) (g2 A (gpos A (gph A p)))) <= w) ->
  good (gstep_v_one A (c_pusher A c) g dt m p) (fun p' => (mid p' /\ kept_as pw lg (roomy pw lg c) (roomy_old pw lg c) p p') /\ slow (b0 + w + err1) p').
Proof.
  intros m p b0 w CM OK SL HB0 HI. apply safe_good; [now apply step_v_safe|]. unfold gstep_v_one. destruct (galive A p) eqn:AL.
  2: { apply good_ok. intro X. congruence. }
  destruct (OK AL) as (R & Z & F1 & Y0 & V0 & V1 & V2 & SN). assert (HM := fits_home pw lg c _ _ R Z).
  cbv zeta. change (finite A) with (@is_finite prec64 emax64). destruct R as (FR & R). destruct Z as (FZ & Z). cbn [num b64_arith] in *. rewrite FR, FZ. cbn [andb].
  assert (PU : gpush A (c_pusher A c) dt (gcharge A p) (gmass A p) (gget_efield A g m (g0 A (gpos A (gph A p))) (g2 A (gpos A (gph A p))))
                 (gget_hfield A g m (g0 A (gpos A (gph A p))) (g2 A (gpos A (gph A p)))) (gvel A (gph A p)) =
               gboris_push A true dt (gcharge A p) (gmass A p) (gget_efield A g m (g0 A (gpos A (gph A p))) (g2 A (gpos A (gph A p))))
                 (gget_hfield A g m (g0 A (gpos A (gph A p))) (g2 A (gpos A (gph A p)))) (gvel A (gph A p))).
  { destruct HU as [-> | ->]; [reflexivity|]. unfold gpush. cbv zeta. destruct (ltb A _ _); reflexivity. }
  rewrite PU. clear PU. destruct (felt pw lg g dt HF m _ _ HM CM) as (E & H). destruct (dt_small pw lg c HF) as (FD & DD).
  destruct (SL AL) as (S1 & S2). assert (FV : finite3 pw lg (gvel A (gph A p))) by (split; [apply V0|split; [apply V1|apply V2]]).
  destruct (push_slow pw lg a HA HPC dt (gcharge A p) (gmass A p) _ _ (gvel A (gph A p)) w b SN FD DD E H FV S1 (HI eq_refl) ltac:(lra) HC) as (v' & EV & FV' & S1' & S2').
  destruct (boris_ok pw lg HP dt (gcharge A p) (gmass A p) _ _ (gvel A (gph A p)) SN FD DD E H (conj V0 (conj V1 V2))) as [X | (v'' & EV' & LV)]; [rewrite EV in X; discriminate X|].
  rewrite EV in EV'. injection EV' as <-. rewrite EV. cbn [bind].
  destruct (first_half64 pw lg g dt HF (gph A p) v' HM F1 Y0 LV) as (f' & -> & O1 & O2 & O3 & O4 & O5). cbn [bind]. apply good_ok.
  intros _. cbn [gwith_phase gph]. rewrite O3. split; [exact S1'|]. fold err1 in S2'. apply Rabs_le_inv in S2'. assert (HI' := HI eq_refl). cbn [num b64_arith] in *. lra.
Qed.

Lemma returned_size : forall f f', returned pw lg g f f' -> size3 pw lg (gvel A f') = size3 pw lg (gvel A f).
Proof.
  intros f f' (_ & _ & _ & _ & _ & _ & W0 & W1 & W2). unfold size3. rewrite W1. cbn [num b64_arith] in *.
  assert (OP : forall x y : b64, (y = x \/ y = Bopp x \/ y = Bopp (Bopp x)) -> B2R y * B2R y = B2R x * B2R x) by (intros x y [-> |[-> | ->]]; rewrite ?B2R_Bopp; ring).
  apply length_eq. rewrite (OP _ _ W0), (OP _ _ W2). reflexivity.
Qed.

Lemma half_reflect_good : forall is_bunch p b0, mid p -> slow b0 p ->
  good (ghalf_reflect A g dt is_bunch p) (fun p' => (moved p' /\ kept_as pw lg (fun x => roomy_old pw lg c x) (fun _ => True) p p') /\ slow b0 p').
Proof.
  intros bu p b0 M SL. apply safe_good; [now apply half_reflect_safe|]. unfold ghalf_reflect. destruct (galive A p) eqn:AL.
  2: { apply good_ok. intro X. congruence. }
  destruct (M AL) as (MW & Y0 & LV & SN). destruct MW as (HO & FR & _ & _ & FZ & _). destruct (SL AL) as (S1 & S2).
  assert (E : exists f1, ghalf_step_pos A dt (gph A p) = Ok f1 /\ gvel A f1 = gvel A (gph A p)).
  { unfold ghalf_step_pos. cbv zeta. change (finite A) with (@is_finite prec64 emax64). cbn [num b64_arith] in *. rewrite FR, FZ. cbn [andb]. eexists. split; reflexivity. }
  destruct E as (f1 & E & EV). rewrite E. cbn [bind].
  assert (K : forall f', returned pw lg g f1 f' -> Momentum.slow pw lg b0 (gvel A f')).
  { intros f' RT. assert (SZ := returned_size _ _ RT). rewrite EV in SZ. unfold Momentum.slow, momentum. rewrite SZ. split; [exact S1|exact S2]. }
  destruct bu.
  - destruct (gbunch_reflection A g f1) as (al & f) eqn:BR. apply good_ok. intro AL'. cbn [galive] in AL'. subst al. cbn [gph].
    assert (RT := bunch_returned pw lg g f1). rewrite BR in RT. apply K. now apply RT.
  - apply good_ok. intros _. unfold gwith_phase. cbn [gph]. apply K. apply reflection_returned.
Qed.

Lemma velocity_back_slow : forall p b0, moved p -> slow b0 p -> b0 <= b -> slow (b0 + err2) (gvelocity_back A p).
Proof.
  intros p b0 M SL HB0. unfold gvelocity_back. destruct (galive A p) eqn:AL; [|intro X; congruence].
  destruct (M AL) as (_ & _ & _ & _ & _ & FS & SB & (M0 & M1 & M2) & _). destruct (SL AL) as (S1 & S2). intros _. cbn [gwith_phase gph].
  destruct (back_slow pw lg a HA (gsin A (gph A p)) (gvel A (gph A p)) b FS SB (conj (proj1 M0) (conj (proj1 M1) (proj1 M2))) S1 ltac:(lra) HC) as (_ & L & D).
  split; [exact L|]. apply Rabs_le_inv in D. fold err2 in D. assert (X := proj2 D). 
  change (momentum pw lg (gvel A (gback_velocity_to_rz A (gph A p))) - momentum pw lg (gvel A (gph A p)) <= err2) in X. lra.
Qed.

Lemma azimuthal_good : forall p f, mid p -> good (gazimuthal_one A g p f) (fun _ => True).
Proof.
  intros p f M. unfold gazimuthal_one. destruct (galive A p) eqn:AL; [|now apply good_ok]. destruct (M AL) as (MW & _).
  destruct (gadd_j_ok A g _ f (midway_azimuthal pw lg g dt HF _ _ _ _ (gcharge A p) (g1 A (gvel A (gph A p))) MW)) as (f' & ->). now apply good_ok.
Qed.
Lemma current_good : forall p f, moved p -> good (gcurrent_one A g dt p f) (fun _ => True).
Proof.
  intros p f M. unfold gcurrent_one. destruct (galive A p) eqn:AL; [|now apply good_ok]. destruct (M AL) as (HO & HM & _ & NR & NZ & _).
  destruct (gadd_j_ok A g _ f (home_current pw lg g dt HF (gcharge A p) _ _ _ _ HB HO HM NR NZ)) as (f' & ->). now apply good_ok.
Qed.
Lemma charge_good : forall p rho, ok p -> good (gcharge_one A g p rho) (fun _ => True).
Proof.
  intros p rho OK. unfold gcharge_one. destruct (galive A p) eqn:AL; [|now apply good_ok]. destruct (OK AL) as (R & Z & _).
  cbv zeta. change (finite A) with (@is_finite prec64 emax64). assert (HM := fits_home pw lg c _ _ R Z). destruct R as (FR & _). destruct Z as (FZ & _). cbn [num b64_arith] in *. rewrite FR, FZ. cbn [andb].
  destruct (gadd_rho_ok A g _ rho (home_charge pw lg g dt HF (gcharge A p) _ _ HM)) as (f' & E). exists f'. split; [exact E|exact I].
Qed.

(** ** Groups *)

Definition slows (b0 : R) (gs : list (bool * list (gparticle A))) : Prop := Forall (fun x => Forall (slow b0) (snd x)) gs.

Lemma step_v_group_good : forall m x b0 w, calm pw lg g m -> Forall ok (snd x) -> Forall (slow b0) (snd x) -> b0 + w <= b ->
  (forall p, In p (snd x) -> galive A p = true -> impulse pw lg (gcharge A p) (gmass A p) dt (gget_efield A g m (g0 A (gpos A (gph A p))) (g2 A (gpos A (gph A p)))) <= w) ->
  good (gstep_v_group A c m x) (gkept pw lg (fun p => mid p /\ slow (b0 + w + err1) p) (roomy pw lg c) (roomy_old pw lg c) x).
Proof.
  intros m x b0 w CM OK SL HB0 HI. unfold gstep_v_group.
  assert (FA : Forall (fun p => ok p /\ slow b0 p /\ (galive A p = true -> impulse pw lg (gcharge A p) (gmass A p) dt (gget_efield A g m (g0 A (gpos A (gph A p))) (g2 A (gpos A (gph A p)))) <= w)) (snd x)).
  { rewrite Forall_forall in *. intros p IN. split; [now apply OK|]. split; [now apply SL|now apply HI]. }
  apply good_bind with (1 := traverse_good _ _ _ (fun p H => step_v_good m p b0 w CM (proj1 H) (proj1 (proj2 H)) HB0 (proj2 (proj2 H))) _ FA).
  intros ps H. apply good_ok. split; [reflexivity|]. cbn [snd]. refine (SimP.Forall2_weaken _ _ _ _ _ H). intros p p' ((M & K) & S). auto.
Qed.

Lemma full_current_group_good : forall x f b0, Forall (fun p => mid p /\ slow b0 p) (snd x) -> b0 <= b ->
  good (gfull_current_group A c x f) (fun y => gkept pw lg (fun p => ok p /\ slow (b0 + err2) p) (roomy_old pw lg c) (fun _ => True) x (snd y)).
Proof.
  intros x f b0 F HB0. unfold gfull_current_group. cbv zeta.
  apply good_bind with (1 := ofold_good _ _ (fun p s H => azimuthal_good p s (proj1 H)) _ f F). intros f1 _.
  apply good_bind with (1 := traverse_good _ _ _ (fun p H => half_reflect_good (fst x) p b0 (proj1 H) (proj2 H)) _ F). intros ps H.
  assert (MV : Forall moved ps) by (refine (SimP.Forall2_right _ moved _ _ _ H); intros q r K; apply K).
  apply good_bind with (1 := ofold_good _ moved (fun p s K => current_good p s K) _ f1 MV). intros f2 _. apply good_ok. cbn [snd]. split; [reflexivity|].
  cbn [snd]. apply Forall2_map_r. refine (SimP.Forall2_weaken _ _ _ _ _ H). intros q r ((M & KD & KA) & SL).
  destruct (velocity_back_ok pw lg c r M) as (V1 & V2 & V3). split; [split; [exact V1|now apply velocity_back_slow]|]. split.
  - intro AL. rewrite V2; [exact (KD AL)|]. now rewrite (KD AL).
  - intros AL RM. destruct (KA AL RM) as (AB & _). split; [congruence|exact I].
Qed.

Lemma full_current_good : forall gs f b0, Forall (fun x => Forall (fun p => mid p /\ slow b0 p) (snd x)) gs -> b0 <= b ->
  good (gfull_current A c gs f) (fun r => Forall2 (gkept pw lg (fun p => ok p /\ slow (b0 + err2) p) (roomy_old pw lg c) (fun _ => True)) gs (snd r)).
Proof.
  intros gs f b0 F HB0. revert f. induction F as [|x gs Hx _ IH]; intro f; [apply good_ok; constructor|]. cbn [gfull_current].
  apply good_bind with (1 := full_current_group_good x f b0 Hx HB0). intros y Hy. apply good_bind with (1 := IH (fst y)). intros r Hr. apply good_ok. cbn [snd]. now constructor.
Qed.

(** ** Injection *)
Notation unborn := (stills pw lg c (fun _ => False)).

Lemma kept_unborn : forall P R Q gs gs' n t k, Forall2 (gkept pw lg P R Q) gs gs' -> unborn n t k gs -> unborn n t k gs'.
Proof.
  intros P R Q gs gs' n t k H. apply (still_kept pw lg c P (fun _ => False) (fun _ => False) n t gs gs' k). refine (SimP.Forall2_weaken _ _ _ _ _ H).
  intros x y (E & F). split; [exact E|]. refine (SimP.Forall2_weaken _ _ _ _ _ F). intros p p' (HPp & KD & _). split; [exact HPp|]. split; [exact KD|]. intros _ [].
Qed.

Section Born.
Variables (n : nat) (t : b64) (b0 : R).
Hypothesis HBU : forall k p, (0 <= k < c_bunches A c)%Z -> In p (c_bunch A c k) -> Momentum.slow pw lg b0 (GV A (g0 A (gvel A (gph A p))) (g1 A (gvel A (gph A p))) (c_velocity A c)).
Hypothesis HON : forall j k x, (j < n)%nat -> (0 <= k < c_bunches A c)%Z -> injected pw lg c t k x -> ~ injected pw lg c (time pw lg c j (add A t dt)) k x.
Hypothesis HBO : (0 < c_bunches A c)%Z -> beam_ok pw lg c (S n) t.

Lemma inject_slow : forall k ps ps', (0 <= k < c_bunches A c)%Z -> Forall (slow b0) ps -> still pw lg c (fun _ => False) (S n) t k ps -> ginject A c t k ps = Ok ps' ->
  Forall (slow b0) ps' /\ still pw lg c (fun _ => False) n (add A t dt) k ps'.
Proof.
  intros k ps ps' KB SL ST E. destruct (inject_safe pw lg c HF (S n) t (HBO ltac:(lia)) t k ps) as [X|(qs & E' & H)]; [congruence|]. rewrite E in E'. injection E' as <-. split.
  - rewrite Forall_forall. intros y IN. destruct (In_nth_error _ _ IN) as (i & N). destruct (H i y N) as (p & NP & [-> |(J & z & v & _ & (_ & ->) & ->)]).
    + rewrite Forall_forall in SL. apply SL. now apply nth_error_In in NP.
    + destruct (ST i p NP) as [(_ & W)|(_ & [] & _)]; [exists 0%nat; split; [lia|exact J]|]. intros _. cbn [ginject_one gph gvel]. exact (HBU k p KB W).
  - intros i y N (j & L & J). assert (FJ : future pw lg c (S n) t k (Z.of_nat i) (S j)) by (split; [lia|exact J]).
    destruct (H i y N) as (p & NP & D). destruct (ST i p NP (ex_intro _ _ FJ)) as [(W & IW)|(_ & [] & _)].
    destruct D as [-> |(J0 & _)]; [now left|]. exfalso. exact (HON j k (Z.of_nat i) L KB J0 J).
Qed.

Lemma inject_groups_slow : forall gs gs' k, slows b0 gs -> unborn (S n) t k gs -> ginject_groups A c t k gs = Ok gs' -> slows b0 gs' /\ unborn n (add A t dt) k gs'.
Proof.
  induction gs as [|(bu & ps) gs IH]; intros gs' k SL ST E; [injection E as <-; split; [constructor|exact I]|].
  inversion SL as [|? ? P1 P2]; subst. cbn [snd] in P1. destruct bu; cbn [ginject_groups stills] in *.
  - destruct ST as (KB & S1 & S2). destruct (ginject A c t k ps) as [ps'| |] eqn:EI; try discriminate E. cbn [bind] in E.
    destruct (ginject_groups A c t (k + 1) gs) as [rs| |] eqn:EG; try discriminate E. injection E as <-.
    destruct (inject_slow k ps ps' KB P1 S1 EI) as (O1 & O2). destruct (IH rs (k + 1)%Z P2 S2 EG) as (O3 & O4). split; [now constructor|]. split; [exact KB|]. split; assumption.
  - destruct (ginject_groups A c t k gs) as [rs| |] eqn:EG; try discriminate E. injection E as <-. destruct (IH rs k P2 ST EG) as (O3 & O4). split; [now constructor|exact O4].
Qed.

Lemma beam_slow : forall s s', inv pw lg c (fun _ => True) (S n) t s -> unborn (S n) t 0 (gs_groups A s) -> slows b0 (gs_groups A s) -> gbeam A c t s = Ok s' ->
  slows b0 (gs_groups A s') /\ unborn n (add A t dt) 0 (gs_groups A s').
Proof.
  intros s s' (NB & PL & _ & _) ST SL E. unfold gbeam in E. cbv zeta in E. destruct (erase_reached A c t (gs_bunches A s)); [discriminate E|].
  assert (NN := count_nonneg pw lg (gs_groups A s)).
  assert (CR : creates A c t (gs_bunches A s) = true -> (gs_bunches A s < c_bunches A c)%Z) by (unfold creates; rewrite andb_true_iff; intros (_ & K); now apply Z.ltb_lt).
  destruct (ginject_groups A c t 0 _) as [gs'| |] eqn:EG; try discriminate E. injection E as <-. cbn [gs_groups]. refine (inject_groups_slow _ _ 0%Z _ _ EG).
  - destruct (creates A c t (gs_bunches A s)); [|exact SL]. specialize (CR eq_refl). apply Forall_app. split; [exact SL|]. constructor; [|constructor]. cbn [snd].
    refine (Forall_impl _ _ (bo_waiting pw lg c (S n) t (HBO ltac:(lia)) (gs_bunches A s) ltac:(lia))). intros p (D & _) AL. congruence.
  - destruct (creates A c t (gs_bunches A s)); [|exact ST]. specialize (CR eq_refl). apply stills_app; try assumption; try lia; [|f_equal; lia].
    apply (bo_waiting pw lg c (S n) t (HBO ltac:(lia))). lia.
Qed.
End Born.

(** ** The electric field is that of the end of the step before *)
Lemma efield_kept : forall f r z, gget_efield A g (greset_j A g (gcalc_hfield A g dt f)) r z = gget_efield A g f r z.
Proof.
  intros f r z.
  assert (K : forall x, In (fst (fst x)) [ER; EPHI; EZ] -> greset_j A g (gcalc_hfield A g dt f) x = f x).
  { intros ((ar & i) & k) IN. cbn [fst] in IN. unfold greset_j.
    assert (E : gcalc_hfield A g dt f (ar, i, k) = f (ar, i, k)).
    { unfold gcalc_hfield. apply (exec_unwritten loc_eqb loc_eqb_spec). intros x IX EX. unfold ghfield_loops in IX. cbn [concat] in IX. rewrite !concat_app in IX. rewrite !in_app_iff in IX.
      repeat destruct IX as [IX|IX]; try (apply in_concat in IX; destruct IX as (l & IL & IX); apply in_map_iff in IL; destruct IL as (y & <- & _); cbn in IX; destruct IX as [<-|[<-|[]]]; cbn in EX; injection EX as <- _ _; cbn in IN; intuition discriminate);
        cbn in IX; contradiction. }
    destruct ar; try exact E; exfalso; cbn in IN; intuition discriminate. }
  assert (W : forall m m' (l : list (gterm A)), (forall x, In x (map (t_at A) l) -> m x = m' x) -> gweighted_sum A m l = gweighted_sum A m' l).
  { intros m m' l H. unfold gweighted_sum. generalize (of_int A 0). induction l as [|x l IH]; intro s; [reflexivity|]. cbn [fold_left]. rewrite (H (t_at A x) (or_introl eq_refl)). apply IH. intros y I. apply H. now right. }
  unfold gget_efield. f_equal; apply W; intros x IN; apply K; cbn in IN; destruct IN as [<-|[<-|[<-|[<-|[]]]]]; cbn; auto.
Qed.

(** ** Runs *)
Lemma bunches_charge_good : forall gs rho, places pw lg c gs -> good (ofold (fun ps rho => ofold (gcharge_one A g) ps rho) (gbunches_of A gs) rho) (fun _ => True).
Proof.
  intros gs rho PL. apply ofold_good with (P := fun ps => Forall ok ps).
  - intros ps r F. apply ofold_good with (P := ok); [|exact F]. intros p r' OK. now apply charge_good.
  - induction PL as [|(bu & ps) gs H _ IH]; [constructor|]. unfold gbunches_of. cbn [flat_map fst snd]. destruct bu; [constructor; assumption|exact IH].
Qed.

Lemma Forall_both : forall {X} (P Q : X -> Prop) l, Forall (fun x => P x /\ Q x) l -> Forall P l /\ Forall Q l.
Proof. intros X P Q l H. split; (refine (Forall_impl _ _ H); tauto). Qed.
Lemma Forall_both2 : forall (P Q : gparticle A -> Prop) (gs : list (bool * list (gparticle A))), Forall (fun x => Forall (fun p => P p /\ Q p) (snd x)) gs ->
  Forall (fun x => Forall P (snd x)) gs /\ Forall (fun x => Forall Q (snd x)) gs.
Proof. intros P Q gs H. split; (refine (Forall_impl _ _ H); intros x K; now apply Forall_both in K). Qed.

Definition ginv (b0 : R) (n : nat) (t : b64) (s : gsim A) : Prop :=
  inv pw lg c (fun _ => True) n t s /\ unborn n t 0 (gs_groups A s) /\ slows b0 (gs_groups A s).

Lemma iteration_good : forall n t s b0 w, ginv b0 (S n) t s -> 0 <= w -> b0 + w + step_error a b <= b ->
  (forall k p, (0 <= k < c_bunches A c)%Z -> In p (c_bunch A c k) -> Momentum.slow pw lg b0 (GV A (g0 A (gvel A (gph A p))) (g1 A (gvel A (gph A p))) (c_velocity A c))) ->
  (forall j k x, (j < n)%nat -> (0 <= k < c_bunches A c)%Z -> injected pw lg c t k x -> ~ injected pw lg c (time pw lg c j (add A t dt)) k x) ->
  calm pw lg g (gcalc_hfield A g dt (gs_fields A s)) ->
  (forall s'' p, gbeam A c t s = Ok s'' -> In p (parts pw lg s'') -> galive A p = true ->
    impulse pw lg (gcharge A p) (gmass A p) dt (gget_efield A g (gs_fields A s'') (g0 A (gpos A (gph A p))) (g2 A (gpos A (gph A p)))) <= w) ->
  good (giteration A c t s) (ginv (b0 + w + step_error a b) n (add A t dt)).
Proof.
  intros n t s b0 w (IV & UB & SL) W0 HB0 HBU HON CM HI. unfold giteration. assert (IV' := IV). destruct IV' as (_ & _ & _ & BO).
  destruct (beam_step pw lg c HF n t s IV) as (s1 & EB & EF & NB & PL & ST & BO1).
  destruct (beam_slow n t b0 HBU HON BO s s1 IV UB SL EB) as (SL1 & UB1). rewrite EB. cbn [bind]. cbv zeta.
  destruct err_pos as (E1 & E2). assert (EE := errs).
  assert (HI1 : forall x, In x (gs_groups A s1) -> forall p, In p (snd x) -> galive A p = true ->
    impulse pw lg (gcharge A p) (gmass A p) dt (gget_efield A g (greset_j A g (gcalc_hfield A g dt (gs_fields A s1))) (g0 A (gpos A (gph A p))) (g2 A (gpos A (gph A p)))) <= w).
  { intros x IX p IP AL. rewrite efield_kept. apply (HI s1 p EB); [|exact AL]. unfold parts. apply in_flat_map. exists x. auto. }
  revert HI1. rewrite EF.
  set (f := greset_j A g _). assert (CF : calm pw lg g f) by (apply calm_reset; assumption). clearbody f. intro HI1. set (rho := greset_rho A g _). clearbody rho.
  assert (FA : Forall (fun x => Forall ok (snd x) /\ Forall (slow b0) (snd x) /\ forall p, In p (snd x) -> galive A p = true ->
    impulse pw lg (gcharge A p) (gmass A p) dt (gget_efield A g f (g0 A (gpos A (gph A p))) (g2 A (gpos A (gph A p)))) <= w) (gs_groups A s1)).
  { unfold slows in SL1. unfold places in PL. rewrite Forall_forall in *. intros x IX. split; [now apply PL|]. split; [now apply SL1|now apply HI1]. }
  apply good_bind with (1 := traverse_good _ _ _ (fun x H => step_v_group_good f x b0 w CF (proj1 H) (proj1 (proj2 H)) ltac:(lra) (proj2 (proj2 H))) _ FA). intros gs H1.
  apply good_bind with (1 := full_current_good gs f (b0 + w + err1) (kept_groups pw lg _ _ _ _ _ H1) ltac:(lra)). intros r H2.
  assert (PS := kept_groups pw lg _ _ _ _ _ H2). apply Forall_both2 in PS. destruct PS as (PL2 & SL2).
  apply good_bind with (1 := bunches_charge_good (snd r) rho PL2). intros rho' _. apply good_ok. split; [|split].
  - split; [cbn [gs_groups gs_bunches]; rewrite (kept_count pw lg _ _ _ _ _ H2), (kept_count pw lg _ _ _ _ _ H1); exact NB|]. split; [exact PL2|].
    split; [|exact BO1]. apply (still_kept pw lg c _ _ _ _ _ _ _ _ H2), (still_kept pw lg c _ _ _ _ _ _ _ _ H1), ST.
  - cbn [gs_groups]. apply (kept_unborn _ _ _ _ _ _ _ _ H2), (kept_unborn _ _ _ _ _ _ _ _ H1), UB1.
  - cbn [gs_groups]. refine (Forall_impl _ _ SL2). intros x F. refine (Forall_impl _ _ F). intros p SP. apply (slow_weaken _ _ _ SP). lra.
Qed.

Variable w : R.
Hypothesis W0 : 0 <= w.

Lemma run_good : forall n t e s b0, ginv b0 n t s -> b0 + INR n * (w + step_error a b) <= b ->
  (forall k p, (0 <= k < c_bunches A c)%Z -> In p (c_bunch A c k) -> Momentum.slow pw lg b0 (GV A (g0 A (gvel A (gph A p))) (g1 A (gvel A (gph A p))) (c_velocity A c))) ->
  (forall i j k x, (i < j < n)%nat -> (0 <= k < c_bunches A c)%Z -> injected pw lg c (time pw lg c i t) k x -> ~ injected pw lg c (time pw lg c j t) k x) ->
  stays_calm pw lg c n t e s -> pushed_by pw lg c n t e s w ->
  good (gsim_run A c n t e s) (fun s' => places pw lg c (gs_groups A s') /\ slows (b0 + INR n * (w + step_error a b)) (gs_groups A s')).
Proof.
  assert (EP : 0 <= step_error a b) by (destruct err_pos; assert (E := errs); lra).
  induction n as [|n IH]; intros t e s b0 IV HB0 HBU HON SC PB.
  { apply good_ok. destruct IV as ((_ & PL & _) & _ & SL). split; [exact PL|]. cbn [INR]. rewrite Rmult_0_l, Rplus_0_r. exact SL. }
  cbn [gsim_run]. rewrite S_INR in *. assert (N0 := pos_INR n). assert (NW : 0 <= INR n * (w + step_error a b)) by (apply Rmult_le_pos; lra).
  destruct (ltb A t e) eqn:LT.
  2: { apply good_ok. destruct IV as ((_ & PL & _) & _ & SL). split; [exact PL|]. refine (Forall_impl _ _ SL). intros x F. refine (Forall_impl _ _ F). intros p SP. apply (slow_weaken _ _ _ SP). lra. }
  assert (CM : calm pw lg g (gcalc_hfield A g dt (gs_fields A s))) by (apply (SC 0%nat s); [lia|reflexivity]).
  destruct (iteration_good n t s b0 w IV W0 ltac:(lra) HBU) as (s1 & E & IV1).
  - intros j k x L KB. apply (HON 0%nat (S j)); [lia|exact KB].
  - exact CM.
  - intros s'' p EB IP AL. apply (PB 0%nat s s'' p); [lia|reflexivity|exact EB|exact IP|exact AL].
  - rewrite E. cbn [bind].
    destruct (IH (add A t dt) e s1 (b0 + w + step_error a b)) as (s' & E' & PL & SL).
    + exact IV1.
    + lra.
    + intros k p KB IP. destruct (HBU k p KB IP) as (S1 & S2). split; [exact S1|lra].
    + intros i j k x L. apply (HON (S i) (S j)). lia.
    + intros i s' L R. apply (SC (S i) s'); [lia|]. cbn [gsim_run]. rewrite LT, E. exact R.
    + intros i s' s'' p L R EB. apply (PB (S i) s' s'' p); [lia| |exact EB]. cbn [gsim_run]. rewrite LT, E. exact R.
    + exists s'. split; [exact E'|]. split; [exact PL|]. refine (Forall_impl _ _ SL). intros x F. refine (Forall_impl _ _ F). intros p SP. apply (slow_weaken _ _ _ SP). lra.
Qed.

Theorem run_gentle : forall n t e s b0, starts pw lg c s -> ((0 < c_bunches A c)%Z -> beam_ok pw lg c n t) -> stays_calm pw lg c n t e s ->
  begins_slow pw lg c n t s b0 -> pushed_by pw lg c n t e s w -> b0 + INR n * (w + step_error a b) <= b ->
  exists s', gsim_run A c n t e s = Ok s' /\ Forall (in_place pw lg g) (parts pw lg s') /\ Forall (slow (b0 + INR n * (w + step_error a b))) (parts pw lg s').
Proof.
  intros n t e s b0 ST BO SC [BS BU ON] PB HB0. assert (IV := starts_inv pw lg c n t s ST BO). destruct ST as (NB & KI & PL).
  destruct (run_good n t e s b0) as (s' & E & PL' & SL'); try assumption.
  - split; [exact IV|]. split.
    + clear - KI. generalize 0%Z. induction KI as [|(bu & ps) gs E _ IH]; intro k; [exact I|]. cbn [fst] in E. subst bu. apply IH.
    + unfold slows. unfold parts in BS. clear - BS. induction (gs_groups A s) as [|x gs IH]; [constructor|]. cbn [flat_map] in BS. apply Forall_app in BS. constructor; [apply BS|apply IH; apply BS].
  - exists s'. split; [exact E|]. split; [now apply places_parts|]. unfold parts. clear - SL'. unfold slows in SL'. induction SL' as [|x gs H _ IH]; [constructor|]. cbn [flat_map]. apply Forall_app. auto.
Qed.
End Gentle.
