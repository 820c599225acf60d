(** The field solver with a disturbance in every component, small against the values it is computed from. *)
From Coq Require Import Reals ZArith Lia Lra List Bool Psatz.
From Verif.Lib Require Import RAux Grid Par.
From Verif.Model Require Import Constants Geometry Fields.
From Verif.Spec Require Import Cloud Continuity Maxwell Poynting.
From Verif.Proof Require Import GeometryP ChargeP ChargeP2 CurrentP FieldsP MaxwellP EnergyP StabilityP PoyntingP.
Import ListNotations.
Local Open Scope R_scope.

(** ** Sizes of what the updates read *)
(** |ch| and |ce| with all differences read as sums *)
Definition mch (g : geom) (P : loc -> R) (a : farr) (i k : Z) : R :=
  match a with
  | ER => (P (HPHI, i, k) + P (HPHI, i, (k - 1)%Z)) / dz g
  | EPHI => (P (HR, i, k) + P (HR, i, (k - 1)%Z)) / dz g + (P (HZ, i, k) + P (HZ, (i - 1)%Z, k)) / dr g
  | EZ => if (i =? 0)%Z then 4 / dr g * P (HPHI, 0%Z, k)
          else (P (HPHI, i, k) + P (HPHI, (i - 1)%Z, k)) / dr g + (P (HPHI, i, k) + P (HPHI, (i - 1)%Z, k)) / (2 * dr g * IZR i)
  | _ => 0
  end.
Definition mce (g : geom) (P : loc -> R) (a : farr) (i k : Z) : R :=
  match a with
  | HR => (P (EPHI, i, (k + 1)%Z) + P (EPHI, i, k)) / dz g
  | HPHI => (P (EZ, (i + 1)%Z, k) + P (EZ, i, k)) / dr g + (P (ER, i, (k + 1)%Z) + P (ER, i, k)) / dz g
  | HZ => (P (EPHI, (i + 1)%Z, k) + P (EPHI, i, k)) / (2 * dr g * (IZR i + 1 / 2)) + (P (EPHI, (i + 1)%Z, k) + P (EPHI, i, k)) / dr g
  | _ => 0
  end.

Definition sg (z : Z) : R := if Z.even z then 1 else -1.
Lemma sg_succ : forall z, sg (z + 1) = - sg z.
Proof. intro z. unfold sg. rewrite Z.add_1_r, Z.even_succ, <- Z.negb_even. destruct (Z.even z); cbn; lra. Qed.
Lemma sg_pred : forall z, sg (z - 1) = - sg z.
Proof. intro z. assert (H := sg_succ (z - 1)). replace (z - 1 + 1)%Z with z in H by lia. lra. Qed.
Lemma sg_abs : forall z x, Rabs (sg z * x) = Rabs x.
Proof. intros z x. unfold sg. destruct (Z.even z); [rewrite Rmult_1_l; reflexivity|]. replace (-1 * x) with (- x) by ring. apply Rabs_Ropp. Qed.
Lemma sg_sqr : forall z, sg z * sg z = 1. Proof. intro z. unfold sg. destruct (Z.even z); ring. Qed.

(** The same sizes with alternating signs *)
Definition alternate (m : fmem) : fmem := fun x =>
  match x with
  | (ER, i, k) => sg (i + k + 1) * Rabs (m x)
  | (HZ, i, k) => sg (i + k + 1) * Rabs (m x)
  | (_, i, k) => sg (i + k) * Rabs (m x)
  end.
Lemma alternate_sqr : forall m a i k, alternate m (a, i, k) * alternate m (a, i, k) = m (a, i, k) * m (a, i, k).
Proof.
  intros m a i k. assert (E : forall z, sg z * Rabs (m (a, i, k)) * (sg z * Rabs (m (a, i, k))) = m (a, i, k) * m (a, i, k)).
  { intro z. replace (sg z * Rabs (m (a, i, k)) * (sg z * Rabs (m (a, i, k)))) with (sg z * sg z * (Rabs (m (a, i, k)) * Rabs (m (a, i, k)))) by ring. rewrite sg_sqr, Rmult_1_l, <- Rabs_mult. apply Rabs_pos_eq, sqr_nonneg. }
  destruct a; apply E.
Qed.

Section Perturb.
Variable g : geom.
Hypothesis Hg : geom_ok g.
Let Hdr := dr_pos g Hg.
Let Hdz := dz_pos g Hg.

Lemma alternate_conducting : forall m, conducting g m -> conducting g (alternate m).
Proof.
  intros m Hm x Hx. assert (E := Hm x Hx). destruct x as [[a i] k]. unfold alternate. destruct a; rewrite E, Rabs_R0; ring.
Qed.
Lemma mce_alternate : forall m a i k, conducting g m -> h_at g a i k -> mce g (fun x => Rabs (m x)) a i k <= 2 * Rabs (ce g (alternate m) a i k).
Proof.
  intros m a i k Hm Ha. destruct a; cbn in Ha; try contradiction; unfold mce, ce, curl_phi, curl_e_z, alternate.
  - replace (i + (k + 1))%Z with (i + k + 1)%Z by ring. rewrite sg_succ.
    replace ((- sg (i + k) * Rabs (m (EPHI, i, (k + 1)%Z)) - sg (i + k) * Rabs (m (EPHI, i, k))) / dz g) with (sg (i + k) * - ((Rabs (m (EPHI, i, (k + 1)%Z)) + Rabs (m (EPHI, i, k))) / dz g)) by (field; lra).
    assert (A := Rabs_pos (m (EPHI, i, (k + 1)%Z))). assert (B := Rabs_pos (m (EPHI, i, k))). rewrite sg_abs, Rabs_Ropp.
    match goal with |- ?l <= _ => assert (P : 0 <= l) by (apply Rdiv_nonneg; lra); rewrite (Rabs_pos_eq l) by exact P end. lra.
  - replace (i + 1 + k)%Z with (i + k + 1)%Z by ring. replace (i + (k + 1) + 1)%Z with (i + k + 1 + 1)%Z by ring. rewrite !sg_succ.
    match goal with |- ?l <= 2 * Rabs ?r => replace r with (sg (i + k) * - l) by (field; lra) end.
    rewrite sg_abs, Rabs_Ropp. assert (A := Rabs_pos (m (EZ, (i + 1)%Z, k))). assert (B := Rabs_pos (m (EZ, i, k))). assert (C := Rabs_pos (m (ER, i, (k + 1)%Z))). assert (D := Rabs_pos (m (ER, i, k))).
    match goal with |- ?l <= _ => assert (P : 0 <= l) by (apply Rplus_le_le_0_compat; apply Rdiv_nonneg; lra) end. match type of P with 0 <= ?l => rewrite (Rabs_pos_eq l) by exact P end. lra.
  - replace (i + 1 + k)%Z with (i + k + 1)%Z by ring. rewrite sg_succ. assert (I0 : 0 <= IZR i) by (apply IZR_le; lia).
    assert (A := Rabs_pos (m (EPHI, (i + 1)%Z, k))). assert (B := Rabs_pos (m (EPHI, i, k))). set (x := Rabs (m (EPHI, (i + 1)%Z, k))) in *. set (y := Rabs (m (EPHI, i, k))) in *.
    replace (- ((- sg (i + k) * x + sg (i + k) * y) / (2 * dr g * (IZR i + 1 / 2)) + (- sg (i + k) * x - sg (i + k) * y) / dr g))
      with (sg (i + k) * ((x * (IZR i + 1) + y * IZR i) / (dr g * (IZR i + 1 / 2)))) by (field; lra).
    rewrite sg_abs. assert (Q : 0 < dr g * (IZR i + 1 / 2)) by (apply Rmult_lt_0_compat; lra).
    assert (P1 : 0 <= x * (IZR i + 1)) by (apply Rmult_le_pos; lra). assert (P2 : 0 <= y * IZR i) by (apply Rmult_le_pos; lra).
    rewrite Rabs_pos_eq by (apply Rdiv_nonneg; lra).
    replace ((x + y) / (2 * dr g * (IZR i + 1 / 2)) + (x + y) / dr g) with ((x + y) * (IZR i + 1) / (dr g * (IZR i + 1 / 2))) by (field; lra).
    replace (2 * ((x * (IZR i + 1) + y * IZR i) / (dr g * (IZR i + 1 / 2)))) with ((2 * (x * (IZR i + 1)) + 2 * (y * IZR i)) / (dr g * (IZR i + 1 / 2))) by (unfold Rdiv; ring).
    apply Rmult_le_compat_r; [left; now apply Rinv_0_lt_compat|].
    destruct (Z.eq_dec i 0) as [->|N].
    + assert (E : y = 0) by (unfold y; rewrite (Hm (EPHI, 0%Z, k)) by (cbn; lia); apply Rabs_R0). rewrite E. lra.
    + assert (I1 : 1 <= IZR i) by (apply IZR_le; lia). assert (P3 : 0 <= y * (IZR i - 1)) by (apply Rmult_le_pos; lra). lra.
Qed.
Lemma mch_alternate : forall h a i k, e_at g a i k -> mch g (fun x => Rabs (h x)) a i k <= 3 * Rabs (ch g (alternate h) a i k).
Proof.
  intros h a i k Ha. destruct a; cbn in Ha; try contradiction; unfold mch, ch, curl_z, alternate.
  - replace (i + (k - 1))%Z with (i + k - 1)%Z by ring. rewrite sg_pred.
    match goal with |- ?l <= 3 * Rabs ?r => replace r with (sg (i + k) * - l) by (field; lra) end. rewrite sg_abs, Rabs_Ropp.
    assert (A := Rabs_pos (h (HPHI, i, k))). assert (B := Rabs_pos (h (HPHI, i, (k - 1)%Z))).
    match goal with |- ?l <= _ => assert (P : 0 <= l) by (apply Rdiv_nonneg; lra) end. match type of P with 0 <= ?l => rewrite (Rabs_pos_eq l) by exact P end. lra.
  - replace (i + (k - 1))%Z with (i + k - 1)%Z by ring. replace (i - 1 + k + 1)%Z with (i + k)%Z by ring. rewrite sg_pred, sg_succ.
    match goal with |- ?l <= 3 * Rabs ?r => replace r with (sg (i + k) * l) by (field; lra) end. rewrite sg_abs.
    assert (A := Rabs_pos (h (HR, i, k))). assert (B := Rabs_pos (h (HR, i, (k - 1)%Z))). assert (C := Rabs_pos (h (HZ, i, k))). assert (D := Rabs_pos (h (HZ, (i - 1)%Z, k))).
    match goal with |- ?l <= _ => assert (P : 0 <= l) by (apply Rplus_le_le_0_compat; apply Rdiv_nonneg; lra) end. match type of P with 0 <= ?l => rewrite (Rabs_pos_eq l) by exact P end. lra.
  - destruct (Z.eqb_spec i 0) as [->|N].
    + replace (4 / dr g * (sg (0 + k) * Rabs (h (HPHI, 0%Z, k)))) with (sg (0 + k) * (4 / dr g * Rabs (h (HPHI, 0%Z, k)))) by ring. rewrite sg_abs.
      assert (A := Rabs_pos (h (HPHI, 0%Z, k))). assert (P : 0 <= 4 / dr g * Rabs (h (HPHI, 0%Z, k))) by (apply Rmult_le_pos; [apply Rdiv_nonneg; lra|exact A]). rewrite (Rabs_pos_eq _ P). lra.
    + replace (i - 1 + k)%Z with (i + k - 1)%Z by ring. rewrite sg_pred. assert (I1 : 1 <= IZR i) by (apply IZR_le; lia).
      assert (A := Rabs_pos (h (HPHI, i, k))). assert (B := Rabs_pos (h (HPHI, (i - 1)%Z, k))). set (x := Rabs (h (HPHI, i, k))) in *. set (y := Rabs (h (HPHI, (i - 1)%Z, k))) in *.
      replace ((sg (i + k) * x - - sg (i + k) * y) / dr g + (sg (i + k) * x + - sg (i + k) * y) / (2 * dr g * IZR i))
        with (sg (i + k) * ((x * (IZR i + 1 / 2) + y * (IZR i - 1 / 2)) / (dr g * IZR i))) by (field; lra). rewrite sg_abs.
      assert (Q : 0 < dr g * IZR i) by (apply Rmult_lt_0_compat; lra). assert (P1 : 0 <= x * (IZR i + 1 / 2)) by (apply Rmult_le_pos; lra). assert (P2 : 0 <= y * (IZR i - 1 / 2)) by (apply Rmult_le_pos; lra).
      rewrite Rabs_pos_eq by (apply Rdiv_nonneg; lra).
      replace ((x + y) / dr g + (x + y) / (2 * dr g * IZR i)) with ((x + y) * (IZR i + 1 / 2) / (dr g * IZR i)) by (field; lra).
      replace (3 * ((x * (IZR i + 1 / 2) + y * (IZR i - 1 / 2)) / (dr g * IZR i))) with ((3 * (x * (IZR i + 1 / 2)) + 3 * (y * (IZR i - 1 / 2))) / (dr g * IZR i)) by (unfold Rdiv; ring).
      apply Rmult_le_compat_r; [left; now apply Rinv_0_lt_compat|]. assert (P3 : 0 <= y * (IZR i - 1)) by (apply Rmult_le_pos; lra). lra.
Qed.
(** A floor phi under all sizes *)
Lemma mce_floor : forall P phi a i k, 0 <= phi -> h_at g a i k -> mce g (fun x => P x + phi) a i k <= mce g P a i k + phi * (4 / dr g + 2 / dz g).
Proof.
  intros P phi a i k Hp Ha. assert (Q1 := Rinv_0_lt_compat _ Hdr). assert (Q2 := Rinv_0_lt_compat _ Hdz). assert (P1 : 0 <= phi * / dr g) by (apply Rmult_le_pos; lra). assert (P2 : 0 <= phi * / dz g) by (apply Rmult_le_pos; lra).
  destruct a; cbn in Ha; try contradiction; unfold mce, Rdiv.
  - lra.
  - lra.
  - assert (I0 : 0 <= IZR i) by (apply IZR_le; lia). assert (L : / (2 * dr g * (IZR i + 1 * / 2)) <= / dr g) by (apply Rinv_le_contravar; [lra|]; assert (0 <= dr g * IZR i) by (apply Rmult_le_pos; lra); lra).
    assert (L2 : phi * / (2 * dr g * (IZR i + 1 * / 2)) <= phi * / dr g) by (apply Rmult_le_compat_l; assumption). lra.
Qed.
Lemma mch_floor : forall P phi a i k, 0 <= phi -> e_at g a i k -> mch g (fun x => P x + phi) a i k <= mch g P a i k + phi * (4 / dr g + 2 / dz g).
Proof.
  intros P phi a i k Hp Ha. assert (Q1 := Rinv_0_lt_compat _ Hdr). assert (Q2 := Rinv_0_lt_compat _ Hdz). assert (P1 : 0 <= phi * / dr g) by (apply Rmult_le_pos; lra). assert (P2 : 0 <= phi * / dz g) by (apply Rmult_le_pos; lra).
  destruct a; cbn in Ha; try contradiction; unfold mch, Rdiv.
  - lra.
  - lra.
  - destruct (Z.eqb_spec i 0) as [->|N]; [lra|].
    assert (I1 : 1 <= IZR i) by (apply IZR_le; lia). assert (L : / (2 * dr g * IZR i) <= / dr g) by (apply Rinv_le_contravar; [lra|]; assert (0 <= dr g * (IZR i - 1)) by (apply Rmult_le_pos; lra); lra).
    assert (L2 : phi * / (2 * dr g * IZR i) <= phi * / dr g) by (apply Rmult_le_compat_l; assumption). lra.
Qed.

(** ** Norms *)
Definition en (f : farr -> Z -> Z -> R) : R := sqrt (e_sum g (fun a i k => f a i k * f a i k)).
Definition hn (f : farr -> Z -> Z -> R) : R := sqrt (h_sum g (fun a i k => f a i k * f a i k)).
Lemma en_pos : forall f, 0 <= en f. Proof. intro f. apply sqrt_pos. Qed.
Lemma hn_pos : forall f, 0 <= hn f. Proof. intro f. apply sqrt_pos. Qed.
Lemma sqr_abs_le : forall x y, Rabs x <= y -> x * x <= y * y.
Proof. intros x y H. assert (P := Rabs_pos x). assert (E : x * x = Rabs x * Rabs x) by (rewrite <- Rabs_mult; symmetry; apply Rabs_pos_eq, sqr_nonneg). rewrite E. apply Rmult_le_compat; lra. Qed.
Lemma en_le : forall f h, (forall a i k, e_at g a i k -> Rabs (f a i k) <= h a i k) -> en f <= en h.
Proof. intros f h H. apply sqrt_le_1_alt. apply e_sum_le; [exact Hg|]. intros a i k Ha. now apply sqr_abs_le, H. Qed.
Lemma hn_le : forall f h, (forall a i k, h_at g a i k -> Rabs (f a i k) <= h a i k) -> hn f <= hn h.
Proof. intros f h H. apply sqrt_le_1_alt. apply h_sum_le; [exact Hg|]. intros a i k Ha. now apply sqr_abs_le, H. Qed.
Lemma en_scal : forall c f, 0 <= c -> en (fun a i k => c * f a i k) = c * en f.
Proof.
  intros c f Hc. unfold en. rewrite (e_sum_ext g _ (fun a i k => c * c * (f a i k * f a i k))) by (intros; ring). rewrite e_sum_scal, sqrt_mult_alt by apply sqr_nonneg. now rewrite sqrt_square.
Qed.
Lemma hn_scal : forall c f, 0 <= c -> hn (fun a i k => c * f a i k) = c * hn f.
Proof.
  intros c f Hc. unfold hn. rewrite (h_sum_ext g _ (fun a i k => c * c * (f a i k * f a i k))) by (intros; ring). rewrite h_sum_scal, sqrt_mult_alt by apply sqr_nonneg. now rewrite sqrt_square.
Qed.
Lemma en_plus : forall f h, en (fun a i k => f a i k + h a i k) <= en f + en h.
Proof. intros f h. apply e_triangle. exact Hg. Qed.
Lemma hn_plus : forall f h, hn (fun a i k => f a i k + h a i k) <= hn f + hn h.
Proof.
  intros f h. assert (X := hn_pos f). assert (Y := hn_pos h). rewrite <- (sqrt_square (hn f + hn h)) by lra. apply sqrt_le_1_alt. assert (C := h_cauchy g Hg f h).
  change (sqrt (h_sum g (fun a i k => f a i k * f a i k))) with (hn f) in C. change (sqrt (h_sum g (fun a i k => h a i k * h a i k))) with (hn h) in C.
  assert (X2 : hn f * hn f = h_sum g (fun a i k => f a i k * f a i k)) by (apply sqrt_sqrt; apply h_sum_nonneg; [exact Hg|intros; apply sqr_nonneg]).
  assert (Y2 : hn h * hn h = h_sum g (fun a i k => h a i k * h a i k)) by (apply sqrt_sqrt; apply h_sum_nonneg; [exact Hg|intros; apply sqr_nonneg]).
  rewrite (h_sum_ext g (fun a i k => (f a i k + h a i k) * (f a i k + h a i k)) (fun a i k => (f a i k * f a i k + h a i k * h a i k) + 2 * (f a i k * h a i k))) by (intros; ring).
  rewrite h_sum_plus, h_sum_plus, h_sum_scal. replace ((hn f + hn h) * (hn f + hn h)) with (hn f * hn f + hn h * hn h + 2 * (hn f * hn h)) by ring. lra.
Qed.
Lemma en_ext : forall f h, (forall a i k, e_at g a i k -> f a i k * f a i k = h a i k * h a i k) -> en f = en h.
Proof. intros f h H. unfold en. f_equal. now apply e_sum_ext. Qed.
Lemma hn_ext : forall f h, (forall a i k, h_at g a i k -> f a i k * f a i k = h a i k * h a i k) -> hn f = hn h.
Proof. intros f h H. unfold hn. f_equal. now apply h_sum_ext. Qed.
Definition at_ (m : fmem) (a : farr) (i k : Z) : R := m (a, i, k).

Variables (md : medium) (dt theta : R).
Hypothesis Ht : 0 < theta <= 1.
Hypothesis Hp : passive g md.
Hypothesis Hc : dt * dt * (4 / 3 / (dr g * dr g) + 1 / (dz g * dz g)) <= (1 - theta) * (EPSILON0 * MAGN_CONST).
Hypothesis Hdt : 0 < dt.
Let HM := MAGN_CONST_pos.
Let HE := EPSILON0_pos.
Let rm := sqrt (MAGN_CONST / 2).
Let re := sqrt (EPSILON0 / 2).
Lemma rm_sqr : rm * rm = MAGN_CONST / 2. Proof. apply sqrt_sqrt. lra. Qed.
Lemma re_sqr : re * re = EPSILON0 / 2. Proof. apply sqrt_sqrt. lra. Qed.
Lemma rm_pos : 0 < rm. Proof. apply sqrt_lt_R0. lra. Qed.
Lemma re_pos : 0 < re. Proof. apply sqrt_lt_R0. lra. Qed.

(** The curl of the electric field, in units in which E and H are comparable *)
Lemma ce_norm : forall m, conducting g m -> rm * (dt / MAGN_CONST / 2) * hn (ce g m) <= re * en (at_ m).
Proof.
  intros m Hm. assert (C := curl_size g Hg dt theta Hc m Hm). assert (R1 := rm_pos). assert (R2 := re_pos).
  set (q := dt / MAGN_CONST / 2). assert (Q : 0 < q) by (unfold q; apply Rdiv_lt_0_compat; [apply Rdiv_lt_0_compat; lra|lra]).
  assert (A : 0 <= rm * q * hn (ce g m)) by (apply Rmult_le_pos; [apply Rmult_le_pos; lra|apply hn_pos]).
  assert (B : 0 <= re * en (at_ m)) by (apply Rmult_le_pos; [lra|apply en_pos]).
  apply Rsqr_incr_0; try assumption. unfold Rsqr.
  assert (X2 : hn (ce g m) * hn (ce g m) = h_sum g (fun a i k => ce g m a i k * ce g m a i k)) by (apply sqrt_sqrt; apply h_sum_nonneg; [exact Hg|intros; apply sqr_nonneg]).
  assert (Y2 : en (at_ m) * en (at_ m) = e_size g m) by (apply sqrt_sqrt; apply e_sum_nonneg; [exact Hg|intros; apply sqr_nonneg]).
  replace (rm * q * hn (ce g m) * (rm * q * hn (ce g m))) with (rm * rm * (q * q) * (hn (ce g m) * hn (ce g m))) by ring.
  replace (re * en (at_ m) * (re * en (at_ m))) with (re * re * (en (at_ m) * en (at_ m))) by ring. rewrite X2, Y2, rm_sqr, re_sqr.
  replace (MAGN_CONST / 2 * (q * q)) with (/ 2 * (dt * dt / (4 * MAGN_CONST))) by (unfold q; field; lra).
  assert (N := e_size_nonneg g Hg m). assert (T : (1 - theta) * (EPSILON0 * e_size g m) <= EPSILON0 * e_size g m) by (assert (0 <= EPSILON0 * e_size g m) by (apply Rmult_le_pos; lra); nra). lra.
Qed.
(** and of the magnetic field, by duality *)
Definition dual (h : fmem) : fmem := fun x => match x with (a, i, k) =>
  match a with
  | ER => if in_rect 0 (n_r g - 1) 1 (n_z g - 1) i k then ch g h a i k else 0
  | EPHI => if in_rect 1 (n_r g - 1) 1 (n_z g - 1) i k then ch g h a i k else 0
  | EZ => if in_rect 0 (n_r g - 1) 0 (n_z g - 1) i k then ch g h a i k else 0
  | _ => 0
  end end.
Lemma dual_at : forall h a i k, e_at g a i k -> dual h (a, i, k) = ch g h a i k.
Proof. intros h a i k Ha. destruct a; cbn in Ha; try contradiction; unfold dual; rect; try reflexivity; lia. Qed.
Lemma dual_conducting : forall h, conducting g (dual h).
Proof. intros h [[a i] k] Hx. assert (G0 := Hg). destruct G0 as (G1 & G2 & _). destruct a; cbn in Hx; try contradiction; unfold dual; rect; try reflexivity; lia. Qed.
Lemma ch_norm : forall h, dt * rm * en (ch g h) <= 2 * MAGN_CONST * re * hn (at_ h).
Proof.
  intro h. set (x := en (ch g h)). assert (X : 0 <= x) by apply en_pos. assert (R1 := rm_pos). assert (R2 := re_pos). assert (Y := hn_pos (at_ h)).
  assert (X2 : x * x = e_sum g (fun a i k => ch g h a i k * ch g h a i k)) by (apply sqrt_sqrt; apply e_sum_nonneg; [exact Hg|intros; apply sqr_nonneg]).
  assert (AD := curls_adjoint g Hg (dual h) h (dual_conducting h)). rewrite (e_sum_ext g _ (fun a i k => ch g h a i k * ch g h a i k)) in AD by (intros a i k Ha; now rewrite dual_at).
  assert (C := h_cauchy g Hg (fun a i k => - h (a, i, k)) (ce g (dual h))). cbv beta in C.
  rewrite (h_sum_ext g (fun a i k => - h (a, i, k) * ce g (dual h) a i k) (fun a i k => -1 * (h (a, i, k) * ce g (dual h) a i k))), h_sum_scal in C by (intros; ring).
  rewrite (h_sum_ext g (fun a i k => - h (a, i, k) * - h (a, i, k)) (fun a i k => at_ h a i k * at_ h a i k)) in C by (intros; unfold at_; ring).
  change (sqrt (h_sum g (fun a i k => at_ h a i k * at_ h a i k))) with (hn (at_ h)) in C. change (sqrt (h_sum g (fun a i k => ce g (dual h) a i k * ce g (dual h) a i k))) with (hn (ce g (dual h))) in C.
  assert (N := ce_norm (dual h) (dual_conducting h)). rewrite (en_ext (at_ (dual h)) (ch g h)) in N by (intros a i k Ha; unfold at_; now rewrite dual_at). fold x in N.
  assert (S : x * x <= hn (at_ h) * hn (ce g (dual h))) by (rewrite X2; lra). set (y := hn (at_ h)) in *. set (z := hn (ce g (dual h))) in *. assert (Z0 : 0 <= z) by apply hn_pos.
  destruct X as [X|X]; [|rewrite <- X; rewrite Rmult_0_r; repeat apply Rmult_le_pos; lra].
  apply Rmult_le_reg_r with x; [exact X|]. apply Rle_trans with (dt * rm * (y * z)).
  - replace (dt * rm * x * x) with (dt * rm * (x * x)) by ring. apply Rmult_le_compat_l; [apply Rmult_le_pos; lra|exact S].
  - replace (dt * rm * (y * z)) with (2 * MAGN_CONST * y * (rm * (dt / MAGN_CONST / 2) * z)) by (field; lra). replace (2 * MAGN_CONST * re * y * x) with (2 * MAGN_CONST * y * (re * x)) by ring.
    apply Rmult_le_compat_l; [repeat apply Rmult_le_pos; lra|exact N].
Qed.

(** ** Sizes from the energy *)
Let t := sqrt theta.
Lemma t_sqr : t * t = theta. Proof. apply sqrt_sqrt. lra. Qed.
Lemma t_pos : 0 < t <= 1. Proof. split; [apply sqrt_lt_R0; lra|]. rewrite <- sqrt_1. apply sqrt_le_1_alt. lra. Qed.
Section Size.
Variables (m h : fmem) (X s : R).
Hypothesis Hm : conducting g m.
Hypothesis Hs : s * s = 1.
Hypothesis HX : theta * (EPSILON0 / 2 * e_size g m) + MAGN_CONST / 2 * h_mid g dt s m h <= X.
Lemma X_pos : 0 <= X.
Proof.
  apply Rle_trans with (2 := HX). assert (A := e_size_nonneg g Hg m). assert (B := h_mid_nonneg g Hg dt s m h). apply Rplus_le_le_0_compat; repeat apply Rmult_le_pos; lra.
Qed.
Lemma e_from : re * en (at_ m) <= sqrt X / t.
Proof.
  assert (T := t_pos). assert (A := e_size_nonneg g Hg m). assert (B := h_mid_nonneg g Hg dt s m h). assert (B' : 0 <= MAGN_CONST / 2 * h_mid g dt s m h) by (apply Rmult_le_pos; lra).
  apply Rmult_le_reg_r with t; [lra|]. replace (sqrt X / t * t) with (sqrt X) by (field; lra).
  unfold re, t, en. change (e_sum g (fun a i k => at_ m a i k * at_ m a i k)) with (e_size g m). rewrite <- sqrt_mult_alt by lra. rewrite <- sqrt_mult_alt by (apply Rmult_le_pos; lra). apply sqrt_le_1_alt. lra.
Qed.
Lemma h_from : rm * hn (at_ h) <= 2 * sqrt X / t.
Proof.
  assert (T := t_pos). assert (E := e_from). assert (C := ce_norm m Hm). assert (SX := sqrt_pos X). assert (R1 := rm_pos).
  assert (A := e_size_nonneg g Hg m). assert (A' : 0 <= theta * (EPSILON0 / 2 * e_size g m)) by (repeat apply Rmult_le_pos; lra).
  set (q := dt / MAGN_CONST / 2) in *. assert (Q : 0 < q) by (unfold q; apply Rdiv_lt_0_compat; [apply Rdiv_lt_0_compat; lra|lra]).
  set (mid := fun a i k => h (a, i, k) + s * q * ce g m a i k).
  assert (MI : rm * hn mid <= sqrt X). { unfold rm, hn. rewrite <- sqrt_mult_alt by lra. apply sqrt_le_1_alt. change (h_sum g (fun a i k => mid a i k * mid a i k)) with (h_mid g dt s m h). lra. }
  assert (TR : hn (at_ h) <= hn mid + q * hn (ce g m)).
  { rewrite <- (hn_scal q) by lra. rewrite <- (hn_ext (fun a i k => - s * (q * ce g m a i k)) (fun a i k => q * ce g m a i k)).
    2:{ intros a i k _. replace (- s * (q * ce g m a i k) * (- s * (q * ce g m a i k))) with (s * s * (q * ce g m a i k * (q * ce g m a i k))) by ring. rewrite Hs. ring. }
    apply Rle_trans with (2 := hn_plus mid (fun a i k => - s * (q * ce g m a i k))). right. apply hn_ext. intros a i k _. unfold mid, at_. replace (h (a, i, k) + s * q * ce g m a i k + - s * (q * ce g m a i k)) with (h (a, i, k)) by ring. reflexivity. }
  apply Rle_trans with (rm * (hn mid + q * hn (ce g m))); [apply Rmult_le_compat_l; lra|]. rewrite Rmult_plus_distr_l. replace (rm * (q * hn (ce g m))) with (rm * q * hn (ce g m)) by ring.
  assert (L : sqrt X <= sqrt X / t). { apply Rmult_le_reg_r with t; [lra|]. replace (sqrt X / t * t) with (sqrt X) by (field; lra). nra. }
  unfold Rdiv in *. lra.
Qed.
End Size.

(** ** One step *)
Variables (K eta phi : R).
Hypothesis HK : forall i k, (0 <= i < n_r g)%Z -> (0 <= k < n_z g)%Z -> epsilon md i k + sigma md i k * dt / (2 * EPSILON0) <= K.
Hypothesis HK1 : 1 <= K.
Hypothesis Heta : 0 <= eta.
Hypothesis Hphi : 0 <= phi.
Hypothesis Hkappa : 84 * (K * eta / theta) <= 1.
Definition e_one : R := en (fun _ _ _ => 1).
Definition h_one : R := hn (fun _ _ _ => 1).
Definition c0 : R := 4 / dr g + 2 / dz g.
(** what the floor adds *)
Definition floor_h : R := rm * (1 + dt / MAGN_CONST * c0) * h_one.
Definition floor_e : R := dt / rate theta * (2 * (K * EPSILON0 / dt) + 1 + c0) * e_one.
Definition scale : R := 1 + 21 * (K * eta / theta).
Lemma c0_pos : 0 < c0. Proof. unfold c0. assert (0 < 4 / dr g) by (apply Rdiv_lt_0_compat; lra). assert (0 < 2 / dz g) by (apply Rdiv_lt_0_compat; lra). lra. Qed.
Lemma floor_h_pos : 0 <= floor_h.
Proof. assert (C := c0_pos). unfold floor_h. assert (R1 := rm_pos). apply Rmult_le_pos; [|apply hn_pos]. apply Rmult_le_pos; [lra|]. assert (0 <= dt / MAGN_CONST * c0) by (apply Rmult_le_pos; [apply Rdiv_nonneg; lra|lra]). lra. Qed.
Lemma floor_e_pos : 0 <= floor_e.
Proof. assert (C := c0_pos). assert (R := rate_pos theta Ht). unfold floor_e. apply Rmult_le_pos; [|apply en_pos]. apply Rmult_le_pos; [apply Rdiv_nonneg; lra|]. assert (0 <= K * EPSILON0 / dt) by (apply Rdiv_nonneg; [apply Rmult_le_pos|]; lra). lra. Qed.

Section One.
Variables (m h0 h1 m' : fmem) (J : farr -> Z -> Z -> R).
Hypothesis Hm : conducting g m.
Hypothesis Hm' : conducting g m'.
Hypothesis H1 : forall a i k, h_at g a i k ->
  Rabs (h1 (a, i, k) - (h0 (a, i, k) + dt / MAGN_CONST * ce g m a i k)) <= eta * (Rabs (h0 (a, i, k)) + phi + dt / MAGN_CONST * mce g (fun x => Rabs (m x) + phi) a i k).
Hypothesis E1 : forall a i k, e_at g a i k ->
  Rabs (m' (a, i, k) - (m (a, i, k) * koef_e md dt i k - (J a i k - ch g h1 a i k) * koef_h md dt i k)) <=
  eta * (2 * (Rabs (m (a, i, k)) + phi) + (Rabs (J a i k) + phi + mch g (fun x => Rabs (h1 x) + phi) a i k) * koef_h md dt i k).
Let S := sqrt (after g md dt m h0).
Let W := sqrt (before g md dt m h1).

Lemma magnetic_part : W <= S + eta * (6 * S / theta + phi * floor_h).
Proof.
  set (f := fun a i k => h1 (a, i, k) - (h0 (a, i, k) + dt / MAGN_CONST * ce g m a i k)).
  assert (D := disturbed g Hg md dt theta Ht Hp Hc m h0 h1 f Hm ltac:(intros a i k _; unfold f; ring)).
  fold S W in D. rewrite sqrt_mult_alt in D by lra. fold rm in D. change (sqrt (h_sum g (fun a i k => f a i k * f a i k))) with (hn f) in D.
  assert (AL := after_lower g Hg md dt theta Hp Hc m h0 Hm). assert (EF := e_from m h0 _ 1 AL). assert (HF := h_from m h0 _ 1 Hm ltac:(ring) AL). fold S in EF, HF.
  set (q := dt / MAGN_CONST) in *. assert (Q : 0 < q) by (unfold q; apply Rdiv_lt_0_compat; lra). assert (C0 := c0_pos). assert (R1 := rm_pos).
  assert (L : hn f <= eta * (hn (at_ h0) + (q * 2) * hn (ce g (alternate m)) + (phi * (1 + q * c0)) * h_one)).
  { apply Rle_trans with (hn (fun a i k => eta * ((Rabs (h0 (a, i, k)) + q * 2 * Rabs (ce g (alternate m) a i k)) + phi * (1 + q * c0) * 1))).
    - apply hn_le. intros a i k Ha. apply Rle_trans with (1 := H1 a i k Ha). apply Rmult_le_compat_l; [exact Heta|]. fold q.
      assert (A1 := mce_alternate m a i k Hm Ha). assert (A2 := mce_floor (fun x => Rabs (m x)) phi a i k Hphi Ha). cbv beta in A2. fold c0 in A2.
      assert (A3 : q * mce g (fun x => Rabs (m x) + phi) a i k <= q * (2 * Rabs (ce g (alternate m) a i k) + phi * c0)) by (apply Rmult_le_compat_l; lra). lra.
    - rewrite hn_scal by exact Heta. apply Rmult_le_compat_l; [exact Heta|].
      apply Rle_trans with (1 := hn_plus (fun a i k => Rabs (h0 (a, i, k)) + q * 2 * Rabs (ce g (alternate m) a i k)) (fun a i k => phi * (1 + q * c0) * 1)).
      rewrite hn_scal by (apply Rmult_le_pos; [lra|]; assert (0 <= q * c0) by (apply Rmult_le_pos; lra); lra). fold h_one. apply Rplus_le_compat_r.
      apply Rle_trans with (1 := hn_plus (fun a i k => Rabs (h0 (a, i, k))) (fun a i k => q * 2 * Rabs (ce g (alternate m) a i k))).
      rewrite hn_scal by lra.
      rewrite (hn_ext (fun a i k => Rabs (h0 (a, i, k))) (at_ h0)) by (intros; rewrite <- Rabs_mult; apply Rabs_pos_eq, sqr_nonneg).
      rewrite (hn_ext (fun a i k => Rabs (ce g (alternate m) a i k)) (ce g (alternate m))) by (intros; rewrite <- Rabs_mult; apply Rabs_pos_eq, sqr_nonneg). lra. }
  assert (CA := ce_norm (alternate m) (alternate_conducting m Hm)). fold q in CA. rewrite (en_ext (at_ (alternate m)) (at_ m)) in CA by (intros; apply alternate_sqr).
  apply Rle_trans with (1 := D). apply Rplus_le_compat_l. assert (T := t_pos). assert (T2 := t_sqr). assert (S0 : 0 <= S) by apply sqrt_pos.
  assert (B : rm * (hn (at_ h0) + q * 2 * hn (ce g (alternate m)) + phi * (1 + q * c0) * h_one) <= 6 * S / theta + phi * floor_h).
  { replace (rm * (hn (at_ h0) + q * 2 * hn (ce g (alternate m)) + phi * (1 + q * c0) * h_one))
      with (rm * hn (at_ h0) + 4 * (rm * (q / 2) * hn (ce g (alternate m))) + phi * (rm * (1 + q * c0) * h_one)) by field.
    change (rm * (1 + q * c0) * h_one) with floor_h. apply Rplus_le_compat_r.
    apply Rle_trans with (6 * S / t); [unfold Rdiv in *; lra|]. rewrite <- T2. unfold Rdiv. apply Rmult_le_compat_l; [lra|]. apply Rinv_le_contravar; [apply Rmult_lt_0_compat; lra|]. nra. }
  apply Rle_trans with (rm * (eta * (hn (at_ h0) + q * 2 * hn (ce g (alternate m)) + phi * (1 + q * c0) * h_one))); [apply Rmult_le_compat_l; lra|].
  replace (rm * (eta * (hn (at_ h0) + q * 2 * hn (ce g (alternate m)) + phi * (1 + q * c0) * h_one))) with (eta * (rm * (hn (at_ h0) + q * 2 * hn (ce g (alternate m)) + phi * (1 + q * c0) * h_one))) by ring.
  apply Rmult_le_compat_l; assumption.
Qed.

Lemma koef_pos : forall i k, (0 <= i < n_r g)%Z -> (0 <= k < n_z g)%Z -> 0 < epsilonx2 md i k + sigma_t md dt i k /\ 0 < koef_h md dt i k /\ / koef_h md dt i k <= K * EPSILON0 / dt.
Proof.
  intros i k Hi Hk. destruct (Hp i k Hi Hk) as (P1 & P2). assert (B := HK i k Hi Hk). assert (S0 : 0 <= sigma md i k * dt) by (apply Rmult_le_pos; lra). unfold koef_h, epsilonx2, sigma_t.
  assert (D : 0 < 2 * epsilon md i k * EPSILON0 + sigma md i k * dt) by (assert (0 < 2 * epsilon md i k * EPSILON0) by (apply Rmult_lt_0_compat; lra); lra).
  split; [exact D|]. split; [apply Rdiv_lt_0_compat; lra|]. replace (/ (2 * dt / (2 * epsilon md i k * EPSILON0 + sigma md i k * dt))) with ((epsilon md i k + sigma md i k * dt / (2 * EPSILON0)) * EPSILON0 / dt) by (field; lra).
  unfold Rdiv. apply Rmult_le_compat_r; [left; now apply Rinv_0_lt_compat|]. apply Rmult_le_compat_r; [lra|exact B].
Qed.
Lemma electric_part : sqrt (after g md dt m' h1) <= W + dt / rate theta * (1 + eta) * en J + eta * (14 * K / theta * W + phi * floor_e).
Proof.
  set (dJ := fun a i k => - (m' (a, i, k) - (m (a, i, k) * koef_e md dt i k - (J a i k - ch g h1 a i k) * koef_h md dt i k)) * / koef_h md dt i k).
  assert (D := driven_step g Hg md dt theta Ht Hp Hc (Rlt_le _ _ Hdt) m h1 m' (fun a i k => J a i k + dJ a i k) Hm Hm').
  assert (IN : forall a i k, e_at g a i k -> (0 <= i < n_r g)%Z /\ (0 <= k < n_z g)%Z) by (intros a i k Ha; destruct a; cbn in Ha; lia).
  assert (EQ : forall a i k, e_at g a i k -> epsilonx2 md i k * (m' (a, i, k) - m (a, i, k)) = - sigma_t md dt i k * (m (a, i, k) + m' (a, i, k)) - 2 * dt * (J a i k + dJ a i k - ch g h1 a i k)).
  { intros a i k Ha. destruct (IN a i k Ha) as (I1 & I2). destruct (koef_pos i k I1 I2) as (P1 & P2 & _). unfold dJ, koef_e, koef_h. field. split; lra. }
  specialize (D EQ). fold W in D. change (sqrt (e_sum g (fun a i k => (J a i k + dJ a i k) * (J a i k + dJ a i k)))) with (en (fun a i k => J a i k + dJ a i k)) in D.
  assert (BL := before_lower g Hg md dt theta Hp Hc m h1 Hm). assert (EF := e_from m h1 _ (-1) BL). assert (HF := h_from m h1 _ (-1) Hm ltac:(ring) BL). fold W in EF, HF.
  assert (C0 := c0_pos). assert (R := rate_pos theta Ht). assert (W0 : 0 <= W) by apply sqrt_pos. assert (R1 := rm_pos). assert (R2 := re_pos). assert (T := t_pos). assert (T2 := t_sqr).
  set (kk := K * EPSILON0 / dt) in *. assert (KK : 0 <= kk) by (unfold kk; apply Rdiv_nonneg; [apply Rmult_le_pos|]; lra).
  assert (L : en dJ <= eta * ((2 * kk) * en (at_ m) + en J + 3 * en (ch g (alternate h1)) + (phi * (2 * kk + 1 + c0)) * e_one)).
  { apply Rle_trans with (en (fun a i k => eta * (((2 * kk * Rabs (m (a, i, k)) + Rabs (J a i k)) + 3 * Rabs (ch g (alternate h1) a i k)) + phi * (2 * kk + 1 + c0) * 1))).
    - apply en_le. intros a i k Ha. destruct (IN a i k Ha) as (I1 & I2). destruct (koef_pos i k I1 I2) as (P1 & P2 & P3). fold kk in P3. assert (P4 := Rinv_0_lt_compat _ P2).
      unfold dJ. rewrite Rabs_mult, Rabs_Ropp, (Rabs_pos_eq (/ _)) by lra. assert (A1 := mch_alternate h1 a i k Ha). assert (A2 := mch_floor (fun x => Rabs (h1 x)) phi a i k Hphi Ha). cbv beta in A2. fold c0 in A2.
      apply Rle_trans with (eta * (2 * (Rabs (m (a, i, k)) + phi) + (Rabs (J a i k) + phi + mch g (fun x => Rabs (h1 x) + phi) a i k) * koef_h md dt i k) * / koef_h md dt i k); [apply Rmult_le_compat_r; [lra|apply E1; exact Ha]|].
      rewrite Rmult_assoc. apply Rmult_le_compat_l; [exact Heta|]. rewrite Rmult_plus_distr_r. rewrite (Rmult_assoc _ (koef_h md dt i k)), Rinv_r, Rmult_1_r by lra.
      assert (A3 : 2 * (Rabs (m (a, i, k)) + phi) * / koef_h md dt i k <= 2 * (Rabs (m (a, i, k)) + phi) * kk) by (apply Rmult_le_compat_l; [assert (Q := Rabs_pos (m (a, i, k))); lra|exact P3]). lra.
    - rewrite en_scal by exact Heta. apply Rmult_le_compat_l; [exact Heta|].
      apply Rle_trans with (1 := en_plus (fun a i k => 2 * kk * Rabs (m (a, i, k)) + Rabs (J a i k) + 3 * Rabs (ch g (alternate h1) a i k)) (fun a i k => phi * (2 * kk + 1 + c0) * 1)).
      rewrite en_scal by (apply Rmult_le_pos; lra). fold e_one. apply Rplus_le_compat_r.
      apply Rle_trans with (1 := en_plus (fun a i k => 2 * kk * Rabs (m (a, i, k)) + Rabs (J a i k)) (fun a i k => 3 * Rabs (ch g (alternate h1) a i k))). rewrite en_scal by lra.
      rewrite (en_ext (fun a i k => Rabs (ch g (alternate h1) a i k)) (ch g (alternate h1))) by (intros; rewrite <- Rabs_mult; apply Rabs_pos_eq, sqr_nonneg). apply Rplus_le_compat_r.
      apply Rle_trans with (1 := en_plus (fun a i k => 2 * kk * Rabs (m (a, i, k))) (fun a i k => Rabs (J a i k))). rewrite en_scal by lra.
      rewrite (en_ext (fun a i k => Rabs (J a i k)) J) by (intros; rewrite <- Rabs_mult; apply Rabs_pos_eq, sqr_nonneg).
      rewrite (en_ext (fun a i k => Rabs (m (a, i, k))) (at_ m)) by (intros; rewrite <- Rabs_mult; apply Rabs_pos_eq, sqr_nonneg). lra. }
  assert (NJ := en_pos J). assert (DR : 0 < dt / rate theta) by (apply Rdiv_lt_0_compat; lra).
  assert (TJ := en_plus J dJ). assert (CN := ch_norm (alternate h1)). rewrite (hn_ext (at_ (alternate h1)) (at_ h1)) in CN by (intros; apply alternate_sqr).
  assert (RT : rate theta = 2 * t * re). { unfold rate, t, re. replace (2 * theta * EPSILON0) with (2 * 2 * (theta * (EPSILON0 / 2))) by field. rewrite sqrt_mult_alt by lra. rewrite sqrt_square by lra. rewrite sqrt_mult_alt by lra. ring. }
  assert (P1 : dt / rate theta * (2 * kk * en (at_ m)) <= 2 * K / theta * W).
  { replace (dt / rate theta * (2 * kk * en (at_ m))) with (2 * K * EPSILON0 / (rate theta * re) * (re * en (at_ m))) by (unfold kk; field; repeat split; lra).
    rewrite RT. replace (2 * K * EPSILON0 / (2 * t * re * re)) with (K * EPSILON0 / (t * (re * re))) by (field; repeat split; lra). rewrite re_sqr.
    replace (K * EPSILON0 / (t * (EPSILON0 / 2))) with (2 * K / t) by (field; repeat split; lra). rewrite <- T2.
    replace (2 * K / (t * t) * W) with (2 * K / t * (W / t)) by (field; lra). apply Rmult_le_compat_l; [apply Rdiv_nonneg; lra|exact EF]. }
  assert (P2 : dt / rate theta * (3 * en (ch g (alternate h1))) <= 12 / theta * W).
  { rewrite RT. apply Rmult_le_reg_l with (2 * t * re * rm); [repeat apply Rmult_lt_0_compat; lra|].
    replace (2 * t * re * rm * (dt / (2 * t * re) * (3 * en (ch g (alternate h1))))) with (3 * (dt * rm * en (ch g (alternate h1)))) by (field; lra).
    apply Rle_trans with (3 * (2 * MAGN_CONST * re * hn (at_ h1))); [lra|].
    replace (3 * (2 * MAGN_CONST * re * hn (at_ h1))) with (12 * re * (MAGN_CONST / 2) * hn (at_ h1)) by field. rewrite <- rm_sqr.
    replace (12 * re * (rm * rm) * hn (at_ h1)) with (12 * re * rm * (rm * hn (at_ h1))) by ring. rewrite <- T2.
    replace (2 * t * re * rm * (12 / (t * t) * W)) with (12 * re * rm * (2 * W / t)) by (field; lra). apply Rmult_le_compat_l; [repeat apply Rmult_le_pos; lra|exact HF]. }
  assert (P3 : 12 / theta * W <= 12 * K / theta * W). { apply Rmult_le_compat_r; [exact W0|]. unfold Rdiv. apply Rmult_le_compat_r; [left; apply Rinv_0_lt_compat; lra|lra]. }
  assert (B : dt / rate theta * ((2 * kk) * en (at_ m) + en J + 3 * en (ch g (alternate h1)) + (phi * (2 * kk + 1 + c0)) * e_one) <= dt / rate theta * en J + 14 * K / theta * W + phi * floor_e).
  { unfold floor_e. fold kk. replace (14 * K / theta * W) with (2 * K / theta * W + 12 * K / theta * W) by (unfold Rdiv; ring). lra. }
  apply Rle_trans with (1 := D). apply Rle_trans with (W + dt / rate theta * (en J + en dJ)); [apply Rplus_le_compat_l, Rmult_le_compat_l; [lra|exact TJ]|].
  assert (B2 : dt / rate theta * en dJ <= eta * (dt / rate theta * en J + 14 * K / theta * W + phi * floor_e)).
  { apply Rle_trans with (dt / rate theta * (eta * ((2 * kk) * en (at_ m) + en J + 3 * en (ch g (alternate h1)) + (phi * (2 * kk + 1 + c0)) * e_one))); [apply Rmult_le_compat_l; lra|].
    rewrite <- Rmult_assoc, (Rmult_comm (dt / rate theta) eta), Rmult_assoc. apply Rmult_le_compat_l; assumption. }
  lra.
Qed.
Theorem perturbed_step : sqrt (after g md dt m' h1) <= scale * (sqrt (after g md dt m h0) + dt / rate theta * en J + eta * phi * (floor_h + floor_e)).
Proof.
  assert (M := magnetic_part). assert (E := electric_part). fold S. set (j := dt / rate theta * en J) in *. assert (S0 : 0 <= S) by apply sqrt_pos. assert (W0 : 0 <= W) by apply sqrt_pos. assert (R := rate_pos theta Ht).
  assert (J0 : 0 <= j) by (unfold j; apply Rmult_le_pos; [apply Rdiv_nonneg; lra|apply en_pos]).
  assert (F1 := floor_h_pos). assert (F2 := floor_e_pos). set (ka := K * eta / theta) in *. assert (KA : 0 <= ka) by (unfold ka; apply Rdiv_nonneg; [apply Rmult_le_pos; lra|lra]).
  assert (I1 : 1 <= / theta) by (rewrite <- Rinv_1 at 1; apply Rinv_le_contravar; lra).
  assert (EK : eta <= ka). { unfold ka. unfold Rdiv. apply Rle_trans with (eta * 1 * 1); [lra|]. replace (K * eta * / theta) with (eta * K * / theta) by ring. apply Rmult_le_compat; [lra|lra| |exact I1]. apply Rmult_le_compat_l; lra. }
  assert (X1 : eta * (6 * S / theta) <= 6 * ka * S). { unfold ka. replace (eta * (6 * S / theta)) with (6 * S * (eta / theta)) by (unfold Rdiv; ring). replace (6 * (K * eta / theta) * S) with (6 * S * (K * (eta / theta))) by (unfold Rdiv; ring). assert (0 <= eta / theta) by (apply Rdiv_nonneg; lra). apply Rmult_le_compat_l; [lra|]. nra. }
  assert (X2 : eta * (14 * K / theta * W) = 14 * ka * W) by (unfold ka; field; lra).
  set (p := eta * phi) in *. assert (P0 : 0 <= p) by (apply Rmult_le_pos; assumption). assert (PH : 0 <= p * floor_h) by (apply Rmult_le_pos; assumption). assert (PE : 0 <= p * floor_e) by (apply Rmult_le_pos; assumption).
  assert (MW : W <= (1 + 6 * ka) * S + p * floor_h). { replace (eta * (6 * S / theta + phi * floor_h)) with (eta * (6 * S / theta) + p * floor_h) in M by (unfold p; ring). lra. }
  assert (EW : sqrt (after g md dt m' h1) <= (1 + 14 * ka) * W + (1 + ka) * j + p * floor_e).
  { replace (dt / rate theta * (1 + eta) * en J) with ((1 + eta) * j) in E by (unfold j; ring). replace (eta * (14 * K / theta * W + phi * floor_e)) with (eta * (14 * K / theta * W) + p * floor_e) in E by (unfold p; ring). rewrite X2 in E. assert (eta * j <= ka * j) by (apply Rmult_le_compat_r; lra). rewrite !Rmult_plus_distr_r, !Rmult_1_l in E. rewrite !Rmult_plus_distr_r, !Rmult_1_l. lra. }
  apply Rle_trans with (1 := EW). apply Rle_trans with ((1 + 14 * ka) * ((1 + 6 * ka) * S + p * floor_h) + (1 + ka) * j + p * floor_e); [apply Rplus_le_compat_r, Rplus_le_compat_r, Rmult_le_compat_l; lra|].
  unfold scale. fold ka. assert (Q : 84 * ka * ka <= ka) by (rewrite <- (Rmult_1_l ka) at 3; apply Rmult_le_compat_r; [exact KA|exact Hkappa]). assert (Q2 : 84 * ka * ka * S <= ka * S) by (apply Rmult_le_compat_r; assumption).
  assert (0 <= ka * j) by (now apply Rmult_le_pos). assert (0 <= ka * (p * floor_h)) by (now apply Rmult_le_pos). assert (0 <= ka * (p * floor_e)) by (now apply Rmult_le_pos).
  replace ((1 + 14 * ka) * ((1 + 6 * ka) * S + p * floor_h)) with (S + 20 * (ka * S) + 84 * ka * ka * S + p * floor_h + 14 * (ka * (p * floor_h))) by ring.
  replace ((1 + 21 * ka) * (S + j + p * (floor_h + floor_e))) with (S + 21 * (ka * S) + j + 21 * (ka * j) + p * floor_h + p * floor_e + 21 * (ka * (p * floor_h)) + 21 * (ka * (p * floor_e))) by ring. lra.
Qed.
End One.
End Perturb.
