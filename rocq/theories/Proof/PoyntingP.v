(** The energy balance of the field solver with currents and conductivity. *)
From Coq Require Import Reals ZArith Lia Lra List Bool Psatz.
From Verif.Lib Require Import RAux Grid Par.
From Verif.Model Require Import Constants Geometry Fields.
From Verif.Spec Require Import Cloud Continuity Maxwell Poynting.
From Verif.Proof Require Import GeometryP ChargeP ChargeP2 CurrentP FieldsP MaxwellP EnergyP StabilityP.
Import ListNotations.
Local Open Scope R_scope.

(** ** Weighted sums over the components *)

Definition e_at (g : geom) (a : farr) (i k : Z) : Prop :=
  match a with
  | ER => (0 <= i < n_r g - 1)%Z /\ (1 <= k < n_z g - 1)%Z
  | EPHI => (1 <= i < n_r g - 1)%Z /\ (1 <= k < n_z g - 1)%Z
  | EZ => (0 <= i < n_r g - 1)%Z /\ (0 <= k < n_z g - 1)%Z
  | _ => False
  end.
Definition h_at (g : geom) (a : farr) (i k : Z) : Prop :=
  match a with
  | HR | HPHI => (0 <= i < n_r g - 1)%Z /\ (0 <= k < n_z g - 1)%Z
  | HZ => (0 <= i < n_r g - 1)%Z /\ (1 <= k < n_z g - 1)%Z
  | _ => False
  end.
Definition h_sum (g : geom) (f : farr -> Z -> Z -> R) : R :=
  sum2 0 (n_r g - 1) 0 (n_z g - 1) (fun i k => node_volume (dr g) (dz g) i * f HR i k)
  + sum2 0 (n_r g - 1) 0 (n_z g - 1) (fun i k => half_volume (dr g) (dz g) i * f HPHI i k)
  + sum2 0 (n_r g - 1) 1 (n_z g - 1) (fun i k => half_volume (dr g) (dz g) i * f HZ i k).

Section Sums.
Variable g : geom.
Hypothesis Hg : geom_ok g.

Lemma e_sum_ext : forall f f', (forall a i k, e_at g a i k -> f a i k = f' a i k) -> e_sum g f = e_sum g f'.
Proof.
  intros f f' H. unfold e_sum. f_equal; [f_equal|]; apply sum2_ext; intros i k Hi Hk; f_equal; apply H; cbn; lia.
Qed.
Lemma h_sum_ext : forall f f', (forall a i k, h_at g a i k -> f a i k = f' a i k) -> h_sum g f = h_sum g f'.
Proof.
  intros f f' H. unfold h_sum. f_equal; [f_equal|]; apply sum2_ext; intros i k Hi Hk; f_equal; apply H; cbn; lia.
Qed.
Lemma e_sum_plus : forall f f', e_sum g (fun a i k => f a i k + f' a i k) = e_sum g f + e_sum g f'.
Proof.
  intros f f'. unfold e_sum.
  rewrite (sum2_ext 0 (n_r g - 1) 1 (n_z g - 1) _ (fun i k => half_volume (dr g) (dz g) i * f ER i k + half_volume (dr g) (dz g) i * f' ER i k)) by (intros; ring).
  rewrite (sum2_ext 1 (n_r g - 1) 1 (n_z g - 1) _ (fun i k => node_volume (dr g) (dz g) i * f EPHI i k + node_volume (dr g) (dz g) i * f' EPHI i k)) by (intros; ring).
  rewrite (sum2_ext 0 (n_r g - 1) 0 (n_z g - 1) _ (fun i k => node_volume (dr g) (dz g) i * f EZ i k + node_volume (dr g) (dz g) i * f' EZ i k)) by (intros; ring).
  rewrite !sum2_plus. ring.
Qed.
Lemma h_sum_plus : forall f f', h_sum g (fun a i k => f a i k + f' a i k) = h_sum g f + h_sum g f'.
Proof.
  intros f f'. unfold h_sum.
  rewrite (sum2_ext 0 (n_r g - 1) 0 (n_z g - 1) (fun i k => node_volume (dr g) (dz g) i * _) (fun i k => node_volume (dr g) (dz g) i * f HR i k + node_volume (dr g) (dz g) i * f' HR i k)) by (intros; ring).
  rewrite (sum2_ext 0 (n_r g - 1) 0 (n_z g - 1) (fun i k => half_volume (dr g) (dz g) i * _) (fun i k => half_volume (dr g) (dz g) i * f HPHI i k + half_volume (dr g) (dz g) i * f' HPHI i k)) by (intros; ring).
  rewrite (sum2_ext 0 (n_r g - 1) 1 (n_z g - 1) _ (fun i k => half_volume (dr g) (dz g) i * f HZ i k + half_volume (dr g) (dz g) i * f' HZ i k)) by (intros; ring).
  rewrite !sum2_plus. ring.
Qed.
Lemma e_sum_scal : forall x f, e_sum g (fun a i k => x * f a i k) = x * e_sum g f.
Proof.
  intros x f. unfold e_sum. rewrite !Rmult_plus_distr_l, <- !sum2_scal. f_equal; [f_equal|]; apply sum2_ext; intros; ring.
Qed.
Lemma h_sum_scal : forall x f, h_sum g (fun a i k => x * f a i k) = x * h_sum g f.
Proof.
  intros x f. unfold h_sum. rewrite !Rmult_plus_distr_l, <- !sum2_scal. f_equal; [f_equal|]; apply sum2_ext; intros; ring.
Qed.
Lemma e_sum_le : forall f f', (forall a i k, e_at g a i k -> f a i k <= f' a i k) -> e_sum g f <= e_sum g f'.
Proof.
  intros f f' H. unfold e_sum. apply Rplus_le_compat; [apply Rplus_le_compat|]; apply sum2_le; intros i k Hi Hk; apply Rmult_le_compat_l; try (apply H; cbn; lia).
  - apply (hv_nonneg g Hg). lia. - apply (nv_nonneg g Hg). lia. - apply (nv_nonneg g Hg). lia.
Qed.
Lemma h_sum_le : forall f f', (forall a i k, h_at g a i k -> f a i k <= f' a i k) -> h_sum g f <= h_sum g f'.
Proof.
  intros f f' H. unfold h_sum. apply Rplus_le_compat; [apply Rplus_le_compat|]; apply sum2_le; intros i k Hi Hk; apply Rmult_le_compat_l; try (apply H; cbn; lia).
  - apply (nv_nonneg g Hg). lia. - apply (hv_nonneg g Hg). lia. - apply (hv_nonneg g Hg). lia.
Qed.
Lemma e_sum_zero : e_sum g (fun _ _ _ => 0) = 0.
Proof. rewrite (e_sum_ext _ (fun a i k => 0 * 0)) by (intros; ring). rewrite e_sum_scal. ring. Qed.
Lemma h_sum_zero : h_sum g (fun _ _ _ => 0) = 0.
Proof. rewrite (h_sum_ext _ (fun a i k => 0 * 0)) by (intros; ring). rewrite h_sum_scal. ring. Qed.
Lemma e_sum_nonneg : forall f, (forall a i k, e_at g a i k -> 0 <= f a i k) -> 0 <= e_sum g f.
Proof. intros f H. rewrite <- e_sum_zero. now apply e_sum_le. Qed.
Lemma h_sum_nonneg : forall f, (forall a i k, h_at g a i k -> 0 <= f a i k) -> 0 <= h_sum g f.
Proof. intros f H. rewrite <- h_sum_zero. now apply h_sum_le. Qed.

Lemma discriminant : forall a b c, 0 <= a -> 0 <= c -> (forall t, 0 <= a + 2 * t * b + t * t * c) -> b <= sqrt a * sqrt c.
Proof.
  intros a b c Ha Hc H. destruct (Rle_lt_dec b 0) as [B|B]; [apply Rle_trans with (1 := B); apply Rmult_le_pos; apply sqrt_pos|].
  rewrite <- sqrt_mult by assumption. rewrite <- (sqrt_Rsqr b) by lra. apply sqrt_le_1_alt. unfold Rsqr.
  destruct Hc as [Hc|Hc].
  - specialize (H (- (b / c))). replace (a + 2 * - (b / c) * b + - (b / c) * - (b / c) * c) with ((a * c - b * b) / c) in H by (field; lra).
    apply Rmult_le_compat_r with (r := c) in H; [|lra]. rewrite Rmult_0_l in H. unfold Rdiv in H. rewrite Rmult_assoc, Rinv_l in H by lra. lra.
  - subst c. exfalso. specialize (H (- ((a + 1) / b))). replace (a + 2 * - ((a + 1) / b) * b + - ((a + 1) / b) * - ((a + 1) / b) * 0) with (- a - 2) in H by (field; lra). lra.
Qed.
Lemma e_cauchy : forall f h, e_sum g (fun a i k => f a i k * h a i k) <= sqrt (e_sum g (fun a i k => f a i k * f a i k)) * sqrt (e_sum g (fun a i k => h a i k * h a i k)).
Proof.
  intros f h. apply discriminant; try (apply e_sum_nonneg; intros; apply sqr_nonneg). intro t.
  replace (e_sum g (fun a i k => f a i k * f a i k) + 2 * t * e_sum g (fun a i k => f a i k * h a i k) + t * t * e_sum g (fun a i k => h a i k * h a i k))
    with (e_sum g (fun a i k => (f a i k + t * h a i k) * (f a i k + t * h a i k))); [apply e_sum_nonneg; intros; apply sqr_nonneg|].
  rewrite <- !e_sum_scal, <- !e_sum_plus. apply e_sum_ext. intros. ring.
Qed.
Lemma h_cauchy : forall f h, h_sum g (fun a i k => f a i k * h a i k) <= sqrt (h_sum g (fun a i k => f a i k * f a i k)) * sqrt (h_sum g (fun a i k => h a i k * h a i k)).
Proof.
  intros f h. apply discriminant; try (apply h_sum_nonneg; intros; apply sqr_nonneg). intro t.
  replace (h_sum g (fun a i k => f a i k * f a i k) + 2 * t * h_sum g (fun a i k => f a i k * h a i k) + t * t * h_sum g (fun a i k => h a i k * h a i k))
    with (h_sum g (fun a i k => (f a i k + t * h a i k) * (f a i k + t * h a i k))); [apply h_sum_nonneg; intros; apply sqr_nonneg|].
  rewrite <- !h_sum_scal, <- !h_sum_plus. apply h_sum_ext. intros. ring.
Qed.
Lemma e_triangle : forall f h, sqrt (e_sum g (fun a i k => (f a i k + h a i k) * (f a i k + h a i k))) <= sqrt (e_sum g (fun a i k => f a i k * f a i k)) + sqrt (e_sum g (fun a i k => h a i k * h a i k)).
Proof.
  intros f h. set (x := sqrt (e_sum g (fun a i k => f a i k * f a i k))). set (y := sqrt (e_sum g (fun a i k => h a i k * h a i k))). assert (X := sqrt_pos (e_sum g (fun a i k => f a i k * f a i k))). assert (Y := sqrt_pos (e_sum g (fun a i k => h a i k * h a i k))). fold x in X. fold y in Y.
  rewrite <- (sqrt_square (x + y)) by lra. apply sqrt_le_1_alt. assert (C := e_cauchy f h). fold x y in C.
  assert (X2 : x * x = e_sum g (fun a i k => f a i k * f a i k)) by (apply sqrt_sqrt; apply e_sum_nonneg; intros; apply sqr_nonneg).
  assert (Y2 : y * y = e_sum g (fun a i k => h a i k * h a i k)) by (apply sqrt_sqrt; apply e_sum_nonneg; intros; apply sqr_nonneg).
  rewrite (e_sum_ext (fun a i k => (f a i k + h a i k) * (f a i k + h a i k)) (fun a i k => (f a i k * f a i k + h a i k * h a i k) + 2 * (f a i k * h a i k))) by (intros; ring).
  rewrite e_sum_plus, e_sum_plus, e_sum_scal. replace ((x + y) * (x + y)) with (x * x + y * y + 2 * (x * y)) by ring. lra.
Qed.

(** ** The two curls *)
Definition ce (F : fmem) (a : farr) (i k : Z) : R :=
  match a with
  | HR => (F (EPHI, i, (k + 1)%Z) - F (EPHI, i, k)) / dz g
  | HPHI => curl_phi g F i k
  | HZ => - curl_e_z g F i k
  | _ => 0
  end.
Definition ch (H : fmem) (a : farr) (i k : Z) : R :=
  match a with
  | ER => - ((H (HPHI, i, k) - H (HPHI, i, (k - 1)%Z)) / dz g)
  | EPHI => (H (HR, i, k) - H (HR, i, (k - 1)%Z)) / dz g - (H (HZ, i, k) - H (HZ, (i - 1)%Z, k)) / dr g
  | EZ => curl_z g H i k
  | _ => 0
  end.
Lemma curls_adjoint : forall F H, conducting g F -> e_sum g (fun a i k => F (a, i, k) * ch H a i k) = - h_sum g (fun a i k => H (a, i, k) * ce F a i k).
Proof.
  intros F H HF. assert (A1 := adj_er_hphi g F H Hg HF). assert (A2 := adj_ephi_hr g F H Hg HF). assert (A3 := adj_ez_hphi g F H Hg HF). assert (A4 := adj_ephi_hz g F H Hg HF).
  unfold e_sum, h_sum, ch, ce.
  rewrite (sum2_ext 0 (n_r g - 1) 1 (n_z g - 1) (fun i k => half_volume (dr g) (dz g) i * (F (ER, i, k) * _))
    (fun i k => -1 * (half_volume (dr g) (dz g) i * (F (ER, i, k) * ((H (HPHI, i, k) - H (HPHI, i, (k - 1)%Z)) / dz g))))) by (intros; ring).
  rewrite (sum2_ext 1 (n_r g - 1) 1 (n_z g - 1) (fun i k => node_volume (dr g) (dz g) i * (F (EPHI, i, k) * _))
    (fun i k => node_volume (dr g) (dz g) i * (F (EPHI, i, k) * ((H (HR, i, k) - H (HR, i, (k - 1)%Z)) / dz g)) - node_volume (dr g) (dz g) i * (F (EPHI, i, k) * ((H (HZ, i, k) - H (HZ, (i - 1)%Z, k)) / dr g)))) by (intros; ring).
  rewrite (sum2_ext 0 (n_r g - 1) 0 (n_z g - 1) (fun i k => half_volume (dr g) (dz g) i * (H (HPHI, i, k) * _))
    (fun i k => half_volume (dr g) (dz g) i * (H (HPHI, i, k) * ((F (EZ, (i + 1)%Z, k) - F (EZ, i, k)) / dr g)) - half_volume (dr g) (dz g) i * (H (HPHI, i, k) * ((F (ER, i, (k + 1)%Z) - F (ER, i, k)) / dz g)))) by (intros; unfold curl_phi; ring).
  rewrite (sum2_ext 0 (n_r g - 1) 1 (n_z g - 1) (fun i k => half_volume (dr g) (dz g) i * (H (HZ, i, k) * _))
    (fun i k => -1 * (half_volume (dr g) (dz g) i * (H (HZ, i, k) * curl_e_z g F i k)))) by (intros; ring).
  rewrite !sum2_scal, !sum2_minus. unfold curl_e_z. rewrite A1, A2, A3, A4. ring.
Qed.

(** ** The balance of one step, whatever its currents are *)
Variables (md : medium) (dt : R).
(** E energy plus the product of the H fields half a step before and after *)
Definition before (m h : fmem) : R := electric_energy g (epsilon md) m + MAGN_CONST / 2 * h_sum g (fun a i k => (h (a, i, k) - dt / MAGN_CONST * ce m a i k) * h (a, i, k)).
Definition after (m h : fmem) : R := electric_energy g (epsilon md) m + MAGN_CONST / 2 * h_sum g (fun a i k => h (a, i, k) * (h (a, i, k) + dt / MAGN_CONST * ce m a i k)).

Lemma energy_e_sum : forall m, electric_energy g (epsilon md) m = EPSILON0 / 2 * e_sum g (fun a i k => epsilon md i k * m (a, i, k) * m (a, i, k)).
Proof. reflexivity. Qed.
Lemma ce_plus : forall m m' a i k, ce (fun x => m x + m' x) a i k = ce m a i k + ce m' a i k.
Proof. intros m m' a i k. destruct a; unfold ce, curl_phi, curl_e_z, Rdiv; ring. Qed.

Theorem balance : forall (m h m' : fmem) (J : farr -> Z -> Z -> R), conducting g m -> conducting g m' ->
  (forall a i k, e_at g a i k -> epsilonx2 md i k * (m' (a, i, k) - m (a, i, k)) = - sigma_t md dt i k * (m (a, i, k) + m' (a, i, k)) - 2 * dt * (J a i k - ch h a i k)) ->
  after m' h = before m h - heat g md dt m m' - dt * e_sum g (fun a i k => J a i k * mean m m' a i k).
Proof.
  intros m h m' J Hm Hm' HE. set (F := fun x => m x + m' x).
  assert (HF : conducting g F) by (intros x Hx; unfold F; rewrite (Hm x Hx), (Hm' x Hx); ring).
  assert (AD := curls_adjoint F h HF).
  assert (EG : electric_energy g (epsilon md) m' = electric_energy g (epsilon md) m - heat g md dt m m' - dt * e_sum g (fun a i k => J a i k * mean m m' a i k) + dt / 2 * e_sum g (fun a i k => F (a, i, k) * ch h a i k)).
  { unfold heat. rewrite !energy_e_sum.
    replace (EPSILON0 / 2 * e_sum g (fun a i k => epsilon md i k * m (a, i, k) * m (a, i, k)) - dt * e_sum g (fun a i k => sigma md i k * (mean m m' a i k * mean m m' a i k)) - dt * e_sum g (fun a i k => J a i k * mean m m' a i k) + dt / 2 * e_sum g (fun a i k => F (a, i, k) * ch h a i k))
      with (EPSILON0 / 2 * e_sum g (fun a i k => epsilon md i k * m (a, i, k) * m (a, i, k)) + (- dt) * e_sum g (fun a i k => sigma md i k * (mean m m' a i k * mean m m' a i k)) + (- dt) * e_sum g (fun a i k => J a i k * mean m m' a i k) + dt / 2 * e_sum g (fun a i k => F (a, i, k) * ch h a i k)) by ring.
    rewrite <- !e_sum_scal, <- !e_sum_plus. apply e_sum_ext. intros a i k Ha. specialize (HE a i k Ha). unfold epsilonx2, sigma_t in HE. unfold mean, F.
    set (x := m (a, i, k)) in *. set (y := m' (a, i, k)) in *. set (e := epsilon md i k) in *. set (s := sigma md i k) in *.
    replace (EPSILON0 / 2 * (e * y * y)) with (EPSILON0 / 2 * (e * x * x) + 2 * e * EPSILON0 * (y - x) * ((x + y) / 4)) by field. rewrite HE. field. }
  unfold after, before. rewrite EG.
  assert (MG : h_sum g (fun a i k => h (a, i, k) * (h (a, i, k) + dt / MAGN_CONST * ce m' a i k)) = h_sum g (fun a i k => (h (a, i, k) - dt / MAGN_CONST * ce m a i k) * h (a, i, k)) + dt / MAGN_CONST * h_sum g (fun a i k => h (a, i, k) * ce F a i k)).
  { rewrite <- h_sum_scal, <- h_sum_plus. apply h_sum_ext. intros a i k _. unfold F. rewrite ce_plus. ring. }
  rewrite MG, AD. assert (HM := MAGN_CONST_pos). field. lra.
Qed.

(** ** Lower bounds *)
Variable theta : R.
Hypothesis Ht : 0 < theta <= 1.
Hypothesis Hp : passive g md.
Hypothesis Hc : dt * dt * (4 / 3 / (dr g * dr g) + 1 / (dz g * dz g)) <= (1 - theta) * (EPSILON0 * MAGN_CONST).
Definition e_size (m : fmem) : R := e_sum g (fun a i k => m (a, i, k) * m (a, i, k)).
Definition h_mid (s : R) (m h : fmem) : R := h_sum g (fun a i k => (h (a, i, k) + s * (dt / MAGN_CONST / 2) * ce m a i k) * (h (a, i, k) + s * (dt / MAGN_CONST / 2) * ce m a i k)).
Lemma e_size_nonneg : forall m, 0 <= e_size m. Proof. intro m. apply e_sum_nonneg. intros. apply sqr_nonneg. Qed.
Lemma h_mid_nonneg : forall s m h, 0 <= h_mid s m h. Proof. intros s m h. apply h_sum_nonneg. intros. apply sqr_nonneg. Qed.
Lemma e_size_energy : forall m, EPSILON0 / 2 * e_size m <= electric_energy g (epsilon md) m.
Proof.
  intro m. rewrite energy_e_sum. apply Rmult_le_compat_l; [assert (P := EPSILON0_pos); lra|]. apply e_sum_le. intros a i k Ha.
  assert (1 <= epsilon md i k) by (destruct (Hp i k) as (P & _); [destruct a; cbn in Ha; lia|destruct a; cbn in Ha; lia|exact P]). assert (S := sqr_nonneg (m (a, i, k))). nra.
Qed.
Lemma curl_size : forall m, conducting g m -> dt * dt / (4 * MAGN_CONST) * h_sum g (fun a i k => ce m a i k * ce m a i k) <= (1 - theta) * (EPSILON0 * e_size m).
Proof.
  intros m Hm. assert (Hdr := dr_pos g Hg). assert (Hdz := dz_pos g Hg). assert (HM := MAGN_CONST_pos). assert (HE := EPSILON0_pos).
  assert (B1 := curl_phi_bound g m Hg Hm). assert (B2 := curl_te_bound g m Hg Hm).
  assert (E : h_sum g (fun a i k => ce m a i k * ce m a i k) <= cfl_const g * e_size m).
  { apply Rle_trans with (cfl_const g * (sq_er g m + sq_ez g m) + cfl_const g * sq_ephi g m).
    - apply Rle_trans with (2 := Rplus_le_compat _ _ _ _ B1 B2). unfold h_sum, ce.
      rewrite (sum2_ext 0 (n_r g - 1) 1 (n_z g - 1) (fun i k => half_volume (dr g) (dz g) i * _) (fun i k => half_volume (dr g) (dz g) i * (curl_e_z g m i k * curl_e_z g m i k))) by (intros; ring). lra.
    - right. unfold e_size, e_sum. change (sum2 0 (n_r g - 1) 1 (n_z g - 1) (fun i k => half_volume (dr g) (dz g) i * (m (ER, i, k) * m (ER, i, k)))) with (sq_er g m).
      change (sum2 1 (n_r g - 1) 1 (n_z g - 1) (fun i k => node_volume (dr g) (dz g) i * (m (EPHI, i, k) * m (EPHI, i, k)))) with (sq_ephi g m).
      change (sum2 0 (n_r g - 1) 0 (n_z g - 1) (fun i k => node_volume (dr g) (dz g) i * (m (EZ, i, k) * m (EZ, i, k)))) with (sq_ez g m). ring. }
  assert (D : 0 <= dt * dt / (4 * MAGN_CONST)) by (apply Rdiv_nonneg; [apply sqr_nonneg|lra]).
  apply Rle_trans with (dt * dt / (4 * MAGN_CONST) * (cfl_const g * e_size m)); [now apply Rmult_le_compat_l|].
  replace (dt * dt / (4 * MAGN_CONST) * (cfl_const g * e_size m)) with (dt * dt * (4 / 3 / (dr g * dr g) + 1 / (dz g * dz g)) * (e_size m / MAGN_CONST)) by (unfold cfl_const; field; lra).
  replace ((1 - theta) * (EPSILON0 * e_size m)) with ((1 - theta) * (EPSILON0 * MAGN_CONST) * (e_size m / MAGN_CONST)) by (field; lra).
  apply Rmult_le_compat_r; [apply Rdiv_nonneg; [apply e_size_nonneg|lra]|exact Hc].
Qed.
Lemma mid_split : forall s m h, s * s = 1 -> h_sum g (fun a i k => h (a, i, k) * (h (a, i, k) + s * (dt / MAGN_CONST) * ce m a i k)) = h_mid s m h - (dt / MAGN_CONST / 2) * (dt / MAGN_CONST / 2) * h_sum g (fun a i k => ce m a i k * ce m a i k).
Proof.
  intros s m h Hs. unfold h_mid. replace (- ((dt / MAGN_CONST / 2) * (dt / MAGN_CONST / 2) * h_sum g (fun a i k => ce m a i k * ce m a i k))) with (- (dt / MAGN_CONST / 2 * (dt / MAGN_CONST / 2)) * h_sum g (fun a i k => ce m a i k * ce m a i k)) by ring.
  unfold Rminus. rewrite Ropp_mult_distr_l. rewrite <- h_sum_scal, <- h_sum_plus. apply h_sum_ext. intros a i k _. set (x := h (a, i, k)). set (c := ce m a i k). set (q := dt / MAGN_CONST).
  replace ((x + s * (q / 2) * c) * (x + s * (q / 2) * c) + - (q / 2 * (q / 2)) * (c * c)) with (x * (x + s * q * c) + (s * s - 1) * (q / 2 * c) * (q / 2 * c)) by field. rewrite Hs. ring.
Qed.
Lemma lower : forall s m h, s * s = 1 -> conducting g m ->
  theta * (EPSILON0 / 2 * e_size m) + MAGN_CONST / 2 * h_mid s m h <= electric_energy g (epsilon md) m + MAGN_CONST / 2 * h_sum g (fun a i k => h (a, i, k) * (h (a, i, k) + s * (dt / MAGN_CONST) * ce m a i k)).
Proof.
  intros s m h Hs Hm. rewrite (mid_split s m h Hs). assert (C := curl_size m Hm). assert (E := e_size_energy m). assert (HM := MAGN_CONST_pos).
  replace (MAGN_CONST / 2 * (h_mid s m h - dt / MAGN_CONST / 2 * (dt / MAGN_CONST / 2) * h_sum g (fun a i k => ce m a i k * ce m a i k)))
    with (MAGN_CONST / 2 * h_mid s m h - / 2 * (dt * dt / (4 * MAGN_CONST) * h_sum g (fun a i k => ce m a i k * ce m a i k))) by (field; lra). lra.
Qed.
Lemma after_lower : forall m h, conducting g m -> theta * (EPSILON0 / 2 * e_size m) + MAGN_CONST / 2 * h_mid 1 m h <= after m h.
Proof.
  intros m h Hm. apply Rle_trans with (1 := lower 1 m h ltac:(ring) Hm). right. unfold after. f_equal. f_equal. apply h_sum_ext. intros. ring.
Qed.
Lemma before_lower : forall m h, conducting g m -> theta * (EPSILON0 / 2 * e_size m) + MAGN_CONST / 2 * h_mid (-1) m h <= before m h.
Proof.
  intros m h Hm. apply Rle_trans with (1 := lower (-1) m h ltac:(ring) Hm). right. unfold before. f_equal. f_equal. apply h_sum_ext. intros. ring.
Qed.
Lemma after_nonneg : forall m h, conducting g m -> 0 <= after m h.
Proof.
  intros m h Hm. apply Rle_trans with (2 := after_lower m h Hm). assert (HM := MAGN_CONST_pos). assert (HE := EPSILON0_pos). assert (E := e_size_nonneg m). assert (H := h_mid_nonneg 1 m h).
  apply Rplus_le_le_0_compat; repeat apply Rmult_le_pos; lra.
Qed.
Lemma before_nonneg : forall m h, conducting g m -> 0 <= before m h.
Proof.
  intros m h Hm. apply Rle_trans with (2 := before_lower m h Hm). assert (HM := MAGN_CONST_pos). assert (HE := EPSILON0_pos). assert (E := e_size_nonneg m). assert (H := h_mid_nonneg (-1) m h).
  apply Rplus_le_le_0_compat; repeat apply Rmult_le_pos; lra.
Qed.
Definition rate : R := sqrt (2 * theta * EPSILON0).
Lemma rate_pos : 0 < rate. Proof. apply sqrt_lt_R0. assert (HE := EPSILON0_pos). apply Rmult_lt_0_compat; lra. Qed.
Lemma e_root : forall X m, theta * (EPSILON0 / 2 * e_size m) <= X -> rate * sqrt (e_size m) <= 2 * sqrt X.
Proof.
  intros X m H. unfold rate. assert (HE := EPSILON0_pos). assert (E := e_size_nonneg m). rewrite <- sqrt_mult by (try lra; apply Rmult_le_pos; lra).
  replace 2 with (sqrt (2 * 2)) at 2 by (apply sqrt_square; lra). rewrite <- sqrt_mult_alt by lra. apply sqrt_le_1_alt. lra.
Qed.

(** The step with any currents: the root of the energy grows by at most dt |J| / sqrt (2 theta eps0). *)
Lemma root_step : forall a b n, 0 <= a -> 0 <= b -> 0 <= n -> b - a <= n * (sqrt a + sqrt b) -> sqrt b <= sqrt a + n.
Proof.
  intros a b n Ha Hb Hn H. assert (A := sqrt_pos a). assert (B := sqrt_pos b). assert (A2 := sqrt_sqrt a Ha). assert (B2 := sqrt_sqrt b Hb).
  destruct (Rle_lt_dec (sqrt b) (sqrt a)) as [L|L]; [lra|]. apply Rmult_le_reg_r with (sqrt a + sqrt b); [lra|]. nra.
Qed.
Hypothesis Hdt : 0 <= dt.
Theorem driven_step : forall (m h m' : fmem) (J : farr -> Z -> Z -> R), conducting g m -> conducting g m' ->
  (forall a i k, e_at g a i k -> epsilonx2 md i k * (m' (a, i, k) - m (a, i, k)) = - sigma_t md dt i k * (m (a, i, k) + m' (a, i, k)) - 2 * dt * (J a i k - ch h a i k)) ->
  sqrt (after m' h) <= sqrt (before m h) + dt / rate * sqrt (e_sum g (fun a i k => J a i k * J a i k)).
Proof.
  intros m h m' J Hm Hm' HE. assert (B := balance m h m' J Hm Hm' HE).
  assert (H0 : 0 <= heat g md dt m m').
  { unfold heat. apply Rmult_le_pos; [exact Hdt|]. apply e_sum_nonneg. intros a i k Ha. apply Rmult_le_pos; [|apply sqr_nonneg]. destruct (Hp i k) as (_ & P); [destruct a; cbn in Ha; lia|destruct a; cbn in Ha; lia|exact P]. }
  assert (R := rate_pos). assert (NB := before_nonneg m h Hm). assert (NA := after_nonneg m' h Hm'). set (nJ := sqrt (e_sum g (fun a i k => J a i k * J a i k))). assert (NJ : 0 <= nJ) by apply sqrt_pos.
  assert (DR : 0 <= dt / rate) by (apply Rdiv_nonneg; lra).
  apply root_step; try assumption; [apply Rmult_le_pos; assumption|].
  assert (W : - e_sum g (fun a i k => J a i k * mean m m' a i k) <= nJ * ((sqrt (e_size m) + sqrt (e_size m')) / 2)).
  { replace (- e_sum g (fun a i k => J a i k * mean m m' a i k)) with (e_sum g (fun a i k => (- J a i k) * mean m m' a i k)).
    2:{ rewrite (e_sum_ext _ (fun a i k => -1 * (J a i k * mean m m' a i k))) by (intros; ring). rewrite e_sum_scal. ring. }
    apply Rle_trans with (1 := e_cauchy (fun a i k => - J a i k) (mean m m')). rewrite (e_sum_ext (fun a i k => - J a i k * - J a i k) (fun a i k => J a i k * J a i k)) by (intros; ring). fold nJ. apply Rmult_le_compat_l; [exact NJ|].
    rewrite (e_sum_ext (fun a i k => mean m m' a i k * mean m m' a i k) (fun a i k => / 4 * ((m (a, i, k) + m' (a, i, k)) * (m (a, i, k) + m' (a, i, k))))) by (intros; unfold mean; field).
    rewrite e_sum_scal, sqrt_mult_alt by lra. replace (sqrt (/ 4)) with (/ 2) by (replace (/ 4) with (/ 2 * / 2) by field; rewrite sqrt_square; lra).
    assert (T := e_triangle (fun a i k => m (a, i, k)) (fun a i k => m' (a, i, k))). cbv beta in T. unfold e_size. lra. }
  assert (E1 : rate * sqrt (e_size m) <= 2 * sqrt (before m h)). { apply e_root. assert (L := before_lower m h Hm). assert (P := h_mid_nonneg (-1) m h). assert (HM := MAGN_CONST_pos). assert (0 <= MAGN_CONST / 2 * h_mid (-1) m h) by (apply Rmult_le_pos; lra). lra. }
  assert (E2 : rate * sqrt (e_size m') <= 2 * sqrt (after m' h)). { apply e_root. assert (L := after_lower m' h Hm'). assert (P := h_mid_nonneg 1 m' h). assert (HM := MAGN_CONST_pos). assert (0 <= MAGN_CONST / 2 * h_mid 1 m' h) by (apply Rmult_le_pos; lra). lra. }
  assert (W2 : dt * - e_sum g (fun a i k => J a i k * mean m m' a i k) <= dt * (nJ * ((sqrt (e_size m) + sqrt (e_size m')) / 2))) by (apply Rmult_le_compat_l; assumption).
  assert (W3 : dt * (nJ * ((sqrt (e_size m) + sqrt (e_size m')) / 2)) = dt / rate * nJ * ((rate * sqrt (e_size m) + rate * sqrt (e_size m')) / 2)) by (field; lra).
  assert (W4 : dt / rate * nJ * ((rate * sqrt (e_size m) + rate * sqrt (e_size m')) / 2) <= dt / rate * nJ * (sqrt (before m h) + sqrt (after m' h))) by (apply Rmult_le_compat_l; [apply Rmult_le_pos; assumption|lra]). lra.
Qed.

(** A disturbance f of the magnetic field. *)
Theorem disturbed : forall (m h0 h1 : fmem) (f : farr -> Z -> Z -> R), conducting g m ->
  (forall a i k, h_at g a i k -> h1 (a, i, k) = h0 (a, i, k) + dt / MAGN_CONST * ce m a i k + f a i k) ->
  sqrt (before m h1) <= sqrt (after m h0) + sqrt (MAGN_CONST / 2 * h_sum g (fun a i k => f a i k * f a i k)).
Proof.
  intros m h0 h1 f Hm H1. assert (HM := MAGN_CONST_pos). assert (HE := EPSILON0_pos). set (q := dt / MAGN_CONST) in *.
  assert (NA := after_nonneg m h0 Hm). assert (F0 : 0 <= h_sum g (fun a i k => f a i k * f a i k)) by (apply h_sum_nonneg; intros; apply sqr_nonneg).
  assert (E : before m h1 = after m h0 + 2 * (MAGN_CONST / 2 * h_sum g (fun a i k => f a i k * (h0 (a, i, k) + q / 2 * ce m a i k))) + MAGN_CONST / 2 * h_sum g (fun a i k => f a i k * f a i k)).
  { unfold before, after. fold q.
    assert (S : h_sum g (fun a i k => (h1 (a, i, k) - q * ce m a i k) * h1 (a, i, k)) = h_sum g (fun a i k => h0 (a, i, k) * (h0 (a, i, k) + q * ce m a i k)) + 2 * h_sum g (fun a i k => f a i k * (h0 (a, i, k) + q / 2 * ce m a i k)) + h_sum g (fun a i k => f a i k * f a i k)).
    { rewrite <- h_sum_scal, <- !h_sum_plus. apply h_sum_ext. intros a i k Ha. rewrite (H1 a i k Ha). field. }
    rewrite S. ring. }
  set (x := sqrt (after m h0)). set (y := sqrt (MAGN_CONST / 2 * h_sum g (fun a i k => f a i k * f a i k))). assert (X : 0 <= x) by apply sqrt_pos. assert (Y : 0 <= y) by apply sqrt_pos.
  assert (X2 : x * x = after m h0) by (apply sqrt_sqrt; exact NA). assert (Y2 : y * y = MAGN_CONST / 2 * h_sum g (fun a i k => f a i k * f a i k)) by (apply sqrt_sqrt; apply Rmult_le_pos; lra).
  rewrite <- (sqrt_square (x + y)) by lra. apply sqrt_le_1_alt. rewrite E, <- X2, <- Y2.
  assert (C := h_cauchy f (fun a i k => h0 (a, i, k) + q / 2 * ce m a i k)). cbv beta in C.
  assert (M : MAGN_CONST / 2 * h_sum g (fun a i k => f a i k * (h0 (a, i, k) + q / 2 * ce m a i k)) <= y * x).
  { assert (HMid : MAGN_CONST / 2 * h_mid 1 m h0 <= after m h0). { assert (L := after_lower m h0 Hm). assert (P := e_size_nonneg m). assert (0 <= theta * (EPSILON0 / 2 * e_size m)) by (repeat apply Rmult_le_pos; lra). lra. }
    unfold y, x. rewrite sqrt_mult_alt by lra. apply Rle_trans with (MAGN_CONST / 2 * (sqrt (h_sum g (fun a i k => f a i k * f a i k)) * sqrt (h_mid 1 m h0))).
    - apply Rmult_le_compat_l; [lra|]. apply Rle_trans with (1 := C). right. f_equal. f_equal. unfold h_mid. fold q. apply h_sum_ext. intros. replace (1 * (q / 2)) with (q / 2) by ring. reflexivity.
    - set (s := sqrt (h_sum g (fun a i k => f a i k * f a i k))). assert (S0 : 0 <= s) by apply sqrt_pos. set (r := sqrt (MAGN_CONST / 2)). assert (R0 : 0 <= r) by apply sqrt_pos. assert (R2 : r * r = MAGN_CONST / 2) by (apply sqrt_sqrt; lra). rewrite <- R2.
      assert (L : r * sqrt (h_mid 1 m h0) <= sqrt (after m h0)) by (unfold r; rewrite <- sqrt_mult_alt by lra; apply sqrt_le_1_alt; exact HMid).
      replace (r * r * (s * sqrt (h_mid 1 m h0))) with (r * s * (r * sqrt (h_mid 1 m h0))) by ring. apply Rmult_le_compat_l; [apply Rmult_le_pos; assumption|exact L]. }
  replace ((x + y) * (x + y)) with (x * x + 2 * (y * x) + y * y) by ring. lra.
Qed.
End Sums.
