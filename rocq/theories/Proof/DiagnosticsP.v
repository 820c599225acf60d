(** Proofs about the density and temperature diagnostics. *)
From Coq Require Import Reals ZArith Lia Lra Psatz List Bool.
From Verif.Lib Require Import RAux Grid Outcome Vec.
From Verif.Model Require Import Constants Geometry Pusher Limits ChargeDeposit Diagnostics.
From Verif.Spec Require Import Cloud Thermal.
From Verif.Proof Require Import GeometryP ChargeP ChargeP2.
Import ListNotations.
Local Open Scope R_scope.

(** n_grid_r and n_grid_z are ints. *)
Definition int_sized (g : geom) : Prop := (n_r g <= 2147483648)%Z /\ (n_z g <= 2147483648)%Z.

Lemma u32_id : forall c, (0 <= c < 4294967296)%Z -> u32 c = c.
Proof. intros c H. unfold u32. now apply Z.mod_small. Qed.

Lemma CELL_NUMBER_cell : forall p dx, 0 < dx -> 0 < p -> CELL_NUMBER p dx = cell p dx.
Proof.
  intros p dx Hd Hp. unfold cell. destruct (Z.ltb_spec (CELL_NUMBER p dx) 0) as [H|H]; [|reflexivity].
  exfalso. unfold CELL_NUMBER in H. assert (A : (1 <= ceilZ (p / dx))%Z).
  { apply ceilZ_ge. cbn. assert (0 < p / dx) by (apply Rdiv_lt_0_compat; lra). lra. }
  lia.
Qed.

Lemma cell_of_inside : forall dx i p, 0 < dx -> (0 <= i)%Z ->
  IZR i * dx < p <= (IZR i + 1) * dx <-> 0 < p /\ cell p dx = i.
Proof.
  intros dx i p Hd Hi. assert (K := IZR_le _ _ Hi). cbn in K. split.
  - intros [H1 H2]. assert (P : 0 < p) by nra. split; [exact P|].
    rewrite <- CELL_NUMBER_cell by assumption. unfold CELL_NUMBER.
    rewrite (ceilZ_unique (p / dx) (i + 1)); [lia|]. rewrite plus_IZR. cbn.
    assert (Q : p / dx * dx = p) by (apply div_mult_cancel; lra).
    split; [apply Rmult_lt_reg_r with dx|apply Rmult_le_reg_r with dx]; lra.
  - intros [P <-]. split; [now apply cell_lower|apply cell_upper; lra].
Qed.

(** ** The cloud weights are those of the charge deposition *)

Lemma cloud_incs_charge : forall g q r z, geom_ok g -> int_sized g -> 0 <= r <= r_size g -> 0 < z <= z_size g ->
  cloud_incs g q r z = charge_weighting_single g q r z.
Proof.
  intros g q r z Hg [I1 I2] Hr Hz.
  assert (Dr := dr_pos g Hg). assert (Dz := dz_pos g Hg).
  assert (Cz := cell_z_bound g z Hg ltac:(lra)). assert (Cr := cell_r_bound g r Hg ltac:(lra)).
  unfold cloud_incs, cloud, charge_weighting_single.
  rewrite (CELL_NUMBER_cell z) by lra.
  rewrite (u32_id (cell z (dz g))) by lia. rewrite (u32_id (cell z (dz g) + 1)) by lia.
  destruct (Rlt_dec (dr g) r) as [A|A].
  - rewrite (CELL_NUMBER_cell r) by lra. rewrite (u32_id (cell r (dr g))) by lia.
    rewrite (u32_id (cell r (dr g) + 1)) by lia. rewrite plus_IZR.
    cbn [fst snd map row col val]. repeat (f_equal; try (unfold Rdiv; ring)).
  - destruct (Rle_dec r (dr g / 2)) as [B|B].
    + rewrite (u32_id (0 + 1)) by lia. rewrite plus_IZR.
      cbn [fst snd map row col val]. repeat (f_equal; try (unfold Rdiv; ring)).
    + rewrite (CELL_NUMBER_cell r) by lra. rewrite (u32_id (cell r (dr g))) by lia.
      rewrite (u32_id (cell r (dr g) + 1)) by lia. rewrite plus_IZR.
      cbn [fst snd map row col val]. repeat (f_equal; try (unfold Rdiv; ring)).
Qed.

(** ** Density *)

Lemma calc_density_charge : forall g ps, geom_ok g -> int_sized g ->
  Forall (fun p => 0 <= d_r p <= r_size g /\ 0 < d_z p <= z_size g) ps ->
  calc_density g ps = charge_weighting g zero_arr (map (fun p => QPart true (d_mass p / EL_MASS) (d_r p) (d_z p)) ps).
Proof.
  intros g ps Hg Hi H. unfold calc_density. rewrite charge_weighting_incs. f_equal.
  induction H as [|p ps [Hr Hz] _ IH]; [reflexivity|]. cbn [flat_map map]. rewrite IH. f_equal.
  unfold density_incs. now apply cloud_incs_charge.
Qed.

Lemma grid_charge_zero : forall nr nz a b, grid_charge nr nz a b zero_arr = 0.
Proof.
  intros. unfold grid_charge, total. rewrite (zsum_ext _ (fun _ => 0)).
  - apply zsum_zero.
  - intros i Hi. rewrite (zsum_ext _ (fun _ => 0)); [apply zsum_zero|]. intros k Hk. unfold zero_arr. ring.
Qed.

Lemma density_total : forall g ps, geom_ok g -> int_sized g ->
  Forall (fun p => 0 <= d_r p <= r_size g /\ 0 < d_z p <= z_size g) ps ->
  grid_charge (n_r g) (n_z g) (dr g) (dz g) (calc_density g ps) = rsum (map (fun p => d_mass p / EL_MASS) ps).
Proof.
  intros g ps Hg Hi H. rewrite calc_density_charge by assumption. rewrite charge_weighting_list_total.
  - rewrite grid_charge_zero, Rplus_0_l, map_map. cbn [q_alive q_charge]. reflexivity.
  - exact Hg.
  - rewrite Forall_map. eapply Forall_impl; [|exact H]. cbn. intros p [A B] _. lra.
Qed.

(** ** Allocation *)

Lemma writes_fit : forall lo hi size, (0 <= lo)%Z -> (hi <= size)%Z ->
  for_up lo hi (fun i => checked_write size i) (Ok tt) = Ok tt.
Proof.
  intros lo hi size H0 H1. destruct (Z_le_gt_dec hi lo) as [E|E]; [now apply for_up_empty|].
  apply (for_up_inv (fun _ o => o = Ok tt)); [lia|reflexivity|].
  intros i t Hi ->. unfold checked_write. cbn [bind].
  destruct (Z.leb_spec 0 i), (Z.ltb_spec i size); cbn; (reflexivity || lia).
Qed.

Lemma writes_overflow : forall n, (1 <= n)%Z ->
  for_up 0 n (fun i => checked_write (n - 1) i) (Ok tt) = UB.
Proof.
  intros n Hn. replace n with ((n - 1) + 1)%Z at 1 by lia. rewrite for_up_last by lia.
  rewrite writes_fit by lia. unfold checked_write. cbn [bind].
  destruct (Z.ltb_spec (n - 1) (n - 1)); [lia|]. now rewrite andb_false_r.
Qed.

Lemma density_constructor_overflow : forall g, geom_ok g -> density_constructor g = UB.
Proof. intros g (A & _). unfold density_constructor. apply writes_overflow. lia. Qed.

Lemma density_reset_overflow : forall g, geom_ok g -> density_reset g = UB.
Proof.
  intros g (A & B & _). unfold density_reset. rewrite for_up_first by lia.
  rewrite writes_overflow by lia. apply for_up_ub. intro i. apply for_up_ub. intro j. reflexivity.
Qed.

Lemma temperature_constructor_overflow : forall g, geom_ok g -> temperature_constructor g = UB.
Proof.
  intros g (A & _). unfold temperature_constructor.
  replace (n_r g) with ((n_r g - 1) + 1)%Z at 1 by lia. rewrite for_up_last by lia.
  assert (E : for_up 0 (n_r g - 1) (fun i o => checked_write (n_r g - 1) i (checked_write (n_r g - 1) i o)) (Ok tt) = Ok tt).
  { apply (for_up_inv (fun _ o => o = Ok tt)); [lia|reflexivity|].
    intros i t Hi ->. unfold checked_write. cbn [bind].
    destruct (Z.leb_spec 0 i), (Z.ltb_spec i (n_r g - 1)); cbn; (reflexivity || lia). }
  rewrite E. unfold checked_write. cbn [bind].
  destruct (Z.ltb_spec (n_r g - 1) (n_r g - 1)); [lia|]. now rewrite andb_false_r.
Qed.

(** A particle that has not been injected yet is at z = 0. *)
Lemma u32_minus_one : forall dx, 0 < dx -> u32 (CELL_NUMBER 0 dx) = 4294967295%Z.
Proof.
  intros dx H. unfold CELL_NUMBER. replace (0 / dx) with (IZR 0) by (cbn; field; lra).
  rewrite ceilZ_IZR. reflexivity.
Qed.

Lemma density_z0_column : forall g p, geom_ok g -> d_z p = 0 ->
  exists c, In c (density_incs g p) /\ col c = 4294967295%Z.
Proof.
  intros g p Hg Hz. unfold density_incs, cloud_incs. rewrite Hz.
  assert (E : exists c, In c (snd (cloud g (d_r p) 0)) /\ col c = 4294967295%Z).
  { unfold cloud. rewrite (u32_minus_one (dz g)) by now apply dz_pos.
    destruct (Rlt_dec _ _); [|destruct (Rle_dec _ _)]; cbn [snd]; eexists; (split; [left; reflexivity|reflexivity]). }
  destruct E as (c & Hc & E). exists (Inc (row c) (col c) (d_mass p / EL_MASS / fst (cloud g (d_r p) 0) * val c)).
  split; [|exact E]. apply in_map_iff. now exists c.
Qed.

(** ** Moments *)

Definition norm3 (x y z : R) : R := sqrt (x * x + y * y + z * z).

Lemma norm3_nonneg : forall x y z, 0 <= norm3 x y z.
Proof. intros. apply sqrt_pos. Qed.

Lemma norm3_sq : forall x y z, norm3 x y z * norm3 x y z = x * x + y * y + z * z.
Proof. intros. apply sqrt_sqrt. nra. Qed.

Lemma norm3_triangle : forall a b c d e f, norm3 (a + d) (b + e) (c + f) <= norm3 a b c + norm3 d e f.
Proof.
  intros a b c d e f.
  assert (N1 := norm3_nonneg a b c). assert (N2 := norm3_nonneg d e f).
  assert (S1 := norm3_sq a b c). assert (S2 := norm3_sq d e f).
  assert (C : a * d + b * e + c * f <= norm3 a b c * norm3 d e f).
  { assert (Q : (a * d + b * e + c * f) * (a * d + b * e + c * f) <=
                (norm3 a b c * norm3 d e f) * (norm3 a b c * norm3 d e f)).
    { replace ((norm3 a b c * norm3 d e f) * (norm3 a b c * norm3 d e f))
        with ((norm3 a b c * norm3 a b c) * (norm3 d e f * norm3 d e f)) by ring.
      rewrite S1, S2.
      assert (0 <= (a * e - b * d) * (a * e - b * d)) by apply Rle_0_sqr.
      assert (0 <= (a * f - c * d) * (a * f - c * d)) by apply Rle_0_sqr.
      assert (0 <= (b * f - c * e) * (b * f - c * e)) by apply Rle_0_sqr. lra. }
    assert (P : 0 <= norm3 a b c * norm3 d e f) by nra.
    destruct (Rle_dec (a * d + b * e + c * f) 0); [lra|]. nra. }
  unfold norm3 at 1. rewrite <- (sqrt_square (norm3 a b c + norm3 d e f)) by lra.
  apply sqrt_le_1_alt. nra.
Qed.

Lemma norm3_scale : forall w x y z, 0 <= w -> norm3 (w * x) (w * y) (w * z) = w * norm3 x y z.
Proof.
  intros w x y z Hw. unfold norm3.
  replace (w * x * (w * x) + w * y * (w * y) + w * z * (w * z)) with ((w * w) * (x * x + y * y + z * z)) by ring.
  rewrite sqrt_mult; [|nra|nra]. now rewrite sqrt_square.
Qed.

(** Weighted velocities. *)
Definition wsum (f : vec3 -> R) (l : list (R * vec3)) : R := rsum (map (fun a => fst a * f (snd a)) l).


Lemma wsum_triangle : forall l, Forall (fun a : R * vec3 => 0 <= fst a) l ->
  norm3 (wsum v0 l) (wsum v1 l) (wsum v2 l) <= wsum speed_of l /\ 0 <= wsum (fun _ => 1) l.
Proof.
  intros l Hw. induction Hw as [|[w v] t Ha _ IH]; unfold wsum in *; cbn [map rsum fst snd] in *.
  - split; [|lra]. unfold norm3. rewrite Rmult_0_l, !Rplus_0_l, sqrt_0. lra.
  - destruct IH as [IH1 IH2]. split; [|lra].
    eapply Rle_trans; [apply norm3_triangle|]. rewrite norm3_scale by exact Ha.
    change (norm3 (v0 v) (v1 v) (v2 v)) with (speed_of v). lra.
Qed.

Lemma wsum_sq : forall l, Forall (fun a : R * vec3 => 0 <= fst a) l ->
  wsum v0 l * wsum v0 l + wsum v1 l * wsum v1 l + wsum v2 l * wsum v2 l <= wsum speed_of l * wsum speed_of l.
Proof.
  intros l Hw. destruct (wsum_triangle l Hw) as [T _]. assert (N := norm3_nonneg (wsum v0 l) (wsum v1 l) (wsum v2 l)).
  rewrite <- norm3_sq. nra.
Qed.

Lemma wsum_common : forall l f u, Forall (fun a : R * vec3 => fst a = 0 \/ snd a = u) l -> wsum f l = wsum (fun _ => 1) l * f u.
Proof.
  intros l f u H. induction H as [|[w v] t Ha _ IH]; unfold wsum in *; cbn [map rsum fst snd] in *; [lra|].
  destruct Ha as [->| ->]; lra.
Qed.

Lemma wsum_bound : forall l, Forall (fun a : R * vec3 => 0 <= fst a) l -> forall c, Forall (fun a => speed_of (snd a) < c) l -> 0 < wsum (fun _ => 1) l ->
  wsum speed_of l < wsum (fun _ => 1) l * c.
Proof.
  intros l Hw c H Hp.
  assert (G : wsum speed_of l <= wsum (fun _ => 1) l * c /\
              (0 < wsum (fun _ => 1) l -> wsum speed_of l < wsum (fun _ => 1) l * c)).
  { clear Hp. revert H. induction Hw as [|[w v] t Ha _ IH]; intro H; unfold wsum in *; cbn [map rsum fst snd] in *.
    - split; lra.
    - inversion H as [|x y Hx Hy]; subst. cbn [fst snd] in *. destruct (IH Hy) as [I1 I2].
      split; [nra|]. intro Q. destruct (Rle_dec w 0) as [E|E].
      + assert (w = 0) by lra. subst w. rewrite Rmult_0_l in *. lra.
      + nra. }
  now apply G.
Qed.

Lemma get_gamma_ge_1 : forall x, 0 <= x < LIGHT_SPEED_POW_2 -> exists y, get_gamma x = Ok y /\ 1 <= y.
Proof.
  intros x [H0 H1]. unfold get_gamma.
  assert (P : 0 < LIGHT_SPEED_POW_2) by (unfold LIGHT_SPEED_POW_2, LIGHT_SPEED; lra).
  assert (B : 0 <= x / LIGHT_SPEED_POW_2 < 1).
  { split; [apply Rmult_le_reg_r with LIGHT_SPEED_POW_2|apply Rmult_lt_reg_r with LIGHT_SPEED_POW_2];
      try exact P; unfold Rdiv; rewrite Rmult_assoc, Rinv_l; lra. }
  set (b := x / LIGHT_SPEED_POW_2) in *.
  destruct (Rlt_dec 1 b); [lra|]. destruct (Req_EM_T b 1); [lra|].
  eexists. split; [reflexivity|].
  assert (S : 0 < sqrt (1 - b)) by (apply sqrt_lt_R0; lra).
  assert (S1 : sqrt (1 - b) <= 1) by (rewrite <- sqrt_1 at 2; apply sqrt_le_1_alt; lra).
  apply Rmult_le_reg_r with (sqrt (1 - b)); [exact S|]. unfold Rdiv. rewrite Rmult_assoc, Rinv_l; lra.
Qed.

(** Moments of a list of weighted velocities at one node. *)
Definition moments_at (m : moments) (i k : Z) (l : list (R * vec3)) (c : R) : Prop :=
  t_sum m i k = wsum speed_of l /\ t_vec_r m i k = wsum v0 l /\ t_vec_phi m i k = wsum v1 l /\
  t_vec_z m i k = wsum v2 l /\ count_sum m i k = wsum (fun _ => 1) l * c.

Lemma normalize_classic_value : forall mass charge m i k l,
  0 < mass -> charge <> 0 -> moments_at m i k l 1 ->
  Forall (fun a => 0 <= fst a) l -> Forall (fun a => speed_of (snd a) < LIGHT_SPEED) l ->
  wsum (fun _ => 1) l <> 0 ->
  exists t, normalize_classic mass charge m i k = Ok (Num t) /\ 0 <= t /\
    (forall u, Forall (fun a => fst a = 0 \/ snd a = u) l -> t = 0).
Proof.
  intros mass charge m i k l Hm Hq (M1 & M2 & M3 & M4 & M5) Hw Hs Hc.
  rewrite Rmult_1_r in M5.
  destruct (wsum_triangle l Hw) as [_ C0].
  assert (CP : 0 < wsum (fun _ => 1) l) by lra.
  assert (SQ := wsum_sq l Hw). assert (SB := wsum_bound l Hw LIGHT_SPEED Hs CP).
  assert (A : 0 < Rabs charge) by now apply Rabs_pos_lt.
  unfold normalize_classic. rewrite M5. destruct (Req_EM_T _ 0) as [E|_]; [contradiction|].
  unfold vec_sum_2. rewrite M1, M2, M3, M4.
  set (D := wsum speed_of l * wsum speed_of l - _).
  assert (HD : 0 <= D) by (unfold D; lra).
  set (C := wsum (fun _ => 1) l) in *.
  assert (HV : 0 <= D / (C * C)).
  { apply Rmult_le_reg_r with (C * C); [nra|]. unfold Rdiv. rewrite Rmult_assoc, Rinv_l by nra. lra. }
  assert (HZ : forall u, Forall (fun a => fst a = 0 \/ snd a = u) l -> D = 0).
  { intros u Hu. unfold D. rewrite (wsum_common l speed_of u Hu), (wsum_common l v0 u Hu), (wsum_common l v1 u Hu), (wsum_common l v2 u Hu). fold C. unfold speed_of.
    replace (C * sqrt (v0 u * v0 u + v1 u * v1 u + v2 u * v2 u) * (C * sqrt (v0 u * v0 u + v1 u * v1 u + v2 u * v2 u)))
      with (C * C * (sqrt (v0 u * v0 u + v1 u * v1 u + v2 u * v2 u) * sqrt (v0 u * v0 u + v1 u * v1 u + v2 u * v2 u))) by ring.
    rewrite sqrt_sqrt by nra. ring. }
  destruct (Rlt_dec (D / (C * C)) REL_LIMIT_POW_2) as [L|L].
  - rewrite bind_ok. eexists. split; [reflexivity|]. split.
    + apply Rmult_le_pos; [|left; now apply Rinv_0_lt_compat]. nra.
    + intros u Hu. rewrite (HZ u Hu). unfold Rdiv. ring.
  - assert (UB : D / (C * C) < LIGHT_SPEED_POW_2).
    { apply Rmult_lt_reg_r with (C * C); [nra|]. unfold Rdiv. rewrite Rmult_assoc, Rinv_l by nra.
      rewrite Rmult_1_r. unfold LIGHT_SPEED_POW_2.
      assert (0 <= wsum speed_of l).
      { destruct (wsum_triangle l Hw) as [T _]. eapply Rle_trans; [apply norm3_nonneg|exact T]. }
      assert (D <= wsum speed_of l * wsum speed_of l) by (unfold D; nra).
      replace (LIGHT_SPEED * LIGHT_SPEED * (C * C)) with ((C * LIGHT_SPEED) * (C * LIGHT_SPEED)) by ring. nra. }
    destruct (get_gamma_ge_1 (D / (C * C)) (conj HV UB)) as (y & E & Hy). rewrite E, !bind_ok.
    eexists. split; [reflexivity|]. split.
    + apply Rmult_le_pos; [|left; now apply Rinv_0_lt_compat].
      assert (0 < LIGHT_SPEED_POW_2) by (unfold LIGHT_SPEED_POW_2, LIGHT_SPEED; lra).
      apply Rmult_le_pos; [|lra]. apply Rmult_le_pos; lra.
    + intros u Hu. exfalso. apply L. rewrite (HZ u Hu). unfold Rdiv. rewrite Rmult_0_l. unfold REL_LIMIT_POW_2. lra.
Qed.

Lemma normalize_weighted_value : forall mass charge m i k l,
  0 < mass -> charge <> 0 -> moments_at m i k l (/ mass) ->
  Forall (fun a => 0 <= fst a) l -> count_sum m i k <> 0 ->
  exists t, normalize_weighted mass charge m i k = Num t /\ 0 <= t /\
    (forall u, Forall (fun a => fst a = 0 \/ snd a = u) l -> t = 0).
Proof.
  intros mass charge m i k l Hm Hq (M1 & M2 & M3 & M4 & M5) Hw Hc.
  assert (SQ := wsum_sq l Hw).
  assert (A : 0 < Rabs charge) by now apply Rabs_pos_lt.
  unfold normalize_weighted. destruct (Req_EM_T _ 0) as [E|_]; [contradiction|].
  unfold vec_sum_2. rewrite M1, M2, M3, M4.
  set (P := wsum v0 l * wsum v0 l + _ + _) in *. set (D := wsum speed_of l * wsum speed_of l - P).
  assert (HD : 0 <= D) by (unfold D; lra).
  set (C := count_sum m i k) in *. assert (CC : 0 < C * C) by nra.
  assert (HZ : forall u, Forall (fun a => fst a = 0 \/ snd a = u) l -> D = 0).
  { intros u Hu. unfold D, P. rewrite (wsum_common l speed_of u Hu), (wsum_common l v0 u Hu), (wsum_common l v1 u Hu), (wsum_common l v2 u Hu). set (W := wsum (fun _ => 1) l). unfold speed_of.
    replace (W * sqrt (v0 u * v0 u + v1 u * v1 u + v2 u * v2 u) * (W * sqrt (v0 u * v0 u + v1 u * v1 u + v2 u * v2 u)))
      with (W * W * (sqrt (v0 u * v0 u + v1 u * v1 u + v2 u * v2 u) * sqrt (v0 u * v0 u + v1 u * v1 u + v2 u * v2 u))) by ring.
    rewrite sqrt_sqrt by nra. ring. }
  eexists. split; [reflexivity|].
  assert (IA : 0 < / Rabs charge) by now apply Rinv_0_lt_compat.
  assert (LP : 0 < LIGHT_SPEED_POW_2) by (unfold LIGHT_SPEED_POW_2, LIGHT_SPEED; lra).
  assert (MC : 0 < mass * LIGHT_SPEED_POW_2) by nra.
  split.
  - apply Rmult_le_pos; [|lra]. destruct (Rlt_dec _ _).
    + apply Rmult_le_pos; [exact HD|]. left. apply Rinv_0_lt_compat. nra.
    + set (mc := mass * LIGHT_SPEED_POW_2) in *.
      assert (Q : 0 <= D * LIGHT_SPEED_POW_2 / (C * C)).
      { apply Rmult_le_pos; [nra|]. left. now apply Rinv_0_lt_compat. }
      assert (mc <= sqrt (D * LIGHT_SPEED_POW_2 / (C * C) + mc * mc)); [|lra].
      rewrite <- (sqrt_square mc) at 1 by lra. apply sqrt_le_1_alt. lra.
  - intros u Hu. rewrite (HZ u Hu). destruct (Rlt_dec _ _).
    + unfold Rdiv. ring.
    + unfold Rdiv. rewrite !Rmult_0_l, Rplus_0_l, sqrt_square by lra. ring.
Qed.

(** ** The sums that the program forms *)

Lemma inc_at_flat_map : forall {A} (f : A -> list inc) l i k,
  apply_incs zero_arr (flat_map f l) i k = rsum (map (fun a => inc_at (f a) i k) l).
Proof.
  intros A f l i k. rewrite apply_incs_at. unfold zero_arr. rewrite Rplus_0_l.
  induction l as [|a l IH]; [reflexivity|]. cbn [flat_map map rsum]. now rewrite inc_at_app, IH.
Qed.

(** Weight of a particle in a cell. *)
Definition classic_weight (g : geom) (i k : Z) (p : dpart) : R := inc_at (classic_inc g 1 p) i k.

Lemma classic_weight_inc : forall g x p i k, inc_at (classic_inc g x p) i k = classic_weight g i k p * x.
Proof.
  intros. unfold classic_weight, classic_inc, inc_at. cbn [map rsum row col val].
  destruct (_ && _)%bool; lra.
Qed.

Definition classic_list (g : geom) (i k : Z) (ps : list dpart) : list (R * vec3) :=
  map (fun p => (classic_weight g i k p, d_vel p)) ps.

Lemma classic_moments : forall g ps i k, moments_at (calc_t_classic g ps) i k (classic_list g i k ps) 1.
Proof.
  intros g ps i k. unfold moments_at, calc_t_classic, classic_list, wsum. cbn [t_sum t_vec_r t_vec_phi t_vec_z count_sum].
  rewrite !inc_at_flat_map, !map_map. cbn [fst snd].
  repeat split; try (f_equal; apply map_ext; intro p; apply classic_weight_inc).
  rewrite Rmult_1_r. f_equal. apply map_ext. intro p. apply classic_weight_inc.
Qed.

Definition cloud_weight (g : geom) (i k : Z) (p : dpart) : R := inc_at (cloud_incs g (d_mass p) (d_r p) (d_z p)) i k.

Lemma cloud_incs_scale : forall g q r z i k,
  inc_at (cloud_incs g q r z) i k = q * (/ fst (cloud g r z) * inc_at (snd (cloud g r z)) i k).
Proof.
  intros g q r z i k. unfold cloud_incs, inc_at. destruct (cloud g r z) as [v0 l]. cbn [fst snd].
  rewrite map_map. cbn [row col val]. induction l as [|c l IH]; cbn [map rsum]; [ring|].
  rewrite IH. destruct (_ && _)%bool; unfold Rdiv; ring.
Qed.

Definition cloud_list (g : geom) (i k : Z) (ps : list dpart) : list (R * vec3) :=
  map (fun p => (cloud_weight g i k p, d_vel p)) ps.

Lemma cloud_moments : forall g mass ps i k, moments_at (calc_t_weighted g mass ps) i k (cloud_list g i k ps) (/ mass).
Proof.
  intros g mass ps i k. unfold moments_at, calc_t_weighted, cloud_list, wsum. cbn [t_sum t_vec_r t_vec_phi t_vec_z count_sum].
  rewrite !inc_at_flat_map, !map_map. cbn [fst snd]. unfold cloud_weight.
  repeat split; try (f_equal; apply map_ext; intro p; rewrite !cloud_incs_scale; ring).
  induction ps as [|p ps IH]; cbn [map rsum]; [ring|]. rewrite IH, !cloud_incs_scale. unfold Rdiv. ring.
Qed.

(** Weights are non-negative, and zero away from the node. *)

Lemma classic_weight_nonneg : forall g i k p, 0 <= classic_weight g i k p.
Proof.
  intros. unfold classic_weight, classic_inc, inc_at. cbn [map rsum row col val].
  destruct (_ && _)%bool; lra.
Qed.

Lemma classic_weight_cell : forall g i k p, geom_ok g -> int_sized g ->
  0 < d_r p <= r_size g -> 0 < d_z p <= z_size g -> (0 <= i)%Z -> (0 <= k)%Z ->
  (inside_cell (dr g) (dz g) i k (d_r p) (d_z p) -> classic_weight g i k p = 1) /\
  (~ inside_cell (dr g) (dz g) i k (d_r p) (d_z p) -> classic_weight g i k p = 0).
Proof.
  intros g i k p Hg [I1 I2] Hr Hz Hi Hk.
  assert (Dr := dr_pos g Hg). assert (Dz := dz_pos g Hg).
  assert (Cz := cell_z_bound g (d_z p) Hg ltac:(lra)). assert (Cr := cell_r_bound g (d_r p) Hg ltac:(lra)).
  assert (Ei := cell_of_inside (dr g) i (d_r p) Dr Hi). assert (Ek := cell_of_inside (dz g) k (d_z p) Dz Hk).
  unfold classic_weight, classic_inc, inc_at. cbn [map rsum row col val].
  rewrite !CELL_NUMBER_cell by lra. rewrite !u32_id by lia. unfold inside_cell.
  destruct (Z.eqb_spec i (cell (d_r p) (dr g))) as [E1|E1], (Z.eqb_spec k (cell (d_z p) (dz g))) as [E2|E2]; cbn [andb];
    (split; [intros [A B]|intro N]); try lra.
  - exfalso. apply N. split; [apply Ei|apply Ek]; split; (lra || congruence).
  - exfalso. apply Ek in B. destruct B. congruence.
  - exfalso. apply Ei in A. destruct A. congruence.
  - exfalso. apply Ei in A. destruct A. congruence.
Qed.

Lemma cloud_weight_nonneg : forall g i k p, geom_ok g -> int_sized g -> 0 <= d_mass p ->
  0 <= d_r p <= r_size g -> 0 < d_z p <= z_size g -> 0 <= cloud_weight g i k p.
Proof.
  intros g i k p Hg Hi Hm Hr Hz. unfold cloud_weight.
  rewrite cloud_incs_charge by assumption.
  destruct (Req_EM_T (d_mass p) 0) as [E|E].
  - rewrite <- (cloud_incs_charge g (d_mass p) (d_r p) (d_z p)) by assumption. rewrite cloud_incs_scale, E. lra.
  - assert (S := charge_weighting_sign g (d_mass p) (d_r p) (d_z p) Hg ltac:(lra) ltac:(lra)).
    unfold inc_at. induction S as [|c l Hc _ IH]; cbn [map rsum]; [lra|].
    assert (0 <= val c) by nra. destruct (_ && _)%bool; lra.
Qed.

Lemma cloud_weight_far : forall g i k p, geom_ok g -> int_sized g ->
  0 <= d_r p <= r_size g -> 0 < d_z p <= z_size g ->
  ~ near_node (dr g) (dz g) i k (d_r p) (d_z p) -> cloud_weight g i k p = 0.
Proof.
  intros g i k p Hg Hi Hr Hz N. unfold cloud_weight. rewrite cloud_incs_charge by assumption.
  assert (S := charge_weighting_local g (d_mass p) (d_r p) (d_z p) Hg ltac:(lra) ltac:(lra)).
  unfold inc_at. induction S as [|c l Hc _ IH]; cbn [map rsum]; [lra|]. rewrite IH, Rplus_0_r.
  destruct (Z.eqb_spec i (row c)) as [->|E1], (Z.eqb_spec k (col c)) as [->|E2]; cbn [andb]; try reflexivity.
  exfalso. apply N. exact Hc.
Qed.

(** ** The two diagnostics *)

Definition in_domain (g : geom) (p : dpart) : Prop := 0 < d_r p <= r_size g /\ 0 < d_z p <= z_size g.

Lemma classic_count : forall g ps i k, geom_ok g -> int_sized g -> Forall (in_domain g) ps -> (0 <= i)%Z -> (0 <= k)%Z ->
  Exists (fun p => inside_cell (dr g) (dz g) i k (d_r p) (d_z p)) ps ->
  wsum (fun _ => 1) (classic_list g i k ps) <> 0.
Proof.
  intros g ps i k Hg Hi Hd Hi0 Hk0 He.
  assert (P : 0 < wsum (fun _ => 1) (classic_list g i k ps)); [|lra].
  unfold wsum, classic_list. rewrite map_map. cbn [fst snd].
  induction ps as [|p ps IH]; [inversion He|]. inversion Hd as [|x y [Hr Hz] Hy]; subst. cbn [map rsum].
  assert (W := classic_weight_nonneg g i k p).
  assert (R : 0 <= rsum (map (fun x => classic_weight g i k x * 1) ps)).
  { clear. induction ps as [|q ps IH]; cbn [map rsum]; [lra|]. assert (W := classic_weight_nonneg g i k q). lra. }
  inversion He as [x y Hx|x y Hx]; subst.
  - destruct (classic_weight_cell g i k p Hg Hi Hr Hz Hi0 Hk0) as [A _]. rewrite (A Hx). lra.
  - specialize (IH Hy Hx). lra.
Qed.

Lemma temperature_classic : forall g mass charge ps i k, geom_ok g -> int_sized g -> 0 < mass -> charge <> 0 ->
  Forall (in_domain g) ps -> Forall (fun p => speed_of (d_vel p) < LIGHT_SPEED) ps ->
  (0 <= i)%Z -> (0 <= k)%Z ->
  Exists (fun p => inside_cell (dr g) (dz g) i k (d_r p) (d_z p)) ps ->
  exists t, normalize_classic mass charge (calc_t_classic g ps) i k = Ok (Num t) /\ 0 <= t /\
    (forall u, Forall (fun p => inside_cell (dr g) (dz g) i k (d_r p) (d_z p) -> d_vel p = u) ps -> t = 0).
Proof.
  intros g mass charge ps i k Hg Hi Hm Hq Hd Hs Hi0 Hk0 He.
  destruct (normalize_classic_value mass charge (calc_t_classic g ps) i k (classic_list g i k ps))
    as (t & E & T0 & TZ); auto.
  - apply classic_moments.
  - unfold classic_list. rewrite Forall_map. apply Forall_forall. intros p _. apply classic_weight_nonneg.
  - unfold classic_list. rewrite Forall_map. exact Hs.
  - now apply classic_count.
  - exists t. split; [exact E|]. split; [exact T0|]. intros u Hu. apply (TZ u).
    unfold classic_list. rewrite Forall_map. cbn [fst snd].
    rewrite Forall_forall in *. intros p Hp. destruct (Hd p Hp) as [Hr Hz].
    destruct (classic_weight_cell g i k p Hg Hi Hr Hz Hi0 Hk0) as [A B].
    destruct (Req_EM_T (classic_weight g i k p) 0) as [Z|NZ]; [now left|right].
    apply (Hu p Hp). unfold inside_cell.
    assert (Dr := dr_pos g Hg). assert (Dz := dz_pos g Hg).
    destruct (Rlt_dec (IZR i * dr g) (d_r p)), (Rle_dec (d_r p) ((IZR i + 1) * dr g)),
      (Rlt_dec (IZR k * dz g) (d_z p)), (Rle_dec (d_z p) ((IZR k + 1) * dz g));
      try (exfalso; apply NZ; apply B; unfold inside_cell; lra). lra.
Qed.

Lemma temperature_weighted : forall g mass charge ps i k, geom_ok g -> int_sized g -> 0 < mass -> charge <> 0 ->
  Forall (fun p => 0 <= d_mass p /\ 0 <= d_r p <= r_size g /\ 0 < d_z p <= z_size g) ps ->
  count_sum (calc_t_weighted g mass ps) i k <> 0 ->
  exists t, normalize_weighted mass charge (calc_t_weighted g mass ps) i k = Num t /\ 0 <= t /\
    (forall u, Forall (fun p => near_node (dr g) (dz g) i k (d_r p) (d_z p) -> d_vel p = u) ps -> t = 0).
Proof.
  intros g mass charge ps i k Hg Hi Hm Hq Hd Hc.
  destruct (normalize_weighted_value mass charge (calc_t_weighted g mass ps) i k (cloud_list g i k ps))
    as (t & E & T0 & TZ); auto.
  - apply cloud_moments.
  - unfold cloud_list. rewrite Forall_map. eapply Forall_impl; [|exact Hd].
    intros p (A & B & C). now apply cloud_weight_nonneg.
  - exists t. split; [exact E|]. split; [exact T0|]. intros u Hu. apply (TZ u).
    unfold cloud_list. rewrite Forall_map. cbn [fst snd].
    rewrite Forall_forall in *. intros p Hp. destruct (Hd p Hp) as (A & B & C).
    destruct (Req_EM_T (cloud_weight g i k p) 0) as [Z|NZ]; [now left|right].
    apply (Hu p Hp). unfold near_node.
    destruct (Rle_dec (Rabs (IZR i * dr g - d_r p)) (dr g)), (Rle_dec (Rabs (IZR k * dz g - d_z p)) (dz g));
      try (split; assumption);
      exfalso; apply NZ; apply cloud_weight_far; auto; unfold near_node; tauto.
Qed.

Lemma temperature_empty : forall g mass charge ps i k, geom_ok g -> int_sized g ->
  Forall (in_domain g) ps -> (0 <= i)%Z -> (0 <= k)%Z ->
  Forall (fun p => ~ inside_cell (dr g) (dz g) i k (d_r p) (d_z p)) ps ->
  normalize_classic mass charge (calc_t_classic g ps) i k = Ok NaN.
Proof.
  intros g mass charge ps i k Hg Hi Hd Hi0 Hk0 Hn. unfold normalize_classic.
  destruct (Req_EM_T _ 0) as [_|N]; [reflexivity|]. exfalso. apply N.
  destruct (classic_moments g ps i k) as (_ & _ & _ & _ & ->). rewrite Rmult_1_r.
  unfold wsum, classic_list. rewrite map_map. cbn [fst snd].
  induction ps as [|p ps IH]; [reflexivity|]. inversion Hd as [|x y [Hr Hz] Hy]; subst. inversion Hn as [|x y Nx Ny]; subst.
  cbn [map rsum]. destruct (classic_weight_cell g i k p Hg Hi Hr Hz Hi0 Hk0) as [_ B]. rewrite (B Nx), IH; auto; try lra.
  intro E. apply N. destruct (classic_moments g (p :: ps) i k) as (_ & _ & _ & _ & ->). rewrite Rmult_1_r.
  unfold wsum, classic_list. rewrite map_map. cbn [fst snd map rsum]. rewrite (B Nx).
  destruct (classic_moments g ps i k) as (_ & _ & _ & _ & F). rewrite Rmult_1_r in F.
  unfold wsum, classic_list in F. rewrite map_map in F. cbn [fst snd] in F. rewrite <- F, E. lra.
Qed.
