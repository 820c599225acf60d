(** Proofs about loading: C20-C22 and C24. *)
From Coq Require Import Reals ZArith Lra Lia Psatz List.
From Verif.Lib Require Import RAux Outcome.
From Verif.Model Require Import Constants Geometry Pusher Motion Loading Bunch.
From Verif.Spec Require Import Dynamics Domain.
From Verif.Proof Require Import GeometryP MotionP PusherP.
Import ListNotations.
Local Open Scope R_scope.

(** ** C20 *)

Lemma load_r_range : forall g x, geom_ok g -> 0 <= x < 1 ->
  dr g / 2 <= load_r g x <= r_size g - dr g / 2.
Proof.
  intros g x Hg Hx. assert (D := dr_pos g Hg). unfold load_r.
  assert (R0 : dr g <= r_size g).
  { rewrite (r_size_dr g Hg). destruct Hg as (N & _). assert (X : IZR 1 <= IZR (n_r g - 1)) by (apply IZR_le; lia). nra. }
  split; nra.
Qed.

Lemma sqrt_between : forall a b x, 0 <= a -> 0 <= b -> 0 <= x <= 1 ->
  Rmin a b <= sqrt (a ^ 2 + x * (2 * a * (b - a) + (b - a) ^ 2)) <= Rmax a b.
Proof.
  intros a b x Ha Hb Hx.
  set (q := a ^ 2 + x * (2 * a * (b - a) + (b - a) ^ 2)).
  assert (E : q = (1 - x) * (a * a) + x * (b * b)) by (unfold q; ring).
  assert (Q : 0 <= q) by (rewrite E; nra).
  assert (S := sqrt_sqrt q Q). assert (S0 := sqrt_pos q). set (s := sqrt q) in *.
  rewrite E in S. unfold Rmin, Rmax. destruct (Rle_dec a b) as [H|H].
  - assert (A : 0 <= b * b - a * a) by nra. split; apply sq_le; try lra; rewrite S; nra.
  - assert (A : 0 <= a * a - b * b) by nra. split; apply sq_le; try lra; rewrite S; nra.
Qed.

Lemma load_z_range : forall g n1 n2 left x, geom_ok g -> 0 <= n1 -> 0 <= n2 ->
  0 <= left <= z_size g - dz g -> (n1 = n2 -> left = 0) -> 0 <= x < 1 ->
  dz g / 2 <= load_z g n1 n2 left x <= z_size g - dz g / 2.
Proof.
  intros g n1 n2 left x Hg H1 H2 Hl H0 Hx. assert (D := dz_pos g Hg). unfold load_z.
  destruct (Req_EM_T (n2 - n1) 0) as [E|E].
  - rewrite (H0 ltac:(lra)). nra.
  - assert (B := sqrt_between n1 n2 x H1 H2 ltac:(lra)).
    set (s := sqrt (n1 ^ 2 + x * (2 * n1 * (n2 - n1) + (n2 - n1) ^ 2))) in *.
    assert (F : 0 <= (s - n1) / (n2 - n1) <= 1).
    { unfold Rmin, Rmax in B. destruct (Rle_dec n1 n2) as [H|H].
      - assert (0 < n2 - n1) by lra. split; [apply Rdiv_nonneg|apply Rdiv_le_1]; lra.
      - assert (0 < n1 - n2) by lra. replace ((s - n1) / (n2 - n1)) with ((n1 - s) / (n1 - n2)) by (field; lra).
        split; [apply Rdiv_nonneg|apply Rdiv_le_1]; lra. }
    replace ((z_size g - left - dz g) / (n2 - n1) * (s - n1)) with ((z_size g - left - dz g) * ((s - n1) / (n2 - n1))) by (field; lra).
    nra.
Qed.

(** ** C21 *)

(** Both branches of the normalisation agree where they meet. *)
Lemma norm_volume_eq : forall g r, dr g / 2 <= r -> norm_volume g r = 2 * c_PI * r * dr g * dz g.
Proof.
  intros g r H. unfold norm_volume. destruct (Rlt_dec (dr g / 2) r) as [L|L]; [reflexivity|].
  replace r with (dr g / 2) by lra. field.
Qed.

Lemma rsum_map_scal : forall {A} (f : A -> R) c l, rsum (map (fun x => c * f x) l) = c * rsum (map f l).
Proof. intros A f c l. induction l as [|x l IH]; cbn; [ring|]. rewrite IH. ring. Qed.

Lemma rsum_map_ext : forall {A} (f h : A -> R) l, (forall x, In x l -> f x = h x) -> rsum (map f l) = rsum (map h l).
Proof.
  intros A f h l H. induction l as [|x l IH]; [reflexivity|]. cbn. rewrite IH by (intros; apply H; now right).
  now rewrite (H x) by now left.
Qed.

Lemma rsum_map_pos : forall {A} (f : A -> R) l, l <> [] -> (forall x, In x l -> 0 < f x) -> 0 < rsum (map f l).
Proof.
  intros A f l N H. destruct l as [|x l]; [congruence|]. cbn. assert (P : 0 < f x) by (apply H; now left).
  assert (G : 0 <= rsum (map f l)); [|lra].
  assert (H' : forall y, In y l -> 0 < f y) by (intros; apply H; now right). clear - H'.
  induction l as [|y l IH]; cbn; [lra|]. assert (0 < f y) by (apply H'; now left).
  assert (0 <= rsum (map f l)) by (apply IH; intros; apply H'; now right). lra.
Qed.

Lemma load_charge_total : forall g n1 n2 left charge mass rands, geom_ok g -> rands <> [] ->
  Forall (fun x => 0 <= fst x < 1) rands ->
  rsum (map m_charge (load_cylindrical g n1 n2 left charge mass rands)) =
  charge * ((n1 + n2) / 2 * (c_PI * r_size g * r_size g * z_size g)).
Proof.
  intros g n1 n2 left charge mass rands Hg NE F. unfold load_cylindrical. cbv zeta.
  set (N := INR (length rands)). set (V := rsum (map (fun x => 2 * c_PI * load_r g (fst x) * dr g * dz g) rands)).
  assert (D := dr_pos g Hg). assert (Dz := dz_pos g Hg). assert (P := c_PI_pos).
  assert (N0 : 0 < N). { apply lt_0_INR. destruct rands; [congruence|cbn; lia]. }
  assert (RP : forall x, In x rands -> dr g / 2 <= load_r g (fst x)).
  { intros x Hx. rewrite Forall_forall in F. apply load_r_range; auto. }
  assert (V0 : 0 < V).
  { apply rsum_map_pos; [assumption|]. intros x Hx. specialize (RP x Hx). pos_mul; lra. }
  rewrite map_map. cbn [m_charge].
  set (T := (n1 + n2) / 2 * c_PI * r_size g * r_size g * z_size g).
  rewrite (rsum_map_ext _ (fun x => (charge * (T / V)) * (2 * c_PI * load_r g (fst x) * dr g * dz g))).
  - rewrite rsum_map_scal. fold V. unfold T. field. lra.
  - intros x Hx. rewrite norm_volume_eq by auto. field. lra.
Qed.

Lemma load_ratio : forall g n1 n2 left charge mass rands p,
  In p (load_cylindrical g n1 n2 left charge mass rands) -> m_charge p * mass = m_mass p * charge.
Proof.
  intros g n1 n2 left charge mass rands p H. unfold load_cylindrical in H. apply in_map_iff in H.
  destruct H as (x & <- & _). cbn. ring.
Qed.

(** ** C22 *)

Lemma gamma_inv_sq : forall x, x * get_gamma_inv (x * x) * (x * get_gamma_inv (x * x)) =
  x * x / (1 + x * x / (LIGHT_SPEED * LIGHT_SPEED)).
Proof.
  intro x. unfold get_gamma_inv. unfold LIGHT_SPEED_POW_2.
  assert (C := LIGHT_SPEED_pos).
  set (q := 1 + x * x / (LIGHT_SPEED * LIGHT_SPEED)).
  assert (Q : 1 <= q). { unfold q. assert (0 <= x * x / (LIGHT_SPEED * LIGHT_SPEED)) by (apply Rdiv_nonneg; nra). lra. }
  assert (S := sqrt_sqrt q ltac:(lra)). assert (S0 : 0 < sqrt q) by (apply sqrt_lt_R0; lra).
  rewrite <- S at 3. field. lra.
Qed.

Lemma component_bound : forall x, x * x / (1 + x * x / (LIGHT_SPEED * LIGHT_SPEED)) < LIGHT_SPEED * LIGHT_SPEED.
Proof.
  intro x. assert (C := LIGHT_SPEED_pos). set (c2 := LIGHT_SPEED * LIGHT_SPEED). assert (C2 : 0 < c2) by (unfold c2; nra).
  assert (Q : 0 <= x * x / c2) by (apply Rdiv_nonneg; nra).
  apply Rmult_lt_reg_r with (1 + x * x / c2); [lra|].
  unfold Rdiv at 1. rewrite Rmult_assoc, Rinv_l, Rmult_1_r by lra.
  replace (c2 * (1 + x * x / c2)) with (c2 + x * x) by (field; lra). lra.
Qed.

Lemma component_le : forall x, 0 <= x * x / (1 + x * x / (LIGHT_SPEED * LIGHT_SPEED)) <= x * x.
Proof.
  intro x. assert (C := LIGHT_SPEED_pos). set (c2 := LIGHT_SPEED * LIGHT_SPEED). assert (C2 : 0 < c2) by (unfold c2; nra).
  assert (Q : 0 <= x * x / c2) by (apply Rdiv_nonneg; nra).
  split; [apply Rdiv_nonneg; nra|].
  apply Rmult_le_reg_r with (1 + x * x / c2); [lra|].
  unfold Rdiv at 1. rewrite Rmult_assoc, Rinv_l, Rmult_1_r by lra. nra.
Qed.

Definition drawn (mass energy : R) : R := sqrt (2 * EL_CHARGE * energy / mass) * (74 / 100).

Lemma thermal_norm2 : forall mass energy rnd,
  let f x := x * x / (1 + x * x / (LIGHT_SPEED * LIGHT_SPEED)) in
  norm2 (thermal_velocity mass energy rnd) =
  f (v0 rnd * drawn mass energy) + f (v1 rnd * drawn mass energy) + f (v2 rnd * drawn mass energy).
Proof. intros. unfold norm2, thermal_velocity. cbn [v0 v1 v2]. fold (drawn mass energy). rewrite !gamma_inv_sq. reflexivity. Qed.

Lemma thermal_sqrt3 : forall mass energy rnd,
  norm2 (thermal_velocity mass energy rnd) < 3 * (LIGHT_SPEED * LIGHT_SPEED).
Proof.
  intros. rewrite thermal_norm2. cbv zeta.
  assert (A := component_bound (v0 rnd * drawn mass energy)). assert (B := component_bound (v1 rnd * drawn mass energy)).
  assert (C := component_bound (v2 rnd * drawn mass energy)). lra.
Qed.

Lemma drawn_sq : forall mass energy, 0 < mass -> 0 <= energy ->
  drawn mass energy * drawn mass energy = 2 * EL_CHARGE * energy / mass * (74 / 100 * (74 / 100)).
Proof.
  intros mass energy Hm He. unfold drawn. assert (E := EL_CHARGE_pos).
  assert (Q : 0 <= 2 * EL_CHARGE * energy / mass) by (apply Rdiv_nonneg; nra).
  assert (S := sqrt_sqrt _ Q). set (s := sqrt _) in *. nra.
Qed.

Lemma thermal_moderate : forall mass energy rnd, 0 < mass -> 0 <= energy ->
  EL_CHARGE * energy <= 3 / 10 * mass * (LIGHT_SPEED * LIGHT_SPEED) ->
  -1 <= v0 rnd <= 1 -> -1 <= v1 rnd <= 1 -> -1 <= v2 rnd <= 1 ->
  norm2 (thermal_velocity mass energy rnd) < LIGHT_SPEED * LIGHT_SPEED.
Proof.
  intros mass energy rnd Hm He H R0 R1 R2. rewrite thermal_norm2. cbv zeta.
  assert (D := drawn_sq mass energy Hm He). set (d := drawn mass energy) in *.
  assert (C := LIGHT_SPEED_pos). set (c2 := LIGHT_SPEED * LIGHT_SPEED) in *. assert (C2 : 0 < c2) by (unfold c2; nra).
  assert (E : 2 * EL_CHARGE * energy / mass <= 6 / 10 * c2).
  { apply Rmult_le_reg_r with mass; [exact Hm|]. unfold Rdiv. rewrite Rmult_assoc, Rinv_l by lra. lra. }
  assert (DD : d * d <= 6 / 10 * c2 * (74 / 100 * (74 / 100))) by (rewrite D; nra).
  assert (G : forall x, -1 <= x <= 1 -> (x * d) * (x * d) / (1 + (x * d) * (x * d) / c2) <= d * d).
  { intros x Hx. assert (A := component_le (x * d)). fold c2 in A. assert (x * x <= 1) by nra.
    assert ((x * d) * (x * d) <= d * d) by (assert (0 <= d * d) by nra; nra). lra. }
  assert (A0 := G _ R0). assert (A1 := G _ R1). assert (A2 := G _ R2). lra.
Qed.

(** ** C24 *)

Lemma bunch_r_range : forall g radius x, geom_ok g -> dr g <= radius -> 0 <= x < 1 ->
  dr g / 2 <= bunch_r g radius x <= radius - dr g / 2.
Proof. intros g radius x Hg Hr Hx. assert (D := dr_pos g Hg). unfold bunch_r. split; nra. Qed.

Definition bunch_w (g : geom) (radius x : R) : R := 2 * c_PI * bunch_r g radius x * dr g * dz g.

Lemma bunch_volume_bounds : forall g radius x, geom_ok g -> dr g <= radius -> 0 <= x < 1 ->
  0 < bunch_volume g (bunch_r g radius x) /\
  bunch_volume g (bunch_r g radius x) <= bunch_w g radius x <= 4 * bunch_volume g (bunch_r g radius x) /\
  (dr g < bunch_r g radius x -> bunch_volume g (bunch_r g radius x) = bunch_w g radius x) /\
  (bunch_r g radius x <= dr g -> 2 * bunch_volume g (bunch_r g radius x) <= bunch_w g radius x).
Proof.
  intros g radius x Hg Hr Hx. assert (B := bunch_r_range g radius x Hg Hr Hx).
  assert (D := dr_pos g Hg). assert (Dz := dz_pos g Hg). assert (P := c_PI_pos).
  unfold bunch_w, bunch_volume. set (r := bunch_r g radius x) in *.
  assert (PZ : 0 < c_PI * dz g) by nra.
  destruct (Rlt_dec (dr g) r) as [L|L].
  - assert (0 < 2 * c_PI * r * dr g * dz g) by (pos_mul; lra). repeat split; intros; lra.
  - assert (Q : r * r <= r * dr g <= 2 * (r * r)) by nra.
    replace (c_PI * r * r * dz g) with ((c_PI * dz g) * (r * r)) by ring.
    replace (2 * c_PI * r * dr g * dz g) with (2 * ((c_PI * dz g) * (r * dr g))) by ring.
    assert (0 < r * r) by nra.
    assert ((c_PI * dz g) * (r * r) <= (c_PI * dz g) * (r * dr g) <= 2 * ((c_PI * dz g) * (r * r))) by nra.
    assert (0 < (c_PI * dz g) * (r * r)) by nra. repeat split; intros; lra.
Qed.

Lemma rsum_map_le : forall {A} (f h : A -> R) l, (forall x, In x l -> f x <= h x) -> rsum (map f l) <= rsum (map h l).
Proof.
  intros A f h l H. induction l as [|x l IH]; cbn; [lra|].
  assert (f x <= h x) by (apply H; now left). assert (rsum (map f l) <= rsum (map h l)) by (apply IH; intros; apply H; now right). lra.
Qed.

Lemma rsum_map_lt : forall {A} (f h : A -> R) l x0, (forall x, In x l -> f x <= h x) ->
  In x0 l -> f x0 < h x0 -> rsum (map f l) < rsum (map h l).
Proof.
  intros A f h l x0 H I L. induction l as [|x l IH]; [destruct I|]. cbn. destruct I as [->|I].
  - assert (rsum (map f l) <= rsum (map h l)) by (apply rsum_map_le; intros; apply H; now right). lra.
  - assert (f x <= h x) by (apply H; now left). assert (rsum (map f l) < rsum (map h l)) by (apply IH; [intros; apply H; now right|assumption]). lra.
Qed.

Lemma bunch_charge_total : forall g charge mass duration radius density velocity rands,
  geom_ok g -> dr g <= radius -> rands <> [] -> Forall (fun x => 0 <= x < 1) rands ->
  rsum (map m_charge (bunch_load g charge mass duration radius density velocity rands)) =
  charge * (density * (c_PI * radius ^ 2 * (duration * velocity))) *
  (rsum (map (bunch_w g radius) rands) / rsum (map (fun x => bunch_volume g (bunch_r g radius x)) rands)).
Proof.
  intros g charge mass duration radius density velocity rands Hg Hr NE F. unfold bunch_load. cbv zeta.
  set (N := INR (length rands)). set (V := rsum (map (fun x => bunch_volume g (bunch_r g radius x)) rands)).
  rewrite Forall_forall in F.
  assert (N0 : 0 < N). { apply lt_0_INR. destruct rands; [congruence|cbn; lia]. }
  assert (V0 : 0 < V). { apply rsum_map_pos; [assumption|]. intros x Hx. apply bunch_volume_bounds; auto. }
  rewrite map_map. cbn [m_charge].
  set (T := c_PI * radius ^ 2 * (duration * velocity) * density).
  rewrite (rsum_map_ext _ (fun x => (charge * (T / V)) * bunch_w g radius x)).
  - rewrite rsum_map_scal. unfold T. field. lra.
  - intros x Hx. rewrite norm_volume_eq by (apply bunch_r_range; auto). unfold bunch_w. field. lra.
Qed.
