(** C74: the direction of the deposited currents (src/particles.cpp lines 333-686, 786-988). *)
From Coq Require Import Reals ZArith List Bool Lia Lra.
From Flocq Require Import Core IEEE754.BinarySingleNaN.
From Verif.Lib Require Import RAux Outcome Grid.
From Verif.Model Require Import Constants Geometry Binary64 Temperature64 CurrentDeposit Arith GenCode.
From Verif.Spec Require Import Cloud Continuity Deposit64 Direction.
From Verif.Proof Require Import GeometryP ChargeP CurrentP CurrentP3 CurrentP4 CurrentEx Binary64P FloatP LogEx64P SignP Dir64P.
From Verif.Spec Require Import Double.
From Verif.Props Require Import Double Deposit64.
Import ListNotations.
Local Open Scope R_scope.

(** * C74: the currents flow the way the charge moves *)

(** Exact arithmetic. A particle that moves by less than a cell adds to no element of j_r a current against its radial motion,
    and to no element of j_z one against its axial motion; it adds none at all along a direction in which it stayed. Legs may
    be short and the path may meet nodes (then C05 says what is lost). Left out: purely radial moves over a border, where the
    code deposits something else, see [C74_radial_refuted]. *)
Theorem C74_direction : forall g dt q rn zn ro zo j, geom_ok g -> 0 < dt -> dr g / 2 <= rn -> dr g / 2 <= ro -> 0 < zn -> 0 < zo ->
  Rabs (rn - ro) < dr g -> Rabs (zn - zo) < dz g -> (Rabs (zn - zo) < MNZL -> cell rn (dr g) = cell ro (dr g)) ->
  flows_along q (rn - ro) (zn - zo)
    (fun i k => apply_jincs j (current_single g dt q rn zn ro zo) J_R i k - j J_R i k)
    (fun i k => apply_jincs j (current_single g dt q rn zn ro zo) J_Z i k - j J_Z i k).
Proof.
  intros g dt q rn zn ro zo j Hg Ht Hrn Hro Hzn Hzo Hr Hz Hc i k. rewrite !apply_jincs_at.
  replace (j J_R i k + dep J_R (current_single g dt q rn zn ro zo) i k - j J_R i k) with (dep J_R (current_single g dt q rn zn ro zo) i k) by ring.
  replace (j J_Z i k + dep J_Z (current_single g dt q rn zn ro zo) i k - j J_Z i k) with (dep J_Z (current_single g dt q rn zn ro zo) i k) by ring.
  now apply direction.
Qed.
Print Assumptions C74_direction.

(** A whole species: charges that all move outwards (or stay), positive ones, or negative ones that all move inwards, lower j_r
    nowhere; the same along the axis. *)
Definition small_move (g : geom) (p : cpart) : Prop :=
  dr g / 2 <= c_r p /\ dr g / 2 <= c_r_old p /\ 0 < c_z p /\ 0 < c_z_old p /\ Rabs (c_r p - c_r_old p) < dr g /\ Rabs (c_z p - c_z_old p) < dz g /\
  (Rabs (c_z p - c_z_old p) < MNZL -> cell (c_r p) (dr g) = cell (c_r_old p) (dr g)).
Theorem C74_species : forall g dt ps j, geom_ok g -> 0 < dt -> (forall p, In p ps -> c_alive p = true -> small_move g p) ->
  ((forall p, In p ps -> c_alive p = true -> c_r p = c_r_old p \/ 0 < c_charge p * (c_r p - c_r_old p)) ->
     forall i k, j J_R i k <= current_distribution g dt j ps J_R i k) /\
  ((forall p, In p ps -> c_alive p = true -> c_z p = c_z_old p \/ 0 < c_charge p * (c_z p - c_z_old p)) ->
     forall i k, j J_Z i k <= current_distribution g dt j ps J_Z i k).
Proof.
  assert (POS : forall a b, 0 < a -> 0 <= a * b -> 0 <= b) by (intros a b A B; destruct (Rle_lt_dec 0 b); [assumption|nra]).
  intros g dt ps j Hg Ht HM.
  assert (ONE : forall p, In p ps -> flows_along (c_charge p) (c_r p - c_r_old p) (c_z p - c_z_old p) (dep J_R (current_part g dt p)) (dep J_Z (current_part g dt p))).
  { intros p Hp. unfold current_part. destruct (c_alive p) eqn:A.
    - destruct (HM p Hp A) as (H1 & H2 & H3 & H4 & H5 & H6 & H7). now apply direction.
    - intros i k. rewrite !dep_nil, !Rmult_0_r. repeat split; lra. }
  assert (SUM : forall c l, (forall p, In p l -> forall i k, 0 <= dep c (current_part g dt p) i k) -> forall i k, 0 <= dep c (flat_map (current_part g dt) l) i k).
  { intros c l. induction l as [|p l IH]; intros K i k; [cbn [flat_map]; rewrite dep_nil; lra|]. cbn [flat_map]. rewrite dep_app. assert (K1 := K p (or_introl eq_refl) i k). assert (K2 := IH (fun p' Hp => K p' (or_intror Hp)) i k). lra. }
  split; intros HD i k; rewrite current_distribution_incs, apply_jincs_at.
  - assert (K := SUM J_R ps). cut (0 <= dep J_R (flat_map (current_part g dt) ps) i k); [lra|]. apply K. intros p Hp i' k'. destruct (ONE p Hp i' k') as (S1 & _ & S3 & _).
    unfold current_part in *. destruct (c_alive p) eqn:A; [|rewrite dep_nil; lra]. destruct (HD p Hp A) as [E|E]; [right; symmetry; apply S3; lra|now apply (POS _ _ E)].
  - assert (K := SUM J_Z ps). cut (0 <= dep J_Z (flat_map (current_part g dt) ps) i k); [lra|]. apply K. intros p Hp i' k'. destruct (ONE p Hp i' k') as (_ & S2 & _ & S4).
    unfold current_part in *. destruct (c_alive p) eqn:A; [|rewrite dep_nil; lra]. destruct (HD p Hp A) as [E|E]; [right; symmetry; apply S4; lra|now apply (POS _ _ E)].
Qed.
Print Assumptions C74_species.

(** The hypotheses can be met: an electron that crosses a radial and an axial border, and moves inwards and backwards. *)
Example C74_hypotheses_met : let g := Geom 9 17 4 16 in let p := CPart true (-1) (7 / 8) (15 / 8) (9 / 8) (17 / 8) in
  geom_ok g /\ small_move g p /\ 0 < c_charge p * (c_r p - c_r_old p) /\ 0 < c_charge p * (c_z p - c_z_old p) /\
  cell (c_r p) (dr g) <> cell (c_r_old p) (dr g) /\ cell (c_z p) (dz g) <> cell (c_z_old p) (dz g).
Proof.
  cbv zeta. unfold small_move. cbn [c_charge c_r c_z c_r_old c_z_old]. assert (E : dr (Geom 9 17 4 16) = 1/2) by (unfold dr; cbn; field).
  assert (E' : dz (Geom 9 17 4 16) = 1) by (unfold dz; cbn; field). rewrite E, E'. assert (M := MNZL_small).
  rewrite (cell_unique (9/8) (1/2) 2) by (try lia; cbn; lra). rewrite (cell_unique (7/8) (1/2) 1) by (try lia; cbn; lra).
  rewrite (cell_unique (17/8) 1 2) by (try lia; cbn; lra). rewrite (cell_unique (15/8) 1 1) by (try lia; cbn; lra).
  rewrite !Rabs_left by lra. repeat split; cbn; try lia; try lra.
Qed.

(** Finding: a purely radial move over a border of a grid with a step below one metre deposits current against the motion
    (line 941, cf. C06_radial_crossing_refuted). *)
Theorem C74_radial_refuted : exists g rn z ro i k, geom_ok g /\ dr g / 2 <= ro < rn /\ 0 < z /\ Rabs (rn - ro) < dr g /\
  forall dt q j, 0 < dt -> 0 < q -> apply_jincs j (current_single g dt q rn z ro z) J_R i k < j J_R i k.
Proof.
  exists (Geom 9 17 4 16), (9/8), (7/4), (7/8), 2%Z, 1%Z. assert (E : dr (Geom 9 17 4 16) = 1/2) by (unfold dr; cbn; field).
  assert (E' : dz (Geom 9 17 4 16) = 1) by (unfold dz; cbn; field). assert (M := MNZL_small). assert (M0 := MNZL_pos). assert (HP := c_PI_pos).
  split; [repeat split; cbn; try lia; lra|]. rewrite E, Rabs_right by lra. repeat split; try lra. intros dt q j Ht Hq. rewrite apply_jincs_at.
  cut (dep J_R (current_single (Geom 9 17 4 16) dt q (9 / 8) (7 / 4) (7 / 8) (7 / 4)) 2%Z 1%Z < 0); [lra|].
  unfold current_single. destruct (tie_cells (dr (Geom 9 17 4 16)) (9 / 8) (7 / 8)). destruct (tie_cells (dz (Geom 9 17 4 16)) (7 / 4) (7 / 4)).
  assert (A : ~ Rabs (9 / 8 - 7 / 8) < MNZL) by (rewrite Rabs_right by lra; lra). assert (B : Rabs (7 / 4 - 7 / 4) < MNZL) by (rewrite Rminus_eq_0, Rabs_R0; exact M0).
  destruct (Rlt_dec (Rabs (9 / 8 - 7 / 8)) MNZL) as [X|_]; [contradiction|]. destruct (Rlt_dec (Rabs (7 / 4 - 7 / 4)) MNZL) as [_|X]; [|contradiction].
  unfold strict_motion. destruct (Rlt_dec (Rabs (9 / 8 - 7 / 8)) MNZL) as [X|_]; [contradiction|]. destruct (Rlt_dec (Rabs (7 / 4 - 7 / 4)) MNZL) as [_|X]; [|contradiction].
  rewrite E, E'. rewrite (cell_unique (9/8) (1/2) 2) by (try lia; cbn; lra). rewrite (cell_unique (7/8) (1/2) 1) by (try lia; cbn; lra). rewrite (cell_unique (7/4) 1 1) by (try lia; cbn; lra).
  unfold strict_radial. rewrite E, E'. cbv zeta. change (2 - 1 =? 0)%Z with false. change (2 - 1 =? 1)%Z with true. cbv iota.
  rewrite !dep_cons, dep_nil. unfold SignP.val. cbn [inc_j_r j_comp j_inc jcomp_eqb row col Grid.val]. change ((2 =? 2 - 1)%Z && (1 =? 1)%Z) with false. change ((2 =? 2 - 1)%Z && (1 =? 1 + 1)%Z) with false. change ((2 =? 2)%Z && (1 =? 1)%Z) with true. change ((2 =? 2)%Z && (1 =? 1 + 1)%Z) with false. cbv iota.
  unfold DENSITY_STRICT, strict_radial_leg2.
  match goal with |- ?x < 0 => replace x with (- ((169 / 768) * (q / (c_PI * 5 / 2 * dt)))) by (field; split; lra) end.
  assert (0 < q / (c_PI * 5 / 2 * dt)) by pos_mul. lra.
Qed.
Print Assumptions C74_radial_refuted.

(** * C74 in double precision: refuted *)

(** The grid of 257 x 2049 nodes of 2^-10 m (about a millimetre), a step of 2^-43 s; a charge that moves along the axis with
    nine tenths of the speed of light and outwards by 2^-39 m (two picometres). *)
Definition thin_x : b64 := norm (2 ^ 52 + 41842) (-52).
Definition thin_y : b64 := norm (41842 * 2 ^ 53 - 41842 * 41842) (-105).
Notation T := (b64_arith (fun x => x) (near_ln_with thin_x thin_y)).
Definition thin_geom : ggeom L := GGeom L 257 2049 (q64 1 4) (z64 2).
Definition thin_dt : b64 := q64 1 (2 ^ 43).
Definition thin_rn : b64 := q64 107634753537 (2 ^ 39). Definition thin_ro : b64 := q64 205297 (2 ^ 20).
Definition thin_zn : b64 := q64 32009 (2 ^ 15). Definition thin_zo : b64 := q64 4001 4096.

Lemma thin_log : near_ln_with thin_x thin_y = near_ln.
Proof.
  apply near_ln_with_eq; [reflexivity|]. apply near_ln_at with 41842%Z; [|lia|reflexivity|vm_compute; reflexivity|reflexivity].
  value thin_x. rewrite V. cbn. lra.
Qed.

(** What the code hands to the arrays. *)
Definition entry (pw lg : b64 -> b64) (x : gjinc (b64_arith pw lg)) : jcomp * Z * Z * SpecFloat.spec_float :=
  (gj_comp _ x, grow _ (gj_inc _ x), gcol _ (gj_inc _ x), B2SF (gval _ (gj_inc _ x) : b64)).
Lemma handed_entries : forall pw lg c l i k, handed pw lg c l i k =
  fold_right (fun x s => let '(c', i', k', v) := x in (if jcomp_eqb c c' && (i' =? i)%Z && (k' =? k)%Z then SF2R radix2 v else 0) + s) 0 (map (entry pw lg) l).
Proof.
  intros pw lg c l i k. unfold handed. induction l as [|x l IH]; [reflexivity|]. cbn [map fold_right]. rewrite IH. unfold entry at 1. now rewrite <- SF2R_B2SF.
Qed.
Lemma thin_values : map (entry _ _) (gcurrent_single L thin_geom thin_dt (z64 1) thin_rn thin_zn thin_ro thin_zo) =
  [(J_Z, 200%Z, 1000%Z, SpecFloat.S754_finite false 7563170936776631 (-6)); (J_Z, 201%Z, 1000%Z, SpecFloat.S754_finite false 7080877193665049 (-6));
   (J_R, 200%Z, 1000%Z, SpecFloat.S754_finite true 8967072683027422 (-15)); (J_R, 200%Z, 1001%Z, SpecFloat.S754_finite false 8967519578528949 (-15))].
Proof. unfold thin_geom. rewrite <- thin_log. vm_compute. reflexivity. Qed.
Lemma off_step : forall m d (n k : Z) x, 0 < d -> IZR k * d + m <= x <= (IZR k + 1) * d - m -> m <= Rabs (x - IZR n * d).
Proof.
  intros m d n k x P H. destruct (Z_le_gt_dec n k) as [O|O].
  - apply IZR_le in O. assert (IZR n * d <= IZR k * d) by (apply Rmult_le_compat_r; lra). apply Rle_trans with (2 := Rle_abs _). lra.
  - assert (K : IZR (k + 1) <= IZR n) by (apply IZR_le; lia). rewrite plus_IZR in K. assert ((IZR k + 1) * d <= IZR n * d) by (apply Rmult_le_compat_r; lra). rewrite Rabs_minus_sym. apply Rle_trans with (2 := Rle_abs _). lra.
Qed.

(** Finding: in double precision the radial current of a move that is nearly along the axis is rounding error. The move here
    is as clean as C73 asks, and the logarithm is correctly rounded, so the charges balance to within 10^-12; but element
    (200, 1000) of j_r receives a current against the motion that is twenty thousand times as large as all the radial
    current of the move, and element (200, 1001) receives it back. (Exactly, both would receive a positive share.) *)
Theorem C74_double_refuted : exists (g : ggeom L) (m : R) (dt q rn zn ro zo : b64) (i k : Z),
  accurate_log near_ln /\ fine (fun x => x) near_ln g dt /\ clean_move (fun x => x) near_ln m g dt q rn zn ro zo /\
  0 < B2R q /\ B2R ro < B2R rn /\
  let jr := handed (fun x => x) near_ln J_R (gcurrent_single L g dt q rn zn ro zo) in
  let all := jr i k + jr i (k + 1)%Z in
  0 < all /\ jr i k < - (20000 * all) /\ (forall a b, jr a b <> 0 -> a = i /\ (b = k \/ b = (k + 1)%Z)).
Proof.
  exists thin_geom, (bpow radix2 (-40)), thin_dt, (z64 1), thin_rn, thin_zn, thin_ro, thin_zo, 200%Z, 1000%Z.
  assert (ER : B2R (gdr L thin_geom : b64) = / 1024). { value (b64_div (q64 1 4) (b64_of_Z (257 - 1))). change (gdr L thin_geom) with (b64_div (q64 1 4) (b64_of_Z (257 - 1))). rewrite V. lra. }
  assert (EZ : B2R (gdz L thin_geom : b64) = / 1024). { value (b64_div (z64 2) (b64_of_Z (2049 - 1))). change (gdz L thin_geom) with (b64_div (z64 2) (b64_of_Z (2049 - 1))). rewrite V. lra. }
  value thin_dt. value thin_rn. value thin_ro. value thin_zn. value thin_zo. value (z64 1). cbn [num b64_arith] in *.
  assert (VN : B2R thin_rn = 107634753537 / 549755813888) by (rewrite V0; lra). assert (VO : B2R thin_ro = 205297 / 1048576) by (rewrite V1; lra).
  assert (WN : B2R thin_zn = 32009 / 32768) by (rewrite V2; lra). assert (WO : B2R thin_zo = 4001 / 4096) by (rewrite V3; lra).
  assert (VQ : B2R (z64 1) = 1) by (rewrite V4; lra). assert (VT : B2R thin_dt = / 8796093022208) by (rewrite V; lra). clear V V0 V1 V2 V3 V4.
  assert (B30 : bpow radix2 (-30) = / 1073741824) by (cbn; lra). assert (B10 : bpow radix2 10 = 1024) by reflexivity.
  assert (B40 : bpow radix2 (-40) = / 1099511627776) by (cbn; lra).
  split; [exact near_ln_accurate|]. split; [|split; [|rewrite VQ, VO, VN; split; [lra|split; [lra|]]]].
  - split; cbn [gn_r gn_z gr_size gz_size thin_geom]; try lia; try (vm_compute; reflexivity); try (split; [assumption|]); cbn [num b64_arith]; rewrite ?ER, ?EZ, ?VT, ?B30, ?B10; lra.
  - assert (P200 : bpow radix2 (-200) <= / 8796093022208) by (replace (/ 8796093022208) with (bpow radix2 (-43)) by (cbn; lra); apply bpow_le; lia).
    assert (Q200 : 1 <= bpow radix2 200) by (change 1 with (bpow radix2 0); apply bpow_le; lia).
    assert (LE := in_cell_legs (/ 1099511627776) (/ 1024) (/ 1024) (107634753537 / 549755813888) (32009 / 32768) (205297 / 1048576) (4001 / 4096) 200 1000 ltac:(lra) ltac:(lra) ltac:(lra)).
    rewrite !Rabs_pos_eq in LE by lra. unfold in_cell in LE. destruct (LE ltac:(lra) ltac:(lra) ltac:(split; lra) ltac:(split; lra) ltac:(split; lra) ltac:(split; lra)) as (LE1 & LE2).
    split; cbn [gn_r gn_z thin_geom]; cbn [num b64_arith]; try assumption; rewrite ?ER, ?EZ, ?VN, ?VO, ?WN, ?WO, ?VQ, ?VT, ?B40; try (nodes; lra); try assumption.
    + split; [assumption|]. rewrite Rabs_R1. lra.
    + rewrite Rabs_pos_eq; lra.
    + rewrite Rabs_pos_eq; lra.
    + cbn. lra.
    + cbn. lra.
    + cbn. lra.
    + intro n. apply off_step with 200%Z; lra.
    + intro n. apply off_step with 200%Z; lra.
    + intro n. apply off_step with 1000%Z; lra.
    + intro n. apply off_step with 1000%Z; lra.
  - cbv zeta. assert (H : forall a b, handed (fun x => x) near_ln J_R (gcurrent_single L thin_geom thin_dt (z64 1) thin_rn thin_zn thin_ro thin_zo) a b =
      (if (200 =? a)%Z && (1000 =? b)%Z then - (8967072683027422 / 32768) else 0) + (if (200 =? a)%Z && (1001 =? b)%Z then 8967519578528949 / 32768 else 0)).
    { intros a b. rewrite handed_entries, thin_values. cbn [fold_right jcomp_eqb andb].
      replace (SF2R radix2 (SpecFloat.S754_finite true 8967072683027422 (-15))) with (- (8967072683027422 / 32768)) by (unfold SF2R, F2R; cbn; lra).
      replace (SF2R radix2 (SpecFloat.S754_finite false 8967519578528949 (-15))) with (8967519578528949 / 32768) by (unfold SF2R, F2R; cbn; lra). ring. }
    rewrite !H. cbn [Z.add Z.eqb Pos.eqb Pos.add Pos.succ andb]. split; [lra|]. split; [lra|]. intros a b. rewrite H. destruct (Z.eqb_spec 200 a), (Z.eqb_spec 1000 b), (Z.eqb_spec 1001 b); cbn [andb]; intro N; try (exfalso; apply N; ring); lia.
Qed.
Print Assumptions C74_double_refuted.
