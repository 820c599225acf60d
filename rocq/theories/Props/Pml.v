(** Property C44: the absorbing layer is passive. *)
From Coq Require Import Reals ZArith Lia Lra Bool.
From Verif.Lib Require Import RAux.
From Verif.Model Require Import Geometry Pml.
From Verif.Spec Require Import Layer Sample.
From Verif.Proof Require Import GeometryP PmlP.
Local Open Scope R_scope.

(** Full statement: 0 <= sigma <= sigma2 at every node for every configuration. The upper bound fails at the
    right and outer walls, and an outer layer of less than one cell gives an infinite
    conductivity (both below). What holds: if the right and outer layers are absent or at least N
    cells thick, then the conductivity is a finite number, and is zero or between sigma1 and
    sigma1 + (sigma2 - sigma1) (1 + 1/N)^2. *)
Theorem C44_bounds_partial : forall g s1 s2 l1 l2 l3 i k N, geom_ok g -> 0 <= s1 <= s2 ->
  (0 <= i <= n_r g - 1)%Z -> (0 <= k <= n_z g - 1)%Z -> (1 <= N)%Z ->
  (l2 <= 0 \/ IZR N <= IZR (n_z g) * l2) -> (l3 <= 0 \/ IZR N <= IZR (n_r g) * l3) ->
  exists x, conductivity g l1 l2 l3 s1 s2 i k = Fin x /\
    (x = 0 \/ s1 <= x <= s1 + (s2 - s1) * (1 + 1 / IZR N) ^ 2).
Proof.
  intros g s1 s2 l1 l2 l3 i k N Hg Hs Hi Hk HN H2 H3.
  assert (F : forall x, IZR N <= x -> (N <= floorZ x)%Z).
  { intros x Hx. rewrite <- (floorZ_IZR N). now apply floorZ_le_mono. }
  assert (P : forall n, (2 <= n)%Z -> 0 < IZR n) by (intros n Hn; apply IZR_lt; lia).
  apply (conductivity_passive g Hg s1 s2 Hs); auto.
  - unfold cells_z. destruct H2 as [H2|H2]; [left|right; auto].
    rewrite <- (floorZ_IZR 0). apply floorZ_le_mono. assert (Q := P (n_z g) ltac:(apply Hg)). cbn. nra.
  - unfold cells_r. destruct H3 as [H3|H3]; [|right; right; auto].
    destruct (Req_EM_T l3 0) as [E|E]; [now left|right; left].
    assert (Q := P (n_r g) ltac:(apply Hg)).
    destruct (floorZ_spec (IZR (n_r g) * l3)) as [A _]. apply lt_IZR. cbn. nra.
Qed.
Print Assumptions C44_bounds_partial.

(** With the left layer alone the maximum is respected. *)
Theorem C44_left_layer : forall g s1 s2 l1 i k, geom_ok g -> 0 <= s1 <= s2 -> (0 <= k <= n_z g - 1)%Z ->
  exists x, conductivity g l1 0 0 s1 s2 i k = Fin x /\ 0 <= x <= s2.
Proof.
  intros g s1 s2 l1 i k Hg Hs Hk. unfold conductivity. destruct (_ || _)%bool; [|exists 0; split; [reflexivity|lra]].
  unfold set_pml. assert (Z0 : nonzero 0 = false) by (unfold nonzero; destruct (Req_EM_T 0 0); [reflexivity|contradiction]).
  rewrite Z0, andb_false_r. unfold pml_walls.
  destruct (Rlt_dec _ _) as [C|_].
  - exfalso. unfold length_sigma_right in C. rewrite Rmult_0_r in C. change 0 with (IZR 0) in C.
    rewrite floorZ_IZR in C. assert (Q := z_depth_nonneg g Hg k ltac:(lia)). lra.
  - destruct (Rlt_dec _ _) as [L|_]; [|exists 0; split; [reflexivity|lra]].
    destruct (left_bounds g Hg s1 s2 Hs l1 k ltac:(lia) L) as (x & E & B). exists x. split; [exact E|lra].
Qed.
Print Assumptions C44_left_layer.

(** Zero outside the layers. The outer layer reaches up to one cell deeper than the fraction of the
    radius that is configured. *)
Theorem C44_outside : forall g l1 l2 l3 s1 s2 i k, geom_ok g -> l1 <= 1 -> l2 <= 1 ->
  outside_ends (z_size g) l1 l2 (dz g * IZR k) -> outside_outer (r_size g) (dr g) l3 (dr g * IZR i) ->
  conductivity g l1 l2 l3 s1 s2 i k = Fin 0.
Proof. exact conductivity_outside. Qed.
Print Assumptions C44_outside.

(** The maximum is exceeded at the right wall for every grid and every right layer of at least one
    cell: for a layer of N cells the wall has sigma1 + (sigma2 - sigma1) (1 + 1/N)^2. *)
Theorem C44_maximum_refuted : forall g l2 s1 s2 i, geom_ok g -> 1 <= IZR (n_z g) * l2 -> s1 < s2 ->
  exists x, conductivity g 0 l2 0 s1 s2 i (n_z g - 1) = Fin x /\ s2 < x.
Proof.
  intros g l2 s1 s2 i Hg Hl Hs.
  assert (F : (1 <= floorZ (IZR (n_z g) * l2))%Z) by (rewrite <- (floorZ_IZR 1); now apply floorZ_le_mono).
  eexists. split; [now apply right_wall_value|].
  assert (I : 0 < 1 / IZR (floorZ (IZR (n_z g) * l2))) by (apply Rdiv_lt_0_compat; [lra|apply IZR_lt; lia]).
  nra.
Qed.
Print Assumptions C44_maximum_refuted.

(** An outer layer thinner than one cell is accepted and makes the conductivity of the outermost row
    infinite, on every grid. *)
Theorem C44_infinite_refuted : forall g l3 s1 s2 k, geom_ok g -> 0 < l3 -> IZR (n_r g) * l3 < 1 -> s1 < s2 ->
  conductivity g 0 0 l3 s1 s2 (n_r g - 1) k = PInf.
Proof. exact thin_outer_infinite. Qed.
Print Assumptions C44_infinite_refuted.

(** The outer layer contains nodes that are farther from the wall than the configured fraction of the
    radius. *)
Theorem C44_outer_layer_refuted : exists g l3 s1 s2 i k x, geom_ok g /\ 0 <= s1 < s2 /\ 0 < l3 < 1 /\
  (0 <= i < n_r g)%Z /\ l3 * r_size g < r_size g - dr g * IZR i /\
  conductivity g 0 0 l3 s1 s2 i k = Fin x /\ x <> 0.
Proof.
  exists sample_geom, (1 / 3), 0, 9, 5%Z, 0%Z, 1.
  assert (G := sample_geom_ok). assert (L : length_sigma_extern sample_geom (1 / 3) = 3).
  { unfold length_sigma_extern. rewrite sample_dr. replace (floorZ (IZR (n_r sample_geom) * (1 / 3))) with 3%Z; [lra|].
    symmetry. apply floorZ_unique. cbn [n_r sample_geom]. lra. }
  repeat match goal with |- _ /\ _ => split end; try exact G; try lra; try (cbn [n_r sample_geom]; lia).
  - rewrite sample_dr. cbn [r_size sample_geom]. lra.
  - assert (NZ : nonzero (1 / 3) = true) by (unfold nonzero; destruct (Req_EM_T (1 / 3) 0); [lra|reflexivity]).
    assert (Z0 : nonzero 0 = false) by (unfold nonzero; destruct (Req_EM_T 0 0); [reflexivity|contradiction]).
    assert (P : profile_extern sample_geom (1 / 3) 0 9 5 = Fin 1).
    { unfold profile_extern. rewrite profile_value by lra. rewrite L, sample_dr. cbn [r_size sample_geom]. f_equal. lra. }
    assert (Q : forall s k, pml_only_extern sample_geom (1 / 3) 0 9 s 5 k = Fin 1).
    { intros s k. unfold pml_only_extern. rewrite L, sample_dr. cbn [r_size sample_geom].
      destruct (Rle_dec _ _); [exact P|lra]. }
    unfold conductivity. rewrite Z0, NZ. cbn [orb]. unfold set_pml. rewrite Z0, NZ. cbn [negb andb].
    unfold pml_extern. destruct (Rle_dec _ _); [|apply Q]. destruct (_ && _)%bool; [exact P|apply Q].
Qed.
Print Assumptions C44_outer_layer_refuted.

(** The hypotheses are met: layers on all three walls, and nodes inside and outside of them. *)
Example C44_hypotheses_met : exists g s1 s2 l1 l2 l3 N i k, geom_ok g /\ 0 <= s1 <= s2 /\ (1 <= N)%Z /\
  IZR N <= IZR (n_z g) * l2 /\ IZR N <= IZR (n_r g) * l3 /\ l1 <= 1 /\ l2 <= 1 /\
  (0 <= i < n_r g)%Z /\ (0 <= k < n_z g)%Z /\
  outside_ends (z_size g) l1 l2 (dz g * IZR k) /\ outside_outer (r_size g) (dr g) l3 (dr g * IZR i) /\
  exists x, conductivity g l1 l2 l3 s1 s2 i 0 = Fin x /\ 0 < x.
Proof.
  exists sample_geom, (1 / 100), 10, (1 / 4), (1 / 4), (1 / 3), 2%Z, 2%Z, 8%Z.
  assert (G := sample_geom_ok).
  repeat match goal with |- _ /\ _ => split end; try exact G; try lia; try lra;
    try (cbn [n_r n_z sample_geom]; (lia || lra)).
  - unfold outside_ends. cbn [z_size sample_geom]. rewrite sample_dz. lra.
  - unfold outside_outer. cbn [r_size sample_geom]. rewrite sample_dr. lra.
  - assert (NZ : nonzero (1 / 4) = true) by (unfold nonzero; destruct (Req_EM_T (1 / 4) 0); [lra|reflexivity]).
    unfold conductivity. rewrite NZ. cbn [orb]. unfold set_pml. rewrite NZ. cbn [negb andb].
    assert (C := outer_outside sample_geom (1 / 3) 2 G).
    assert (L : length_sigma_left sample_geom (1 / 4) = 4).
    { unfold length_sigma_left. rewrite sample_dz. replace (floorZ (IZR (n_z sample_geom) * (1 / 4))) with 4%Z; [lra|].
      symmetry. apply floorZ_unique. cbn [n_z sample_geom]. lra. }
    assert (LR : length_sigma_right sample_geom (1 / 4) = 4) by exact L.
    assert (W : pml_walls sample_geom (1 / 4) (1 / 4) (1 / 100) 10 (fun _ _ => Fin 0) 2 0 = Fin 10).
    { unfold pml_walls. rewrite L, LR, sample_dz. cbn [z_size sample_geom].
      destruct (Rlt_dec _ _) as [A|_]; [lra|]. destruct (Rlt_dec _ _) as [_|A]; [|lra].
      rewrite profile_value by lra. f_equal. lra. }
    exists 10. split; [|lra].
    destruct (nonzero (1 / 3)); [|exact W].
    unfold pml_extern. destruct (Rle_dec _ _) as [A|_]; [|exact W].
    exfalso. apply C; [|exact A]. cbn [r_size sample_geom]. rewrite sample_dr. lra.
Qed.
