(** Proofs about the conductivity profile. *)
From Coq Require Import Reals ZArith Lia Lra Psatz Bool.
From Verif.Lib Require Import RAux.
From Verif.Model Require Import Geometry Pml.
From Verif.Spec Require Import Layer.
From Verif.Proof Require Import GeometryP.
Local Open Scope R_scope.

Section PmlP.
Variable g : geom.
Hypothesis Hg : geom_ok g.
Variables s1 s2 : R.
Hypothesis H12 : 0 <= s1 <= s2.

(** A profile over a positive length, at a depth of at most that length and one cell. *)
Lemma profile_value : forall length depth, length <> 0 ->
  profile s1 s2 length depth = Fin (s1 + (s2 - s1) / length ^ 2 * depth ^ 2).
Proof.
  intros length depth Hl. unfold profile, ediv.
  destruct (Req_EM_T (length ^ 2) 0) as [E|_]; [exfalso; apply Hl; nra|reflexivity].
Qed.

Lemma profile_bounds : forall length depth c, 0 < length -> 0 <= depth <= c * length ->
  exists x, profile s1 s2 length depth = Fin x /\ s1 <= x <= s1 + (s2 - s1) * c ^ 2.
Proof.
  intros length depth c Hl Hd. eexists. split; [apply profile_value; lra|].
  assert (Q : 0 <= depth ^ 2 / length ^ 2 <= c ^ 2).
  { assert (0 < length ^ 2) by nra. split.
    - apply Rmult_le_reg_r with (length ^ 2); [assumption|].
      replace (depth ^ 2 / length ^ 2 * length ^ 2) with (depth ^ 2) by (field; lra). nra.
    - apply Rmult_le_reg_r with (length ^ 2); [assumption|].
      replace (depth ^ 2 / length ^ 2 * length ^ 2) with (depth ^ 2) by (field; lra).
      replace (c ^ 2 * length ^ 2) with ((c * length) ^ 2) by ring. nra. }
  replace ((s2 - s1) / length ^ 2 * depth ^ 2) with ((s2 - s1) * (depth ^ 2 / length ^ 2))
    by (field; nra).
  split; nra.
Qed.

(** Numbers of cells of the layers. *)
Definition cells_z (l : R) : Z := floorZ (IZR (n_z g) * l).
Definition cells_r (l : R) : Z := floorZ (IZR (n_r g) * l).

Lemma z_depth_nonneg : forall k, (k <= n_z g - 1)%Z -> 0 <= z_size g - dz g * IZR k.
Proof.
  intros k Hk. rewrite (z_size_dz g Hg). assert (D := dz_pos g Hg). assert (K := IZR_le _ _ Hk). nra.
Qed.

Lemma r_depth_nonneg : forall i, (i <= n_r g - 1)%Z -> 0 <= r_size g - dr g * IZR i.
Proof.
  intros i Hi. rewrite (r_size_dr g Hg). assert (D := dr_pos g Hg). assert (K := IZR_le _ _ Hi). nra.
Qed.

Lemma left_bounds : forall l1 k, (0 <= k)%Z -> dz g * IZR k < length_sigma_left g l1 ->
  exists x, profile s1 s2 (length_sigma_left g l1) (length_sigma_left g l1 - dz g * IZR k) = Fin x /\
    s1 <= x <= s2.
Proof.
  intros l1 k Hk Hl. assert (D := dz_pos g Hg). assert (K := IZR_le _ _ Hk).
  destruct (profile_bounds (length_sigma_left g l1) (length_sigma_left g l1 - dz g * IZR k) 1) as (x & E & B).
  - nra.
  - nra.
  - exists x. split; [exact E|]. lra.
Qed.

Lemma right_bounds : forall l2 k N, (k <= n_z g - 1)%Z -> (1 <= N)%Z -> (cells_z l2 <= 0 \/ N <= cells_z l2)%Z ->
  z_size g - dz g * IZR k < length_sigma_right g l2 ->
  exists x, profile s1 s2 (length_sigma_right g l2) (dz g * (IZR k + 1) - z_size g + length_sigma_right g l2) = Fin x /\
    s1 <= x <= s1 + (s2 - s1) * (1 + 1 / IZR N) ^ 2.
Proof.
  intros l2 k N Hk HN Hc Hl. assert (D := dz_pos g Hg). assert (K := z_depth_nonneg k Hk).
  unfold length_sigma_right in *. fold (cells_z l2) in *.
  assert (N1 : 1 <= IZR N) by (apply IZR_le in HN; exact HN).
  assert (C : (N <= cells_z l2)%Z).
  { destruct Hc as [Hc|Hc]; [|exact Hc]. apply IZR_le in Hc. nra. }
  apply IZR_le in C.
  assert (I : 0 < / IZR N) by (apply Rinv_0_lt_compat; lra).
  assert (J : IZR N * / IZR N = 1) by (apply Rinv_r; lra).
  apply profile_bounds; [nra|]. split; [nra|].
  unfold Rdiv. set (q := / IZR N) in *. assert (1 <= q * IZR (cells_z l2)) by nra.
  assert (dz g <= dz g * (q * IZR (cells_z l2))) by nra. lra.
Qed.

Lemma extern_bounds : forall l3 i N, (i <= n_r g - 1)%Z -> (1 <= N)%Z -> (cells_r l3 < 0 \/ N <= cells_r l3)%Z ->
  r_size g - dr g * IZR i <= length_sigma_extern g l3 ->
  exists x, profile_extern g l3 s1 s2 i = Fin x /\
    s1 <= x <= s1 + (s2 - s1) * (1 + 1 / IZR N) ^ 2.
Proof.
  intros l3 i N Hi HN Hc Hl. assert (D := dr_pos g Hg). assert (K := r_depth_nonneg i Hi).
  unfold profile_extern, length_sigma_extern in *. fold (cells_r l3) in *.
  assert (N1 : 1 <= IZR N) by (apply IZR_le in HN; exact HN).
  assert (C : (N <= cells_r l3)%Z).
  { destruct Hc as [Hc|Hc]; [|exact Hc]. apply IZR_lt in Hc. nra. }
  apply IZR_le in C.
  assert (I : 0 < / IZR N) by (apply Rinv_0_lt_compat; lra).
  assert (J : IZR N * / IZR N = 1) by (apply Rinv_r; lra).
  apply profile_bounds; [nra|]. split; [nra|].
  unfold Rdiv. set (q := / IZR N) in *. assert (1 <= q * IZR (cells_r l3)) by nra.
  assert (dr g <= dr g * (q * IZR (cells_r l3))) by nra. lra.
Qed.

Definition passive (N : Z) (e : ext) : Prop :=
  exists x, e = Fin x /\ (x = 0 \/ s1 <= x <= s1 + (s2 - s1) * (1 + 1 / IZR N) ^ 2).

Lemma walls_passive : forall l1 l2 s i k N, (0 <= k <= n_z g - 1)%Z -> (1 <= N)%Z ->
  (cells_z l2 <= 0 \/ N <= cells_z l2)%Z -> passive N (s i k) -> passive N (pml_walls g l1 l2 s1 s2 s i k).
Proof.
  intros l1 l2 s i k N Hk HN Hc Hs. unfold pml_walls.
  destruct (Rlt_dec _ _) as [R|_].
  - destruct (right_bounds l2 k N ltac:(lia) HN Hc R) as (x & E & B). exists x. auto.
  - destruct (Rlt_dec _ _) as [L|_]; [|exact Hs].
    destruct (left_bounds l1 k ltac:(lia) L) as (x & E & B). exists x. split; [exact E|]. right.
    assert (I : 0 < 1 / IZR N) by (apply Rdiv_lt_0_compat; [lra|apply IZR_lt; lia]). nra.
Qed.

Lemma extern_passive : forall l1 l2 l3 s i k N, (i <= n_r g - 1)%Z -> (1 <= N)%Z ->
  (cells_r l3 < 0 \/ N <= cells_r l3)%Z -> passive N (s i k) -> passive N (pml_extern g l1 l2 l3 s1 s2 s i k).
Proof.
  intros l1 l2 l3 s i k N Hi HN Hc Hs. unfold pml_extern.
  destruct (Rle_dec _ _) as [R|_]; [|exact Hs]. destruct (_ && _)%bool; [|exact Hs].
  destruct (extern_bounds l3 i N Hi HN Hc R) as (x & E & B). exists x. auto.
Qed.

Lemma only_extern_passive : forall l3 s i k N, (i <= n_r g - 1)%Z -> (1 <= N)%Z ->
  (cells_r l3 < 0 \/ N <= cells_r l3)%Z -> passive N (s i k) -> passive N (pml_only_extern g l3 s1 s2 s i k).
Proof.
  intros l3 s i k N Hi HN Hc Hs. unfold pml_only_extern.
  destruct (Rle_dec _ _) as [R|_]; [|exact Hs].
  destruct (extern_bounds l3 i N Hi HN Hc R) as (x & E & B). exists x. auto.
Qed.

Lemma conductivity_passive : forall l1 l2 l3 i k N,
  (0 <= i <= n_r g - 1)%Z -> (0 <= k <= n_z g - 1)%Z -> (1 <= N)%Z ->
  (cells_z l2 <= 0 \/ N <= cells_z l2)%Z -> (l3 = 0 \/ (cells_r l3 < 0 \/ N <= cells_r l3)%Z) ->
  passive N (conductivity g l1 l2 l3 s1 s2 i k).
Proof.
  intros l1 l2 l3 i k N Hi Hk HN H2 H3. unfold conductivity.
  assert (Z : passive N (Fin 0)) by (exists 0; auto).
  destruct (_ || _)%bool; [|exact Z]. unfold set_pml.
  destruct H3 as [E|H3].
  - assert (F : nonzero l3 = false) by (unfold nonzero; destruct (Req_EM_T l3 0); [reflexivity|contradiction]).
    rewrite F, andb_false_r. now apply walls_passive.
  - assert (P : passive N ((if (negb (nonzero l1) && negb (nonzero l2) && nonzero l3)%bool
           then pml_only_extern g l3 s1 s2 (fun _ _ => Fin 0) else pml_walls g l1 l2 s1 s2 (fun _ _ => Fin 0)) i k)).
    { destruct (_ && _)%bool; [apply only_extern_passive|apply walls_passive]; auto; lia. }
    destruct (nonzero l3); [|exact P]. apply extern_passive; auto. lia.
Qed.
End PmlP.

(** ** Outside the layers *)

Lemma left_outside : forall g l k, geom_ok g -> l <= 1 -> l * z_size g < dz g * IZR k ->
  ~ dz g * IZR k < length_sigma_left g l.
Proof.
  intros g l k Hg Hl Ho H. unfold length_sigma_left in H. assert (D := dz_pos g Hg).
  rewrite (z_size_dz g Hg), minus_IZR in Ho.
  apply Rmult_lt_reg_l in H; [|exact D]. apply lt_IZR in H.
  destruct (floorZ_spec (IZR (n_z g) * l)) as [F _].
  assert (K : (k + 1 <= floorZ (IZR (n_z g) * l))%Z) by lia. apply IZR_le in K. rewrite plus_IZR in K.
  nra.
Qed.

Lemma right_outside : forall g l k, geom_ok g -> l <= 1 -> l * z_size g < z_size g - dz g * IZR k ->
  ~ z_size g - dz g * IZR k < length_sigma_right g l.
Proof.
  intros g l k Hg Hl Ho H. assert (D := dz_pos g Hg).
  assert (E : z_size g - dz g * IZR k = dz g * IZR (n_z g - 1 - k)).
  { rewrite (z_size_dz g Hg) at 1. rewrite !minus_IZR. ring. }
  rewrite E in *. apply (left_outside g l (n_z g - 1 - k) Hg Hl Ho). exact H.
Qed.

Lemma outer_outside : forall g l i, geom_ok g -> l * (r_size g + dr g) < r_size g - dr g * IZR i ->
  ~ r_size g - dr g * IZR i <= length_sigma_extern g l.
Proof.
  intros g l i Hg Ho H. unfold length_sigma_extern in H. assert (D := dr_pos g Hg).
  rewrite (r_size_dr g Hg) in *. rewrite minus_IZR in *.
  destruct (floorZ_spec (IZR (n_r g) * l)) as [F _]. nra.
Qed.

Lemma conductivity_outside : forall g l1 l2 l3 s1 s2 i k, geom_ok g -> l1 <= 1 -> l2 <= 1 ->
  outside_ends (z_size g) l1 l2 (dz g * IZR k) -> outside_outer (r_size g) (dr g) l3 (dr g * IZR i) ->
  conductivity g l1 l2 l3 s1 s2 i k = Fin 0.
Proof.
  intros g l1 l2 l3 s1 s2 i k Hg H1 H2 [O1 O2] O3. unfold outside_outer in O3.
  assert (A := left_outside g l1 k Hg H1 O1). assert (B := right_outside g l2 k Hg H2 O2).
  assert (C := outer_outside g l3 i Hg O3).
  unfold conductivity. destruct (_ || _)%bool; [|reflexivity]. unfold set_pml.
  assert (E : (if (negb (nonzero l1) && negb (nonzero l2) && nonzero l3)%bool
           then pml_only_extern g l3 s1 s2 (fun _ _ => Fin 0) else pml_walls g l1 l2 s1 s2 (fun _ _ => Fin 0)) i k = Fin 0).
  { destruct (_ && _)%bool; unfold pml_only_extern, pml_walls.
    - destruct (Rle_dec _ _); [contradiction|reflexivity].
    - destruct (Rlt_dec _ _); [contradiction|]. destruct (Rlt_dec _ _); [contradiction|reflexivity]. }
  destruct (nonzero l3); [|exact E]. unfold pml_extern. destruct (Rle_dec _ _); [contradiction|exact E].
Qed.

(** ** At the walls *)

Lemma right_wall_value : forall g l2 s1 s2 i, geom_ok g -> (1 <= floorZ (IZR (n_z g) * l2))%Z ->
  conductivity g 0 l2 0 s1 s2 i (n_z g - 1) =
  Fin (s1 + (s2 - s1) * (1 + 1 / IZR (floorZ (IZR (n_z g) * l2))) ^ 2).
Proof.
  intros g l2 s1 s2 i Hg HN. assert (D := dz_pos g Hg). set (N := floorZ (IZR (n_z g) * l2)) in *.
  assert (N1 := IZR_le _ _ HN).
  assert (NZ : nonzero l2 = true).
  { unfold nonzero. destruct (Req_EM_T l2 0) as [E|_]; [|reflexivity]. exfalso. unfold N in HN. rewrite E, Rmult_0_r in HN.
    change 0 with (IZR 0) in HN. rewrite floorZ_IZR in HN. lia. }
  assert (Z0 : nonzero 0 = false) by (unfold nonzero; destruct (Req_EM_T 0 0); [reflexivity|contradiction]).
  unfold conductivity. rewrite Z0, NZ. cbn [orb]. unfold set_pml. rewrite Z0, NZ. cbn [negb andb].
  unfold pml_walls.
  assert (E : z_size g - dz g * IZR (n_z g - 1) = 0) by (rewrite (z_size_dz g Hg) at 1; ring).
  destruct (Rlt_dec _ _) as [_|C].
  - rewrite profile_value by (unfold length_sigma_right; fold N; nra).
    unfold length_sigma_right. fold N. f_equal.
    replace (dz g * (IZR (n_z g - 1) + 1) - z_size g + dz g * IZR N) with (dz g + dz g * IZR N) by lra.
    field. nra.
  - exfalso. apply C. rewrite E. unfold length_sigma_right. fold N. nra.
Qed.

Lemma thin_outer_infinite : forall g l3 s1 s2 k, geom_ok g -> 0 < l3 -> IZR (n_r g) * l3 < 1 -> s1 < s2 ->
  conductivity g 0 0 l3 s1 s2 (n_r g - 1) k = PInf.
Proof.
  intros g l3 s1 s2 k Hg H0 H1 H12. assert (D := dr_pos g Hg).
  assert (NZ : nonzero l3 = true) by (unfold nonzero; destruct (Req_EM_T l3 0); [lra|reflexivity]).
  assert (Z0 : nonzero 0 = false) by (unfold nonzero; destruct (Req_EM_T 0 0); [reflexivity|contradiction]).
  assert (F : floorZ (IZR (n_r g) * l3) = 0%Z).
  { apply floorZ_unique. assert (2 <= IZR (n_r g)) by (apply IZR_le; apply Hg). cbn. nra. }
  assert (L : length_sigma_extern g l3 = 0) by (unfold length_sigma_extern; rewrite F; ring).
  assert (E : r_size g - dr g * IZR (n_r g - 1) = 0) by (rewrite (r_size_dr g Hg) at 1; ring).
  assert (P : profile_extern g l3 s1 s2 (n_r g - 1) = PInf).
  { unfold profile_extern, profile, ediv. rewrite L.
    destruct (Req_EM_T (0 ^ 2) 0) as [_|C]; [|exfalso; apply C; ring].
    destruct (Rlt_dec 0 (s2 - s1)) as [_|C]; [|lra]. unfold emul.
    destruct (Rlt_dec _ _) as [_|C]; [reflexivity|]. exfalso. apply C.
    replace (dr g * (IZR (n_r g - 1) + 1) - r_size g + 0) with (dr g) by lra. nra. }
  unfold conductivity. rewrite Z0, NZ. cbn [orb]. unfold set_pml. rewrite Z0, NZ. cbn [negb andb].
  unfold pml_extern. rewrite L, E. destruct (Rle_dec 0 0) as [_|C]; [|lra].
  assert (Q : pml_only_extern g l3 s1 s2 (fun _ _ => Fin 0) (n_r g - 1) k = PInf).
  { unfold pml_only_extern. rewrite L, E. destruct (Rle_dec 0 0) as [_|C]; [exact P|lra]. }
  destruct (_ && _)%bool; [exact P|exact Q].
Qed.
