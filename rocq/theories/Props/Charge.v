(** Properties C01, C02, C03: charge deposition (Particles::charge_weighting,
    src/particles.cpp lines 100-226). *)
From Coq Require Import Reals ZArith Lia Lra List Permutation.
From Verif.Lib Require Import RAux Grid Interleave.
From Verif.Model Require Import Constants Geometry ChargeDeposit.
From Verif.Spec Require Import Cloud Sample.
From Verif.Proof Require Import GeometryP ChargeP ChargeP2.
Import ListNotations.
Local Open Scope R_scope.

(** C01. One live particle anywhere in the closed domain adds exactly its charge. *)
Theorem C01_charge_conserved : forall g q r z rho,
  geom_ok g -> 0 <= r <= r_size g -> 0 <= z <= z_size g ->
  grid_charge (n_r g) (n_z g) (dr g) (dz g) (charge_weighting g rho [QPart true q r z]) =
  grid_charge (n_r g) (n_z g) (dr g) (dz g) rho + q.
Proof. exact charge_weighting_total. Qed.
Print Assumptions C01_charge_conserved.

(** C01, stronger and per node: outside half a step from the axis the charge assigned to
    each node is the charge times the fraction of the particle's cloud that lies in the
    ring of that node. *)
Theorem C01_node_receives_cloud_share : forall g q r z rho i k,
  geom_ok g -> dr g / 2 <= r -> 0 <= z ->
  (charge_weighting g rho [QPart true q r z] i k - rho i k) * node_volume (dr g) (dz g) i =
  q * share (dr g) (dz g) i k r z.
Proof.
  intros g q r z rho i k Hg Hr Hz.
  rewrite <- (charge_weighting_share g q r z Hg Hr Hz i k), charge_weighting_incs, apply_incs_at.
  cbn [flat_map]. rewrite app_nil_r. unfold charge_weighting_part. cbn [q_alive q_charge q_r q_z]. ring.
Qed.
Print Assumptions C01_node_receives_cloud_share.

(** The three radial regimes are all inhabited. *)
Example C01_hypotheses_met :
  geom_ok sample_geom /\
  (0 <= 9/4 <= r_size sample_geom /\ dr sample_geom < 9/4) /\
  (0 <= 3/4 <= r_size sample_geom /\ dr sample_geom / 2 < 3/4 <= dr sample_geom) /\
  (0 <= 1/4 <= r_size sample_geom /\ 1/4 <= dr sample_geom / 2) /\
  0 <= 7/2 <= z_size sample_geom.
Proof.
  rewrite sample_dr. cbn. repeat split; try lra; try lia; apply sample_geom_ok.
Qed.

(** C02. A live particle of the domain changes the array only at (at most) four nodes, all
    inside the array and within one step of the particle; every change is the charge times a
    fraction between 0 and 1 divided by the node's volume. A dead particle changes nothing. *)
Theorem C02_local_one_signed_in_bounds : forall g q r z,
  geom_ok g -> 0 <= r <= r_size g -> 0 <= z <= z_size g ->
  exists incs : list inc,
    (length incs <= 4)%nat /\
    (forall rho i k, charge_weighting g rho [QPart true q r z] i k = apply_incs rho incs i k) /\
    Forall (fun c =>
      (0 <= row c < n_r g)%Z /\ (0 <= col c < n_z g)%Z /\
      Rabs (IZR (row c) * dr g - r) <= dr g /\ Rabs (IZR (col c) * dz g - z) <= dz g /\
      0 <= q * val c /\
      exists w, 0 <= w <= 1 /\ val c * node_volume (dr g) (dz g) (row c) = q * w) incs.
Proof.
  intros g q r z Hg [Hr0 Hr] [Hz0 Hz]. exists (charge_weighting_single g q r z).
  split; [rewrite charge_weighting_four; lia|]. split.
  - intros rho i k. reflexivity.
  - assert (A := charge_weighting_inside g q r z Hg Hr Hz).
    assert (B := charge_weighting_local g q r z Hg Hr0 Hz0).
    assert (C := charge_weighting_sign g q r z Hg Hr0 Hz0).
    assert (D := charge_weighting_fractions g q r z Hg Hr0 Hz0).
    rewrite Forall_forall in *. intros c Hc.
    destruct (A c Hc) as [A1 A2], (B c Hc) as [B1 B2].
    repeat split; try lia; auto.
Qed.
Print Assumptions C02_local_one_signed_in_bounds.

Theorem C02_dead_particle_changes_nothing : forall g q r z rho,
  charge_weighting g rho [QPart false q r z] = rho.
Proof. reflexivity. Qed.
Print Assumptions C02_dead_particle_changes_nothing.

Example C02_hypotheses_met :
  geom_ok sample_geom /\ 0 <= 8 <= r_size sample_geom /\ 0 <= 16 <= z_size sample_geom.
Proof. split; [apply sample_geom_ok|]. cbn. lra. Qed.

(** C03. Depositing a list is the sum of the single deposits, ... *)
Theorem C03_density_is_sum_of_particles : forall g ps rho i k,
  charge_weighting g rho ps i k =
  rho i k + rsum (map (fun p => charge_weighting g zero_arr [p] i k) ps).
Proof. exact charge_weighting_sum. Qed.
Print Assumptions C03_density_is_sum_of_particles.

(** ... so the order of the particles is irrelevant, ... *)
Theorem C03_order_independent : forall g ps ps' rho, Permutation ps ps' ->
  forall i k, charge_weighting g rho ps i k = charge_weighting g rho ps' i k.
Proof. exact charge_weighting_perm. Qed.
Print Assumptions C03_order_independent.

(** ... any distribution of the particles over threads and any interleaving of their atomic
    increments gives the same array, ... *)
Theorem C03_threads_independent : forall g rho ps parts tr,
  Permutation (concat parts) ps ->
  interleaves (map (flat_map (charge_weighting_part g)) parts) tr ->
  forall i k, apply_incs rho tr i k = charge_weighting g rho ps i k.
Proof. exact charge_weighting_threads. Qed.
Print Assumptions C03_threads_independent.

(** ... and the total charge on the grid is the sum of the charges of the live particles. *)
Theorem C03_total_charge_of_list : forall g ps rho,
  geom_ok g ->
  Forall (fun p => q_alive p = true -> 0 <= q_r p <= r_size g /\ 0 <= q_z p <= z_size g) ps ->
  grid_charge (n_r g) (n_z g) (dr g) (dz g) (charge_weighting g rho ps) =
  grid_charge (n_r g) (n_z g) (dr g) (dz g) rho +
    rsum (map (fun p => if q_alive p then q_charge p else 0) ps).
Proof. exact charge_weighting_list_total. Qed.
Print Assumptions C03_total_charge_of_list.

(** Two threads, three particles (one of them dead and outside the domain), and an
    interleaving of the increments that alternates between the threads. *)
Definition C03_parts : list (list qpart) :=
  [[QPart true 1 (9/4) (7/2)]; [QPart false 5 100 100; QPart true (-2) (1/4) 3]].

Example C03_hypotheses_met :
  let ps := [QPart true (-2) (1/4) 3; QPart true 1 (9/4) (7/2); QPart false 5 100 100] in
  Permutation (concat C03_parts) ps /\
  (exists tr, interleaves (map (flat_map (charge_weighting_part sample_geom)) C03_parts) tr) /\
  Forall (fun p => q_alive p = true ->
            0 <= q_r p <= r_size sample_geom /\ 0 <= q_z p <= z_size sample_geom) ps.
Proof.
  split; [|split].
  - unfold C03_parts; cbn [concat app].
    apply Permutation_trans with
      [QPart true 1 (9/4) (7/2); QPart true (-2) (1/4) 3; QPart false 5 100 100].
    + apply perm_skip. apply perm_swap.
    + apply perm_swap.
  - exists (concat (map (flat_map (charge_weighting_part sample_geom)) C03_parts)).
    apply interleaves_concat.
  - repeat apply Forall_cons; try apply Forall_nil; cbn; intro H; try discriminate; lra.
Qed.
