(** Property C43: smoothing never overshoots and keeps constants. *)
From Coq Require Import Reals ZArith Lia Lra List.
From Verif.Lib Require Import RAux Par.
From Verif.Model Require Import Smooth.
From Verif.Spec Require Import MapSpec.
From Verif.Proof Require Import SmoothP.
Local Open Scope R_scope.

(** Full statement: for every execution of bilinear_interpolation, the result at *every* node is within
    the range of the source around the node. It fails on the last column (below); it holds at every
    other node and at the corners, for every team of threads and every interleaving. *)
Theorem C43_partial : forall x y m m' i j, (2 <= x)%Z -> (2 <= y)%Z -> bilinear_interpolation x y m m' ->
  node x y i j -> (j < y - 1 \/ i = 0 \/ i = x - 1)%Z ->
  within_neighbours x y (fun i j => m (true, i, j)) i j (m' (false, i, j)).
Proof. exact bilinear_within. Qed.
Print Assumptions C43_partial.

(** A constant map stays constant at the same nodes. *)
Theorem C43_constant_partial : forall x y m m' c i j, (2 <= x)%Z -> (2 <= y)%Z -> bilinear_interpolation x y m m' ->
  constant_map x y (fun i j => m (true, i, j)) c -> node x y i j -> (j < y - 1 \/ i = 0 \/ i = x - 1)%Z ->
  m' (false, i, j) = c.
Proof.
  intros x y m m' c i j Hx Hy HB HC Hn Hl.
  assert (A := bilinear_within x y m m' i j Hx Hy HB Hn Hl c c).
  assert (B : around x y (src m) i j c c).
  { intros i' j' H' _ _. unfold src. rewrite (HC i' j' H'). lra. }
  specialize (A B). unfold dst in A. lra.
Qed.
Print Assumptions C43_constant_partial.

(** All threads and schedules give the same result, and the source is not changed. *)
Theorem C43_deterministic : forall x y m m1 m2 i j, (2 <= x)%Z -> (2 <= y)%Z ->
  bilinear_interpolation x y m m1 -> bilinear_interpolation x y m m2 -> node x y i j ->
  m1 (false, i, j) = m2 (false, i, j) /\ m1 (true, i, j) = m (true, i, j).
Proof.
  intros x y m m1 m2 i j Hx Hy H1 H2 [Hi Hj].
  destruct (bilinear_result x y m m1 Hx Hy H1) as (A1 & A2 & A3 & A4 & A5 & A6 & A7 & A8 & A9).
  destruct (bilinear_result x y m m2 Hx Hy H2) as (B1 & B2 & B3 & B4 & B5 & B6 & B7 & B8 & B9).
  split; [|apply A9]. change (dst m1 i j = dst m2 i j).
  destruct (Z.eq_dec i 0) as [->|Ni]; destruct (Z.eq_dec j 0) as [->|Nj].
  - congruence.
  - destruct (Z.eq_dec j (y - 1)) as [->|Nj']; [congruence|]. now rewrite A3, B3 by lia.
  - destruct (Z.eq_dec i (x - 1)) as [->|Ni']; [congruence|]. now rewrite A2, B2 by lia.
  - destruct (Z.eq_dec j (y - 1)) as [->|Nj'].
    + destruct (Z.eq_dec i (x - 1)) as [->|Ni']; [congruence|]. now rewrite A8, B8 by lia.
    + now rewrite A1, B1 by lia.
Qed.
Print Assumptions C43_deterministic.

(** The last column between the corners is never written: whatever was there before stays, so a
    constant map of temperature 1 eV gets a column of zeros. *)
Theorem C43_last_column_refuted : forall x y, (3 <= x)%Z -> (2 <= y)%Z ->
  exists m m', bilinear_interpolation x y m m' /\ constant_map x y (fun i j => m (true, i, j)) 1 /\
    forall i, (1 <= i < x - 1)%Z -> m' (false, i, (y - 1)%Z) = 0 /\
      ~ within_neighbours x y (fun i j => m (true, i, j)) i (y - 1) (m' (false, i, (y - 1)%Z)).
Proof.
  intros x y Hx Hy. set (m := (fun l => if fst (fst l) then 1 else 0) : mloc -> R).
  destruct (bilinear_exists x y m) as [m' HB]. exists m, m'. split; [exact HB|].
  split; [intros i j _; reflexivity|]. intros i Hi.
  destruct (bilinear_result x y m m' ltac:(lia) Hy HB) as (_ & _ & _ & _ & _ & _ & _ & A & _).
  assert (E : m' (false, i, (y - 1)%Z) = 0) by (apply (A i Hi)). split; [exact E|].
  rewrite E. intro W. specialize (W 1 1). cbn in W.
  assert (1 <= 0 <= 1) by (apply W; intros i' j' _ _ _; cbn; lra). lra.
Qed.
Print Assumptions C43_last_column_refuted.

(** The "bicubic" variant computes with the integers 0 instead of 0.5: it copies the source (no
    smoothing), and replaces a two nodes wide border by zero. *)
Theorem C43_bicubic_identity : forall x y m i j, (4 <= x)%Z -> (4 <= y)%Z ->
  (2 <= i < x - 2)%Z -> (2 <= j < y - 2)%Z ->
  bicubic_interpolation x y m (false, i, j) = m (true, i, j).
Proof.
  intros x y m i j Hx Hy Hi Hj. assert (R := bicubic_result x y m i j Hx Hy).
  unfold dst, src in R. rewrite R by (unfold node; lia).
  destruct (Z.leb_spec 2 i), (Z.ltb_spec i (x - 2)), (Z.leb_spec 2 j), (Z.ltb_spec j (y - 2)); cbn; (reflexivity || lia).
Qed.
Print Assumptions C43_bicubic_identity.

Theorem C43_bicubic_border_refuted : forall x y, (4 <= x)%Z -> (4 <= y)%Z ->
  exists m, constant_map x y (fun i j => m (true, i, j)) 1 /\
    forall i j, node x y i j -> (i < 2 \/ x - 2 <= i \/ j < 2 \/ y - 2 <= j)%Z ->
      bicubic_interpolation x y m (false, i, j) = 0.
Proof.
  intros x y Hx Hy. exists (fun l : mloc => if fst (fst l) then 1 else 0). split; [intros i j _; reflexivity|].
  intros i j Hn Hb. assert (R := bicubic_result x y (fun l : mloc => if fst (fst l) then 1 else 0) i j Hx Hy Hn).
  unfold dst, src in R. rewrite R.
  destruct (Z.leb_spec 2 i), (Z.ltb_spec i (x - 2)), (Z.leb_spec 2 j), (Z.ltb_spec j (y - 2)); cbn; (reflexivity || lia).
Qed.
Print Assumptions C43_bicubic_border_refuted.

(** The hypotheses are met: a map with one hot node, an execution exists, and the hot node spreads
    to its neighbour. *)
Example C43_hypotheses_met : exists m m', bilinear_interpolation 5 6 m m' /\ node 5 6 2 3 /\
  m (true, 1%Z, 2%Z) = 8 /\ m (true, 2%Z, 3%Z) = 0 /\ m' (false, 2%Z, 3%Z) = 2.
Proof.
  set (m := (fun l => match l with (true, 1%Z, 2%Z) => 8 | _ => 0 end) : mloc -> R).
  destruct (bilinear_exists 5 6 m) as [m' HB]. exists m, m'. split; [exact HB|].
  split; [unfold node; lia|]. split; [reflexivity|]. split; [reflexivity|].
  destruct (bilinear_result 5 6 m m' ltac:(lia) ltac:(lia) HB) as (A & _).
  specialize (A 2%Z 3%Z ltac:(lia) ltac:(lia)). unfold dst in A. rewrite A. unfold src, m. cbn. lra.
Qed.
