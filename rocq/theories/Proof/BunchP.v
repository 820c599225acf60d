(** Proofs about bunches: C23, C25. *)
From Coq Require Import Reals ZArith Lra Lia Psatz List Bool.
From Verif.Lib Require Import RAux Outcome Par.
From Verif.Model Require Import Constants Geometry Loading Bunch.
Import ListNotations.
Local Open Scope R_scope.

(** ** Ranges of integers *)

Lemma zrange_empty : forall lo hi, (hi <= lo)%Z -> zrange lo hi = [].
Proof. intros lo hi H. unfold zrange. replace (Z.to_nat (hi - lo)) with O by lia. reflexivity. Qed.

Lemma zrange_cons : forall lo hi, (lo < hi)%Z -> zrange lo hi = lo :: zrange (lo + 1) hi.
Proof.
  intros lo hi H. unfold zrange. replace (Z.to_nat (hi - lo)) with (S (Z.to_nat (hi - (lo + 1)))) by lia.
  cbn [seq map]. f_equal; [lia|]. rewrite <- seq_shift, map_map. apply map_ext. intro a. lia.
Qed.

Lemma zrange_app : forall a b c, (a <= b <= c)%Z -> zrange a b ++ zrange b c = zrange a c.
Proof.
  intros a b c H. remember (Z.to_nat (b - a)) as n eqn:E. revert a H E. induction n as [|n IH]; intros a H E.
  - replace b with a by lia. now rewrite zrange_empty by lia.
  - rewrite (zrange_cons a b) by lia. cbn. rewrite IH by lia. now rewrite <- zrange_cons by lia.
Qed.

Lemma zrange_length : forall lo hi, (lo <= hi)%Z -> Z.of_nat (length (zrange lo hi)) = (hi - lo)%Z.
Proof. intros lo hi H. unfold zrange. rewrite map_length, seq_length. lia. Qed.

Lemma zrange_snoc : forall lo hi, (lo <= hi)%Z -> zrange lo (hi + 1) = zrange lo hi ++ [hi].
Proof.
  intros lo hi H. rewrite <- (zrange_app lo hi (hi + 1)) by lia. f_equal.
  rewrite zrange_cons, zrange_empty by lia. reflexivity.
Qed.

(** ** One step of injection *)

Section Bunch.
Variable g : geom.
Variable b : bunch.
Variable dt : R.
Hypothesis Hdt : 0 < dt.
Hypothesis Hdur : 0 < b_duration b.
Hypothesis Hnum : (0 <= b_number b)%Z.

Definition tb : R := (b_duration b + b_hole b) * b_bunch_number b.
Definition te : R := tb + b_duration b.
Definition steps : Z := ceilZ (b_duration b / dt).
Definition share : Z := (b_number b / steps)%Z.
Definition start (t : R) : Z := floorZ ((t - tb) / dt * IZR share).

Lemma steps_pos : (1 <= steps)%Z.
Proof. unfold steps. apply ceilZ_ge. assert (0 < b_duration b / dt) by (apply Rdiv_pos; assumption). lra. Qed.

Lemma share_nonneg : (0 <= share)%Z.
Proof. unfold share. apply Z.div_pos; [assumption|]. assert (S := steps_pos). lia. Qed.

Lemma share_steps : (steps * share <= b_number b)%Z.
Proof. unfold share. apply Z.mul_div_le. assert (S := steps_pos). lia. Qed.

Lemma tb_code : b_duration b * b_bunch_number b + b_hole b * b_bunch_number b = tb.
Proof. unfold tb. ring. Qed.

Lemma start_nonneg : forall t, tb <= t -> (0 <= start t)%Z.
Proof.
  intros t Ht. unfold start. rewrite <- (floorZ_IZR 0). apply floorZ_le_mono.
  assert (0 <= (t - tb) / dt) by (apply Rdiv_nonneg; lra). assert (S := IZR_le _ _ share_nonneg). nra.
Qed.

Lemma start_next : forall t, start (t + dt) = (start t + share)%Z.
Proof.
  intro t. unfold start. replace ((t + dt - tb) / dt * IZR share) with ((t - tb) / dt * IZR share + IZR share) by (field; lra).
  apply floorZ_unique. rewrite plus_IZR. assert (F := floorZ_spec ((t - tb) / dt * IZR share)). lra.
Qed.

Lemma inject_list : forall (v : Z -> R) n s,
  map in_index (flat_map (fun i => if (i + s <? b_number b)%Z then [Inject (i + s) (v i) (b_velocity b)] else []) (zrange 0 n)) =
  zrange s (Z.min (b_number b) (s + n)).
Proof.
  intros v n s.
  assert (G : forall lo, map in_index (flat_map (fun i => if (i + s <? b_number b)%Z then [Inject (i + s) (v i) (b_velocity b)] else []) (zrange lo n)) =
              zrange (s + lo) (Z.min (b_number b) (s + n))); [|rewrite G; f_equal; lia].
  intro lo. remember (Z.to_nat (n - lo)) as m eqn:E. revert lo E. induction m as [|m IH]; intros lo E.
  - rewrite zrange_empty by lia. now rewrite zrange_empty by lia.
  - rewrite zrange_cons by lia. cbn [flat_map]. rewrite map_app, IH by lia.
    destruct (Z.ltb_spec (lo + s) (b_number b)) as [H|H].
    + cbn [map app]. rewrite (zrange_cons (s + lo)) by lia. cbn [in_index]. f_equal; [lia|]. f_equal. lia.
    + cbn [map app]. rewrite !zrange_empty by lia. reflexivity.
Qed.

Lemma inject_ok : forall t rnd, exists l, bunch_inject g b dt t rnd = Ok l /\
  (tb <= t < te -> map in_index l = zrange (start t) (Z.min (b_number b) (start t + share))) /\
  (t < tb \/ te <= t -> l = []) /\
  (forall x, In x l -> tb <= t < te /\ in_vz x = b_velocity b /\
     exists i, in_z x = b_velocity b * dt * rnd i + dz g / 2).
Proof.
  intros t rnd. unfold bunch_inject. rewrite tb_code. fold te. fold steps. fold share. cbv zeta.
  assert (S := steps_pos). destruct (Z.eqb_spec steps 0) as [E|_]; [lia|].
  eexists. split; [reflexivity|].
  destruct (Rle_dec tb t) as [H1|H1]; [|repeat split; intros; try lra; reflexivity || (now cbn in *)].
  destruct (Rlt_dec t te) as [H2|H2]; [|repeat split; intros; try lra; reflexivity || (now cbn in *)].
  assert (T : truncZ ((t - tb) / dt * IZR share) = start t).
  { unfold truncZ. destruct (Rle_dec 0 _) as [_|N]; [reflexivity|]. exfalso. apply N.
    assert (0 <= (t - tb) / dt) by (apply Rdiv_nonneg; lra). assert (P := IZR_le _ _ share_nonneg). nra. }
  rewrite T. split; [|split].
  - intros _. apply (inject_list (fun i => b_velocity b * dt * rnd i + dz g / 2)).
  - intros; lra.
  - intros x Hx. apply in_flat_map in Hx. destruct Hx as (i & _ & Hx).
    destruct (i + start t <? b_number b)%Z; [|destruct Hx]. destruct Hx as [<-|[]]. cbn. split; [lra|].
    split; [reflexivity|]. now exists i.
Qed.

(** ** Whole runs *)

Lemma run_late : forall rnds t, te <= t -> inject_run g b dt t rnds = Ok [].
Proof.
  induction rnds as [|rnd rest IH]; intros t Ht; [reflexivity|]. cbn [inject_run].
  destruct (inject_ok t rnd) as (l & E & _ & L & _). rewrite E, (L (or_intror Ht)). cbn [bind].
  rewrite IH by lra. reflexivity.
Qed.

Lemma zrange_chain : forall N s p q, (0 <= s)%Z -> (0 <= p)%Z -> (0 <= q)%Z ->
  zrange s (Z.min N (s + p)) ++ zrange (s + p) (Z.min N (s + p + q)) = zrange s (Z.min N (s + p + q)).
Proof.
  intros N s p q Hs Hp Hq. destruct (Z.le_gt_cases (s + p) N) as [H|H].
  - replace (Z.min N (s + p)) with (s + p)%Z by lia. apply zrange_app. lia.
  - rewrite (zrange_empty (s + p)) by lia. rewrite app_nil_r. f_equal. lia.
Qed.

(** All n steps lie in the window. *)
Lemma run_active : forall rnds t, tb <= t -> (rnds <> [] -> t + INR (length rnds - 1) * dt < te) ->
  exists l, inject_run g b dt t rnds = Ok l /\
  map in_index l = zrange (start t) (Z.min (b_number b) (start t + Z.of_nat (length rnds) * share)).
Proof.
  induction rnds as [|rnd rest IH]; intros t Ht Hn.
  - exists []. split; [reflexivity|]. cbn. rewrite zrange_empty by lia. reflexivity.
  - cbn [inject_run]. destruct (inject_ok t rnd) as (l & E & A & _). rewrite E. cbn [bind].
    specialize (Hn ltac:(discriminate)). cbn [length] in Hn. rewrite Nat.sub_succ, Nat.sub_0_r in Hn.
    assert (P := pos_INR (length rest)).
    destruct (IH (t + dt)) as (l' & E' & M'); [lra| |].
    { intro NE. destruct rest as [|x rest]; [congruence|]. cbn [length] in *. rewrite Nat.sub_succ, Nat.sub_0_r.
      rewrite S_INR in Hn. lra. }
    rewrite E'. cbn [bind]. eexists. split; [reflexivity|].
    rewrite map_app, M', A by nra. rewrite start_next. assert (S0 := start_nonneg t Ht). assert (SH := share_nonneg).
    rewrite zrange_chain by nia. f_equal. cbn [length]. lia.
Qed.

(** Any run: the indices form one range. *)
Lemma run_after : forall rnds t, tb <= t -> exists l m, inject_run g b dt t rnds = Ok l /\ (0 <= m)%Z /\
  map in_index l = zrange (start t) (Z.min (b_number b) (start t + m * share)).
Proof.
  induction rnds as [|rnd rest IH]; intros t Ht.
  - exists [], 0%Z. split; [reflexivity|]. split; [lia|]. cbn. now rewrite zrange_empty by lia.
  - destruct (Rlt_dec t te) as [H|H].
    + cbn [inject_run]. destruct (inject_ok t rnd) as (l & E & A & _). rewrite E. cbn [bind].
      destruct (IH (t + dt) ltac:(lra)) as (l' & m & E' & Hm & M'). rewrite E'. cbn [bind].
      exists (l ++ l'), (1 + m)%Z. split; [reflexivity|]. split; [lia|].
      rewrite map_app, M', A by lra. rewrite start_next. assert (S0 := start_nonneg t Ht). assert (SH := share_nonneg).
      rewrite zrange_chain by nia. f_equal. lia.
    + rewrite run_late by lra. exists [], 0%Z. split; [reflexivity|]. split; [lia|]. now rewrite zrange_empty by lia.
Qed.

Lemma run_any : forall rnds t, exists l s e, inject_run g b dt t rnds = Ok l /\
  (0 <= s)%Z /\ (e <= b_number b)%Z /\ map in_index l = zrange s e.
Proof.
  induction rnds as [|rnd rest IH]; intro t.
  - exists [], 0%Z, 0%Z. repeat split; lia.
  - destruct (Rlt_dec t tb) as [H|H].
    + cbn [inject_run]. destruct (inject_ok t rnd) as (l & E & _ & L & _). rewrite E, (L (or_introl H)). cbn [bind].
      destruct (IH (t + dt)) as (l' & s & e & E' & R). rewrite E'. cbn [bind app]. exists l', s, e. now split.
    + destruct (run_after (rnd :: rest) t ltac:(lra)) as (l & m & E & Hm & M).
      exists l, (start t), (Z.min (b_number b) (start t + m * share)). repeat split; auto; [|lia].
      apply start_nonneg. lra.
Qed.

Lemma start_tb : start tb = 0%Z.
Proof. unfold start. replace ((tb - tb) / dt * IZR share) with (IZR 0) by (field; lra). apply floorZ_IZR. Qed.

(** Steps from the beginning of the window that are still inside it. *)
Lemma window_steps : forall n, (1 <= n)%nat -> (Z.of_nat n <= steps)%Z <-> tb + INR (n - 1) * dt < te.
Proof.
  intros n Hn. unfold steps, te. assert (C := ceilZ_spec (b_duration b / dt)).
  assert (E : b_duration b = b_duration b / dt * dt) by (field; lra).
  replace (INR (n - 1)) with (INR n - 1) by (rewrite minus_INR by lia; reflexivity).
  rewrite INR_IZR_INZ. split; intro H.
  - apply IZR_le in H. assert (IZR (Z.of_nat n) - 1 < b_duration b / dt) by lra. nra.
  - apply ceilZ_ge. nra.
Qed.

End Bunch.

(** ** Creation of bunches *)

Section Beam.
Variable c : beam.
Let period : R := duration_of c + hole_of c.

Lemma init_beam_cases : forall t s s', init_beam c t s = Ok s' ->
  s' = s \/ (IZR (current_bunch_number s) * period <= t /\ (current_bunch_number s < number_bunches c)%Z /\
             s' = BeamState (current_bunch_number s + 1) (c_bunches s ++ [current_bunch_number s])).
Proof.
  intros t s s' H. unfold init_beam in H. destruct (erase_reached c t s); [discriminate|]. injection H as <-.
  unfold create_bunch. fold period. destruct (Rle_dec _ _) as [L|L]; [|now left].
  destruct (Z.ltb_spec (current_bunch_number s) (number_bunches c)); [right; auto|now left].
Qed.

(** The bunches are 0 .. k-1. *)
Definition well_formed (s : beam_state) : Prop :=
  (0 <= current_bunch_number s <= Z.max 0 (number_bunches c))%Z /\ c_bunches s = zrange 0 (current_bunch_number s).

Lemma init_beam_wf : forall t s s', well_formed s -> init_beam c t s = Ok s' ->
  well_formed s' /\ (current_bunch_number s <= current_bunch_number s' <= current_bunch_number s + 1)%Z /\
  (current_bunch_number s' = (current_bunch_number s + 1)%Z -> IZR (current_bunch_number s) * period <= t).
Proof.
  intros t s s' [W1 W2] H. apply init_beam_cases in H. destruct H as [->|(L & N & ->)].
  - split; [now split|]. split; [lia|]. intro. lia.
  - cbn. repeat split; cbn; try lia; auto. rewrite W2, <- zrange_snoc by lia. reflexivity.
Qed.

Lemma beam_run_wf : forall n dt t s s', well_formed s -> beam_run c dt t n s = Ok s' -> well_formed s'.
Proof.
  induction n as [|n IH]; intros dt t s s' W H; cbn [beam_run] in H; [now injection H as <-|].
  destruct (init_beam c t s) as [s1| |] eqn:E; cbn [bind] in H; try discriminate.
  eapply IH; [|exact H]. eapply init_beam_wf; eauto.
Qed.

Lemma beam_run_snoc : forall n dt t s, beam_run c dt t (S n) s =
  bind (beam_run c dt t n s) (fun s' => init_beam c (t + INR n * dt) s').
Proof.
  induction n as [|n IH]; intros dt t s.
  - cbn. replace (t + 0 * dt) with t by ring. now destruct (init_beam c t s).
  - change (beam_run c dt t (S (S n)) s) with (bind (init_beam c t s) (fun s' => beam_run c dt (t + dt) (S n) s')).
    change (beam_run c dt t (S n) s) with (bind (init_beam c t s) (fun s' => beam_run c dt (t + dt) n s')).
    destruct (init_beam c t s) as [s1| |]; cbn [bind]; [|reflexivity|reflexivity].
    rewrite IH. replace (t + dt + INR n * dt) with (t + INR (S n) * dt) by (rewrite S_INR; ring). reflexivity.
Qed.

Definition beam_start : beam_state := BeamState 0 [].

Lemma beam_start_wf : well_formed beam_start.
Proof. split; cbn; [lia|reflexivity]. Qed.

(** With a time step no longer than the period the number of bunches follows the clock. *)
Lemma beam_run_count : forall n dt s', 0 < dt <= period -> (0 <= number_bunches c)%Z ->
  beam_run c dt 0 (S n) beam_start = Ok s' ->
  current_bunch_number s' = Z.min (number_bunches c) (floorZ (INR n * dt / period) + 1).
Proof.
  intros n dt s' Hdt HN. revert s'. assert (P : 0 < period) by lra.
  assert (G : forall m s, beam_run c dt 0 m beam_start = Ok s -> well_formed s).
  { intros m s H. eapply beam_run_wf; [apply beam_start_wf|exact H]. }
  assert (ST : forall t s s', init_beam c t s = Ok s' ->
           current_bunch_number s' = if Rle_dec (IZR (current_bunch_number s) * period) t then
             (if (current_bunch_number s <? number_bunches c)%Z then current_bunch_number s + 1 else current_bunch_number s)%Z
             else current_bunch_number s).
  { intros t s s' H. unfold init_beam in H. destruct (erase_reached c t s); [discriminate|]. injection H as <-.
    unfold create_bunch. fold period. destruct (Rle_dec _ _); [|reflexivity]. destruct (_ <? _)%Z; reflexivity. }
  induction n as [|n IH]; intros s' H.
  - rewrite beam_run_snoc in H. cbn [beam_run bind] in H. apply ST in H. cbn [beam_start current_bunch_number] in H.
    replace (INR 0 * dt / period) with (IZR 0) by (cbn; field; lra). rewrite floorZ_IZR. rewrite H.
    destruct (Rle_dec (0 * period) (0 + INR 0 * dt)) as [L|L]; [|exfalso; apply L; cbn; lra].
    destruct (Z.ltb_spec 0 (number_bunches c)); lia.
  - rewrite beam_run_snoc in H. destruct (beam_run c dt 0 (S n) beam_start) as [s1| |] eqn:E; cbn [bind] in H; try discriminate.
    specialize (IH s1 eq_refl). apply ST in H. rewrite H. clear H.
    replace (0 + INR (S n) * dt) with (INR (S n) * dt) by ring.
    set (x := INR n * dt / period) in *.
    assert (X : INR (S n) * dt / period = x + dt / period) by (rewrite S_INR; unfold x; field; lra).
    assert (D : 0 < dt / period <= 1) by (split; [apply Rdiv_pos; lra|apply Rdiv_le_1; lra]).
    rewrite X. assert (F := floorZ_spec x). set (f := floorZ x) in *.
    assert (F0 : (0 <= f)%Z).
    { unfold f. rewrite <- (floorZ_IZR 0). apply floorZ_le_mono. unfold x. apply Rdiv_nonneg; [|lra].
      assert (0 <= INR n) by apply pos_INR. nra. }
    assert (T : INR (S n) * dt = (x + dt / period) * period) by (rewrite <- X; field; lra).
    rewrite T. destruct (Rle_dec (IZR (current_bunch_number s1) * period) ((x + dt / period) * period)) as [L|L].
    + assert (L' : IZR (current_bunch_number s1) <= x + dt / period) by nra.
      destruct (Z.ltb_spec (current_bunch_number s1) (number_bunches c)) as [B|B].
      * assert (C1 : current_bunch_number s1 = (f + 1)%Z) by lia. rewrite C1 in *. rewrite plus_IZR in L'.
        rewrite (floorZ_unique (x + dt / period) (f + 1)) by (rewrite plus_IZR; lra). lia.
      * assert (f <= floorZ (x + dt / period))%Z by (unfold f; apply floorZ_le_mono; lra). lia.
    + assert (L' : x + dt / period < IZR (current_bunch_number s1)) by nra.
      destruct (Z.lt_ge_cases (f + 1) (number_bunches c)) as [B|B].
      * assert (C1 : current_bunch_number s1 = (f + 1)%Z) by lia. rewrite C1 in L'. rewrite plus_IZR in L'.
        rewrite (floorZ_unique (x + dt / period) f) by lra. lia.
      * assert (f <= floorZ (x + dt / period))%Z by (unfold f; apply floorZ_le_mono; lra). lia.
Qed.

(** Two bunches in the list and the first one past the far wall: undefined. *)
Lemma init_beam_undefined : forall t s, 0 < period -> well_formed s -> (2 <= current_bunch_number s)%Z ->
  beam_z_size c / initial_velocity c + duration_of c < t -> init_beam c t s = UB.
Proof.
  intros t s P [W1 W2] H2 Ht. unfold init_beam.
  replace (erase_reached c t s) with true; [reflexivity|]. symmetry. unfold erase_reached. fold period.
  rewrite W2, zrange_length by lia. apply andb_true_intro. split; [apply Z.ltb_lt; lia|].
  rewrite (zrange_cons 0) by lia. cbn [existsb]. apply orb_true_iff. left.
  destruct (Rlt_dec _ _) as [_|N]; [reflexivity|]. exfalso. apply N. apply Rdiv_pos; lra.
Qed.
End Beam.
