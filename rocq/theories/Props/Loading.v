(** Properties C19-C25: random sequence, plasma loading, bunches. *)
From Coq Require Import Reals ZArith Lra Lia List Psatz.
From Verif.Lib Require Import RAux Outcome Par.
From Verif.Model Require Import Constants Geometry Pusher Rand Loading Bunch.
From Verif.Spec Require Import Digits Dynamics Domain Sample Injection.
From Verif.Proof Require Import GeometryP PusherP RandP LoadingP BunchP.
Import ListNotations.
Local Open Scope R_scope.

(** C19. For every base of at least two and every non-negative index the function ends and
    returns the digits of the index mirrored at the point, a number in [0,1). *)
Theorem C19_mirrored_digits : forall b n m, (2 <= b)%Z -> (0 <= n < b ^ Z.of_nat m)%Z ->
  exists x, random_reverse n b = Some x /\ x = mirrored b n m /\ 0 <= x < 1.
Proof.
  intros b n m Hb Hn. exists (val b n). split; [apply random_reverse_val; lia|].
  split; [apply val_mirrored; assumption|apply val_range; lia].
Qed.
Print Assumptions C19_mirrored_digits.

Theorem C19_terminates : forall b n, (2 <= b)%Z -> (0 <= n)%Z ->
  exists x, random_reverse n b = Some x /\ 0 <= x < 1.
Proof. intros b n Hb Hn. exists (val b n). split; [now apply random_reverse_val|now apply val_range]. Qed.
Print Assumptions C19_terminates.

(** More iterations than the model allows give the same result: the bound is no restriction. *)
Theorem C19_fuel_irrelevant : forall b n fuel, (2 <= b)%Z -> (0 <= n)%Z -> (Z.to_nat n <= fuel)%nat ->
  rr_loop fuel n b 1 0 = random_reverse n b.
Proof.
  intros b n fuel Hb Hn Hf. unfold random_reverse. rewrite !(rr_loop_val b Hb) by lia. reflexivity.
Qed.
Print Assumptions C19_fuel_irrelevant.

Theorem C19_distinct : forall b n1 n2, (2 <= b)%Z -> (0 <= n1)%Z -> (0 <= n2)%Z ->
  random_reverse n1 b = random_reverse n2 b -> n1 = n2.
Proof.
  intros b n1 n2 Hb H1 H2 E. rewrite !random_reverse_val in E by assumption. injection E as E.
  now apply (val_injective b Hb).
Qed.
Print Assumptions C19_distinct.

(** Every aligned block of b^m indices has exactly one member in each interval of length b^-m. *)
Theorem C19_equidistributed : forall b m a j, (2 <= b)%Z -> (0 <= a)%Z -> (0 <= j < b ^ Z.of_nat m)%Z ->
  exists! n, (a * b ^ Z.of_nat m <= n < (a + 1) * b ^ Z.of_nat m)%Z /\
             exists x, random_reverse n b = Some x /\ IZR j / IZR b ^ m <= x < (IZR j + 1) / IZR b ^ m.
Proof.
  intros b m a j Hb Ha Hj. destruct (val_equidistributed b Hb m a j Ha Hj) as (n & (Hn & Hv) & U).
  assert (P : (0 < b ^ Z.of_nat m)%Z) by (apply Z.pow_pos_nonneg; lia).
  exists n. split.
  - split; [assumption|]. exists (val b n). split; [apply random_reverse_val; nia|assumption].
  - intros n' (Hn' & x & E & Hx). apply U. split; [assumption|]. rewrite random_reverse_val in E by nia.
    injection E as <-. assumption.
Qed.
Print Assumptions C19_equidistributed.

(** The bound on the base is needed: in base one the loop never ends. *)
Theorem C19_base_one_diverges : forall fuel n, (1 <= n)%Z -> rr_loop fuel n 1 1 0 = None.
Proof. intros fuel n Hn. now apply rr_base_one. Qed.
Print Assumptions C19_base_one_diverges.

Example C19_hypotheses_met : (2 <= 13)%Z /\ (0 <= 100 < 13 ^ Z.of_nat 2)%Z /\
  random_reverse 100 13 = Some ((9 * 13 + 7) / 169).
Proof.
  split; [lia|]. split; [cbn; lia|]. rewrite random_reverse_val by lia. f_equal.
  rewrite (val_mirrored 13 ltac:(lia) 2) by (cbn; lia). cbn -[Z.div Z.modulo]. unfold digit.
  change ((100 / 13 ^ Z.of_nat 0) mod 13)%Z with 9%Z. change ((100 / 13 ^ Z.of_nat 1) mod 13)%Z with 7%Z. field.
Qed.

(** C20. Every loaded particle is at least half a cell from every wall and from the axis, for
    every pair of densities and every outcome of the random source. The left plasma boundary is
    0 at the only call, src/loadInitParam.cpp line 163. *)
Theorem C20_loaded_inside : forall g n1 n2 charge mass rands, geom_ok g -> 0 <= n1 -> 0 <= n2 ->
  Forall (fun x => 0 <= fst x < 1 /\ 0 <= snd x < 1) rands ->
  Forall (fun p => inside_domain g (m_r p) (m_z p)) (load_cylindrical g n1 n2 0 charge mass rands) /\
  length (load_cylindrical g n1 n2 0 charge mass rands) = length rands.
Proof.
  intros g n1 n2 charge mass rands Hg H1 H2 F. split; [|unfold load_cylindrical; apply map_length].
  rewrite Forall_forall in *. intros p Hp.
  unfold load_cylindrical in Hp. apply in_map_iff in Hp. destruct Hp as (x & <- & Hx). cbn [m_r m_z].
  destruct (F x Hx) as [A B]. split; [now apply load_r_range|]. apply load_z_range; auto.
  rewrite (z_size_dz g Hg). assert (D := dz_pos g Hg). destruct Hg as (_ & N & _).
  assert (X : IZR 1 <= IZR (n_z g - 1)) by (apply IZR_le; lia). nra.
Qed.
Print Assumptions C20_loaded_inside.

(** With a density gradient this also holds for any left boundary at least a cell from the end
    wall ... *)
Theorem C20_left_boundary : forall g n1 n2 left charge mass rands, geom_ok g -> 0 <= n1 -> 0 <= n2 -> n1 <> n2 ->
  0 <= left <= z_size g - dz g ->
  Forall (fun x => 0 <= fst x < 1 /\ 0 <= snd x < 1) rands ->
  Forall (fun p => inside_domain g (m_r p) (m_z p)) (load_cylindrical g n1 n2 left charge mass rands).
Proof.
  intros g n1 n2 left charge mass rands Hg H1 H2 N L F. rewrite Forall_forall in *. intros p Hp.
  unfold load_cylindrical in Hp. apply in_map_iff in Hp. destruct Hp as (x & <- & Hx). cbn [m_r m_z].
  destruct (F x Hx) as [A B]. split; [now apply load_r_range|]. apply load_z_range; auto. intro. contradiction.
Qed.
Print Assumptions C20_left_boundary.

(** ... but without a gradient it does not: the formula for equal densities forgets to subtract
    the left boundary. *)
Theorem C20_left_boundary_equal_densities_refuted : exists g n left x, geom_ok g /\ 0 < n /\
  0 <= left <= z_size g - dz g /\ 0 <= x < 1 /\ z_size g < load_z g n n left x.
Proof.
  exists sample_geom, 1, 4, (9 / 10). split; [apply sample_geom_ok|]. rewrite sample_dz. cbn [z_size sample_geom].
  repeat split; try lra. unfold load_z. rewrite sample_dz. cbn [z_size sample_geom].
  destruct (Req_EM_T (1 - 1) 0); lra.
Qed.
Print Assumptions C20_left_boundary_equal_densities_refuted.

Example C20_hypotheses_met : geom_ok sample_geom /\ 0 <= 1 /\ 0 <= 3 /\ 1 <> 3 /\
  0 <= 2 <= z_size sample_geom - dz sample_geom /\
  Forall (fun x : R * R => 0 <= fst x < 1 /\ 0 <= snd x < 1) [(0, 9 / 10); (1 / 2, 1 / 3); (99 / 100, 0)].
Proof.
  split; [apply sample_geom_ok|]. rewrite sample_dz. cbn [z_size sample_geom]. split; [lra|]. split; [lra|].
  split; [lra|]. split; [lra|]. repeat apply Forall_cons; try apply Forall_nil; cbn; lra.
Qed.

(** C21. The charges add up to particle charge times mean density times volume of the
    cylinder, and each macroparticle has the species' ratio of charge to mass. *)
Theorem C21_total_charge : forall g n1 n2 left charge mass rands, geom_ok g -> rands <> [] ->
  Forall (fun x => 0 <= fst x < 1) rands ->
  rsum (map m_charge (load_cylindrical g n1 n2 left charge mass rands)) =
  charge * ((n1 + n2) / 2 * (c_PI * r_size g * r_size g * z_size g)).
Proof. exact load_charge_total. Qed.
Print Assumptions C21_total_charge.

Theorem C21_charge_to_mass : forall g n1 n2 left charge mass rands p,
  In p (load_cylindrical g n1 n2 left charge mass rands) -> m_charge p * mass = m_mass p * charge.
Proof. exact load_ratio. Qed.
Print Assumptions C21_charge_to_mass.

(** Every macroparticle carries charge of the species' sign, proportional to its radius. *)
Theorem C21_charge_by_radius : forall g n1 n2 left charge mass rands p q, geom_ok g -> 0 < n1 -> 0 < n2 -> 0 < charge ->
  Forall (fun x => 0 <= fst x < 1) rands ->
  In p (load_cylindrical g n1 n2 left charge mass rands) -> In q (load_cylindrical g n1 n2 left charge mass rands) ->
  0 < m_charge p /\ m_charge p * m_r q = m_charge q * m_r p.
Proof.
  intros g n1 n2 left charge mass rands p q Hg H1 H2 Hc F Hp Hq. rewrite Forall_forall in F.
  assert (NE : rands <> []) by (intro E; rewrite E in Hp; destruct Hp).
  unfold load_cylindrical in Hp, Hq. cbv zeta in Hp, Hq.
  set (N := INR (length rands)) in *. set (V := rsum (map (fun x => 2 * c_PI * load_r g (fst x) * dr g * dz g) rands)) in *.
  assert (D := dr_pos g Hg). assert (Dz := dz_pos g Hg). assert (P := c_PI_pos). destruct (Hg) as (_ & _ & R0 & Z0).
  assert (N0 : 0 < N). { apply lt_0_INR. destruct rands; [congruence|cbn; lia]. }
  assert (RP : forall x, In x rands -> dr g / 2 <= load_r g (fst x)).
  { intros x Hx. apply load_r_range; auto. }
  assert (V0 : 0 < V).
  { apply rsum_map_pos; [assumption|]. intros x Hx. specialize (RP x Hx). pos_mul; lra. }
  apply in_map_iff in Hp. apply in_map_iff in Hq. destruct Hp as (x & <- & Hx). destruct Hq as (y & <- & Hy). cbn [m_charge m_r].
  assert (X := RP x Hx). assert (Y := RP y Hy). rewrite !norm_volume_eq by auto. split; [|field; lra].
  assert (0 < V / N) by (apply Rdiv_pos; assumption).
  apply Rmult_lt_0_compat; [lra|]. apply Rmult_lt_0_compat; [apply Rdiv_pos; [pos_mul; lra|lra]|apply Rdiv_pos; [pos_mul; lra|lra]].
Qed.
Print Assumptions C21_charge_by_radius.

Example C21_hypotheses_met : geom_ok sample_geom /\ [(0, 0); (1 / 2, 1 / 3)] <> ([] : list (R * R)) /\
  Forall (fun x : R * R => 0 <= fst x < 1) [(0, 0); (1 / 2, 1 / 3)].
Proof. split; [apply sample_geom_ok|]. split; [discriminate|]. repeat apply Forall_cons; try apply Forall_nil; cbn; lra. Qed.

(** C22. Partial: the claim is that the magnitude is below the speed of light for every energy.
    That is false (C22_refuted), since each component is limited separately. What holds: the
    magnitude is below sqrt(3) c for all energies, and below c when the energy is at most
    0.3 m c^2. *)
Theorem C22_below_sqrt3_partial : forall mass energy rnd,
  norm2 (thermal_velocity mass energy rnd) < 3 * (LIGHT_SPEED * LIGHT_SPEED).
Proof. exact thermal_sqrt3. Qed.
Print Assumptions C22_below_sqrt3_partial.

Theorem C22_moderate_energy_partial : forall mass energy rnd, 0 < mass -> 0 <= energy ->
  EL_CHARGE * energy <= 3 / 10 * mass * (LIGHT_SPEED * LIGHT_SPEED) ->
  -1 <= v0 rnd <= 1 -> -1 <= v1 rnd <= 1 -> -1 <= v2 rnd <= 1 ->
  subluminal (thermal_velocity mass energy rnd).
Proof. exact thermal_moderate. Qed.
Print Assumptions C22_moderate_energy_partial.

(** A relativistic electron energy (about 2.3 MeV) and random numbers 0.9: faster than light by
    a factor above 1.5. *)
Theorem C22_refuted : exists energy, 0 < energy /\
  let v := thermal_velocity EL_MASS energy (V3 (9 / 10) (9 / 10) (9 / 10)) in
  norm2 v = 12 / 5 * (LIGHT_SPEED * LIGHT_SPEED) /\ ~ subluminal v.
Proof.
  set (c2 := LIGHT_SPEED * LIGHT_SPEED). assert (C := LIGHT_SPEED_pos). assert (C2 : 0 < c2) by (unfold c2; nra).
  assert (E := EL_CHARGE_pos). assert (M := EL_MASS_pos).
  set (k := 9 / 10 * (74 / 100)).
  exists (4 * c2 / (k * k) * EL_MASS / (2 * EL_CHARGE)). set (energy := 4 * c2 / (k * k) * EL_MASS / (2 * EL_CHARGE)).
  assert (EN : 0 < energy). { unfold energy, k. apply Rdiv_pos; [|lra]. apply Rmult_lt_0_compat; [|lra]. apply Rdiv_pos; lra. }
  split; [exact EN|]. cbv zeta.
  assert (D := drawn_sq EL_MASS energy M ltac:(lra)).
  assert (DD : 9 / 10 * drawn EL_MASS energy * (9 / 10 * drawn EL_MASS energy) = 4 * c2).
  { replace (9 / 10 * drawn EL_MASS energy * (9 / 10 * drawn EL_MASS energy)) with (81 / 100 * (drawn EL_MASS energy * drawn EL_MASS energy)) by field.
    rewrite D. unfold energy, k. field. lra. }
  assert (N : norm2 (thermal_velocity EL_MASS energy (V3 (9 / 10) (9 / 10) (9 / 10))) = 12 / 5 * c2).
  { rewrite thermal_norm2. cbv zeta. cbn [v0 v1 v2]. rewrite DD. fold c2. field. lra. }
  split; [exact N|]. unfold subluminal. rewrite N. fold c2. lra.
Qed.
Print Assumptions C22_refuted.

Example C22_hypotheses_met : 0 < EL_MASS /\ 0 <= 1000 /\
  EL_CHARGE * 1000 <= 3 / 10 * EL_MASS * (LIGHT_SPEED * LIGHT_SPEED) /\
  -1 <= v0 (V3 (1 / 2) (- 1 / 2) (9 / 10)) <= 1.
Proof. split; [apply EL_MASS_pos|]. unfold EL_CHARGE, EL_MASS, LIGHT_SPEED. cbn. lra. Qed.

(** C23. In any run, from any time on, for any number of steps, no particle of the bunch is
    injected twice and no index outside the bunch is touched; the indices are consecutive. *)
Theorem C23_distinct_in_range : forall g b dt t rnds, 0 < dt -> 0 < b_duration b -> (0 <= b_number b)%Z ->
  exists l, inject_run g b dt t rnds = Ok l /\ NoDup (map in_index l) /\
  Forall (fun x => (0 <= in_index x < b_number b)%Z) l /\
  exists lo, map in_index l = count_up lo (length l).
Proof.
  intros g b dt t rnds Hdt Hd Hn. destruct (run_any g b dt Hdt Hd Hn rnds t) as (l & s & e & E & Hs & He & M).
  exists l. split; [exact E|]. rewrite M. split; [apply zrange_nodup|]. split.
  - apply Forall_forall. intros x Hx. assert (I : In (in_index x) (zrange s e)) by (rewrite <- M; now apply in_map).
    apply zrange_in in I. lia.
  - exists s. rewrite <- (map_length in_index l), M. clear.
    remember (Z.to_nat (e - s)) as n eqn:E. revert s E. induction n as [|n IH]; intros s E.
    + now rewrite zrange_empty by lia.
    + rewrite zrange_cons by lia. cbn. f_equal. now apply IH; lia.
Qed.
Print Assumptions C23_distinct_in_range.

(** Outside the time window nothing is injected; inside, an injected particle gets the bunch
    velocity and a position within one step's travel of the first half cell. *)
Theorem C23_window : forall g b dt t rnd, 0 < dt -> 0 < b_duration b -> (0 <= b_number b)%Z -> 0 <= b_velocity b ->
  (forall i, 0 <= rnd i < 1) ->
  exists l, bunch_inject g b dt t rnd = Ok l /\
  (~ in_window (b_duration b) (b_hole b) (b_bunch_number b) t -> l = []) /\
  Forall (fun x => in_vz x = b_velocity b /\ dz g / 2 <= in_z x <= dz g / 2 + b_velocity b * dt) l.
Proof.
  intros g b dt t rnd Hdt Hd Hn Hv Hr. destruct (inject_ok g b dt Hdt Hd Hn t rnd) as (l & E & _ & L & F).
  exists l. split; [exact E|]. split.
  - intro W. apply L. unfold in_window, window_begin in W. unfold te, tb.
    destruct (Rlt_dec t ((b_duration b + b_hole b) * b_bunch_number b)) as [A|A]; [now left|right].
    destruct (Rle_dec ((b_duration b + b_hole b) * b_bunch_number b + b_duration b) t) as [B|B]; [exact B|].
    exfalso. apply W. lra.
  - apply Forall_forall. intros x Hx. destruct (F x Hx) as (_ & V & i & Z). split; [exact V|].
    rewrite Z. specialize (Hr i). assert (0 <= b_velocity b * dt) by nra. nra.
Qed.
Print Assumptions C23_window.

(** Starting at the beginning of the window (as the first bunch does in a run that starts at
    time zero), after n of the ceil(duration / dt) active steps exactly the first n shares are
    alive, a share being number / ceil(duration / dt) rounded down. *)
Theorem C23_count : forall g b dt rnds, 0 < dt -> 0 < b_duration b -> (0 <= b_number b)%Z ->
  let steps := ceilZ (b_duration b / dt) in
  (Z.of_nat (length rnds) <= steps)%Z ->
  exists l, inject_run g b dt (window_begin (b_duration b) (b_hole b) (b_bunch_number b)) rnds = Ok l /\
  map in_index l = count_up 0 (length l) /\
  Z.of_nat (length l) = (Z.of_nat (length rnds) * (b_number b / steps))%Z.
Proof.
  intros g b dt rnds Hdt Hd Hn st Hl.
  replace (window_begin (b_duration b) (b_hole b) (b_bunch_number b)) with (tb b) by (unfold tb, window_begin; ring).
  destruct (run_active g b dt Hdt Hd Hn rnds (tb b)) as (l & E & M); [lra| |].
  { intro NE. apply (window_steps b dt Hdt); [destruct rnds; [congruence|cbn; lia]|exact Hl]. }
  exists l. split; [exact E|]. rewrite (start_tb b dt Hdt) in M.
  assert (S := share_steps b dt Hdt Hd). assert (SH := share_nonneg b dt Hdt Hd Hn).
  change st with (steps b dt) in *. change (b_number b / steps b dt)%Z with (share b dt) in *.
  rewrite Z.min_r in M by nia. rewrite Z.add_0_l in M.
  split.
  - assert (LL : length l = Z.to_nat (Z.of_nat (length rnds) * share b dt)).
    { rewrite <- (map_length in_index l), M. unfold zrange. rewrite map_length, seq_length. f_equal. lia. }
    rewrite LL, M. unfold zrange. rewrite Z.sub_0_r. generalize (Z.to_nat (Z.of_nat (length rnds) * share b dt)) as n. clear.
    assert (G : forall n k, map (fun n0 => (0 + Z.of_nat n0)%Z) (seq k n) = count_up (Z.of_nat k) n).
    { induction n as [|n IH]; intro k; [reflexivity|]. cbn [seq map count_up]. f_equal. rewrite IH. f_equal. lia. }
    intro n. apply (G n O).
  - rewrite <- (map_length in_index l), M, zrange_length by nia. lia.
Qed.
Print Assumptions C23_count.

(** Hence all particles of the bunch are injected exactly if the number of active steps
    divides the number of particles ... *)
Theorem C23_all_injected_iff : forall g b dt rnds, 0 < dt -> 0 < b_duration b -> (0 <= b_number b)%Z ->
  let steps := ceilZ (b_duration b / dt) in
  Z.of_nat (length rnds) = steps ->
  exists l, inject_run g b dt (window_begin (b_duration b) (b_hole b) (b_bunch_number b)) rnds = Ok l /\
  (Z.of_nat (length l) = b_number b <-> (steps | b_number b)%Z).
Proof.
  intros g b dt rnds Hdt Hd Hn st Hl.
  destruct (C23_count g b dt rnds Hdt Hd Hn) as (l & E & _ & C); [fold st; lia|].
  exists l. split; [exact E|]. fold st in C. rewrite C, Hl.
  assert (S := steps_pos b dt Hdt Hd). change (steps b dt) with st in S.
  split; intro H.
  - exists (b_number b / st)%Z. lia.
  - destruct H as (q & H). rewrite H, Z.div_mul by lia. ring.
Qed.
Print Assumptions C23_all_injected_iff.

(** ... and the claim that all particles are injected is false: ten particles in three steps
    leave the last one out for ever, and with fewer particles than steps nothing is ever
    injected. *)
Definition ten_in_three : bunch := BunchOf 10 3 0 1 1.

Theorem C23_all_injected_refuted : exists g b dt, 0 < dt /\ 0 < b_duration b /\ (0 < b_number b)%Z /\
  forall n rnds, length rnds = n ->
  exists l, inject_run g b dt (window_begin (b_duration b) (b_hole b) (b_bunch_number b)) rnds = Ok l /\
  ~ In 9%Z (map in_index l) /\ (9 < b_number b)%Z.
Proof.
  set (b := ten_in_three). exists sample_geom, b, 1. split; [lra|]. split; [cbn; lra|]. split; [cbn; lia|].
  intros n rnds _. replace (window_begin (b_duration b) (b_hole b) (b_bunch_number b)) with (tb b) by (unfold tb, window_begin; ring).
  assert (Hd : 0 < b_duration b) by (cbn; lra). assert (Hn : (0 <= b_number b)%Z) by (cbn; lia).
  assert (ST : steps b 1 = 3%Z). { unfold steps. cbn [b_duration b ten_in_three]. replace (3 / 1) with (IZR 3) by lra. apply ceilZ_IZR. }
  destruct (Nat.le_gt_cases (length rnds) 3) as [L|L].
  - destruct (run_active sample_geom b 1 Rlt_0_1 Hd Hn rnds (tb b)) as (l & E & M); [lra| |].
    { intro NE. apply (window_steps b 1 Rlt_0_1); [destruct rnds; [congruence|cbn; lia]|rewrite ST; lia]. }
    exists l. split; [exact E|]. split; [|cbn; lia]. rewrite M, (start_tb b 1 Rlt_0_1). intro I. apply zrange_in in I.
    unfold share in I. rewrite ST in I. cbn [b_number b ten_in_three] in I. change (10 / 3)%Z with 3%Z in I. lia.
  - assert (AP : forall r1 r2 t, exists l1 l2, inject_run sample_geom b 1 t r1 = Ok l1 /\
               inject_run sample_geom b 1 (t + INR (length r1)) r2 = Ok l2 /\ inject_run sample_geom b 1 t (r1 ++ r2) = Ok (l1 ++ l2)).
    { induction r1 as [|x r1 IH]; intros r2 t.
      - destruct (run_any sample_geom b 1 Rlt_0_1 Hd Hn r2 t) as (l & _ & _ & E & _). exists [], l.
        cbn [length INR]. rewrite Rplus_0_r. split; [reflexivity|]. split; [exact E|exact E].
      - destruct (IH r2 (t + 1)) as (l1 & l2 & E1 & E2 & E3). destruct (inject_ok sample_geom b 1 Rlt_0_1 Hd Hn t x) as (l0 & E0 & _).
        exists (l0 ++ l1), l2. cbn [inject_run app]. rewrite E0. cbn [bind]. rewrite E1, E3. cbn [bind].
        split; [reflexivity|]. split; [|now rewrite app_assoc].
        cbn [length]. rewrite S_INR. rewrite <- E2. f_equal. ring. }
    rewrite <- (firstn_skipn 3 rnds). assert (L3 : length (firstn 3 rnds) = 3%nat) by (rewrite firstn_length; lia).
    destruct (AP (firstn 3 rnds) (skipn 3 rnds) (tb b)) as (l1 & l2 & E1 & E2 & E3).
    exists (l1 ++ l2). split; [exact E3|]. split; [|cbn; lia].
    destruct (run_active sample_geom b 1 Rlt_0_1 Hd Hn (firstn 3 rnds) (tb b)) as (l & E & M); [lra| |].
    { intro NE. apply (window_steps b 1 Rlt_0_1); [rewrite L3; lia|rewrite L3, ST; lia]. }
    rewrite E in E1. injection E1 as ->. rewrite L3 in E2.
    rewrite (run_late sample_geom b 1 Rlt_0_1 Hd Hn) in E2.
    2:{ unfold te. cbn. lra. }
    injection E2 as <-. rewrite app_nil_r, M, (start_tb b 1 Rlt_0_1), L3. intro I. apply zrange_in in I.
    unfold share in I. rewrite ST in I. cbn [b_number b ten_in_three] in I. change (10 / 3)%Z with 3%Z in I. lia.
Qed.
Print Assumptions C23_all_injected_refuted.

Theorem C23_fewer_particles_than_steps : forall g b dt t rnds, 0 < dt -> 0 < b_duration b ->
  (0 <= b_number b < ceilZ (b_duration b / dt))%Z -> inject_run g b dt t rnds = Ok [].
Proof.
  intros g b dt t rnds Hdt Hd Hn. revert t. induction rnds as [|x rnds IH]; intro t; [reflexivity|].
  cbn [inject_run]. destruct (inject_ok g b dt Hdt Hd ltac:(lia) t x) as (l & E & A & B & _). rewrite E. cbn [bind].
  rewrite IH. cbn [bind]. rewrite app_nil_r. f_equal.
  destruct (Rle_dec (tb b) t) as [H1|H1]; [|apply B; lra]. destruct (Rlt_dec t (te b)) as [H2|H2]; [|apply B; lra].
  specialize (A (conj H1 H2)). assert (S0 : share b dt = 0%Z) by (apply Z.div_small; exact Hn). rewrite S0, zrange_empty in A by lia.
  now apply map_eq_nil in A.
Qed.
Print Assumptions C23_fewer_particles_than_steps.

(** A bunch that begins between two steps skips its first particles: their share of the first
    step's fraction. They are never injected. *)
Theorem C23_late_start_skips : forall g b dt t rnds, 0 < dt -> 0 < b_duration b -> (0 <= b_number b)%Z ->
  window_begin (b_duration b) (b_hole b) (b_bunch_number b) <= t ->
  exists l, inject_run g b dt t rnds = Ok l /\
  Forall (fun x => (floorZ ((t - window_begin (b_duration b) (b_hole b) (b_bunch_number b)) / dt *
            IZR (b_number b / ceilZ (b_duration b / dt))) <= in_index x)%Z) l.
Proof.
  intros g b dt t rnds Hdt Hd Hn.
  replace (window_begin (b_duration b) (b_hole b) (b_bunch_number b)) with (tb b) by (unfold tb, window_begin; ring). intro Ht.
  destruct (run_after g b dt Hdt Hd Hn rnds t Ht) as (l & m & E & _ & M). exists l. split; [exact E|].
  apply Forall_forall. intros x Hx. assert (I : In (in_index x) (map in_index l)) by now apply in_map.
  rewrite M in I. apply zrange_in in I. exact (proj1 I).
Qed.
Print Assumptions C23_late_start_skips.

(** A bunch of length zero divides by zero. *)
Theorem C23_zero_duration_undefined : forall g b dt t rnd, b_duration b = 0 -> bunch_inject g b dt t rnd = UB.
Proof.
  intros g b dt t rnd H. unfold bunch_inject. rewrite H. replace (0 / dt) with (IZR 0) by (unfold Rdiv; ring).
  rewrite ceilZ_IZR. reflexivity.
Qed.
Print Assumptions C23_zero_duration_undefined.

Example C23_hypotheses_met : exists b dt rnds, 0 < dt /\ 0 < b_duration b /\ (0 <= b_number b)%Z /\ 0 <= b_velocity b /\
  Z.of_nat (length (rnds : list (Z -> R))) = ceilZ (b_duration b / dt) /\
  (ceilZ (b_duration b / dt) | b_number b)%Z /\ (0 < b_number b)%Z.
Proof.
  exists (BunchOf 12 3 2 1 1), 1, [fun _ => 0; fun _ => 1 / 2; fun _ => 1 / 3]. cbn.
  replace (3 / 1) with (IZR 3) by lra. rewrite ceilZ_IZR. repeat split; try lra; try lia. exists 4%Z. reflexivity.
Qed.

(** C24. Partial: the claim is that the charges add up to the requested charge. That is false
    (C24_refuted): macroparticles within one cell of the axis are counted with a smaller volume
    than they are weighted with. What holds: the total has the requested sign and is between
    the requested charge and four times it; it is right exactly when no macroparticle lies
    within one cell of the axis. *)
Theorem C24_total_charge_partial : forall g charge mass duration radius density velocity rands,
  geom_ok g -> dr g <= radius -> rands <> [] -> Forall (fun x => 0 <= x < 1) rands ->
  0 < charge -> 0 < duration -> 0 < density -> 0 < velocity ->
  let requested := charge * (density * (c_PI * radius ^ 2 * (duration * velocity))) in
  let l := bunch_load g charge mass duration radius density velocity rands in
  requested <= rsum (map m_charge l) <= 4 * requested /\
  (rsum (map m_charge l) = requested <-> Forall (fun p => dr g < m_r p) l).
Proof.
  intros g charge mass duration radius density velocity rands Hg Hr NE F Hc Hd Hn Hv requested l.
  unfold l. rewrite bunch_charge_total by assumption. fold requested. fold l.
  assert (D := dr_pos g Hg). assert (P := c_PI_pos).
  assert (RQ : 0 < requested) by (assert (0 < radius ^ 2) by (apply pow_lt; lra); unfold requested; pos_mul; lra).
  set (U := rsum (map (fun x => bunch_volume g (bunch_r g radius x)) rands)). set (W := rsum (map (bunch_w g radius) rands)).
  assert (F' := F). rewrite Forall_forall in F'.
  assert (B := fun x (H : In x rands) => bunch_volume_bounds g radius x Hg Hr (F' x H)).
  assert (U0 : 0 < U) by (apply rsum_map_pos; [assumption|]; intros x Hx; apply (B x Hx)).
  assert (UW : U <= W) by (apply rsum_map_le; intros x Hx; apply (B x Hx)).
  assert (WU : W <= 4 * U).
  { unfold W, U. rewrite <- rsum_map_scal. apply rsum_map_le. intros x Hx. apply (B x Hx). }
  assert (Q : 1 <= W / U <= 4).
  { split.
    - apply Rmult_le_reg_r with U; [exact U0|]. unfold Rdiv. rewrite Rmult_assoc, Rinv_l by lra. lra.
    - apply Rmult_le_reg_r with U; [exact U0|]. unfold Rdiv. rewrite Rmult_assoc, Rinv_l by lra. lra. }
  split; [nra|]. split.
  - intro E. assert (WE : W = U).
    { assert (Q1 : W / U = 1) by nra. apply Rmult_eq_reg_r with (/ U); [|apply Rinv_neq_0_compat; lra].
      rewrite Rinv_r by lra. exact Q1. }
    apply Forall_forall. intros p Hp. unfold l, bunch_load in Hp. apply in_map_iff in Hp. destruct Hp as (x & <- & Hx). cbn [m_r].
    destruct (Rlt_dec (dr g) (bunch_r g radius x)) as [L|L]; [exact L|]. exfalso.
    assert (LT : U < W).
    { apply rsum_map_lt with x; [intros y Hy; apply (B y Hy)|exact Hx|].
      destruct (B x Hx) as (B0 & _ & _ & B2). specialize (B2 ltac:(lra)). lra. }
    lra.
  - intro A. assert (WE : W = U).
    { unfold W, U. apply rsum_map_ext. intros x Hx. symmetry. apply (B x Hx).
      assert (I : exists p, In p l /\ m_r p = bunch_r g radius x).
      { eexists. split; [unfold l, bunch_load; apply in_map_iff; exists x; split; [reflexivity|exact Hx]|reflexivity]. }
      destruct I as (p & Hp & <-). rewrite Forall_forall in A. now apply A. }
    rewrite WE. unfold Rdiv. rewrite Rinv_r by lra. ring.
Qed.
Print Assumptions C24_total_charge_partial.

Theorem C24_charge_to_mass : forall g charge mass duration radius density velocity rands p,
  In p (bunch_load g charge mass duration radius density velocity rands) -> m_charge p * mass = m_mass p * charge.
Proof.
  intros g charge mass duration radius density velocity rands p H. unfold bunch_load in H. apply in_map_iff in H.
  destruct H as (x & <- & _). cbn. ring.
Qed.
Print Assumptions C24_charge_to_mass.

(** All macroparticles of the bunch lie between half a cell from the axis and half a cell
    inside the bunch radius. *)
Theorem C24_inside_radius : forall g charge mass duration radius density velocity rands p,
  geom_ok g -> dr g <= radius -> Forall (fun x => 0 <= x < 1) rands ->
  In p (bunch_load g charge mass duration radius density velocity rands) ->
  dr g / 2 <= m_r p <= radius - dr g / 2.
Proof.
  intros g charge mass duration radius density velocity rands p Hg Hr F H. unfold bunch_load in H. apply in_map_iff in H.
  destruct H as (x & <- & Hx). cbn [m_r]. rewrite Forall_forall in F. now apply bunch_r_range; [| |apply F].
Qed.
Print Assumptions C24_inside_radius.

(** One macroparticle drawn at the axis carries four times the requested charge. *)
Theorem C24_refuted : exists g charge mass duration radius density velocity rands,
  geom_ok g /\ dr g <= radius /\ rands <> [] /\ Forall (fun x => 0 <= x < 1) rands /\
  0 < charge /\ 0 < duration /\ 0 < density /\ 0 < velocity /\
  rsum (map m_charge (bunch_load g charge mass duration radius density velocity rands)) =
  4 * (charge * (density * (c_PI * radius ^ 2 * (duration * velocity)))).
Proof.
  exists sample_geom, 1, 1, 1, 2, 1, 1, [0]. assert (Hg := sample_geom_ok). split; [exact Hg|].
  assert (R2 : dr sample_geom <= 2) by (rewrite sample_dr; lra).
  assert (F : Forall (fun x => 0 <= x < 1) [0]) by (apply Forall_cons; [lra|apply Forall_nil]).
  split; [exact R2|]. split; [discriminate|]. split; [exact F|].
  split; [lra|]. split; [lra|]. split; [lra|]. split; [lra|].
  rewrite bunch_charge_total by (assumption || discriminate). cbn [map rsum]. unfold bunch_w, bunch_volume, bunch_r.
  rewrite sample_dr, sample_dz. destruct (Rlt_dec 1 ((2 - 1) * 0 + 1 / 2)) as [X|X]; [lra|].
  assert (P := c_PI_pos). field. lra.
Qed.
Print Assumptions C24_refuted.

Example C24_hypotheses_met : geom_ok sample_geom /\ dr sample_geom <= 3 /\ [1 / 2; 3 / 4] <> ([] : list R) /\
  Forall (fun x => 0 <= x < 1) [1 / 2; 3 / 4] /\
  Forall (fun p => dr sample_geom < m_r p) (bunch_load sample_geom 1 1 1 3 1 1 [1 / 2; 3 / 4]).
Proof.
  split; [apply sample_geom_ok|]. rewrite sample_dr. split; [lra|]. split; [discriminate|].
  split; repeat apply Forall_cons; try apply Forall_nil; unfold bunch_r; cbn [m_r]; rewrite ?sample_dr; lra.
Qed.

(** C25. In every defined run the bunches are 0, 1, 2, ... in order, at most as many as
    configured; a step adds at most one, and bunch k only when the time has reached
    k (duration + gap). *)
Theorem C25_order_and_number : forall c dt t n s, beam_run c dt t n beam_start = Ok s ->
  c_bunches s = count_up 0 (length (c_bunches s)) /\
  (Z.of_nat (length (c_bunches s)) <= Z.max 0 (number_bunches c))%Z.
Proof.
  intros c dt t n s H. destruct (beam_run_wf c n dt t beam_start s (beam_start_wf c) H) as [W1 W2]. split.
  - rewrite W2 at 1. replace (current_bunch_number s) with (Z.of_nat (length (c_bunches s))).
    + generalize (length (c_bunches s)) as m. clear. intro m. unfold zrange. rewrite Z.sub_0_r, Nat2Z.id.
      assert (G : forall n k, map (fun n0 => (0 + Z.of_nat n0)%Z) (seq k n) = count_up (Z.of_nat k) n).
      { induction n as [|n IH]; intro k; [reflexivity|]. cbn [seq map count_up]. f_equal. rewrite IH. f_equal. lia. }
      apply (G m O).
    + rewrite W2, zrange_length by lia. lia.
  - rewrite W2, zrange_length by lia. lia.
Qed.
Print Assumptions C25_order_and_number.

Theorem C25_never_early : forall c dt t n s s', beam_run c dt t n beam_start = Ok s ->
  init_beam c (t + INR n * dt) s = Ok s' ->
  c_bunches s' = c_bunches s \/
  exists k, c_bunches s' = c_bunches s ++ [k] /\
    window_begin (duration_of c) (hole_of c) (IZR k) <= t + INR n * dt.
Proof.
  intros c dt t n s s' H H'. apply init_beam_cases in H'. destruct H' as [->|(L & _ & ->)]; [now left|].
  right. exists (current_bunch_number s). split; [reflexivity|]. exact L.
Qed.
Print Assumptions C25_never_early.

(** With a time step no longer than one period the number of bunches follows the clock
    exactly: bunch k is created at the first step whose time has reached k periods. *)
Theorem C25_on_time : forall c dt n s, 0 < dt <= duration_of c + hole_of c -> (0 <= number_bunches c)%Z ->
  beam_run c dt 0 (S n) beam_start = Ok s ->
  Z.of_nat (length (c_bunches s)) =
  Z.min (number_bunches c) (floorZ (INR n * dt / (duration_of c + hole_of c)) + 1).
Proof.
  intros c dt n s Hdt HN H. destruct (beam_run_wf c _ dt 0 beam_start s (beam_start_wf c) H) as [W1 W2].
  rewrite W2, zrange_length by lia. rewrite Z.sub_0_r. now apply (beam_run_count c n dt).
Qed.
Print Assumptions C25_on_time.

(** The creation succeeds while no bunch can have left the far end of the domain ... *)
Theorem C25_defined_before_exit : forall c dt n, 0 < dt -> 0 < duration_of c + hole_of c -> 0 < initial_velocity c ->
  INR n * dt <= beam_z_size c / initial_velocity c + duration_of c ->
  exists s, beam_run c dt 0 (S n) beam_start = Ok s.
Proof.
  intros c dt n Hdt Hp Hv. induction n as [|n IH]; intro H.
  - cbn. eexists. reflexivity.
  - destruct IH as (s & E). { rewrite S_INR in H. lra. }
    rewrite beam_run_snoc, E. cbn [bind]. unfold init_beam.
    destruct (beam_run_wf c _ dt 0 beam_start s (beam_start_wf c) E) as [W1 W2].
    replace (erase_reached c (0 + INR (S n) * dt) s) with false; [eexists; reflexivity|].
    symmetry. unfold erase_reached. apply Bool.andb_false_iff. right.
    apply Bool.not_true_is_false. intro X. apply existsb_exists in X. destruct X as (k & Hk & X).
    rewrite W2 in Hk. apply zrange_in in Hk. destruct (Rlt_dec (IZR k) _) as [L|L]; [|discriminate].
    assert (K0 : 0 <= IZR k) by (apply IZR_le; lia).
    assert (NP : 0 + INR (S n) * dt - beam_z_size c / initial_velocity c - duration_of c <= 0) by lra.
    set (x := 0 + INR (S n) * dt - beam_z_size c / initial_velocity c - duration_of c) in *.
    assert (x / (duration_of c + hole_of c) <= 0).
    { unfold Rdiv. assert (I := Rinv_0_lt_compat _ Hp). nra. }
    lra.
Qed.
Print Assumptions C25_defined_before_exit.

(** ... but every configuration with two or more bunches reaches undefined behaviour when it
    runs long enough: the erasing of finished bunches reads an uninitialised counter
    (src/loadInitParam.cpp line 199). *)
Theorem C25_erase_refuted : forall c dt, 0 < dt <= duration_of c + hole_of c -> (2 <= number_bunches c)%Z ->
  exists n, beam_run c dt 0 n beam_start = UB.
Proof.
  intros c dt Hdt HN. set (period := duration_of c + hole_of c) in *.
  set (T := Rmax period (beam_z_size c / initial_velocity c + duration_of c)).
  assert (T1 : period <= T) by apply Rmax_l. assert (T2 : beam_z_size c / initial_velocity c + duration_of c <= T) by apply Rmax_r.
  set (n := Z.to_nat (ceilZ (T / dt) + 1)).
  assert (T0 : 0 < T / dt) by (apply Rdiv_pos; lra).
  assert (CE := ceilZ_spec (T / dt)).
  assert (C0 : (0 <= ceilZ (T / dt))%Z) by (apply ceilZ_ge; lra).
  assert (N : T < INR n * dt).
  { unfold n. rewrite INR_IZR_INZ, Z2Nat.id by lia. rewrite plus_IZR. replace T with (T / dt * dt) at 1 by (field; lra). nra. }
  assert (NE : forall m, (exists s, beam_run c dt 0 m beam_start = Ok s) \/ beam_run c dt 0 m beam_start = UB).
  { induction m as [|m [(s & E)|E]].
    - left. eexists. reflexivity.
    - rewrite beam_run_snoc, E. cbn [bind]. unfold init_beam. destruct (erase_reached _ _ _); [now right|left; eexists; reflexivity].
    - right. rewrite beam_run_snoc, E. reflexivity. }
  destruct (NE (S n)) as [(s & E)|E]; [|now exists (S n)].
  exists (S (S n)). rewrite beam_run_snoc, E. cbn [bind].
  assert (W := beam_run_wf c _ dt 0 beam_start s (beam_start_wf c) E).
  apply (init_beam_undefined c); [unfold period in *; lra|exact W| |rewrite S_INR; lra].
  assert (CNT := beam_run_count c n dt s ltac:(unfold period in *; lra) ltac:(lia) E).
  rewrite CNT. apply Z.min_glb; [lia|].
  assert (1 <= floorZ (INR n * dt / (duration_of c + hole_of c)))%Z; [|lia].
  rewrite <- (floorZ_IZR 1). apply floorZ_le_mono. fold period.
  apply Rmult_le_reg_r with period; [lra|]. unfold Rdiv. rewrite Rmult_assoc, Rinv_l by lra. lra.
Qed.
Print Assumptions C25_erase_refuted.

Example C25_hypotheses_met : exists c dt s, 0 < dt <= duration_of c + hole_of c /\ (2 <= number_bunches c)%Z /\
  0 < initial_velocity c /\ INR 3 * dt <= beam_z_size c / initial_velocity c + duration_of c /\
  beam_run c dt 0 4 beam_start = Ok s /\ length (c_bunches s) = 2%nat.
Proof.
  set (c := Beam 1 1 1 5 100 10). exists c, 1.
  assert (D : duration_of c + hole_of c = 2) by (unfold duration_of, hole_of; cbn; field).
  assert (DD : duration_of c = 1) by (unfold duration_of; cbn; field).
  assert (B : INR 3 * 1 <= beam_z_size c / initial_velocity c + duration_of c) by (rewrite DD; cbn; lra).
  destruct (C25_defined_before_exit c 1 3 Rlt_0_1 ltac:(lra) ltac:(cbn; lra) B) as (s & E).
  exists s. split; [lra|]. split; [cbn; lia|]. split; [cbn; lra|]. split; [exact B|]. split; [exact E|].
  assert (L := C25_on_time c 1 3 s ltac:(lra) ltac:(cbn; lia) E). rewrite D in L.
  rewrite (floorZ_unique (INR 3 * 1 / 2) 1) in L by (cbn; lra). cbn in L. lia.
Qed.
