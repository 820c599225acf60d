(** Properties C26, C27: number and order of the steps, dump schedule. *)
From Coq Require Import Reals ZArith Lra Lia List Psatz.
From Flocq Require Import Core IEEE754.BinarySingleNaN.
From Verif.Lib Require Import RAux Outcome Grid Par.
From Verif.Model Require Import MainLoop Binary64 Geometry ChargeDeposit Bunch Dump.
From Verif.Spec Require Import Steps Sample.
From Verif.Proof Require Import MainLoopP Binary64P DumpP.
Import ListNotations.
Local Open Scope R_scope.

(** C26. In exact arithmetic the loop ends for all times and every positive step; it performs
    exactly the least number of steps that reaches the end time, each of them at its own time,
    whatever the calls do. *)
Theorem C26_number_of_steps : forall t0 end_time dt, 0 < dt ->
  exists! n, least_steps t0 end_time dt n /\
    forall (S : Type) (exec : action -> R -> S -> outcome S) fuel s, (n <= fuel)%nat ->
      run_loop exec fuel t0 end_time dt s =
      Some (exec_all exec (flat_map (fun k => at_time (t0 + INR k * dt) iteration) (seq 0 n)) s).
Proof.
  intros t0 e dt H. destruct (least_steps_exists t0 e dt H) as [n Hn]. exists n. split.
  - split; [exact Hn|]. intros S exec fuel s Hf. now apply run_loop_steps.
  - intros m [Hm _]. now apply (least_steps_unique t0 e dt).
Qed.
Print Assumptions C26_number_of_steps.

(** The loop does not end earlier: with less fuel than steps it is still running. *)
Theorem C26_not_earlier : forall t0 end_time dt n (S : Type) (exec : action -> R -> S -> outcome S) fuel s,
  least_steps t0 end_time dt n -> (forall a t s, exists s', exec a t s = Ok s') -> (fuel < n)%nat ->
  run_loop exec fuel t0 end_time dt s = None.
Proof. intros t0 e dt n S exec fuel s Hn T Hf. now apply (run_loop_fuel exec e dt n). Qed.
Print Assumptions C26_not_earlier.

(** Each step performs every phase once, in the order of the property. *)
Theorem C26_phase_order :
  flat_map (fun a => match rank a with Some r => [r] | None => [] end) iteration = seq 0 7 /\ NoDup iteration.
Proof.
  split; [reflexivity|]. unfold iteration.
  repeat (apply NoDup_cons; [cbn; intuition discriminate|]). apply NoDup_nil.
Qed.
Print Assumptions C26_phase_order.

Example C26_hypotheses_met : 0 < 1/2 /\ least_steps 0 (11/5) (1/2) 5 /\
  run_loop (fun a t (s : list (action * R)) => Ok (s ++ [(a, t)])) 9 0 (3/5) 1 [] =
  Some (Ok (map (fun a => (a, 0)) iteration)).
Proof.
  split; [lra|]. split.
  - split; [cbn; lra|]. intros k Hk. destruct (le_lt_dec 5 k) as [G|G]; [exact G|]. exfalso.
    assert (INR k <= 4). { replace 4 with (INR 4) by (cbn; lra). apply le_INR. lia. } lra.
  - cbn [run_loop]. destruct (Rlt_dec 0 (3/5)) as [H|H]; [|lra]. cbn [map iteration exec_all bind app].
    destruct (Rlt_dec (0 + 1) (3/5)) as [G|G]; [lra|reflexivity].
Qed.

(** In binary64 the clock does not accumulate exactly. A step that is too small for the current
    time never advances it: the loop does not end. *)
Definition b64_one : b64 := @B754_finite prec64 emax64 false 4503599627370496 (-52) eq_refl.
Definition b64_two : b64 := @B754_finite prec64 emax64 false 4503599627370496 (-51) eq_refl.
(** the double next to 1e-17 *)
Definition b64_1em17 : b64 := @B754_finite prec64 emax64 false 6490371073168535 (-109) eq_refl.

Theorem C26_binary64_refuted : exists t end_time dt : b64,
  is_finite t = true /\ is_finite end_time = true /\ is_finite dt = true /\ 0 < B2R dt /\ B2R t < B2R end_time /\
  forall fuel, loop64 fuel t end_time dt = None.
Proof.
  exists b64_one, b64_two, b64_1em17. repeat match goal with |- _ /\ _ => split end; try reflexivity.
  - cbn. unfold F2R. cbn. apply Rmult_lt_0_compat; [lra|]. apply Rinv_0_lt_compat. apply IZR_lt. reflexivity.
  - unfold b64_one, b64_two. cbn [B2R F2R]. unfold F2R. cbn [Fnum Fexp cond_Zopp]. apply Rmult_lt_compat_l; [apply IZR_lt; reflexivity|]. apply bpow_lt. reflexivity.
  - apply loop64_none; [reflexivity|]. apply B2R_Bsign_inj; vm_compute; reflexivity.
Qed.
Print Assumptions C26_binary64_refuted.

(** From time zero, with a step that is not subnormal and a run of fewer than 2^26 steps, the
    loop ends, at most one step early or late. *)
Theorem C26_binary64_partial : forall (dt e : b64) n fuel,
  is_finite dt = true -> bpow radix2 (-1022) <= B2R dt <= 1 -> is_finite e = true ->
  least_steps 0 (B2R e) (B2R dt) n -> (n + 1 < 2 ^ 26)%nat -> (n + 1 <= fuel)%nat ->
  exists m, loop64 fuel (B754_zero false) e dt = Some m /\ (n <= m + 1 /\ m <= n + 1)%nat.
Proof. exact loop64_near. Qed.
Print Assumptions C26_binary64_partial.

(** The extra step is real: with step 0.1 and end time 1 (as doubles) ten steps suffice and
    eleven are made. *)
Definition b64_tenth : b64 := @B754_finite prec64 emax64 false 7205759403792794 (-56) eq_refl.

Theorem C26_binary64_one_more : least_steps 0 (B2R b64_one) (B2R b64_tenth) 10 /\
  loop64 20 (B754_zero false) b64_one b64_tenth = Some 11%nat.
Proof.
  split; [|vm_compute; reflexivity].
  assert (E1 : B2R b64_one = 1) by (unfold b64_one; cbn [B2R]; unfold F2R; cbn; lra).
  assert (E2 : B2R b64_tenth = 7205759403792794 / 72057594037927936) by (unfold b64_tenth; cbn [B2R]; unfold F2R; cbn; lra).
  rewrite E1, E2. split; [cbn; lra|]. intros k Hk. destruct (le_lt_dec 10 k) as [G|G]; [exact G|]. exfalso.
  assert (INR k <= 9). { replace 9 with (INR 9) by (cbn; lra). apply le_INR. lia. } lra.
Qed.
Print Assumptions C26_binary64_one_more.

(** C27. In exact arithmetic a run from time zero dumps at step n exactly when the schedule
    divides n. *)
Theorem C27_exact_step : forall dt s n, 0 < dt -> s <> 0%Z ->
  exists b, dump_now (INR n * dt) dt s = Ok b /\ (b = true <-> (s | Z.of_nat n)%Z).
Proof. exact dump_now_exact. Qed.
Print Assumptions C27_exact_step.

(** Over a whole run of n steps, with any other probes and any fields, a probe of schedule s has
    made as many frames as there are steps 0, s, 2s, ... below n. *)
Theorem C27_exact_run : forall g fpf dt (snap : nat -> snapshot) n ps i p f c, 0 < dt -> (0 < fpf)%nat ->
  (forall k, sn_time (snap k) = INR k * dt) ->
  Forall (fun pf => schedule (fst pf) <> 0%Z) ps ->
  nth_error ps i = Some (p, f) -> pr_component p = CArray c -> step_number p = 0%Z -> (0 < schedule p)%Z ->
  exists ps' p' f', dump_run g (Z.of_nat fpf) dt (map snap (seq 0 n)) ps = Ok ps' /\ nth_error ps' i = Some (p', f') /\
    step_number p' = Z.of_nat (length (dump_steps (Z.to_nat (schedule p)) n)).
Proof.
  intros g fpf dt snap n ps i p f c Hdt Hf Ht Hs Hn Hc H0 Hp.
  destruct (dump_run_ok g (Z.of_nat fpf) dt (map snap (seq 0 n)) ps ltac:(lia) Hs) as [ps' E].
  assert (Hh : holds fpf f [] p f).
  { split; [exact H0|]. intro j. unfold chunk. rewrite skipn_nil, firstn_nil. cbn. now rewrite app_nil_r. }
  destruct (dump_run_holds g fpf dt f _ ps ps' i p f [] c Hf E Hn Hc Hh) as (p' & f' & N' & _ & S & _).
  exists ps', p', f'. split; [exact E|]. split; [exact N'|]. rewrite S. cbn [app].
  rewrite dumped_steps by assumption. now rewrite map_length.
Qed.
Print Assumptions C27_exact_run.

(** A schedule of zero in the configuration is a division by zero. *)
Theorem C27_schedule_zero : forall t dt, dump_now t dt 0 = UB.
Proof. reflexivity. Qed.
Print Assumptions C27_schedule_zero.

Example C27_hypotheses_met : dump_steps 3 10 = [0; 3; 6; 9]%nat /\
  (forall k, sn_time (Snapshot (INR k * 2) (fun _ => zero_arr) [] zero_arr) = INR k * 2) /\
  Forall (fun pf => schedule (fst pf) <> 0%Z) [(Probe (CArray 0) 0 1 2 3 5 3 0, fun _ : Z => @nil R)].
Proof. split; [reflexivity|]. split; [reflexivity|]. constructor; [cbn; lia|constructor]. Qed.

(** In binary64 the claim is false: with the time step 1e-13 of the default configuration the
    sixth step is taken for the fifth. A probe of schedule 5 dumps at step 6, a probe of
    schedule 6 does not. *)
Definition b64_1em13 : b64 := @B754_finite prec64 emax64 false 7922816251426434 (-96) eq_refl.

Theorem C27_binary64_refuted : exists (dt : b64) (s s' : Z) (n : nat),
  is_finite dt = true /\ bpow radix2 (-1022) <= B2R dt <= 1 /\
  (~ (s | Z.of_nat n) /\ Z.rem (index64 (clock64 dt n) dt) s = 0)%Z /\
  ((s' | Z.of_nat n) /\ Z.rem (index64 (clock64 dt n) dt) s' <> 0)%Z.
Proof.
  exists b64_1em13, 5%Z, 6%Z, 6%nat.
  assert (E : index64 (clock64 b64_1em13 6) b64_1em13 = 5%Z) by (vm_compute; reflexivity).
  rewrite E. repeat match goal with |- _ /\ _ => split end; try reflexivity.
  - apply Rle_trans with (bpow radix2 (-96)); [apply bpow_le; lia|]. unfold b64_1em13. cbn [B2R]. unfold F2R. cbn [Fnum Fexp cond_Zopp].
    assert (G := bpow_gt_0 radix2 (-96)). nra.
  - unfold b64_1em13. cbn [B2R]. unfold F2R. cbn [Fnum Fexp cond_Zopp].
    apply Rle_trans with (bpow radix2 53 * bpow radix2 (-96)).
    + apply Rmult_le_compat_r; [apply bpow_ge_0|]. change (bpow radix2 53) with (IZR (2 ^ 53)). apply IZR_le. cbn. lia.
    + rewrite <- bpow_plus. change 1 with (bpow radix2 0). apply bpow_le. lia.
  - intros [k Hk]. cbn in Hk. lia.
  - discriminate.
Qed.
Print Assumptions C27_binary64_refuted.

(** What is true in binary64: for every step size that is not subnormal and the first 2^26 - 1
    steps the computed index is the step number or one less, *)
Theorem C27_binary64_index_partial : forall (dt : b64) n,
  is_finite dt = true -> bpow radix2 (-1022) <= B2R dt <= 1 -> (n < 2 ^ 26)%nat ->
  index64 (clock64 dt n) dt = Z.of_nat n \/ index64 (clock64 dt n) dt = (Z.of_nat n - 1)%Z.
Proof. intros dt n F H Hn. now apply index_bounds. Qed.
Print Assumptions C27_binary64_index_partial.

(** and it is the step number when the step size has a short mantissa, such as a power of two. *)
Theorem C27_binary64_short_step_partial : forall (dt : b64) m e n,
  is_finite dt = true -> B2R dt = IZR m * bpow radix2 e -> (0 < m)%Z -> (-1074 <= e <= 900)%Z ->
  (Z.of_nat n * m < 2 ^ 53)%Z -> index64 (clock64 dt n) dt = Z.of_nat n.
Proof. exact index_exact. Qed.
Print Assumptions C27_binary64_short_step_partial.

Example C27_binary64_hypotheses_met : is_finite b64_one = true /\ B2R b64_one = IZR 1 * bpow radix2 0 /\
  bpow radix2 (-1022) <= B2R b64_one <= 1.
Proof.
  assert (E1 : B2R b64_one = 1) by (unfold b64_one; cbn [B2R]; unfold F2R; cbn; lra).
  split; [reflexivity|]. rewrite E1. split; [cbn; lra|]. split; [|lra]. change 1 with (bpow radix2 0). apply bpow_le. lia.
Qed.

(** C23 in binary64: the same rounding makes the injection of a bunch repeat a particle. With
    the time step 1e-13 and ten particles to a step, step 5 injects 50 .. 59 and step 6 injects
    59 .. 68. *)
Definition b64_ten : b64 := @B754_finite prec64 emax64 false 5629499534213120 (-49) eq_refl.

Theorem C23_binary64_refuted : exists (dt : b64) (k n : nat) i,
  let first m := first_index64 (clock64 dt m) (B754_zero false) dt b64_ten in
  (k < n)%nat /\ (first k <= i < first k + 10)%Z /\ (first n <= i < first n + 10)%Z.
Proof.
  exists b64_1em13, 5%nat, 6%nat, 59%Z. cbv beta zeta.
  assert (E5 : first_index64 (clock64 b64_1em13 5) (B754_zero false) b64_1em13 b64_ten = 50%Z) by (vm_compute; reflexivity).
  assert (E6 : first_index64 (clock64 b64_1em13 6) (B754_zero false) b64_1em13 b64_ten = 59%Z) by (vm_compute; reflexivity).
  rewrite E5, E6. lia.
Qed.
Print Assumptions C23_binary64_refuted.
