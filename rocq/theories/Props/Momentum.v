(** C72: speed and momentum of particles in double precision. *)
From Coq Require Import Reals ZArith List Bool Lia Lra.
From Flocq Require Import Core IEEE754.BinarySingleNaN.
From Verif.Lib Require Import RAux Outcome Par ParProg.
From Verif.Model Require Import Binary64 Temperature64 Fields Pusher Arith GenCode GenRun GenSim.
From Verif.Proof Require Import Binary64P FloatP Push64P GenRunP GenSimP GenSimP2 Clock64P Run64P MomentumR Gentle64P.
From Verif.Props Require Import Double.
From Verif.Spec Require Import Memory Double Momentum.
Import ListNotations.
Local Open Scope R_scope.

(** * C72: in double precision particles stay slower than light, and magnetic fields do not change their momentum *)

(** One push. A particle slower than light (as real numbers), of momentum b at most after the push, is pushed: the
    program does not stop (exit(1), "particle faster than light", src/lib.cpp lines 45-69), the particle stays
    slower than light, and its momentum changes by the impulse of the electric field at most, up to [step_error]. Nothing
    depends on the magnetic field. *)
Theorem C72_push : forall pw lg a (dt q m : b64) (e h v : gvec (b64_arith pw lg)) b, 0 <= a <= 8192 -> close_pow pw a -> copes a b ->
  sane q m -> is_finite dt = true -> 0 < B2R dt <= bpow radix2 (-18) ->
  finite3 pw lg e -> size3 pw lg e <= bpow radix2 251 -> finite3 pw lg h -> size3 pw lg h <= bpow radix2 251 ->
  finite3 pw lg v -> size3 pw lg v < 300000000 -> momentum pw lg v + impulse pw lg q m dt e <= b ->
  exists v', gboris_push (b64_arith pw lg) true dt q m e h v = Ok v' /\ finite3 pw lg v' /\ size3 pw lg v' < 300000000 /\
    Rabs (momentum pw lg v' - momentum pw lg v) <= impulse pw lg q m dt e + step_error a b.
Proof.
  intros pw lg a dt q m e h v b HA HP HC HQ FD HD FE SE FH SH FV SV HB. exact (push_close pw lg a HA HP dt q m e h v b HQ FD HD FE SE FH SH FV SV HB HC).
Qed.
Print Assumptions C72_push.

(** Any number of pushes, in fields that differ from push to push. *)
Theorem C72_pushes : forall pw lg a (dt q m : b64) fs (v : gvec (b64_arith pw lg)) b, 0 <= a <= 8192 -> close_pow pw a -> 0 <= b -> copes a b ->
  sane q m -> is_finite dt = true -> 0 < B2R dt <= bpow radix2 (-18) ->
  Forall (fun f => (finite3 pw lg (fst f) /\ size3 pw lg (fst f) <= bpow radix2 251) /\ finite3 pw lg (snd f) /\ size3 pw lg (snd f) <= bpow radix2 251) fs ->
  finite3 pw lg v -> size3 pw lg v < 300000000 -> momentum pw lg v + total_impulse pw lg q m dt fs + INR (length fs) * step_error a b <= b ->
  exists v', pushes pw lg dt q m fs v = Ok v' /\ finite3 pw lg v' /\ size3 pw lg v' < 300000000 /\
    Rabs (momentum pw lg v' - momentum pw lg v) <= total_impulse pw lg q m dt fs + INR (length fs) * step_error a b.
Proof.
  intros pw lg a dt q m fs v b HA HP B0 HC HQ FD HD FS FV SV HB. exact (pushes_close pw lg a HA HP dt q m fs v b B0 HQ FD HD FS FV SV HB HC).
Qed.
Print Assumptions C72_pushes.

(** Magnetic fields only: in n pushes the momentum drifts by n rounding errors at most. *)
Theorem C72_magnetic : forall pw lg a (dt q m : b64) (hs : list (gvec (b64_arith pw lg))) (zero v : gvec (b64_arith pw lg)) b, 0 <= a <= 8192 -> close_pow pw a -> 0 <= b -> copes a b ->
  sane q m -> is_finite dt = true -> 0 < B2R dt <= bpow radix2 (-18) ->
  finite3 pw lg zero -> size3 pw lg zero = 0 ->
  Forall (fun h => finite3 pw lg h /\ size3 pw lg h <= bpow radix2 251) hs ->
  finite3 pw lg v -> size3 pw lg v < 300000000 -> momentum pw lg v + INR (length hs) * step_error a b <= b ->
  exists v', pushes pw lg dt q m (map (fun h => (zero, h)) hs) v = Ok v' /\ size3 pw lg v' < 300000000 /\
    Rabs (momentum pw lg v' - momentum pw lg v) <= INR (length hs) * step_error a b.
Proof.
  intros pw lg a dt q m hs zero v b HA HP B0 HC HQ FD HD FZ Z FS FV SV HB.
  assert (T : total_impulse pw lg q m dt (map (fun h => (zero, h)) hs) = 0).
  { clear - Z. induction hs as [|h hs IH]; cbn [map total_impulse fst]; [reflexivity|]. rewrite IH. unfold impulse. rewrite Z. ring. }
  destruct (pushes_close pw lg a HA HP dt q m (map (fun h => (zero, h)) hs) v b B0 HQ FD HD) as (v' & E & _ & L & D); try assumption.
  - clear - FS FZ Z. apply Forall_map. eapply Forall_impl; [|exact FS]. intros h FH. cbn [fst snd]. split; [|exact FH]. split; [exact FZ|]. rewrite Z. apply bpow_ge_0.
  - rewrite map_length, T. lra.
  - rewrite map_length, T, Rplus_0_l in D. eauto.
Qed.
Print Assumptions C72_magnetic.

(** Whole runs: if the momenta at the start and the impulses that the electric field gives in n steps stay within what the program
    copes with, then the program makes all n steps (or those before the end time): it neither stops with exit(1) nor does
    anything undefined. At the end all live particles are in place and slower than light. *)
Theorem C72_run : forall pw lg a (c : config (b64_arith pw lg)) n t e s b0 w b, 0 <= a <= 8192 -> close_pow pw a -> good_pow pw ->
  fine pw lg (c_geom _ c) (c_dt _ c) -> border_clear pw lg (c_geom _ c) -> (c_pusher _ c = BorisRelativistic \/ c_pusher _ c = BorisAdaptive true) ->
  starts pw lg c s -> ((0 < c_bunches _ c)%Z -> beam_ok pw lg c n t) -> stays_calm pw lg c n t e s ->
  begins_slow pw lg c n t s b0 -> pushed_by pw lg c n t e s w -> 0 <= w -> 0 <= b -> copes a b -> b0 + INR n * (w + step_error a b) <= b ->
  exists s', gsim_run _ c n t e s = Ok s' /\ Forall (in_place pw lg (c_geom _ c)) (parts pw lg s') /\
    Forall (slow_particle pw lg (b0 + INR n * (w + step_error a b))) (parts pw lg s').
Proof.
  intros pw lg a c n t e s b0 w b HA HPC HP HF HB HU ST BO SC BS PB W0 B0 HC L.
  exact (run_gentle pw lg a HA HPC HP c HF HB HU b B0 HC w W0 n t e s b0 ST BO SC BS PB L).
Qed.
Print Assumptions C72_run.

(** The same for any number of threads (C70). *)
Theorem C72_threads : forall pw lg a (c : config (b64_arith pw lg)) f n t e s b0 w b m o, 0 <= a <= 8192 -> close_pow pw a -> good_pow pw ->
  fine pw lg (c_geom _ c) (c_dt _ c) -> border_clear pw lg (c_geom _ c) -> (c_pusher _ c = BorisRelativistic \/ c_pusher _ c = BorisAdaptive true) ->
  starts pw lg c s -> ((0 < c_bunches _ c)%Z -> beam_ok pw lg c n t) -> stays_calm pw lg c n t e s ->
  begins_slow pw lg c n t s b0 -> pushed_by pw lg c n t e s w -> 0 <= w -> 0 <= b -> copes a b -> b0 + INR n * (w + step_error a b) <= b ->
  c_rand _ c = Reverse _ f -> (forall k, Z.of_nat (length (c_bunch _ c k)) = c_macro _ c) -> repr _ c m s ->
  pieces_run _ (run_pieces _ c n t e (gs_bunches _ s)) m o ->
  exists m' s', o = Ok m' /\ repr _ c m' s' /\ Forall (in_place pw lg (c_geom _ c)) (parts pw lg s') /\
    Forall (slow_particle pw lg (b0 + INR n * (w + step_error a b))) (parts pw lg s').
Proof.
  intros pw lg a c f n t e s b0 w b m o HA HPC HP HF HB HU ST BO SC BS PB W0 B0 HC L Hf HL HR Ho.
  assert (S := run_schedule _ c n t e (gs_bunches _ s) m o (ex_intro _ f Hf) Ho).
  assert (K := run_link _ c f Hf HL n t e m s HR).
  destruct (run_gentle pw lg a HA HPC HP c HF HB HU b B0 HC w W0 n t e s b0 ST BO SC BS PB L) as (s' & E & P1 & P2). rewrite E in K. cbn in K.
  destruct K as (m' & E' & R'). rewrite E' in S. destruct o; cbn in S; try contradiction. subst. exists m', s'. auto.
Qed.
Print Assumptions C72_threads.

(** ** A case that meets the hypotheses *)

Lemma root_inv_close : close_pow root_inv 3.
Proof.
  intros x F H. unfold root_inv. destruct (sqrt_ok x F ltac:(lra)) as (FS & ES). destruct (of_Z_exact 1 eq_refl) as (F1 & E1).
  assert (S1 : 1 <= sqrt (B2R x)) by (rewrite <- sqrt_1 at 1; apply sqrt_le_1_alt; exact H).
  assert (S2 : 1 <= B2R (b64_sqrt x)) by (rewrite ES, <- (rnd_exact_Z 1) by reflexivity; apply rnd_mono; exact S1).
  set (s := b64_sqrt x) in *. set (q := sqrt (B2R x)) in *.
  assert (Q0 : 0 < / B2R s <= 1) by (split; [apply Rinv_0_lt_compat; lra|rewrite <- Rinv_1; apply Rinv_le; lra]).
  destruct (div_ok (b64_of_Z 1) s F1) as (FD & ED); [lra|rewrite E1; unfold Rdiv; rewrite Rmult_1_l, Rabs_pos_eq by lra; apply Rle_trans with (bp 0); [cbn; lra|apply bpow_le; lia]|].
  rewrite E1 in ED. unfold Rdiv in ED. rewrite Rmult_1_l in ED. split; [exact FD|]. rewrite ED.
  assert (XU : q <= bp 512).
  { unfold q. rewrite <- (sqrt_square (bp 512)) by apply bpow_ge_0. apply sqrt_le_1_alt. rewrite <- bpow_plus. apply Rle_trans with (1 := Rle_abs _). apply Rlt_le. exact (abs_B2R_lt_emax prec64 emax64 x). }
  assert (RE := rnd_err (/ B2R s)). rewrite (Rabs_pos_eq (/ B2R s)) in RE by lra. assert (RS := rnd_err q). rewrite <- ES, (Rabs_pos_eq q) in RS by lra.
  assert (T0 : tiny <= bp (-60)) by (unfold tiny; apply bpow_le; lia).
  assert (T1 : tiny * q <= bp (-60)). { apply Rle_trans with (tiny * bp 512); [apply Rmult_le_compat_l; [apply Rlt_le, tiny_pos|exact XU]|]. unfold tiny. rewrite <- bpow_plus. apply bpow_le. lia. }
  assert (TP := tiny_pos).
  change (bpow radix2 (-53)) with u. rewrite u_val in *. replace (bp (-60)) with (/ 1152921504606846976) in * by (cbn; lra). apply Rabs_le_inv in RE, RS.
  set (i := / B2R s) in *. assert (IS : i * B2R s = 1) by (unfold i; apply Rinv_l; lra).
  assert (QS : 1 - 12 / 10 * / 9007199254740992 <= i * q <= 1 + 12 / 10 * / 9007199254740992).
  { split; (apply Rmult_le_reg_r with (B2R s); [lra|]; replace (i * q * B2R s) with (q * (i * B2R s)) by ring; rewrite IS; lra). }
  assert (K : rnd i * q <= (i + / 9007199254740992 * i + tiny) * q) by (apply Rmult_le_compat_r; lra).
  assert (K2 : (i - / 9007199254740992 * i - tiny) * q <= rnd i * q) by (apply Rmult_le_compat_r; lra).
  apply Rabs_le. split; lra.
Qed.

Lemma ex_lorentz : 1 <= lorentz (400000000 + 1) /\ lorentz (400000000 + 1) * lorentz (400000000 + 1) <= 3.
Proof.
  rewrite lorentz_boost. split; [apply boost_ge|]. rewrite boost_sq. unfold cc. lra.
Qed.
Lemma ex_copes : copes 3 400000000.
Proof. unfold copes. cbv zeta. destruct ex_lorentz as (_ & L). change (bpow radix2 (-53)) with u. rewrite u_val. lra. Qed.
Lemma ex_error : 0 <= step_error 3 400000000 <= 1.
Proof.
  unfold step_error. cbv zeta. destruct ex_lorentz as (G & L). set (g := lorentz (400000000 + 1)) in *. change (bpow radix2 (-53)) with u. rewrite u_val.
  assert (1 <= g * g) by nra. assert (0 <= g * g * g) by nra. assert (g * g * g <= 9) by nra. split; lra.
Qed.

Lemma momentum_below : forall s, 0 <= s <= 200000000 -> momentum_at s <= 300000000.
Proof.
  intros s H. apply Rle_trans with (momentum_at 200000000); [apply momentum_mono; unfold cc; lra|]. unfold momentum_at.
  apply Rle_trans with (200000000 / (2 / 3)); [|lra]. apply Rmult_le_compat_l; [lra|]. apply Rinv_le; [lra|].
  rewrite <- (sqrt_square (2 / 3)) by lra. apply sqrt_le_1_alt. lra.
Qed.

Definition ex_pushed (i : nat) : bool :=
  match gsim_run D ex_config i (z64 0) ex_end ex_state with
  | Ok s => match gbeam D ex_config (time root_inv (fun x => x) ex_config i (z64 0)) s with
    | Ok s' => forallb (fun p => let e := gget_efield D ex_geom (gs_fields D s') (g0 D (gpos D (gph D p))) (g2 D (gpos D (gph D p))) in
        small (g0 D e) && small (g1 D e) && small (g2 D e) && is_finite (gcharge D p : b64) && is_finite (gmass D p : b64) &&
        Beqb (Babs (gcharge D p : b64)) (q64 1 (2 ^ 20)) && Beqb (gmass D p : b64) (q64 1 (2 ^ 20))) (parts root_inv (fun x => x) s')
    | _ => true end
  | _ => true end.
Lemma ex_pushed0 : ex_pushed 0 = true.
Proof. vm_cast_no_check (eq_refl true). Qed.
Lemma ex_pushed1 : ex_pushed 1 = true.
Proof. vm_cast_no_check (eq_refl true). Qed.

Lemma small_size : forall e : gvec D, small (g0 D e) = true -> small (g1 D e) = true -> small (g2 D e) = true -> size3 root_inv (fun x => x) e <= 2 * bp 50.
Proof.
  assert (H : forall x, small x = true -> Rabs (B2R (x : b64)) <= bp 50).
  { intros x H. unfold small in H. apply andb_true_iff in H. destruct H as (F & L). destruct (of_Z_exact (2 ^ 50) eq_refl) as (F2 & E2).
    apply leb_ok in L; [|rewrite is_finite_Babs; exact F|exact F2]. rewrite B2R_Babs in L. unfold z64 in L. rewrite E2 in L. exact L. }
  intros e H0 H1 H2. apply length_parts; apply H; assumption.
Qed.

Lemma ex_pushed_by : pushed_by root_inv (fun x => x) ex_config 2 (z64 0) ex_end ex_state 1048576.
Proof.
  intros i s' s'' p L R B IN _. assert (C : ex_pushed i = true) by (destruct i as [|[|i]]; [exact ex_pushed0|exact ex_pushed1|lia]).
  unfold ex_pushed in C. rewrite R, B in C. rewrite forallb_forall in C. specialize (C p IN). cbv zeta in C. rewrite !andb_true_iff in C. destruct C as ((((((C0 & C1) & C2) & FQ) & FM) & EQ) & EM).
  value (q64 1 (2 ^ 20)). value ex_dt. cbn [num b64_arith] in *.
  rewrite Beqb_correct in EQ by (rewrite ?is_finite_Babs; assumption). rewrite Beqb_correct in EM by assumption. revert EQ EM. do 2 (case Req_bool_spec; [intro|discriminate]). rename H into EQ, H0 into EM. intros _ _.
  unfold impulse. cbn [num b64_arith]. cbn [num b64_arith] in *. rewrite B2R_Babs in EQ. rewrite EQ, EM. change (c_dt D ex_config) with ex_dt. rewrite V, V0.
  assert (S := small_size _ C0 C1 C2). change (c_geom D ex_config) with ex_geom. set (z := size3 _ _ _) in *. replace (bp 50) with 1125899906842624 in S by reflexivity.
  field_simplify. lra.
Qed.

Lemma slow_of : forall v : gvec D, (exists x y z, @B2R prec64 emax64 (g0 D v) = x /\ @B2R prec64 emax64 (g1 D v) = y /\ @B2R prec64 emax64 (g2 D v) = z /\ x * x + y * y + z * z <= 200000000 * 200000000) ->
  slow root_inv (fun x => x) 300000000 v.
Proof.
  intros v (x & y & z & X & Y & Z & H). assert (L : size3 root_inv (fun x => x) v <= 200000000) by (unfold size3; rewrite X, Y, Z; apply length_le; lra).
  assert (P : 0 <= size3 root_inv (fun x => x) v) by apply length_pos. split; [lra|]. apply momentum_below. lra.
Qed.

Lemma ex_begins : begins_slow root_inv (fun x => x) ex_config 2 (z64 0) ex_state 300000000.
Proof.
  split.
  - constructor; [|constructor]. intros _. value (z64 100000000). value (z64 50000000). value (z64 150000000). cbn [num b64_arith] in *.
    apply slow_of. do 3 eexists. split; [exact V|]. split; [exact V0|]. split; [exact V1|]. lra.
  - intros k p _ IN. assert (E : p = ex_waiting) by (cbn in IN; intuition). subst p. value (z64 0). value (z64 200000000). cbn [num b64_arith] in *.
    apply slow_of. do 3 eexists. split; [exact V|]. split; [exact V|]. split; [exact V0|]. lra.
  - intros i j k x L K (_ & _ & (_ & I) & _) (_ & _ & (J & _) & _). assert (E : (i = 0 /\ j = 1)%nat) by lia. destruct E as (-> & ->). cbn [c_bunches ex_config] in K. assert (k = 0)%Z by lia. subst k.
    cbv zeta in I, J. match type of I with (x < ?b)%Z => assert (EI : b = 1%Z) by (vm_compute; reflexivity); rewrite EI in I end.
    match type of J with (?b <= x)%Z => assert (EJ : b = 1%Z) by (vm_compute; reflexivity); rewrite EJ in J end. lia.
Qed.

Example C72_hypotheses_met : 0 <= 3 <= 8192 /\ close_pow root_inv 3 /\ good_pow root_inv /\ fine root_inv (fun x => x) (c_geom D ex_config) (c_dt D ex_config) /\
  border_clear root_inv (fun x => x) (c_geom D ex_config) /\ c_pusher D ex_config = BorisRelativistic /\
  starts root_inv (fun x => x) ex_config ex_state /\ beam_ok root_inv (fun x => x) ex_config 2 (z64 0) /\
  stays_calm root_inv (fun x => x) ex_config 2 (z64 0) ex_end ex_state /\ begins_slow root_inv (fun x => x) ex_config 2 (z64 0) ex_state 300000000 /\
  pushed_by root_inv (fun x => x) ex_config 2 (z64 0) ex_end ex_state 1048576 /\ copes 3 400000000 /\ 300000000 + INR 2 * (1048576 + step_error 3 400000000) <= 400000000 /\
  c_rand D ex_config = Reverse D (fun _ => q64 1 2) /\ (forall k, Z.of_nat (length (c_bunch D ex_config k)) = c_macro D ex_config).
Proof.
  destruct C71_hypotheses_met as (H0 & H1 & H2 & H3 & H4 & H5 & H6 & H7 & H8).
  split; [lra|]. split; [exact root_inv_close|]. do 7 (split; [assumption|]). split; [exact ex_begins|]. split; [exact ex_pushed_by|]. split; [exact ex_copes|].
  split; [|split; assumption]. replace (INR 2) with 2 by (cbn; lra). destruct ex_error. lra.
Qed.

(** One particle in a magnetic field of 1000 and in an electric field of 1000 V/m. *)
Definition ex_v : gvec D := GV D (z64 100000000) (z64 50000000) (z64 150000000).
Definition ex_b : gvec D := GV D (z64 0) (z64 1000) (z64 0).
Definition ex_zero : gvec D := GV D (z64 0) (z64 0) (z64 0).
Example C72_push_hypotheses_met : sane (q64 1 (2 ^ 20)) (q64 1 (2 ^ 20)) /\ is_finite (ex_dt : b64) = true /\ 0 < B2R (ex_dt : b64) <= bpow radix2 (-18) /\
  finite3 root_inv (fun x => x) ex_b /\ size3 root_inv (fun x => x) ex_b <= bpow radix2 251 /\
  finite3 root_inv (fun x => x) ex_zero /\ size3 root_inv (fun x => x) ex_zero = 0 /\
  finite3 root_inv (fun x => x) ex_v /\ size3 root_inv (fun x => x) ex_v < 300000000 /\
  momentum root_inv (fun x => x) ex_v + (impulse root_inv (fun x => x) (q64 1 (2 ^ 20)) (q64 1 (2 ^ 20)) ex_dt ex_b + impulse root_inv (fun x => x) (q64 1 (2 ^ 20)) (q64 1 (2 ^ 20)) ex_dt ex_zero) + INR 2 * step_error 3 400000000 <= 400000000.
Proof.
  value ex_dt. value (z64 0). value (z64 1000). value (z64 100000000). value (z64 50000000). value (z64 150000000). value (q64 1 (2 ^ 20)). cbn [num b64_arith] in *.
  assert (BB : size3 root_inv (fun x => x) ex_b = 1000).
  { unfold size3, ex_b, length3. cbn [g0 g1 g2 num b64_arith]. rewrite V0, V1, <- (sqrt_square 1000) by lra. f_equal. lra. }
  assert (ZZ : size3 root_inv (fun x => x) ex_zero = 0).
  { unfold size3, ex_zero, length3. cbn [g0 g1 g2 num b64_arith]. rewrite V0. replace (0 * 0 + 0 * 0 + 0 * 0) with 0 by ring. exact sqrt_0. }
  assert (S : slow root_inv (fun x => x) 300000000 ex_v) by (apply slow_of; do 3 eexists; split; [exact V2|]; split; [exact V3|]; split; [exact V4|]; lra).
  split; [apply ex_sane|]. split; [assumption|]. split; [rewrite V; split; [lra|cbn; lra]|]. split; [repeat split; assumption|]. split; [rewrite BB; apply Rle_trans with (bpow radix2 50); [replace (bpow radix2 50) with 1125899906842624 by reflexivity; lra|apply bpow_le; lia]|].
  split; [repeat split; assumption|]. split; [exact ZZ|]. split; [repeat split; assumption|]. split; [exact (proj1 S)|].
  unfold impulse. cbn [num b64_arith]. rewrite ZZ, BB, V, V5. replace (INR 2) with 2 by (cbn; lra). destruct S as (_ & S). destruct ex_error. rewrite Rabs_pos_eq by lra.
  match goal with |- _ + (?x + _ * 0) + _ <= _ => replace x with (1000 * / 2147483648) by (field_simplify; lra) end. lra.
Qed.

(** ** Beyond what the program copes with *)

(** A particle slower than light, with a Lorentz factor of 3.2 10^7, on which no field acts: eight pushes succeed, the ninth stops the
    program (exit(1)). So [copes] or something like it is needed in C72_pushes. *)
Definition fast_v : gvec D := GV D (q64 1634809307690471 (2 ^ 23)) (q64 3893692506630547 (2 ^ 25)) (q64 6588514758233667 (2 ^ 25)).
Definition ends_well {X : Type} (o : outcome X) : bool := match o with Ok _ => true | _ => false end.
Lemma ends_well_ok : forall {X : Type} (o : outcome X), ends_well o = true -> exists x, o = Ok x.
Proof. intros X [x|n|] H; try discriminate. eauto. Qed.
Definition ends_1 {X : Type} (o : outcome X) : bool := match o with Exit 1 => true | _ => false end.
Lemma ends_1_exit : forall {X : Type} (o : outcome X), ends_1 o = true -> o = Exit 1.
Proof. intros X [x|n|] H; try discriminate. destruct n as [|[n|n|]|n]; try discriminate. reflexivity. Qed.
Definition fast_pushes (n : nat) : outcome (gvec D) := pushes root_inv (fun x => x) ex_dt (q64 1 (2 ^ 20)) (q64 1 (2 ^ 20)) (repeat (ex_zero, ex_zero) n) fast_v.
Lemma fast_8 : ends_well (fast_pushes 8) = true.
Proof. vm_cast_no_check (eq_refl true). Qed.
Lemma fast_9 : ends_1 (fast_pushes 9) = true.
Proof. vm_cast_no_check (eq_refl true). Qed.
Theorem C72_free_refuted : exists v zero : gvec D, finite3 root_inv (fun x => x) v /\ size3 root_inv (fun x => x) v < 300000000 /\
  finite3 root_inv (fun x => x) zero /\ size3 root_inv (fun x => x) zero = 0 /\
  (exists v', pushes root_inv (fun x => x) ex_dt (q64 1 (2 ^ 20)) (q64 1 (2 ^ 20)) (repeat (zero, zero) 8) v = Ok v') /\
  pushes root_inv (fun x => x) ex_dt (q64 1 (2 ^ 20)) (q64 1 (2 ^ 20)) (repeat (zero, zero) 9) v = Exit 1.
Proof.
  exists fast_v, ex_zero. value (g0 D fast_v). value (g1 D fast_v). value (g2 D fast_v). destruct C72_push_hypotheses_met as (_ & _ & _ & _ & _ & Z1 & Z2 & _). cbn [num b64_arith] in *.
  split; [repeat split; assumption|]. split.
  { unfold size3, length3. cbn [num b64_arith]. rewrite V, V0, V1. rewrite <- (sqrt_square 300000000) by lra. apply sqrt_lt_1_alt. split; [|lra]. apply sq_pos3. }
  split; [exact Z1|]. split; [exact Z2|]. split.
  - exact (ends_well_ok _ fast_8).
  - exact (ends_1_exit _ fast_9).
Qed.
Print Assumptions C72_free_refuted.
