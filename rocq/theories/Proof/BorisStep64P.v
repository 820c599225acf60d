(** The push of a particle in the main loop: the scheme under the fields that the program finds at the particle. *)
From Coq Require Import Reals ZArith List Bool Lia Lra Psatz.
From Flocq Require Import Core IEEE754.BinarySingleNaN.
From Verif.Lib Require Import RAux Outcome.
From Verif.Model Require Import Binary64 Temperature64 Arith Geometry Fields Pusher GenCode GenRun GenSim.
From Verif.Spec Require Import Double Momentum.
From Verif.Proof Require Import Binary64P FloatP Axis64P Motion64R Motion64P Cells64P Push64P Field64P Err64P MomentumR Boost64P Run64P Gentle64P BorisErr64P.
From Verif.Spec Require Import Boris.
Local Open Scope R_scope.

Section Step.
Variables pw lg : b64 -> b64.
Notation A := (b64_arith pw lg).
Variable a : R.
Hypothesis HA : 0 <= a <= 8192.
Hypothesis HPC : close_pow pw a.
Hypothesis HP : good_pow pw.
Variable c : config A.
Notation g := (c_geom A c).
Notation dt := (c_dt A c).
Hypothesis HF : fine pw lg g dt.
Hypothesis HU : c_pusher A c = BorisRelativistic \/ c_pusher A c = BorisAdaptive true.

Theorem step_v_near : forall m p b, calm pw lg g m -> in_place pw lg g p -> galive A p = true ->
  let e := gget_efield A g m (g0 A (gpos A (gph A p))) (g2 A (gpos A (gph A p))) in
  let h := gget_hfield A g m (g0 A (gpos A (gph A p))) (g2 A (gpos A (gph A p))) in
  let v := gvel A (gph A p) in
  size3 pw lg v < 300000000 -> momentum pw lg v + impulse pw lg (gcharge A p) (gmass A p) dt e <= b ->
  turns_little (@B2R prec64 emax64 (gcharge A p)) (@B2R prec64 emax64 (gmass A p)) (@B2R prec64 emax64 dt) (real3 pw lg h) ->
  let k := lorentz (b + 1) in (a + 100 * (k * k * k)) * u <= bp (-17) ->
  exists p', gstep_v_one A (c_pusher A c) g dt m p = Ok p' /\
    forall w, boris_step (@B2R prec64 emax64 (gcharge A p)) (@B2R prec64 emax64 (gmass A p)) (@B2R prec64 emax64 dt) (real3 pw lg e) (real3 pw lg h) (real3 pw lg v) w ->
    within (2048 * (a + 100 * (k * k * k)) * u * (b + bp (-58))) (real3 pw lg (gvel A (gph A p'))) w.
Proof.
  intros m p b CM OK AL e h v SV HB HT k HG. unfold e, h, v in *. clear e h v. unfold gstep_v_one. rewrite AL.
  destruct (OK AL) as (R & Z & F1 & Y0 & V0 & V1 & V2 & SN). assert (HM := fits_home pw lg c _ _ R Z).
  cbv zeta. change (finite A) with (@is_finite prec64 emax64). destruct R as (FR & R). destruct Z as (FZ & Z). cbn [num b64_arith] in *. rewrite FR, FZ. cbn [andb].
  assert (PU : gpush A (c_pusher A c) dt (gcharge A p) (gmass A p) (gget_efield A g m (g0 A (gpos A (gph A p))) (g2 A (gpos A (gph A p))))
                 (gget_hfield A g m (g0 A (gpos A (gph A p))) (g2 A (gpos A (gph A p)))) (gvel A (gph A p)) =
               gboris_push A true dt (gcharge A p) (gmass A p) (gget_efield A g m (g0 A (gpos A (gph A p))) (g2 A (gpos A (gph A p))))
                 (gget_hfield A g m (g0 A (gpos A (gph A p))) (g2 A (gpos A (gph A p)))) (gvel A (gph A p))).
  { destruct HU as [-> | ->]; [reflexivity|]. unfold gpush. cbv zeta. destruct (ltb A _ _); reflexivity. }
  rewrite PU. clear PU. destruct (felt pw lg g dt HF m _ _ HM CM) as (E & H). destruct (dt_small pw lg c HF) as (FD & DD).
  assert (FV : finite3 pw lg (gvel A (gph A p))) by (split; [apply V0|split; [apply V1|apply V2]]).
  destruct (boris_step_mgv pw lg a HA HPC dt (gcharge A p) (gmass A p) _ _ (gvel A (gph A p)) b SN FD DD E H FV SV HB HT HG) as (v' & EV & FV' & D).
  destruct (boris_ok pw lg HP dt (gcharge A p) (gmass A p) _ _ (gvel A (gph A p)) SN FD DD E H (conj V0 (conj V1 V2))) as [X | (v'' & EV' & LV)]; [rewrite EV in X; discriminate X|].
  rewrite EV in EV'. injection EV' as <-. rewrite EV. cbn [bind].
  destruct (first_half64 pw lg g dt HF (gph A p) v' HM F1 Y0 LV) as (f' & -> & O1 & O2 & O3 & O4 & O5). cbn [bind]. eexists. split; [reflexivity|].
  intros w HW. cbn [gwith_phase gph]. rewrite O3. exact (D w HW).
Qed.
End Step.
