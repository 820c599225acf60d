(** What is asked of a configuration, and what is claimed of the particles, when the program computes in double precision.
    B2R is the real number that a finite double stands for (Flocq). *)
From Coq Require Import ZArith Reals List.
From Flocq Require Import Core IEEE754.BinarySingleNaN.
From Verif.Lib Require Import Outcome.
From Verif.Model Require Import Binary64 Arith Fields Pusher GenCode GenRun GenSim.
Local Open Scope R_scope.

Section Double.
Variables pw lg : b64 -> b64.
Notation A := (b64_arith pw lg).

(** At most 2^20 nodes per axis, cells between 2^-30 and 2^10 metres; in one step light passes at most 4/5 of a cell. *)
Record fine (g : ggeom A) (dt : b64) : Prop := Fine {
  fine_nr : (3 <= gn_r A g <= 2 ^ 20)%Z;
  fine_nz : (3 <= gn_z A g <= 2 ^ 20)%Z;
  fine_rsize : @is_finite prec64 emax64 (gr_size A g) = true;
  fine_zsize : @is_finite prec64 emax64 (gz_size A g) = true;
  fine_dr : bpow radix2 (-30) <= @B2R prec64 emax64 (gdr A g) <= bpow radix2 10;
  fine_dz : bpow radix2 (-30) <= @B2R prec64 emax64 (gdz A g) <= bpow radix2 10;
  fine_dt : is_finite dt = true /\ 0 < B2R dt;
  fine_cr : 300000000 * B2R dt <= 4 / 5 * @B2R prec64 emax64 (gdr A g);
  fine_cz : 300000000 * B2R dt <= 4 / 5 * @B2R prec64 emax64 (gdz A g) }.

(** Finite components; as fast as light, up to a part in 3 10^8. *)
Definition limited (v : gvec A) : Prop :=
  @is_finite prec64 emax64 (g0 A v) = true /\ @is_finite prec64 emax64 (g1 A v) = true /\ @is_finite prec64 emax64 (g2 A v) = true /\
  let x := @B2R prec64 emax64 (g0 A v) in let y := @B2R prec64 emax64 (g1 A v) in let z := @B2R prec64 emax64 (g2 A v) in
  x * x + y * y + z * z <= 300000001 * 300000001.

(** Charge and mass of a macroparticle: the mass is neither huge nor tiny, the ratio is at most 2^50 C/kg (1.8 10^11 for
    electrons). *)
Definition sane (charge mass : b64) : Prop :=
  is_finite charge = true /\ is_finite mass = true /\ bpow radix2 (-400) <= B2R mass <= bpow radix2 400 /\
  Rabs (B2R charge) <= bpow radix2 50 * B2R mass.

(** The fields that particles feel are finite and at most 2^251 (3 10^75 V/m) in size. *)
Definition calm (g : ggeom A) (f : gmem A) : Prop :=
  forall a i k, In a (ER :: EPHI :: EZ :: HRH :: HPHIH :: HZH :: nil) -> inside A g i k = true ->
  @is_finite prec64 emax64 (f (a, i, k)) = true /\ Rabs (@B2R prec64 emax64 (f (a, i, k))) <= bpow radix2 251.

(** What is asked of pow(x, -0.5): almost the value for x from 1 on (the error of C libraries is far smaller), zero at infinity. *)
Definition good_pow : Prop :=
  (forall x : b64, is_finite x = true -> 1 <= B2R x ->
     is_finite (pw x) = true /\ 0 <= B2R (pw x) /\ B2R (pw x) * sqrt (B2R x) <= 1 + bpow radix2 (-40)) /\
  is_finite (pw (B754_infinity false)) = true /\ B2R (pw (B754_infinity false)) = 0.

(** The first double above the border between the last two cells along the axis, as the program computes it, is in the
    last cell, as the program computes it. *)
Definition border_clear (g : ggeom A) : Prop :=
  (gn_z A g - 2 <= gcell A (@Bsucc prec64 emax64 eq_refl eq_refl (mul A (of_int A (gn_z A g - 2)) (gdz A g))) (gdz A g))%Z.

(** ** Whole runs *)

(** The time as the main loop counts it. *)
Fixpoint time (c : config A) (i : nat) (t : b64) : b64 :=
  match i with O => t | S i' => time c i' (add A t (c_dt A c)) end.

(** Bunch number k: particle number x is injected in the step that begins at t (src/bunch.cpp lines 87-124). *)
Definition injected (c : config A) (t : b64) (k x : Z) : Prop :=
  let begin := add A (mul A (c_duration A c) (of_int A k)) (mul A (c_hole A c) (of_int A k)) in
  let per_step := (c_macro A c / ceil_int A (div A (c_duration A c) (c_dt A c)))%Z in
  let first := trunc_int A (mul A (div A (sub A t begin) (c_dt A c)) (of_int A per_step)) in
  leb A begin t = true /\ ltb A t (add A begin (c_duration A c)) = true /\ (first <= x < first + per_step)%Z /\ (0 <= x < c_macro A c)%Z.

(** Half a cell (up to the rounding) or more from the axis and from the ends, and half a cell, less a sixteenth, or more from the wall. *)
Definition radius_fits (g : ggeom A) (r : b64) : Prop :=
  is_finite r = true /\ let d := @B2R prec64 emax64 (gdr A g) in
  d / 2 - 8 * (d * bpow radix2 (-30)) <= B2R r <= IZR (gn_r A g - 1) * d - d / 2 + d / 16.
Definition z_fits (g : ggeom A) (z : b64) : Prop :=
  is_finite z = true /\ let d := @B2R prec64 emax64 (gdz A g) in
  d / 2 - 8 * (d * bpow radix2 (-30)) <= B2R z <= IZR (gn_z A g - 1) * d - d / 2 + 20 * (d * bpow radix2 (-30)).
Definition moderate (x : b64) : Prop := is_finite x = true /\ Rabs (B2R x) <= bpow radix2 31.

(** A live particle is where the fields are, in the half-plane, with finite velocity. *)
Definition in_place (g : ggeom A) (p : gparticle A) : Prop :=
  galive A p = true ->
  radius_fits g (g0 A (gpos A (gph A p))) /\ z_fits g (g2 A (gpos A (gph A p))) /\
  @is_finite prec64 emax64 (g1 A (gpos A (gph A p))) = true /\ @B2R prec64 emax64 (g1 A (gpos A (gph A p))) = 0 /\
  moderate (g0 A (gvel A (gph A p))) /\ moderate (g1 A (gvel A (gph A p))) /\ moderate (g2 A (gvel A (gph A p))) /\
  sane (gcharge A p) (gmass A p).

(** A particle of a bunch that waits for its injection. *)
Definition waiting (g : ggeom A) (p : gparticle A) : Prop :=
  galive A p = false /\ radius_fits g (g0 A (gpos A (gph A p))) /\
  @is_finite prec64 emax64 (g1 A (gpos A (gph A p))) = true /\ @B2R prec64 emax64 (g1 A (gpos A (gph A p))) = 0 /\
  moderate (g0 A (gvel A (gph A p))) /\ moderate (g1 A (gvel A (gph A p))) /\ sane (gcharge A p) (gmass A p).

(** A cell or more away from the last place that [radius_fits] allows, in a tube of three cells or more. *)
Definition deep (g : ggeom A) (p : gparticle A) : Prop :=
  (4 <= gn_z A g)%Z /\ let d := @B2R prec64 emax64 (gdr A g) in @B2R prec64 emax64 (g0 A (gpos A (gph A p))) <= IZR (gn_r A g - 1) * d - 3 / 2 * d.

(** The beam, in n steps from time t: not faster than light; bunches that last a step or more; the clock shows at most 2^30
    steps and no step is absurdly short; bunches more than a cell away from the wall (rounding can bring about a second
    injection of a particle, C23); no bunch is removed. *)
Record beam_ok (c : config A) (n : nat) (t : b64) : Prop := BeamOk {
  bo_velocity : @is_finite prec64 emax64 (c_velocity A c) = true /\ 0 <= @B2R prec64 emax64 (c_velocity A c) <= 300000000;
  bo_steps : (ceil_int A (div A (c_duration A c) (c_dt A c)) <> 0)%Z;
  bo_macro : (0 <= c_macro A c < 2 ^ 53)%Z;
  bo_duration : @is_finite prec64 emax64 (c_duration A c) = true /\ 0 <= @B2R prec64 emax64 (c_duration A c);
  bo_hole : @is_finite prec64 emax64 (c_hole A c) = true /\ 0 <= @B2R prec64 emax64 (c_hole A c);
  bo_short : bpow radix2 (-300) <= @B2R prec64 emax64 (c_dt A c);
  bo_clock : forall i, (i < n)%nat -> is_finite (time c i t) = true /\ 0 <= B2R (time c i t) <= bpow radix2 30 * @B2R prec64 emax64 (c_dt A c);
  bo_bunches : (c_bunches A c < 2 ^ 53)%Z;
  bo_random : exists f : Z -> b64, c_rand A c = Reverse A f /\ forall x, is_finite (f x) = true /\ 0 <= B2R (f x) <= 1;
  bo_waiting : forall k, (0 <= k < c_bunches A c)%Z -> Forall (waiting (c_geom A c)) (c_bunch A c k);
  bo_deep : forall k, (0 <= k < c_bunches A c)%Z -> Forall (deep (c_geom A c)) (c_bunch A c k);
  bo_erase : forall i nb, (i < n)%nat -> (0 <= nb <= c_bunches A c)%Z -> erase_reached A c (time c i t) nb = false }.

Definition parts (s : gsim A) : list (gparticle A) := flat_map snd (gs_groups A s).

(** The state before the main loop: species, no bunch yet. *)
Definition starts (c : config A) (s : gsim A) : Prop :=
  gs_bunches A s = 0%Z /\ Forall (fun x => fst x = false) (gs_groups A s) /\ Forall (in_place (c_geom A c)) (parts s).

(** The fields do not blow up in the first n steps. *)
Definition stays_calm (c : config A) (n : nat) (t end_time : b64) (s : gsim A) : Prop :=
  forall i s', (i < n)%nat -> gsim_run A c i t end_time s = Ok s' -> calm (c_geom A c) (gcalc_hfield A (c_geom A c) (c_dt A c) (gs_fields A s')).

(** The force at (r, z) comes from the elements in [E]: the others have no influence. *)
Definition felt_from (E : farr -> Z -> Z -> Prop) (g : ggeom A) (r z : b64) : Prop :=
  forall m m' : gmem A, (forall a i k, E a i k -> m (a, i, k) = m' (a, i, k)) ->
  gget_efield A g m r z = gget_efield A g m' r z /\ gget_hfield A g m r z = gget_hfield A g m' r z.

(** n_r rows and n_z columns; and what the program allocates (src/field.cpp lines 13-24, src/hField.cpp lines 9-25). *)
Definition framed (g : ggeom A) (_ : farr) (i k : Z) : Prop := (0 <= i < gn_r A g)%Z /\ (0 <= k < gn_z A g)%Z.
Definition allocated (g : ggeom A) (a : farr) (i k : Z) : Prop :=
  (0 <= i < match a with HPHIH | HZH => gn_r A g - 1 | _ => gn_r A g end)%Z /\
  (0 <= k < match a with HRH | HPHIH => gn_z A g - 1 | _ => gn_z A g end)%Z.

(** An eighth of a cell or more from the places where particles are reflected. *)
Definition apart (g : ggeom A) (r z : b64) : Prop :=
  B2R r <= (IZR (gn_r A g - 1) - 5 / 8) * @B2R prec64 emax64 (gdr A g) /\ B2R z <= (IZR (gn_z A g - 1) - 5 / 8) * @B2R prec64 emax64 (gdz A g).

End Double.
