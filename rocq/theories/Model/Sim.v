(** Model of the complete simulation: the state that the main loop (src/loadInitParam.cpp lines 455-589, built
    without LEGACY) works on and the effect of each of its calls, put together from the models of the parts.

    Not in the state: the temperature and density objects and the macroparticle probes (they only read the state and
    write files), c_rho_old and c_rho_new (they are reset in every iteration and never used), names. *)
From Coq Require Import Reals ZArith List Bool.
From Verif.Lib Require Import RAux Outcome Grid Par.
From Verif.Model Require Import Constants Geometry ChargeDeposit CurrentDeposit Fields Interp Pusher Motion Loading
  Bunch Dump MainLoop.
Import ListNotations.
Local Open Scope R_scope.

(** is_alive[i], charge_array[i], mass_array[i] and the arrays pos, pos_old, vel, sin_theta_r at i (class Particles,
    include/particles.h). *)
Record particle := Particle { p_alive : bool; p_charge : R; p_mass : R; p_phase : phase }.

Definition p_r (p : particle) : R := v0 (pos (p_phase p)).
Definition p_z (p : particle) : R := v2 (pos (p_phase p)).
Definition q_of (p : particle) : qpart := QPart (p_alive p) (p_charge p) (p_r p) (p_z p).
Definition c_of (p : particle) : cpart :=
  CPart (p_alive p) (p_charge p) (p_r p) (p_z p) (r_old (p_phase p)) (z_old (p_phase p)).

(** An element of part_list: an object of class Particles, or of class Bunch with its bunch_number. c_bunches holds the
    same objects of class Bunch in the same order (src/loadInitParam.cpp lines 237-238). *)
Record group := Group { g_bunch : option Z; g_parts : list particle }.

Record sim := Sim {
  s_fields : fmem;                  (* efield, hfield *)
  s_current : currents;             (* c_current *)
  s_rho_bunch : arr;                (* c_rho_bunch *)
  s_groups : list group;            (* p_list->part_list *)
  s_bunch_number : Z;               (* current_bunch_number *)
  s_probes : list (probe * files)   (* c_probes and their files *)
}.

(** What does not change during the run: geometry, medium, time step, pusher selected at configure time, number of frames
    per file, beam configuration, and the random numbers that are drawn for the positions in bunch number n and for the
    injection at time t. [strict] says what happens when a field is read outside its array: undefined behaviour if
    true; if false the read gives the value that [s_fields] has for that location, whatever it is. *)
Record setup := Setup {
  su_geom : geom; su_medium : medium; su_dt : R; su_pusher : pusher; su_frames : Z;
  su_beam : beam; su_charge : R; su_mass : R; su_radius : R; su_density : R;
  su_rand_r : Z -> list R; su_rand_z : Z -> R -> Z -> R; strict : bool }.

Fixpoint traverse {A B : Type} (f : A -> outcome B) (l : list A) : outcome (list B) :=
  match l with
  | [] => Ok []
  | x :: rest => (do y <- f x; do ys <- traverse f rest; Ok (y :: ys))%outcome
  end.

Definition in_array (nr nz i k : Z) : bool := ((0 <=? i) && (i <? nr) && (0 <=? k) && (k <? nz))%Z.
Definition incs_in_array (g : geom) (l : list inc) : bool := forallb (fun c => in_array (n_r g) (n_z g) (row c) (col c)) l.
Definition jincs_in_array (g : geom) (l : list jinc) : bool := incs_in_array g (map j_inc l).
Definition reads_in_array (g : geom) (l : list loc) : bool :=
  forallb (fun x => match x with (a, i, k) => in_array (rows_of g a) (cols_of g a) i k end) l.

(** ** init_beam, src/loadInitParam.cpp lines 168-248 *)

(** The numbers of the bunches in c_bunches. *)
Definition bunch_numbers (gs : list group) : list Z :=
  flat_map (fun x => match g_bunch x with Some n => [n] | None => [] end) gs.

(** src/bunch.cpp lines 6-80: the constructor. The members pos_old and sin_theta_r are not initialised; zero is
    written here, they are set before they are read (src/particles.cpp lines 1256-1294). The random numbers are taken
    to be number_macro many. *)
Definition new_bunch (su : setup) (n : Z) : group :=
  Group (Some n)
    (map (fun m => Particle false (m_charge m) (m_mass m) (Phase (V3 (m_r m) 0 (m_z m)) (V3 0 0 0) 0 0 0))
      (bunch_load (su_geom su) (su_charge su) (su_mass su) (duration_of (su_beam su)) (su_radius su) (su_density su)
                  (initial_velocity (su_beam su)) (su_rand_r su n))).

(** src/bunch.cpp lines 112-117: one assignment of bunch_inject. *)
Definition inject_one (x : injection) (p : particle) : particle :=
  let f := p_phase p in
  Particle true (p_charge p) (p_mass p)
    (Phase (V3 (v0 (pos f)) (v1 (pos f)) (in_z x)) (V3 (v0 (vel f)) (v1 (vel f)) (in_vz x)) (r_old f) (z_old f) (sin_theta f)).

Fixpoint update_nth {A : Type} (n : nat) (f : A -> A) (l : list A) : list A :=
  match l, n with
  | [], _ => []
  | x :: rest, O => f x :: rest
  | x :: rest, S n' => x :: update_nth n' f rest
  end.

Definition inject_all (l : list injection) (ps : list particle) : list particle :=
  fold_left (fun ps x => update_nth (Z.to_nat (in_index x)) (inject_one x) ps) l ps.

(** lines 246-247: bunch_inject for every bunch. *)
Definition inject_group (su : setup) (t : R) (x : group) : outcome group :=
  match g_bunch x with
  | None => Ok x
  | Some n =>
      (do l <- bunch_inject (su_geom su) (bunch_of (su_beam su) n) (su_dt su) t (su_rand_z su n t);
       Ok (Group (Some n) (inject_all l (g_parts x))))%outcome
  end.

Definition exec_beam (su : setup) (t : R) (s : sim) : outcome sim :=
  let before := BeamState (s_bunch_number s) (bunch_numbers (s_groups s)) in
  (do after <- init_beam (su_beam su) t before;
   let gs := if (current_bunch_number after =? current_bunch_number before)%Z then s_groups s
             else s_groups s ++ [new_bunch su (s_bunch_number s)] in
   do gs' <- traverse (inject_group su t) gs;
   Ok (Sim (s_fields s) (s_current s) (s_rho_bunch s) gs' (current_bunch_number after) (s_probes s)))%outcome.

(** ** step_v, src/particles.cpp lines 1296-1317 *)
Definition step_v_one (su : setup) (m : fmem) (p : particle) : outcome particle :=
  if p_alive p then
    if strict su && negb (reads_in_array (su_geom su) (interp_reads (su_geom su) (p_r p) (p_z p))) then UB else
    (do v <- push (su_pusher su) (su_dt su) (p_charge p) (p_mass p)
                  (get_efield (su_geom su) m (p_r p) (p_z p)) (get_hfield (su_geom su) m (p_r p) (p_z p)) (vel (p_phase p));
     Ok (Particle true (p_charge p) (p_mass p) (first_half (su_dt su) (set_vel v (p_phase p)))))%outcome
  else Ok p.

Definition step_v_group (su : setup) (m : fmem) (x : group) : outcome group :=
  (do ps <- traverse (step_v_one su m) (g_parts x); Ok (Group (g_bunch x) ps))%outcome.

(** ** full_current_distribution, src/particles.cpp lines 1367-1373 *)

(** src/bunch.cpp lines 127-155: Bunch::reflection_single, called instead of Particles::reflection_single for bunches:
    a particle beyond the outer wall or the right wall dies. *)
Definition bunch_reflection (g : geom) (p : particle) : particle :=
  let f := p_phase p in
  let radius_wall := r_size g - dr g / 2 in
  let longitude_wall := z_size g - dz g / 2 in
  let alive := (if Rlt_dec radius_wall (v0 (pos f)) then false else if Rlt_dec longitude_wall (v2 (pos f)) then false else p_alive p) in
  let (r2, vr2) := reflect_below (dr g / 2) (v0 (pos f)) (v0 (vel f)) in
  let (z2, vz2) := reflect_below (dz g / 2) (v2 (pos f)) (v2 (vel f)) in
  Particle alive (p_charge p) (p_mass p)
    (Phase (V3 r2 (v1 (pos f)) z2) (V3 vr2 (v1 (vel f)) vz2) (r_old f) (z_old f) (sin_theta f)).

Definition with_phase (p : particle) (f : phase) : particle := Particle (p_alive p) (p_charge p) (p_mass p) f.

(** src/particles.cpp lines 1355-1365: body of move_half_reflect. *)
Definition half_reflect (g : geom) (dt : R) (is_bunch : bool) (p : particle) : particle :=
  if p_alive p then
    if is_bunch then
      let p' := bunch_reflection g (with_phase p (half_step_pos dt (p_phase p))) in
      with_phase p' (back_position_to_rz (p_phase p'))
    else with_phase p (second_half g dt (p_phase p))
  else p.

(** lines 1018-1024 *)
Definition velocity_back (p : particle) : particle :=
  if p_alive p then with_phase p (back_velocity_to_rz (p_phase p)) else p.

(** lines 688-784: all calls of inc_j_phi *)
Definition azimuthal_incs (g : geom) (ps : list particle) : list jinc :=
  flat_map (fun p => if p_alive p then azimuthal_single g (p_charge p) (v1 (vel (p_phase p))) (p_r p) (p_z p) else []) ps.
(** lines 476-686: all calls of inc_j_r and inc_j_z *)
Definition current_incs (g : geom) (dt : R) (ps : list particle) : list jinc :=
  flat_map (fun p => current_part g dt (c_of p)) ps.

Definition moved (su : setup) (x : group) : list particle :=
  map (half_reflect (su_geom su) (su_dt su) (match g_bunch x with Some _ => true | None => false end)) (g_parts x).

Definition full_current_group (su : setup) (j : currents) (x : group) : outcome (currents * group) :=
  let g := su_geom su in
  let azimuthal := azimuthal_incs g (g_parts x) in
  let rest := current_incs g (su_dt su) (moved su x) in
  if jincs_in_array g azimuthal && jincs_in_array g rest then
    Ok (apply_jincs (apply_jincs j azimuthal) rest, Group (g_bunch x) (map velocity_back (moved su x)))
  else UB.

(** src/particlesList.cpp lines 48-52 *)
Fixpoint full_current (su : setup) (j : currents) (gs : list group) : outcome (currents * list group) :=
  match gs with
  | [] => Ok (j, [])
  | x :: rest =>
      (do y <- full_current_group su j x;
       do r <- full_current su (fst y) rest;
       Ok (fst r, snd y :: snd r))%outcome
  end.

(** ** Beam density and output *)

Definition bunches_of (gs : list group) : list (list qpart) :=
  flat_map (fun x => match g_bunch x with Some _ => [map q_of (g_parts x)] | None => [] end) gs.

(** src/loadInitParam.cpp lines 582-583 *)
Definition weight_bunches (g : geom) (rho : arr) (bs : list (list qpart)) : outcome arr :=
  if forallb (fun b => incs_in_array g (flat_map (charge_weighting_part g) b)) bs
  then Ok (fold_left (charge_weighting g) bs rho) else UB.

(** lines 338-361: the arrays that probes can show. *)
Definition shown (s : sim) (n : Z) : arr :=
  let field a i k := s_fields s (a, i, k) in
  if (n =? 0)%Z then field ER else if (n =? 1)%Z then field EPHI else if (n =? 2)%Z then field EZ
  else if (n =? 3)%Z then field HR else if (n =? 4)%Z then field HPHI else if (n =? 5)%Z then field HZ
  else if (n =? 6)%Z then s_current s J_R else if (n =? 7)%Z then s_current s J_PHI else s_current s J_Z.

(** The effect of each call. *)
Definition exec (su : setup) (a : action) (t : R) (s : sim) : outcome sim :=
  let g := su_geom su in
  let dt := su_dt su in
  match a with
  | InjectBeam => exec_beam su t s
  | CalcH => Ok (Sim (calc_hfield g dt (s_fields s)) (s_current s) (s_rho_bunch s) (s_groups s) (s_bunch_number s) (s_probes s))
  | ResetJ => Ok (Sim (s_fields s) (reset_j g (s_current s)) (s_rho_bunch s) (s_groups s) (s_bunch_number s) (s_probes s))
  | ResetRhoOld | ResetRhoNew => Ok s
  | ResetRhoBunch =>
      Ok (Sim (s_fields s) (s_current s) (reset_rho g (s_rho_bunch s)) (s_groups s) (s_bunch_number s) (s_probes s))
  | StepV =>
      (do gs <- traverse (step_v_group su (s_fields s)) (s_groups s);
       Ok (Sim (s_fields s) (s_current s) (s_rho_bunch s) gs (s_bunch_number s) (s_probes s)))%outcome
  | FullCurrent =>
      (do r <- full_current su (s_current s) (s_groups s);
       Ok (Sim (s_fields s) (fst r) (s_rho_bunch s) (snd r) (s_bunch_number s) (s_probes s)))%outcome
  | CalcE =>
      let j := s_current s in
      Ok (Sim (calc_efield g (su_medium su) dt (set_current (j J_R) (j J_PHI) (j J_Z) (s_fields s)))
              j (s_rho_bunch s) (s_groups s) (s_bunch_number s) (s_probes s))
  | WeightBunches =>
      (do rho <- weight_bunches g (s_rho_bunch s) (bunches_of (s_groups s));
       Ok (Sim (s_fields s) (s_current s) rho (s_groups s) (s_bunch_number s) (s_probes s)))%outcome
  | DumpData =>
      (do r <- dump_data g (su_frames su) t dt (shown s) (bunches_of (s_groups s)) (s_rho_bunch s) (s_probes s);
       Ok (Sim (s_fields s) (s_current s) (fst r) (s_groups s) (s_bunch_number s) (snd r)))%outcome
  end.

(** lines 471-587: the whole run. *)
Definition run (su : setup) (fuel : nat) (t end_time : R) (s : sim) : option (outcome sim) :=
  run_loop (exec su) fuel t end_time (su_dt su) s.

(** One iteration of the loop. *)
Definition one_step (su : setup) (t : R) (s : sim) : outcome sim :=
  exec_all (exec su) (map (fun a => (a, t)) iteration) s.

(** lines 146-166: the species. The particles of [species] come from load_cylindrical_spatial_distribution and
    velocity_distribution (Model/Loading.v); is_alive is true (src/particles.cpp line 44). *)
Definition plasma (l : list (macro * vec3)) : group :=
  Group None (map (fun x => Particle true (m_charge (fst x)) (m_mass (fst x))
                              (Phase (V3 (m_r (fst x)) 0 (m_z (fst x))) (snd x) 0 0 0)) l).

(** lines 88-90 and 119-121: the state at the beginning of the loop. [m0], [j0], [rho0] stand for what the memory
    holds where it is not initialised. *)
Definition start (su : setup) (m0 : fmem) (j0 : currents) (rho0 : arr) (species : list (list (macro * vec3)))
    (probes : list (probe * files)) : sim :=
  Sim (init_fields (su_geom su) m0) j0 rho0 (map plasma species) 0 probes.
