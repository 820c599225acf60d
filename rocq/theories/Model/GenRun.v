(** The main loop (src/loadInitParam.cpp lines 455-589, built without LEGACY) as a sequence of serial
    pieces and "omp for" loops over one memory, with the arithmetic as a parameter. Each iteration of a parallel loop is
    a program of loads and stores (Lib/ParProg.v), so that every distribution of iterations over threads and every
    interleaving is an execution.

    Simplifications: local variables of an iteration are not memory; arrays of objects created with "new" inside an
    iteration (get_field) are local; a read of a field outside its array gives some value (as in Model/Sim.v with
    strict = false), a write outside is undefined behaviour. The particles of a new bunch and of the species are
    parameters: their constructors run no parallel loop that reads what another iteration writes
    (src/particles.cpp line 47 sets is_alive only). The output of dump_data is not in the memory. *)
From Coq Require Import ZArith List Bool.
From Verif.Lib Require Import Outcome Par ParProg.
From Verif.Model Require Import Arith Geometry CurrentDeposit Fields Pusher GenCode.
Import ListNotations.

(** Members of the particle arrays (include/particles.h lines 80-104): is_alive, charge_array, mass_array, pos, vel,
    pos_old, sin_theta_r, cos_theta_r. *)
Inductive pfield := ALIVE | CHARGE | MASS | POS0 | POS1 | POS2 | VEL0 | VEL1 | VEL2 | OLD0 | OLD2 | SIN | COS.

Definition pfield_eqb (a b : pfield) : bool :=
  match a, b with
  | ALIVE, ALIVE | CHARGE, CHARGE | MASS, MASS | POS0, POS0 | POS1, POS1 | POS2, POS2 | VEL0, VEL0 | VEL1, VEL1
  | VEL2, VEL2 | OLD0, OLD0 | OLD2, OLD2 | SIN, SIN | COS, COS => true
  | _, _ => false
  end.

(** c_rho_old, c_rho_bunch, c_rho_new *)
Inductive rarr := RHO_OLD | RHO_BUNCH | RHO_NEW.
Definition rarr_eqb (a b : rarr) : bool :=
  match a, b with RHO_OLD, RHO_OLD | RHO_BUNCH, RHO_BUNCH | RHO_NEW, RHO_NEW => true | _, _ => false end.

(** An element of a field or current array, of a density array, a member of particle [i] of element [n] of part_list,
    the generator of src/math/rand.cpp line 8. *)
Inductive place := FLD (x : loc) | RHO (a : rarr) (i k : Z) | PT (n : nat) (i : Z) (f : pfield) | GEN.

Definition place_eqb (x y : place) : bool :=
  match x, y with
  | FLD a, FLD b => loc_eqb a b
  | RHO a i k, RHO b i' k' => rarr_eqb a b && (i =? i')%Z && (k =? k')%Z
  | PT n i f, PT n' i' f' => (n =? n')%nat && (i =? i')%Z && pfield_eqb f f'
  | GEN, GEN => true
  | _, _ => false
  end.

Lemma place_eqb_spec : forall x y, reflect (x = y) (place_eqb x y).
Proof.
  intros [x|a i k|n i f|] [y|b i' k'|n' i' f'|]; cbn; try (constructor; congruence).
  - destruct (loc_eqb_spec x y); constructor; congruence.
  - destruct (Z.eqb_spec i i') as [->|N]; [|rewrite andb_false_r; constructor; congruence].
    destruct (Z.eqb_spec k k') as [->|N]; [|rewrite !andb_false_r; constructor; congruence].
    destruct a, b; cbn; constructor; congruence.
  - destruct (Nat.eqb_spec n n') as [->|N]; [|cbn; constructor; congruence].
    destruct (Z.eqb_spec i i') as [->|N]; [|cbn; constructor; congruence].
    destruct f, f'; cbn; constructor; congruence.
Qed.

Section Run.
Variable A : arith.
Local Notation num := (num A).

Inductive value := VN (x : num) | VB (b : bool) | VG (state : Z).
Notation cmem := (place -> value).
Notation code := (@prog place value).

Definition ldn (l : place) (k : num -> code) : code :=
  Ld l (fun v => match v with VN x => k x | _ => Halt None end).
Definition ldb (l : place) (k : bool -> code) : code :=
  Ld l (fun v => match v with VB b => k b | _ => Halt None end).
Definition stn (l : place) (x : num) (p : code) : code := St l (VN x) p.

Fixpoint ldns (ls : list place) (k : list num -> code) : code :=
  match ls with
  | [] => k []
  | l :: rest => ldn l (fun x => ldns rest (fun xs => k (x :: xs)))
  end.

(** ** Fields: one iteration of a loop of Model/GenCode.v *)
Definition asg_code (a : gasg A) : code :=
  ldns (map FLD (Par.reads a)) (fun xs => stn (FLD (tgt a)) (rhs a xs) Done).
Definition body_code (l : list (gasg A)) : code := pconcat (map asg_code l).

(** ** Particles *)

(** The four terms of one component of get_field. *)
Fixpoint ld_terms (l : list (gterm A)) (s : num) (k : num -> code) : code :=
  match l with
  | [] => k s
  | t :: rest => ldn (FLD (t_at A t)) (fun x => ld_terms rest (gterm_add A s t x) k)
  end.

(** EField::get_field: E_r, E_z, E_phi; HField::get_field: H_z, H_r, H_phi *)
Definition ld_efield (g : ggeom A) (r z : num) (k : gvec A -> code) : code :=
  ld_terms (gterms_half_r A ER g r z) (of_int A 0) (fun er =>
  ld_terms (gterms_half_z A EZ g r z) (of_int A 0) (fun ez =>
  ld_terms (gterms_whole A EPHI g r z) (of_int A 0) (fun ephi => k (GV A er ephi ez)))).
Definition ld_hfield (g : ggeom A) (r z : num) (k : gvec A -> code) : code :=
  ld_terms (gterms_half_r A HZH g r z) (of_int A 0) (fun hz =>
  ld_terms (gterms_half_z A HRH g r z) (of_int A 0) (fun hr =>
  ld_terms (gterms_half_both A HPHIH g r z) (of_int A 0) (fun hphi => k (GV A hr hphi hz)))).

Section Particle.
Variables (n : nat) (i : Z).
Local Notation P f := (PT n i f).

Definition ld_vec (a b c : pfield) (k : gvec A -> code) : code :=
  ldn (P a) (fun x => ldn (P b) (fun y => ldn (P c) (fun z => k (GV A x y z)))).
Definition st_vec (a b c : pfield) (v : gvec A) (p : code) : code :=
  stn (P a) (g0 A v) (stn (P b) (g1 A v) (stn (P c) (g2 A v) p)).

(** src/particles.cpp lines 1025-1254 *)
Definition push_code (pu : pusher) (g : ggeom A) (dt : num) : code :=
  ldn (P POS0) (fun r => ldn (P POS2) (fun z =>
  if finite A r && finite A z then
    ld_efield g r z (fun e => ld_hfield g r z (fun h =>
    ldn (P CHARGE) (fun q => ldn (P MASS) (fun m =>
    ld_vec VEL0 VEL1 VEL2 (fun v =>
    match gpush A pu dt q m e h v with
    | Ok v' => st_vec VEL0 VEL1 VEL2 v' Done
    | Exit c => Halt (Some c)
    | UB => Halt None
    end)))))
  else Halt (Some 1%Z))).

(** lines 1256-1260 *)
Definition dump_old_code : code :=
  ldn (P POS0) (fun r => stn (P OLD0) r (ldn (P POS2) (fun z => stn (P OLD2) z Done))).

(** lines 1270-1284 *)
Definition half_step_code (dt : num) : code :=
  ldn (P POS0) (fun r => ldn (P POS2) (fun z =>
  if finite A r && finite A z then
    let half_dt := div A dt (of_int A 2) in
    let advance p v := ldn (P p) (fun x => ldn (P v) (fun u => stn (P p) (add A x (mul A u half_dt)) Done)) in
    pseq (advance POS0 VEL0) (pseq (advance POS1 VEL1) (advance POS2 VEL2))
  else Halt (Some 1%Z))).

(** lines 1286-1294 *)
Definition back_position_code : code :=
  ldn (P POS0) (fun x => ldn (P POS1) (fun y =>
  let r := root A (add A (mul A x x) (mul A y y)) in
  stn (P SIN) (div A y r) (stn (P POS0) r (stn (P POS1) (of_int A 0) Done)))).

(** lines 1005-1016 *)
Definition back_velocity_code : code :=
  ldn (P SIN) (fun s =>
  let c := root A (sub A (of_int A 1) (mul A s s)) in
  stn (P COS) c (ldn (P VEL0) (fun x => ldn (P VEL1) (fun y =>
  stn (P VEL0) (sub A (mul A c x) (mul A s y)) (stn (P VEL1) (add A (mul A s x) (mul A c y)) Done))))).

(** One of the tests of reflection_single: if (above ? pos > wall : pos < wall) { pos = total - pos; vel = -vel; } *)
Definition reflect_code (above : bool) (p v : pfield) (wall total : num) : code :=
  ldn (P p) (fun x =>
  if (if above then ltb A wall x else ltb A x wall) then
    stn (P p) (sub A total x) (ldn (P v) (fun u => stn (P v) (opp A u) Done))
  else Done).

(** lines 1318-1353 *)
Definition reflection_code (g : ggeom A) : code :=
  let two := of_int A 2 in
  let radius_wall := sub A (gr_size A g) (div A (gdr A g) two) in
  let longitude_wall := sub A (gz_size A g) (div A (gdz A g) two) in
  pseq (reflect_code true POS0 VEL0 radius_wall (mul A radius_wall two))
  (pseq (reflect_code true POS2 VEL2 longitude_wall (mul A longitude_wall two))
  (pseq (reflect_code false POS0 VEL0 (div A (gdr A g) two) (gdr A g))
        (reflect_code false POS2 VEL2 (div A (gdz A g) two) (gdz A g)))).

(** src/bunch.cpp lines 127-155 *)
Definition die_code (p : pfield) (wall : num) : code :=
  ldn (P p) (fun x => if ltb A wall x then St (P ALIVE) (VB false) Done else Done).
Definition bunch_reflection_code (g : ggeom A) : code :=
  let two := of_int A 2 in
  pseq (die_code POS0 (sub A (gr_size A g) (div A (gdr A g) two)))
  (pseq (die_code POS2 (sub A (gz_size A g) (div A (gdz A g) two)))
  (pseq (reflect_code false POS0 VEL0 (div A (gdr A g) two) (gdr A g))
        (reflect_code false POS2 VEL2 (div A (gdz A g) two) (gdz A g)))).

Definition if_alive (p : code) : code := ldb (P ALIVE) (fun b => if b then p else Done).

(** src/particles.cpp lines 1299-1316, 1358-1364, 1020-1022 *)
Definition step_v_code (pu : pusher) (g : ggeom A) (dt : num) : code :=
  if_alive (pseq (push_code pu g dt) (pseq dump_old_code (pseq (half_step_code dt) back_position_code))).
Definition half_reflect_code (g : ggeom A) (dt : num) (is_bunch : bool) : code :=
  if_alive (pseq (half_step_code dt)
           (pseq (if is_bunch then bunch_reflection_code g else reflection_code g) back_position_code)).
Definition velocity_back_code : code := if_alive back_velocity_code.

(** Current::inc_j_r, inc_j_phi, inc_j_z (src/current.cpp lines 107-123), ChargeDensity::inc_rho *)
Definition jplace (c : jcomp) (r k : Z) : place :=
  FLD (match c with J_R => JR | J_PHI => JPHI | J_Z => JZ end, r, k).
Definition inside (g : ggeom A) (r k : Z) : bool := ((0 <=? r) && (r <? gn_r A g) && (0 <=? k) && (k <? gn_z A g))%Z.
Definition inc_code (g : ggeom A) (l : place) (r k : Z) (v : num) (p : code) : code :=
  if inside g r k then ldn l (fun x => stn l (add A x v) p) else Halt None.
Fixpoint jincs_code (g : ggeom A) (l : list (gjinc A)) : code :=
  match l with
  | [] => Done
  | GJInc _ c (GInc _ r k v) :: rest => inc_code g (jplace c r k) r k v (jincs_code g rest)
  end.
Fixpoint incs_code (g : ggeom A) (a : rarr) (l : list (ginc A)) : code :=
  match l with
  | [] => Done
  | GInc _ r k v :: rest => inc_code g (RHO a r k) r k v (incs_code g a rest)
  end.

(** lines 694-783 *)
Definition azimuthal_code (g : ggeom A) : code :=
  if_alive (ldn (P POS0) (fun r => ldn (P POS2) (fun z => ldn (P CHARGE) (fun q => ldn (P VEL1) (fun v =>
    jincs_code g (gazimuthal_single A g q v r z)))))).
(** lines 481-685 *)
Definition current_code (g : ggeom A) (dt : num) : code :=
  if_alive (ldn (P POS0) (fun r => ldn (P POS2) (fun z => ldn (P OLD0) (fun r' => ldn (P OLD2) (fun z' =>
    ldn (P CHARGE) (fun q => jincs_code g (gcurrent_single A g dt q r z r' z'))))))).
(** lines 119-225 *)
Definition charge_code (g : ggeom A) (a : rarr) : code :=
  if_alive (ldn (P POS0) (fun r => ldn (P POS2) (fun z =>
    if finite A r && finite A z then
      ldn (P CHARGE) (fun q => incs_code g a (gcharge_weighting_single A g q r z))
    else Halt (Some 1%Z)))).

(** src/bunch.cpp lines 114-116 *)
Definition inject_code (z v : num) : code := stn (P POS2) z (stn (P VEL2) v (St (P ALIVE) (VB true) Done)).

(** The constructor of a particle array element, as a store of all members. *)
Definition create_code (p : gparticle A) : code :=
  let f := gph A p in
  St (P ALIVE) (VB (galive A p)) (stn (P CHARGE) (gcharge A p) (stn (P MASS) (gmass A p)
  (st_vec POS0 POS1 POS2 (gpos A f) (st_vec VEL0 VEL1 VEL2 (gvel A f)
  (stn (P OLD0) (gr_old A f) (stn (P OLD2) (gz_old A f) (stn (P SIN) (gsin A f) Done))))))).
End Particle.

(** ** Serial pieces and parallel loops *)
Inductive piece : Type :=
| Serial (p : code)
| Parallel {I : Type} (idx : list I) (body : I -> code).

(** src/bunch.cpp lines 106-110: with TESTMODE random_reverse(number of the particle, 11), a function; otherwise
    uniform(), which reads and changes the state of the generator shared by all threads (src/math/rand.cpp). *)
Inductive generator := Reverse (f : Z -> num) | Uniform (next : Z -> Z) (out : Z -> num).

(** The configuration. [c_bunch] is the particles of bunch number k as its constructor leaves them. *)
Record config := Config {
  c_geom : ggeom A; c_medium : gmedium A; c_dt : num; c_pusher : pusher;
  c_species : list Z;                  (* number of macroparticles of each species *)
  c_length : num; c_distance : num; c_velocity : num; c_bunches : Z; c_macro : Z;
  c_bunch : Z -> list (gparticle A); c_rand : generator }.

Definition c_duration (c : config) : num := div A (c_length c) (c_velocity c).
Definition c_hole (c : config) : num := div A (c_distance c) (c_velocity c).

(** current_bunch_number is also the number of bunches in c_bunches: a bunch is only erased after line 199 has read an
    uninitialised variable. Position of bunch number k in part_list: *)
Definition bunch_pos (c : config) (k : Z) : nat := (length (c_species c) + Z.to_nat k)%nat.
(** part_list: position, number of macroparticles, is it a bunch *)
Definition groups (c : config) (nb : Z) : list (nat * Z * bool) :=
  combine (combine (seq 0 (length (c_species c))) (c_species c)) (repeat false (length (c_species c)))
  ++ map (fun k => (bunch_pos c k, c_macro c, true)) (zrange 0 nb).

(** src/loadInitParam.cpp lines 185-199: the test that leads to the read of the uninitialised variable *)
Definition erase_reached (c : config) (t : num) (nb : Z) : bool :=
  let estimated := div A (sub A (sub A t (div A (gz_size A (c_geom c)) (c_velocity c))) (c_duration c))
                         (add A (c_duration c) (c_hole c)) in
  (1 <? nb)%Z && existsb (fun k => ltb A (of_int A k) estimated) (zrange 0 nb).
(** lines 219-220 *)
Definition creates (c : config) (t : num) (nb : Z) : bool :=
  leb A (mul A (of_int A nb) (add A (c_duration c) (c_hole c))) t && (nb <? c_bunches c)%Z.

Definition ld_rand (gen : generator) (x : Z) (k : num -> code) : code :=
  match gen with
  | Reverse f => k (f x)
  | Uniform next out => Ld GEN (fun v => match v with VG s => St GEN (VG (next s)) (k (out s)) | _ => Halt None end)
  end.

(** src/bunch.cpp lines 87-124 for bunch number k *)
Definition inject_piece (c : config) (t : num) (k : Z) : piece :=
  let duration := c_duration c in
  let b := of_int A k in
  let bunch_time_begin := add A (mul A duration b) (mul A (c_hole c) b) in
  let bunch_time_end := add A bunch_time_begin duration in
  let dl := mul A (c_velocity c) (c_dt c) in
  let steps_amount := ceil_int A (div A duration (c_dt c)) in
  if (steps_amount =? 0)%Z then Serial (Halt None) else
  let particles_in_step := (c_macro c / steps_amount)%Z in
  let start_number := trunc_int A (mul A (div A (sub A t bunch_time_begin) (c_dt c)) (of_int A particles_in_step)) in
  let half_z_cell_size := div A (gdz A (c_geom c)) (of_int A 2) in
  if leb A bunch_time_begin t && ltb A t bunch_time_end then
    Parallel (zrange 0 particles_in_step) (fun i =>
      let x := (i + start_number)%Z in
      ld_rand (c_rand c) x (fun rand_z =>
      if ((0 <=? x) && (x <? c_macro c))%Z then
        inject_code (bunch_pos c k) x (add A (mul A dl rand_z) half_z_cell_size) (c_velocity c)
      else Done))
  else Serial Done.

(** src/chargeDensity.cpp lines 42-48, src/current.cpp lines 125-135 *)
Definition reset_rho_piece (c : config) (a : rarr) : piece :=
  Parallel (cells 0 (gn_r A (c_geom c)) 0 (gn_z A (c_geom c))) (fun x => stn (RHO a (fst x) (snd x)) (of_int A 0) Done).
Definition reset_j_piece (c : config) : piece :=
  Parallel (cells 0 (gn_r A (c_geom c)) 0 (gn_z A (c_geom c)))
    (fun x => stn (FLD (JR, fst x, snd x)) (of_int A 0) (stn (FLD (JPHI, fst x, snd x)) (of_int A 0)
             (stn (FLD (JZ, fst x, snd x)) (of_int A 0) Done))).

Definition field_pieces (loops : list (list (list (gasg A)))) : list piece := map (fun l => Parallel l body_code) loops.

(** src/loadInitParam.cpp lines 471-585 for one iteration, with nb bunches after its init_beam *)
Definition iteration_pieces (c : config) (nb : Z) : list piece :=
  let g := c_geom c in
  let gs := groups c nb in
  let each n f := Serial (pconcat (map f (zrange 0 n))) in
  field_pieces (ghfield_loops A g (c_dt c))
  ++ [reset_j_piece c; reset_rho_piece c RHO_OLD; reset_rho_piece c RHO_BUNCH]
  ++ map (fun x => match x with (n, cnt, _) =>
            Parallel (zrange 0 cnt) (fun i => step_v_code n i (c_pusher c) g (c_dt c)) end) gs
  ++ flat_map (fun x => match x with (n, cnt, b) =>
       [ each cnt (fun i => azimuthal_code n i g);
         Parallel (zrange 0 cnt) (fun i => half_reflect_code n i g (c_dt c) b);
         each cnt (fun i => current_code n i g (c_dt c));
         Parallel (zrange 0 cnt) (fun i => velocity_back_code n i) ] end) gs
  ++ field_pieces (gefield_loops A g (c_medium c) (c_dt c))
  ++ [reset_rho_piece c RHO_NEW]
  ++ map (fun k => each (c_macro c) (fun i => charge_code (bunch_pos c k) i g RHO_BUNCH)) (zrange 0 nb).

(** lines 168-248 *)
Definition beam_pieces (c : config) (t : num) (nb : Z) : list piece * Z :=
  if erase_reached c t nb then ([Serial (Halt None)], nb) else
  let nb' := if creates c t nb then (nb + 1)%Z else nb in
  let create := if creates c t nb
    then [Serial (pconcat (map (fun x => create_code (bunch_pos c nb) (fst x) (snd x))
                    (combine (map Z.of_nat (seq 0 (length (c_bunch c nb)))) (c_bunch c nb))))] else [] in
  (create ++ map (inject_piece c t) (zrange 0 nb'), nb').

(** [fuel] iterations of the loop, from time t with nb bunches, as long as t < end_time. *)
Fixpoint run_pieces (c : config) (fuel : nat) (t end_time : num) (nb : Z) : list piece :=
  match fuel with
  | O => []
  | S fuel' =>
      if ltb A t end_time then
        let '(beam, nb') := beam_pieces c t nb in
        beam ++ iteration_pieces c nb' ++ run_pieces c fuel' (add A t (c_dt c)) end_time nb'
      else []
  end.

(** ** Executions *)

(** The pieces one after the other, every parallel loop with some number of threads, some distribution of the
    iterations and some interleaving. *)
Definition piece_runs (x : piece) (m : cmem) (o : outcome cmem) : Prop :=
  match x with
  | Serial p => o = prun place_eqb p m
  | Parallel idx body => omp_progs place_eqb body idx m o
  end.

Fixpoint pieces_run (l : list piece) (m : cmem) (o : outcome cmem) : Prop :=
  match l with
  | [] => o = Ok m
  | x :: rest => exists o1, piece_runs x m o1 /\ match o1 with Ok m' => pieces_run rest m' o | _ => o = o1 end
  end.

(** One thread. *)
Definition piece_alone (x : piece) (m : cmem) : outcome cmem :=
  match x with
  | Serial p => prun place_eqb p m
  | Parallel idx body => serial place_eqb (map body idx) m
  end.
Fixpoint pieces_alone (l : list piece) (m : cmem) : outcome cmem :=
  match l with
  | [] => Ok m
  | x :: rest => bind (piece_alone x m) (pieces_alone rest)
  end.

End Run.
