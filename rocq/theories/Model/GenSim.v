(** One iteration of the main loop (src/loadInitParam.cpp lines 471-587, built without LEGACY, TESTMODE) as a function on
    states, for any arithmetic: what Model/GenRun.v does with one thread, without memory. Same simplifications as
    there; c_rho_old and c_rho_new, which are only reset, are left out. *)
From Coq Require Import ZArith List Bool.
From Verif.Lib Require Import Outcome Par.
From Verif.Model Require Sim.
From Verif.Model Require Import Arith Geometry CurrentDeposit Fields Pusher GenCode GenRun.
Import ListNotations.

Section GenSim.
Variable A : arith.
Local Notation num := (num A).

(** Fields and currents, c_rho_bunch, part_list (is the element a bunch, its particles), current_bunch_number. *)
Record gsim := GSim {
  gs_fields : loc -> num;
  gs_rho : Z -> Z -> num;
  gs_groups : list (bool * list (gparticle A));
  gs_bunches : Z }.

Fixpoint ofold {X S : Type} (f : X -> S -> outcome S) (l : list X) (s : S) : outcome S :=
  match l with
  | [] => Ok s
  | x :: rest => (do s' <- f x s; ofold f rest s')%outcome
  end.

(** Current::inc_j_*, ChargeDensity::inc_rho *)
Definition gj_loc (c : gjinc A) : loc :=
  (match gj_comp A c with J_R => JR | J_PHI => JPHI | J_Z => JZ end, grow A (gj_inc A c), gcol A (gj_inc A c)).
Definition gadd_j (g : ggeom A) (c : gjinc A) (f : loc -> num) : outcome (loc -> num) :=
  if inside A g (grow A (gj_inc A c)) (gcol A (gj_inc A c))
  then Ok (fun x => if loc_eqb x (gj_loc c) then add A (f (gj_loc c)) (gval A (gj_inc A c)) else f x) else UB.
Definition gadd_rho (g : ggeom A) (c : ginc A) (rho : Z -> Z -> num) : outcome (Z -> Z -> num) :=
  if inside A g (grow A c) (gcol A c)
  then Ok (fun i k => if ((i =? grow A c) && (k =? gcol A c))%Z then add A (rho (grow A c) (gcol A c)) (gval A c) else rho i k)
  else UB.

Definition gazimuthal_one (g : ggeom A) (p : gparticle A) (f : loc -> num) : outcome (loc -> num) :=
  if galive A p then
    ofold (gadd_j g) (gazimuthal_single A g (gcharge A p) (g1 A (gvel A (gph A p))) (g0 A (gpos A (gph A p))) (g2 A (gpos A (gph A p)))) f
  else Ok f.
Definition gcurrent_one (g : ggeom A) (dt : num) (p : gparticle A) (f : loc -> num) : outcome (loc -> num) :=
  if galive A p then
    ofold (gadd_j g) (gcurrent_single A g dt (gcharge A p) (g0 A (gpos A (gph A p))) (g2 A (gpos A (gph A p)))
                        (gr_old A (gph A p)) (gz_old A (gph A p))) f
  else Ok f.
Definition gcharge_one (g : ggeom A) (p : gparticle A) (rho : Z -> Z -> num) : outcome (Z -> Z -> num) :=
  if galive A p then
    let r := g0 A (gpos A (gph A p)) in
    let z := g2 A (gpos A (gph A p)) in
    if finite A r && finite A z then ofold (gadd_rho g) (gcharge_weighting_single A g (gcharge A p) r z) rho else Exit 1
  else Ok rho.

(** src/bunch.cpp lines 87-124 *)
Definition ginject_one (z v : num) (p : gparticle A) : gparticle A :=
  let f := gph A p in
  GParticle A true (gcharge A p) (gmass A p)
    (GPhase A (GV A (g0 A (gpos A f)) (g1 A (gpos A f)) z) (GV A (g0 A (gvel A f)) (g1 A (gvel A f)) v)
            (gr_old A f) (gz_old A f) (gsin A f)).
Definition ginject (c : config A) (t : num) (k : Z) (ps : list (gparticle A)) : outcome (list (gparticle A)) :=
  let duration := c_duration A c in
  let b := of_int A k in
  let bunch_time_begin := add A (mul A duration b) (mul A (c_hole A c) b) in
  let bunch_time_end := add A bunch_time_begin duration in
  let dl := mul A (c_velocity A c) (c_dt A c) in
  let steps_amount := ceil_int A (div A duration (c_dt A c)) in
  if (steps_amount =? 0)%Z then UB else
  let particles_in_step := (c_macro A c / steps_amount)%Z in
  let start_number := trunc_int A (mul A (div A (sub A t bunch_time_begin) (c_dt A c)) (of_int A particles_in_step)) in
  let half_z_cell_size := div A (gdz A (c_geom A c)) (of_int A 2) in
  if leb A bunch_time_begin t && ltb A t bunch_time_end then
    Ok (fold_left (fun ps i =>
          let x := (i + start_number)%Z in
          if ((0 <=? x) && (x <? c_macro A c))%Z then
            match c_rand A c with
            | Reverse _ f => Sim.update_nth (Z.to_nat x) (ginject_one (add A (mul A dl (f x)) half_z_cell_size) (c_velocity A c)) ps
            | Uniform _ _ _ => ps
            end
          else ps) (zrange 0 particles_in_step) ps)
  else Ok ps.

Fixpoint ginject_groups (c : config A) (t : num) (k : Z) (gs : list (bool * list (gparticle A)))
    : outcome (list (bool * list (gparticle A))) :=
  match gs with
  | [] => Ok []
  | (false, ps) :: rest => (do rest' <- ginject_groups c t k rest; Ok ((false, ps) :: rest'))%outcome
  | (true, ps) :: rest =>
      (do ps' <- ginject c t k ps; do rest' <- ginject_groups c t (k + 1) rest; Ok ((true, ps') :: rest'))%outcome
  end.

(** src/loadInitParam.cpp lines 168-248 *)
Definition gbeam (c : config A) (t : num) (s : gsim) : outcome gsim :=
  let nb := gs_bunches s in
  if erase_reached A c t nb then UB else
  let nb' := if creates A c t nb then (nb + 1)%Z else nb in
  let gs := if creates A c t nb then gs_groups s ++ [(true, c_bunch A c nb)] else gs_groups s in
  (do gs' <- ginject_groups c t 0 gs; Ok (GSim (gs_fields s) (gs_rho s) gs' nb'))%outcome.

Definition greset_j (g : ggeom A) (f : loc -> num) : loc -> num :=
  fun x => match x with (a, i, k) =>
    match a with JR | JPHI | JZ => if inside A g i k then of_int A 0 else f x | _ => f x end end.
Definition greset_rho (g : ggeom A) (rho : Z -> Z -> num) : Z -> Z -> num :=
  fun i k => if inside A g i k then of_int A 0 else rho i k.

Definition gstep_v_group (c : config A) (f : loc -> num) (x : bool * list (gparticle A)) : outcome (bool * list (gparticle A)) :=
  (do ps <- Sim.traverse (gstep_v_one A (c_pusher A c) (c_geom A c) (c_dt A c) f) (snd x); Ok (fst x, ps))%outcome.

(** src/particles.cpp lines 1367-1373 *)
Definition gfull_current_group (c : config A) (x : bool * list (gparticle A)) (f : loc -> num)
    : outcome ((loc -> num) * (bool * list (gparticle A))) :=
  let g := c_geom A c in
  (do f <- ofold (gazimuthal_one g) (snd x) f;
   do ps <- Sim.traverse (ghalf_reflect A g (c_dt A c) (fst x)) (snd x);
   do f <- ofold (gcurrent_one g (c_dt A c)) ps f;
   Ok (f, (fst x, map (gvelocity_back A) ps)))%outcome.
Fixpoint gfull_current (c : config A) (gs : list (bool * list (gparticle A))) (f : loc -> num)
    : outcome ((loc -> num) * list (bool * list (gparticle A))) :=
  match gs with
  | [] => Ok (f, [])
  | x :: rest =>
      (do y <- gfull_current_group c x f;
       do r <- gfull_current c rest (fst y);
       Ok (fst r, snd y :: snd r))%outcome
  end.

Definition gbunches_of (gs : list (bool * list (gparticle A))) : list (list (gparticle A)) :=
  flat_map (fun x : bool * list (gparticle A) => if fst x then [snd x] else []) gs.

(** One iteration without dump_data. *)
Definition giteration (c : config A) (t : num) (s : gsim) : outcome gsim :=
  (do s <- gbeam c t s;
   let g := c_geom A c in
   let f := greset_j g (gcalc_hfield A g (c_dt A c) (gs_fields s)) in
   let rho := greset_rho g (gs_rho s) in
   do gs <- Sim.traverse (gstep_v_group c f) (gs_groups s);
   do r <- gfull_current c gs f;
   let f := gcalc_efield A g (c_medium A c) (c_dt A c) (fst r) in
   do rho <- ofold (fun ps rho => ofold (gcharge_one g) ps rho) (gbunches_of (snd r)) rho;
   Ok (GSim f rho (snd r) (gs_bunches s)))%outcome.

(** [fuel] iterations, as long as t < end_time *)
Fixpoint gsim_run (c : config A) (fuel : nat) (t end_time : num) (s : gsim) : outcome gsim :=
  match fuel with
  | O => Ok s
  | S fuel' =>
      if ltb A t end_time then
        (do s' <- giteration c t s; gsim_run c fuel' (add A t (c_dt A c)) end_time s')%outcome
      else Ok s
  end.

End GenSim.
