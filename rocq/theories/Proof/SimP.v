(** Proofs about whole runs. *)
From Coq Require Import Reals ZArith Lra Lia Psatz List Bool.
From Verif.Lib Require Import RAux Grid Outcome Par.
From Verif.Model Require Import Constants Geometry ChargeDeposit CurrentDeposit Fields Interp Pusher Motion Loading
  Bunch Dump MainLoop Sim.
From Verif.Spec Require Import Dynamics Domain Steps Whole.
From Verif.Proof Require Import GeometryP ChargeP CurrentP CurrentP4 FieldsP MaxwellP PusherP MotionP InterpP BunchP MainLoopP.
Import ListNotations.
Local Open Scope R_scope.

(** ** Lists *)

Lemma traverse_ok : forall {A B : Type} (f : A -> outcome B) (P : A -> Prop) (Q : A -> B -> Prop),
  (forall x, P x -> exists y, f x = Ok y /\ Q x y) ->
  forall l, Forall P l -> exists l', traverse f l = Ok l' /\ Forall2 Q l l'.
Proof.
  intros A B f P Q H l F. induction F as [|x l Hx _ IH]; [exists []; now split|].
  destruct (H x Hx) as (y & E & Hy). destruct IH as (l' & E' & F'). exists (y :: l'). cbn [traverse].
  rewrite E. cbn [bind]. rewrite E'. cbn [bind]. split; [reflexivity|]. now constructor.
Qed.

Lemma Forall2_right : forall {A B : Type} (Q : A -> B -> Prop) (R : B -> Prop) l l',
  (forall x y, Q x y -> R y) -> Forall2 Q l l' -> Forall R l'.
Proof. intros A B Q R l l' H F. induction F; constructor; eauto. Qed.

Lemma Forall2_weaken : forall {A B : Type} (Q R : A -> B -> Prop) l l',
  (forall x y, Q x y -> R x y) -> Forall2 Q l l' -> Forall2 R l l'.
Proof. intros A B Q R l l' H F. induction F; constructor; auto. Qed.

Lemma Forall2_nth : forall {A B : Type} (Q : A -> B -> Prop) l l' i y,
  Forall2 Q l l' -> nth_error l' i = Some y -> exists x, nth_error l i = Some x /\ Q x y.
Proof.
  intros A B Q l l' i y F. revert i. induction F as [|x z l l' H F IH]; intros i E; [destruct i; discriminate|].
  destruct i as [|i]; cbn in *; [injection E as <-; now exists x|now apply IH].
Qed.

Lemma update_nth_nth : forall {A : Type} (f : A -> A) l n i y,
  nth_error (update_nth n f l) i = Some y ->
  exists x, nth_error l i = Some x /\ y = if (i =? n)%nat then f x else x.
Proof.
  intros A f. induction l as [|a l IH]; intros n i y E; [destruct n, i; discriminate|].
  destruct n as [|n], i as [|i]; cbn in *; try (injection E as <-; eexists; split; reflexivity).
  - exists y. now split.
  - now apply IH.
Qed.

Lemma in_array_true : forall nr nz i k, in_array nr nz i k = true <-> inside nr nz i k.
Proof. intros. unfold in_array, inside. rewrite !andb_true_iff, !Z.leb_le, !Z.ltb_lt. lia. Qed.

Lemma incs_true : forall g l, Forall (inc_inside (n_r g) (n_z g)) l -> incs_in_array g l = true.
Proof.
  intros g l H. unfold incs_in_array. apply forallb_forall. rewrite Forall_forall in H. intros c Hc.
  apply in_array_true. now apply H.
Qed.

Lemma jincs_true : forall g l, Forall (jinside g) l -> jincs_in_array g l = true.
Proof. intros g l H. unfold jincs_in_array. apply incs_true. apply Forall_map. exact H. Qed.

Lemma reads_true : forall g l, (forall x, In x l -> loc_inside g x) -> reads_in_array g l = true.
Proof.
  intros g l H. unfold reads_in_array. apply forallb_forall. intros x Hx. specialize (H x Hx). destruct x as [[a i] k].
  apply in_array_true. exact H.
Qed.

(** ** One step of one particle *)

(** The radius grows by at most 2 s per step. *)
Lemma radius_growth : forall g dt s p v, geom_ok g -> (3 <= n_r g)%Z -> (3 <= n_z g)%Z -> 0 < dt ->
  0 <= s <= step_limit g -> slow g dt s v -> nearly_inside g s p ->
  v0 (pos (second_half g dt (first_half dt (set_vel v p)))) <= v0 (pos p) + 2 * s.
Proof.
  intros g dt s p v Hg N1 N2 Ht Hs Hv Hp.
  destruct (half_bounds g dt s p v Hg Ht Hs Hv Hp) as ((H1 & H2) & _ & H3 & H4).
  destruct (second_half_spec g dt s p v Hg N1 N2 Ht Hs Hv Hp) as (x & y & z' & P & _ & _ & _ & _ & EY & YY & X & Z & K & _).
  destruct Hp as (Y & R1 & R2 & W1 & W2). assert (D := dr_pos g Hg). assert (L := step_limit_lt g Hg).
  assert (RR := domain_r g Hg N1).
  assert (AB := slow_r g dt s v Hv). set (a := v0 v * (dt / 2)) in *. rewrite <- EY in AB.
  assert (A1 : a <= s) by (apply sq_le; nra). assert (A2 : - a <= s) by (apply sq_le; nra).
  rewrite P. cbn [v0]. set (h := half_r dt p v) in *.
  destruct K as [K|[[K K']|[K K']]].
  - rewrite K. assert (U := hyp_move_up h a y s ltac:(lra) ltac:(lra) AB). lra.
  - assert (U := hyp_move_up h a y s ltac:(lra) ltac:(lra) AB).
    assert (sqrt (x * x + y * y) <= sqrt ((h + a) * (h + a) + y * y)); [|lra].
    apply sqrt_le_1_alt. nra.
  - assert (Q : (x - (dr g / 2 + s)) * (x - (dr g / 2 + s)) + y * y <= s * s \/ x <= dr g / 2 + s).
    { destruct (Rle_or_lt x (dr g / 2 + s)) as [G|G]; [now right|left]. nra. }
    assert (U : sqrt (x * x + y * y) <= dr g / 2 + s + s); [|lra].
    destruct Q as [Q|Q].
    + assert (U := hyp_move_up (dr g / 2 + s) (x - (dr g / 2 + s)) y s ltac:(lra) ltac:(lra) Q).
      replace (dr g / 2 + s + (x - (dr g / 2 + s))) with x in U by ring. exact U.
    + apply sq_le; [lra|]. rewrite hyp_sq. nra.
Qed.

(** For a bunch particle that survives, the walls act as for any other particle. *)
Lemma bunch_reflection_alive : forall g p, geom_ok g -> (3 <= n_r g)%Z -> (3 <= n_z g)%Z ->
  p_alive (bunch_reflection g p) = true -> p_alive p = true /\ p_phase (bunch_reflection g p) = reflection g (p_phase p).
Proof.
  intros g p Hg N1 N2 H. unfold bunch_reflection, reflection in *. cbv zeta in *.
  unfold reflect_above, reflect_below in *.
  destruct (Rlt_dec (r_size g - dr g / 2) (v0 (pos (p_phase p)))) as [A|A];
  destruct (Rlt_dec (z_size g - dz g / 2) (v2 (pos (p_phase p)))) as [B|B];
  repeat match goal with |- context [Rlt_dec ?a ?b] => destruct (Rlt_dec a b) end;
  repeat match goal with H : context [Rlt_dec ?a ?b] |- _ => destruct (Rlt_dec a b) end;
  cbn in *; try discriminate; try contradiction; auto.
Qed.

Lemma bunch_reflection_const : forall g p, p_charge (bunch_reflection g p) = p_charge p /\ p_mass (bunch_reflection g p) = p_mass p.
Proof.
  intros g p. unfold bunch_reflection. destruct (reflect_below _ _ _), (reflect_below _ _ _). now split.
Qed.

Lemma half_reflect_alive : forall g dt b p, geom_ok g -> (3 <= n_r g)%Z -> (3 <= n_z g)%Z ->
  p_alive (half_reflect g dt b p) = true ->
  p_alive p = true /\ p_phase (half_reflect g dt b p) = second_half g dt (p_phase p).
Proof.
  intros g dt b p Hg N1 N2 H. unfold half_reflect in *. destruct (p_alive p) eqn:E; [|congruence]. split; [reflexivity|].
  destruct b; [|reflexivity]. cbn [with_phase p_phase p_alive] in *.
  destruct (bunch_reflection_alive g _ Hg N1 N2 H) as (_ & ->). reflexivity.
Qed.

Lemma half_reflect_const : forall g dt b p,
  p_charge (half_reflect g dt b p) = p_charge p /\ p_mass (half_reflect g dt b p) = p_mass p.
Proof.
  intros g dt b p. unfold half_reflect. destruct (p_alive p); [|now split]. destruct b; [|now split].
  cbn [with_phase p_charge p_mass]. destruct (bunch_reflection_const g (with_phase p (half_step_pos dt (p_phase p)))) as (-> & ->).
  now split.
Qed.

Lemma half_reflect_dead : forall g dt b p, p_alive p = false -> half_reflect g dt b p = p.
Proof. intros g dt b p H. unfold half_reflect. now rewrite H. Qed.

(** ** The invariant *)

Section Run.
Variable su : setup.
Hypothesis HS : sound su.
Variable T : R.

Let g := su_geom su.
Let dt := su_dt su.
Let w := r_size g - dr g / 2.
Let sp := LIGHT_SPEED * dt / 2.

Local Lemma Hg : geom_ok g. Proof. apply HS. Qed.
Local Lemma N1 : (3 <= n_r g)%Z. Proof. apply HS. Qed.
Local Lemma N2 : (3 <= n_z g)%Z. Proof. apply HS. Qed.
Local Lemma Hdt : 0 < dt. Proof. apply HS. Qed.
Local Lemma C_r : LIGHT_SPEED * dt <= 4 / 5 * dr g. Proof. apply HS. Qed.
Local Lemma C_z : LIGHT_SPEED * dt < dz g. Proof. apply HS. Qed.
Local Lemma C_pos : 0 < LIGHT_SPEED. Proof. apply LIGHT_SPEED_pos. Qed.

Local Lemma Hsp : 0 <= sp <= step_limit g.
Proof.
  assert (A := limit_two_fifths g Hg N1). assert (B := C_r). assert (P : 0 < LIGHT_SPEED * dt) by (apply Rmult_lt_0_compat; [apply C_pos|apply Hdt]).
  unfold sp. lra.
Qed.
Local Lemma Hsp5 : sp <= 2 / 5 * dr g. Proof. assert (B := C_r). unfold sp. lra. Qed.

Local Lemma sub_slow : forall v, subluminal v -> slow g dt sp v.
Proof.
  intros v H. unfold subluminal in H. apply speed_slow; [apply Hdt|apply Hsp|lra|unfold sp; lra|apply C_z].
Qed.

Definition ok_phase (t : R) (f : phase) : Prop :=
  nearly_inside g sp f /\ subluminal (vel f) /\ (strict su = true -> v0 (pos f) <= w - LIGHT_SPEED * (T - t)).
Definition ok_part (t : R) (p : particle) : Prop := p_alive p = true -> ok_phase t (p_phase p).

Definition fresh (p : particle) : Prop :=
  p_alive p = false /\ v1 (pos (p_phase p)) = 0 /\ dr g / 2 <= v0 (pos (p_phase p)) <= su_radius su - dr g / 2 /\
  v0 (vel (p_phase p)) = 0 /\ v1 (vel (p_phase p)) = 0.

Definition mid_part (t : R) (p : particle) : Prop :=
  p_alive p = true -> exists f v, ok_phase t f /\ subluminal v /\ p_phase p = first_half dt (set_vel v f).

(** StepV *)
Lemma push_ok : forall q m e h v, subluminal v -> exists v', push (su_pusher su) dt q m e h v = Ok v' /\ subluminal v'.
Proof.
  intros q m e h v Hv. assert (N : norm2 v <= LIGHT_SPEED * LIGHT_SPEED) by (unfold subluminal in Hv; lra).
  destruct HS as (_ & _ & _ & _ & _ & _ & [P|[P|P]] & _); rewrite P; cbn [push].
  - now apply boris_rel_subluminal.
  - now apply vay_subluminal.
  - destruct (Rlt_dec _ _); now apply boris_rel_subluminal.
Qed.

Lemma step_v_one_ok : forall t m p, t <= T -> ok_part t p ->
  exists p', step_v_one su m p = Ok p' /\ mid_part t p' /\ p_alive p' = p_alive p /\ (fresh p -> p' = p) /\
    p_charge p' = p_charge p /\ p_mass p' = p_mass p.
Proof.
  intros t m p HT H. unfold step_v_one. destruct (p_alive p) eqn:E.
  2:{ exists p. split; [reflexivity|]. split; [intro X; congruence|]. auto. }
  specialize (H E). destruct H as (I & S & B). fold g.
  assert (X : strict su && negb (reads_in_array g (interp_reads g (p_r p) (p_z p))) = false).
  { destruct (strict su) eqn:Es; [|reflexivity]. rewrite reads_true; [reflexivity|]. intros x Hx.
    apply init_location_inside. apply (interp_initialised g (p_r p) (p_z p)); auto using Hg, N1, N2.
    specialize (B eq_refl). assert (C := C_pos). destruct I as (_ & R1 & _ & Z). unfold inside_domain, p_r, p_z.
    assert (0 <= LIGHT_SPEED * (T - t)) by nra. unfold w in B. lra. }
  rewrite X. destruct (push_ok (p_charge p) (p_mass p) (get_efield g m (p_r p) (p_z p)) (get_hfield g m (p_r p) (p_z p)) _ S) as (v & Pv & Sv).
  fold dt. rewrite Pv. cbn [bind]. eexists. split; [reflexivity|]. split; [|split; [reflexivity|split; [intros (F & _); congruence|now split]]].
  intros _. exists (p_phase p), v. cbn [p_phase]. repeat split; auto; apply I.
Qed.

(** FullCurrent *)
Lemma half_reflect_ok : forall t b p, mid_part t p -> p_alive (half_reflect g dt b p) = true ->
  ok_phase (t + dt) (p_phase (velocity_back (half_reflect g dt b p))) /\
  ok_phase (t + dt) (p_phase (half_reflect g dt b p)) /\
  Forall (jinside g) (current_part g dt (c_of (half_reflect g dt b p))).
Proof.
  intros t b p M A. destruct (half_reflect_alive g dt b p Hg N1 N2 A) as (A0 & PE).
  destruct (M A0) as (f & v & (I & S & B) & Sv & EF). assert (Sl := sub_slow v Sv).
  unfold velocity_back. rewrite A. cbn [p_phase with_phase]. rewrite PE, EF.
  assert (J : nearly_inside g sp (second_half g dt (first_half dt (set_vel v f)))) by
    (apply step_nearly_inside; auto using Hg, N1, N2, Hdt, Hsp).
  assert (G : v0 (pos (second_half g dt (first_half dt (set_vel v f)))) <= v0 (pos f) + 2 * sp)
    by (apply radius_growth; auto using Hg, N1, N2, Hdt, Hsp).
  assert (GB : strict su = true -> v0 (pos (second_half g dt (first_half dt (set_vel v f)))) <= w - LIGHT_SPEED * (T - (t + dt))).
  { intro X. specialize (B X). unfold sp in G. lra. }
  split; [|split].
  - split; [|split].
    + apply (nearly_inside_pos g sp (second_half g dt (first_half dt (set_vel v f)))); [reflexivity|exact J].
    + change (subluminal (vel (move g dt (set_vel v f)))). unfold subluminal.
      rewrite (move_speed g dt sp) by auto using Hg, N1, N2, Hdt, Hsp. exact Sv.
    + exact GB.
  - split; [exact J|]. split; [|exact GB]. unfold subluminal. rewrite second_half_speed, first_half_eq by apply I. exact Sv.
  - unfold current_part, c_of. cbn [c_alive c_charge c_r c_z c_r_old c_z_old]. rewrite A. unfold p_r, p_z. rewrite PE, EF.
    destruct (second_half_spec g dt sp f v Hg N1 N2 Hdt Hsp Sl I) as (x & y & z' & P & _ & RO & ZO & _ & _ & _ & _ & _ & _ & DZ).
    destruct (nearly_inside_upper g sp f Hg Hsp I) as (A1 & A2).
    destruct (nearly_inside_upper g sp _ Hg Hsp J) as (B1 & B2).
    rewrite RO, ZO. apply current_single_inside; auto using Hg.
    + apply (step_radius_change g dt sp f v); auto using Hg, N1, N2, Hdt, Hsp, Hsp5.
    + rewrite P. cbn [v2]. exact DZ.
Qed.

Lemma azimuthal_ok : forall t ps, Forall (mid_part t) ps -> Forall (jinside g) (azimuthal_incs g ps).
Proof.
  intros t ps F. unfold azimuthal_incs. apply Forall_flat_map. rewrite Forall_forall in *. intros p Hp. specialize (F p Hp).
  destruct (p_alive p) eqn:A; [|constructor]. destruct (F A) as (f & v & (I & S & B) & Sv & EF). unfold p_r, p_z. rewrite EF.
  rewrite first_half_eq by apply I. cbn [pos v0 v2 vel v1].
  destruct (half_bounds g dt sp f v Hg Hdt Hsp (sub_slow v Sv) I) as (HA & HB & _). apply azimuthal_inside; [apply Hg| |]; lra.
Qed.

(** ** Groups *)

Definition bnch (n : Z) : bunch := bunch_of (su_beam su) n.
Definition first_fresh (n : Z) (t : R) : Z := if Rlt_dec t (tb (bnch n)) then 0%Z else BunchP.start (bnch n) dt t.

Definition tail_fresh (n : Z) (t : R) (ps : list particle) : Prop :=
  forall i p, nth_error ps i = Some p -> (first_fresh n t <= Z.of_nat i)%Z -> fresh p.

Definition group_with (P : particle -> Prop) (t : R) (x : group) : Prop :=
  Forall P (g_parts x) /\ match g_bunch x with None => True | Some n => (0 <= n)%Z /\ tail_fresh n t (g_parts x) end.

Lemma step_v_group_ok : forall t t' m x, t <= T -> group_with (ok_part t) t' x ->
  exists y, step_v_group su m x = Ok y /\ group_with (mid_part t) t' y /\ g_bunch y = g_bunch x.
Proof.
  intros t t' m x HT (F & B). unfold step_v_group.
  destruct (traverse_ok (step_v_one su m) (ok_part t) (fun p p' => mid_part t p' /\ (fresh p -> p' = p))) with (l := g_parts x) as (l' & E & Q).
  { intros p Hp. destruct (step_v_one_ok t m p HT Hp) as (p' & E & M & _ & Fr & _). exists p'. now repeat split. }
  { exact F. }
  rewrite E. cbn [bind]. eexists. split; [reflexivity|]. split; [|reflexivity]. split; cbn [g_parts g_bunch].
  - apply (Forall2_right _ _ _ _ (fun _ _ H => proj1 H) Q).
  - destruct (g_bunch x) as [n|]; [|exact I]. destruct B as (B0 & B). split; [exact B0|]. intros i p Hi Hf.
    destruct (Forall2_nth _ _ _ _ _ Q Hi) as (p0 & Hi0 & _ & K). specialize (B i p0 Hi0 Hf). rewrite (K B). exact B.
Qed.

Lemma nth_error_map_inv : forall {A B : Type} (f : A -> B) l i y, nth_error (map f l) i = Some y ->
  exists x, nth_error l i = Some x /\ y = f x.
Proof.
  intros A B f. induction l as [|a l IH]; intros i y E; destruct i; try discriminate; cbn in *.
  - injection E as <-. now exists a.
  - now apply IH.
Qed.

Lemma full_current_group_ok : forall t t' j x, group_with (mid_part t) t' x ->
  exists j' y, full_current_group su j x = Ok (j', y) /\ group_with (ok_part (t + dt)) t' y /\ g_bunch y = g_bunch x.
Proof.
  intros t t' j x (F & B). unfold full_current_group. cbv zeta. fold g dt.
  rewrite (jincs_true g (azimuthal_incs g (g_parts x))) by now apply (azimuthal_ok t).
  rewrite jincs_true.
  2:{ unfold current_incs, moved. fold g dt. rewrite flat_map_concat_map, map_map, <- flat_map_concat_map.
      apply Forall_flat_map. rewrite Forall_forall in F |- *. intros p Hp. specialize (F p Hp).
      set (b := match g_bunch x with Some _ => true | None => false end).
      destruct (p_alive (half_reflect g dt b p)) eqn:A; [apply (half_reflect_ok t b p F A)|].
      unfold current_part, c_of. cbn [c_alive]. rewrite A. constructor. }
  cbn [andb]. eexists _, _. split; [reflexivity|]. split; [|reflexivity]. split; cbn [g_parts g_bunch].
  - unfold moved. fold g dt. rewrite map_map. apply Forall_map. rewrite Forall_forall in F |- *. intros p Hp. specialize (F p Hp).
    set (b := match g_bunch x with Some _ => true | None => false end). intro A.
    apply (half_reflect_ok t b p F). unfold velocity_back in A. destruct (p_alive (half_reflect g dt b p)) eqn:E; [reflexivity|congruence].
  - destruct (g_bunch x) as [n|] eqn:EB; [|exact I]. destruct B as (B0 & B). split; [exact B0|]. intros i p Hi Hf.
    unfold moved in Hi. rewrite EB in Hi. fold g dt in Hi. rewrite map_map in Hi.
    destruct (nth_error_map_inv _ _ _ _ Hi) as (p0 & Hi0 & ->). specialize (B i p0 Hi0 Hf).
    assert (D : p_alive p0 = false) by apply B. rewrite half_reflect_dead by exact D. unfold velocity_back. now rewrite D.
Qed.

Lemma full_current_ok : forall t t' gs j, Forall (group_with (mid_part t) t') gs ->
  exists j' gs', full_current su j gs = Ok (j', gs') /\ Forall (group_with (ok_part (t + dt)) t') gs' /\
    bunch_numbers gs' = bunch_numbers gs.
Proof.
  intros t t' gs. induction gs as [|x gs IH]; intros j F.
  - exists j, []. now repeat split.
  - inversion F as [|? ? Hx Hgs]; subst. destruct (full_current_group_ok t t' j x Hx) as (j1 & y & E & Hy & B).
    destruct (IH j1 Hgs) as (j2 & gs' & E' & F' & B'). exists j2, (y :: gs'). cbn [full_current]. rewrite E. cbn [bind fst snd].
    rewrite E'. cbn [bind fst snd]. split; [reflexivity|]. split; [now constructor|].
    unfold bunch_numbers in *. cbn [flat_map]. now rewrite B, B'.
Qed.

(** ** Injection *)

Lemma beam_facts : 0 < initial_velocity (su_beam su) < LIGHT_SPEED /\ 0 < duration_of (su_beam su) /\
  0 <= hole_of (su_beam su) /\ (0 <= number_macro (su_beam su))%Z.
Proof.
  destruct HS as (_ & _ & _ & _ & _ & _ & _ & _ & V & L & D & M & _). split; [exact V|]. unfold duration_of, hole_of.
  split; [apply Rdiv_lt_0_compat; lra|]. split; [|exact M]. apply Rdiv_nonneg; lra.
Qed.

Lemma injected_ok : forall t x p, (strict su = true -> su_radius su - dr g / 2 <= w - LIGHT_SPEED * (T - t)) ->
  fresh p -> in_vz x = initial_velocity (su_beam su) ->
  dz g / 2 <= in_z x <= dz g / 2 + LIGHT_SPEED * dt -> ok_part t (inject_one x p).
Proof.
  intros t x p HR (A & Y & R & V0 & V1) EV EZ _. destruct beam_facts as (V & _). assert (D := dr_pos g Hg). assert (Dz := dz_pos g Hg).
  assert (ZZ := domain_z g Hg N2). assert (CZ := C_z). destruct HS as (_ & _ & _ & _ & _ & _ & _ & _ & _ & _ & _ & _ & RA & _).
  fold g in RA. unfold inject_one. cbn [p_phase]. split; [|split].
  - apply inside_nearly; cbn [pos v1 v0 v2]; auto using Hg. unfold inside_domain. lra.
  - unfold subluminal, norm2. cbn [vel v0 v1 v2]. rewrite V0, V1, EV. nra.
  - cbn [pos v0]. intro X. specialize (HR X). lra.
Qed.

Lemma inject_all_nth : forall l ps i y, nth_error (inject_all l ps) i = Some y ->
  exists p, nth_error ps i = Some p /\
    ((y = p /\ forall x, In x l -> Z.to_nat (in_index x) <> i) \/
     exists x, In x l /\ Z.to_nat (in_index x) = i /\ y = inject_one x p).
Proof.
  induction l as [|x l IH]; intros ps i y E; cbn [inject_all fold_left] in *.
  - exists y. split; [exact E|]. left. split; [reflexivity|]. intros x [].
  - destruct (IH _ _ _ E) as (p1 & E1 & K). destruct (update_nth_nth _ _ _ _ _ E1) as (p & E0 & EP). exists p. split; [exact E0|].
    destruct (Nat.eqb_spec i (Z.to_nat (in_index x))) as [EI|NI].
    + right. destruct K as [(-> & _)|(x' & Hx & HI & ->)].
      * exists x. split; [now left|]. split; [auto|exact EP].
      * exists x'. split; [now right|]. split; [exact HI|]. now rewrite EP.
    + subst p1. destruct K as [(-> & K)|(x' & Hx & HI & ->)].
      * left. split; [reflexivity|]. intros x' [<-|Hx']; [congruence|now apply K].
      * right. exists x'. split; [now right|]. now split.
Qed.

Lemma first_fresh_mono : forall n t, (first_fresh n t <= first_fresh n (t + dt))%Z.
Proof.
  intros n t. assert (Ht := Hdt). destruct beam_facts as (_ & D & _ & M). unfold first_fresh.
  assert (S := start_next (bnch n) dt Ht t). assert (P := share_nonneg (bnch n) dt Ht D M).
  assert (Q := fun t => start_nonneg (bnch n) dt Ht D M t).
  destruct (Rlt_dec t (tb (bnch n))) as [A|A]; destruct (Rlt_dec (t + dt) (tb (bnch n))) as [B|B]; try lia; try lra.
  apply Q. lra.
Qed.

Lemma inject_group_ok : forall t x, (strict su = true -> su_radius su - dr g / 2 <= w - LIGHT_SPEED * (T - t)) ->
  group_with (ok_part t) t x ->
  exists y, inject_group su t x = Ok y /\ group_with (ok_part t) (t + dt) y /\ g_bunch y = g_bunch x.
Proof.
  intros t x HR (F & B). unfold inject_group. destruct (g_bunch x) as [n|] eqn:EB.
  2:{ exists x. split; [reflexivity|]. split; [|exact EB]. split; [exact F|]. now rewrite EB. }
  destruct B as (B0 & B). destruct beam_facts as (V & D & _ & M). fold g dt.
  destruct (inject_ok g (bnch n) dt Hdt D M t (su_rand_z su n t)) as (l & E & IN & OUT & VAL).
  fold (bnch n). rewrite E. cbn [bind]. eexists. split; [reflexivity|]. split; [|reflexivity].
  assert (IDX : forall x0, In x0 l -> tb (bnch n) <= t < te (bnch n) /\ (first_fresh n t <= in_index x0 < first_fresh n (t + dt))%Z /\
            (0 <= in_index x0)%Z).
  { intros x0 Hx. destruct (VAL x0 Hx) as (W & _). split; [exact W|]. assert (I0 := in_map in_index l x0 Hx). rewrite (IN W) in I0.
    unfold zrange in I0. apply in_map_iff in I0. destruct I0 as (k & EK & HK). apply in_seq in HK.
    assert (ST := start_nonneg (bnch n) dt Hdt D M t (proj1 W)). assert (NX := start_next (bnch n) dt Hdt t).
    unfold first_fresh. destruct (Rlt_dec t (tb (bnch n))) as [X|_]; [lra|].
    assert (H2 := Hdt). destruct (Rlt_dec (t + dt) (tb (bnch n))) as [X|_]; [lra|]. lia. }
  split; cbn [g_parts g_bunch].
  - apply Forall_forall. intros y Hy. apply In_nth_error in Hy. destruct Hy as (i & Hi).
    destruct (inject_all_nth l (g_parts x) i y Hi) as (p & Hp & [(-> & _)|(x0 & Hx & HI & ->)]).
    + rewrite Forall_forall in F. apply F. now apply nth_error_In in Hp.
    + destruct (VAL x0 Hx) as (_ & EV & k & EZ). destruct (IDX x0 Hx) as (_ & J & J0).
      apply injected_ok; auto.
      * apply (B i p Hp). lia.
      * rewrite EZ. change (b_velocity (bnch n)) with (initial_velocity (su_beam su)).
        destruct HS as (_ & _ & _ & _ & _ & _ & _ & _ & _ & _ & _ & _ & _ & _ & _ & RZ). specialize (RZ n t k).
        assert (Ht := Hdt). assert (0 <= initial_velocity (su_beam su) * dt <= LIGHT_SPEED * dt) by nra.
        assert (0 <= initial_velocity (su_beam su) * dt * su_rand_z su n t k) by nra. nra.
  - split; [exact B0|]. intros i y Hi Hf.
    destruct (inject_all_nth l (g_parts x) i y Hi) as (p & Hp & [(-> & _)|(x0 & Hx & HI & ->)]).
    + apply (B i p Hp). assert (Q := first_fresh_mono n t). lia.
    + destruct (IDX x0 Hx) as (_ & J & J0). lia.
Qed.

(** ** Creation of bunches *)

Lemma new_bunch_ok : forall t t' n, (0 <= n)%Z -> group_with (ok_part t) t' (new_bunch su n).
Proof.
  intros t t' n Hn.
  assert (F : Forall fresh (g_parts (new_bunch su n))).
  { unfold new_bunch. cbn [g_parts]. apply Forall_map. unfold bunch_load. apply Forall_map. apply Forall_forall. intros x Hx.
    unfold fresh. cbn [p_alive p_phase pos vel v0 v1 v2 m_r m_z m_charge m_mass]. fold g. unfold bunch_r.
    destruct HS as (_ & _ & _ & _ & _ & _ & _ & _ & _ & _ & _ & _ & RA & _ & RR & _). specialize (RR n x Hx). fold g in RA.
    repeat match goal with |- _ /\ _ => split end; try reflexivity; nra. }
  split.
  - apply Forall_forall. intros p Hp A. rewrite Forall_forall in F. destruct (F p Hp) as (D & _). congruence.
  - cbn [g_bunch new_bunch]. split; [exact Hn|]. intros i p Hi _. rewrite Forall_forall in F. apply F. now apply nth_error_In in Hi.
Qed.

Definition probes_ok (ps : list (probe * files)) : Prop := Forall (fun x => schedule (fst x) <> 0%Z) ps.

Record Inv (t : R) (s : sim) : Prop := {
  inv_groups : Forall (group_with (ok_part t) t) (s_groups s);
  inv_numbers : bunch_numbers (s_groups s) = zrange 0 (s_bunch_number s);
  inv_bound : (0 <= s_bunch_number s <= Z.max 0 (number_bunches (su_beam su)))%Z;
  inv_probes : probes_ok (s_probes s);
  inv_radius : strict su = true -> su_radius su - dr g / 2 <= w - LIGHT_SPEED * (T - t) }.

Lemma erase_not_reached : forall t e s, no_removal (su_beam su) e -> t < e -> Inv t s ->
  erase_reached (su_beam su) t (BeamState (s_bunch_number s) (bunch_numbers (s_groups s))) = false.
Proof.
  intros t e s H Ht J. unfold erase_reached. cbn [c_bunches]. rewrite (inv_numbers t s J).
  assert (B := inv_bound t s J). destruct H as [H|H].
  - rewrite zrange_length by lia. destruct (Z.ltb_spec 1 (s_bunch_number s - 0)) as [X|X]; [lia|reflexivity].
  - apply andb_false_iff. right. apply not_true_is_false. intro X. apply existsb_exists in X. destruct X as (n & Hn & X).
    destruct (Rlt_dec _ _) as [Y|_] in X; [|discriminate]. destruct beam_facts as (V & D & HO & M).
    assert (N : (0 <= n)%Z). { unfold zrange in Hn. apply in_map_iff in Hn. destruct Hn as (k & <- & _). lia. }
    apply IZR_le in N. unfold duration_of in *.
    assert (Q : (t - beam_z_size (su_beam su) / initial_velocity (su_beam su) - bunch_length (su_beam su) / initial_velocity (su_beam su)) /
      (bunch_length (su_beam su) / initial_velocity (su_beam su) + hole_of (su_beam su)) <= 0); [|lra].
    apply Rmult_le_reg_r with (bunch_length (su_beam su) / initial_velocity (su_beam su) + hole_of (su_beam su)); [lra|].
    unfold Rdiv at 1. rewrite Rmult_assoc, Rinv_l by lra. lra.
Qed.

Lemma bunch_numbers_app : forall a b, bunch_numbers (a ++ b) = bunch_numbers a ++ bunch_numbers b.
Proof. intros. unfold bunch_numbers. apply flat_map_app. Qed.

Lemma bunch_numbers_same : forall gs gs', Forall2 (fun x y => g_bunch y = g_bunch x) gs gs' -> bunch_numbers gs' = bunch_numbers gs.
Proof. intros gs gs' F. unfold bunch_numbers. induction F as [|x y gs gs' H F IH]; [reflexivity|]. cbn. now rewrite H, IH. Qed.

Lemma beam_ok : forall t e s, no_removal (su_beam su) e -> t < e -> Inv t s ->
  exists s', exec su InjectBeam t s = Ok s' /\
    Forall (group_with (ok_part t) (t + dt)) (s_groups s') /\ bunch_numbers (s_groups s') = zrange 0 (s_bunch_number s') /\
    (0 <= s_bunch_number s' <= Z.max 0 (number_bunches (su_beam su)))%Z /\ s_probes s' = s_probes s /\
    s_fields s' = s_fields s /\ s_current s' = s_current s /\ s_rho_bunch s' = s_rho_bunch s.
Proof.
  intros t e s NR Ht J. cbn [exec]. unfold exec_beam, init_beam. rewrite (erase_not_reached t e s NR Ht J). cbn [bind].
  assert (BD := inv_bound t s J). assert (BN := inv_numbers t s J). assert (IG := inv_groups t s J).
  set (af := create_bunch _ _ _).
  set (gs := if (_ =? _)%Z then _ else _).
  assert (G : Forall (group_with (ok_part t) t) gs /\ bunch_numbers gs = zrange 0 (current_bunch_number af) /\
              (0 <= current_bunch_number af <= Z.max 0 (number_bunches (su_beam su)))%Z).
  { unfold gs, af, create_bunch. cbn [current_bunch_number c_bunches].
    destruct (Rle_dec _ t) as [A|A]; cbn [current_bunch_number].
    - destruct (Z.ltb_spec (s_bunch_number s) (number_bunches (su_beam su))) as [L|L]; cbn [current_bunch_number].
      + destruct (Z.eqb_spec (s_bunch_number s + 1) (s_bunch_number s)) as [X|_]; [lia|].
        split; [|split; [|lia]].
        * apply Forall_app. split; [exact IG|]. constructor; [|constructor]. apply new_bunch_ok. lia.
        * rewrite bunch_numbers_app, BN. cbn. now rewrite zrange_snoc by lia.
      + rewrite Z.eqb_refl. now repeat split.
    - rewrite Z.eqb_refl. now repeat split. }
  destruct G as (G1 & G2 & G3).
  destruct (traverse_ok (inject_group su t) (group_with (ok_part t) t)
    (fun x y => group_with (ok_part t) (t + dt) y /\ g_bunch y = g_bunch x)) with (l := gs) as (gs' & E & Q); [|exact G1|].
  { intros x Hx. apply inject_group_ok; [apply (inv_radius t s J)|exact Hx]. }
  rewrite E. cbn [bind]. eexists. split; [reflexivity|]. cbn [s_groups s_bunch_number s_probes s_fields s_current s_rho_bunch].
  split; [apply (Forall2_right _ _ _ _ (fun _ _ H => proj1 H) Q)|]. split; [|now repeat split].
  rewrite (bunch_numbers_same gs gs'); [exact G2|]. apply (Forall2_weaken _ _ _ _ (fun _ _ H => proj2 H) Q).
Qed.

(** ** Weighting and output *)

Lemma weight_ok : forall t t' rho gs, Forall (group_with (ok_part t) t') gs ->
  weight_bunches g rho (bunches_of gs) = Ok (fold_left (charge_weighting g) (bunches_of gs) rho).
Proof.
  intros t t' rho gs F. unfold weight_bunches. replace (forallb _ _) with true; [reflexivity|]. symmetry. apply forallb_forall.
  intros b Hb. unfold bunches_of in Hb. apply in_flat_map in Hb. destruct Hb as (x & Hx & Hb).
  rewrite Forall_forall in F. destruct (F x Hx) as (FP & _). destruct (g_bunch x) as [n|]; [|destruct Hb].
  destruct Hb as [<-|[]]. apply incs_true. rewrite flat_map_concat_map, map_map, <- flat_map_concat_map.
  apply Forall_flat_map. rewrite Forall_forall in FP |- *. intros p Hp. specialize (FP p Hp). unfold charge_weighting_part, q_of.
  cbn [q_alive q_charge q_r q_z]. destruct (p_alive p) eqn:A; [|constructor]. destruct (FP A) as (I & _).
  destruct (nearly_inside_upper g sp (p_phase p) Hg Hsp I) as (A1 & A2). apply charge_weighting_inside; [apply Hg| |]; unfold p_r, p_z; lra.
Qed.

Lemma dump_ok : forall t arrays bs ps rho, probes_ok ps ->
  exists rho' ps', dump_data g (su_frames su) t dt arrays bs rho ps = Ok (rho', ps') /\ probes_ok ps'.
Proof.
  intros t arrays bs ps. induction ps as [|[p f] ps IH]; intros rho H.
  - exists rho, []. now split.
  - inversion H as [|? ? H1 H2]; subst. cbn [fst] in H1. cbn [dump_data]. unfold dump_now at 1.
    destruct (Z.eqb_spec (schedule p) 0) as [X|_]; [contradiction|]. cbn [bind].
    destruct (Z.rem _ _ =? 0)%Z.
    + unfold file_number. destruct (Z.eqb_spec (su_frames su) 0) as [X|_]; [exfalso; revert X; apply HS|]. cbn [bind].
      match goal with |- context [dump_data g _ t dt arrays bs ?r ps] => destruct (IH r H2) as (rho' & ps' & E & P') end.
      rewrite E. cbn [bind fst snd]. eexists _, _. split; [reflexivity|]. constructor; [exact H1|exact P'].
    + destruct (IH rho H2) as (rho' & ps' & E & P'). rewrite E. cbn [bind fst snd]. eexists _, _. split; [reflexivity|].
      constructor; [exact H1|exact P'].
Qed.

(** ** One iteration *)

Lemma step_ok : forall t e s, no_removal (su_beam su) e -> t < e -> t <= T -> Inv t s ->
  exists s', one_step su t s = Ok s' /\ Inv (t + dt) s'.
Proof.
  intros t e s NR Ht HT J. unfold one_step, iteration. cbn [map exec_all].
  destruct (beam_ok t e s NR Ht J) as (s1 & E1 & F1 & B1 & C1 & P1 & _). rewrite E1. cbn [bind].
  cbn [exec bind]. cbn [s_fields s_current s_rho_bunch s_groups s_bunch_number s_probes].
  set (m1 := calc_hfield _ _ _).
  destruct (traverse_ok (step_v_group su m1) (group_with (ok_part t) (t + dt))
    (fun x y => group_with (mid_part t) (t + dt) y /\ g_bunch y = g_bunch x)) with (l := s_groups s1) as (gs2 & E2 & Q2); [|exact F1|].
  { intros x Hx. now apply step_v_group_ok. }
  rewrite E2. cbn [bind s_fields s_current s_rho_bunch s_groups s_bunch_number s_probes].
  set (j1 := reset_j _ _).
  destruct (full_current_ok t (t + dt) gs2 j1) as (j3 & gs3 & E3 & F3 & B3).
  { apply (Forall2_right _ _ _ _ (fun _ _ H => proj1 H) Q2). }
  rewrite E3. cbn [bind fst snd s_fields s_current s_rho_bunch s_groups s_bunch_number s_probes].
  fold g. rewrite (weight_ok (t + dt) (t + dt)) by exact F3. cbn [bind s_fields s_current s_rho_bunch s_groups s_bunch_number s_probes].
  fold dt.
  match goal with |- context [dump_data g (su_frames su) t dt ?a ?b ?r ?p] => destruct (dump_ok t a b p r) as (rho' & ps' & E4 & P4) end.
  { rewrite P1. apply (inv_probes t s J). }
  rewrite E4. cbn [bind fst snd]. eexists. split; [reflexivity|]. split; cbn [s_groups s_bunch_number s_probes].
  - exact F3.
  - rewrite B3. rewrite (bunch_numbers_same (s_groups s1) gs2); [exact B1|]. apply (Forall2_weaken _ _ _ _ (fun _ _ H => proj2 H) Q2).
  - exact C1.
  - exact P4.
  - intro X. assert (R := inv_radius t s J X). assert (C := C_pos). assert (Ht' := Hdt). nra.
Qed.

End Run.

(** ** The whole run *)

Lemma run_invariant : forall {S : Type} (ex : action -> R -> S -> outcome S) (P : R -> S -> Prop) e dt, 0 < dt ->
  (forall t s, t < e -> P t s -> exists s', exec_all ex (map (fun a => (a, t)) iteration) s = Ok s' /\ P (t + dt) s') ->
  forall n t s, least_steps t e dt n -> P t s ->
  exists s', (forall fuel, (n <= fuel)%nat -> run_loop ex fuel t e dt s = Some (Ok s')) /\ P (t + INR n * dt) s'.
Proof.
  intros S ex P e dt Hdt H. induction n as [|n IH]; intros t s [L1 L2] HP.
  - exists s. cbn [INR] in *. split; [|now replace (t + 0 * dt) with t by ring]. intros fuel _.
    destruct fuel; cbn [run_loop]; destruct (Rlt_dec t e); auto; lra.
  - assert (Ht : t < e).
    { destruct (Rlt_or_le t e) as [X|X]; [exact X|]. specialize (L2 O ltac:(cbn; lra)). lia. }
    destruct (H t s Ht HP) as (s1 & E & P1). destruct (IH (t + dt) s1) as (s2 & R & P2); [|exact P1|].
    + rewrite S_INR in L1. split; [lra|]. intros k Hk. apply le_S_n, L2. rewrite S_INR. lra.
    + exists s2. split.
      * intros fuel Hf. destruct fuel as [|fuel]; [lia|]. cbn [run_loop]. destruct (Rlt_dec t e) as [_|X]; [|contradiction].
        rewrite E. apply R. lia.
      * rewrite S_INR. replace (t + (INR n + 1) * dt) with (t + dt + INR n * dt) by ring. exact P2.
Qed.
