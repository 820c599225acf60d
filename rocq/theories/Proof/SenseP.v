(** Every part of the main loop takes mirror images to mirror images. *)
From Coq Require Import Reals ZArith Lra Lia List Bool.
From Verif.Lib Require Import RAux Outcome Grid Par.
From Verif.Model Require Import Constants Geometry ChargeDeposit CurrentDeposit Fields Interp Pusher Motion Loading Bunch Dump MainLoop Sim.
From Verif.Spec Require Import Sense.
Import ListNotations.
Local Open Scope R_scope.

Definition related {A B : Type} (P : A -> B -> Prop) (o : outcome A) (o' : outcome B) : Prop :=
  match o, o' with Ok a, Ok b => P a b | Exit c, Exit c' => c = c' | UB, UB => True | _, _ => False end.
Lemma related_bind : forall {A B A' B' : Type} (P : A -> A' -> Prop) (Q : B -> B' -> Prop) o o' f f', related P o o' ->
  (forall a a', P a a' -> related Q (f a) (f' a')) -> related Q (bind o f) (bind o' f').
Proof. intros A B A' B' P Q [a|c|] [a'|c'|] f f' H K; cbn in *; try contradiction; auto. Qed.
Lemma related_refl : forall {A : Type} (o : outcome A), related eq o o.
Proof. intros A [a|c|]; cbn; auto. Qed.

(** * The pushers *)
Lemma round_image : forall v, round_velocity (image_v v) = image_v (round_velocity v).
Proof.
  intros [a b c]. unfold round_velocity, image_v, round_small. cbn [v0 v1 v2]. rewrite Rabs_Ropp. destruct (Rlt_dec (Rabs b) MNZL); [|reflexivity]. now rewrite Ropp_0.
Qed.
Lemma product_image : forall v x, tv_product (image_v v) x = image_v (tv_product v x).
Proof. intros [a b c] x. unfold tv_product, image_v. cbn [v0 v1 v2]. f_equal; ring. Qed.
Lemma product_axial : forall v x, tv_product (image_axial v) x = image_axial (tv_product v x).
Proof. intros [a b c] x. unfold tv_product, image_axial. cbn [v0 v1 v2]. f_equal; ring. Qed.
Lemma add_image : forall v w, tv_add (image_v v) (image_v w) = image_v (tv_add v w).
Proof. intros [a b c] [d e f]. unfold tv_add, image_v. cbn [v0 v1 v2]. f_equal; ring. Qed.
Lemma sum_image : forall v, tv_squared_sum (image_v v) = tv_squared_sum v.
Proof. intros [a b c]. unfold tv_squared_sum, tv_dot, image_v. cbn [v0 v1 v2]. ring. Qed.
Lemma sum_axial : forall v, tv_squared_sum (image_axial v) = tv_squared_sum v.
Proof. intros [a b c]. unfold tv_squared_sum, tv_dot, image_axial. cbn [v0 v1 v2]. ring. Qed.
Lemma dot_axial : forall v b, tv_dot (image_v v) (image_axial b) = - tv_dot v b.
Proof. intros [a b c] [d e f]. unfold tv_dot, image_v, image_axial. cbn [v0 v1 v2]. ring. Qed.
Lemma rotation_image : forall b v, boris_rotation (image_axial b) (image_v v) = image_v (boris_rotation b v).
Proof.
  intros b v. unfold boris_rotation. rewrite sum_axial. set (k := 2 / (1 + tv_squared_sum b)). destruct b as [a b c], v as [d e f]. unfold image_v, image_axial. cbn [v0 v1 v2]. f_equal; ring.
Qed.

Definition to_image (v v' : vec3) : Prop := v' = image_v v.
Lemma boris_image : forall rel dt q m e h v, related to_image (boris_push rel dt q m e h v) (boris_push rel dt q m (image_v e) (image_axial h) (image_v v)).
Proof.
  intros rel dt q m e h v. unfold boris_push. rewrite round_image, product_image, product_axial. set (w := round_velocity v). set (e' := tv_product e _). set (b := tv_product h _).
  apply related_bind with (P := to_image).
  - destruct rel; [|reflexivity]. rewrite sum_image. destruct (get_gamma (tv_squared_sum w)) as [y|c|]; cbn; auto. unfold to_image. now rewrite product_image.
  - intros u u' ->. cbn. unfold to_image. rewrite !add_image. destruct rel.
    + rewrite !sum_image, product_axial, rotation_image, add_image, sum_image, product_image. reflexivity.
    + rewrite rotation_image, add_image. reflexivity.
Qed.
Lemma vay_image : forall dt q m e h v, related to_image (vay_push dt q m e h v) (vay_push dt q m (image_v e) (image_axial h) (image_v v)).
Proof.
  intros dt q m e h v. unfold vay_push. rewrite round_image, sum_image, product_image. destruct (get_gamma _) as [y|c|]; cbn [bind related]; auto. unfold to_image.
  rewrite !product_axial, !product_image, !add_image, sum_image. set (b := tv_product (tv_product (tv_product h _) _) _). set (u := tv_product (round_velocity v) y). set (w := tv_add u _). set (g1 := get_gamma_inv (tv_squared_sum u)).
  assert (E : V3 (v0 (image_v w) + g1 * (v1 (image_v u) * v2 (image_axial b) - v2 (image_v u) * v1 (image_axial b)))
                 (v1 (image_v w) + g1 * (v2 (image_v u) * v0 (image_axial b) - v0 (image_v u) * v2 (image_axial b)))
                 (v2 (image_v w) + g1 * (v0 (image_v u) * v1 (image_axial b) - v1 (image_v u) * v0 (image_axial b))) =
              image_v (V3 (v0 w + g1 * (v1 u * v2 b - v2 u * v1 b)) (v1 w + g1 * (v2 u * v0 b - v0 u * v2 b)) (v2 w + g1 * (v0 u * v1 b - v1 u * v0 b)))).
  { unfold image_v, image_axial. cbn [v0 v1 v2]. f_equal; ring. }
  rewrite E. clear E. set (x := V3 (v0 w + _) _ _). rewrite !sum_image, !sum_axial, !dot_axial.
  replace (- tv_dot x b * - tv_dot x b) with (tv_dot x b * tv_dot x b) by ring. set (al := 1 / sqrt _). rewrite ?product_axial, ?sum_axial, ?dot_axial. set (bb := tv_product b al). set (s := 1 / (1 + tv_squared_sum bb)). set (d := tv_dot x bb).
  match goal with |- tv_product ?a (get_gamma_inv (tv_squared_sum ?a)) = image_v (tv_product ?c _) => assert (E : a = image_v c) by (unfold image_v, image_axial; cbn [v0 v1 v2]; f_equal; ring) end.
  rewrite E, sum_image, product_image. reflexivity.
Qed.
Lemma push_image : forall k dt q m e h v, related to_image (push k dt q m e h v) (push k dt q m (image_v e) (image_axial h) (image_v v)).
Proof.
  intros [| |u|] dt q m e h v; unfold push; [apply boris_image|apply boris_image| |apply vay_image]. rewrite round_image, sum_image. apply boris_image.
Qed.

(** * Motion *)
Lemma dump_image : forall p, dump_position_to_old (image_phase p) = image_phase (dump_position_to_old p).
Proof. reflexivity. Qed.
Lemma half_image : forall dt p, half_step_pos dt (image_phase p) = image_phase (half_step_pos dt p).
Proof. intros dt [[a b c] [d e f] ro zo st]. unfold half_step_pos, image_phase, image_v. cbn [pos vel v0 v1 v2 r_old z_old sin_theta]. f_equal. f_equal. ring. Qed.
Lemma back_image : forall p, back_position_to_rz (image_phase p) = image_phase (back_position_to_rz p).
Proof.
  intros [[a b c] [d e f] ro zo st]. unfold back_position_to_rz, image_phase, image_v. cbn [pos vel v0 v1 v2 r_old z_old sin_theta]. replace (- b * - b) with (b * b) by ring.
  f_equal; [f_equal; ring|unfold Rdiv; ring].
Qed.
Lemma turn_image : forall p, back_velocity_to_rz (image_phase p) = image_phase (back_velocity_to_rz p).
Proof.
  intros [[a b c] [d e f] ro zo st]. unfold back_velocity_to_rz, image_phase, image_v. cbn [pos vel v0 v1 v2 r_old z_old sin_theta]. replace (1 - - st * - st) with (1 - st * st) by ring.
  f_equal. f_equal; ring.
Qed.
Lemma reflection_image : forall g p, reflection g (image_phase p) = image_phase (reflection g p).
Proof.
  intros g [[a b c] [d e f] ro zo st]. unfold reflection, image_phase, image_v. cbn [pos vel v0 v1 v2 r_old z_old sin_theta].
  destruct (reflect_above _ a d) as (r1 & w1), (reflect_above _ c f) as (z1 & u1). destruct (reflect_below _ r1 w1), (reflect_below _ z1 u1). reflexivity.
Qed.
Lemma set_vel_image : forall v p, set_vel (image_v v) (image_phase p) = image_phase (set_vel v p).
Proof. reflexivity. Qed.
Lemma first_image : forall dt p, first_half dt (image_phase p) = image_phase (first_half dt p).
Proof. intros dt p. unfold first_half. now rewrite dump_image, half_image, back_image. Qed.
Lemma second_image : forall g dt p, second_half g dt (image_phase p) = image_phase (second_half g dt p).
Proof. intros g dt p. unfold second_half. now rewrite half_image, reflection_image, back_image. Qed.
Lemma half_reflect_image : forall g dt b p, half_reflect g dt b (image_particle p) = image_particle (half_reflect g dt b p).
Proof.
  intros g dt b p. unfold half_reflect. change (p_alive (image_particle p)) with (p_alive p). destruct (p_alive p); [|reflexivity]. destruct b.
  - assert (E : bunch_reflection g (with_phase (image_particle p) (half_step_pos dt (p_phase (image_particle p)))) = image_particle (bunch_reflection g (with_phase p (half_step_pos dt (p_phase p))))).
    { change (p_phase (image_particle p)) with (image_phase (p_phase p)). rewrite half_image. set (f := half_step_pos dt (p_phase p)). unfold bunch_reflection, with_phase, image_particle.
      destruct f as [[a b c] [d e f] ro zo st]. unfold image_phase, image_v. cbn [p_phase p_alive p_charge p_mass pos vel v0 v1 v2 r_old z_old sin_theta].
      destruct (reflect_below _ a d), (reflect_below _ c f). reflexivity. }
    rewrite E. set (p' := bunch_reflection _ _). unfold with_phase, image_particle. cbn [p_phase p_alive p_charge p_mass]. now rewrite back_image.
  - unfold with_phase, image_particle. cbn [p_phase p_alive p_charge p_mass]. now rewrite second_image.
Qed.
Lemma velocity_back_image : forall p, velocity_back (image_particle p) = image_particle (velocity_back p).
Proof.
  intro p. unfold velocity_back. change (p_alive (image_particle p)) with (p_alive p). destruct (p_alive p); [|reflexivity].
  unfold with_phase, image_particle. cbn [p_phase p_alive p_charge p_mass]. now rewrite turn_image.
Qed.

(** * Interpolation and fields *)
Lemma weighted_image : forall m m' s l, image_fields m m' -> Forall (fun t => sign_field (fst (fst (fst t))) = s) l -> weighted_sum m' l = s * weighted_sum m l.
Proof.
  intros m m' s l H F. unfold weighted_sum. assert (K : forall a a', a' = s * a -> fold_left (fun x t => x + m' (fst t) * snd t) l a' = s * fold_left (fun x t => x + m (fst t) * snd t) l a); [|apply K; ring].
  induction F as [|[[[b i] k] w] l E F IH]; intros a a' A; [exact A|]. cbn [fold_left]. apply IH. cbn [fst snd] in *. rewrite H, E, A. ring.
Qed.
Lemma efield_image : forall g m m' r z, image_fields m m' -> get_efield g m' r z = image_v (get_efield g m r z).
Proof.
  intros g m m' r z H. unfold get_efield, image_v. cbn [v0 v1 v2].
  rewrite (weighted_image m m' 1 (terms_half_r ER g r z) H), (weighted_image m m' (-1) (terms_whole EPHI g r z) H), (weighted_image m m' 1 (terms_half_z EZ g r z) H) by (repeat constructor).
  f_equal; ring.
Qed.
Lemma hfield_image : forall g m m' r z, image_fields m m' -> get_hfield g m' r z = image_axial (get_hfield g m r z).
Proof.
  intros g m m' r z H. unfold get_hfield, image_axial. cbn [v0 v1 v2].
  rewrite (weighted_image m m' (-1) (terms_half_z HRH g r z) H), (weighted_image m m' 1 (terms_half_both HPHIH g r z) H), (weighted_image m m' (-1) (terms_half_r HZH g r z) H) by (repeat constructor).
  f_equal; ring.
Qed.

Definition fair (a : fasg) : Prop := forall m m', image_fields m m' -> rhs a (map m' (reads a)) = sign_field (fst (fst (tgt a))) * rhs a (map m (reads a)).
Lemma exec_image : forall l, Forall fair l -> forall m m', image_fields m m' -> image_fields (Par.exec loc_eqb l m) (Par.exec loc_eqb l m').
Proof.
  intros l F. induction F as [|a l A F IH]; intros m m' H; [exact H|]. cbn. apply IH. intros b i k. unfold exec_asg, store.
  destruct (loc_eqb_spec (b, i, k) (tgt a)) as [E|N]; [|apply H]. rewrite (A m m' H), <- E. reflexivity.
Qed.
Ltac fair_one := intros m m' H; cbn [tgt reads rhs map fst]; rewrite ?H; cbn [sign_field]; unfold alpha_r, alpha_phi, alpha_z, Rdiv; ring.
Lemma concat_fair : forall l : list (list (list fasg)), Forall (Forall (Forall fair)) l -> Forall fair (concat (concat l)).
Proof. intros l H. apply Forall_concat, Forall_concat. exact H. Qed.
Lemma map_fair : forall {A : Type} (f : A -> list fasg) l, (forall x, Forall fair (f x)) -> Forall (Forall fair) (map f l).
Proof. intros A f l H. apply Forall_map, Forall_forall. auto. Qed.
Lemma calc_e_image : forall g md dt m m', image_fields m m' -> image_fields (calc_efield g md dt m) (calc_efield g md dt m').
Proof.
  intros g md dt. apply exec_image, concat_fair. unfold efield_loops.
  repeat (apply Forall_cons; [apply map_fair; intro x; repeat (apply Forall_cons; [unfold asg_er, asg_ez_axis, asg_ephi, asg_ez; fair_one|]); apply Forall_nil|]). apply Forall_nil.
Qed.
Lemma calc_h_image : forall g dt m m', image_fields m m' -> image_fields (calc_hfield g dt m) (calc_hfield g dt m').
Proof.
  intros g dt. apply exec_image, concat_fair. unfold hfield_loops.
  repeat (apply Forall_cons; [apply map_fair; intro x; repeat (apply Forall_cons; [unfold asg_hr_half, asg_hr, asg_hphi_half, asg_hphi, asg_hz_half, asg_hz; fair_one|]); apply Forall_nil|]). apply Forall_nil.
Qed.
Lemma set_current_image : forall j j' m m', image_currents j j' -> image_fields m m' ->
  image_fields (set_current (j J_R) (j J_PHI) (j J_Z) m) (set_current (j' J_R) (j' J_PHI) (j' J_Z) m').
Proof. intros j j' m m' J H a i k. unfold set_current. destruct a; try apply H; rewrite J; reflexivity. Qed.

(** * The velocity step *)
Definition to_particle (p p' : particle) : Prop := p' = image_particle p.
Definition to_group (x x' : group) : Prop := x' = image_group x.
Lemma traverse_image : forall {A : Type} (h : A -> A) (f f' : A -> outcome A) l, (forall x, related (fun y y' => y' = h y) (f x) (f' (h x))) ->
  related (fun y y' => y' = map h y) (traverse f l) (traverse f' (map h l)).
Proof.
  intros A h f f' l H. induction l as [|x l IH]; [reflexivity|]. cbn [traverse map]. apply related_bind with (1 := H x). intros y y' ->.
  apply related_bind with (1 := IH). intros ys ys' ->. reflexivity.
Qed.
Lemma step_v_image : forall su m m' p, image_fields m m' -> related to_particle (step_v_one su m p) (step_v_one su m' (image_particle p)).
Proof.
  intros su m m' p H. unfold step_v_one. change (p_alive (image_particle p)) with (p_alive p). destruct (p_alive p); [|reflexivity].
  change (p_r (image_particle p)) with (p_r p). change (p_z (image_particle p)) with (p_z p). destruct (strict su && _)%bool; [exact I|].
  rewrite (efield_image _ m m' _ _ H), (hfield_image _ m m' _ _ H). change (vel (p_phase (image_particle p))) with (image_v (vel (p_phase p))).
  change (p_charge (image_particle p)) with (p_charge p). change (p_mass (image_particle p)) with (p_mass p).
  apply related_bind with (1 := push_image _ _ _ _ _ _ _). intros v v' ->. cbn. unfold to_particle, image_particle. cbn [p_phase p_alive p_charge p_mass]. now rewrite set_vel_image, first_image.
Qed.
Lemma step_v_group_image : forall su m m' x, image_fields m m' -> related to_group (step_v_group su m x) (step_v_group su m' (image_group x)).
Proof.
  intros su m m' x H. unfold step_v_group. apply related_bind with (P := fun y y' => y' = map image_particle y).
  - apply traverse_image. intro p. apply step_v_image, H.
  - intros y y' ->. reflexivity.
Qed.

(** * Currents *)
Definition to_jinc (c c' : jinc) : Prop := j_comp c' = j_comp c /\ row (j_inc c') = row (j_inc c) /\ col (j_inc c') = col (j_inc c) /\ val (j_inc c') = sign_current (j_comp c) * val (j_inc c).
Lemma jincs_image : forall l l', Forall2 to_jinc l l' -> forall j j', image_currents j j' -> image_currents (apply_jincs j l) (apply_jincs j' l').
Proof.
  intros l l' F. induction F as [|c c' l l' (E1 & E2 & E3 & E4) F IH]; intros j j' J; [exact J|]. cbn. apply IH. intros x i k. unfold apply_jinc. rewrite E1.
  destruct (jcomp_eqb x (j_comp c)) eqn:Q; [|apply J]. assert (x = j_comp c) as -> by (destruct x, (j_comp c); cbn in Q; congruence). unfold apply_inc, upd. rewrite E2, E3, E4.
  match goal with |- context [if ?b then _ else _] => destruct b end; rewrite ?J; [ring|reflexivity].
Qed.
Lemma in_array_image : forall g l l', Forall2 to_jinc l l' -> jincs_in_array g l' = jincs_in_array g l.
Proof.
  intros g l l' F. unfold jincs_in_array, incs_in_array. induction F as [|c c' l l' (E1 & E2 & E3 & E4) F IH]; [reflexivity|]. cbn [map forallb]. now rewrite E2, E3, IH.
Qed.
Lemma flat_image : forall {A : Type} (h : A -> A) (f : A -> list jinc) l, (forall x, Forall2 to_jinc (f x) (f (h x))) -> Forall2 to_jinc (flat_map f l) (flat_map f (map h l)).
Proof. intros A h f l H. induction l as [|x l IH]; cbn; [constructor|]. apply Forall2_app; auto. Qed.
Lemma azimuthal_image : forall g ps, Forall2 to_jinc (azimuthal_incs g ps) (azimuthal_incs g (map image_particle ps)).
Proof.
  intros g ps. apply flat_image. intro p. change (p_alive (image_particle p)) with (p_alive p). destruct (p_alive p); [|constructor].
  change (p_r (image_particle p)) with (p_r p). change (p_z (image_particle p)) with (p_z p). change (p_charge (image_particle p)) with (p_charge p).
  change (v1 (vel (p_phase (image_particle p)))) with (- v1 (vel (p_phase p))). unfold azimuthal_single. cbv zeta.
  repeat (apply Forall2_cons; [unfold to_jinc, inc_j_phi; cbn [j_comp j_inc row col val sign_current]; repeat split; ring|]). apply Forall2_nil.
Qed.
Definition plain (c : jinc) : Prop := j_comp c <> J_PHI.
Lemma plain_image : forall l, Forall plain l -> Forall2 to_jinc l l.
Proof.
  intros l F. induction F as [|c l P F IH]; constructor; [|exact IH]. unfold to_jinc, plain in *. repeat split. destruct (j_comp c); [|congruence|]; cbn; ring.
Qed.
Lemma simple_plain : forall g dt q a b c d i k, Forall plain (simple_current g dt q a b c d i k).
Proof. intros. unfold simple_current. cbv zeta. repeat (match goal with |- context [if ?x then _ else _] => destruct x end); repeat constructor; discriminate. Qed.
Lemma strict_plain : forall g dt q a b c d, Forall plain (strict_motion g dt q a b c d).
Proof.
  intros. unfold strict_motion, strict_axial, strict_radial. cbv zeta.
  repeat (match goal with |- Forall _ (if ?x then _ else _) => destruct x | |- Forall _ (_ ++ _) => apply Forall_app; split | |- Forall _ (_ :: _) => apply Forall_cons; [discriminate|] | |- Forall _ [] => apply Forall_nil end).
Qed.
Ltac plain_tac := repeat (match goal with |- Forall _ (if ?x then _ else _) => destruct x | |- Forall _ (_ ++ _) => apply Forall_app; split | |- Forall _ (simple_current _ _ _ _ _ _ _ _ _) => apply simple_plain | |- Forall _ [] => constructor end).
Lemma current_plain : forall g dt q a b c d, Forall plain (current_single g dt q a b c d).
Proof.
  intros. unfold current_single. destruct (tie_cells (dr g) a c) as (i & i'), (tie_cells (dz g) b d) as (k & k'). cbv zeta.
  repeat (match goal with |- Forall _ (if ?x then _ else _) => destruct x end); try apply strict_plain; try apply simple_plain; try constructor.
  - unfold current_one_border. cbv zeta. plain_tac.
  - unfold current_two_borders. cbv zeta. plain_tac.
Qed.
Lemma current_image : forall g dt ps, Forall2 to_jinc (current_incs g dt ps) (current_incs g dt (map image_particle ps)).
Proof.
  intros g dt ps. apply flat_image. intro p. change (c_of (image_particle p)) with (c_of p). apply plain_image. unfold current_part. destruct (c_alive _); [apply current_plain|constructor].
Qed.
Lemma moved_image : forall su x, moved su (image_group x) = map image_particle (moved su x).
Proof. intros su x. unfold moved. cbn [g_bunch g_parts image_group]. rewrite !map_map. apply map_ext. intro p. apply half_reflect_image. Qed.
Definition to_current (x x' : currents * group) : Prop := image_currents (fst x) (fst x') /\ snd x' = image_group (snd x).
Lemma full_group_image : forall su j j' x, image_currents j j' -> related to_current (full_current_group su j x) (full_current_group su j' (image_group x)).
Proof.
  intros su j j' x J. unfold full_current_group. rewrite moved_image. change (g_parts (image_group x)) with (map image_particle (g_parts x)).
  assert (A := azimuthal_image (su_geom su) (g_parts x)). assert (C := current_image (su_geom su) (su_dt su) (moved su x)).
  rewrite (in_array_image _ _ _ A), (in_array_image _ _ _ C). destruct (_ && _)%bool; [|exact I]. cbn [related]. split; cbn [fst snd].
  - apply jincs_image; [exact C|]. apply jincs_image; [exact A|exact J].
  - unfold image_group. cbn [g_bunch g_parts]. f_equal. rewrite !map_map. apply map_ext. intro p. apply velocity_back_image.
Qed.
Lemma full_current_image : forall su gs j j', image_currents j j' ->
  related (fun x x' => image_currents (fst x) (fst x') /\ snd x' = map image_group (snd x)) (full_current su j gs) (full_current su j' (map image_group gs)).
Proof.
  intros su gs. induction gs as [|x gs IH]; intros j j' J; [split; [exact J|reflexivity]|]. cbn [full_current map].
  apply related_bind with (1 := full_group_image su j j' x J). intros y y' (YJ & YG). apply related_bind with (1 := IH _ _ YJ). intros r r' (RJ & RG). cbn. split; [exact RJ|]. now rewrite YG, RG.
Qed.

(** * Beam and output *)
Lemma numbers_image : forall gs, bunch_numbers (map image_group gs) = bunch_numbers gs.
Proof. intro gs. unfold bunch_numbers. induction gs as [|x gs IH]; [reflexivity|]. cbn. now rewrite IH. Qed.
Lemma new_bunch_image : forall su n, image_group (new_bunch su n) = new_bunch su n.
Proof.
  intros su n. unfold new_bunch, image_group. cbn [g_bunch g_parts]. f_equal. rewrite map_map. apply map_ext. intro m. unfold image_particle, image_phase, image_v. cbn [p_alive p_charge p_mass p_phase pos vel v0 v1 v2 r_old z_old sin_theta].
  now rewrite !Ropp_0.
Qed.
Lemma update_image : forall {A : Type} (h f : A -> A) n l, (forall x, f (h x) = h (f x)) -> update_nth n f (map h l) = map h (update_nth n f l).
Proof. intros A h f n l H. revert n. induction l as [|x l IH]; intros [|n]; cbn; try reflexivity; [now rewrite H|now rewrite IH]. Qed.
Lemma inject_all_image : forall l ps, inject_all l (map image_particle ps) = map image_particle (inject_all l ps).
Proof.
  intros l. unfold inject_all. induction l as [|x l IH]; intros ps; [reflexivity|]. cbn [fold_left]. rewrite update_image by reflexivity. apply IH.
Qed.
Lemma inject_group_image : forall su t x, related to_group (inject_group su t x) (inject_group su t (image_group x)).
Proof.
  intros su t [b ps]. unfold inject_group, image_group. cbn [g_bunch g_parts]. destruct b as [n|]; [|reflexivity].
  apply related_bind with (1 := related_refl _). intros l l' <-. cbn. unfold to_group, image_group. cbn [g_bunch g_parts]. now rewrite inject_all_image.
Qed.
Lemma bunches_image : forall gs, bunches_of (map image_group gs) = bunches_of gs.
Proof.
  intro gs. unfold bunches_of. induction gs as [|[b ps] gs IH]; [reflexivity|]. cbn [map flat_map]. rewrite IH. f_equal. cbn [image_group g_bunch g_parts]. destruct b; [|reflexivity]. now rewrite map_map.
Qed.
Lemma written_image : forall p s a a', (forall i k, a' i k = s * a i k) -> written p a' = map (Rmult s) (written p a).
Proof.
  intros p s a a' H. unfold written. destruct (_ =? 0)%Z; [|destruct (_ =? 1)%Z; [|destruct (_ =? 2)%Z; [|destruct (_ =? 3)%Z]]].
  - rewrite flat_map_concat_map, flat_map_concat_map, concat_map, map_map. f_equal. apply map_ext. intro i. rewrite map_map. apply map_ext. auto.
  - rewrite map_map. apply map_ext. auto.
  - rewrite map_map. apply map_ext. auto.
  - cbn. now rewrite H.
  - reflexivity.
Qed.
Lemma append_image : forall s f f' n l l', (forall m, f' m = map (Rmult s) (f m)) -> l' = map (Rmult s) l -> forall m, append f' n l' m = map (Rmult s) (append f n l m).
Proof. intros s f f' n l l' F L m. unfold append. rewrite F, L. destruct (m =? n)%Z; [now rewrite map_app|reflexivity]. Qed.
Lemma dump_data_image : forall g fr t dt arrays arrays' bs ps ps', (forall n i k, arrays' n i k = sign_shown (CArray n) * arrays n i k) -> Forall2 image_probe ps ps' -> forall rho,
  related (fun x x' => fst x' = fst x /\ Forall2 image_probe (snd x) (snd x')) (dump_data g fr t dt arrays bs rho ps) (dump_data g fr t dt arrays' bs rho ps').
Proof.
  intros g fr t dt arrays arrays' bs ps ps' H F. induction F as [|[p f] [p' f'] ps ps' (E & V) F IH]; intro rho; [split; constructor|]. cbn [fst snd] in E, V. subst p'. cbn [dump_data].
  apply related_bind with (1 := related_refl _). intros b b' <-. destruct b.
  - apply related_bind with (1 := related_refl _). intros n n' <-. apply related_bind with (1 := IH _). intros r r' (R1 & R2). cbn. split; [exact R1|]. constructor; [|exact R2].
    split; [reflexivity|]. cbn [fst snd next_step pr_component]. destruct (pr_component p) as [c| |].
    + apply append_image; [exact V|]. apply written_image. auto.
    + apply append_image; [exact V|]. apply written_image. intros. cbn. ring.
    + exact V.
  - apply related_bind with (1 := IH _). intros r r' (R1 & R2). cbn. split; [exact R1|]. constructor; [|exact R2]. split; [reflexivity|exact V].
Qed.
Lemma shown_image : forall s s', image s s' -> forall n i k, shown s' n i k = sign_shown (CArray n) * shown s n i k.
Proof.
  intros s s' (F & J & _) n i k. unfold shown, sign_shown.
  destruct (Z.eqb_spec n 0) as [->|N0]; [apply F|]. destruct (Z.eqb_spec n 1) as [->|N1]; [apply F|]. destruct (Z.eqb_spec n 2) as [->|N2]; [apply F|].
  destruct (Z.eqb_spec n 3) as [->|N3]; [apply F|]. destruct (Z.eqb_spec n 4) as [->|N4]; [apply F|]. destruct (Z.eqb_spec n 5) as [->|N5]; [apply F|].
  destruct (Z.eqb_spec n 6) as [->|N6]; [apply J|]. destruct (Z.eqb_spec n 7) as [->|N7]; apply J.
Qed.

(** * The main loop *)
Lemma exec_step_image : forall su a t s s', image s s' -> related image (Sim.exec su a t s) (Sim.exec su a t s').
Proof.
  intros su a t s s' H. assert (S := shown_image s s' H). destruct H as (F & J & R & G & B & P). destruct a; cbn [Sim.exec].
  - unfold exec_beam. rewrite G, B, numbers_image. apply related_bind with (1 := related_refl _). intros x x' <-.
    apply related_bind with (P := fun y y' => y' = map image_group y).
    + assert (E : (if (current_bunch_number x =? current_bunch_number (BeamState (s_bunch_number s) (bunch_numbers (s_groups s))))%Z then map image_group (s_groups s) else map image_group (s_groups s) ++ [new_bunch su (s_bunch_number s)]) =
        map image_group (if (current_bunch_number x =? current_bunch_number (BeamState (s_bunch_number s) (bunch_numbers (s_groups s))))%Z then s_groups s else s_groups s ++ [new_bunch su (s_bunch_number s)])).
      { destruct (_ =? _)%Z; [reflexivity|]. rewrite map_app. cbn [map]. now rewrite new_bunch_image. }
      rewrite E. apply traverse_image. intro y. apply inject_group_image.
    + intros y y' ->. repeat split; auto.
  - cbn. split; [now apply calc_h_image|]. repeat split; auto.
  - cbn. split; [exact F|]. split; [|repeat split; auto]. cbn [s_current]. intros c i k. unfold reset_j. rewrite J. destruct (_ && _)%bool; [ring|reflexivity].
  - cbn. repeat split; auto.
  - cbn. split; [exact F|]. split; [exact J|]. cbn [s_rho_bunch s_groups s_bunch_number s_probes]. rewrite R. auto.
  - apply related_bind with (P := fun y y' => y' = map image_group y).
    + rewrite G. apply traverse_image. intro x. apply step_v_group_image, F.
    + intros y y' ->. cbn. repeat split; auto.
  - rewrite G. apply related_bind with (1 := full_current_image su (s_groups s) _ _ J). intros r r' (RJ & RG). cbn. split; [exact F|]. split; [exact RJ|]. cbn [s_rho_bunch s_groups s_bunch_number s_probes]. auto.
  - cbn. split; [|repeat split; auto]. cbn [s_fields]. apply calc_e_image. now apply set_current_image.
  - cbn. repeat split; auto.
  - rewrite G, bunches_image, R. apply related_bind with (1 := related_refl _). intros x x' <-. cbn. split; [exact F|]. split; [exact J|]. cbn [s_rho_bunch s_groups s_bunch_number s_probes]. auto.
  - rewrite G, bunches_image, R. apply related_bind with (1 := dump_data_image _ _ _ _ _ _ _ _ _ S P _). intros r r' (R1 & R2). cbn. split; [exact F|]. split; [exact J|]. cbn [s_rho_bunch s_groups s_bunch_number s_probes]. auto.
Qed.
Lemma exec_all_image : forall su l s s', image s s' -> related image (exec_all (Sim.exec su) l s) (exec_all (Sim.exec su) l s').
Proof.
  intros su l. induction l as [|[a t] l IH]; intros s s' H; [exact H|]. cbn [exec_all]. apply related_bind with (1 := exec_step_image su a t s s' H). exact IH.
Qed.
Lemma run_image : forall su fuel t e s s', image s s' ->
  match run su fuel t e s, run su fuel t e s' with Some o, Some o' => related image o o' | None, None => True | _, _ => False end.
Proof.
  intros su. unfold run. intro fuel. induction fuel as [|fuel IH]; intros t e s s' H; cbn [run_loop]; destruct (Rlt_dec t e); try exact I; try exact H.
  assert (K := exec_all_image su (map (fun a => (a, t)) iteration) s s' H).
  destruct (exec_all _ _ s) as [x|c|], (exec_all _ _ s') as [x'|c'|]; cbn in K; try contradiction; [now apply IH|exact K|exact I].
Qed.
