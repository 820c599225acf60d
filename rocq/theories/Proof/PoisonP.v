(** NaN in the currents and in the fields: where it comes from, and that it stays. *)
From Coq Require Import Reals ZArith List Bool Lia Lra.
From Flocq Require Import Core IEEE754.BinarySingleNaN.
From Verif.Lib Require Import RAux Grid Outcome Par.
From Verif.Model Require Sim.
From Verif.Model Require Import Binary64 Temperature64 Arith Geometry Fields Pusher CurrentDeposit GenCode GenRun GenSim.
From Verif.Proof Require Import Binary64P FloatP FieldsP GenFieldsP.
From Verif.Spec Require Import Poison.
Import ListNotations.

Notation nan x := (@is_nan prec64 emax64 x = true).

Lemma nan_add_l : forall x y, nan x -> nan (b64_add x y). Proof. intros [| | |] y H; try discriminate. destruct y; reflexivity. Qed.
Lemma nan_add_r : forall x y, nan y -> nan (b64_add x y). Proof. intros x [| | |] H; try discriminate. destruct x; reflexivity. Qed.
Lemma nan_sub_l : forall x y, nan x -> nan (b64_sub x y). Proof. intros [| | |] y H; try discriminate. destruct y; reflexivity. Qed.
Lemma nan_sub_r : forall x y, nan y -> nan (b64_sub x y). Proof. intros x [| | |] H; try discriminate. destruct x; reflexivity. Qed.
Lemma nan_mul_l : forall x y, nan x -> nan (b64_mul x y). Proof. intros [| | |] y H; try discriminate. destruct y; reflexivity. Qed.
Lemma nan_mul_r : forall x y, nan y -> nan (b64_mul x y). Proof. intros x [| | |] H; try discriminate. destruct x; reflexivity. Qed.

Section P.
Variables pw lg : b64 -> b64.
Notation A := (b64_arith pw lg).

(** ** An oblique leg whose logarithm is NaN *)
Lemma simple_nan : forall g dt q rn zn ro zo k,
  ltb A (absv A (sub A rn ro)) (gMNZL A) = false -> ltb A (absv A (sub A zn zo)) (gMNZL A) = false ->
  nan (lg (b64_div (b64_add ro (b64_sub rn ro)) ro)) ->
  exists v w, nan v /\ nan w /\ In (gj_r A 0 k v) (gsimple_current A g dt q rn zn ro zo 0 k) /\ In (gj_r A 0 (k + 1) w) (gsimple_current A g dt q rn zn ro zo 0 k).
Proof.
  intros g dt q rn zn ro zo k H1 H2 N. unfold gsimple_current. rewrite H1, H2. change (1 <=? 0)%Z with false. cbv iota.
  eexists. eexists. split; [|split; [|split; [right; right; left; reflexivity|right; right; right; left; reflexivity]]].
  - cbn [mul add log_of b64_arith]. apply nan_mul_r, nan_add_r, nan_mul_r. exact N.
  - cbn [mul sub log_of b64_arith]. apply nan_mul_r, nan_sub_r, nan_mul_r. exact N.
Qed.

(** ** A move over a border along z that starts one double behind the border *)
Definition rb (g : ggeom A) (rn zn ro zo : num A) (k : Z) : num A :=
  add A rn (mul A (div A (sub A ro rn) (sub A zo zn)) (sub A (mul A (of_int A (k + 1)) (gdz A g)) zn)).
Definition leg_arg (g : ggeom A) (rn zn ro zo : num A) (k : Z) : b64 := b64_div (b64_add ro (b64_sub (rb g rn zn ro zo k) ro)) ro.
Definition nan_test (g : ggeom A) (rn zn ro zo : num A) (k : Z) : bool :=
  let (i_n, i_o) := gtie_cells A (gdr A g) rn ro in let (k_n, k_o) := gtie_cells A (gdz A g) zn zo in let zb := mul A (of_int A (k + 1)) (gdz A g) in
  (i_n =? 0)%Z && (i_o =? 0)%Z && (k_n =? k)%Z && (k_o =? k - 1)%Z && (0 <=? k)%Z && (k + 1 <? gn_z A g - 1)%Z && (2 <=? gn_r A g)%Z &&
  negb (ltb A (absv A (sub A rn ro)) (gMNZL A)) && negb (ltb A (absv A (sub A zn zo)) (gMNZL A)) && negb (ltb A zo (mul A (of_int A k) (gdz A g))) &&
  negb (ltb A (absv A (sub A (rb g rn zn ro zo k) ro)) (gMNZL A)) && negb (ltb A (absv A (sub A zb zo)) (gMNZL A)) &&
  is_finite (leg_arg g rn zn ro zo k) && Bltb (leg_arg g rn zn ro zo k) (b64_of_Z 0).
Lemma border_nan : forall g dt q rn zn ro zo k, domain_error lg -> nan_test g rn zn ro zo k = true -> gives_nan pw lg g (gcurrent_single A g dt q rn zn ro zo).
Proof.
  intros g dt q rn zn ro zo k HL H. unfold nan_test in H. unfold gcurrent_single. destruct (gtie_cells A (gdr A g) rn ro) as (i_n, i_o). destruct (gtie_cells A (gdz A g) zn zo) as (k_n, k_o).
  rewrite !andb_true_iff, !negb_true_iff, !Z.eqb_eq, !Z.leb_le, !Z.ltb_lt in H. destruct H as (((((((((((((-> & ->) & ->) & ->) & H0) & H1) & HR) & T1) & T2) & T3) & T4) & T5) & T6) & T7).
  rewrite T1, T2. replace (Z.abs (0 - 0) + Z.abs (k - (k - 1)))%Z with 1%Z by lia. change (1 =? 0)%Z with false. change (1 =? 1)%Z with true. cbv iota. unfold gcurrent_one_border.
  replace (k =? k - 1)%Z with false by (symmetry; apply Z.eqb_neq; lia). change (negb (0 =? 0)%Z && false) with false. change ((0 =? 0)%Z && negb false) with true. cbv iota zeta. rewrite T3.
  fold (rb g rn zn ro zo k). destruct (simple_nan g dt q (rb g rn zn ro zo k) (mul A (of_int A (k + 1)) (gdz A g)) ro zo (k + 1) T4 T5) as (v & w & NV & _ & IV & _).
  - apply HL; [exact T6|]. apply ltb_ok in T7; [|exact T6|reflexivity]. rewrite (proj2 (of_Z_exact 0 eq_refl)) in T7. exact T7.
  - exists 0%Z, (k + 1)%Z, v. split; [apply in_or_app; left; exact IV|]. split; [lia|]. split; [lia|exact NV].
Qed.

(** ** Deposition keeps NaN and writes only currents *)
Lemma adds_nan : forall g l f f' x, nan (f x) -> ofold (gadd_j A g) l f = Ok f' -> nan (f' x).
Proof.
  intros g l. induction l as [|c l IH]; intros f f' x N H; cbn [ofold] in H; [injection H as <-; exact N|].
  unfold gadd_j in H at 1. destruct (inside A g _ _) eqn:I; [|discriminate]. cbn [bind] in H. refine (IH _ _ _ _ H).
  destruct (loc_eqb_spec x (gj_loc A c)) as [->|E]; [|exact N]. now apply nan_add_l.
Qed.
Lemma add_makes : forall g l f f' c, In c l -> nan (gval A (gj_inc A c)) -> ofold (gadd_j A g) l f = Ok f' -> nan (f' (gj_loc A c)).
Proof.
  intros g l. induction l as [|c0 l IH]; intros f f' c I N H; [destruct I|]. cbn [ofold] in H.
  unfold gadd_j in H at 1. destruct (inside A g _ _) eqn:E; [|discriminate]. cbn [bind] in H. destruct I as [->|I]; [|exact (IH _ _ _ I N H)].
  refine (adds_nan _ _ _ _ _ _ H). destruct (loc_eqb_spec (gj_loc A c) (gj_loc A c)) as [_|X]; [now apply nan_add_r|congruence].
Qed.
Definition is_j (x : loc) : bool := match x with (a, _, _) => match a with JR | JPHI | JZ => true | _ => false end end.
Lemma adds_other : forall g l f f' x, is_j x = false -> ofold (gadd_j A g) l f = Ok f' -> f' x = f x.
Proof.
  intros g l. induction l as [|c l IH]; intros f f' x J H; cbn [ofold] in H; [now injection H as <-|].
  unfold gadd_j in H at 1. destruct (inside A g _ _) eqn:I; [|discriminate]. cbn [bind] in H. rewrite (IH _ _ _ J H).
  destruct (loc_eqb_spec x (gj_loc A c)) as [->|E]; [|reflexivity]. unfold gj_loc, is_j in J. destruct (gj_comp A c); discriminate.
Qed.
Lemma ofold_inv : forall {X S : Type} (P : S -> Prop) (f : X -> S -> outcome S) l s s',
  (forall x s s', In x l -> P s -> f x s = Ok s' -> P s') -> P s -> ofold f l s = Ok s' -> P s'.
Proof.
  intros X S P f l. induction l as [|x l IH]; intros s s' HF HP H; cbn [ofold] in H; [now injection H as <-|].
  destruct (f x s) as [s1| |] eqn:E; cbn [bind] in H; try discriminate. apply (IH s1 s'); [intros y a b I; apply HF; now right| |exact H]. apply (HF x s s1); [now left|exact HP|exact E].
Qed.

Section Keep.
Variable P : (loc -> num A) -> Prop.
Variable g : ggeom A.
Hypothesis keep : forall l f f', P f -> ofold (gadd_j A g) l f = Ok f' -> P f'.
Lemma keep_azimuthal : forall ps f f', P f -> ofold (gazimuthal_one A g) ps f = Ok f' -> P f'.
Proof.
  intros ps f f' HP H. refine (ofold_inv P _ ps f f' _ HP H). intros p s s' _ Hs E. unfold gazimuthal_one in E. destruct (galive A p); [exact (keep _ _ _ Hs E)|now injection E as <-].
Qed.
Lemma keep_current : forall dt ps f f', P f -> ofold (gcurrent_one A g dt) ps f = Ok f' -> P f'.
Proof.
  intros dt ps f f' HP H. refine (ofold_inv P _ ps f f' _ HP H). intros p s s' _ Hs E. unfold gcurrent_one in E. destruct (galive A p); [exact (keep _ _ _ Hs E)|now injection E as <-].
Qed.
End Keep.
Lemma keep_full : forall (P : (loc -> num A) -> Prop) c, (forall l f f', P f -> ofold (gadd_j A (c_geom A c)) l f = Ok f' -> P f') ->
  forall gs f r, P f -> gfull_current A c gs f = Ok r -> P (fst r).
Proof.
  intros P c keep gs. induction gs as [|x gs IH]; intros f r HP H; cbn [gfull_current] in H; [now injection H as <-|].
  destruct (gfull_current_group A c x f) as [y| |] eqn:E; cbn [bind] in H; try discriminate. destruct (gfull_current A c gs (fst y)) as [r'| |] eqn:E'; cbn [bind] in H; try discriminate.
  injection H as <-. cbn [fst]. refine (IH _ _ _ E'). unfold gfull_current_group in E.
  destruct (ofold (gazimuthal_one A (c_geom A c)) (snd x) f) as [f1| |] eqn:E1; cbn [bind] in E; try discriminate.
  destruct (Sim.traverse _ (snd x)) as [ps| |]; cbn [bind] in E; try discriminate.
  destruct (ofold (gcurrent_one A (c_geom A c) (c_dt A c)) ps f1) as [f2| |] eqn:E2; cbn [bind] in E; try discriminate. injection E as <-. cbn [fst].
  exact (keep_current P _ keep _ _ _ _ (keep_azimuthal P _ keep _ _ _ HP E1) E2).
Qed.

(** ** The electric update *)
Lemma efield_nan : forall g md dt (m : gmem A) i k, (2 <= gn_r A g)%Z -> (0 <= i < gn_r A g - 1)%Z -> (1 <= k < gn_z A g - 1)%Z ->
  nan (m (ER, i, k)) \/ nan (m (JR, i, k)) -> nan (gcalc_efield A g md dt m (ER, i, k)).
Proof.
  intros g md dt m i k HN HI HK H. rewrite gcalc_efield_er by exact HN. replace (in_rect 0 (gn_r A g - 1) 1 (gn_z A g - 1) i k) with true by (symmetry; unfold in_rect; rewrite !andb_true_iff, !Z.leb_le, !Z.ltb_lt; lia).
  unfold value, gasg_er. cbn [rhs reads map]. destruct H as [H|H].
  - cbn [sub mul b64_arith]. now apply nan_sub_l, nan_mul_l.
  - cbn [sub mul add b64_arith]. now apply nan_sub_r, nan_mul_l, nan_add_l.
Qed.

(** ** One iteration *)
Lemma iteration_fields : forall c t s s', giteration A c t s = Ok s' -> exists s1 gs r,
  gbeam A c t s = Ok s1 /\ gs_fields A s1 = gs_fields A s /\
  let f := greset_j A (c_geom A c) (gcalc_hfield A (c_geom A c) (c_dt A c) (gs_fields A s)) in
  Sim.traverse (gstep_v_group A c f) (gs_groups A s1) = Ok gs /\ gfull_current A c gs f = Ok r /\
  gs_fields A s' = gcalc_efield A (c_geom A c) (c_medium A c) (c_dt A c) (fst r).
Proof.
  intros c t s s' H. unfold giteration in H. destruct (gbeam A c t s) as [s1| |] eqn:E; cbn [bind] in H; try discriminate.
  assert (F : gs_fields A s1 = gs_fields A s).
  { unfold gbeam in E. destruct (erase_reached A c t (gs_bunches A s)); [discriminate|]. destruct (ginject_groups A c t 0 _) as [x| |]; cbn [bind] in E; try discriminate. injection E as <-. reflexivity. }
  rewrite F in H. exists s1. destruct (Sim.traverse _ _) as [gs| |] eqn:E1; cbn [bind] in H; try discriminate. destruct (gfull_current A c gs _) as [r| |] eqn:E2; cbn [bind] in H; try discriminate.
  destruct (ofold _ (gbunches_of A (snd r)) _) as [rho| |] eqn:E3; cbn [bind] in H; try discriminate. injection H as <-. exists gs, r. repeat split; auto.
Qed.

Lemma start_er : forall c f i k, greset_j A (c_geom A c) (gcalc_hfield A (c_geom A c) (c_dt A c) f) (ER, i, k) = f (ER, i, k).
Proof. intros c f i k. cbn [greset_j]. apply gcalc_hfield_other. reflexivity. Qed.

Lemma poison_step : forall c t s s', (2 <= gn_r A (c_geom A c))%Z -> poisoned pw lg (c_geom A c) (gs_fields A s) -> giteration A c t s = Ok s' -> poisoned pw lg (c_geom A c) (gs_fields A s').
Proof.
  intros c t s s' HN (i & k & HI & HK & N) H. exists i, k. split; [exact HI|]. split; [exact HK|]. destruct (iteration_fields c t s s' H) as (s1 & gs & r & _ & _ & _ & R & F). rewrite F.
  apply efield_nan; auto. left.
  refine (keep_full (fun f => nan (f (ER, i, k))) c _ gs _ r _ R); [intros l f f' HP E; exact (adds_nan _ _ _ _ _ HP E)|]. rewrite start_er. exact N.
Qed.
Lemma poison_stays : forall c n t e s s', (2 <= gn_r A (c_geom A c))%Z -> poisoned pw lg (c_geom A c) (gs_fields A s) -> gsim_run A c n t e s = Ok s' -> poisoned pw lg (c_geom A c) (gs_fields A s').
Proof.
  intros c n. induction n as [|n IH]; intros t e s s' HN P H; cbn [gsim_run] in H; [now injection H as <-|].
  destruct (ltb A t e); [|now injection H as <-]. destruct (giteration A c t s) as [s1| |] eqn:E; cbn [bind] in H; try discriminate.
  exact (IH _ _ _ _ HN (poison_step c t s s1 HN P E) H).
Qed.

(** ** A particle whose move gives NaN *)
Lemma poison_enters : forall c t s s' gs b ps ps' p, (2 <= gn_r A (c_geom A c))%Z -> giteration A c t s = Ok s' ->
  (forall s1, gbeam A c t s = Ok s1 -> Sim.traverse (gstep_v_group A c (greset_j A (c_geom A c) (gcalc_hfield A (c_geom A c) (c_dt A c) (gs_fields A s)))) (gs_groups A s1) = Ok gs) ->
  In (b, ps) gs -> Sim.traverse (ghalf_reflect A (c_geom A c) (c_dt A c) b) ps = Ok ps' -> In p ps' -> galive A p = true ->
  gives_nan pw lg (c_geom A c) (gcurrent_single A (c_geom A c) (c_dt A c) (gcharge A p) (g0 A (gpos A (gph A p))) (g2 A (gpos A (gph A p))) (gr_old A (gph A p)) (gz_old A (gph A p))) ->
  poisoned pw lg (c_geom A c) (gs_fields A s').
Proof.
  intros c t s s' gs b ps ps' p HN H T I1 HR I2 AL (i & k & v & IV & HI & HK & NV). exists i, k. split; [exact HI|]. split; [exact HK|].
  destruct (iteration_fields c t s s' H) as (s1 & gs0 & r & B & _ & T0 & R & F). rewrite (T _ B) in T0. injection T0 as <-. rewrite F. apply efield_nan; auto. right. clear F H T B.
  set (f0 := greset_j _ _ _) in R. clearbody f0. revert f0 r R. induction gs as [|y gs IH]; intros f0 r R; [destruct I1|]. cbn [gfull_current] in R.
  destruct (gfull_current_group A c y f0) as [w| |] eqn:E; cbn [bind] in R; try discriminate. destruct (gfull_current A c gs (fst w)) as [r'| |] eqn:E'; cbn [bind] in R; try discriminate.
  injection R as <-. cbn [fst]. destruct I1 as [->|I1]; [|exact (IH I1 _ _ E')].
  refine (keep_full (fun f => nan (f (JR, i, k))) c _ gs _ r' _ E'); [intros l f f' HP Q; exact (adds_nan _ _ _ _ _ HP Q)|].
  unfold gfull_current_group in E. cbn [fst snd] in E. destruct (ofold (gazimuthal_one A (c_geom A c)) ps f0) as [f1| |] eqn:E1; cbn [bind] in E; try discriminate.
  rewrite HR in E. cbn [bind] in E. destruct (ofold (gcurrent_one A (c_geom A c) (c_dt A c)) ps' f1) as [f2| |] eqn:E2; cbn [bind] in E; try discriminate. injection E as <-. cbn [fst].
  clear E' IH E1 HR. revert f1 f2 E2. induction ps' as [|p0 ps' IHp]; intros f1 f2 E2; [destruct I2|]. cbn [ofold] in E2.
  destruct (gcurrent_one A (c_geom A c) (c_dt A c) p0 f1) as [f3| |] eqn:E3; cbn [bind] in E2; try discriminate. destruct I2 as [->|I2]; [|exact (IHp I2 _ _ E2)].
  refine (keep_current (fun f => nan (f (JR, i, k))) (c_geom A c) _ (c_dt A c) ps' _ _ _ E2); [intros l f f' HP Q; exact (adds_nan _ _ _ _ _ HP Q)|].
  unfold gcurrent_one in E3. rewrite AL in E3. exact (add_makes _ _ _ _ (gj_r A i k v) IV NV E3).
Qed.
End P.
