(** The direction of the deposited currents, in exact arithmetic (C74). *)
From Coq Require Import Reals ZArith Lia Lra List Bool Psatz.
From Verif.Lib Require Import RAux Grid.
From Verif.Model Require Import Constants Geometry CurrentDeposit.
From Verif.Spec Require Import Cloud Continuity Direction.
From Verif.Proof Require Import GeometryP ChargeP CurrentP CurrentP2 CurrentP3 CurrentP4.
Import ListNotations.
Local Open Scope R_scope.

(** A function that grows between a and b. *)
Lemma grows : forall f f' a b, (forall c, Rmin a b <= c <= Rmax a b -> derivable_pt_lim f c (f' c) /\ 0 <= f' c) -> 0 <= (b - a) * (f b - f a).
Proof.
  assert (M : forall f f' a b, a < b -> (forall c, a <= c <= b -> derivable_pt_lim f c (f' c) /\ 0 <= f' c) -> 0 <= f b - f a).
  { intros f f' a b L H. destruct (MVT_cor2 f f' a b L) as (c & E & C); [intros c Hc; now apply H|]. rewrite E. apply Rmult_le_pos; [apply H; lra|lra]. }
  intros f f' a b H. destruct (Rtotal_order a b) as [L|[L|L]].
  - apply Rmult_le_pos; [lra|]. apply (M f f'); [exact L|]. intros c Hc. apply H. rewrite Rmin_left, Rmax_right; lra.
  - subst b. replace (a - a) with 0 by ring. lra.
  - assert (K : 0 <= f a - f b). { apply (M f f'); [exact L|]. intros c Hc. apply H. rewrite Rmin_right, Rmax_left; lra. } nra.
Qed.

(** The primitives of the four expressions of a leg. *)
Section Primitives.
Variables d c a k' r1 C : R.
Definition G (r : R) : R := d * r - r * r / 2 + c * ln r.
Definition H (r : R) : R := r * r / 2 + d * r - c * ln r.
Definition W (r : R) : R := (a * r + k' * ((r - r1) * (r - r1)) / 2) / 2 + C * (k' * ln r - (a - k' * r1) / r).
Lemma dlin : forall e x, derivable_pt_lim (fun r => e * r) x e.
Proof. intros e x. assert (D := derivable_pt_lim_scal id e x 1 (derivable_pt_lim_id x)). rewrite Rmult_1_r in D. exact D. Qed.
Lemma dsq : forall x, derivable_pt_lim (fun r => r * r / 2) x x.
Proof.
  intro x. assert (D := derivable_pt_lim_scal _ (/ 2) x _ (derivable_pt_lim_mult id id x 1 1 (derivable_pt_lim_id x) (derivable_pt_lim_id x))).
  unfold mult_fct, mult_real_fct, id in D. replace (/ 2 * (1 * x + x * 1)) with x in D by field.
  intros e He. destruct (D e He) as (dl & Hd). exists dl. intros h N L. specialize (Hd h N L). replace ((x + h) * (x + h) / 2 - x * x / 2) with (/ 2 * ((x + h) * (x + h)) - / 2 * (x * x)) by field. exact Hd.
Qed.
Lemma ext_lim : forall f g x l, (forall y, f y = g y) -> derivable_pt_lim f x l -> derivable_pt_lim g x l.
Proof. intros f g x l E D e He. destruct (D e He) as (dl & Hd). exists dl. intros h N L. rewrite <- !E. now apply Hd. Qed.
Lemma dG : forall x, 0 < x -> derivable_pt_lim G x (d - x + c * / x).
Proof.
  intros x P. assert (D1 := derivable_pt_lim_minus _ _ x _ _ (dlin d x) (dsq x)). assert (D2 := derivable_pt_lim_plus _ _ x _ _ D1 (derivable_pt_lim_scal ln c x _ (derivable_pt_lim_ln x P))). exact D2.
Qed.
Lemma dH : forall x, 0 < x -> derivable_pt_lim H x (x + d - c * / x).
Proof.
  intros x P. assert (D1 := derivable_pt_lim_plus _ _ x _ _ (dsq x) (dlin d x)). assert (D2 := derivable_pt_lim_minus _ _ x _ _ D1 (derivable_pt_lim_scal ln c x _ (derivable_pt_lim_ln x P))). exact D2.
Qed.
Lemma dW : forall x, 0 < x -> derivable_pt_lim W x ((a + k' * (x - r1)) * (/ 2 + C / (x * x))).
Proof.
  intros x P. assert (I := derivable_pt_lim_div (fct_cte 1) id x 0 1 (derivable_pt_lim_const 1 x) (derivable_pt_lim_id x) ltac:(unfold id; lra)). unfold id at 2 3, fct_cte at 2 in I.
  assert (D2 := derivable_pt_lim_minus _ _ x _ _ (derivable_pt_lim_scal ln k' x _ (derivable_pt_lim_ln x P)) (derivable_pt_lim_scal _ (a - k' * r1) x _ I)).
  assert (D3 := derivable_pt_lim_scal _ C x _ D2).
  assert (D0 := derivable_pt_lim_plus _ _ x _ _ (dlin ((a - k' * r1) / 2) x) (derivable_pt_lim_scal _ (k' / 2) x _ (dsq x))).
  assert (D4 := derivable_pt_lim_plus _ _ x _ _ D0 D3). assert (D5 := derivable_pt_lim_plus _ _ x _ _ D4 (derivable_pt_lim_const (k' * r1 * r1 / 2 / 2) x)).
  replace ((a + k' * (x - r1)) * (/ 2 + C / (x * x))) with ((a - k' * r1) / 2 + k' / 2 * x + C * (k' * / x - (a - k' * r1) * ((0 * x - 1 * 1) / x²)) + 0) by (unfold Rsqr; field; lra).
  apply ext_lim with (2 := D5). intro y. unfold plus_fct, minus_fct, mult_real_fct, fct_cte, div_fct, id, W, Rdiv. set (v := / y); set (w := ln y); field.
Qed.
End Primitives.

Definition val (x : jinc) : R := Grid.val (j_inc x).
Definition with_move (q x z : R) (c : jinc) : Prop :=
  match j_comp c with J_R => 0 <= q * x * val c | J_PHI => val c = 0 | J_Z => 0 <= q * z * val c end.

Lemma dep_cons : forall x c l i k, dep x (c :: l) i k = (if jcomp_eqb x (j_comp c) then (if ((i =? row (j_inc c)) && (k =? col (j_inc c)))%Z then val c else 0) else 0) + dep x l i k.
Proof.
  intros. unfold dep, comp_incs. cbn [filter]. destruct (jcomp_eqb x (j_comp c)); [cbn [map]; now rewrite inc_at_cons|now rewrite Rplus_0_l].
Qed.
Lemma along_of : forall q x z l, Forall (with_move q x z) l -> forall i k, 0 <= q * x * dep J_R l i k /\ 0 <= q * z * dep J_Z l i k.
Proof.
  intros q x z l HF i k. induction HF as [|c l HC HF (I1 & I2)]; [rewrite !dep_nil, !Rmult_0_r; lra|].
  rewrite !dep_cons, !Rmult_plus_distr_l. unfold with_move in HC. destruct (j_comp c); cbn [jcomp_eqb]; try (destruct (_ && _)); rewrite ?Rmult_0_r; lra.
Qed.

Section Leg.
Variables (g : geom) (dt q rn zn ro zo : R) (c k : Z).
Hypothesis Hg : geom_ok g.
Hypothesis Ht : 0 < dt.
Hypothesis Hc : (0 <= c)%Z.
Hypothesis Hn : 0 < rn.
Hypothesis Ho : 0 < ro.
Hypothesis In : in_cell (dr g) c rn.
Hypothesis Io : in_cell (dr g) c ro.
Hypothesis Kn : in_cell (dz g) k zn.
Hypothesis Ko : in_cell (dz g) k zo.

Lemma mid_r : forall x, Rmin ro rn <= x <= Rmax ro rn -> 0 < x /\ IZR c * dr g <= x <= (IZR c + 1) * dr g.
Proof.
  intros x (L & U). destruct In as (A1 & A2). destruct Io as (B1 & B2). unfold Rmin, Rmax in *. destruct (Rle_dec ro rn); lra.
Qed.

Lemma q_part : forall D E x, 0 < D -> 0 <= x * E -> 0 <= q * x * (q / D * E).
Proof.
  intros D E x P HE. replace (q * x * (q / D * E)) with (q * q / D * (x * E)) by (field; lra). apply Rmult_le_pos; [|exact HE].
  unfold Rdiv. apply Rmult_le_pos; [nra|]. left. now apply Rinv_0_lt_compat.
Qed.

Lemma sign_z0 : rn - ro <> 0 -> zn - zo <> 0 -> forall L, L = ln rn - ln ro ->
  0 <= (zn - zo) * (dr g * (zn - zo) - (rn - ro) / (zn - zo) * (zn - zo) * (zn - zo) / 2 - (zn - zo) * ro + dr g * dr g / ((rn - ro) / (zn - zo)) * (IZR c * (IZR c + 1)) * L).
Proof.
  intros Nr Nz L ->. assert (P := dr_pos g Hg). assert (C0 := IZR_nonneg _ Hc).
  assert (K := grows (G (dr g) (dr g * dr g * (IZR c * (IZR c + 1)))) (fun x => dr g - x + dr g * dr g * (IZR c * (IZR c + 1)) * / x) ro rn).
  match goal with |- 0 <= ?x => replace x with ((zn - zo) * (zn - zo) / ((rn - ro) * (rn - ro)) * ((rn - ro) * (G (dr g) (dr g * dr g * (IZR c * (IZR c + 1))) rn - G (dr g) (dr g * dr g * (IZR c * (IZR c + 1))) ro))) by (unfold G; field; split; lra) end.
  apply Rmult_le_pos; [unfold Rdiv; apply Rmult_le_pos; [nra|left; apply Rinv_0_lt_compat; nra]|]. apply K. intros x Hx. destruct (mid_r x Hx) as (X0 & X1 & X2). split; [now apply dG|].
  replace (dr g - x + dr g * dr g * (IZR c * (IZR c + 1)) * / x) with (((IZR c + 1) * dr g - x) * (IZR c * dr g + x) / x) by (field; lra).
  unfold Rdiv. apply Rmult_le_pos; [|left; now apply Rinv_0_lt_compat]. apply Rmult_le_pos; [lra|]. assert (0 <= IZR c * dr g) by (apply Rmult_le_pos; lra). lra.
Qed.
Lemma sign_z1 : rn - ro <> 0 -> zn - zo <> 0 -> forall L, L = ln rn - ln ro ->
  0 <= (zn - zo) * ((rn - ro) / (zn - zo) * (zn - zo) * (zn - zo) / 2 + (zn - zo) * ro + (zn - zo) * dr g - dr g * dr g / ((rn - ro) / (zn - zo)) * (IZR c * (IZR c + 1)) * L).
Proof.
  intros Nr Nz L ->. assert (P := dr_pos g Hg). assert (C0 := IZR_nonneg _ Hc).
  assert (K := grows (H (dr g) (dr g * dr g * (IZR c * (IZR c + 1)))) (fun x => x + dr g - dr g * dr g * (IZR c * (IZR c + 1)) * / x) ro rn).
  match goal with |- 0 <= ?x => replace x with ((zn - zo) * (zn - zo) / ((rn - ro) * (rn - ro)) * ((rn - ro) * (H (dr g) (dr g * dr g * (IZR c * (IZR c + 1))) rn - H (dr g) (dr g * dr g * (IZR c * (IZR c + 1))) ro))) by (unfold H; field; split; lra) end.
  apply Rmult_le_pos; [unfold Rdiv; apply Rmult_le_pos; [nra|left; apply Rinv_0_lt_compat; nra]|]. apply K. intros x Hx. destruct (mid_r x Hx) as (X0 & X1 & X2). split; [now apply dH|].
  replace (x + dr g - dr g * dr g * (IZR c * (IZR c + 1)) * / x) with ((x - IZR c * dr g) * (x + (IZR c + 1) * dr g) / x) by (field; lra).
  unfold Rdiv. apply Rmult_le_pos; [|left; now apply Rinv_0_lt_compat]. apply Rmult_le_pos; [lra|]. assert (0 <= IZR c * dr g) by (apply Rmult_le_pos; lra). lra.
Qed.

(** The radial expressions; [b + k' (x - ro)] is the distance of the path from one border of the column. *)
Lemma sign_r : forall b k' L, rn - ro <> 0 -> L = ln rn - ln ro -> 0 <= b -> 0 <= b + k' * (rn - ro) ->
  0 <= (rn - ro) * ((IZR c + 1 / 2) * dr g * k' * (rn - ro) + k' / 2 * (rn - ro) * (ro + (rn - ro) / 2) + 1 / 2 * (rn - ro) * (b - k' * (2 * ((IZR c + 1 / 2) * dr g) + ro))
    + (rn - ro) * (b - k' * ro) * (4 * ((IZR c + 1 / 2) * dr g) * ((IZR c + 1 / 2) * dr g) - dr g * dr g) / (8 * ro * (ro + (rn - ro)))
    + (k' * ((IZR c + 1 / 2) * dr g * ((IZR c + 1 / 2) * dr g) / 2 - dr g * dr g / 8)) * L).
Proof.
  intros b k' L Nr -> B0 B1. assert (P := dr_pos g Hg). assert (C0 := IZR_nonneg _ Hc).
  set (C := (4 * ((IZR c + 1 / 2) * dr g) * ((IZR c + 1 / 2) * dr g) - dr g * dr g) / 8).
  assert (C1 : 0 <= C). { unfold C. replace ((4 * ((IZR c + 1 / 2) * dr g) * ((IZR c + 1 / 2) * dr g) - dr g * dr g) / 8) with (IZR c * (IZR c + 1) * (dr g * dr g) / 2) by field. assert (0 <= IZR c * (IZR c + 1) * (dr g * dr g)) by (apply Rmult_le_pos; nra). lra. }
  match goal with |- 0 <= ?x => replace x with ((rn - ro) * (W b k' ro C rn - W b k' ro C ro)) by (unfold W, C; field; split; lra) end.
  apply grows with (fun x => (b + k' * (x - ro)) * (/ 2 + C / (x * x))). intros x Hx. destruct (mid_r x Hx) as (X0 & _). split; [now apply dW|].
  apply Rmult_le_pos.
  - unfold Rmin, Rmax in Hx. destruct (Rle_dec ro rn); nra.
  - assert (0 <= C / (x * x)) by (unfold Rdiv; apply Rmult_le_pos; [exact C1|left; apply Rinv_0_lt_compat; nra]). lra.
Qed.

Lemma sign_simple : Forall (with_move q (rn - ro) (zn - zo)) (simple_current g dt q rn zn ro zo c k).
Proof.
  assert (P := dr_pos g Hg). assert (P' := dz_pos g Hg). assert (PP := c_PI_pos). assert (C0 := IZR_nonneg _ Hc). assert (Z0 := MNZL_pos).
  unfold simple_current. cbv zeta.
  destruct (Rlt_dec (Rabs (rn - ro)) MNZL) as [_|N1]; [constructor|]. destruct (Rlt_dec (Rabs (zn - zo)) MNZL) as [_|N2]; [constructor|].
  assert (Nr : rn - ro <> 0) by (intro X; rewrite X, Rabs_R0 in N1; lra).
  assert (Nz : zn - zo <> 0) by (intro X; rewrite X, Rabs_R0 in N2; lra).
  assert (L1 : ln ((ro + (rn - ro)) / ro) = ln rn - ln ro) by (replace (ro + (rn - ro)) with rn by ring; unfold Rdiv; rewrite ln_mult, ln_Rinv; [ring|lra|lra|now apply Rinv_0_lt_compat]).
  assert (L2 : ln (((rn - ro) / (zn - zo) * (zn - zo) + ro) / ro) = ln rn - ln ro) by (rewrite <- L1; do 2 f_equal; field; exact Nz).
  destruct Kn as (K1 & K2). destruct Ko as (K3 & K4).
  assert (S0 := sign_z0 Nr Nz _ eq_refl). assert (S1 := sign_z1 Nr Nz _ eq_refl).
  assert (T0 := sign_r ((IZR k + 1) * dz g - zo) (- (zn - zo) / (rn - ro)) _ Nr eq_refl ltac:(lra)).
  assert (T1 := sign_r (zo - IZR k * dz g) ((zn - zo) / (rn - ro)) _ Nr eq_refl ltac:(lra)).
  assert (Q0 : (IZR k + 1) * dz g - zo + - (zn - zo) / (rn - ro) * (rn - ro) = (IZR k + 1) * dz g - zn) by (field; exact Nr).
  assert (Q1 : zo - IZR k * dz g + (zn - zo) / (rn - ro) * (rn - ro) = zn - IZR k * dz g) by (field; exact Nr).
  rewrite Q0 in T0. rewrite Q1 in T1. specialize (T0 ltac:(lra)). specialize (T1 ltac:(lra)).
  assert (D0 : 0 < 2 * c_PI * ((IZR c + 1 / 2) * dr g) * dr g * dz g * dt * dz g) by pos_mul.
  assert (D1 : 0 < 2 * c_PI * ((IZR c + 1) * dr g) * dr g * dz g * dt * 2 * dr g) by pos_mul.
  assert (V1 : forall w, w = ln rn - ln ro -> 0 <= (rn - ro) * (- ((IZR c + 1 / 2) * dr g) * (- (zn - zo) / (rn - ro)) * (rn - ro) - - (zn - zo) / (rn - ro) / 2 * (rn - ro) * (ro + (rn - ro) / 2)
     + 1 / 2 * (rn - ro) * (zo - IZR k * dz g + - (zn - zo) / (rn - ro) * (2 * ((IZR c + 1 / 2) * dr g) + ro))
     + (rn - ro) * (zo - IZR k * dz g + - (zn - zo) / (rn - ro) * ro) * (4 * ((IZR c + 1 / 2) * dr g) * ((IZR c + 1 / 2) * dr g) - dr g * dr g) / (8 * ro * (ro + (rn - ro)))
     - (- (zn - zo) / (rn - ro) * ((IZR c + 1 / 2) * dr g * ((IZR c + 1 / 2) * dr g) / 2 - dr g * dr g / 8)) * w)).
  { intros w ->. eapply Rle_trans; [exact T1|]. right. field. repeat split; lra. }
  destruct (Z.leb_spec 1 c) as [G1|G1].
  - assert (C1 := IZR_ge1 c G1). assert (D2 : 0 < 2 * c_PI * (IZR c * dr g) * dr g * dz g * dt * 2 * dr g) by pos_mul.
    repeat apply Forall_cons; [| | | |constructor]; unfold with_move, val; cbn [j_comp j_inc inc_j_z inc_j_r Grid.val]; rewrite ?L1, ?L2.
    + unfold DENSITY_R. apply q_part; [exact D2|]. eapply Rle_trans; [exact S0|]. right. field. split; lra.
    + unfold DENSITY_R. apply q_part; [exact D1|]. eapply Rle_trans; [exact S1|]. right. field. split; lra.
    + unfold DENSITY_Z. apply q_part; [exact D0|]. exact T0.
    + unfold DENSITY_Z. apply q_part; [exact D0|]. now apply V1.
  - assert (E : c = 0%Z) by lia. assert (E' : IZR c = 0) by (rewrite E; reflexivity).
    repeat apply Forall_cons; [| | | |constructor]; unfold with_move, val; cbn [j_comp j_inc inc_j_z inc_j_r Grid.val]; rewrite ?L1, ?L2.
    + apply q_part; [unfold Rdiv; pos_mul|]. eapply Rle_trans; [exact S0|]. right. rewrite E'. field. split; lra.
    + unfold DENSITY_R. apply q_part; [pos_mul|]. eapply Rle_trans; [exact S1|]. right. rewrite E'. field. split; lra.
    + unfold DENSITY_Z. apply q_part; [exact D0|]. exact T0.
    + unfold DENSITY_Z. apply q_part; [exact D0|]. now apply V1.
Qed.
End Leg.

(** ** Legs of a straight path *)

Section Moves.
Variables (g : geom) (dt q rn zn ro zo : R).
Hypothesis Hg : geom_ok g.
Hypothesis Ht : 0 < dt.
Hypothesis Hrn : dr g / 2 <= rn.
Hypothesis Hro : dr g / 2 <= ro.

Definition good (l : list jinc) : Prop := Forall (with_move q (rn - ro) (zn - zo)) l.

Lemma leg_sign : forall t t' rA zA rB zB c k, 0 <= t -> t < t' -> t' <= 1 ->
  rA = ro + t * (rn - ro) -> zA = zo + t * (zn - zo) ->
  rB = ro + t' * (rn - ro) -> zB = zo + t' * (zn - zo) ->
  (0 <= c)%Z -> in_cell (dr g) c rA -> in_cell (dr g) c rB -> in_cell (dz g) k zA -> in_cell (dz g) k zB ->
  good (simple_current g dt q rB zB rA zA c k).
Proof.
  intros t t' rA zA rB zB c k T0 T T1 HrA HzA HrB HzB Hc CA CB KA KB.
  assert (Hdr := dr_pos g Hg).
  assert (PA : 0 < rA) by (rewrite HrA; nra). assert (PB : 0 < rB) by (rewrite HrB; nra).
  assert (S := sign_simple g dt q rB zB rA zA c k Hg Ht Hc PB PA CB CA KB KA).
  unfold good. eapply Forall_impl; [|exact S]. intros x. unfold with_move.
  replace (rB - rA) with ((t' - t) * (rn - ro)) by (subst; ring). replace (zB - zA) with ((t' - t) * (zn - zo)) by (subst; ring).
  assert (K : forall X V, 0 <= q * ((t' - t) * X) * V -> 0 <= q * X * V).
  { intros X V HX. apply Rmult_le_reg_l with (t' - t); [lra|]. rewrite Rmult_0_r. eapply Rle_trans; [exact HX|right; ring]. }
  destruct (j_comp x); intro HX; try (now apply K). exact HX.
Qed.

Lemma good_app : forall a b, good a -> good b -> good (a ++ b).
Proof. intros a b A B. unfold good. apply Forall_app. now split. Qed.

Lemma two_legs : forall t rB zB c1 k1 c2 k2, 0 < t < 1 ->
  rB = ro + t * (rn - ro) -> zB = zo + t * (zn - zo) ->
  (0 <= c1)%Z -> (0 <= c2)%Z ->
  in_cell (dr g) c1 ro -> in_cell (dr g) c1 rB -> in_cell (dr g) c2 rB -> in_cell (dr g) c2 rn ->
  in_cell (dz g) k1 zo -> in_cell (dz g) k1 zB -> in_cell (dz g) k2 zB -> in_cell (dz g) k2 zn ->
  good (simple_current g dt q rB zB ro zo c1 k1 ++ simple_current g dt q rn zn rB zB c2 k2).
Proof.
  intros t rB zB c1 k1 c2 k2 T HrB HzB Hc1 Hc2 A1 A2 A3 A4 B1 B2 B3 B4.
  apply good_app.
  - apply leg_sign with 0 t; auto; lra.
  - apply leg_sign with t 1; auto; lra.
Qed.

Lemma three_legs : forall t t' rB zB rC zC c1 k1 c2 k2 c3 k3,
  0 < t -> t < t' -> t' < 1 ->
  rB = ro + t * (rn - ro) -> zB = zo + t * (zn - zo) ->
  rC = ro + t' * (rn - ro) -> zC = zo + t' * (zn - zo) ->
  (0 <= c1)%Z -> (0 <= c2)%Z -> (0 <= c3)%Z ->
  in_cell (dr g) c1 ro -> in_cell (dr g) c1 rB -> in_cell (dr g) c2 rB -> in_cell (dr g) c2 rC ->
  in_cell (dr g) c3 rC -> in_cell (dr g) c3 rn ->
  in_cell (dz g) k1 zo -> in_cell (dz g) k1 zB -> in_cell (dz g) k2 zB -> in_cell (dz g) k2 zC ->
  in_cell (dz g) k3 zC -> in_cell (dz g) k3 zn ->
  good (simple_current g dt q rB zB ro zo c1 k1 ++
        simple_current g dt q rC zC rB zB c2 k2 ++
        simple_current g dt q rn zn rC zC c3 k3).
Proof.
  intros. apply good_app; [|apply good_app].
  - apply leg_sign with 0 t; auto; lra.
  - apply leg_sign with t t'; auto; lra.
  - apply leg_sign with t' 1; auto; lra.
Qed.

Hypothesis Nr0 : rn - ro <> 0.
Hypothesis Nz0 : zn - zo <> 0.

Lemma one_border_sign : forall i_n i_o k_n k_o,
  cells_case (dr g) rn ro i_n i_o -> cells_case (dz g) zn zo k_n k_o ->
  (Z.abs (i_n - i_o) + Z.abs (k_n - k_o) = 1)%Z ->
  good (current_one_border g dt q rn zn ro zo i_n k_n i_o k_o).
Proof.
  intros i_n i_o k_n k_o Ci Ck Hres.
  assert (Hdr := dr_pos g Hg). assert (Hdz := dz_pos g Hg).
  assert (Nr := Nr0). assert (Nz := Nz0).
  unfold current_one_border.
  destruct Ci as [Ei I0 In Io|Ei I0 Io In I1 I2|Ei I0 Io In I1 I2];
  destruct Ck as [Ek K0 Kn Ko|Ek K0 Ko Kn K1 K2|Ek K0 Ko Kn K1 K2]; try lia.
  - (* z up *)
    replace (i_n =? i_o)%Z with true by (symmetry; apply Z.eqb_eq; lia).
    replace (k_n =? k_o)%Z with false by (symmetry; apply Z.eqb_neq; lia). cbn [negb andb].
    destruct (Rlt_dec zo (IZR k_n * dz g)) as [_|X]; [|lra].
    destruct (param_z g rn zn ro zo k_n (or_introl (conj K1 K2))) as (T & E & EV).
    set (t := (IZR k_n * dz g - zo) / (zn - zo)) in *.
    assert (ER : ro + (rn - ro) / (zn - zo) * (IZR k_n * dz g - zo) = ro + t * (rn - ro)).
    { unfold t. field. lra. }
    rewrite ER. replace (k_n - 1)%Z with k_o by lia.
    assert (KB : in_cell (dz g) k_o (IZR k_n * dz g)).
    { rewrite Ek, plus_IZR. apply in_cell_line_up, Hdz. }
    apply two_legs with t; auto; try (apply in_cell_pt; auto; lra).
    apply in_cell_line_low, Hdz.
  - (* z down *)
    replace (i_n =? i_o)%Z with true by (symmetry; apply Z.eqb_eq; lia).
    replace (k_n =? k_o)%Z with false by (symmetry; apply Z.eqb_neq; lia). cbn [negb andb].
    assert (Q : IZR k_n * dz g < IZR k_o * dz g).
    { apply Rmult_lt_compat_r; [lra|]. apply IZR_lt. lia. }
    destruct (Rlt_dec zo (IZR k_n * dz g)) as [X|_]; [lra|].
    destruct (param_z g rn zn ro zo k_o (or_intror (conj K1 K2))) as (T & E & EV).
    set (t := (IZR k_o * dz g - zo) / (zn - zo)) in *.
    assert (ES : IZR k_n + 1 = IZR k_o) by (rewrite Ek, plus_IZR; ring).
    rewrite ES.
    assert (ER : rn + (ro - rn) / (zo - zn) * (IZR k_o * dz g - zn) = ro + t * (rn - ro)).
    { unfold t. field. lra. }
    rewrite ER. replace (k_n + 1)%Z with k_o by lia.
    assert (KB : in_cell (dz g) k_n (IZR k_o * dz g)).
    { rewrite <- ES. apply in_cell_line_up, Hdz. }
    apply two_legs with t; auto; try (apply in_cell_pt; auto; lra).
    apply in_cell_line_low, Hdz.
  - (* r up *)
    replace (k_n =? k_o)%Z with true by (symmetry; apply Z.eqb_eq; lia).
    replace (i_n =? i_o)%Z with false by (symmetry; apply Z.eqb_neq; lia). cbn [negb andb].
    destruct (Rlt_dec ((IZR i_n + 1) * dr g) ro) as [X|_]; [nra|].
    destruct (param_r g rn zn ro zo i_n (or_introl (conj I1 I2))) as (T & E & EV).
    set (t := (IZR i_n * dr g - ro) / (rn - ro)) in *.
    assert (ER : zo + (IZR i_n * dr g - ro) / ((rn - ro) / (zn - zo)) = zo + t * (zn - zo)).
    { unfold t. field. lra. }
    rewrite ER. replace (i_n - 1)%Z with i_o by lia.
    assert (KB : in_cell (dr g) i_o (IZR i_n * dr g)).
    { rewrite Ei, plus_IZR. apply in_cell_line_up, Hdr. }
    apply two_legs with t; auto; try lia; subst k_o; try (apply in_cell_pt; auto; lra).
    apply in_cell_line_low, Hdr.
  - (* r down *)
    replace (k_n =? k_o)%Z with true by (symmetry; apply Z.eqb_eq; lia).
    replace (i_n =? i_o)%Z with false by (symmetry; apply Z.eqb_neq; lia). cbn [negb andb].
    assert (ES : IZR i_n + 1 = IZR i_o) by (rewrite Ei, plus_IZR; ring).
    rewrite ES.
    destruct (Rlt_dec (IZR i_o * dr g) ro) as [_|X]; [|lra].
    destruct (param_r g rn zn ro zo i_o (or_intror (conj I1 I2))) as (T & E & EV).
    set (t := (IZR i_o * dr g - ro) / (rn - ro)) in *.
    assert (ER : zn + (IZR i_o * dr g - rn) / ((ro - rn) / (zo - zn)) = zo + t * (zn - zo)).
    { unfold t. field. lra. }
    rewrite ER. replace (i_n + 1)%Z with i_o by lia.
    assert (KB : in_cell (dr g) i_n (IZR i_o * dr g)).
    { rewrite <- ES. apply in_cell_line_up, Hdr. }
    apply two_legs with t; auto; try lia; subst k_o; try (apply in_cell_pt; auto; lra).
    apply in_cell_line_low, Hdr.
Qed.

Lemma r_first : forall t1 t2 B C i_n i_o k_n k_o r1 z1 r2 z2,
  B = ro + t1 * (rn - ro) -> C = zo + t2 * (zn - zo) ->
  0 < t1 -> t1 < t2 -> t2 < 1 ->
  (0 <= i_n)%Z -> (0 <= i_o)%Z ->
  in_cell (dr g) i_o ro -> in_cell (dr g) i_o B -> in_cell (dr g) i_n B -> in_cell (dr g) i_n rn ->
  in_cell (dz g) k_o zo -> in_cell (dz g) k_o C -> in_cell (dz g) k_n C -> in_cell (dz g) k_n zn ->
  r1 = B -> z1 = zo + t1 * (zn - zo) -> r2 = ro + t2 * (rn - ro) -> z2 = C ->
  good (simple_current g dt q r1 z1 ro zo i_o k_o ++
               simple_current g dt q r2 z2 r1 z1 i_n k_o ++
               simple_current g dt q rn zn r2 z2 i_n k_n).
Proof.
  intros t1 t2 B C i_n i_o k_n k_o r1 z1 r2 z2 EB EC T0 T T1 Hn Ho A1 A2 A3 A4 K1 K2 K3 K4
    -> -> -> ->.
  apply three_legs with t1 t2; auto.
  - apply in_cell_after with t1; auto; try lra. now rewrite <- EB.
  - apply in_cell_after with t1; auto; try lra. now rewrite <- EB.
  - apply in_cell_before with t2; auto; try lra. now rewrite <- EC.
  - apply in_cell_before with t2; auto; try lra. now rewrite <- EC.
Qed.

Lemma z_first : forall t1 t2 B C i_n i_o k_n k_o r1 z1 r2 z2,
  B = ro + t1 * (rn - ro) -> C = zo + t2 * (zn - zo) ->
  0 < t2 -> t2 < t1 -> t1 < 1 ->
  (0 <= i_n)%Z -> (0 <= i_o)%Z ->
  in_cell (dr g) i_o ro -> in_cell (dr g) i_o B -> in_cell (dr g) i_n B -> in_cell (dr g) i_n rn ->
  in_cell (dz g) k_o zo -> in_cell (dz g) k_o C -> in_cell (dz g) k_n C -> in_cell (dz g) k_n zn ->
  r1 = B -> z1 = zo + t1 * (zn - zo) -> r2 = ro + t2 * (rn - ro) -> z2 = C ->
  good (simple_current g dt q r2 z2 ro zo i_o k_o ++
               simple_current g dt q r1 z1 r2 z2 i_o k_n ++
               simple_current g dt q rn zn r1 z1 i_n k_n).
Proof.
  intros t1 t2 B C i_n i_o k_n k_o r1 z1 r2 z2 EB EC T0 T T1 Hn Ho A1 A2 A3 A4 K1 K2 K3 K4
    -> -> -> ->.
  apply three_legs with t2 t1; auto.
  - apply in_cell_before with t1; auto; try lra. now rewrite <- EB.
  - apply in_cell_before with t1; auto; try lra. now rewrite <- EB.
  - apply in_cell_after with t2; auto; try lra. now rewrite <- EC.
  - apply in_cell_after with t2; auto; try lra. now rewrite <- EC.
Qed.

Lemma two_borders_sign : forall i_n i_o k_n k_o,
  cells_case (dr g) rn ro i_n i_o -> cells_case (dz g) zn zo k_n k_o ->
  (Z.abs (i_n - i_o) + Z.abs (k_n - k_o) = 2)%Z ->
  good (current_two_borders g dt q rn zn ro zo i_n k_n i_o k_o).
Proof.
  intros i_n i_o k_n k_o Ci Ck Hres.
  assert (Hdr := dr_pos g Hg). assert (Hdz := dz_pos g Hg).
  assert (Nr := Nr0). assert (Nz := Nz0).
  unfold current_two_borders.
  destruct Ci as [Ei I0 In Io|Ei I0 Io In I1 I2|Ei I0 Io In I1 I2];
  destruct Ck as [Ek K0 Kn Ko|Ek K0 Ko Kn K1 K2|Ek K0 Ko Kn K1 K2]; try lia.
  - (* r up, z up *)
    destruct (Z.ltb_spec i_o i_n) as [_|X]; [|lia].
    destruct (Z.ltb_spec k_o k_n) as [_|X]; [|lia].
    destruct (param_r g rn zn ro zo i_n (or_introl (conj I1 I2))) as (T1 & E1 & V1).
    destruct (param_z g rn zn ro zo k_n (or_introl (conj K1 K2))) as (T2 & E2 & V2).
    set (t1 := (IZR i_n * dr g - ro) / (rn - ro)) in *.
    set (t2 := (IZR k_n * dz g - zo) / (zn - zo)) in *.
    assert (EZ : zo + (IZR i_n * dr g - ro) / ((rn - ro) / (zn - zo)) = zo + t1 * (zn - zo)).
    { unfold t1. field. lra. }
    assert (ER : ro + (IZR k_n * dz g - zo) * ((rn - ro) / (zn - zo)) = ro + t2 * (rn - ro)).
    { unfold t2. field. lra. }
    rewrite EZ, ER. replace (i_n - 1)%Z with i_o by lia. replace (k_n - 1)%Z with k_o by lia.
    assert (LB : in_cell (dr g) i_o (IZR i_n * dr g)) by (rewrite Ei, plus_IZR; now apply in_cell_line_up).
    assert (LC : in_cell (dz g) k_o (IZR k_n * dz g)) by (rewrite Ek, plus_IZR; now apply in_cell_line_up).
    assert (LB' := in_cell_line_low (dr g) i_n Hdr). assert (LC' := in_cell_line_low (dz g) k_n Hdz).
    destruct (Rlt_dec (zo + t1 * (zn - zo)) (IZR k_n * dz g)) as [X|X];
      [|destruct (Rlt_dec (IZR k_n * dz g) (zo + t1 * (zn - zo))) as [Y|Y]].
    + assert (t1 < t2) by nra.
      eapply (r_first t1 t2); eauto; try lia; lra.
    + assert (t2 < t1) by nra.
      eapply (z_first t1 t2); eauto; try lia; lra.
    + constructor.
  - (* r up, z down *)
    destruct (Z.ltb_spec i_o i_n) as [_|X]; [|lia].
    destruct (Z.ltb_spec k_o k_n) as [X|_]; [lia|].
    assert (ES : IZR k_n + 1 = IZR k_o) by (rewrite Ek, plus_IZR; ring). rewrite ES.
    destruct (param_r g rn zn ro zo i_n (or_introl (conj I1 I2))) as (T1 & E1 & V1).
    destruct (param_z g rn zn ro zo k_o (or_intror (conj K1 K2))) as (T2 & E2 & V2).
    set (t1 := (IZR i_n * dr g - ro) / (rn - ro)) in *.
    set (t2 := (IZR k_o * dz g - zo) / (zn - zo)) in *.
    assert (EZ : zo + (IZR i_n * dr g - ro) / ((rn - ro) / (zn - zo)) = zo + t1 * (zn - zo)).
    { unfold t1. field. lra. }
    assert (ER : ro + - (zo - IZR k_o * dz g) * ((rn - ro) / (zn - zo)) = ro + t2 * (rn - ro)).
    { unfold t2. field. lra. }
    rewrite EZ, ER. replace (i_n - 1)%Z with i_o by lia. replace (k_n + 1)%Z with k_o by lia.
    assert (LB : in_cell (dr g) i_o (IZR i_n * dr g)) by (rewrite Ei, plus_IZR; now apply in_cell_line_up).
    assert (LC : in_cell (dz g) k_n (IZR k_o * dz g)) by (rewrite <- ES; now apply in_cell_line_up).
    assert (LB' := in_cell_line_low (dr g) i_n Hdr). assert (LC' := in_cell_line_low (dz g) k_o Hdz).
    destruct (Rlt_dec (IZR k_o * dz g) (zo + t1 * (zn - zo))) as [X|X];
      [|destruct (Rlt_dec (zo + t1 * (zn - zo)) (IZR k_o * dz g)) as [Y|Y]].
    + assert (t1 < t2) by nra.
      eapply (r_first t1 t2); eauto; try lia; lra.
    + assert (t2 < t1) by nra.
      eapply (z_first t1 t2); eauto; try lia; lra.
    + constructor.
  - (* r down, z up *)
    destruct (Z.ltb_spec i_o i_n) as [X|_]; [lia|].
    destruct (Z.ltb_spec i_n i_o) as [_|X]; [|lia].
    destruct (Z.ltb_spec k_o k_n) as [_|X]; [|lia].
    assert (ES : IZR i_n + 1 = IZR i_o) by (rewrite Ei, plus_IZR; ring). rewrite ES.
    destruct (param_r g rn zn ro zo i_o (or_intror (conj I1 I2))) as (T1 & E1 & V1).
    destruct (param_z g rn zn ro zo k_n (or_introl (conj K1 K2))) as (T2 & E2 & V2).
    set (t1 := (IZR i_o * dr g - ro) / (rn - ro)) in *.
    set (t2 := (IZR k_n * dz g - zo) / (zn - zo)) in *.
    assert (EZ : zo + - (ro - IZR i_o * dr g) / ((rn - ro) / (zn - zo)) = zo + t1 * (zn - zo)).
    { unfold t1. field. lra. }
    assert (ER : ro - - (IZR k_n * dz g - zo) * ((rn - ro) / (zn - zo)) = ro + t2 * (rn - ro)).
    { unfold t2. field. lra. }
    rewrite EZ, ER. replace (i_n + 1)%Z with i_o by lia. replace (k_n - 1)%Z with k_o by lia.
    assert (LB : in_cell (dr g) i_n (IZR i_o * dr g)) by (rewrite <- ES; now apply in_cell_line_up).
    assert (LC : in_cell (dz g) k_o (IZR k_n * dz g)) by (rewrite Ek, plus_IZR; now apply in_cell_line_up).
    assert (LB' := in_cell_line_low (dr g) i_o Hdr). assert (LC' := in_cell_line_low (dz g) k_n Hdz).
    destruct (Rlt_dec (zo + t1 * (zn - zo)) (IZR k_n * dz g)) as [X|X];
      [|destruct (Rlt_dec (IZR k_n * dz g) (zo + t1 * (zn - zo))) as [Y|Y]].
    + assert (t1 < t2) by nra.
      eapply (r_first t1 t2); eauto; try lia; lra.
    + assert (t2 < t1) by nra.
      eapply (z_first t1 t2); eauto; try lia; lra.
    + constructor.
  - (* r down, z down *)
    destruct (Z.ltb_spec i_o i_n) as [X|_]; [lia|].
    destruct (Z.ltb_spec i_n i_o) as [_|X]; [|lia].
    destruct (Z.ltb_spec k_o k_n) as [X|_]; [lia|].
    destruct (Z.ltb_spec k_n k_o) as [_|X]; [|lia].
    assert (ES : IZR i_n + 1 = IZR i_o) by (rewrite Ei, plus_IZR; ring). rewrite ES.
    assert (ES' : IZR k_n + 1 = IZR k_o) by (rewrite Ek, plus_IZR; ring). rewrite ES'.
    destruct (param_r g rn zn ro zo i_o (or_intror (conj I1 I2))) as (T1 & E1 & V1).
    destruct (param_z g rn zn ro zo k_o (or_intror (conj K1 K2))) as (T2 & E2 & V2).
    set (t1 := (IZR i_o * dr g - ro) / (rn - ro)) in *.
    set (t2 := (IZR k_o * dz g - zo) / (zn - zo)) in *.
    assert (EZ : zn + (IZR i_o * dr g - rn) / ((ro - rn) / (zo - zn)) = zo + t1 * (zn - zo)).
    { unfold t1. field. lra. }
    assert (ER : rn + (IZR k_o * dz g - zn) * ((ro - rn) / (zo - zn)) = ro + t2 * (rn - ro)).
    { unfold t2. field. lra. }
    rewrite EZ, ER. replace (i_n + 1)%Z with i_o by lia. replace (k_n + 1)%Z with k_o by lia.
    assert (LB : in_cell (dr g) i_n (IZR i_o * dr g)) by (rewrite <- ES; now apply in_cell_line_up).
    assert (LC : in_cell (dz g) k_n (IZR k_o * dz g)) by (rewrite <- ES'; now apply in_cell_line_up).
    assert (LB' := in_cell_line_low (dr g) i_o Hdr). assert (LC' := in_cell_line_low (dz g) k_o Hdz).
    destruct (Rlt_dec (IZR k_o * dz g) (zo + t1 * (zn - zo))) as [X|X];
      [|destruct (Rlt_dec (zo + t1 * (zn - zo)) (IZR k_o * dz g)) as [Y|Y]].
    + assert (t1 < t2) by nra.
      eapply (r_first t1 t2); eauto; try lia; lra.
    + assert (t2 < t1) by nra.
      eapply (z_first t1 t2); eauto; try lia; lra.
    + constructor.
Qed.



Lemma single_sign : Rabs (rn - ro) < dr g -> Rabs (zn - zo) < dz g -> 0 < zn -> 0 < zo -> MNZL <= Rabs (rn - ro) -> MNZL <= Rabs (zn - zo) -> good (current_single g dt q rn zn ro zo).
Proof.
  intros Hr Hz Hzn Hzo Mr Mz. assert (Hdr := dr_pos g Hg). assert (Hdz := dz_pos g Hg).
  unfold current_single.
  destruct (tie_cells (dr g) rn ro) as [i_n i_o] eqn:Ei.
  destruct (tie_cells (dz g) zn zo) as [k_n k_o] eqn:Ek.
  assert (Ci : cells_case (dr g) rn ro i_n i_o) by (apply tie_cells_case; auto; lra).
  assert (Ck : cells_case (dz g) zn zo k_n k_o) by (apply tie_cells_case; auto; lra).
  destruct (Rlt_dec (Rabs (rn - ro)) MNZL) as [X|_]; [lra|].
  destruct (Rlt_dec (Rabs (zn - zo)) MNZL) as [X|_]; [lra|].
  destruct (Z.eqb_spec (Z.abs (i_n - i_o) + Z.abs (k_n - k_o)) 0) as [R0|R0].
  - destruct Ci as [_ I0 In Io|X|X]; [|lia|lia]. destruct Ck as [_ K0 Kn Ko|X|X]; [|lia|lia].
    apply sign_simple; auto; lra.
  - destruct (Z.eqb_spec (Z.abs (i_n - i_o) + Z.abs (k_n - k_o)) 1) as [R1|R1].
    + now apply one_border_sign.
    + destruct (Z.eqb_spec (Z.abs (i_n - i_o) + Z.abs (k_n - k_o)) 2) as [R2|R2].
      * now apply two_borders_sign.
      * constructor.
Qed.
End Moves.

(** ** Moves along the axis or along the radius *)

Lemma axial_sign : forall g dt q r zn zo x, geom_ok g -> 0 < dt -> dr g / 2 <= r -> 0 < zn -> 0 < zo ->
  Forall (with_move q x (zn - zo)) (strict_axial g dt q r zn zo (cell r (dr g)) (cell zn (dz g)) (cell zo (dz g))).
Proof.
  intros g dt q r zn zo x Hg Ht Hr Hn Ho. assert (Hdr := dr_pos g Hg). assert (Hdz := dz_pos g Hg). assert (HP := c_PI_pos).
  assert (Ir := in_cell_of_cell (dr g) r Hdr ltac:(lra)). assert (Kn := in_cell_of_cell (dz g) zn Hdz ltac:(lra)). assert (Ko := in_cell_of_cell (dz g) zo Hdz ltac:(lra)).
  assert (N := cell_nonneg r (dr g)). set (c := cell r (dr g)) in *. set (kn := cell zn (dz g)) in *. set (ko := cell zo (dz g)) in *.
  assert (C0 := IZR_nonneg _ N). destruct Ir as (R1 & R2). destruct Kn as (K1 & K2). destruct Ko as (K3 & K4).
  unfold strict_axial. cbv zeta. fold (axial_lower g dt q r c). fold (axial_upper g dt q r c).
  assert (E1 : 0 <= (IZR c + 1 / 2) * dr g * ((IZR c + 1 / 2) * dr g) - (r - 1 / 2 * dr g) * (r - 1 / 2 * dr g)) by nra.
  assert (E2 : 0 <= (r + 1 / 2 * dr g) * (r + 1 / 2 * dr g) - (IZR c + 1 / 2) * dr g * ((IZR c + 1 / 2) * dr g)) by nra.
  assert (A1 : exists a, 0 <= a /\ axial_lower g dt q r c = q * a).
  { unfold axial_lower. destruct (Z.eqb_spec c 0) as [Y|Y].
    - exists (c_PI * ((IZR c + 1 / 2) * dr g * ((IZR c + 1 / 2) * dr g) - (r - 1 / 2 * dr g) * (r - 1 / 2 * dr g)) / (dt * c_PI * dr g * dr g / 4) / (2 * c_PI * r * dr g * dz g)).
      split; [|field; repeat split; lra]. unfold Rdiv at 1 2. repeat apply Rmult_le_pos; try lra; left; apply Rinv_0_lt_compat; pos_mul.
    - assert (C1 := IZR_ge1 c ltac:(lia)). exists (c_PI * ((IZR c + 1 / 2) * dr g * ((IZR c + 1 / 2) * dr g) - (r - 1 / 2 * dr g) * (r - 1 / 2 * dr g)) / (dt * 2 * c_PI * IZR c * dr g * dr g) / (2 * c_PI * r * dr g * dz g)).
      split; [|field; repeat split; lra]. unfold Rdiv at 1 2. repeat apply Rmult_le_pos; try lra; left; apply Rinv_0_lt_compat; pos_mul. }
  assert (A2 : exists a, 0 <= a /\ axial_upper g dt q r c = q * a).
  { unfold axial_upper. exists (c_PI * ((r + 1 / 2 * dr g) * (r + 1 / 2 * dr g) - (IZR c + 1 / 2) * dr g * ((IZR c + 1 / 2) * dr g)) / (dt * 2 * c_PI * (IZR c + 1) * dr g * dr g) / (2 * c_PI * r * dr g * dz g)).
    split; [|field; repeat split; lra]. unfold Rdiv at 1 2. repeat apply Rmult_le_pos; try lra; left; apply Rinv_0_lt_compat; pos_mul. }
  destruct A1 as (a1 & P1 & ->). destruct A2 as (a2 & P2 & ->).
  assert (J : forall a y, 0 <= a -> 0 <= (zn - zo) * y -> 0 <= q * (zn - zo) * (q * a * y)).
  { intros a y Ha Hy. replace (q * (zn - zo) * (q * a * y)) with (q * q * (a * ((zn - zo) * y))) by ring. apply Rmult_le_pos; [nra|now apply Rmult_le_pos]. }
  assert (Z0 : 0 <= q * x * 0) by lra.
  assert (Pre : Forall (with_move q x (zn - zo)) [inc_j_r c kn 0; inc_j_r c (kn + 1) 0]) by (apply Forall_cons; [exact Z0|apply Forall_cons; [exact Z0|constructor]]).
  destruct (Z.eqb_spec (kn - ko) 0) as [E|E]; [|destruct (Z.eqb_spec (kn - ko) 1) as [E3|E3]; [|destruct (Z.eqb_spec (kn - ko) (-1)) as [E4|E4]; [|exact Pre]]].
  - apply Forall_app; split; [exact Pre|]. repeat first [apply Forall_nil | apply Forall_cons]; unfold with_move, val; cbn [j_comp j_inc inc_j_z Grid.val]; apply J; try assumption; apply Rle_0_sqr.
  - assert (EK : IZR kn = IZR ko + 1) by (rewrite <- plus_IZR; f_equal; lia).
    apply Forall_app; split; [exact Pre|]. repeat first [apply Forall_nil | apply Forall_cons]; unfold with_move, val; cbn [j_comp j_inc inc_j_z Grid.val]; apply J; try assumption; rewrite EK in *; apply Rmult_le_pos; lra.
  - assert (EK : IZR ko = IZR kn + 1) by (rewrite <- plus_IZR; f_equal; lia).
    assert (F : forall u v, u <= 0 -> v <= 0 -> 0 <= u * v) by (intros; nra).
    apply Forall_app; split; [exact Pre|]. repeat first [apply Forall_nil | apply Forall_cons]; unfold with_move, val; cbn [j_comp j_inc inc_j_z Grid.val]; apply J; try assumption; rewrite EK in *; apply F; lra.
Qed.

Lemma radial_sign : forall g dt q rn ro z y c, geom_ok g -> 0 < dt -> dr g / 2 <= rn -> dr g / 2 <= ro -> 0 < z -> (0 <= c)%Z ->
  Forall (with_move q (rn - ro) y) (strict_radial g dt q rn z ro c (cell z (dz g)) c).
Proof.
  intros g dt q rn ro z y c Hg Ht Hn Ho Hz Hc. assert (Hdr := dr_pos g Hg). assert (Hdz := dz_pos g Hg). assert (HP := c_PI_pos). assert (C0 := IZR_nonneg _ Hc).
  destruct (in_cell_of_cell (dz g) z Hdz ltac:(lra)) as (K1 & K2). unfold strict_radial. rewrite Z.sub_diag. cbn [Z.eqb].
  set (r0 := (IZR c + 1 / 2) * dr g). assert (R0 : dr g / 2 <= r0) by (unfold r0; nra).
  assert (A : exists a, 0 <= a /\ DENSITY_STRICT q r0 (dr g) (dz g) dt * strict_radial_leg (dr g) r0 ro (rn - ro) = q * (rn - ro) * a).
  { exists ((1 + (r0 * r0 - dr g * dr g / 4) / (ro * rn)) / (c_PI * 4 * r0 * dz g * dz g * dr g * dt)). split.
    - unfold Rdiv at 1. apply Rmult_le_pos; [|left; apply Rinv_0_lt_compat; pos_mul]. assert (0 <= (r0 * r0 - dr g * dr g / 4) / (ro * rn)); [|lra]. unfold Rdiv at 1. apply Rmult_le_pos; [nra|left; apply Rinv_0_lt_compat; pos_mul].
    - unfold DENSITY_STRICT, strict_radial_leg. field. repeat split; lra. }
  destruct A as (a & Pa & ->).
  assert (J : forall w, 0 <= w -> 0 <= q * (rn - ro) * (q * (rn - ro) * a * w)).
  { intros w Hw. replace (q * (rn - ro) * (q * (rn - ro) * a * w)) with ((q * (rn - ro)) * (q * (rn - ro)) * (a * w)) by ring. apply Rmult_le_pos; [apply Rle_0_sqr|now apply Rmult_le_pos]. }
  repeat first [apply Forall_nil | apply Forall_cons]; unfold with_move, val; cbn [j_comp j_inc inc_j_r Grid.val]; apply J; lra.
Qed.

(** No current along a direction in which nothing moved. *)
Lemma no_radial : forall g dt q r zn zo i k, dep J_R (current_single g dt q r zn r zo) i k = 0.
Proof.
  intros. assert (M := MNZL_pos). unfold current_single. destruct (tie_cells (dr g) r r). destruct (tie_cells (dz g) zn zo).
  assert (Z : Rabs (r - r) < MNZL) by (rewrite Rminus_eq_0, Rabs_R0; exact M).
  destruct (Rlt_dec (Rabs (r - r)) MNZL) as [_|X]; [|contradiction]. unfold strict_motion. destruct (Rlt_dec (Rabs (r - r)) MNZL) as [_|X]; [|contradiction].
  destruct (Rlt_dec (Rabs (zn - zo)) MNZL); [apply dep_nil|]. unfold strict_axial. cbv zeta.
  repeat match goal with |- context [if ?b then (_ ++ _) else _] => destruct b end; cbn [app]; rewrite ?dep_cons, ?dep_nil; cbn [jcomp_eqb j_comp inc_j_r inc_j_z]; unfold val; cbn [j_inc inc_j_r Grid.val];
    repeat match goal with |- context [if ?b then 0 else 0] => destruct b end; lra.
Qed.
Lemma no_axial : forall g dt q rn ro z i k, dep J_Z (current_single g dt q rn z ro z) i k = 0.
Proof.
  intros. assert (M := MNZL_pos). unfold current_single. destruct (tie_cells (dr g) rn ro). destruct (tie_cells (dz g) z z).
  assert (Z : Rabs (z - z) < MNZL) by (rewrite Rminus_eq_0, Rabs_R0; exact M).
  assert (S : dep J_Z (strict_motion g dt q rn z ro z) i k = 0).
  { unfold strict_motion. destruct (Rlt_dec (Rabs (z - z)) MNZL) as [_|X]; [|contradiction]. destruct (Rlt_dec (Rabs (rn - ro)) MNZL); [apply dep_nil|]. unfold strict_radial. cbv zeta.
    repeat match goal with |- context [if ?b then (_ :: _) else _] => destruct b end; rewrite ?dep_cons, ?dep_nil; cbn [jcomp_eqb j_comp inc_j_r]; lra. }
  destruct (Rlt_dec (Rabs (rn - ro)) MNZL); [exact S|]. destruct (Rlt_dec (Rabs (z - z)) MNZL) as [_|X]; [exact S|contradiction].
Qed.

Theorem direction : forall g dt q rn zn ro zo, geom_ok g -> 0 < dt -> dr g / 2 <= rn -> dr g / 2 <= ro -> 0 < zn -> 0 < zo ->
  Rabs (rn - ro) < dr g -> Rabs (zn - zo) < dz g -> (Rabs (zn - zo) < MNZL -> cell rn (dr g) = cell ro (dr g)) ->
  flows_along q (rn - ro) (zn - zo) (dep J_R (current_single g dt q rn zn ro zo)) (dep J_Z (current_single g dt q rn zn ro zo)).
Proof.
  intros g dt q rn zn ro zo Hg Ht Hrn Hro Hzn Hzo Hr Hz Hc. assert (M := MNZL_pos).
  assert (S : Forall (with_move q (rn - ro) (zn - zo)) (current_single g dt q rn zn ro zo)).
  { destruct (Rlt_dec (Rabs (rn - ro)) MNZL) as [A|A]; [|destruct (Rlt_dec (Rabs (zn - zo)) MNZL) as [B|B]].
    3: { apply single_sign; auto; try lra; intro X; rewrite X, Rabs_R0 in *; lra. }
    - unfold current_single. destruct (tie_cells (dr g) rn ro). destruct (tie_cells (dz g) zn zo). destruct (Rlt_dec (Rabs (rn - ro)) MNZL) as [_|X]; [|contradiction].
      unfold strict_motion. destruct (Rlt_dec (Rabs (rn - ro)) MNZL) as [_|X]; [|contradiction]. destruct (Rlt_dec (Rabs (zn - zo)) MNZL); [constructor|now apply axial_sign].
    - unfold current_single. destruct (tie_cells (dr g) rn ro). destruct (tie_cells (dz g) zn zo). destruct (Rlt_dec (Rabs (rn - ro)) MNZL) as [X|_]; [contradiction|]. destruct (Rlt_dec (Rabs (zn - zo)) MNZL) as [_|X]; [|contradiction].
      unfold strict_motion. destruct (Rlt_dec (Rabs (rn - ro)) MNZL) as [X|_]; [contradiction|]. destruct (Rlt_dec (Rabs (zn - zo)) MNZL) as [_|X]; [|contradiction].
      rewrite (Hc B). apply radial_sign; auto. apply cell_nonneg. }
  intros i k. destruct (along_of _ _ _ _ S i k) as (S1 & S2). repeat split; auto; intro X.
  - assert (E : rn = ro) by lra. subst. apply no_radial.
  - assert (E : zn = zo) by lra. subst. apply no_axial.
Qed.
