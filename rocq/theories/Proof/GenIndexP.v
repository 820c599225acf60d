(** Where the deposition writes and the interpolation reads, for any arithmetic: the array indices are integer
    functions of the cells of the positions. *)
From Coq Require Import ZArith List Bool Lia.
From Verif.Lib Require Import Outcome Par.
From Verif.Model Require Import Arith Geometry CurrentDeposit Fields GenCode GenRun GenSim.
Import ListNotations.
Local Open Scope Z_scope.

Section Index.
Variable A : arith.
Variable g : ggeom A.

Definition jin (c : gjinc A) : Prop := inside A g (grow A (gj_inc A c)) (gcol A (gj_inc A c)) = true.
Definition rin (c : ginc A) : Prop := inside A g (grow A c) (gcol A c) = true.

Lemma inside_true : forall i k, 0 <= i < gn_r A g -> 0 <= k < gn_z A g -> inside A g i k = true.
Proof. intros i k Hi Hk. unfold inside. rewrite !andb_true_iff, !Z.leb_le, !Z.ltb_lt. lia. Qed.

Lemma gcell_nonneg : forall x d, 0 <= gcell A x d.
Proof. intros x d. unfold gcell. destruct (Z.ltb_spec (gCELL_NUMBER A x d) 0); lia. Qed.

Ltac all_in := repeat (apply Forall_cons; [apply inside_true; cbn; lia|]); apply Forall_nil.

Lemma gsimple_inside : forall dt q rn zn ro zo c k, 0 <= c <= gn_r A g - 2 -> 0 <= k <= gn_z A g - 2 ->
  Forall jin (gsimple_current A g dt q rn zn ro zo c k).
Proof.
  intros dt q rn zn ro zo c k Hc Hk. unfold gsimple_current. cbv zeta.
  destruct (ltb A _ _); [constructor|]. destruct (ltb A _ _); [constructor|]. destruct (1 <=? c); all_in.
Qed.

(** The positions [pn] and [po] along one axis with cell length [d] and [n] nodes: the cells are on the grid and differ by
    at most one. *)
Definition near_cells (n : Z) (d pn po : num A) : Prop :=
  gcell A pn d <= n - 2 /\ gcell A po d <= n - 2 /\ -1 <= gcell A pn d - gcell A po d <= 1.

Inductive tied (d pn po : num A) : Z * Z -> Prop :=
  | tied_same : forall c, c = gcell A pn d \/ c = gcell A po d -> tied d pn po (c, c)
  | tied_diff : gcell A pn d <> gcell A po d -> eqb A po (mul A (of_int A (gcell A po d + 1)) d) = false ->
      tied d pn po (gcell A pn d, gcell A po d).

Lemma gtie_cells_spec : forall d pn po, tied d pn po (gtie_cells A d pn po).
Proof.
  intros d pn po. unfold gtie_cells. cbv zeta.
  destruct (eqb A po _) eqn:E; destruct (eqb A pn _) eqn:E'; try (apply tied_same; now auto).
  destruct (Z.eq_dec (gcell A pn d) (gcell A po d)) as [X|X]; [rewrite X; apply tied_same; auto|].
  now apply tied_diff.
Qed.

Theorem gcurrent_single_inside : forall dt q rn zn ro zo,
  near_cells (gn_r A g) (gdr A g) rn ro -> near_cells (gn_z A g) (gdz A g) zn zo ->
  (gcell A rn (gdr A g) = 0 -> gcell A ro (gdr A g) = 1 -> ltb A (mul A (of_int A 1) (gdr A g)) ro = true) ->
  (gcell A rn (gdr A g) = gn_r A g - 2 -> gcell A ro (gdr A g) = gn_r A g - 3 ->
   ltb A (mul A (of_int A (gn_r A g - 1)) (gdr A g)) ro = false) ->
  (gcell A zn (gdz A g) = 0 -> gcell A zo (gdz A g) = 1 -> ltb A zo (mul A (of_int A 0) (gdz A g)) = false) ->
  (gcell A zn (gdz A g) = gn_z A g - 2 -> gcell A zo (gdz A g) = gn_z A g - 3 ->
   eqb A zo (mul A (of_int A (gn_z A g - 2)) (gdz A g)) = false ->
   ltb A zo (mul A (of_int A (gn_z A g - 2)) (gdz A g)) = true) ->
  Forall jin (gcurrent_single A g dt q rn zn ro zo).
Proof.
  intros dt q rn zn ro zo (I1 & I2 & I3) (K1 & K2 & K3) R1 R2 Z1 Z2.
  assert (P1 := gcell_nonneg rn (gdr A g)). assert (P2 := gcell_nonneg ro (gdr A g)).
  assert (P3 := gcell_nonneg zn (gdz A g)). assert (P4 := gcell_nonneg zo (gdz A g)).
  unfold gcurrent_single.
  assert (TI := gtie_cells_spec (gdr A g) rn ro). destruct (gtie_cells A (gdr A g) rn ro) as [i_n i_o].
  assert (TK := gtie_cells_spec (gdz A g) zn zo). destruct (gtie_cells A (gdz A g) zn zo) as [k_n k_o].
  assert (Vi : 0 <= i_n <= gn_r A g - 2 /\ 0 <= i_o <= gn_r A g - 2 /\ -1 <= i_n - i_o <= 1) by (inversion TI; subst; lia).
  assert (Vk : 0 <= k_n <= gn_z A g - 2 /\ 0 <= k_o <= gn_z A g - 2 /\ -1 <= k_n - k_o <= 1) by (inversion TK; subst; lia).
  assert (ST : Forall jin (gstrict_motion A g dt q rn zn ro zo)).
  { unfold gstrict_motion. cbv zeta.
    destruct (ltb A (absv A (sub A rn ro)) _); destruct (ltb A (absv A (sub A zn zo)) _); try constructor.
    - unfold gstrict_axial. cbv zeta.
      destruct (Z.eqb_spec (gcell A zn (gdz A g) - gcell A zo (gdz A g)) 0) as [E|E];
       [|destruct (Z.eqb_spec (gcell A zn (gdz A g) - gcell A zo (gdz A g)) 1) as [E1|E1];
       [|destruct (Z.eqb_spec (gcell A zn (gdz A g) - gcell A zo (gdz A g)) (-1)) as [E2|E2]]]; cbn [app]; all_in.
    - unfold gstrict_radial. cbv zeta.
      destruct (Z.eqb_spec (gcell A rn (gdr A g) - gcell A ro (gdr A g)) 0) as [E|E];
       [|destruct (Z.eqb_spec (gcell A rn (gdr A g) - gcell A ro (gdr A g)) 1) as [E1|E1];
       [|destruct (Z.eqb_spec (gcell A rn (gdr A g) - gcell A ro (gdr A g)) (-1)) as [E2|E2]]]; cbn [app]; all_in. }
  destruct (ltb A (absv A (sub A rn ro)) (gMNZL A)); [exact ST|].
  destruct (ltb A (absv A (sub A zn zo)) (gMNZL A)); [exact ST|]. clear ST.
  destruct (Z.eqb_spec (Z.abs (i_n - i_o) + Z.abs (k_n - k_o)) 0) as [R0|R0]; [apply gsimple_inside; lia|].
  destruct (Z.eqb_spec (Z.abs (i_n - i_o) + Z.abs (k_n - k_o)) 1) as [RR1|RR1].
  { unfold gcurrent_one_border. cbv zeta.
    destruct (Z.eqb_spec i_n i_o) as [E|E], (Z.eqb_spec k_n k_o) as [E'|E']; cbn [negb andb]; try constructor.
    - inversion TK as [|D T]; subst; [lia|].
      destruct (ltb A zo (mul A (of_int A (gcell A zn (gdz A g))) (gdz A g))) eqn:X; apply Forall_app; split; apply gsimple_inside; try lia.
      + destruct (Z.eq_dec (gcell A zn (gdz A g)) 0) as [N|N]; [|lia].
        rewrite N in X. rewrite Z1 in X by lia. discriminate.
      + destruct (Z.eq_dec (gcell A zn (gdz A g)) (gn_z A g - 2)) as [N|N]; [|lia].
        rewrite N in X. assert (M : gcell A zo (gdz A g) = gn_z A g - 3) by lia. rewrite Z2 in X; [discriminate|exact N|exact M|].
        rewrite M in T. replace (gn_z A g - 3 + 1) with (gn_z A g - 2) in T by lia. exact T.
    - inversion TI as [|D T]; subst; [lia|].
      destruct (ltb A (mul A (of_int A (gcell A rn (gdr A g) + 1)) (gdr A g)) ro) eqn:X; apply Forall_app; split; apply gsimple_inside; try lia.
      + destruct (Z.eq_dec (gcell A rn (gdr A g)) (gn_r A g - 2)) as [N|N]; [|lia].
        rewrite N in X. replace (gn_r A g - 2 + 1) with (gn_r A g - 1) in X by lia. rewrite R2 in X by lia. discriminate.
      + destruct (Z.eq_dec (gcell A rn (gdr A g)) 0) as [N|N]; [|lia].
        rewrite N in X. change (0 + 1) with 1 in X. rewrite R1 in X by lia. discriminate. }
  destruct (Z.eqb_spec (Z.abs (i_n - i_o) + Z.abs (k_n - k_o)) 2) as [RR2|RR2]; [|constructor].
  clear TI TK. unfold gcurrent_two_borders. cbv zeta.
  destruct (Z.ltb_spec i_o i_n); [|destruct (Z.ltb_spec i_n i_o); [|constructor]];
  (destruct (Z.ltb_spec k_o k_n); [|try (destruct (Z.ltb_spec k_n k_o); [|constructor])]);
  repeat match goal with |- context [if ltb A ?a ?b then _ else _] => destruct (ltb A a b) end;
  try constructor;
  repeat (apply Forall_app; split); apply gsimple_inside; lia.
Qed.

Theorem gazimuthal_inside : forall q v r z, gcell A r (gdr A g) <= gn_r A g - 2 -> gcell A z (gdz A g) <= gn_z A g - 2 ->
  Forall jin (gazimuthal_single A g q v r z).
Proof.
  intros q v r z Hr Hz. assert (P1 := gcell_nonneg r (gdr A g)). assert (P2 := gcell_nonneg z (gdz A g)).
  unfold gazimuthal_single. cbv zeta. all_in.
Qed.

Theorem gcharge_inside : forall q r z, 2 <= gn_r A g ->
  gcell A r (gdr A g) <= gn_r A g - 2 -> gcell A z (gdz A g) <= gn_z A g - 2 ->
  Forall rin (gcharge_weighting_single A g q r z).
Proof.
  intros q r z H2 Hr Hz. assert (P1 := gcell_nonneg r (gdr A g)). assert (P2 := gcell_nonneg z (gdz A g)).
  unfold gcharge_weighting_single. cbv zeta. destruct (ltb A _ _); [|destruct (leb A _ _)]; all_in.
Qed.

(** What the interpolation of both fields reads *)
Definition interpolation_reads (r z : num A) : list loc :=
  map (t_at A) (gterms_half_r A ER g r z ++ gterms_whole A EPHI g r z ++ gterms_half_z A EZ g r z ++
                gterms_half_z A HRH g r z ++ gterms_half_both A HPHIH g r z ++ gterms_half_r A HZH g r z).

Theorem greads_inside : forall r z,
  gcell A r (gdr A g) <= gn_r A g - 2 -> gcell A (sub A r (mul A (ghalf A) (gdr A g))) (gdr A g) <= gn_r A g - 2 ->
  gcell A z (gdz A g) <= gn_z A g - 2 -> gcell A (sub A z (mul A (ghalf A) (gdz A g))) (gdz A g) <= gn_z A g - 2 ->
  Forall (fun x => inside A g (snd (fst x)) (snd x) = true) (interpolation_reads r z).
Proof.
  intros r z H1 H2 H3 H4. unfold interpolation_reads, gterms_half_r, gterms_whole, gterms_half_z, gterms_half_both, gcorner_terms. cbv zeta.
  assert (P1 := gcell_nonneg r (gdr A g)). assert (P2 := gcell_nonneg z (gdz A g)).
  assert (P3 := gcell_nonneg (sub A r (mul A (ghalf A) (gdr A g))) (gdr A g)).
  assert (P4 := gcell_nonneg (sub A z (mul A (ghalf A) (gdz A g))) (gdz A g)).
  cbn [map app t_at]. all_in.
Qed.

Theorem greads_rows : forall r z,
  gcell A r (gdr A g) <= gn_r A g - 2 -> gcell A (sub A r (mul A (ghalf A) (gdr A g))) (gdr A g) <= gn_r A g - 3 ->
  gcell A z (gdz A g) <= gn_z A g - 2 -> gcell A (sub A z (mul A (ghalf A) (gdz A g))) (gdz A g) <= gn_z A g - 3 ->
  Forall (fun x : loc => let '(a, i, k) := x in
    0 <= i < match a with HPHIH | HZH => gn_r A g - 1 | _ => gn_r A g end /\ 0 <= k < match a with HRH | HPHIH => gn_z A g - 1 | _ => gn_z A g end)
    (interpolation_reads r z).
Proof.
  intros r z H1 H2 H3 H4. unfold interpolation_reads, gterms_half_r, gterms_whole, gterms_half_z, gterms_half_both, gcorner_terms. cbv zeta.
  assert (P1 := gcell_nonneg r (gdr A g)). assert (P2 := gcell_nonneg z (gdz A g)).
  assert (P3 := gcell_nonneg (sub A r (mul A (ghalf A) (gdr A g))) (gdr A g)).
  assert (P4 := gcell_nonneg (sub A z (mul A (ghalf A) (gdz A g))) (gdz A g)).
  cbn [map app t_at]. repeat apply Forall_cons; try apply Forall_nil; lia.
Qed.

(** Increments inside the arrays do not fail. *)
Lemma gadd_j_ok : forall l f, Forall jin l -> exists f', ofold (gadd_j A g) l f = Ok f'.
Proof.
  intros l f F. revert f. induction F as [|c l Hc _ IH]; intro f; [now exists f|]. cbn [ofold]. unfold gadd_j at 1. rewrite Hc. cbn [bind]. apply IH.
Qed.
Lemma gadd_rho_ok : forall l f, Forall rin l -> exists f', ofold (gadd_rho A g) l f = Ok f'.
Proof.
  intros l f F. revert f. induction F as [|c l Hc _ IH]; intro f; [now exists f|]. cbn [ofold]. unfold gadd_rho at 1. rewrite Hc. cbn [bind]. apply IH.
Qed.

End Index.
