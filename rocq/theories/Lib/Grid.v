(** Two-dimensional arrays of reals as functions, point updates, lists of
    increments, and weighted totals. Nothing here models code. *)
From Coq Require Import Reals ZArith Lia Lra List Bool Permutation.
From Verif.Lib Require Import RAux.
Import ListNotations.
Local Open Scope R_scope.

Definition arr := Z -> Z -> R.

Definition zero_arr : arr := fun _ _ => 0.

(** Array assignment [a[i][k] = v]. *)
Definition upd (a : arr) (i k : Z) (v : R) : arr :=
  fun i' k' => if ((i' =? i) && (k' =? k))%Z then v else a i' k'.

Lemma upd_same : forall a i k v, upd a i k v i k = v.
Proof. intros. unfold upd. now rewrite !Z.eqb_refl. Qed.

Lemma upd_other : forall a i k v i' k', (i', k') <> (i, k) -> upd a i k v i' k' = a i' k'.
Proof.
  intros a i k v i' k' H. unfold upd.
  destruct (Z.eqb_spec i' i), (Z.eqb_spec k' k); cbn; subst; congruence.
Qed.

(** One increment [a[row][col] += val]. *)
Record inc := Inc { row : Z; col : Z; val : R }.

Definition apply_inc (a : arr) (c : inc) : arr :=
  upd a (row c) (col c) (a (row c) (col c) + val c).

Definition apply_incs (a : arr) (l : list inc) : arr := fold_left apply_inc l a.

(** Sum of the increments that hit one element. *)
Definition inc_at (l : list inc) (i k : Z) : R :=
  rsum (map (fun c => if ((i =? row c) && (k =? col c))%Z then val c else 0) l).

Lemma inc_at_cons : forall c l i k,
  inc_at (c :: l) i k = (if ((i =? row c) && (k =? col c))%Z then val c else 0) + inc_at l i k.
Proof. reflexivity. Qed.

Lemma inc_at_app : forall a b i k, inc_at (a ++ b) i k = inc_at a i k + inc_at b i k.
Proof. intros. unfold inc_at. rewrite map_app. apply rsum_app. Qed.

Lemma inc_at_nil : forall i k, inc_at [] i k = 0.
Proof. reflexivity. Qed.

Lemma apply_incs_at : forall l a i k, apply_incs a l i k = a i k + inc_at l i k.
Proof.
  induction l as [|c l IH]; intros a i k.
  - cbn. unfold inc_at. cbn. lra.
  - change (apply_incs a (c :: l)) with (apply_incs (apply_inc a c) l).
    rewrite IH, inc_at_cons. unfold apply_inc, upd.
    destruct (Z.eqb_spec i (row c)), (Z.eqb_spec k (col c)); cbn; subst; lra.
Qed.

Lemma apply_incs_app : forall l l' a, apply_incs a (l ++ l') = apply_incs (apply_incs a l) l'.
Proof. intros. unfold apply_incs. apply fold_left_app. Qed.

Lemma inc_at_perm : forall l l', Permutation l l' -> forall i k, inc_at l i k = inc_at l' i k.
Proof.
  intros l l' H. induction H; intros i k; unfold inc_at in *; cbn; try lra.
  - specialize (IHPermutation i k). lra.
  - rewrite IHPermutation1. apply IHPermutation2.
Qed.

(** ** Extents *)

Definition inside (nr nz i k : Z) : Prop := (0 <= i < nr /\ 0 <= k < nz)%Z.

Definition inc_inside (nr nz : Z) (c : inc) : Prop := inside nr nz (row c) (col c).

(** Weighted total of an array over its extent. *)
Definition total (nr nz : Z) (w : Z -> R) (a : arr) : R :=
  zsum (fun i => zsum (fun k => a i k * w i) 0 nz) 0 nr.

Lemma total_apply_inc : forall nr nz w a c,
  inc_inside nr nz c ->
  total nr nz w (apply_inc a c) = total nr nz w a + val c * w (row c).
Proof.
  intros nr nz w a [i k v] [Hi Hk]. cbn in *. unfold total.
  assert (E : forall i' k', apply_inc a (Inc i k v) i' k' * w i' =
              a i' k' * w i' + (if ((i' =? i) && (k' =? k))%Z then v * w i else 0)).
  { intros i' k'. unfold apply_inc, upd. cbn.
    destruct (Z.eqb_spec i' i), (Z.eqb_spec k' k); cbn; subst; ring. }
  rewrite (zsum_ext _ (fun i' => zsum (fun k' => a i' k' * w i') 0 nz +
             zsum (fun k' => if ((i' =? i) && (k' =? k))%Z then v * w i else 0) 0 nz)).
  2:{ intros i' _. rewrite <- zsum_plus. apply zsum_ext. intros k' _. apply E. }
  rewrite zsum_plus. f_equal.
  rewrite (zsum_single _ 0 nr i Hi).
  - rewrite (zsum_single _ 0 nz k Hk).
    + now rewrite !Z.eqb_refl.
    + intros k' _ Hn. rewrite Z.eqb_refl. destruct (Z.eqb_spec k' k); [congruence|reflexivity].
  - intros i' _ Hn. apply zsum_zero_ext. intros k' _.
    destruct (Z.eqb_spec i' i); [congruence|reflexivity].
Qed.

Lemma total_apply_incs : forall nr nz w l a,
  Forall (inc_inside nr nz) l ->
  total nr nz w (apply_incs a l) = total nr nz w a + rsum (map (fun c => val c * w (row c)) l).
Proof.
  intros nr nz w l. induction l as [|c l IH]; intros a H; cbn.
  - lra.
  - inversion H; subst.
    change (fold_left apply_inc l (apply_inc a c)) with (apply_incs (apply_inc a c) l).
    rewrite IH by assumption. rewrite total_apply_inc by assumption. lra.
Qed.

Lemma total_ext : forall nr nz w a b,
  (forall i k, inside nr nz i k -> a i k = b i k) -> total nr nz w a = total nr nz w b.
Proof.
  intros nr nz w a b H. unfold total. apply zsum_ext. intros i Hi. apply zsum_ext.
  intros k Hk. rewrite H; [reflexivity|]. split; assumption.
Qed.
