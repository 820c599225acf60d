(** One-dimensional arrays as functions, and counting loops with their invariant rules.
    Nothing here models particular code. *)
From Coq Require Import Reals ZArith Lia List Bool.
From Verif.Lib Require Import Outcome.
Import ListNotations.
Local Open Scope Z_scope.

(** Array assignment [a[i] = v]. *)
Definition updv {T : Type} (a : Z -> T) (i : Z) (v : T) : Z -> T :=
  fun j => if j =? i then v else a j.

Lemma updv_same : forall {T} (a : Z -> T) i v, updv a i v i = v.
Proof. intros. unfold updv. now rewrite Z.eqb_refl. Qed.

Lemma updv_other : forall {T} (a : Z -> T) i v j, j <> i -> updv a i v j = a j.
Proof. intros T a i v j H. unfold updv. destruct (Z.eqb_spec j i); congruence. Qed.

(** Floating point division; dividing by zero is undefined (and gives an infinity or a NaN with
    the usual compilers). *)
Definition fdiv (x y : R) : outcome R := if Req_EM_T y 0%R then UB else Ok (x / y)%R.

Lemma fdiv_ok : forall x y, y <> 0%R -> fdiv x y = Ok (x / y)%R.
Proof. intros x y H. unfold fdiv. destruct (Req_EM_T y 0%R); [contradiction|reflexivity]. Qed.

Lemma fdiv_zero : forall x, fdiv x 0 = UB.
Proof. intro x. unfold fdiv. destruct (Req_EM_T 0 0); [reflexivity|contradiction]. Qed.

(** [for (i = lo; n more times; i++) s = body i s] *)
Fixpoint for_n {S : Type} (body : Z -> S -> S) (lo : Z) (n : nat) (s : S) : S :=
  match n with
  | O => s
  | Datatypes.S n' => for_n body (lo + 1) n' (body lo s)
  end.

(** [for (i = lo; i < hi; i++) s = body i s] *)
Definition for_up {S : Type} (lo hi : Z) (body : Z -> S -> S) (s : S) : S :=
  for_n body lo (Z.to_nat (hi - lo)) s.

(** [for (i = hi; i >= lo; i--) s = body i s] *)
Definition for_down {S : Type} (hi lo : Z) (body : Z -> S -> S) (s : S) : S :=
  for_n (fun i => body (- i)) (- hi) (Z.to_nat (hi - lo + 1)) s.

Lemma for_n_inv : forall {S} (P : Z -> S -> Prop) body n lo s,
  P lo s ->
  (forall i t, lo <= i < lo + Z.of_nat n -> P i t -> P (i + 1) (body i t)) ->
  P (lo + Z.of_nat n) (for_n body lo n s).
Proof.
  intros S P body n. induction n as [|n IH]; intros lo s H0 Hs; cbn [for_n].
  - now replace (lo + Z.of_nat 0) with lo by lia.
  - replace (lo + Z.of_nat (Datatypes.S n)) with ((lo + 1) + Z.of_nat n) by lia.
    apply IH.
    + apply Hs; [lia|exact H0].
    + intros i t Hi. apply Hs. lia.
Qed.

Lemma for_up_inv : forall {S} (P : Z -> S -> Prop) lo hi body s,
  lo <= hi -> P lo s ->
  (forall i t, lo <= i < hi -> P i t -> P (i + 1) (body i t)) ->
  P hi (for_up lo hi body s).
Proof.
  intros S P lo hi body s Hl H0 Hs. unfold for_up.
  replace hi with (lo + Z.of_nat (Z.to_nat (hi - lo))) at 1 by lia.
  apply for_n_inv; [exact H0|]. intros i t Hi. apply Hs. lia.
Qed.

(** [P i] holds when the iterations [hi, hi-1, ..., i+1] have been done. *)
Lemma for_down_inv : forall {S} (P : Z -> S -> Prop) hi lo body s,
  lo - 1 <= hi -> P hi s ->
  (forall i t, lo <= i <= hi -> P i t -> P (i - 1) (body i t)) ->
  P (lo - 1) (for_down hi lo body s).
Proof.
  intros S P hi lo body s Hl H0 Hs. unfold for_down.
  assert (G := for_n_inv (fun i t => P (- i) t) (fun i => body (- i)) (Z.to_nat (hi - lo + 1)) (- hi) s).
  cbv beta in G. replace (- (- hi + Z.of_nat (Z.to_nat (hi - lo + 1)))) with (lo - 1) in G by lia.
  apply G.
  - now replace (- - hi) with hi by lia.
  - intros i t Hi Hp. replace (- (i + 1)) with (- i - 1) by lia. apply Hs; [lia|exact Hp].
Qed.

Lemma for_up_empty : forall {S} lo hi (body : Z -> S -> S) s, hi <= lo -> for_up lo hi body s = s.
Proof. intros S lo hi body s H. unfold for_up. now replace (Z.to_nat (hi - lo)) with O by lia. Qed.

Lemma for_up_first : forall {S} lo hi (body : Z -> S -> S) s, lo < hi ->
  for_up lo hi body s = for_up (lo + 1) hi body (body lo s).
Proof.
  intros S lo hi body s H. unfold for_up.
  now replace (Z.to_nat (hi - lo)) with (Datatypes.S (Z.to_nat (hi - (lo + 1)))) by lia.
Qed.

Lemma for_n_last : forall {S} (body : Z -> S -> S) n lo s,
  for_n body lo (Datatypes.S n) s = body (lo + Z.of_nat n) (for_n body lo n s).
Proof.
  intros S body n. induction n as [|n IH]; intros lo s.
  - cbn. now replace (lo + 0) with lo by lia.
  - change (for_n body lo (Datatypes.S (Datatypes.S n)) s)
      with (for_n body (lo + 1) (Datatypes.S n) (body lo s)).
    rewrite IH. cbn [for_n]. f_equal. lia.
Qed.

Lemma for_up_last : forall {S} lo hi (body : Z -> S -> S) s, lo <= hi ->
  for_up lo (hi + 1) body s = body hi (for_up lo hi body s).
Proof.
  intros S lo hi body s H. unfold for_up.
  replace (Z.to_nat (hi + 1 - lo)) with (Datatypes.S (Z.to_nat (hi - lo))) by lia.
  rewrite for_n_last. f_equal. lia.
Qed.

Lemma for_n_ext : forall {S} (f g : Z -> S -> S) n lo s,
  (forall i t, lo <= i < lo + Z.of_nat n -> f i t = g i t) -> for_n f lo n s = for_n g lo n s.
Proof.
  intros S f g n. induction n as [|n IH]; intros lo s H; cbn; [reflexivity|].
  rewrite H by lia. apply IH. intros i t Hi. apply H. lia.
Qed.

Lemma for_up_ext : forall {S} lo hi (f g : Z -> S -> S) s,
  (forall i t, lo <= i < hi -> f i t = g i t) -> for_up lo hi f s = for_up lo hi g s.
Proof. intros S lo hi f g s H. unfold for_up. apply for_n_ext. intros i t Hi. apply H. lia. Qed.

Lemma for_n_ub : forall {S} (body : Z -> outcome S -> outcome S) n lo,
  (forall i, body i UB = UB) -> for_n body lo n UB = UB.
Proof. intros S body n. induction n as [|n IH]; intros lo H; cbn; [reflexivity|]. rewrite H. now apply IH. Qed.

Lemma for_up_ub : forall {S} lo hi (body : Z -> outcome S -> outcome S),
  (forall i, body i UB = UB) -> for_up lo hi body UB = UB.
Proof. intros. unfold for_up. now apply for_n_ub. Qed.

Lemma for_up_split : forall {S} lo mid hi (body : Z -> S -> S) s, lo <= mid <= hi ->
  for_up lo hi body s = for_up mid hi body (for_up lo mid body s).
Proof.
  intros S lo mid hi body s H. replace mid with (lo + Z.of_nat (Z.to_nat (mid - lo))) by lia.
  assert (Hb : lo + Z.of_nat (Z.to_nat (mid - lo)) <= hi) by lia. revert Hb.
  generalize (Z.to_nat (mid - lo)) as n. clear H. intro n. revert lo s. induction n as [|n IH]; intros lo s Hb.
  - replace (lo + Z.of_nat 0) with lo by lia. now rewrite (for_up_empty lo lo) by lia.
  - rewrite (for_up_first lo hi) by lia. rewrite (for_up_first lo (lo + Z.of_nat (Datatypes.S n))) by lia.
    replace (lo + Z.of_nat (Datatypes.S n)) with (lo + 1 + Z.of_nat n) in * by lia. apply IH. lia.
Qed.
