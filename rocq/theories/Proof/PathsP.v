(** Proofs about path names and the cache: C50, C51. *)
From Coq Require Import Reals ZArith Lia Lra String Ascii List Bool.
From Verif.Lib Require Import Outcome.
From Verif.Model Require Import Paths Cache.
Import ListNotations.
Local Open Scope string_scope.

Lemma str_app_length : forall a b, String.length (a ++ b) = (String.length a + String.length b)%nat.
Proof. induction a as [|c a IH]; intro b; [reflexivity|]. cbn. now rewrite IH. Qed.

Lemma show_nonneg_length : forall k fuel n, (1 <= k)%nat -> (0 <= n < 10 ^ Z.of_nat k)%Z ->
  (1 <= String.length (show_nonneg (S fuel) n))%nat /\ (String.length (show_nonneg fuel n) <= k)%nat.
Proof.
  assert (L : forall fuel n, (1 <= String.length (show_nonneg (S fuel) n))%nat).
  { intros fuel n. cbn [show_nonneg]. destruct (n <? 10)%Z; [cbn; lia|]. rewrite str_app_length. cbn [digit String.length]. lia. }
  induction k as [|k IH]; intros fuel n Hk Hn; [lia|]. split; [apply L|].
  destruct fuel as [|fuel]; [cbn; lia|]. cbn [show_nonneg]. destruct (Z.ltb_spec n 10) as [G|G]; [cbn; lia|].
  rewrite str_app_length. cbn [digit String.length].
  destruct k as [|k].
  - change (10 ^ Z.of_nat 1)%Z with 10%Z in Hn. lia.
  - assert (H : (0 <= n / 10 < 10 ^ Z.of_nat (S k))%Z).
    { split; [apply Z.div_pos; lia|]. apply Z.div_lt_upper_bound; [lia|].
      rewrite <- Z.pow_succ_r by lia. rewrite <- Nat2Z.inj_succ. lia. }
    destruct (IH fuel (n / 10)%Z ltac:(lia) H) as [_ B]. lia.
Qed.

Lemma show_length : forall k n, (1 <= k)%nat -> (- 10 ^ Z.of_nat k < n < 10 ^ Z.of_nat k)%Z -> (String.length (show n) <= S k)%nat.
Proof.
  intros k n Hk Hn. unfold show. destruct (Z.ltb_spec n 0) as [G|G].
  - cbn [append String.length]. assert (H := show_nonneg_length k 20 (- n) Hk ltac:(lia)). lia.
  - assert (H := show_nonneg_length k 20 n Hk ltac:(lia)). lia.
Qed.

Lemma show_length_nonneg : forall k n, (1 <= k)%nat -> (0 <= n < 10 ^ Z.of_nat k)%Z -> (String.length (show n) <= k)%nat.
Proof.
  intros k n Hk Hn. unfold show. destruct (Z.ltb_spec n 0) as [G|G]; [lia|].
  assert (H := show_nonneg_length k 20 n Hk ltac:(lia)). lia.
Qed.

Lemma store_ok : forall size s, (String.length s < size)%nat -> store size s = Ok s.
Proof. intros size s H. unfold store. apply Nat.ltb_lt in H. now rewrite H. Qed.

Lemma store_ub : forall size s, (size <= String.length s)%nat -> store size s = UB.
Proof. intros size s H. unfold store. apply Nat.ltb_ge in H. now rewrite H. Qed.

Lemma store_inv : forall size s r, store size s = Ok r -> r = s /\ (String.length s < size)%nat.
Proof. intros size s r H. unfold store in H. destruct (Nat.ltb_spec (String.length s) size); [injection H as <-; auto|discriminate]. Qed.

(** ** Cache *)

Definition sound (c : cache) (w : string -> option (list R)) : Prop :=
  forall k v, c_memory c k = Some v \/ c_disk c k = Some v -> w k = Some v.

Lemma put_cases : forall m k v k' v', put m k v k' = Some v' -> (k' = k /\ v' = v) \/ m k' = Some v'.
Proof. intros m k v k' v' H. unfold put in H. destruct (String.eqb_spec k' k); [injection H as <-; auto|auto]. Qed.

Lemma sound_update : forall c w k v, sound c w -> w k = Some v -> sound (update_cache c k v) w.
Proof.
  intros c w k v S E k' v' [H|H]; apply put_cases in H; destruct H as [[-> ->]|H]; auto.
Qed.

Lemma get_cache_sound : forall c w k v c', sound c w -> get_cache c k = (v, c') -> sound c' w /\ (v = [] \/ w k = Some v).
Proof.
  intros c w k v c' S H. unfold get_cache in H. destruct (c_memory c k) as [m|] eqn:M.
  - injection H as <- <-. split; [exact S|]. right. apply S. now left.
  - destruct (c_disk c k) as [d|] eqn:D.
    + injection H as <- <-. assert (E : w k = Some d) by (apply S; now right). split; [|now right].
      intros k' v' [G|G]; cbn in G; [|apply S; now right]. apply put_cases in G. destruct G as [[-> ->]|G]; [exact E|apply S; now left].
    + injection H as <- <-. auto.
Qed.

Lemma cached_read_sound : forall c w k r c', sound c w -> cached_read c k (w k) = (r, c') -> sound c' w /\ r = w k.
Proof.
  intros c w k r c' S H. unfold cached_read in H. destruct (get_cache c k) as [v c1] eqn:G.
  destruct (get_cache_sound c w k v c1 S G) as [S1 V]. destruct v as [|x v].
  - destruct (w k) as [d|] eqn:E; injection H as <- <-; split; auto. now apply sound_update.
  - destruct V as [V|V]; [discriminate|]. injection H as <- <-. split; [now apply sound_update|auto].
Qed.

Lemma history_sound : forall es c w, sound c w -> (forall w', ~ In (NewData w') es) ->
  Forall (fun rw => fst rw = snd rw) (history c w es).
Proof.
  induction es as [|[k|w'|] es IH]; intros c w S N; [constructor| | |].
  - cbn [history]. destruct (cached_read c k (w k)) as [r c'] eqn:E. destruct (cached_read_sound c w k r c' S E) as [S' ->].
    constructor; [reflexivity|]. apply IH; [exact S'|]. intros w' H. apply (N w'). now right.
  - exfalso. apply (N w'). now left.
  - cbn [history]. apply IH; [|intros w' H; apply (N w'); now right]. intros k v [H|H]; [discriminate|]. apply S. now right.
Qed.
