(** Proofs about the transforms of src/math/fourier.cpp: bit reversal, one stage, all stages. *)
From Coq Require Import Reals ZArith Lia Lra Psatz List Bool.
From Verif.Lib Require Import RAux Outcome Vec Cplx Par.
From Verif.Model Require Import Constants Tridiag Fourier.
From Verif.Spec Require Import Dft.
From Verif.Proof Require Import BunchP.
Import ListNotations.
Local Open Scope Z_scope.

(** ** Powers of two *)

Definition p2 (s : nat) : Z := 2 ^ Z.of_nat s.

Lemma p2_pos : forall s, 0 < p2 s.
Proof. intro s. unfold p2. apply Z.pow_pos_nonneg; lia. Qed.

Lemma p2_0 : p2 0 = 1.
Proof. reflexivity. Qed.

Lemma p2_S : forall s, p2 (S s) = 2 * p2 s.
Proof. intro s. unfold p2. replace (Z.of_nat (S s)) with (Z.succ (Z.of_nat s)) by lia. apply Z.pow_succ_r. lia. Qed.

Lemma p2_add : forall s t, p2 (s + t) = p2 s * p2 t.
Proof. intros. unfold p2. rewrite Nat2Z.inj_add. apply Z.pow_add_r; lia. Qed.

Lemma shiftr_1 : forall x, Z.shiftr x 1 = x / 2.
Proof. intro x. rewrite Z.shiftr_div_pow2 by lia. reflexivity. Qed.

Lemma p2_half : forall s, p2 (S s) / 2 = p2 s.
Proof. intro s. rewrite p2_S, Z.mul_comm. apply Z.div_mul. lia. Qed.

Lemma p2_ones_half : forall s, (p2 (S s) - 1) / 2 = p2 s - 1.
Proof.
  intro s. rewrite p2_S. symmetry. apply (Z.div_unique _ 2 (p2 s - 1) 1); lia.
Qed.

Lemma log2_p2 : forall s, Z.to_nat (Z.log2 (p2 s)) = s.
Proof. intro s. unfold p2. rewrite Z.log2_pow2 by lia. lia. Qed.

(** ** Bit reversal *)

Fixpoint brv (m : nat) (q : Z) : Z :=
  match m with
  | O => 0
  | S m' => (q mod 2) * p2 m' + brv m' (q / 2)
  end.

Lemma brev_loop_brv : forall m fuel j q, (m < fuel)%nat ->
  brev_loop fuel (Z.shiftr (p2 m) 1) j q = j + brv m q.
Proof.
  induction m as [|m IH]; intros fuel j q Hf; (destruct fuel as [|f]; [lia|]); cbn [brev_loop].
  - rewrite shiftr_1, p2_0. cbn. lia.
  - rewrite !shiftr_1, p2_half.
    destruct (Z.ltb_spec 0 (p2 m)) as [L|L]; [|pose proof (p2_pos m); lia].
    rewrite <- shiftr_1, IH by lia. cbn [brv]. lia.
Qed.

Lemma brev_brv : forall m k, brev (p2 m) k = brv m k.
Proof. intros m k. unfold brev. rewrite log2_p2, brev_loop_brv by lia. lia. Qed.

Lemma brv_range : forall m q, 0 <= brv m q < p2 m.
Proof.
  induction m as [|m IH]; intro q; cbn [brv].
  - rewrite p2_0. lia.
  - specialize (IH (q / 2)). pose proof (Z.mod_pos_bound q 2 ltac:(lia)). rewrite p2_S. nia.
Qed.

(** The high bit of the argument becomes the low bit of the result. *)
Lemma brv_high : forall m q b, 0 <= q < p2 m -> 0 <= b < 2 ->
  brv (S m) (b * p2 m + q) = 2 * brv m q + b.
Proof.
  induction m as [|m IH]; intros q b Hq Hb.
  - rewrite p2_0 in *. cbn [brv]. rewrite p2_0. replace q with 0 by lia.
    replace ((b * 1 + 0) mod 2) with b by (rewrite Z.mod_small; lia). lia.
  - change (brv (S (S m)) (b * p2 (S m) + q))
      with (((b * p2 (S m) + q) mod 2) * p2 (S m) + brv (S m) ((b * p2 (S m) + q) / 2)).
    rewrite p2_S in *.
    assert (E1 : (b * (2 * p2 m) + q) mod 2 = q mod 2).
    { replace (b * (2 * p2 m) + q) with (q + (b * p2 m) * 2) by ring. apply Z.mod_add. lia. }
    assert (E2 : (b * (2 * p2 m) + q) / 2 = b * p2 m + q / 2).
    { replace (b * (2 * p2 m) + q) with (q + (b * p2 m) * 2) by ring. rewrite Z.div_add by lia. lia. }
    rewrite E1, E2, IH; [|split; [apply Z.div_pos; lia|apply Z.div_lt_upper_bound; lia]|exact Hb].
    cbn [brv]. ring.
Qed.

Lemma brv_involutive : forall m q, 0 <= q < p2 m -> brv m (brv m q) = q.
Proof.
  induction m as [|m IH]; intros q Hq.
  - rewrite p2_0 in Hq. cbn. lia.
  - rewrite p2_S in Hq. change (brv (S m) q) with (q mod 2 * p2 m + brv m (q / 2)).
    pose proof (Z.mod_pos_bound q 2 ltac:(lia)) as Hb.
    rewrite brv_high by (try apply brv_range; lia).
    rewrite IH by (split; [apply Z.div_pos; lia|apply Z.div_lt_upper_bound; lia]).
    pose proof (Z.div_mod q 2 ltac:(lia)). lia.
Qed.

Lemma brv_even : forall m q, brv (S m) (2 * q) = brv m q.
Proof.
  intros m q. cbn [brv]. replace ((2 * q) mod 2) with 0 by (rewrite Z.mul_comm, Z.mod_mul; lia).
  replace (2 * q / 2) with q by (rewrite Z.mul_comm, Z.div_mul; lia). lia.
Qed.

Lemma brv_odd : forall m q, brv (S m) (2 * q + 1) = p2 m + brv m q.
Proof.
  intros m q. cbn [brv].
  replace ((2 * q + 1) mod 2) with 1 by (rewrite Z.add_comm, Z.mul_comm, Z.mod_add; [reflexivity|lia]).
  replace ((2 * q + 1) / 2) with q; [lia|]. apply (Z.div_unique _ 2 q 1); lia.
Qed.

(** ** The reordering loop *)

Lemma rd_ok : forall len a i, 0 <= i < len -> rd len a i = Ok (a i).
Proof.
  intros len a i H. unfold rd. destruct (Z.leb_spec 0 i), (Z.ltb_spec i len); cbn; try lia. reflexivity.
Qed.

Lemma wr_ok : forall len a i v, 0 <= i < len -> wr len a i v = Ok (updv a i v).
Proof.
  intros len a i v H. unfold wr. destruct (Z.leb_spec 0 i), (Z.ltb_spec i len); cbn; try lia. reflexivity.
Qed.

Lemma rd_bad : forall len a i, len <= i -> rd len a i = UB.
Proof.
  intros len a i H. unfold rd. destruct (Z.leb_spec 0 i), (Z.ltb_spec i len); cbn; try lia; reflexivity.
Qed.

Lemma wr_bad : forall len a i v, len <= i -> wr len a i v = UB.
Proof.
  intros len a i v H. unfold wr. destruct (Z.leb_spec 0 i), (Z.ltb_spec i len); cbn; try lia; reflexivity.
Qed.

Lemma in_dec_cons_other : forall (k i : Z) l {T} (x y : T), i <> k ->
  (if in_dec Z.eq_dec i (k :: l) then x else y) = (if in_dec Z.eq_dec i l then x else y).
Proof.
  intros k i l T x y N. destruct (in_dec Z.eq_dec i (k :: l)) as [H|H], (in_dec Z.eq_dec i l) as [H'|H'];
    try reflexivity.
  - destruct H as [H|H]; [congruence|contradiction].
  - exfalso. apply H. now right.
Qed.

Lemma in_dec_cons_same : forall (k : Z) l {T} (x y : T),
  (if in_dec Z.eq_dec k (k :: l) then x else y) = x.
Proof. intros. destruct (in_dec Z.eq_dec k (k :: l)) as [H|H]; [reflexivity|]. exfalso. apply H. now left. Qed.

Lemma swaps : forall M len l a, p2 M <= len -> NoDup l -> (forall k, In k l -> 0 <= k < p2 M) ->
  exists b, fold_left (brev_swap len (p2 M)) l (Ok a) = Ok b /\
    (forall i, 0 <= i < p2 M ->
       b i = if in_dec Z.eq_dec (Z.min i (brv M i)) l then a (brv M i) else a i) /\
    (forall i, ~ 0 <= i < p2 M -> b i = a i).
Proof.
  intros M len l. induction l as [|k l IH]; intros a Hlen Hnd Hin.
  - exists a. cbn. repeat split; auto.
  - inversion Hnd as [|x y Hk Hnd']; subst.
    assert (Hkr := Hin k (or_introl eq_refl)).
    assert (Hbr := brv_range M k). assert (Hinv := brv_involutive M k Hkr).
    cbn [fold_left].
    destruct (Z.ltb_spec k (brv M k)) as [L|L].
    + set (a1 := updv (updv a k (a (brv M k))) (brv M k) (a k)).
      assert (E : brev_swap len (p2 M) (Ok a) k = Ok a1).
      { unfold brev_swap, bind. rewrite brev_brv.
        destruct (Z.ltb_spec k (brv M k)) as [L'|L']; [|lia].
        rewrite !rd_ok by lia. rewrite wr_ok by lia. rewrite wr_ok by lia. reflexivity. }
      rewrite E. destruct (IH a1 Hlen Hnd') as (b & Hb & Hb1 & Hb2).
      { intros j Hj. apply Hin. now right. }
      exists b. split; [exact Hb|]. split.
      * intros i Hi. rewrite Hb1 by exact Hi.
        assert (Hii := brv_involutive M i Hi). assert (Hir := brv_range M i).
        destruct (Z.eq_dec (Z.min i (brv M i)) k) as [Ek|Nk].
        -- rewrite Ek. rewrite in_dec_cons_same. destruct (in_dec Z.eq_dec k l); [contradiction|].
           unfold a1. destruct (Z.eq_dec i k) as [->|Ni].
           ++ rewrite updv_other by lia. apply updv_same.
           ++ assert (brv M i = k) by lia. assert (i = brv M k) by congruence. subst i.
              rewrite updv_same. now rewrite Hinv.
        -- rewrite in_dec_cons_other by exact Nk.
           assert (i <> k) by (intro; subst; lia).
           assert (i <> brv M k) by (intro; subst; rewrite Hinv in *; lia).
           assert (brv M i <> k) by (intro; subst; lia).
           assert (brv M i <> brv M k) by (intro Eq; apply (f_equal (brv M)) in Eq; congruence).
           unfold a1. rewrite !updv_other by assumption. reflexivity.
      * intros i Hi. rewrite Hb2 by exact Hi. unfold a1. rewrite !updv_other by lia. reflexivity.
    + assert (E : brev_swap len (p2 M) (Ok a) k = Ok a).
      { unfold brev_swap, bind. rewrite brev_brv. destruct (Z.ltb_spec k (brv M k)) as [L'|L']; [lia|reflexivity]. }
      rewrite E. destruct (IH a Hlen Hnd') as (b & Hb & Hb1 & Hb2).
      { intros j Hj. apply Hin. now right. }
      exists b. split; [exact Hb|]. split; [|exact Hb2].
      intros i Hi. rewrite Hb1 by exact Hi.
      destruct (Z.eq_dec (Z.min i (brv M i)) k) as [Ek|Nk].
      * rewrite Ek, in_dec_cons_same. destruct (in_dec Z.eq_dec k l); [contradiction|].
        assert (Hii := brv_involutive M i Hi).
        destruct (Z.eq_dec i k) as [->|Ni].
        -- f_equal. lia.
        -- assert (brv M i = k) by lia. assert (i = brv M k) by congruence. f_equal. lia.
      * now rewrite in_dec_cons_other by exact Nk.
Qed.

Lemma reorder : forall M len l a, p2 M <= len -> NoDup l -> (forall k, In k l <-> 0 <= k < p2 M) ->
  exists b, fold_left (brev_swap len (p2 M)) l (Ok a) = Ok b /\
    (forall i, 0 <= i < p2 M -> b i = a (brv M i)) /\ (forall i, ~ 0 <= i < p2 M -> b i = a i).
Proof.
  intros M len l a Hlen Hnd Hin.
  destruct (swaps M len l a Hlen Hnd (fun k => proj1 (Hin k))) as (b & Hb & Hb1 & Hb2).
  exists b. split; [exact Hb|]. split; [|exact Hb2]. intros i Hi. rewrite Hb1 by exact Hi.
  destruct (in_dec Z.eq_dec (Z.min i (brv M i)) l) as [H|H]; [reflexivity|].
  exfalso. apply H, Hin. pose proof (brv_range M i). lia.
Qed.

(** ** One stage *)

Lemma in_m_values : forall k n h m, 0 < h -> 0 <= k < h -> 0 <= n ->
  (In m (m_values k n h) <-> 0 <= m < n /\ m mod (2 * h) = k).
Proof.
  intros k n h m Hh Hk Hn. unfold m_values. rewrite in_map_iff. split.
  - intros (t & <- & Ht). apply zrange_in in Ht.
    assert (t < (n - k + 2 * h - 1) / (2 * h)) by lia.
    assert (k + t * (2 * h) < n).
    { assert (t + 1 <= (n - k + 2 * h - 1) / (2 * h)) as A by lia.
      pose proof (Z.mul_div_le (n - k + 2 * h - 1) (2 * h) ltac:(lia)). nia. }
    split; [nia|]. rewrite Z.mod_add by lia. apply Z.mod_small. lia.
  - intros (Hm & E). exists (m / (2 * h)). pose proof (Z.div_mod m (2 * h) ltac:(lia)). split; [lia|].
    apply zrange_in. split; [apply Z.div_pos; lia|].
    apply Z.lt_le_trans with (m / (2 * h) + 1); [lia|].
    apply Z.div_le_lower_bound; [lia|]. lia.
Qed.

Lemma nodup_m_values : forall k n h, 0 < h -> NoDup (m_values k n h).
Proof.
  intros k n h Hh. unfold m_values. apply FinFun.Injective_map_NoDup; [|apply zrange_nodup].
  intros x y E. nia.
Qed.

Lemma in_stage_list : forall n h k m, 0 < h -> 0 <= n ->
  (In (k, m) (stage_list n h) <-> 0 <= m < n /\ m mod (2 * h) = k /\ k < h).
Proof.
  intros n h k m Hh Hn. unfold stage_list. rewrite in_flat_map. split.
  - intros (k' & Hk & H). apply in_map_iff in H. destruct H as (m' & E & Hm).
    injection E as -> ->. apply zrange_in in Hk. apply in_m_values in Hm; [|lia|lia|lia]. lia.
  - intros (Hm & E & L). pose proof (Z.mod_pos_bound m (2 * h) ltac:(lia)).
    exists k. split; [apply zrange_in; lia|]. apply in_map. apply in_m_values; lia.
Qed.

Lemma NoDup_app_intro : forall {T} (l1 l2 : list T), NoDup l1 -> NoDup l2 ->
  (forall x, In x l1 -> ~ In x l2) -> NoDup (l1 ++ l2).
Proof.
  intros T l1 l2 H1 H2 H. induction H1 as [|x l1 Hx H1 IH]; cbn; [exact H2|].
  constructor.
  - rewrite in_app_iff. intros [A|A]; [contradiction|]. apply (H x); [now left|exact A].
  - apply IH. intros y Hy. apply H. now right.
Qed.

Lemma nodup_stage_list : forall n h, 0 < h -> NoDup (stage_list n h).
Proof.
  intros n h Hh. unfold stage_list. generalize (zrange_nodup 0 h). generalize (zrange 0 h) as ks.
  induction ks as [|k ks IH]; intro H; cbn; [constructor|].
  inversion H as [|x y Hk Hks]; subst. apply NoDup_app_intro.
  - apply FinFun.Injective_map_NoDup; [|now apply nodup_m_values]. intros x y E. congruence.
  - now apply IH.
  - intros [k' m] Hx Hy. apply in_map_iff in Hx. destruct Hx as (m' & E & _). injection E as <- <-.
    apply in_flat_map in Hy. destruct Hy as (k2 & Hk2 & Hy). apply in_map_iff in Hy.
    destruct Hy as (m2 & E & _). injection E as -> ->. contradiction.
Qed.

Definition low (h i : Z) : Prop := i mod (2 * h) < h.

Lemma low_add : forall h i, 0 < h -> low h i -> ~ low h (i + h) /\ (i + h) mod (2 * h) = i mod (2 * h) + h.
Proof.
  intros h i Hh L. unfold low in *. pose proof (Z.mod_pos_bound i (2 * h) ltac:(lia)).
  assert (E : (i + h) mod (2 * h) = i mod (2 * h) + h).
  { pose proof (Z.div_mod i (2 * h) ltac:(lia)). symmetry.
    apply (Z.mod_unique (i + h) (2 * h) (i / (2 * h))); lia. }
  rewrite E. lia.
Qed.

Section Stage.
Variables (pi : R) (len h : Z).
Hypothesis Hh : 0 < h.

Definition fits (km : Z * Z) : Prop :=
  0 <= snd km /\ snd km + h < len /\ snd km mod (2 * h) = fst km /\ fst km < h.

Lemma butterfly_ok : forall a km, fits km ->
  butterfly pi len h (Ok a) km =
  Ok (updv (updv a (snd km) (cadd (a (snd km)) (cmul (twiddle pi (fst km) h) (a (snd km + h)))))
       (snd km + h) (csub (a (snd km)) (cmul (twiddle pi (fst km) h) (a (snd km + h))))).
Proof.
  intros a [k m] (F1 & F2 & F3 & F4). cbn [fst snd] in *. unfold butterfly, bind.
  rewrite !rd_ok by lia. rewrite wr_ok by lia. rewrite rd_ok by lia. rewrite wr_ok by lia.
  rewrite (updv_other a m _ (m + h)) by lia. reflexivity.
Qed.

Lemma stage_fold : forall l a, NoDup l -> (forall km, In km l -> fits km) ->
  exists b, fold_left (butterfly pi len h) l (Ok a) = Ok b /\
    (forall k m, In (k, m) l ->
       b m = cadd (a m) (cmul (twiddle pi k h) (a (m + h))) /\
       b (m + h) = csub (a m) (cmul (twiddle pi k h) (a (m + h)))) /\
    (forall i, (forall k m, In (k, m) l -> i <> m /\ i <> m + h) -> b i = a i).
Proof.
  induction l as [|[k m] l IH]; intros a Hnd Hf.
  - exists a. cbn. repeat split; auto; intros; contradiction.
  - inversion Hnd as [|x y Hk Hnd']; subst.
    assert (F := Hf (k, m) (or_introl eq_refl)).
    cbn [fold_left]. rewrite butterfly_ok by exact F. cbn [fst snd].
    set (a1 := updv (updv a m (cadd (a m) (cmul (twiddle pi k h) (a (m + h)))))
                (m + h) (csub (a m) (cmul (twiddle pi k h) (a (m + h))))).
    destruct (IH a1 Hnd') as (b & Hb & Hb1 & Hb2); [intros km H; apply Hf; now right|].
    assert (D : forall k' m', In (k', m') l -> m' <> m /\ m' <> m + h /\ m' + h <> m).
    { intros k' m' H. assert (F' := Hf (k', m') (or_intror H)).
      destruct F as (F1 & F2 & F3 & F4), F' as (G1 & G2 & G3 & G4). cbn [fst snd] in *.
      repeat split.
      - intro E. subst m'. apply Hk. replace k with k' by congruence. exact H.
      - intro E. subst m'. destruct (low_add h m Hh) as [A _]; [unfold low; lia|]. apply A. unfold low. lia.
      - intro E. subst m. destruct (low_add h m' Hh) as [A _]; [unfold low; lia|]. apply A. unfold low. lia. }
    assert (Hin : forall k' m', In (k', m') l -> a1 m' = a m' /\ a1 (m' + h) = a (m' + h)).
    { intros k' m' H. destruct (D k' m' H) as (D1 & D2 & D3). unfold a1.
      split; rewrite !updv_other by lia; reflexivity. }
    exists b. split; [exact Hb|]. split.
    + intros k' m' [E|H].
      * injection E as <- <-.
        assert (Hx : forall i, i = m \/ i = m + h -> b i = a1 i).
        { intros i Hi. apply Hb2. intros k' m' H. destruct (D k' m' H) as (D1 & D2 & D3). lia. }
        rewrite !Hx by auto. unfold a1. split.
        -- rewrite updv_other by lia. apply updv_same.
        -- apply updv_same.
      * destruct (Hb1 k' m' H) as [B1 B2]. destruct (Hin k' m' H) as [A1 A2].
        rewrite B1, B2, A1, A2. now split.
    + intros i Hi. rewrite Hb2.
      * destruct (Hi k m (or_introl eq_refl)). unfold a1. rewrite !updv_other by assumption. reflexivity.
      * intros k' m' H. apply (Hi k' m'). now right.
Qed.
End Stage.

(** ** Splitting a discrete Fourier transform *)

Local Open Scope R_scope.

Lemma dft_even_odd : forall h x k, (0 < h)%Z ->
  dft (2 * h) x k =
  cadd (dft h (fun j => x (2 * j)%Z) k)
       (cmul (cis (- (PI * IZR k / IZR h))) (dft h (fun j => x (2 * j + 1)%Z) k)).
Proof.
  intros h x k Hh. unfold dft. rewrite csum_even_odd by lia.
  assert (P : IZR h <> 0) by (apply not_0_IZR; lia).
  f_equal.
  - apply csum_ext. intros j Hj. f_equal. f_equal. rewrite !mult_IZR. field. exact P.
  - rewrite <- csum_mul. apply csum_ext. intros j Hj.
    replace (- (2 * PI * IZR ((2 * j + 1) * k) / IZR (2 * h)))
      with (- (PI * IZR k / IZR h) + - (2 * PI * IZR (j * k) / IZR h)).
    + rewrite cis_add. ring.
    + rewrite !mult_IZR, plus_IZR, mult_IZR. field. exact P.
Qed.

Lemma dft_shift : forall h x k, (0 < h)%Z -> dft h x (k + h) = dft h x k.
Proof.
  intros h x k Hh. unfold dft. apply csum_ext. intros j Hj. f_equal.
  assert (P : IZR h <> 0) by (apply not_0_IZR; lia).
  replace (- (2 * PI * IZR (j * (k + h)) / IZR h))
    with (- (2 * PI * IZR (j * k) / IZR h) + 2 * PI * IZR (- j)).
  - rewrite cis_add, cis_2PI. ring.
  - rewrite !mult_IZR, plus_IZR, opp_IZR. field. exact P.
Qed.

Lemma dft_even_odd_high : forall h x k, (0 < h)%Z ->
  dft (2 * h) x (k + h) =
  csub (dft h (fun j => x (2 * j)%Z) k)
       (cmul (cis (- (PI * IZR k / IZR h))) (dft h (fun j => x (2 * j + 1)%Z) k)).
Proof.
  intros h x k Hh. rewrite dft_even_odd by exact Hh. rewrite !dft_shift by exact Hh.
  assert (P : IZR h <> 0) by (apply not_0_IZR; lia).
  replace (- (PI * IZR (k + h) / IZR h)) with (- (PI * IZR k / IZR h) + PI + 2 * PI * IZR (-1))
    by (rewrite plus_IZR; field; exact P).
  rewrite !cis_add, cis_2PI, cis_PI. ring.
Qed.

Lemma dft_mod : forall h x k, cmod (dft h x k) <= zsum (fun j => cmod (x j)) 0 h.
Proof.
  intros h x k. unfold dft. eapply Rle_trans; [apply cmod_csum|].
  right. apply zsum_ext. intros i Hi. rewrite cmod_mul, cmod_cis. lra.
Qed.

Lemma twiddle_close : forall pi k h, (0 <= k < h)%Z ->
  cmod (csub (twiddle pi k h) (cis (- (PI * IZR k / IZR h)))) <= Rabs (pi - PI).
Proof.
  intros pi k h Hk. unfold twiddle. eapply Rle_trans; [apply cmod_cis_sub|].
  assert (P : 0 < IZR h) by (apply IZR_lt; lia).
  replace (- pi * 2 * IZR k / IZR (h * 2) - - (PI * IZR k / IZR h))
    with (- (pi - PI) * (IZR k / IZR h)) by (rewrite mult_IZR; field; lra).
  rewrite Rabs_mult, Rabs_Ropp.
  assert (0 <= IZR k / IZR h <= 1).
  { split; [apply Rdiv_nonneg; [apply IZR_nonneg; lia|exact P]|].
    apply Rdiv_le_1; [exact P|]. apply IZR_le. lia. }
  rewrite (Rabs_pos_eq (IZR k / IZR h)) by lra.
  assert (0 <= Rabs (pi - PI)) by apply Rabs_pos. nra.
Qed.

(** ** All stages *)

(** The elements of the input that end up in block [q] after [s] stages. *)
Definition sub_seq (M s : nat) (a : cvec) (q : Z) : cvec :=
  fun j => a (brv (M - s) q + j * p2 (M - s))%Z.

Definition stage_inv (pi : R) (M s : nat) (a b : cvec) : Prop :=
  forall q k, (0 <= q < p2 (M - s))%Z -> (0 <= k < p2 s)%Z ->
    cmod (csub (b (q * p2 s + k)%Z) (dft (p2 s) (sub_seq M s a q) k)) <=
    INR s * Rabs (pi - PI) * zsum (fun j => cmod (sub_seq M s a q j)) 0 (p2 s).

Lemma stage_inv_0 : forall pi M a b, (forall i, (0 <= i < p2 M)%Z -> b i = a (brv M i)) ->
  stage_inv pi M 0 a b.
Proof.
  intros pi M a b H q k Hq Hk. rewrite Nat.sub_0_r in *. rewrite p2_0 in *.
  replace k with 0%Z by lia. replace (q * 1 + 0)%Z with q by lia. rewrite H by exact Hq.
  replace (csub _ _) with c0.
  - rewrite cmod_0. cbn [INR]. lra.
  - unfold dft. replace 1%Z with (0 + 1)%Z at 1 by reflexivity. rewrite csum_last, csum_empty by lia.
    unfold sub_seq. rewrite Nat.sub_0_r. replace (0 * p2 M)%Z with 0%Z by lia. rewrite Z.add_0_r.
    replace (- (2 * PI * IZR (0 * 0) / 1)) with 0 by (rewrite mult_IZR; field).
    rewrite cis_0. ring.
Qed.

Lemma sub_seq_even : forall M s a q j, (s < M)%nat ->
  sub_seq M (S s) a q (2 * j)%Z = sub_seq M s a (2 * q)%Z j.
Proof.
  intros M s a q j H. unfold sub_seq. replace (M - s)%nat with (S (M - S s)) by lia.
  rewrite brv_even, p2_S. f_equal. ring.
Qed.

Lemma sub_seq_odd : forall M s a q j, (s < M)%nat ->
  sub_seq M (S s) a q (2 * j + 1)%Z = sub_seq M s a (2 * q + 1)%Z j.
Proof.
  intros M s a q j H. unfold sub_seq. replace (M - s)%nat with (S (M - S s)) by lia.
  rewrite brv_odd, p2_S. f_equal. ring.
Qed.

Lemma dft_ext : forall N x y k, (forall j, (0 <= j < N)%Z -> x j = y j) -> dft N x k = dft N y k.
Proof. intros N x y k H. unfold dft. apply csum_ext. intros j Hj. now rewrite H. Qed.

Lemma combine_bound : forall (W V e0 e1 d0 d1 : cplx) (sg : cplx -> cplx -> cplx) S0 S1 c d,
  (sg = cadd \/ sg = csub) -> cmod W = 1 -> cmod (csub W V) <= d -> cmod d1 <= S1 -> 0 <= S0 -> 0 <= S1 ->
  0 <= d -> 0 <= c ->
  cmod (csub e0 d0) <= c * d * S0 -> cmod (csub e1 d1) <= c * d * S1 ->
  cmod (csub (sg e0 (cmul W e1)) (sg d0 (cmul V d1))) <= (c + 1) * d * (S0 + S1).
Proof.
  intros W V e0 e1 d0 d1 sg S0 S1 c d Hsg HW HV Hd1 P0 P1 Pd Pc H0 H1.
  assert (E : exists u, cmod u = cmod (cmul W (csub e1 d1)) /\
              exists v, cmod v = cmod (cmul (csub W V) d1) /\
              csub (sg e0 (cmul W e1)) (sg d0 (cmul V d1)) = cadd (csub e0 d0) (cadd u v)).
  { destruct Hsg as [->| ->].
    - exists (cmul W (csub e1 d1)). split; [reflexivity|]. exists (cmul (csub W V) d1).
      split; [reflexivity|]. ring.
    - exists (copp (cmul W (csub e1 d1))). split; [apply cmod_opp|]. exists (copp (cmul (csub W V) d1)).
      split; [apply cmod_opp|]. ring. }
  destruct E as (u & Hu & v & Hv & E). rewrite E.
  assert (T1 := cmod_triangle (csub e0 d0) (cadd u v)). assert (T2 := cmod_triangle u v).
  rewrite cmod_mul in Hu, Hv. rewrite HW in Hu.
  assert (cmod (csub W V) * cmod d1 <= d * S1).
  { apply Rmult_le_compat; auto using cmod_pos. }
  assert (0 <= d * S0) by (apply Rmult_le_pos; assumption).
  nra.
Qed.

Lemma stage_inv_step : forall pi M s len a b l, (s < M)%nat -> (p2 M <= len)%Z ->
  NoDup l -> (forall k m, In (k, m) l <-> In (k, m) (stage_list (p2 M) (p2 s))) ->
  stage_inv pi M s a b ->
  exists b', fold_left (butterfly pi len (p2 s)) l (Ok b) = Ok b' /\ stage_inv pi M (S s) a b' /\
    (forall i, ~ (0 <= i < p2 M)%Z -> b' i = b i).
Proof.
  intros pi M s len a b l Hs Hlen Hnd Hl Hinv.
  assert (Ph := p2_pos s). assert (PM := p2_pos M).
  assert (EM : p2 M = (p2 (M - S s) * (2 * p2 s))%Z).
  { rewrite <- p2_S, <- p2_add. f_equal. lia. }
  assert (Hmem : forall k m, In (k, m) l <-> (0 <= m < p2 M /\ m mod (2 * p2 s) = k /\ k < p2 s)%Z).
  { intros k m. rewrite Hl. apply in_stage_list; lia. }
  assert (Hfit : forall km, In km l -> fits len (p2 s) km).
  { intros [k m] H. apply Hmem in H. destruct H as (H1 & H2 & H3). unfold fits; cbn [fst snd].
    repeat split; try lia.
    (* m + h < 2^M because m lies in the lower half of its block *)
    pose proof (Z.div_mod m (2 * p2 s) ltac:(lia)).
    assert (m / (2 * p2 s) < p2 (M - S s))%Z by (apply Z.div_lt_upper_bound; lia).
    nia. }
  destruct (stage_fold pi len (p2 s) Ph l b Hnd Hfit) as (b' & Hb & Hb1 & Hb2).
  exists b'. split; [exact Hb|]. split.
  - intros q k Hq Hk. rewrite p2_S in *.
    assert (Q : forall k, (0 <= k < p2 s)%Z -> In (k, q * (2 * p2 s) + k)%Z l).
    { intros k' Hk'. apply Hmem. repeat split; try nia.
      rewrite Z.add_comm, Z.mod_add by lia. apply Z.mod_small. lia. }
    set (k0 := (if k <? p2 s then k else k - p2 s)%Z).
    assert (Hk0 : (0 <= k0 < p2 s)%Z) by (unfold k0; destruct (Z.ltb_spec k (p2 s)); lia).
    assert (Hk0e : ((k < p2 s -> k0 = k) /\ (p2 s <= k -> k = k0 + p2 s))%Z)
      by (unfold k0; destruct (Z.ltb_spec k (p2 s)); lia).
    clearbody k0.
    destruct (Hb1 _ _ (Q k0 Hk0)) as [B1 B2].
    assert (HM : (M - s = S (M - S s))%nat) by lia.
    assert (Hq0 : (0 <= 2 * q < p2 (M - s))%Z) by (rewrite HM, p2_S; lia).
    assert (Hq1 : (0 <= 2 * q + 1 < p2 (M - s))%Z) by (rewrite HM, p2_S; lia).
    assert (I0 := Hinv (2 * q)%Z k0 Hq0 Hk0). assert (I1 := Hinv (2 * q + 1)%Z k0 Hq1 Hk0).
    replace (2 * q * p2 s + k0)%Z with (q * (2 * p2 s) + k0)%Z in I0 by ring.
    replace ((2 * q + 1) * p2 s + k0)%Z with (q * (2 * p2 s) + k0 + p2 s)%Z in I1 by ring.
    rewrite zsum_even_odd by lia.
    rewrite (zsum_ext (fun j => cmod (sub_seq M (S s) a q (2 * j)%Z)) (fun j => cmod (sub_seq M s a (2 * q)%Z j)))
      by (intros j Hj; now rewrite sub_seq_even).
    rewrite (zsum_ext (fun j => cmod (sub_seq M (S s) a q (2 * j + 1)%Z)) (fun j => cmod (sub_seq M s a (2 * q + 1)%Z j)))
      by (intros j Hj; now rewrite sub_seq_odd).
    assert (D0 : dft (p2 s) (fun j => sub_seq M (S s) a q (2 * j)%Z) k0 = dft (p2 s) (sub_seq M s a (2 * q)%Z) k0)
      by (apply dft_ext; intros j Hj; now apply sub_seq_even).
    assert (D1 : dft (p2 s) (fun j => sub_seq M (S s) a q (2 * j + 1)%Z) k0 = dft (p2 s) (sub_seq M s a (2 * q + 1)%Z) k0)
      by (apply dft_ext; intros j Hj; now apply sub_seq_odd).
    assert (Tw := twiddle_close pi k0 (p2 s) Hk0).
    assert (TM : cmod (twiddle pi k0 (p2 s)) = 1) by apply cmod_cis.
    assert (Dm := dft_mod (p2 s) (sub_seq M s a (2 * q + 1)%Z) k0).
    rewrite S_INR.
    assert (Pz : forall f, 0 <= zsum (fun j => cmod (f j)) 0 (p2 s)).
    { intro f. apply zsum_nonneg. intros i Hi. apply cmod_pos. }
    destruct (Z.ltb_spec k (p2 s)) as [L|L].
    + destruct Hk0e as [Ek _]. specialize (Ek L). subst k0. rewrite B1.
      rewrite dft_even_odd by exact Ph. rewrite D0, D1.
      apply (combine_bound _ _ _ _ _ _ cadd); auto using Rabs_pos, pos_INR.
    + destruct Hk0e as [_ Ek]. specialize (Ek L). rewrite Ek. rewrite Z.add_assoc, B2.
      rewrite dft_even_odd_high by exact Ph. rewrite D0, D1.
      apply (combine_bound _ _ _ _ _ _ csub); auto using Rabs_pos, pos_INR.
  - intros i Hi. apply Hb2. intros k m H.
    assert (F := Hfit _ H). apply Hmem in H. destruct H as (H1 & H2 & H3).
    pose proof (Z.div_mod m (2 * p2 s) ltac:(lia)).
    assert (m / (2 * p2 s) < p2 (M - S s))%Z by (apply Z.div_lt_upper_bound; lia).
    split; nia.
Qed.

Lemma stages_all : forall pi M len a, (p2 M <= len)%Z -> forall t s b fuel, (s + t = M)%nat -> (t < fuel)%nat ->
  stage_inv pi M s a b ->
  exists b', stages fuel pi len (p2 M) (p2 t - 1) (p2 s) (Ok b) = Ok b' /\ stage_inv pi M M a b' /\
    (forall i, ~ (0 <= i < p2 M)%Z -> b' i = b i).
Proof.
  intros pi M len a Hlen t. induction t as [|t IH]; intros s b fuel Hst Hf Hinv;
    (destruct fuel as [|f]; [lia|]); cbn [stages].
  - rewrite p2_0. cbn. exists b. replace M with s at 2 by lia. auto.
  - assert (Pt := p2_pos t). destruct (Z.ltb_spec 0 (p2 (S t) - 1)) as [L|L].
    2:{ rewrite p2_S in L. lia. }
    unfold stage.
    destruct (stage_inv_step pi M s len a b (stage_list (p2 M) (p2 s))) as (b1 & H1 & H2 & H3);
      [lia|exact Hlen|apply nodup_stage_list, p2_pos|tauto|exact Hinv|].
    rewrite H1. rewrite shiftr_1, p2_ones_half. rewrite Z.mul_comm, <- p2_S.
    destruct (IH (S s) b1 f ltac:(lia) ltac:(lia) H2) as (b2 & G1 & G2 & G3).
    exists b2. split; [exact G1|]. split; [exact G2|]. intros i Hi. rewrite G3, H3 by exact Hi. reflexivity.
Qed.

(** The transform of a power of two: no access outside the array, and the distance to the
    discrete Fourier sum is bounded by the distance of the constant PI to pi. *)
Theorem fft_error : forall pi M len a, (p2 M <= len)%Z ->
  exists b, fast_fourier_alg pi len a (p2 M) = Ok b /\
    (forall k, (0 <= k < p2 M)%Z ->
       cmod (csub (b k) (dft (p2 M) a k)) <=
       INR M * Rabs (pi - PI) * zsum (fun j => cmod (a j)) 0 (p2 M)) /\
    (forall i, ~ (0 <= i < p2 M)%Z -> b i = a i).
Proof.
  intros pi M len a Hlen. unfold fast_fourier_alg. rewrite log2_p2.
  destruct (reorder M len (zrange 0 (p2 M)) a Hlen (zrange_nodup _ _)) as (b & Hb & Hb1 & Hb2).
  { intro k. apply zrange_in. }
  rewrite Hb.
  destruct (stages_all pi M len a Hlen M 0 b (S M)) as (b' & H1 & H2 & H3);
    [lia|lia|now apply stage_inv_0|].
  rewrite p2_0 in H1. exists b'. split; [exact H1|]. split.
  - intros k Hk. specialize (H2 0%Z k). rewrite Nat.sub_diag, p2_0 in H2.
    specialize (H2 ltac:(lia) Hk). replace (0 * p2 M + k)%Z with k in H2 by lia.
    assert (E : forall j, sub_seq M M a 0 j = a j).
    { intro j. unfold sub_seq. rewrite Nat.sub_diag, p2_0. cbn [brv]. f_equal. lia. }
    rewrite (dft_ext _ _ a) in H2 by (intros; apply E).
    rewrite (zsum_ext _ (fun j => cmod (a j))) in H2 by (intros; now rewrite E). exact H2.
  - intros i Hi. now rewrite H3, Hb2.
Qed.

Lemma csub_zero : forall a b, csub a b = c0 -> a = b.
Proof. intros a b H. replace a with (cadd (csub a b) b) by ring. rewrite H. ring. Qed.

Theorem fft_exact : forall M len a, (p2 M <= len)%Z ->
  exists b, fast_fourier_alg PI len a (p2 M) = Ok b /\
    (forall k, (0 <= k < p2 M)%Z -> b k = dft (p2 M) a k) /\
    (forall i, ~ (0 <= i < p2 M)%Z -> b i = a i).
Proof.
  intros M len a Hlen. destruct (fft_error PI M len a Hlen) as (b & H1 & H2 & H3).
  exists b. split; [exact H1|]. split; [|exact H3]. intros k Hk.
  apply csub_zero, cmod_zero. assert (A := H2 k Hk). assert (B := cmod_pos (csub (b k) (dft (p2 M) a k))).
  replace (PI - PI) with 0 in A by ring. rewrite Rabs_R0 in A. nra.
Qed.
