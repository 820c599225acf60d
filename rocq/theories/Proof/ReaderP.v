(** Proofs about the analysis reader: C29, C52. *)
From Coq Require Import Reals Lra Lia ZArith List Bool Psatz.
From Flocq Require Import Core Relative.
From Verif.Lib Require Import RAux Outcome Grid Par.
From Verif.Model Require Import Geometry ChargeDeposit Bunch Dump Text Reader.
From Verif.Proof Require Import DumpP.
Import ListNotations.
Local Open Scope R_scope.

(** ** Text form *)

Lemma print6_rel : forall v, Rabs (print6 v - v) <= 5 / 1000000 * Rabs v.
Proof.
  intro v. unfold print6. assert (H := relative_error_N_FLX ten 6 ltac:(reflexivity) (fun z => negb (Z.even z)) v).
  replace (5 / 1000000) with (/ 2 * bpow ten (- (6) + 1)); [exact H|]. cbn. lra.
Qed.

Lemma parse64_rel : forall v, bpow radix2 (-1022) <= Rabs v -> Rabs (parse64 v - v) <= / 9007199254740992 * Rabs v.
Proof.
  intros v H. unfold parse64. assert (E := relative_error_N_FLT radix2 (-1074) 53 ltac:(reflexivity) (fun z => negb (Z.even z)) v H).
  replace (/ 9007199254740992) with (/ 2 * bpow radix2 (- (53) + 1)); [exact E|]. cbn. lra.
Qed.

Lemma text_value_0 : text_value 0 = 0.
Proof. unfold text_value, print6, parse64. rewrite !round_0; try reflexivity; typeclasses eauto. Qed.

Lemma text_value_rel : forall v, v = 0 \/ bpow radix2 (-1021) <= Rabs v -> Rabs (text_value v - v) <= 51 / 10000000 * Rabs v.
Proof.
  intros v [->|H].
  - rewrite text_value_0, Rminus_0_r, Rabs_R0. lra.
  - assert (P := print6_rel v). assert (B : Rabs v * (995 / 1000) <= Rabs (print6 v)).
    { assert (Rabs v - Rabs (print6 v) <= Rabs (v - print6 v)) by apply Rabs_triang_inv.
      rewrite Rabs_minus_sym in P. assert (0 <= Rabs v) by apply Rabs_pos. lra. }
    assert (B2 : Rabs (print6 v) <= Rabs v * (1 + 5 / 1000000)).
    { replace (print6 v) with (v + (print6 v - v)) by ring. assert (T := Rabs_triang v (print6 v - v)). lra. }
    assert (Q := parse64_rel (print6 v)). unfold text_value.
    assert (C : bpow radix2 (-1022) <= Rabs (print6 v)).
    { change (-1021)%Z with (1 + -1022)%Z in H. rewrite bpow_plus in H. assert (G := bpow_gt_0 radix2 (-1022)).
      change (bpow radix2 1) with 2 in H. lra. }
    specialize (Q C). replace (parse64 (print6 v) - v) with ((parse64 (print6 v) - print6 v) + (print6 v - v)) by ring.
    assert (T := Rabs_triang (parse64 (print6 v) - print6 v) (print6 v - v)). assert (0 <= Rabs v) by apply Rabs_pos. lra.
Qed.

(** integers of at most six digits survive *)
Lemma text_value_small_int : forall n, (Z.abs n < 1000000)%Z -> text_value (IZR n) = IZR n.
Proof.
  intros n H. unfold text_value.
  assert (E : print6 (IZR n) = IZR n).
  { unfold print6. apply round_generic; [apply valid_rnd_N|]. apply generic_format_FLX.
    exists (Float ten n 0); [unfold F2R; cbn; lra|exact H]. }
  rewrite E. unfold parse64. apply round_generic; [apply valid_rnd_N|]. apply generic_format_FLT.
  exists (Float radix2 n 0); [unfold F2R; cbn; lra| |cbn; lia]. cbn [Fnum]. apply Z.lt_trans with (1000000)%Z; [exact H|reflexivity].
Qed.

Lemma text_value_1234567 : text_value 1234567 = 1234570.
Proof.
  assert (E : print6 1234567 = 1234570).
  { unfold print6. assert (M : (mag ten 1234567 = 7 :> Z)%Z) by (apply mag_unique; rewrite Rabs_pos_eq by lra; cbn; lra).
    unfold round, scaled_mantissa, cexp. rewrite M. unfold FLX_exp. 
    replace (ZnearestE (1234567 * bpow ten (- (7 - 6)))) with 123457%Z.
    - unfold F2R. cbn [Fnum Fexp]. change (bpow ten (7 - 6)) with 10. lra.
    - symmetry. apply Znearest_imp. change (bpow ten (- (7 - 6))) with (/ 10).
      apply Rabs_def1; lra. }
  unfold text_value. rewrite E. unfold parse64. apply round_generic; [apply valid_rnd_N|]. apply generic_format_FLT.
  exists (Float radix2 1234570 0); [unfold F2R; cbn; lra|reflexivity|cbn; lia].
Qed.

(** ** Single frames *)
Local Open Scope nat_scope.

Lemma concat_length_const : forall {A} (l : list (list A)) w, Forall (fun x => length x = w) l -> length (concat l) = length l * w.
Proof. intros A l w H. induction H as [|x l Hx _ IH]; [reflexivity|]. cbn. rewrite app_length, IH, Hx. reflexivity. Qed.

Lemma concat_slice : forall {A} (l : list (list A)) w j, Forall (fun x => length x = w) l -> j < length l ->
  firstn w (skipn (j * w) (concat l)) = nth j l [].
Proof.
  intros A l w j H. revert j. induction H as [|x l Hx Hl IH]; intros j Hj; [cbn in Hj; lia|].
  destruct j as [|j].
  - cbn [Nat.mul skipn concat nth]. rewrite firstn_app, Hx, Nat.sub_diag. cbn [firstn]. rewrite app_nil_r. rewrite <- Hx. apply firstn_all.
  - cbn [concat nth]. rewrite skipn_app. replace (S j * w - length x) with (j * w) by (rewrite Hx; lia).
    rewrite (skipn_all2 x) by (rewrite Hx; nia). cbn [app]. apply IH. cbn in Hj. lia.
Qed.

Lemma rows_nth : forall m w v j d, j < m -> nth j (rows m w v) d = firstn w (skipn (j * w) v).
Proof.
  intros m w v j d H. unfold rows. rewrite (nth_indep _ d (firstn w (skipn (0 * w) v))) by (rewrite map_length, seq_length; exact H).
  rewrite (map_nth (fun j => firstn w (skipn (j * w) v))), seq_nth by exact H. reflexivity.
Qed.

Lemma rows_length : forall m w v, length (rows m w v) = m.
Proof. intros. unfold rows. now rewrite map_length, seq_length. Qed.

Lemma rows_concat : forall m w (l : list (list R)), Forall (fun x => length x = w) l -> length l = m -> rows m w (concat l) = l.
Proof.
  intros m w l H E. apply nth_ext with (d := []) (d' := []); [now rewrite rows_length|].
  intros j Hj. rewrite rows_length in Hj. rewrite rows_nth by exact Hj. apply concat_slice; [exact H|lia].
Qed.

Lemma reshape_concat : forall m w (l : list (list R)), Forall (fun x => length x = w) l -> length l = m -> reshape m w (concat l) = Some l.
Proof.
  intros m w l H E. unfold reshape. rewrite (concat_length_const l w H), E, Nat.eqb_refl. now rewrite rows_concat.
Qed.

(** the directory the simulation has filled with [n] frames *)
Definition sim_dir (fpf n : nat) (f : files) : dir :=
  let count := (n + fpf - 1) / fpf in
  Dir count (fun j => if j <? count then Some (map text_value (f (Z.of_nat j))) else None).

Lemma count_bounds : forall n fpf, 0 < fpf -> n <= (n + fpf - 1) / fpf * fpf /\ (n + fpf - 1) / fpf * fpf < n + fpf.
Proof.
  intros n fpf H. assert (D := Nat.div_mod (n + fpf - 1) fpf ltac:(lia)). assert (M := Nat.mod_upper_bound (n + fpf - 1) fpf ltac:(lia)).
  split; nia.
Qed.

Lemma complete_in_count : forall n fpf j, 0 < fpf -> j * fpf + fpf <= n -> j < (n + fpf - 1) / fpf.
Proof. intros n fpf j H L. assert (C := count_bounds n fpf H). nia. Qed.

Lemma div_complete : forall fpf, 0 < fpf -> forall n, n / fpf * fpf + n mod fpf = n /\ n mod fpf < fpf.
Proof. intros fpf H n. assert (D := Nat.div_mod n fpf ltac:(lia)). assert (M := Nat.mod_upper_bound n fpf ltac:(lia)). split; [nia|exact M]. Qed.

Section Files.
Variable fpf size : nat.
Variable frames : list (list R).
Variable p : probe.
Variable f : files.
Hypothesis Hfpf : 0 < fpf.
Hypothesis Hlen : Forall (fun x => length x = size) frames.
Hypothesis Hh : holds fpf (fun _ => []) frames p f.

Let N := length frames.
Let d := sim_dir fpf N f.

Lemma chunk_lengths : forall j, Forall (fun x => length x = size) (chunk fpf j frames).
Proof.
  intro j. apply Forall_forall. intros x Hx. rewrite Forall_forall in Hlen. apply Hlen. unfold chunk in Hx.
  rewrite <- (firstn_skipn (j * fpf) frames). apply in_or_app. right.
  rewrite <- (firstn_skipn fpf (skipn (j * fpf) frames)). apply in_or_app. now left.
Qed.

Lemma file_contents : forall j, f (Z.of_nat j) = concat (chunk fpf j frames).
Proof. intro j. destruct Hh as [_ H]. exact (H j). Qed.

Lemma read_complete : forall j, j * fpf + fpf <= N ->
  get_all_in_ds d fpf size j = Some (map (map text_value) (chunk fpf j frames)).
Proof.
  intros j Hj. unfold get_all_in_ds. assert (L := complete_in_count N fpf j Hfpf Hj).
  replace (validate_ds d j) with true by (symmetry; apply Nat.leb_le; cbn; lia).
  cbn [d sim_dir d_file]. unfold d, sim_dir. cbn [d_file]. apply Nat.ltb_lt in L. rewrite L. rewrite file_contents.
  rewrite concat_map. rewrite firstn_all2.
  - apply reshape_concat.
    + apply Forall_forall. intros x Hx. apply in_map_iff in Hx. destruct Hx as (y & <- & Hy). rewrite map_length.
      assert (C := chunk_lengths j). rewrite Forall_forall in C. now apply C.
    + rewrite map_length. apply chunk_length. exact Hj.
  - rewrite <- concat_map, map_length, (concat_length_const _ size (chunk_lengths j)), chunk_length by exact Hj. lia.
Qed.

(** a file that is not full cannot be read *)
Lemma read_incomplete : forall j, 0 < size -> N < j * fpf + fpf -> get_all_in_ds d fpf size j = None.
Proof.
  intros j Hs Hj. unfold get_all_in_ds. destruct (validate_ds d j); [|reflexivity]. unfold d, sim_dir. cbn [d_file].
  destruct (j <? (N + fpf - 1) / fpf); [|reflexivity]. rewrite file_contents. unfold reshape.
  replace (Nat.eqb _ _) with false; [reflexivity|]. symmetry. apply Nat.eqb_neq.
  rewrite firstn_length, map_length, (concat_length_const _ size (chunk_lengths j)).
  assert (length (chunk fpf j frames) < fpf); [|nia]. unfold chunk. rewrite firstn_length, skipn_length. fold N. lia.
Qed.

Lemma nth_error_map_chunk : forall n, n / fpf * fpf + fpf <= N ->
  nth_error (map (map text_value) (chunk fpf (n / fpf) frames)) (n mod fpf) = Some (map text_value (nth n frames [])).
Proof.
  intros n Hn. destruct (div_complete fpf Hfpf n) as [D M].
  rewrite (nth_error_nth' _ []) by (rewrite map_length, chunk_length; assumption).
  f_equal. change ([] : list R) with (map text_value []) at 1. rewrite map_nth. rewrite chunk_nth by exact M. now rewrite D.
Qed.

Lemma get_frame_complete : forall h w n, size = h * w -> n / fpf * fpf + fpf <= N ->
  get_frame d fpf h w n = Some (rows h w (map text_value (nth n frames []))).
Proof.
  intros h w n Hs Hn. unfold get_frame. destruct (div_complete fpf Hfpf n) as [D M]. assert (L := complete_in_count N fpf _ Hfpf Hn).
  replace (d_count d * fpf <=? n) with false.
  2:{ symmetry. apply Nat.leb_gt. unfold d, sim_dir. cbn [d_count]. nia. }
  unfold get_ds_frame_by_frame. rewrite <- Hs, read_complete by exact Hn. cbn [obind]. rewrite nth_error_map_chunk by exact Hn. cbn [obind].
  unfold reshape. rewrite map_length.
  replace (length (nth n frames [])) with (h * w); [now rewrite Nat.eqb_refl|].
  rewrite <- Hs. rewrite Forall_forall in Hlen. symmetry. apply Hlen. apply nth_In. fold N. lia.
Qed.

Lemma get_frame_incomplete : forall h w n, size = h * w -> 0 < size -> N < n / fpf * fpf + fpf -> get_frame d fpf h w n = None.
Proof.
  intros h w n Hs H0 Hn. unfold get_frame. destruct (d_count d * fpf <=? n); [reflexivity|]. unfold get_ds_frame_by_frame.
  rewrite <- Hs, read_incomplete by assumption. reflexivity.
Qed.

Lemma get_col_complete : forall n, n / fpf * fpf + fpf <= N -> get_col d fpf size n = Some (map text_value (nth n frames [])).
Proof.
  intros n Hn. unfold get_col, get_ds_frame_by_frame. rewrite read_complete by exact Hn. cbn [obind]. now apply nth_error_map_chunk.
Qed.

End Files.

(** dots: frames of one value; the file need not be complete, but the position must be off
    both axes *)
Lemma get_dot_read : forall fpf frames p f s0 s1 n, 0 < fpf -> Forall (fun x : list R => length x = 1) frames ->
  holds fpf (fun _ => []) frames p f -> 0 < s0 -> 0 < s1 -> n < length frames ->
  get_dot (sim_dir fpf (length frames) f) fpf s0 s1 n = Some (text_value (nth 0 (nth n frames []) 0%R)).
Proof.
  intros fpf frames p f s0 s1 n Hf Hlen Hh H0 H1 Hn. unfold get_dot, get_ds_frame_by_frame.
  destruct (div_complete fpf Hf n) as [D M]. assert (C := count_bounds (length frames) fpf Hf).
  assert (L : n / fpf < (length frames + fpf - 1) / fpf) by nia.
  unfold validate_ds, sim_dir. cbn [d_count d_file]. replace (n / fpf <=? _) with true by (symmetry; apply Nat.leb_le; lia).
  apply Nat.ltb_lt in L. rewrite L. cbn [obind].
  rewrite (file_contents fpf frames p f Hh). rewrite firstn_all2.
  2:{ rewrite map_length, (concat_length_const _ 1 (chunk_lengths fpf 1 frames Hlen _)).
      assert (H2 : length (chunk fpf (n / fpf) frames) <= fpf) by (unfold chunk; rewrite firstn_length; lia).
      assert (S1 : 1 <= s0 * s1) by nia. revert H2 S1. generalize (length (chunk fpf (n / fpf) frames)), (s0 * s1). intros a b ? ?. nia. }
  assert (K : n mod fpf < length (chunk fpf (n / fpf) frames)).
  { unfold chunk. rewrite firstn_length, skipn_length. lia. }
  rewrite (nth_error_nth' _ (text_value 0)) by (rewrite map_length, (concat_length_const _ 1 (chunk_lengths fpf 1 frames Hlen _)); lia).
  rewrite map_nth. f_equal. f_equal.
  assert (S := concat_slice (chunk fpf (n / fpf) frames) 1 (n mod fpf) (chunk_lengths fpf 1 frames Hlen _) K).
  rewrite chunk_nth in S by exact M. rewrite D in S. rewrite Nat.mul_1_r in S. rewrite <- S.
  rewrite <- (firstn_skipn (n mod fpf) (concat (chunk fpf (n / fpf) frames))) at 1.
  rewrite app_nth2 by (rewrite firstn_length; lia). rewrite firstn_length, (concat_length_const _ 1 (chunk_lengths fpf 1 frames Hlen _)).
  replace (n mod fpf - Nat.min (n mod fpf) _) with 0 by lia.
  destruct (skipn (n mod fpf) (concat (chunk fpf (n / fpf) frames))); reflexivity.
Qed.

Lemma get_dot_axis : forall d fpf s0 s1 n, s0 = 0 \/ s1 = 0 -> get_dot d fpf s0 s1 n = None.
Proof.
  intros d fpf s0 s1 n H. unfold get_dot, get_ds_frame_by_frame. destruct (validate_ds d (n / fpf)); [|reflexivity].
  destruct (d_file d (n / fpf)); [|reflexivity]. cbn [obind]. replace (s0 * s1 * fpf) with 0 by nia. cbn [firstn].
  destruct (n mod fpf); reflexivity.
Qed.

(** ** Ranges *)

Lemma range_arith : forall fd td fi fpds fr ti, fi < fpds -> fd < td -> fr = (fpds - fi) + (td - fd - 1) * fpds + ti ->
  fr - ti + fi + fd * fpds = td * fpds.
Proof.
  intros fd td fi fpds fr ti H1 H2 ->. remember (td - fd - 1) as q eqn:Q. assert (td = fd + 1 + q) by lia. subst td.
  rewrite Nat.add_sub. rewrite !Nat.mul_add_distr_r. lia.
Qed.

Section Range.
Context {A : Type}.

Lemma nth_repeat_some : forall (v : option A) n j d, j < n -> nth j (repeat v n) d = v.
Proof. intros v n. induction n as [|n IH]; intros j d H; [lia|]. destruct j; cbn; [reflexivity|]. apply IH. lia. Qed.

Lemma assign_ok : forall (x : list (option A)) a b vals, a <= length x ->
  length vals = Nat.max a (Nat.min b (length x)) - a ->
  exists y, assign x a b vals = Some y /\ length y = length x /\
    forall j, nth j y None = if (a <=? j) && (j <? a + length vals) then nth_error vals (j - a) else nth j x None.
Proof.
  intros x a b vals Ha Hv. unfold assign. replace (Nat.min a (length x)) with a by lia. rewrite Hv, Nat.eqb_refl. rewrite <- Hv.
  set (b' := Nat.max a (Nat.min b (length x))) in *. eexists. split; [reflexivity|]. split.
  - rewrite !app_length, firstn_length, map_length, skipn_length. lia.
  - intro j. destruct (Nat.leb_spec a j) as [L|L]; cbn [andb].
    + rewrite app_nth2 by (rewrite firstn_length; lia). rewrite firstn_length. replace (Nat.min a (length x)) with a by lia.
      destruct (Nat.ltb_spec j (a + length vals)) as [G|G].
      * rewrite app_nth1 by (rewrite map_length; lia). destruct (nth_error vals (j - a)) as [v|] eqn:E.
        -- rewrite (nth_indep _ None (Some v)) by (rewrite map_length; lia). rewrite (map_nth Some). f_equal.
           apply nth_error_nth. exact E.
        -- apply nth_error_None in E. lia.
      * rewrite app_nth2 by (rewrite map_length; lia). rewrite map_length.
        rewrite <- (firstn_skipn b' x) at 2. rewrite app_nth2 by (rewrite firstn_length; lia). rewrite firstn_length. f_equal. lia.
    + rewrite app_nth1 by (rewrite firstn_length; lia). rewrite <- (firstn_skipn a x) at 2. rewrite app_nth1 by (rewrite firstn_length; lia). reflexivity.
Qed.

Lemma slice_seq : forall (F : nat -> A) s n a b, a <= b -> b <= n ->
  slice (map F (seq s n)) a b = map F (seq (s + a) (b - a)).
Proof.
  intros F s n a b Hab Hb. unfold slice. rewrite map_length, seq_length. replace (Nat.min b n) with b by lia.
  rewrite skipn_map, firstn_map. f_equal.
  replace n with (a + (n - a)) by lia. rewrite seq_app. rewrite skipn_app, seq_length, Nat.sub_diag.
  rewrite skipn_all2 by (rewrite seq_length; lia). cbn [app skipn].
  replace (n - a) with ((b - a) + (n - b)) by lia. rewrite seq_app, firstn_app, seq_length, Nat.sub_diag.
  rewrite firstn_all2 by (rewrite seq_length; lia). cbn [firstn]. now rewrite app_nil_r.
Qed.

Lemma nth_error_map_seq : forall (F : nat -> A) s n j, j < n -> nth_error (map F (seq s n)) j = Some (F (s + j)).
Proof.
  intros F s n j H. rewrite (nth_error_nth' _ (F 0)) by (rewrite map_length, seq_length; exact H).
  rewrite map_nth, seq_nth by exact H. reflexivity.
Qed.

Lemma empty_nth : forall n j, nth j (@empty A n) None = None.
Proof. intros n j. unfold empty. destruct (le_lt_dec n j); [apply nth_overflow; rewrite repeat_length; lia|now apply nth_repeat_some]. Qed.

Variable F : nat -> A.
Variable read : nat -> option (list A).
Variable fpds : nat.
Hypothesis Hf : 0 < fpds.

Definition full (ds : nat) : Prop := read ds = Some (map F (seq (ds * fpds) fpds)).

Lemma middles_ok : forall from_ds from_in m s x, from_in < fpds -> from_ds < s ->
  (forall i, s <= i < s + m -> full i) ->
  (fpds - from_in) + (s + m - from_ds - 1) * fpds <= length x ->
  exists y, middles read fpds (fpds - from_in) from_ds (seq s m) x = Some y /\ length y = length x /\
    forall j, nth j y None =
      if ((fpds - from_in) + (s - from_ds - 1) * fpds <=? j) && (j <? (fpds - from_in) + (s + m - from_ds - 1) * fpds)
      then Some (F (from_ds * fpds + from_in + j)) else nth j x None.
Proof.
  intros from_ds from_in. induction m as [|m IH]; intros s x Hin Hs Hfull Hlen.
  - exists x. split; [reflexivity|]. split; [reflexivity|]. intro j.
    destruct (Nat.leb_spec ((fpds - from_in) + (s - from_ds - 1) * fpds) j); destruct (Nat.ltb_spec j ((fpds - from_in) + (s + 0 - from_ds - 1) * fpds)); try reflexivity.
    rewrite Nat.add_0_r in *. lia.
  - cbn [seq middles]. unfold middle. rewrite (Hfull s ltac:(lia)). cbn [obind]. rewrite slice_seq by lia. rewrite Nat.add_0_r, Nat.sub_0_r.
    set (sh := fpds - from_in) in *. set (q := s - from_ds - 1) in *.
    replace (s - from_ds) with (q + 1) by (unfold q; lia).
    assert (B : sh + q * fpds + fpds <= length x).
    { replace (s + S m - from_ds - 1) with (q + 1 + m) in Hlen by (unfold q; lia). nia. }
    destruct (assign_ok x (sh + q * fpds) (sh + (q + 1) * fpds) (map F (seq (s * fpds) fpds))) as (y & E & L & P).
    + lia.
    + rewrite map_length, seq_length. replace (sh + (q + 1) * fpds) with (sh + q * fpds + fpds) by lia. lia.
    + rewrite E. cbn [obind]. destruct (IH (S s) y Hin ltac:(lia)) as (z & Ez & Lz & Pz).
      * intros i Hi. apply Hfull. lia.
      * fold sh. rewrite L. replace (S s + m - from_ds - 1) with (s + S m - from_ds - 1) by lia. exact Hlen.
      * exists z. split; [exact Ez|]. split; [now rewrite Lz|]. intro j. rewrite Pz. fold sh. rewrite P. rewrite map_length, seq_length.
        replace (S s - from_ds - 1) with (q + 1) by (unfold q; lia).
        replace (S s + m - from_ds - 1) with (s + S m - from_ds - 1) by lia.
        destruct (Nat.leb_spec (sh + (q + 1) * fpds) j) as [G|G]; cbn [andb].
        -- replace (sh + q * fpds <=? j) with true by (symmetry; apply Nat.leb_le; nia). cbn [andb].
           destruct (j <? sh + (s + S m - from_ds - 1) * fpds); [reflexivity|].
           replace (j <? sh + q * fpds + fpds) with false by (symmetry; apply Nat.ltb_ge; nia). reflexivity.
        -- destruct (Nat.leb_spec (sh + q * fpds) j) as [G2|G2]; cbn [andb]; [|reflexivity].
           replace (j <? sh + q * fpds + fpds) with true by (symmetry; apply Nat.ltb_lt; nia).
           replace (j <? sh + (s + S m - from_ds - 1) * fpds) with true.
           2:{ symmetry. apply Nat.ltb_lt. replace (s + S m - from_ds - 1) with (q + 1 + m) by (unfold q; lia). nia. }
           rewrite nth_error_map_seq by nia. f_equal. f_equal. unfold sh in *. replace s with (from_ds + 1 + q) by (unfold q; lia). nia.
Qed.

Definition wanted (from fr : nat) : list (option A) := map (fun j => Some (F (from + j))) (seq 0 fr).

Lemma wanted_nth : forall from fr j, nth j (wanted from fr) None = if j <? fr then Some (F (from + j)) else None.
Proof.
  intros from fr j. unfold wanted. destruct (Nat.ltb_spec j fr) as [L|L].
  - rewrite (nth_indep _ None (Some (F (from + 0)))) by (rewrite map_length, seq_length; exact L).
    rewrite (map_nth (fun j => Some (F (from + j)))), seq_nth by exact L. reflexivity.
  - apply nth_overflow. rewrite map_length, seq_length. exact L.
Qed.

(** columns, rows, dots: right if the range touches two files and all of them are there *)
Lemma line_range_ok : forall from to, from / fpds < to / fpds ->
  (forall ds, from / fpds <= ds <= to / fpds -> full ds) ->
  get_line_range read fpds from to = Some (wanted from (to - from)).
Proof.
  intros from to Hds Hfull. unfold get_line_range, get_ds_frame_by_frame.
  assert (D1 := Nat.div_mod from fpds ltac:(lia)). assert (M1 := Nat.mod_upper_bound from fpds ltac:(lia)).
  assert (D2 := Nat.div_mod to fpds ltac:(lia)). assert (M2 := Nat.mod_upper_bound to fpds ltac:(lia)).
  set (fd := from / fpds) in *. set (fi := from mod fpds) in *. set (td := to / fpds) in *. set (ti := to mod fpds) in *.
  assert (FR : to - from = (fpds - fi) + (td - fd - 1) * fpds + ti) by nia.
  replace (to <? from) with false by (symmetry; apply Nat.ltb_ge; nia).
  replace (to =? 0) with false by (symmetry; apply Nat.eqb_neq; nia). cbn [orb].
  rewrite (Hfull fd) by lia. cbn [obind]. rewrite slice_seq by lia.
  set (fr := to - from) in *.
  assert (GE : fpds - fi <= fr) by (rewrite FR; apply Nat.le_trans with (fpds - fi + (td - fd - 1) * fpds); apply Nat.le_add_r).
  assert (GE2 : fpds - fi <= fr - ti /\ ti <= fr).
  { rewrite FR. split; [|apply Nat.le_add_l]. rewrite Nat.add_sub. apply Nat.le_add_r. }
  destruct (assign_ok (empty fr) 0 (fpds - fi) (map F (seq (fd * fpds + fi) (fpds - fi)))) as (y & E & L & P).
  { lia. }
  { unfold empty. rewrite repeat_length, map_length, seq_length. lia. }
  unfold empty in L; rewrite repeat_length in L.
  rewrite E. cbn [obind]. rewrite (Hfull td) by lia. cbn [obind]. rewrite slice_seq by lia. rewrite Nat.add_0_r, Nat.sub_0_r.
  destruct (assign_ok y (fr - ti) fr (map F (seq (td * fpds) ti))) as (z & Ez & Lz & Pz).
  { lia. }
  { rewrite map_length, seq_length. lia. }
  rewrite Ez. cbn [obind].
  destruct (middles_ok fd fi (td - (fd + 1)) (fd + 1) z M1 ltac:(lia)) as (w & Ew & Lw & Pw).
  { intros i Hi. apply Hfull. lia. }
  { rewrite Lz, L. replace (fd + 1 + (td - (fd + 1)) - fd - 1) with (td - fd - 1) by lia. lia. }
  rewrite Ew. f_equal. apply nth_ext with (d := None) (d' := None).
  - rewrite Lw, Lz, L. unfold wanted. now rewrite map_length, seq_length.
  - intros j Hj. rewrite Lw, Lz, L in Hj. rewrite wanted_nth. replace (j <? fr) with true by (symmetry; now apply Nat.ltb_lt).
    rewrite Pw, Pz, P, empty_nth. rewrite !map_length, !seq_length.
    replace (fd + 1 + (td - (fd + 1)) - fd - 1) with (td - fd - 1) by lia. replace (fd + 1 - fd - 1) with 0 by lia.
    replace from with (fd * fpds + fi) by nia.
    destruct (Nat.leb_spec (fpds - fi + 0 * fpds) j) as [G|G]; cbn [andb].
    + destruct (Nat.ltb_spec j (fpds - fi + (td - fd - 1) * fpds)) as [G2|G2]; [reflexivity|].
      replace (fr - ti <=? j) with true by (symmetry; apply Nat.leb_le; lia). replace (j <? fr - ti + ti) with true by (symmetry; apply Nat.ltb_lt; lia).
      cbn [andb]. rewrite nth_error_map_seq by lia. f_equal. f_equal.
      assert (AR := range_arith fd td fi fpds fr ti M1 Hds FR). lia.
    + replace (fr - ti <=? j) with false by (symmetry; apply Nat.leb_gt; lia). cbn [andb]. cbn [Nat.leb].
      replace (j <? 0 + (fpds - fi)) with true by (symmetry; apply Nat.ltb_lt; lia).
      cbn [andb]. rewrite nth_error_map_seq by lia. f_equal. f_equal. lia.
Qed.

(** frames: right if the range ends on a file border and is at least one file long ... *)
Lemma frame_range_border : forall files from to, to mod fpds = 0 -> fpds <= to - from -> to < files * fpds ->
  (forall ds, from / fpds <= ds < to / fpds -> full ds) ->
  get_frame_range read fpds files from to = Some (wanted from (to - from)).
Proof.
  intros files from to Hti Hlong Hto Hfull. unfold get_frame_range, get_ds_frame_by_frame.
  assert (D1 := Nat.div_mod from fpds ltac:(lia)). assert (M1 := Nat.mod_upper_bound from fpds ltac:(lia)).
  assert (D2 := Nat.div_mod to fpds ltac:(lia)).
  rewrite Hti in *. set (fd := from / fpds) in *. set (fi := from mod fpds) in *. set (td := to / fpds) in *.
  assert (TD : fd < td) by nia.
  assert (FR : to - from = (fpds - fi) + (td - fd - 1) * fpds) by nia.
  replace (to <? from) with false by (symmetry; apply Nat.ltb_ge; nia).
  replace (files * fpds <=? to) with false by (symmetry; apply Nat.leb_gt; lia).
  replace (to =? 0) with false by (symmetry; apply Nat.eqb_neq; nia). cbn [orb].
  replace (fpds <=? to - from) with true by (symmetry; apply Nat.leb_le; lia).
  rewrite (Hfull fd) by lia. cbn [obind]. rewrite map_length, seq_length, slice_seq by lia.
  set (fr := to - from) in *.
  assert (GE : fpds - fi <= fr) by (rewrite FR; apply Nat.le_add_r).
  destruct (assign_ok (empty fr) 0 (fpds - fi) (map F (seq (fd * fpds + fi) (fpds - fi)))) as (y & E & L & P).
  { lia. }
  { unfold empty. rewrite repeat_length, map_length, seq_length. lia. }
  unfold empty in L; rewrite repeat_length in L.
  rewrite E. cbn [obind Nat.ltb Nat.leb].
  destruct (middles_ok fd fi (td - (fd + 1)) (fd + 1) y M1 ltac:(lia)) as (w & Ew & Lw & Pw).
  { intros i Hi. apply Hfull. lia. }
  { rewrite L. replace (fd + 1 + (td - (fd + 1)) - fd - 1) with (td - fd - 1) by lia. lia. }
  rewrite Ew. f_equal. apply nth_ext with (d := None) (d' := None).
  - rewrite Lw, L. unfold wanted. now rewrite map_length, seq_length.
  - intros j Hj. rewrite Lw, L in Hj. rewrite wanted_nth. replace (j <? fr) with true by (symmetry; now apply Nat.ltb_lt).
    rewrite Pw, P, empty_nth. rewrite map_length, seq_length.
    replace (fd + 1 + (td - (fd + 1)) - fd - 1) with (td - fd - 1) by lia. replace (fd + 1 - fd - 1) with 0 by lia.
    replace from with (fd * fpds + fi) by nia.
    destruct (Nat.leb_spec (fpds - fi + 0 * fpds) j) as [G|G]; cbn [andb].
    + replace (j <? fpds - fi + (td - fd - 1) * fpds) with true by (symmetry; apply Nat.ltb_lt; lia). reflexivity.
    + cbn [Nat.leb]. replace (j <? 0 + (fpds - fi)) with true by (symmetry; apply Nat.ltb_lt; lia).
      cbn [andb]. rewrite nth_error_map_seq by lia. f_equal. f_equal. lia.
Qed.

(** ... or lies inside one file *)
Lemma frame_range_inside : forall files from to, from < to -> from / fpds = to / fpds -> to < files * fpds -> full (from / fpds) ->
  get_frame_range read fpds files from to = Some (wanted from (to - from)).
Proof.
  intros files from to Hlt Hds Hto Hfull. unfold get_frame_range, get_ds_frame_by_frame.
  assert (D1 := Nat.div_mod from fpds ltac:(lia)). assert (M1 := Nat.mod_upper_bound from fpds ltac:(lia)).
  assert (D2 := Nat.div_mod to fpds ltac:(lia)). assert (M2 := Nat.mod_upper_bound to fpds ltac:(lia)).
  rewrite <- Hds in D2. set (fd := from / fpds) in *. set (fi := from mod fpds) in *. set (ti := to mod fpds) in *.
  replace (to <? from) with false by (symmetry; apply Nat.ltb_ge; nia).
  replace (files * fpds <=? to) with false by (symmetry; apply Nat.leb_gt; lia).
  replace (to =? 0) with false by (symmetry; apply Nat.eqb_neq; nia). cbn [orb].
  replace (fpds <=? to - from) with false by (symmetry; apply Nat.leb_gt; nia).
  rewrite Hfull. cbn [obind]. rewrite slice_seq by lia. set (fr := to - from) in *.
  destruct (assign_ok (empty fr) 0 ti (map F (seq (fd * fpds + fi) (ti - fi)))) as (y & E & L & P).
  { lia. }
  { unfold empty. rewrite repeat_length, map_length, seq_length. lia. }
  unfold empty in L; rewrite repeat_length in L.
  rewrite E. f_equal. apply nth_ext with (d := None) (d' := None).
  - rewrite L. unfold wanted. now rewrite map_length, seq_length.
  - intros j Hj. rewrite L in Hj. rewrite wanted_nth. replace (j <? fr) with true by (symmetry; now apply Nat.ltb_lt).
    rewrite P, empty_nth, map_length, seq_length. cbn [Nat.leb].
    replace (j <? 0 + (ti - fi)) with true by (symmetry; apply Nat.ltb_lt; lia).
    cbn [andb]. rewrite nth_error_map_seq by lia. f_equal. f_equal. lia.
Qed.

(** a short range of frames across a file border is never returned right *)
Lemma frame_range_short_across : forall files from to, from < to -> to - from < fpds -> from / fpds < to / fpds -> full (from / fpds) ->
  get_frame_range read fpds files from to = None \/
  get_frame_range read fpds files from to = Some (empty (to - from)).
Proof.
  intros files from to Hlt Hs Hds Hfull. unfold get_frame_range, get_ds_frame_by_frame.
  destruct ((to <? from) || (files * fpds <=? to) || (to =? 0)); [now left|].
  assert (D1 := Nat.div_mod from fpds ltac:(lia)). assert (M1 := Nat.mod_upper_bound from fpds ltac:(lia)).
  assert (D2 := Nat.div_mod to fpds ltac:(lia)). assert (M2 := Nat.mod_upper_bound to fpds ltac:(lia)).
  set (fd := from / fpds) in *. set (fi := from mod fpds) in *. set (ti := to mod fpds) in *. set (td := to / fpds) in *.
  replace (fpds <=? to - from) with false by (symmetry; apply Nat.leb_gt; nia).
  rewrite Hfull. cbn [obind].
  assert (TF : ti < fi) by nia.
  replace (slice (map F (seq (fd * fpds) fpds)) fi ti) with (@nil A).
  2:{ unfold slice. replace (Nat.min ti (length (map F (seq (fd * fpds) fpds))) - fi) with 0 by lia. reflexivity. }
  assert (X : forall n b, assign (@empty A n) 0 b [] = if Nat.eqb (Nat.min b n) 0 then Some (empty n) else None).
  { intros n b. unfold assign, empty. rewrite repeat_length. cbn [Nat.min length]. rewrite Nat.max_0_l, Nat.sub_0_r.
    destruct (Nat.min b n); reflexivity. }
  rewrite X. destruct (Nat.min ti (to - from) =? 0); [now right|now left].
Qed.

(** a range of columns inside one file raises an exception, unless one frame is asked up to
    the end *)
Lemma line_range_inside : forall from to, from < to -> from / fpds = to / fpds -> full (from / fpds) ->
  get_line_range read fpds from to = None.
Proof.
  intros from to Hlt Hds Hfull. unfold get_line_range, get_ds_frame_by_frame.
  destruct ((to <? from) || (to =? 0)); [reflexivity|].
  assert (D1 := Nat.div_mod from fpds ltac:(lia)). assert (M1 := Nat.mod_upper_bound from fpds ltac:(lia)).
  assert (D2 := Nat.div_mod to fpds ltac:(lia)). assert (M2 := Nat.mod_upper_bound to fpds ltac:(lia)).
  rewrite <- Hds in *. set (fd := from / fpds) in *. set (fi := from mod fpds) in *. set (ti := to mod fpds) in *.
  rewrite Hfull. cbn [obind]. rewrite slice_seq by lia.
  assert (B : 2 <= fpds - fi /\ to - from < fpds - fi) by nia.
  assert (X : assign (empty (to - from)) 0 (fpds - fi) (map F (seq (fd * fpds + fi) (fpds - fi))) = None); [|now rewrite X].
  unfold assign. unfold empty. rewrite !repeat_length, map_length, seq_length. cbn [Nat.min Nat.max].
  replace (Nat.eqb (fpds - fi) _) with false by (symmetry; apply Nat.eqb_neq; lia).
  destruct (fpds - fi) as [|[|n]]; [lia|lia|]. reflexivity.
Qed.

End Range.
