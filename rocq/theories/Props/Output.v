(** Properties C28, C29, C30, C50, C51, C52: dump files and the analysis reader. *)
From Coq Require Import String Reals ZArith Lra Lia List Psatz.
From Verif.Lib Require Import RAux Outcome Grid Par.
From Verif.Model Require Import Constants Geometry ChargeDeposit Bunch Dump Text Reader Paths Cache.
From Verif.Spec Require Import Sample Steps.
From Verif.Proof Require Import GeometryP ChargeP2 MainLoopP DumpP ReaderP PathsP.
From Flocq Require Import Core.
Import ListNotations.
Local Open Scope R_scope.

(** C28. Any list of probes, any history of dumps: a field probe that starts at step number 0
    has, after the run, in file j the frames j*fpf, ..., (j+1)*fpf - 1 of the sequence of its
    frames, appended to what the file held before. [fired] are the dumps at which it was due. *)
Theorem C28_files : forall g fpf dt l ps ps' i p f c, (0 < fpf)%nat ->
  dump_run g (Z.of_nat fpf) dt l ps = Ok ps' ->
  nth_error ps i = Some (p, f) -> pr_component p = CArray c -> step_number p = 0%Z ->
  let fired := filter (fun s => match dump_now (sn_time s) dt (schedule p) with Ok b => b | _ => false end) l in
  let frames := map (fun s => written p (sn_arrays s c)) fired in
  exists p' f', nth_error ps' i = Some (p', f') /\
    step_number p' = Z.of_nat (length frames) /\
    forall j : nat, f' (Z.of_nat j) = f (Z.of_nat j) ++ concat (firstn fpf (skipn (j * fpf) frames)).
Proof.
  intros g fpf dt l ps ps' i p f c Hf E N C H0 fired frames.
  assert (Hh : holds fpf f [] p f).
  { split; [exact H0|]. intro j. unfold chunk. rewrite skipn_nil, firstn_nil. cbn. now rewrite app_nil_r. }
  destruct (dump_run_holds g fpf dt f l ps ps' i p f [] c Hf E N C Hh) as (p' & f' & N' & _ & S & Fj).
  exists p', f'. split; [exact N'|]. split; [exact S|exact Fj].
Qed.
Print Assumptions C28_files.

(** Files that start empty, in numeric order, hold all frames in order; all but the last are full. *)
Theorem C28_concatenation : forall fpf (frames : list (list R)) (f : Z -> list R), (0 < fpf)%nat ->
  (forall j : nat, f (Z.of_nat j) = concat (firstn fpf (skipn (j * fpf) frames))) ->
  (forall m, (length frames <= m * fpf)%nat -> concat (map (fun j => f (Z.of_nat j)) (seq 0 m)) = concat frames) /\
  (forall j, (j * fpf + fpf <= length frames)%nat -> length (firstn fpf (skipn (j * fpf) frames)) = fpf) /\
  (forall j, (length frames <= j * fpf)%nat -> f (Z.of_nat j) = []) /\
  (forall n, (n < length frames)%nat -> nth (n mod fpf) (firstn fpf (skipn (n / fpf * fpf) frames)) [] = nth n frames []).
Proof.
  intros fpf frames f Hf E. repeat match goal with |- _ /\ _ => split end.
  - intros m Hm. rewrite (map_ext _ (fun j => concat (chunk fpf j frames)) E). rewrite concat_chunks. now rewrite firstn_all2.
  - intros j Hj. exact (chunk_length fpf j frames Hj).
  - intros j Hj. rewrite E. rewrite skipn_all2 by exact Hj. now rewrite firstn_nil.
  - intros n Hn. destruct (div_complete fpf Hf n) as [D M]. change (firstn fpf (skipn (n / fpf * fpf) frames)) with (chunk fpf (n / fpf) frames).
    rewrite chunk_nth by exact M. now rewrite D.
Qed.
Print Assumptions C28_concatenation.

(** The values of one frame in row-major order, and the other three probe types. *)
Theorem C28_row_major : forall p a,
  let h := Z.to_nat (end_r p - start_r p) in
  let w := Z.to_nat (end_z p - start_z p) in
  (pr_type p = 0%Z -> length (written p a) = (h * w)%nat /\
     forall i k, (i < h)%nat -> (k < w)%nat ->
       nth (i * w + k) (written p a) 0 = a (start_r p + Z.of_nat i)%Z (start_z p + Z.of_nat k)%Z) /\
  (pr_type p = 1%Z -> length (written p a) = h /\
     forall i, (i < h)%nat -> nth i (written p a) 0 = a (start_r p + Z.of_nat i)%Z (start_z p)) /\
  (pr_type p = 2%Z -> length (written p a) = w /\
     forall k, (k < w)%nat -> nth k (written p a) 0 = a (start_r p) (start_z p + Z.of_nat k)%Z) /\
  (pr_type p = 3%Z -> written p a = [a (start_r p) (start_z p)]).
Proof.
  intros p a h w. repeat match goal with |- _ /\ _ => split end; intro H.
  - split; [now apply written_frame_length|]. intros i k Hi Hk. now apply written_frame_nth.
  - split; [exact (proj1 (written_col_nth p a 0 H))|]. intros i Hi. now apply (written_col_nth p a i H).
  - split; [exact (proj1 (written_row_nth p a 0 H))|]. intros i Hi. now apply (written_row_nth p a i H).
  - now apply written_dot.
Qed.
Print Assumptions C28_row_major.

(** The run always succeeds if no schedule is zero. *)
Theorem C28_run_succeeds : forall g fpf dt l ps, (0 < fpf)%nat -> Forall (fun pf => schedule (fst pf) <> 0%Z) ps ->
  exists ps', dump_run g (Z.of_nat fpf) dt l ps = Ok ps'.
Proof. intros g fpf dt l ps Hf H. apply dump_run_ok; [lia|exact H]. Qed.
Print Assumptions C28_run_succeeds.

Definition sample_probe (sched : Z) : probe := Probe (CArray 0) 0 1 2 3 5 sched 0.
Definition no_files : files := fun _ => [].
Definition sample_snap (k : nat) : snapshot := Snapshot (INR k) (fun _ i j => IZR (100 * i + j) + INR k) [] zero_arr.

Example C28_hypotheses_met : exists ps',
  dump_run sample_geom 2 1 (map sample_snap (seq 0 5)) [(sample_probe 1, no_files)] = Ok ps' /\
  written (sample_probe 1) (fun i j => IZR (100 * i + j)) = [102; 103; 104; 202; 203; 204].
Proof.
  destruct (C28_run_succeeds sample_geom 2 1 (map sample_snap (seq 0 5)) [(sample_probe 1, no_files)] ltac:(lia)) as [ps' E].
  - constructor; [cbn; lia|constructor].
  - exists ps'. split; [exact E|]. reflexivity.
Qed.

(** A second run into the same directory does not replace the first one: the files are opened
    for appending and the frames of the second run come after those of the first. So "the n-th
    frame of a probe goes to file n / fpf" fails for the second run as the reader sees it. *)
Theorem C28_second_run_refuted : exists g fpf dt l l' p,
  (0 < fpf)%nat /\ step_number p = 0%Z /\
  exists p1 f1 p2 f2, dump_run g (Z.of_nat fpf) dt l [(p, no_files)] = Ok [(p1, f1)] /\
    dump_run g (Z.of_nat fpf) dt l' [(p, f1)] = Ok [(p2, f2)] /\
    step_number p2 = 1%Z /\ f2 0%Z = [7; 8].
Proof.
  set (sn := fun v : R => Snapshot 0 (fun _ _ _ => v) [] zero_arr).
  set (p := Probe (CArray 0) 3 0 0 (-1) (-1) 1 0).
  exists sample_geom, 1%nat, 1, [sn 7], [sn 8], p. split; [lia|]. split; [reflexivity|].
  assert (D : forall q, schedule q = 1%Z -> dump_now 0 1 (schedule q) = Ok true).
  { intros q ->. unfold dump_now. cbn [Z.eqb]. f_equal. now rewrite Z.rem_1_r. }
  assert (R : forall f v, dump_run sample_geom (Z.of_nat 1) 1 [sn v] [(p, f)] = Ok [(next_step p, append f 0 [v])]).
  { intros f v. cbn [dump_run dump_data sn sn_time]. rewrite (D p eq_refl). reflexivity. }
  rewrite R. exists (next_step p), (append no_files 0 [7]), (next_step p), (append (append no_files 0 [7]) 0 [8]).
  split; [reflexivity|]. split; [apply R|]. split; reflexivity.
Qed.
Print Assumptions C28_second_run_refuted.

(** C29. A whole run of the simulation followed by a read of frame n of a frame probe: if the
    file that holds frame n is complete, the reader returns an array whose element (a, b) is the
    text form of the value at (start_r + a, start_z + b) when the n-th frame was dumped. *)
Theorem C29_frame_partial : forall g fpf dt l ps ps' i p f c n, (0 < fpf)%nat ->
  dump_run g (Z.of_nat fpf) dt l ps = Ok ps' ->
  nth_error ps i = Some (p, f) -> pr_component p = CArray c -> step_number p = 0%Z -> (forall j, f j = []) ->
  pr_type p = 0%Z ->
  let fired := filter (fun s => match dump_now (sn_time s) dt (schedule p) with Ok b => b | _ => false end) l in
  let h := Z.to_nat (end_r p - start_r p) in
  let w := Z.to_nat (end_z p - start_z p) in
  exists p' f', nth_error ps' i = Some (p', f') /\
    let d := sim_dir fpf (Z.to_nat (step_number p')) f' in
    ((n / fpf * fpf + fpf <= length fired)%nat ->
     exists fr, get_frame d fpf h w n = Some fr /\ length fr = h /\
       forall a b s, (a < h)%nat -> (b < w)%nat -> nth_error fired n = Some s ->
         nth b (nth a fr []) 0 = text_value (sn_arrays s c (start_r p + Z.of_nat a)%Z (start_z p + Z.of_nat b)%Z)) /\
    ((0 < h * w)%nat -> (length fired < n / fpf * fpf + fpf)%nat -> get_frame d fpf h w n = None).
Proof.
  intros g fpf dt l ps ps' i p f c n Hf E N C H0 He Ht fired h w.
  assert (Hh : holds fpf (fun _ => []) [] p f).
  { split; [exact H0|]. intro j. unfold chunk. rewrite skipn_nil, firstn_nil, He. reflexivity. }
  destruct (dump_run_holds g fpf dt _ l ps ps' i p f [] c Hf E N C Hh) as (p' & f' & N' & _ & Hh').
  cbn [app] in Hh'. set (frames := dumped dt p c l) in *.
  assert (LF : length frames = length fired) by (unfold frames, dumped, due; now rewrite map_length).
  assert (SZ : Forall (fun x => length x = (h * w)%nat) frames).
  { apply Forall_forall. intros x Hx. unfold frames, dumped in Hx. apply in_map_iff in Hx. destruct Hx as (s & <- & _).
    now apply written_frame_length. }
  assert (SN : Z.to_nat (step_number p') = length frames) by (destruct Hh' as [-> _]; lia).
  exists p', f'. split; [exact N'|]. cbv zeta. rewrite SN. split.
  - intro Hn. rewrite <- LF in Hn.
    exists (rows h w (map text_value (nth n frames []))).
    split; [now apply (get_frame_complete fpf (h * w) frames p' f' Hf SZ Hh')|]. split; [apply rows_length|].
    intros a b s Ha Hb Hs. rewrite rows_nth by exact Ha.
    assert (NF : nth n frames [] = written p (sn_arrays s c)).
    { apply nth_error_nth. unfold frames, dumped. rewrite nth_error_map.
      change (filter (fun s0 => due (sn_time s0) dt p) l) with fired. now rewrite Hs. }
    rewrite NF. rewrite <- (written_frame_nth p (sn_arrays s c) a b Ht Ha Hb). fold w.
    assert (WL := written_frame_length p (sn_arrays s c) Ht). fold h w in WL.
    set (v := written p (sn_arrays s c)) in *.
    rewrite <- (map_nth text_value). rewrite text_value_0.
    assert (LV : (a * w + b < length (map text_value v))%nat) by (rewrite map_length, WL; nia).
    rewrite <- (firstn_skipn (a * w) (map text_value v)) at 2. rewrite app_nth2 by (rewrite firstn_length; lia).
    rewrite firstn_length. replace (a * w + b - Nat.min (a * w) (length (map text_value v)))%nat with b by lia.
    rewrite <- (firstn_skipn w (skipn (a * w) (map text_value v))) at 2.
    rewrite app_nth1; [reflexivity|]. rewrite firstn_length, skipn_length. lia.
  - intros Hp Hn. rewrite <- LF in Hn. now apply (get_frame_incomplete fpf (h * w) frames p' f' Hf SZ Hh').
Qed.
Print Assumptions C29_frame_partial.

(** The text form keeps about six digits: zero and whole numbers below a million are exact,
    the relative error of any other normal value is at most 5.1e-6. *)
Theorem C29_text_partial :
  (forall v, v = 0 \/ bpow radix2 (-1021) <= Rabs v -> Rabs (text_value v - v) <= 51 / 10000000 * Rabs v) /\
  (forall n, (Z.abs n < 1000000)%Z -> text_value (IZR n) = IZR n).
Proof. split; [exact text_value_rel|exact text_value_small_int]. Qed.
Print Assumptions C29_text_partial.

(** So "element for element" is false: 1234567 comes back as 1234570. *)
Theorem C29_refuted : exists g fpf l p p' f' fr,
  dump_run g (Z.of_nat fpf) 1 l [(p, no_files)] = Ok [(p', f')] /\
  get_frame (sim_dir fpf 1 f') fpf 1 1 0 = Some fr /\
  exists s, l = [s] /\ sn_arrays s 0%Z 0%Z 0%Z = 1234567 /\ fr = [[1234570]].
Proof.
  set (sn := Snapshot 0 (fun _ _ _ => 1234567) [] zero_arr). set (p := Probe (CArray 0) 0 0 0 1 1 1 0).
  exists sample_geom, 1%nat, [sn], p, (next_step p), (append no_files 0 [1234567]), [[text_value 1234567]].
  split.
  - cbn [dump_run dump_data sn sn_time]. replace (dump_now 0 1 (schedule p)) with (Ok true); [reflexivity|].
    unfold dump_now. cbn [schedule p Z.eqb]. f_equal. now rewrite Z.rem_1_r.
  - split; [reflexivity|]. exists sn. split; [reflexivity|]. split; [reflexivity|]. now rewrite text_value_1234567.
Qed.
Print Assumptions C29_refuted.

(** Columns are read the same way, given that the probe spans the full frame (a column probe
    always does, src/parameters.cpp lines 136-137). *)
Theorem C29_column_partial : forall g fpf dt l ps ps' i p f c n, (0 < fpf)%nat ->
  dump_run g (Z.of_nat fpf) dt l ps = Ok ps' ->
  nth_error ps i = Some (p, f) -> pr_component p = CArray c -> step_number p = 0%Z -> (forall j, f j = []) ->
  pr_type p = 1%Z ->
  let fired := filter (fun s => match dump_now (sn_time s) dt (schedule p) with Ok b => b | _ => false end) l in
  let h := Z.to_nat (end_r p - start_r p) in
  (n / fpf * fpf + fpf <= length fired)%nat ->
  exists p' f' col, nth_error ps' i = Some (p', f') /\
    get_col (sim_dir fpf (Z.to_nat (step_number p')) f') fpf h n = Some col /\ length col = h /\
    forall a s, (a < h)%nat -> nth_error fired n = Some s ->
      nth a col 0 = text_value (sn_arrays s c (start_r p + Z.of_nat a)%Z (start_z p)).
Proof.
  intros g fpf dt l ps ps' i p f c n Hf E N C H0 He Ht fired h Hn.
  assert (Hh : holds fpf (fun _ => []) [] p f).
  { split; [exact H0|]. intro j. unfold chunk. rewrite skipn_nil, firstn_nil, He. reflexivity. }
  destruct (dump_run_holds g fpf dt _ l ps ps' i p f [] c Hf E N C Hh) as (p' & f' & N' & _ & Hh').
  cbn [app] in Hh'. set (frames := dumped dt p c l) in *.
  assert (LF : length frames = length fired) by (unfold frames, dumped, due; now rewrite map_length).
  assert (SZ : Forall (fun x => length x = h) frames).
  { apply Forall_forall. intros x Hx. unfold frames, dumped in Hx. apply in_map_iff in Hx. destruct Hx as (s & <- & _).
    exact (proj1 (written_col_nth p _ 0 Ht)). }
  assert (SN : Z.to_nat (step_number p') = length frames) by (destruct Hh' as [-> _]; lia).
  exists p', f', (map text_value (nth n frames [])). split; [exact N'|]. rewrite SN. rewrite <- LF in Hn.
  split; [now apply (get_col_complete fpf h frames p' f' Hf SZ Hh')|].
  assert (NN : (n < length frames)%nat) by (destruct (div_complete fpf Hf n); lia).
  split.
  - rewrite map_length. rewrite Forall_forall in SZ. apply SZ. now apply nth_In.
  - intros a s Ha Hs.
    assert (NF : nth n frames [] = written p (sn_arrays s c)).
    { apply nth_error_nth. unfold frames, dumped. rewrite nth_error_map.
      change (filter (fun s0 => due (sn_time s0) dt p) l) with fired. now rewrite Hs. }
    rewrite NF. rewrite <- (proj2 (written_col_nth p (sn_arrays s c) a Ht) Ha).
    rewrite <- (map_nth text_value). now rewrite text_value_0.
Qed.
Print Assumptions C29_column_partial.

(** Dots are returned even from incomplete files, if neither coordinate is zero ... *)
Theorem C29_dot_partial : forall g fpf dt l ps ps' i p f c n, (0 < fpf)%nat ->
  dump_run g (Z.of_nat fpf) dt l ps = Ok ps' ->
  nth_error ps i = Some (p, f) -> pr_component p = CArray c -> step_number p = 0%Z -> (forall j, f j = []) ->
  pr_type p = 3%Z -> (0 < start_r p)%Z -> (0 < start_z p)%Z ->
  let fired := filter (fun s => match dump_now (sn_time s) dt (schedule p) with Ok b => b | _ => false end) l in
  exists p' f', nth_error ps' i = Some (p', f') /\
    forall s, nth_error fired n = Some s ->
    get_dot (sim_dir fpf (Z.to_nat (step_number p')) f') fpf (Z.to_nat (start_z p)) (Z.to_nat (start_r p)) n =
    Some (text_value (sn_arrays s c (start_r p) (start_z p))).
Proof.
  intros g fpf dt l ps ps' i p f c n Hf E N C H0 He Ht Hr Hz fired.
  assert (Hh : holds fpf (fun _ => []) [] p f).
  { split; [exact H0|]. intro j. unfold chunk. rewrite skipn_nil, firstn_nil, He. reflexivity. }
  destruct (dump_run_holds g fpf dt _ l ps ps' i p f [] c Hf E N C Hh) as (p' & f' & N' & _ & Hh').
  cbn [app] in Hh'. set (frames := dumped dt p c l) in *.
  assert (LF : length frames = length fired) by (unfold frames, dumped, due; now rewrite map_length).
  assert (SZ : Forall (fun x => length x = 1%nat) frames).
  { apply Forall_forall. intros x Hx. unfold frames, dumped in Hx. apply in_map_iff in Hx. destruct Hx as (s & <- & _).
    now rewrite written_dot. }
  assert (SN : Z.to_nat (step_number p') = length frames) by (destruct Hh' as [-> _]; lia).
  exists p', f'. split; [exact N'|]. intros s Hs. rewrite SN.
  assert (NN : (n < length frames)%nat) by (rewrite LF; apply nth_error_Some; congruence).
  rewrite (get_dot_read fpf frames p' f' _ _ n Hf SZ Hh') by lia.
  assert (NF : nth n frames [] = written p (sn_arrays s c)).
  { apply nth_error_nth. unfold frames, dumped. rewrite nth_error_map.
    change (filter (fun s0 => due (sn_time s0) dt p) l) with fired. now rewrite Hs. }
  now rewrite NF, written_dot.
Qed.
Print Assumptions C29_dot_partial.

(** ... a dot on the axis or on the left wall cannot be read at all, and no row can. *)
Theorem C29_dot_on_axis_refuted : forall d fpf s0 s1 n, s0 = 0%nat \/ s1 = 0%nat -> get_dot d fpf s0 s1 n = None.
Proof. exact get_dot_axis. Qed.
Print Assumptions C29_dot_on_axis_refuted.

Theorem C29_row_refuted : forall d fpf size n, get_row d fpf size n = None.
Proof. reflexivity. Qed.
Print Assumptions C29_row_refuted.

Example C29_hypotheses_met : (3 / 2 * 2 + 2 <= 4)%nat /\ pr_type (sample_probe 1) = 0%Z /\
  (forall j, no_files j = []) /\ bpow radix2 (-1021) <= Rabs 1.
Proof.
  split; [cbn; lia|]. split; [reflexivity|]. split; [reflexivity|]. rewrite Rabs_R1. change 1 with (bpow radix2 0).
  apply bpow_le. lia.
Qed.

(** C30. What a beam density probe shows. The main loop has already weighted the beam into the
    array (src/loadInitParam.cpp lines 582-583) when dump_data weights it again for every beam
    density probe: the probe that comes after k other active ones shows (k + 2) times the
    density. *)
Theorem C30_multiple_partial : forall g fpf t dt arrays bunches pre p f post rho' ps',
  let beam := fun i k => rsum (map (fun b => charge_weighting g zero_arr b i k) bunches) in
  dump_data g fpf t dt arrays bunches beam (pre ++ (p, f) :: post) = Ok (rho', ps') ->
  pr_component p = CRhoBeam -> dump_now t dt (schedule p) = Ok true ->
  exists f', nth_error ps' (length pre) = Some (next_step p, f') /\
    f' (Z.quot (step_number p) fpf) = f (Z.quot (step_number p) fpf) ++
      written p (fun i k => INR (active_rho t dt pre + 2) * beam i k).
Proof.
  intros g fpf t dt arrays bunches pre p f post rho' ps' beam H C D.
  destruct (dump_data_rho g fpf t dt arrays bunches pre p f post beam rho' ps' H C) as (f' & N & E).
  { unfold due. now rewrite D. }
  exists f'. split; [exact N|]. rewrite E. f_equal. apply written_ext. intros i k. fold (beam i k).
  rewrite S_INR, plus_INR. cbn [INR]. lra.
Qed.
Print Assumptions C30_multiple_partial.

(** The claim is false already for a single probe and a single beam particle: twice the density
    is dumped. *)
Definition one_electron : list qpart := [QPart true 1 (5/2) (5/2)].
Definition beam_dot : probe := Probe CRhoBeam 3 2 2 (-1) (-1) 1 0.

Theorem C30_refuted :
  let beam := charge_weighting sample_geom zero_arr one_electron in
  0 < beam 2%Z 2%Z /\
  exists rho' p' f', dump_data sample_geom 1 0 1 (fun _ => zero_arr) [one_electron] beam [(beam_dot, no_files)] = Ok (rho', [(p', f')]) /\
    f' 0%Z = [2 * beam 2%Z 2%Z].
Proof.
  set (beam := charge_weighting sample_geom zero_arr one_electron). cbv zeta. split.
  - unfold beam, charge_weighting, one_electron. cbn [fold_left]. unfold charge_weighting_part. cbn [q_alive q_charge q_r q_z].
    unfold charge_weighting_single. rewrite sample_dr, sample_dz.
    replace (cell (5 / 2) 1) with 2%Z.
    2:{ symmetry. apply (cell_unique (5/2) 1 2); [lra|lia|lra]. }
    destruct (Rlt_dec 1 (5 / 2)) as [H|H]; [|lra].
    rewrite apply_incs_at. unfold inc_at. cbn. unfold zero_arr, CYL_RNG_VOL, CELL_VOLUME, c_PI. cbn. lra.
  - assert (D : dump_now 0 1 (schedule beam_dot) = Ok true).
    { unfold dump_now. cbn [schedule beam_dot Z.eqb]. f_equal. now rewrite Z.rem_1_r. }
    cbn [dump_data]. rewrite D. cbn [bind file_number Z.eqb]. cbn [pr_component beam_dot].
    eexists _, _, _. split; [reflexivity|].
    unfold append. cbn [Z.quot step_number beam_dot Z.quotrem fst Z.eqb no_files app]. rewrite written_dot by reflexivity.
    cbn [start_r start_z beam_dot fold_left]. rewrite charge_weighting_sum. f_equal.
    assert (X := charge_weighting_sum sample_geom one_electron zero_arr 2 2). change (zero_arr 2%Z 2%Z) with 0 in X.
    fold beam in X. lra.
Qed.
Print Assumptions C30_refuted.

(** C50. The exact condition under which no buffer overflows, for a probe and for its data files. *)
Local Open Scope string_scope.

Definition full_component (c : probe_conf) : string :=
  if String.eqb (pc_specie c) "none" then pc_component c else pc_component c ++ "/" ++ pc_specie c.

Theorem C50_probe_fits_iff_partial : forall result_path root c,
  let path := result_path ++ "/" ++ root in
  (exists s, make_probe result_path root c = Ok s) <->
  (String.length path < 100 /\ String.length (pc_component c) < 10 /\ String.length (pc_specie c) < 100 /\
   String.length (full_component c) < 100 /\ String.length (probe_path c path (full_component c)) < 100)%nat.
Proof.
  intros result_path root c path. unfold make_probe, data_root, result_component. fold path. fold (full_component c). split.
  - intros [s H]. unfold bind in H.
    destruct (store 100 path) as [x| |] eqn:E1; try discriminate. apply store_inv in E1. destruct E1 as [-> L1].
    destruct (store 256 path) as [x| |] eqn:E2; try discriminate.
    destruct (store 10 (pc_component c)) as [x'| |] eqn:E3; try discriminate. apply store_inv in E3. destruct E3 as [_ L3].
    destruct (store 100 (pc_specie c)) as [y| |] eqn:E4; try discriminate. apply store_inv in E4. destruct E4 as [_ L4].
    destruct (store 100 (full_component c)) as [z| |] eqn:E5; try discriminate. apply store_inv in E5. destruct E5 as [-> L5].
    apply store_inv in H. destruct H as [_ L6]. tauto.
  - intros (L1 & L3 & L4 & L5 & L6). rewrite (store_ok 100 path L1). cbn [bind]. rewrite (store_ok 256 path) by lia. cbn [bind].
    rewrite (store_ok 10 _ L3). cbn [bind]. rewrite (store_ok 100 _ L4). cbn [bind]. rewrite (store_ok 100 _ L5). cbn [bind].
    rewrite (store_ok 100 _ L6). eexists. reflexivity.
Qed.
Print Assumptions C50_probe_fits_iff_partial.

(** A sufficient condition in terms of the configuration alone: a short path and component, and
    grid positions of at most five digits; then a million data files can be named. *)
Theorem C50_short_names_partial : forall result_path root c n,
  (String.length result_path + String.length root + String.length (full_component c) <= 45)%nat ->
  (String.length (pc_component c) < 10)%nat -> (String.length (pc_specie c) < 100)%nat ->
  (0 <= pc_start_r c < 100000)%Z -> (0 <= pc_start_z c < 100000)%Z ->
  (-1 <= pc_end_r c < 100000)%Z -> (-1 <= pc_end_z c < 100000)%Z -> (0 <= n < 1000000)%Z ->
  exists s d, make_probe result_path root c = Ok s /\ get_data_path s n = Ok d.
Proof.
  intros result_path root c n HL Hc Hs H1 H2 H3 H4 Hn. set (path := result_path ++ "/" ++ root).
  assert (LP : (String.length path = String.length result_path + 1 + String.length root)%nat).
  { unfold path. rewrite !str_app_length. cbn. lia. }
  assert (S1 := show_length_nonneg 5 (pc_start_r c) ltac:(lia) ltac:(exact H1)).
  assert (S2 := show_length_nonneg 5 (pc_start_z c) ltac:(lia) ltac:(exact H2)).
  assert (E : forall z, (-1 <= z < 100000)%Z -> (String.length (show z) <= 5)%nat).
  { intros z Hz. destruct (Z.eq_dec z (-1)) as [->|N]; [cbn; lia|]. apply (show_length_nonneg 5); [lia|].
    change (10 ^ Z.of_nat 5)%Z with 100000%Z. lia. }
  assert (S3 := E _ H3). assert (S4 := E _ H4).
  assert (S5 := show_length_nonneg 6 n ltac:(lia) ltac:(exact Hn)).
  assert (LQ : (String.length (probe_path c path (full_component c)) <= 83)%nat).
  { unfold probe_path.
    assert (X : forall a, (String.length a <= 33)%nat -> (String.length (path ++ "/" ++ full_component c ++ a) <= 83)%nat).
    { intros a Ha. rewrite !str_app_length. cbn [String.length]. lia. }
    destruct (pc_type c) as [|[[]|[]|]|]; apply X; rewrite !str_app_length; cbn [String.length]; lia. }
  exists (probe_path c path (full_component c)), (probe_path c path (full_component c) ++ "/" ++ show n ++ ".dat").
  split.
  - unfold make_probe, data_root, result_component. fold path. fold (full_component c).
    rewrite (store_ok 100 path) by lia. cbn [bind]. rewrite (store_ok 256 path) by lia. cbn [bind].
    rewrite (store_ok 10 _ Hc). cbn [bind]. rewrite (store_ok 100 _ Hs). cbn [bind]. rewrite store_ok by lia. cbn [bind].
    apply store_ok. lia.
  - unfold get_data_path. rewrite store_ok by lia. cbn [bind]. apply store_ok. rewrite !str_app_length. cbn [String.length]. lia.
Qed.
Print Assumptions C50_short_names_partial.

(** The claim for every configuration is false: a long but ordinary path, and a component name
    of ten letters. *)
Definition long_path : string := "/home/user/projects/plasma-simulation/results/2019-08-12/electron-beam-density-scan-high-resolution".
Definition e_r_frame : probe_conf := ProbeConf "E_r" "none" 0 0 0 127 511.

Theorem C50_refuted : make_probe long_path "pdp3_result" e_r_frame = UB /\
  make_probe "." "pdp3_result" (ProbeConf "background" "none" 4 0 0 127 511) = UB /\
  exists s, make_probe "/home/user/projects/plasma-simulation/results/2019-08-12/scan-0001" "pdp3" e_r_frame = Ok s /\
    get_data_path s 100000 = UB.
Proof. split; [vm_compute; reflexivity|]. split; [vm_compute; reflexivity|]. eexists. split; vm_compute; reflexivity. Qed.
Print Assumptions C50_refuted.

Example C50_hypotheses_met : exists d, make_probe "." "pdp3_result" e_r_frame = Ok "./pdp3_result/E_r/frame_0:0_127:511" /\
  get_data_path "./pdp3_result/E_r/frame_0:0_127:511" 12 = Ok d /\ d = "./pdp3_result/E_r/frame_0:0_127:511/12.dat".
Proof. eexists. split; [vm_compute; reflexivity|]. split; vm_compute; reflexivity. Qed.

(** C51. As long as the data files do not change, every cached answer is what the files say;
    restarts of the analysis program included. *)
Theorem C51_unchanged_files_partial : forall es w, (forall w', ~ In (NewData w') es) ->
  Forall (fun rw => fst rw = snd rw) (history (Cache (fun _ => None) (fun _ => None)) w es).
Proof. intros es w H. apply history_sound; [|exact H]. intros k v [D|D]; discriminate. Qed.
Print Assumptions C51_unchanged_files_partial.

(** After a new run the old answer is still returned, for every key and every change of the
    data: the claim is false. *)
Theorem C51_refuted : forall k (old new : list R), old <> [] -> old <> new ->
  history (Cache (fun _ => None) (fun _ => None)) (fun _ => Some old) [Read k; NewData (fun _ => Some new); Restart; Read k] =
    [(Some old, Some old); (Some old, Some new)].
Proof.
  intros k old new H _. destruct old as [|x old]; [congruence|]. cbn. unfold cached_read, get_cache. cbn.
  unfold put. rewrite String.eqb_refl. reflexivity.
Qed.
Print Assumptions C51_refuted.

(** The variant that is meant to compare modification times never finds anything. *)
Theorem C51_time_check_never_hits : forall c mtime k, contains c mtime true k = false.
Proof. intros c mtime k. unfold contains. destruct (c_disk c k); [apply Z.ltb_irrefl|reflexivity]. Qed.
Print Assumptions C51_time_check_never_hits.

(** Macroparticle frames are wrong even without a new run: the positions cached by one request
    are returned as velocities by the next. *)
Theorem C51_mpframe_refuted : forall comp s0 s1 s2 s3 number (pos vel : list R), pos <> [] ->
  exists c, cached_read (Cache (fun _ => None) (fun _ => None)) (mpframe_key comp s0 s1 s2 s3 0 number) (Some pos) = (Some pos, c) /\
  fst (cached_read c (mpframe_key comp s0 s1 s2 s3 5 number) (Some vel)) = Some pos.
Proof.
  intros comp s0 s1 s2 s3 number pos vel H. eexists. split; [reflexivity|]. destruct pos as [|x pos]; [congruence|].
  unfold cached_read, get_cache, update_cache. cbn [c_memory]. unfold put.
  change (mpframe_key comp s0 s1 s2 s3 5 number) with (mpframe_key comp s0 s1 s2 s3 0 number). rewrite String.eqb_refl. reflexivity.
Qed.
Print Assumptions C51_mpframe_refuted.

Example C51_hypotheses_met : (forall w', ~ In (NewData w') [Read "a"; Restart; Read "a"]) /\
  history (Cache (fun _ => None) (fun _ => None)) (fun _ => Some [1%R]) [Read "a"; Restart; Read "a"] =
  [(Some [1%R], Some [1%R]); (Some [1%R], Some [1%R])].
Proof. split; [intros w' [H|[H|[H|[]]]]; discriminate|reflexivity]. Qed.

Local Close Scope string_scope.
Local Open Scope nat_scope.

(** C52. [F n] is frame n; a file is full if the reader gets all its frames. Frame ranges are
    right if they end on a file border and are at least a file long, or lie inside a file. *)
Theorem C52_frames_partial : forall (A : Type) (F : nat -> A) read fpds files from to, 0 < fpds -> from < to -> to < files * fpds ->
  (forall ds, from / fpds <= ds <= to / fpds -> read ds = Some (map F (seq (ds * fpds) fpds))) ->
  (to mod fpds = 0 /\ fpds <= to - from) \/ from / fpds = to / fpds ->
  get_frame_range read fpds files from to = Some (map (fun j => Some (F (from + j))) (seq 0 (to - from))).
Proof.
  intros A F read fpds files from to Hf Hlt Hto Hfull [[H1 H2]|H].
  - apply (frame_range_border F read fpds Hf files from to H1 H2 Hto). intros ds Hds. apply Hfull. lia.
  - apply (frame_range_inside F read fpds Hf files from to Hlt H Hto). apply Hfull. rewrite H. lia.
Qed.
Print Assumptions C52_frames_partial.

(** Otherwise not: a short range across a file border gives an exception or nothing but
    uninitialised memory, whatever the files hold; *)
Theorem C52_short_across_refuted : forall (A : Type) (F : nat -> A) read fpds files from to, 0 < fpds -> from < to ->
  to - from < fpds -> from / fpds < to / fpds -> read (from / fpds) = Some (map F (seq (from / fpds * fpds) fpds)) ->
  get_frame_range read fpds files from to = None \/
  get_frame_range read fpds files from to = Some (repeat None (to - from)).
Proof.
  intros A F read fpds files from to Hf Hlt Hs Hds Hfull. exact (frame_range_short_across F read fpds Hf files from to Hlt Hs Hds Hfull).
Qed.
Print Assumptions C52_short_across_refuted.

(** and a long range that does not end on a border loses its last frame. *)
Theorem C52_long_refuted :
  let read := fun ds => Some (map (fun n => n) (seq (ds * 2) 2)) in
  get_frame_range read 2 10 0 5 = Some [Some 0; Some 1; Some 2; Some 3; None] /\
  get_frame_range read 2 10 1 2 = Some [None].
Proof. cbv zeta. split; reflexivity. Qed.
Print Assumptions C52_long_refuted.

(** Columns, rows and dots: right if the range touches at least two files and all files up to
    that of the end frame, which is not part of the range, are complete; *)
Theorem C52_lines_partial : forall (A : Type) (F : nat -> A) read fpds from to, 0 < fpds -> from / fpds < to / fpds ->
  (forall ds, from / fpds <= ds <= to / fpds -> read ds = Some (map F (seq (ds * fpds) fpds))) ->
  get_line_range read fpds from to = Some (map (fun j => Some (F (from + j))) (seq 0 (to - from))).
Proof. intros A F read fpds from to Hf Hds Hfull. exact (line_range_ok F read fpds Hf from to Hds Hfull). Qed.
Print Assumptions C52_lines_partial.

(** inside one file they always raise an exception. *)
Theorem C52_lines_inside_refuted : forall (A : Type) (F : nat -> A) read fpds from to, 0 < fpds -> from < to ->
  from / fpds = to / fpds -> read (from / fpds) = Some (map F (seq (from / fpds * fpds) fpds)) ->
  get_line_range read fpds from to = None.
Proof. intros A F read fpds from to Hf Hlt Hds Hfull. exact (line_range_inside F read fpds Hf from to Hlt Hds Hfull). Qed.
Print Assumptions C52_lines_inside_refuted.

Example C52_hypotheses_met :
  let read := fun ds => Some (map (fun n => n * n) (seq (ds * 3) 3)) in
  get_frame_range read 3 4 2 9 = Some [Some 4; Some 9; Some 16; Some 25; Some 36; Some 49; Some 64] /\
  get_line_range read 3 2 7 = Some [Some 4; Some 9; Some 16; Some 25; Some 36] /\
  get_line_range read 3 0 2 = None.
Proof. cbv zeta. repeat split. Qed.
