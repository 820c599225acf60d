(** Proofs about the dump files: C27, C28, C30. *)
From Coq Require Import Reals Lra Lia ZArith List Bool.
From Verif.Lib Require Import RAux Outcome Grid Par.
From Verif.Model Require Import Geometry ChargeDeposit Bunch Dump.
From Verif.Spec Require Import Steps.
From Verif.Proof Require Import ChargeP2 BunchP MainLoopP.
Import ListNotations.
Local Open Scope R_scope.

(** ** Files as chunks of the sequence of frames *)

Definition chunk (fpf j : nat) (frames : list (list R)) : list (list R) := firstn fpf (skipn (j * fpf) frames).

(** the probe has dumped [frames] since its files were [f0] *)
Definition holds (fpf : nat) (f0 : files) (frames : list (list R)) (p : probe) (f : files) : Prop :=
  step_number p = Z.of_nat (length frames) /\
  forall j : nat, f (Z.of_nat j) = f0 (Z.of_nat j) ++ concat (chunk fpf j frames).

Lemma chunk_snoc : forall fpf frames x j, (0 < fpf)%nat ->
  chunk fpf j (frames ++ [x]) =
  if Nat.eqb j (length frames / fpf) then chunk fpf j frames ++ [x] else chunk fpf j frames.
Proof.
  intros fpf frames x j Hf. unfold chunk.
  assert (D := Nat.div_mod (length frames) fpf ltac:(lia)). assert (M := Nat.mod_upper_bound (length frames) fpf ltac:(lia)).
  set (n := length frames) in *. set (q := (n / fpf)%nat) in *.
  destruct (Nat.eqb_spec j q) as [->|N].
  - rewrite skipn_app. replace (q * fpf - length frames)%nat with 0%nat by (fold n; nia). rewrite skipn_O.
    rewrite firstn_app. rewrite skipn_length. fold n. 
    replace (fpf - (n - q * fpf))%nat with (S (fpf - (n - q * fpf) - 1)) by nia. cbn [firstn].
    rewrite firstn_nil. reflexivity.
  - rewrite skipn_app, firstn_app, skipn_length. fold n.
    destruct (le_lt_dec j q) as [L|G].
    + assert (j * fpf + fpf <= n)%nat by nia. replace (fpf - (n - j * fpf))%nat with 0%nat by lia. cbn [firstn]. now rewrite app_nil_r.
    + assert (n < j * fpf)%nat by nia. rewrite (skipn_all2 frames) by (fold n; lia).
      rewrite (skipn_all2 [x]) by (cbn; lia). rewrite !firstn_nil. reflexivity.
Qed.

Lemma quot_nat : forall a b, (0 < b)%nat -> Z.quot (Z.of_nat a) (Z.of_nat b) = Z.of_nat (a / b).
Proof. intros a b H. rewrite Z.quot_div_nonneg by lia. symmetry. apply Nat2Z.inj_div. Qed.

Lemma holds_snoc : forall fpf f0 frames p f f' x, (0 < fpf)%nat -> holds fpf f0 frames p f ->
  (forall m, f' m = append f (Z.quot (step_number p) (Z.of_nat fpf)) x m) ->
  holds fpf f0 (frames ++ [x]) (next_step p) f'.
Proof.
  intros fpf f0 frames p f f' x Hf [S C] E. split.
  - cbn. rewrite S, app_length. cbn. lia.
  - intro j. rewrite E. unfold append. rewrite S, quot_nat by exact Hf. rewrite chunk_snoc by exact Hf.
    destruct (Nat.eqb_spec j (length frames / fpf)) as [->|N].
    + rewrite Z.eqb_refl, C, concat_app. cbn. now rewrite app_nil_r, app_assoc.
    + replace (Z.of_nat j =? Z.of_nat (length frames / fpf))%Z with false; [apply C|].
      symmetry. apply Z.eqb_neq. lia.
Qed.

(** ** One call of dump_data *)

Definition due (t dt : R) (p : probe) : bool := match dump_now t dt (schedule p) with Ok b => b | _ => false end.

Definition stepped (fpf : Z) (t dt : R) (arrays : Z -> arr) (pf pf' : probe * files) : Prop :=
  if due t dt (fst pf) then
    fst pf' = next_step (fst pf) /\
    exists x, (forall m, snd pf' m = append (snd pf) (Z.quot (step_number (fst pf)) fpf) x m) /\
              (forall c, pr_component (fst pf) = CArray c -> x = written (fst pf) (arrays c))
  else pf' = pf.

Lemma dump_data_stepped : forall g fpf t dt arrays bunches ps rho rho' ps',
  dump_data g fpf t dt arrays bunches rho ps = Ok (rho', ps') -> Forall2 (stepped fpf t dt arrays) ps ps'.
Proof.
  intros g fpf t dt arrays bunches. induction ps as [|[p f] ps IH]; intros rho rho' ps' H.
  - cbn in H. injection H as <- <-. constructor.
  - cbn [dump_data] in H. destruct (dump_now t dt (schedule p)) as [b| |] eqn:E; cbn [bind] in H; try discriminate.
    destruct b.
    + unfold file_number in H. destruct (fpf =? 0)%Z eqn:Q; cbn [bind] in H; [discriminate|].
      match type of H with context [dump_data _ _ _ _ _ _ ?r ps] => destruct (dump_data g fpf t dt arrays bunches r ps) as [[r1 ps1]| |] eqn:D end;
        cbn [bind] in H; try discriminate.
      cbn [fst snd] in H. injection H as <- <-. constructor; [|exact (IH _ _ _ D)].
      unfold stepped, due. cbn [fst snd]. rewrite E. split; [reflexivity|].
      destruct (pr_component p) as [c| |].
      * exists (written p (arrays c)). split; [reflexivity|]. intros c' X. now injection X as ->.
      * eexists. split; [reflexivity|]. discriminate.
      * exists []. split; [|discriminate]. intro m. unfold append. destruct (m =? _)%Z; [now rewrite app_nil_r|reflexivity].
    + destruct (dump_data g fpf t dt arrays bunches rho ps) as [[r1 ps1]| |] eqn:D; cbn [bind] in H; try discriminate.
      cbn [fst snd] in H. injection H as <- <-. constructor; [|exact (IH _ _ _ D)].
      unfold stepped, due. cbn [fst snd]. rewrite E. reflexivity.
Qed.

Lemma dump_data_ok : forall g fpf t dt arrays bunches ps rho, fpf <> 0%Z -> Forall (fun pf => schedule (fst pf) <> 0%Z) ps ->
  exists r, dump_data g fpf t dt arrays bunches rho ps = Ok r.
Proof.
  intros g fpf t dt arrays bunches ps rho Hf H. revert rho. induction H as [|[p f] ps Hp H IH]; intro rho; [eexists; reflexivity|].
  cbn [dump_data]. unfold dump_now. cbn [fst] in Hp. apply Z.eqb_neq in Hp. rewrite Hp. cbn [bind].
  destruct (Z.rem (truncZ (t / dt)) (schedule p) =? 0)%Z.
  - unfold file_number. apply Z.eqb_neq in Hf. rewrite Hf. cbn [bind].
    match goal with |- context [dump_data _ _ _ _ _ _ ?r ps] => destruct (IH r) as [r' ->] end. cbn [bind]. eexists; reflexivity.
  - destruct (IH rho) as [r' ->]. cbn [bind]. eexists; reflexivity.
Qed.

Lemma stepped_schedule : forall fpf t dt arrays ps ps', Forall2 (stepped fpf t dt arrays) ps ps' ->
  map (fun pf => schedule (fst pf)) ps = map (fun pf => schedule (fst pf)) ps'.
Proof.
  intros fpf t dt arrays ps ps' H. induction H as [|[p f] [p' f'] ps ps' S _ IH]; [reflexivity|]. cbn. f_equal; [|exact IH].
  unfold stepped in S. cbn in S. destruct (due t dt p); [destruct S as [-> _]; reflexivity|now injection S as -> ->].
Qed.

Lemma dump_run_ok : forall g fpf dt l ps, fpf <> 0%Z -> Forall (fun pf => schedule (fst pf) <> 0%Z) ps ->
  exists ps', dump_run g fpf dt l ps = Ok ps'.
Proof.
  intros g fpf dt. induction l as [|s l IH]; intros ps Hf H; [eexists; reflexivity|]. cbn [dump_run].
  destruct (dump_data_ok g fpf (sn_time s) dt (sn_arrays s) (sn_bunches s) ps (sn_rho s) Hf H) as [[r ps'] E]. rewrite E. cbn [bind snd].
  apply IH; [exact Hf|]. apply dump_data_stepped, stepped_schedule in E.
  apply Forall_forall. intros x Hx. apply (in_map (fun pf => schedule (fst pf))) in Hx. rewrite <- E in Hx.
  apply in_map_iff in Hx. destruct Hx as (y & Ey & Hy). rewrite <- Ey. rewrite Forall_forall in H. now apply H.
Qed.

Lemma Forall2_nth_error : forall {A B} (P : A -> B -> Prop) l l', Forall2 P l l' -> forall i x, nth_error l i = Some x ->
  exists y, nth_error l' i = Some y /\ P x y.
Proof.
  intros A B P l l' H. induction H as [|a b l l' Hab _ IH]; intros [|i] x E; cbn in *; try discriminate.
  - injection E as <-. eauto.
  - eauto.
Qed.

(** what does not change in a probe *)
Definition config (p : probe) := (pr_component p, pr_type p, (start_r p, start_z p, end_r p, end_z p), schedule p).

Lemma written_config : forall p p' a, config p = config p' -> written p a = written p' a.
Proof. intros [c ty a b c' d s n] [c2 ty2 a2 b2 c2' d2 s2 n2] a0 H. unfold config in H. cbn in H. now injection H as -> -> -> -> -> -> ->. Qed.

Lemma due_config : forall t dt p p', config p = config p' -> due t dt p = due t dt p'.
Proof. intros t dt p p' H. unfold due. replace (schedule p') with (schedule p); [reflexivity|]. unfold config in H. congruence. Qed.

(** ** A whole run *)

(** the frames of probe p over a list of snapshots *)
Definition dumped (dt : R) (p : probe) (c : Z) (l : list snapshot) : list (list R) :=
  map (fun s => written p (sn_arrays s c)) (filter (fun s => due (sn_time s) dt p) l).

Lemma dump_run_holds : forall g fpf dt f0 l ps ps' i p f frames c, (0 < fpf)%nat ->
  dump_run g (Z.of_nat fpf) dt l ps = Ok ps' -> nth_error ps i = Some (p, f) -> pr_component p = CArray c ->
  holds fpf f0 frames p f ->
  exists p' f', nth_error ps' i = Some (p', f') /\ config p' = config p /\
    holds fpf f0 (frames ++ dumped dt p c l) p' f'.
Proof.
  intros g fpf dt f0. induction l as [|s l IH]; intros ps ps' i p f frames c Hf H N C Hh.
  - cbn in H. injection H as <-. exists p, f. unfold dumped. cbn. rewrite app_nil_r. auto.
  - cbn [dump_run] in H. destruct (dump_data _ _ _ _ _ _ _ ps) as [[r1 ps1]| |] eqn:D; cbn [bind] in H; try discriminate. cbn [snd] in H.
    apply dump_data_stepped in D. destruct (Forall2_nth_error _ _ _ D i _ N) as ([p1 f1] & N1 & S). unfold stepped in S. cbn [fst snd] in S.
    unfold dumped. cbn [filter]. destruct (due (sn_time s) dt p) eqn:E.
    + destruct S as (-> & x & Hx & Hc). specialize (Hc c C). subst x.
      assert (Hh' := holds_snoc fpf f0 frames p f f1 _ Hf Hh Hx).
      destruct (IH ps1 ps' i (next_step p) f1 _ c Hf H N1 C Hh') as (p' & f' & N' & Cf & Hh2).
      exists p', f'. split; [exact N'|]. split; [exact Cf|]. cbn [map].
      unfold dumped in Hh2. rewrite <- app_assoc in Hh2. cbn [app] in Hh2. exact Hh2.
    + injection S as -> ->. destruct (IH ps1 ps' i p f frames c Hf H N1 C Hh) as (p' & f' & N' & Cf & Hh2).
      exists p', f'. auto.
Qed.

(** ** Concatenation and chunk sizes *)

Lemma concat_chunks : forall fpf (frames : list (list R)) m, concat (map (fun j => concat (chunk fpf j frames)) (seq 0 m)) =
  concat (firstn (m * fpf) frames).
Proof.
  intros fpf frames. induction m as [|m IH]; [reflexivity|].
  rewrite seq_S, map_app, concat_app, IH. cbn [map concat Nat.add]. rewrite app_nil_r. unfold chunk.
  rewrite <- concat_app. f_equal. replace (S m * fpf)%nat with (m * fpf + fpf)%nat by lia.
  rewrite <- (firstn_skipn (m * fpf) (firstn (m * fpf + fpf) frames)). f_equal.
  - rewrite firstn_firstn. f_equal. lia.
  - rewrite firstn_skipn_comm. reflexivity.
Qed.

Lemma chunk_length : forall fpf j (frames : list (list R)), (j * fpf + fpf <= length frames)%nat -> length (chunk fpf j frames) = fpf.
Proof. intros fpf j frames H. unfold chunk. rewrite firstn_length, skipn_length. lia. Qed.

Lemma chunk_nth : forall fpf j k (frames : list (list R)) d, (k < fpf)%nat -> nth k (chunk fpf j frames) d = nth (j * fpf + k) frames d.
Proof.
  intros fpf j k frames d H. unfold chunk.
  rewrite <- (firstn_skipn (j * fpf) frames) at 2.
  destruct (le_lt_dec (j * fpf) (length frames)) as [L|L].
  - rewrite app_nth2 by (rewrite firstn_length; lia). rewrite firstn_length.
    replace (j * fpf + k - Nat.min (j * fpf) (length frames))%nat with k by lia.
    rewrite <- (firstn_skipn fpf (skipn (j * fpf) frames)) at 2.
    destruct (le_lt_dec (length (firstn fpf (skipn (j * fpf) frames))) k) as [G|G].
    + rewrite nth_overflow by exact G. rewrite firstn_length in G. symmetry. apply nth_overflow.
      rewrite firstn_skipn. lia.
    + now rewrite app_nth1.
  - rewrite skipn_all2 by lia. rewrite firstn_nil, app_nil_r. destruct k; cbn; symmetry; apply nth_overflow; rewrite firstn_length; lia.
Qed.

(** ** Row-major order *)

Lemma zrange_length_nat : forall lo hi, length (zrange lo hi) = Z.to_nat (hi - lo).
Proof.
  intros lo hi. destruct (Z.le_gt_cases lo hi) as [L|L].
  - assert (E := zrange_length lo hi L). lia.
  - rewrite zrange_empty by lia. cbn. lia.
Qed.

Lemma zrange_nth : forall lo hi j d, (j < Z.to_nat (hi - lo))%nat -> nth j (zrange lo hi) d = (lo + Z.of_nat j)%Z.
Proof.
  intros lo hi j. revert lo. induction j as [|j IH]; intros lo d H; rewrite zrange_cons by lia; cbn [nth]; [lia|].
  rewrite IH by lia. lia.
Qed.

Lemma flat_map_length_const : forall {A B} (f : A -> list B) w l, (forall x, length (f x) = w) -> length (flat_map f l) = (length l * w)%nat.
Proof. intros A B f w l H. induction l as [|a l IH]; [reflexivity|]. cbn. rewrite app_length, IH, H. reflexivity. Qed.

Lemma flat_map_nth_const : forall {A B} (f : A -> list B) w l i k da db, (forall x, length (f x) = w) -> (i < length l)%nat -> (k < w)%nat ->
  nth (i * w + k) (flat_map f l) db = nth k (f (nth i l da)) db.
Proof.
  intros A B f w l i k da db H. revert i. induction l as [|a l IH]; intros i Hi Hk; [cbn in Hi; lia|].
  cbn [flat_map]. destruct i as [|i].
  - cbn [nth Nat.mul Nat.add]. rewrite app_nth1; [reflexivity|]. now rewrite H.
  - rewrite app_nth2 by (rewrite H; nia). rewrite H. cbn [nth]. rewrite <- IH by (cbn in Hi; lia || exact Hk). f_equal. nia.
Qed.

Lemma written_frame_length : forall p a, pr_type p = 0%Z ->
  length (written p a) = (Z.to_nat (end_r p - start_r p) * Z.to_nat (end_z p - start_z p))%nat.
Proof.
  intros p a H. unfold written. rewrite H. cbn [Z.eqb].
  rewrite (flat_map_length_const _ (Z.to_nat (end_z p - start_z p))); [now rewrite zrange_length_nat|].
  intro x. now rewrite map_length, zrange_length_nat.
Qed.

Lemma written_frame_nth : forall p a i k, pr_type p = 0%Z ->
  (i < Z.to_nat (end_r p - start_r p))%nat -> (k < Z.to_nat (end_z p - start_z p))%nat ->
  nth (i * Z.to_nat (end_z p - start_z p) + k) (written p a) 0 = a (start_r p + Z.of_nat i)%Z (start_z p + Z.of_nat k)%Z.
Proof.
  intros p a i k H Hi Hk. unfold written. rewrite H. cbn [Z.eqb].
  rewrite (flat_map_nth_const _ (Z.to_nat (end_z p - start_z p)) _ i k 0%Z).
  - rewrite zrange_nth by exact Hi. rewrite (nth_indep _ 0 (a (start_r p + Z.of_nat i)%Z 0%Z)) by (rewrite map_length, zrange_length_nat; exact Hk).
    rewrite (map_nth (fun k => a (start_r p + Z.of_nat i)%Z k)). now rewrite zrange_nth by exact Hk.
  - intro x. now rewrite map_length, zrange_length_nat.
  - now rewrite zrange_length_nat.
  - exact Hk.
Qed.

Lemma written_col_nth : forall p a i, pr_type p = 1%Z -> length (written p a) = Z.to_nat (end_r p - start_r p) /\
  ((i < Z.to_nat (end_r p - start_r p))%nat -> nth i (written p a) 0 = a (start_r p + Z.of_nat i)%Z (start_z p)).
Proof.
  intros p a i H. unfold written; rewrite H; cbn [Z.eqb Pos.eqb]; split; [now rewrite map_length, zrange_length_nat|]. intro Hi.
  rewrite (nth_indep _ 0 (a 0%Z (start_z p))) by (rewrite map_length, zrange_length_nat; exact Hi).
  rewrite (map_nth (fun k => a k (start_z p))). now rewrite zrange_nth by exact Hi.
Qed.

Lemma written_row_nth : forall p a k, pr_type p = 2%Z -> length (written p a) = Z.to_nat (end_z p - start_z p) /\
  ((k < Z.to_nat (end_z p - start_z p))%nat -> nth k (written p a) 0 = a (start_r p) (start_z p + Z.of_nat k)%Z).
Proof.
  intros p a k H. unfold written; rewrite H; cbn [Z.eqb Pos.eqb]; split; [now rewrite map_length, zrange_length_nat|]. intro Hk.
  rewrite (nth_indep _ 0 (a (start_r p) 0%Z)) by (rewrite map_length, zrange_length_nat; exact Hk).
  rewrite (map_nth (fun k => a (start_r p) k)). now rewrite zrange_nth by exact Hk.
Qed.

Lemma written_dot : forall p a, pr_type p = 3%Z -> written p a = [a (start_r p) (start_z p)].
Proof. intros p a H. unfold written. rewrite H. reflexivity. Qed.

(** ** Dump steps *)

Lemma due_exact : forall dt p n, 0 < dt -> (0 < schedule p)%Z ->
  due (INR n * dt) dt p = Nat.eqb (Nat.modulo n (Z.to_nat (schedule p))) 0.
Proof.
  intros dt p n Hdt Hs. unfold due. destruct (dump_now_exact dt (schedule p) n Hdt ltac:(lia)) as (b & -> & E).
  apply eq_true_iff_eq. rewrite E, Nat.eqb_eq. split; intro H.
  - apply Z.mod_divide in H; [|lia]. apply Nat2Z.inj. rewrite Nat2Z.inj_mod, Z2Nat.id by lia. exact H.
  - apply Z.mod_divide; [lia|]. apply (f_equal Z.of_nat) in H. rewrite Nat2Z.inj_mod, Z2Nat.id in H by lia. exact H.
Qed.

Lemma dumped_steps : forall dt p c (snap : nat -> snapshot) n, 0 < dt -> (0 < schedule p)%Z ->
  (forall k, sn_time (snap k) = INR k * dt) ->
  dumped dt p c (map snap (seq 0 n)) =
  map (fun k => written p (sn_arrays (snap k) c)) (dump_steps (Z.to_nat (schedule p)) n).
Proof.
  intros dt p c snap n Hdt Hs Ht. unfold dumped, dump_steps. generalize (seq 0 n). intro l. induction l as [|k l IH]; [reflexivity|].
  cbn [map filter]. rewrite Ht, due_exact by assumption.
  destruct (Nat.eqb (Nat.modulo k (Z.to_nat (schedule p))) 0); cbn [map]; now rewrite IH.
Qed.

(** ** The beam density probe *)

(** density of all bunches *)
Definition weigh (g : geom) (bunches : list (list qpart)) (rho : arr) : arr := fold_left (charge_weighting g) bunches rho.

Lemma weigh_at : forall g bunches rho i k,
  weigh g bunches rho i k = rho i k + rsum (map (fun b => charge_weighting g zero_arr b i k) bunches).
Proof.
  intros g. unfold weigh. induction bunches as [|b bs IH]; intros rho i k; [cbn; lra|]. cbn [fold_left map rsum].
  rewrite IH. assert (X := charge_weighting_sum g b zero_arr i k). change (zero_arr i k) with 0 in X.
  rewrite (charge_weighting_sum g b rho). lra.
Qed.

Definition is_rho (p : probe) : bool := match pr_component p with CRhoBeam => true | _ => false end.

Definition active_rho (t dt : R) (ps : list (probe * files)) : nat :=
  length (filter (fun pf => is_rho (fst pf) && due t dt (fst pf)) ps).

Lemma written_ext : forall p a b, (forall i k, a i k = b i k) -> written p a = written p b.
Proof.
  intros p a b H. unfold written. destruct (pr_type p =? 0)%Z.
  { apply flat_map_ext. intro i. apply map_ext. intro k. apply H. }
  destruct (pr_type p =? 1)%Z; [apply map_ext; intro; apply H|].
  destruct (pr_type p =? 2)%Z; [apply map_ext; intro; apply H|].
  destruct (pr_type p =? 3)%Z; [now rewrite H|reflexivity].
Qed.

Lemma dump_data_rho : forall g fpf t dt arrays bunches pre p f post rho rho' ps', 
  dump_data g fpf t dt arrays bunches rho (pre ++ (p, f) :: post) = Ok (rho', ps') ->
  pr_component p = CRhoBeam -> due t dt p = true ->
  exists f', nth_error ps' (length pre) = Some (next_step p, f') /\
    f' (Z.quot (step_number p) fpf) = f (Z.quot (step_number p) fpf) ++
      written p (fun i k => rho i k + INR (S (active_rho t dt pre)) * rsum (map (fun b => charge_weighting g zero_arr b i k) bunches)).
Proof.
  intros g fpf t dt arrays bunches. induction pre as [|[p0 f0] pre IH]; intros p f post rho rho' ps' H C E.
  - cbn [app dump_data] in H. unfold due in E. destruct (dump_now t dt (schedule p)) as [b| |]; cbn [bind] in H; try discriminate. subst b.
    unfold file_number in H. destruct (fpf =? 0)%Z; cbn [bind] in H; [discriminate|]. rewrite C in H.
    destruct (dump_data _ _ _ _ _ _ _ post) as [[r1 ps1]| |]; cbn [bind] in H; try discriminate. injection H as <- <-.
    eexists. split; [reflexivity|]. cbn [fst snd]. unfold append. rewrite Z.eqb_refl. f_equal. apply written_ext. intros i k.
    change (fold_left (charge_weighting g) bunches rho) with (weigh g bunches rho). rewrite weigh_at.
    unfold active_rho. cbn. lra.
  - cbn [app dump_data] in H. destruct (dump_now t dt (schedule p0)) as [b| |] eqn:E0; cbn [bind] in H; try discriminate.
    assert (A : active_rho t dt ((p0, f0) :: pre) = ((if is_rho p0 && b then 1 else 0) + active_rho t dt pre)%nat).
    { unfold active_rho. cbn [filter fst]. unfold due at 1. rewrite E0. destruct (is_rho p0 && b); reflexivity. }
    rewrite A. destruct b.
    + unfold file_number in H. destruct (fpf =? 0)%Z; cbn [bind] in H; [discriminate|].
      match type of H with context [dump_data _ _ _ _ _ _ ?r _] => destruct (dump_data g fpf t dt arrays bunches r (pre ++ (p, f) :: post)) as [[r1 ps1]| |] eqn:D end;
        cbn [bind] in H; try discriminate. injection H as <- <-. cbn [length nth_error snd].
      destruct (IH p f post _ _ _ D C E) as (f' & N & X). exists f'. split; [exact N|]. rewrite X. f_equal. apply written_ext. intros i k.
      unfold is_rho. destruct (pr_component p0); cbn [andb].
      * reflexivity.
      * change (fold_left (charge_weighting g) bunches rho) with (weigh g bunches rho). rewrite weigh_at.
        cbn [Nat.add]. rewrite !S_INR. lra.
      * reflexivity.
    + rewrite andb_false_r. destruct (dump_data _ _ _ _ _ _ rho _) as [[r1 ps1]| |] eqn:D; cbn [bind] in H; try discriminate.
      injection H as <- <-. cbn [length nth_error snd]. destruct (IH p f post _ _ _ D C E) as (f' & N & X). exists f'. split; [exact N|]. exact X.
Qed.
