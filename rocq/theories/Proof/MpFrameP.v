(** Proofs about macroparticle frames. *)
From Coq Require Import String Reals ZArith Lia Lra List Bool Psatz.
From Verif.Lib Require Import RAux Outcome Grid.
From Verif.Model Require Import Geometry Pusher Diagnostics Dump Text MpFrame.
From Verif.Spec Require Import Region.
From Verif.Proof Require Import GeometryP DiagnosticsP.
Import ListNotations.
Local Open Scope R_scope.

(** ** The region *)

Lemma cell_range : forall x h a b, 0 < h -> (0 <= a < 2147483648)%Z -> (0 <= b < 2147483648)%Z ->
  Rabs x < 2147483648 * h ->
  ((u32 a <=? u32 (CELL_NUMBER x h)) && (u32 (CELL_NUMBER x h) <=? u32 b))%Z = true <->
  IZR a * h < x <= (IZR b + 1) * h.
Proof.
  intros x h a b Hh Ha Hb Hx. rewrite (u32_id a), (u32_id b) by lia.
  assert (X1 : x < 2147483648 * h) by (apply Rle_lt_trans with (Rabs x); [apply Rle_abs|exact Hx]).
  assert (X2 : - (2147483648 * h) < x).
  { assert (- x <= Rabs x) by (rewrite <- Rabs_Ropp; apply Rle_abs). lra. }
  assert (EX : x = x / h * h) by (field; lra).
  assert (Q1 : x / h < 2147483648) by (apply Rmult_lt_reg_r with h; lra).
  assert (Q2 : - 2147483648 < x / h) by (apply Rmult_lt_reg_r with h; lra).
  pose proof (ceilZ_spec (x / h)) as [C1 C2]. unfold CELL_NUMBER.
  set (c := ceilZ (x / h)) in *.
  assert (D1 : (c <= 2147483648)%Z). { unfold c. apply ceilZ_le. lra. }
  assert (D2 : (-2147483648 < c)%Z).
  { apply lt_IZR. apply Rlt_le_trans with (x / h); [exact Q2|exact C2]. }
  rewrite andb_true_iff, !Z.leb_le. split.
  - intros [L1 L2]. assert (0 <= c - 1)%Z.
    { destruct (Z_lt_le_dec (c - 1) 0) as [N|N]; [exfalso|exact N]. unfold u32 in L2.
      rewrite <- (Z.mod_add (c - 1) 1) in L2 by lia. rewrite Z.mod_small in L2 by lia. lia. }
    rewrite u32_id in L1, L2 by lia. rewrite EX. split.
    + apply Rmult_lt_compat_r; [exact Hh|]. apply Rle_lt_trans with (IZR (c - 1)); [now apply IZR_le|]. rewrite minus_IZR. lra.
    + apply Rmult_le_compat_r; [lra|]. apply Rle_trans with (IZR c); [exact C2|]. rewrite <- plus_IZR. apply IZR_le. lia.
  - intros [L1 L2].
    assert (A1 : IZR a < x / h) by (apply Rmult_lt_reg_r with h; [exact Hh|]; lra).
    assert (A2 : x / h <= IZR b + 1) by (apply Rmult_le_reg_r with h; [exact Hh|]; lra).
    assert (B1 : (a < c)%Z) by (apply lt_IZR; lra).
    assert (B2 : (c <= b + 1)%Z). { unfold c. apply ceilZ_le. rewrite plus_IZR. exact A2. }
    rewrite u32_id by lia. lia.
Qed.

Lemma mp_shown_iff : forall g p x, geom_ok g ->
  (0 <= start_r p < 2147483648)%Z -> (0 <= end_r p < 2147483648)%Z ->
  (0 <= start_z p < 2147483648)%Z -> (0 <= end_z p < 2147483648)%Z ->
  Rabs (d_r x) < 2147483648 * dr g -> Rabs (d_z x) < 2147483648 * dz g ->
  mp_shown g p x = if in_cells_dec g (start_r p) (start_z p) (end_r p) (end_z p) x then true else false.
Proof.
  intros g p x Hg H1 H2 H3 H4 Hr Hz.
  pose proof (cell_range (d_r x) (dr g) (start_r p) (end_r p) (dr_pos g Hg) H1 H2 Hr) as A.
  pose proof (cell_range (d_z x) (dz g) (start_z p) (end_z p) (dz_pos g Hg) H3 H4 Hz) as B.
  assert (E1 : dr g = r_size g / (IZR (n_r g) - 1)) by (unfold dr; now rewrite minus_IZR).
  assert (E2 : dz g = z_size g / (IZR (n_z g) - 1)) by (unfold dz; now rewrite minus_IZR).
  destruct (in_cells_dec g (start_r p) (start_z p) (end_r p) (end_z p) x) as [I|I].
  - unfold in_cells in I. cbv zeta in I. rewrite <- E1, <- E2 in I. destruct I as [I1 I2].
    apply A in I1. apply B in I2. unfold mp_shown. cbv zeta.
    rewrite <- andb_assoc. rewrite I1. exact I2.
  - apply not_true_is_false. intro S. apply I. unfold mp_shown in S. cbv zeta in S. rewrite <- andb_assoc in S.
    apply andb_true_iff in S. destruct S as [S1 S2]. unfold in_cells. cbv zeta. rewrite <- E1, <- E2.
    split; [now apply A|now apply B].
Qed.

(** ** The files of a run *)

Definition entries (n : Z) (xs : list dpart) : mpfiles := map (fun c => ((n, c), map (mp_value c) xs)) all_cols.

Fixpoint layout (n : Z) (frames : list (list dpart)) : mpfiles :=
  match frames with
  | [] => []
  | x :: rest => entries n x ++ layout (n + 1) rest
  end.

Lemma layout_app : forall a n b, layout n (a ++ b) = layout n a ++ layout (n + Z.of_nat (length a)) b.
Proof.
  induction a as [|x a IH]; intros n b.
  - cbn [app layout length]. now rewrite Z.add_0_r.
  - cbn [app layout length]. rewrite IH, app_assoc.
    now replace (n + Z.of_nat (S (length a)))%Z with (n + 1 + Z.of_nat (length a))%Z by lia.
Qed.

Lemma layout_keys : forall frames n k, In k (map fst (layout n frames)) -> (n <= fst k < n + Z.of_nat (length frames))%Z.
Proof.
  induction frames as [|x r IH]; intros n k H; [destruct H|].
  cbn [layout] in H. rewrite map_app in H. apply in_app_or in H. cbn [length]. destruct H as [H|H].
  - cbn in H. repeat destruct H as [<-|H]; try (cbn; lia); destruct H.
  - apply IH in H. lia.
Qed.

Lemma append_file_skip : forall k vs l1 l2, (forall k', In k' (map fst l1) -> same_file k' k = false) ->
  append_file k vs (l1 ++ l2) = l1 ++ append_file k vs l2.
Proof.
  intros k vs l1 l2. induction l1 as [|[k' old] l1 IH]; intro H; [reflexivity|].
  cbn [app append_file]. rewrite (H k') by now left. f_equal. apply IH. intros k'' Hk. apply H. now right.
Qed.

Lemma same_file_number : forall k k', fst k <> fst k' -> same_file k k' = false.
Proof. intros k k' H. unfold same_file. apply andb_false_iff. left. now apply Z.eqb_neq. Qed.

Lemma mpwrite_new : forall g p n xs l, (forall k, In k (map fst l) -> fst k <> n) ->
  mpwrite g p n xs l = l ++ entries n (filter (mp_shown g p) xs).
Proof.
  intros g p n xs l H. unfold mpwrite, all_cols. cbn [fold_left].
  assert (S : forall c k, In k (map fst l) -> same_file k (n, c) = false).
  { intros c k Hk. apply same_file_number. now apply H. }
  rewrite <- (app_nil_r l) at 1. rewrite !append_file_skip by (apply S).
  f_equal. unfold same_file. cbn [append_file]. unfold same_file. cbn [fst snd mpcol_eqb]. rewrite Z.eqb_refl.
  do 3 (cbn [append_file andb]; unfold same_file; cbn [fst snd mpcol_eqb]; rewrite ?Z.eqb_refl; cbn [andb]). reflexivity.
Qed.

Lemma mpwrite_more : forall g p n xs l ys, (forall k, In k (map fst l) -> fst k <> n) ->
  mpwrite g p n xs (l ++ entries n ys) = l ++ entries n (ys ++ filter (mp_shown g p) xs).
Proof.
  intros g p n xs l ys H. unfold mpwrite, all_cols. cbn [fold_left].
  assert (S : forall c k, In k (map fst l) -> same_file k (n, c) = false).
  { intros c k Hk. apply same_file_number. now apply H. }
  rewrite !append_file_skip by (apply S).
  f_equal. unfold entries, all_cols. cbn [map].
  do 5 (cbn [append_file]; unfold same_file; cbn [fst snd mpcol_eqb]; rewrite ?Z.eqb_refl; cbn [andb]).
  rewrite !map_app. reflexivity.
Qed.

(** What one dump writes: the particles of all species with that name. *)
Definition frame_of (g : geom) (p : probe) (name : string) (species : list (string * list dpart)) : list dpart :=
  flat_map (fun s => if String.eqb (fst s) name then filter (mp_shown g p) (snd s) else []) species.

Lemma species_fold_more : forall g p n name species l ys, (forall k, In k (map fst l) -> fst k <> n) ->
  fold_left (fun f s => if String.eqb (fst s) name then mpwrite g p n (snd s) f else f) species (l ++ entries n ys) =
  l ++ entries n (ys ++ frame_of g p name species).
Proof.
  intros g p n name species. induction species as [|s r IH]; intros l ys H; cbn [fold_left].
  - unfold frame_of. cbn [flat_map]. now rewrite app_nil_r.
  - unfold frame_of. cbn [flat_map]. fold (frame_of g p name r). destruct (String.eqb (fst s) name).
    + rewrite mpwrite_more by exact H. rewrite IH by exact H. now rewrite app_assoc.
    + now rewrite IH.
Qed.

Lemma species_fold : forall g p n name species l, (forall k, In k (map fst l) -> fst k <> n) ->
  In name (map fst species) ->
  fold_left (fun f s => if String.eqb (fst s) name then mpwrite g p n (snd s) f else f) species l =
  l ++ entries n (frame_of g p name species).
Proof.
  intros g p n name species. induction species as [|s r IH]; intros l H I; [destruct I|]. cbn [fold_left].
  unfold frame_of. cbn [flat_map]. fold (frame_of g p name r).
  destruct (String.eqb (fst s) name) eqn:E.
  - rewrite mpwrite_new by exact H. now rewrite species_fold_more.
  - destruct I as [I|I]; [|now apply IH]. rewrite I, String.eqb_refl in E. discriminate.
Qed.

Definition mp_due (dt : R) (p : probe) (x : R * list (string * list dpart)) : bool :=
  match dump_now (fst x) dt (schedule p) with Ok b => b | _ => false end.

Lemma frame_of_next : forall g p name s, frame_of g (next_step p) name s = frame_of g p name s.
Proof. reflexivity. Qed.

Lemma mp_run_layout : forall g fpf dt name l p frames pf', fpf <> 0%Z ->
  mp_run g fpf dt l name (p, layout 0 frames) = Ok pf' -> step_number p = Z.of_nat (length frames) ->
  Forall (fun x => mp_due dt p x = true -> In name (map fst (snd x))) l ->
  let frames' := frames ++ map (fun x => frame_of g p name (snd x)) (filter (mp_due dt p) l) in
  snd pf' = layout 0 frames' /\ step_number (fst pf') = Z.of_nat (length frames').
Proof.
  intros g fpf dt name l. induction l as [|[t species] l IH]; intros p frames pf' Hf E S F.
  - injection E as <-. cbn. rewrite app_nil_r. now split.
  - cbn [mp_run] in E. unfold dump_mp in E. inversion F as [|? ? F1 F2]; subst.
    assert (MD : mp_due dt p (t, species) = match dump_now t dt (schedule p) with Ok b => b | _ => false end) by reflexivity.
    destruct (dump_now t dt (schedule p)) as [now| |] eqn:N; cbn [bind] in E; try discriminate E.
    cbn [filter]. destruct now.
    + rewrite MD. unfold file_number in E. destruct (fpf =? 0)%Z eqn:Z0; [apply Z.eqb_eq in Z0; contradiction|].
      cbn [bind] in E. rewrite species_fold in E.
      * assert (L : layout 0 frames ++ entries (step_number p) (frame_of g p name species) =
                    layout 0 (frames ++ [frame_of g p name species])).
        { rewrite layout_app. cbn [layout]. rewrite app_nil_r. rewrite S. f_equal. }
        rewrite L in E.
        specialize (IH (next_step p) (frames ++ [frame_of g p name species]) pf' Hf E).
        destruct IH as [A B].
        { cbn [next_step step_number]. rewrite app_length. cbn [length]. rewrite S. lia. }
        { exact F2. }
        cbn [map snd]. rewrite <- app_assoc in A, B. cbn [app] in A, B. split; [exact A|exact B].
      * intros k Hk. apply layout_keys in Hk. rewrite S. lia.
      * apply F1. exact MD.
    + rewrite MD. now apply IH with (p := p).
Qed.

Lemma layout_length : forall frames n, length (layout n frames) = (5 * length frames)%nat.
Proof.
  induction frames as [|x r IH]; intro n; [reflexivity|]. cbn [layout length]. rewrite app_length, IH. cbn [entries all_cols map length]. lia.
Qed.

Lemma mpcol_eqb_eq : forall a b, mpcol_eqb a b = true -> a = b.
Proof. intros [] []; cbn; congruence. Qed.

Lemma find_entries : forall n c x rest, find_file (n, c) (entries n x ++ rest) = Some (map (mp_value c) x).
Proof.
  intros n c x rest. unfold find_file, entries, all_cols. cbn [map app find fst]. unfold same_file. cbn [fst snd].
  rewrite Z.eqb_refl. destruct c; reflexivity.
Qed.

Lemma find_skip : forall n m c x rest, n <> m -> find_file (m, c) (entries n x ++ rest) = find_file (m, c) rest.
Proof.
  intros n m c x rest H. unfold find_file, entries, all_cols. cbn [map app find fst]. unfold same_file. cbn [fst snd].
  assert (E : (n =? m)%Z = false) by now apply Z.eqb_neq. rewrite E. reflexivity.
Qed.

Lemma find_layout : forall frames n k c, find_file (n + Z.of_nat k, c)%Z (layout n frames) =
  match nth_error frames k with Some x => Some (map (mp_value c) x) | None => None end.
Proof.
  induction frames as [|x r IH]; intros n k c.
  - destruct k; reflexivity.
  - cbn [layout]. destruct k as [|k]; cbn [nth_error].
    + rewrite Z.add_0_r. apply find_entries.
    + rewrite find_skip by lia. rewrite <- (IH (n + 1)%Z k c). f_equal. f_equal. lia.
Qed.

Lemma frame_of_spec : forall g p name species, geom_ok g ->
  (0 <= start_r p < 2147483648)%Z -> (0 <= end_r p < 2147483648)%Z ->
  (0 <= start_z p < 2147483648)%Z -> (0 <= end_z p < 2147483648)%Z ->
  Forall (fun s => Forall (fun x => Rabs (d_r x) < 2147483648 * dr g /\ Rabs (d_z x) < 2147483648 * dz g) (snd s)) species ->
  frame_of g p name species = shown_of g (start_r p) (start_z p) (end_r p) (end_z p) name species.
Proof.
  intros g p name species Hg H1 H2 H3 H4 F. unfold frame_of, shown_of.
  induction species as [|s r IH]; [reflexivity|]. inversion F as [|? ? F1 F2]; subst. cbn [flat_map].
  rewrite (IH F2). f_equal.
  destruct (string_dec (fst s) name) as [E|E].
  - apply String.eqb_eq in E. rewrite E. apply filter_ext_in. intros x Hx. rewrite Forall_forall in F1.
    destruct (F1 x Hx) as [X1 X2]. now apply mp_shown_iff.
  - apply String.eqb_neq in E. now rewrite E.
Qed.
