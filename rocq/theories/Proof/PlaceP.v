(** Proofs about places of paths, for C69. *)
From Coq Require Import String Ascii List Bool ZArith Reals Lia.
From Verif.Lib Require Import Outcome.
From Verif.Model Require Import MkDir PyPath Paths ToBool Text Pml Xml Params ToolParams.
From Verif.Spec Require Import BoolText Config ToolSpec Place.
From Verif.Proof Require Import ToBoolP ParamsP ToolParamsP.
Import ListNotations.
Local Open Scope string_scope.
Local Open Scope Z_scope.
Local Open Scope list_scope.
Local Open Scope outcome_scope.

Notation go := (fold_left move).

(** ** Parts *)

Lemma split_some : forall s, exists h t, split s = h :: t.
Proof.
  induction s as [|c s (h & t & E)]; [now exists "", []|]. cbn [split]. destruct (Ascii.eqb c "/"); [now exists "", (split s)|].
  rewrite E. now exists (String c h), t.
Qed.

Lemma follow_slash : forall cur part s, follow cur part (String "/" s) = follow (move cur part) "" s.
Proof. reflexivity. Qed.

Lemma follow_char : forall cur part c s, c <> "/"%char -> follow cur part (String c s) = follow cur (part ++ String c "")%string s.
Proof.
  intros cur part c s H. destruct c as [b0 b1 b2 b3 b4 b5 b6 b7].
  destruct b0, b1, b2, b3, b4, b5, b6, b7; try reflexivity. now contradiction H.
Qed.

Lemma follow_split : forall s cur part h t, split s = h :: t -> follow cur part s = go ((part ++ h)%string :: t) cur.
Proof.
  induction s as [|c s IH]; intros cur part h t E.
  - cbn in E. injection E as <- <-. cbn. now rewrite string_app_nil.
  - cbn [split] in E. destruct (Ascii.eqb_spec c "/"%char) as [->|N].
    + injection E as <- <-. rewrite follow_slash, string_app_nil. destruct (split_some s) as (h & t & E).
      rewrite (IH _ "" h t E), E. reflexivity.
    + rewrite follow_char by exact N. destruct (split_some s) as (h1 & t1 & E1). rewrite E1 in E. injection E as <- <-.
      rewrite (IH _ _ h1 t1 E1). now rewrite string_app_assoc.
Qed.

Definition base (cwd : list string) (s : string) : list string := if absolute s then [] else cwd.

Lemma place_go : forall cwd s, place cwd s = go (split s) (base cwd s).
Proof.
  intros cwd s. assert (F : forall b, follow b "" s = go (split s) b).
  { intro b. destruct (split_some s) as (h & t & E). now rewrite (follow_split s b "" h t E), E. }
  unfold place, base. destruct s as [|c s]; [apply F|]. cbn [absolute]. destruct (Ascii.eqb_spec c "/"%char) as [->|N]; [apply F|].
  rewrite <- F. destruct c as [b0 b1 b2 b3 b4 b5 b6 b7].
  destruct b0, b1, b2, b3, b4, b5, b6, b7; try reflexivity. now contradiction N.
Qed.

Lemma split_slash : forall a b, split (a ++ String "/" b)%string = split a ++ split b.
Proof.
  induction a as [|c a IH]; intro b; [reflexivity|]. cbn [String.append split]. rewrite IH.
  destruct (Ascii.eqb c "/"); [reflexivity|]. destruct (split_some a) as (h & t & ->). reflexivity.
Qed.

Lemma go_app : forall a b cur, go (a ++ b) cur = go b (go a cur).
Proof. intros. apply fold_left_app. Qed.

Lemma absolute_app : forall a b, a <> "" -> absolute (a ++ b)%string = absolute a.
Proof. now intros [|c a] b H. Qed.

Lemma place_slash : forall cwd a b, a <> "" -> place cwd (a ++ String "/" b)%string = go (split b) (place cwd a).
Proof. intros cwd a b H. rewrite !place_go, split_slash, go_app. unfold base. now rewrite absolute_app. Qed.

Lemma ends_slash : forall a, ends_with_slash a = true -> exists a', a = (a' ++ "/")%string.
Proof.
  induction a as [|c a IH]; [discriminate|]. destruct a as [|d a].
  - cbn. intro E. apply Ascii.eqb_eq in E. subst. now exists "".
  - intro E. destruct IH as (a' & ->); [exact E|]. now exists (String c a').
Qed.

Lemma place_join : forall cwd a b, absolute b = false -> place cwd (join a b) = go (split b) (place cwd a).
Proof.
  intros cwd a b H. unfold join. rewrite H. destruct (String.eqb_spec a "") as [->|N].
  - cbn [orb String.append]. rewrite !place_go. unfold base. now rewrite H.
  - cbn [orb]. destruct (ends_with_slash a) eqn:E; [|now apply place_slash].
    apply ends_slash in E. destruct E as (a' & ->). rewrite string_app_assoc. cbn [String.append].
    destruct a' as [|c a'].
    + rewrite !place_go. reflexivity.
    + rewrite !place_slash by discriminate. reflexivity.
Qed.

(** ** normpath *)

Definition has_slash (s : string) : Prop := In "/"%char (list_ascii_of_string s).

Definition solid_part (s : string) : Prop := s <> "" /\ s <> "." /\ ~ has_slash s.

Lemma split_parts : forall s, Forall (fun x => ~ has_slash x) (split s).
Proof.
  induction s as [|c s IH]; [repeat constructor; intros []|]. cbn [split]. destruct (Ascii.eqb_spec c "/"%char) as [->|N].
  - constructor; [intros []|exact IH].
  - destruct (split s) as [|h t]; [constructor|]. inversion IH as [|? ? I1 I2]; subst. constructor; [|exact I2].
    intros [E|E]; [congruence|now apply I1].
Qed.

Lemma move_solid : forall cur x, solid_part x -> x <> ".." -> move cur x = cur ++ [x].
Proof.
  intros cur x (A & B & _) C. unfold move. destruct x as [|c0 x]; [easy|].
  destruct x as [|c1 x].
  - destruct c0 as [b0 b1 b2 b3 b4 b5 b6 b7]. destruct b0, b1, b2, b3, b4, b5, b6, b7; try reflexivity. now contradiction B.
  - destruct c0 as [b0 b1 b2 b3 b4 b5 b6 b7].
    destruct b0, b1, b2, b3, b4, b5, b6, b7; try reflexivity.
    destruct c1 as [b0 b1 b2 b3 b4 b5 b6 b7].
    destruct b0, b1, b2, b3, b4, b5, b6, b7; try reflexivity. destruct x; [now contradiction C|reflexivity].
Qed.

Lemma norm_step_inv : forall abs cwd st comp, (abs = true -> cwd = []) -> ~ has_slash comp -> Forall solid_part st ->
  Forall solid_part (norm_step abs st comp) /\ go (rev (norm_step abs st comp)) cwd = move (go (rev st) cwd) comp.
Proof.
  intros abs cwd st comp Ha Hc Hs. unfold norm_step.
  destruct (String.eqb_spec comp "") as [->|N1]; [now split|].
  destruct (String.eqb_spec comp ".") as [->|N2]; [now split|]. cbn [orb].
  assert (Push : Forall solid_part (comp :: st) /\ go (rev (comp :: st)) cwd = move (go (rev st) cwd) comp).
  { split; [constructor; [now split|exact Hs]|]. cbn [rev]. rewrite go_app. reflexivity. }
  destruct (String.eqb_spec comp "..") as [->|N3]; [|exact Push]. cbn [negb orb].
  destruct st as [|x st].
  - rewrite orb_false_r, andb_true_r. destruct abs; [|exact Push]. cbn. rewrite Ha by reflexivity. now split.
  - rewrite andb_false_r. cbn [orb]. destruct (String.eqb_spec x "..") as [->|N4]; [exact Push|].
    inversion Hs as [|? ? I1 I2]; subst. split; [exact I2|]. cbn [rev]. rewrite go_app. cbn [fold_left].
    rewrite (move_solid _ x) by assumption. cbn [move]. now rewrite removelast_last.
Qed.

Lemma norm_fold_inv : forall abs cwd, (abs = true -> cwd = []) -> forall l, Forall (fun x => ~ has_slash x) l -> forall st, Forall solid_part st ->
  Forall solid_part (fold_left (norm_step abs) l st) /\
  go (rev (fold_left (norm_step abs) l st)) cwd = go l (go (rev st) cwd).
Proof.
  intros abs cwd Ha. induction 1 as [|c l Hc Hl IH]; intros st Hs; [now split|]. cbn [fold_left].
  destruct (norm_step_inv abs cwd st c Ha Hc Hs) as [A B]. destruct (IH _ A) as [C D]. split; [exact C|]. now rewrite D, B.
Qed.

Lemma split_whole : forall x, ~ has_slash x -> split x = [x].
Proof.
  induction x as [|c x IH]; intro H; [reflexivity|]. cbn [split]. destruct (Ascii.eqb_spec c "/"%char) as [->|N].
  - exfalso. apply H. now left.
  - rewrite IH; [reflexivity|]. intro E. apply H. now right.
Qed.

Lemma split_with_slashes : forall l, l <> [] -> Forall (fun x => ~ has_slash x) l -> split (with_slashes l) = l.
Proof.
  induction l as [|x l IH]; intros N F; [easy|]. inversion F as [|? ? F1 F2]; subst. destruct l as [|y l].
  - now apply split_whole.
  - change (with_slashes (x :: y :: l)) with (x ++ String "/" (with_slashes (y :: l)))%string.
    rewrite split_slash, IH by (discriminate || assumption). now rewrite split_whole.
Qed.

Lemma go_with_slashes : forall l cur, Forall solid_part l -> go (split (with_slashes l)) cur = go l cur.
Proof.
  intros [|x l] cur F; [reflexivity|]. rewrite split_with_slashes; [reflexivity|discriminate|].
  eapply Forall_impl; [|exact F]. now intros a (_ & _ & H).
Qed.

Lemma initial_two : forall s, absolute s = true -> initial_slashes s = "/" \/ initial_slashes s = "//".
Proof.
  intros s H. unfold initial_slashes. rewrite H. destruct s as [|a [|b [|c s]]]; auto; destruct (Ascii.eqb b "/"); auto.
  destruct (Ascii.eqb c "/"); auto.
Qed.

Lemma place_normpath : forall cwd s, place cwd (normpath s) = place cwd s.
Proof.
  intros cwd s. unfold normpath. destruct (String.eqb_spec s "") as [->|N]; [reflexivity|]. cbv zeta.
  set (st := fold_left (norm_step (absolute s)) (split s) []).
  destruct (norm_fold_inv (absolute s) (base cwd s)) with (l := split s) (st := @nil string) as [A B];
    [unfold base; intros ->; reflexivity|apply split_parts|constructor|].
  fold st in A, B. cbn [rev fold_left] in B. rewrite (place_go cwd s), <- B.
  assert (A' : Forall solid_part (rev st)) by (apply Forall_forall; intros x Hx; rewrite <- in_rev in Hx; rewrite Forall_forall in A; now apply A).
  destruct (absolute s) eqn:Abs.
  - assert (Q : base cwd s = []) by (unfold base; now rewrite Abs). rewrite Q.
    destruct (initial_two s Abs) as [-> | ->].
    + change ("/" ++ with_slashes (rev st))%string with (String "/" (with_slashes (rev st))). cbn [String.eqb].
      rewrite place_go. unfold base. cbn. now apply go_with_slashes.
    + change ("//" ++ with_slashes (rev st))%string with (String "/" (String "/" (with_slashes (rev st)))). cbn [String.eqb].
      rewrite place_go. unfold base. cbn. now apply go_with_slashes.
  - assert (Q : base cwd s = cwd) by (unfold base; now rewrite Abs). rewrite Q.
    unfold initial_slashes. rewrite Abs. cbn [String.append].
    destruct (rev st) as [|x l] eqn:E; [reflexivity|].
    assert (Nx : with_slashes (x :: l) <> "" /\ absolute (with_slashes (x :: l)) = false).
    { inversion A' as [|? ? (X1 & _ & X3) _]; subst. destruct x as [|c x]; [easy|].
      assert (C : Ascii.eqb c "/" = false) by (apply Ascii.eqb_neq; intros ->; apply X3; now left).
      destruct l; cbn; now split. }
    destruct Nx as [N1 N2]. apply String.eqb_neq in N1. rewrite N1, place_go. unfold base. rewrite N2.
    now apply go_with_slashes.
Qed.

(** ** dirname *)

Lemma head_of_none : forall f, ~ has_slash f -> head_of f = "".
Proof.
  induction f as [|c f IH]; intro H; [reflexivity|]. cbn [head_of]. rewrite IH by (intro E; apply H; now right).
  destruct (Ascii.eqb_spec c "/"%char) as [->|N]; [|reflexivity]. exfalso. apply H. now left.
Qed.

Lemma head_of_slash : forall d f, ~ has_slash f -> head_of (d ++ String "/" f)%string = (d ++ "/")%string.
Proof.
  induction d as [|c d IH]; intros f H; cbn [String.append head_of].
  - now rewrite head_of_none.
  - rewrite IH by exact H. now destruct d.
Qed.

Lemma rstrip_only : forall s, rstrip_slash s = "" <-> only_slashes s = true.
Proof.
  induction s as [|c s IH]; [easy|]. cbn. destruct (rstrip_slash s) as [|d r].
  - rewrite (proj1 IH eq_refl), andb_true_r. now destruct (Ascii.eqb c "/").
  - destruct (only_slashes s); [discriminate (proj2 IH eq_refl)|]. rewrite andb_false_r. easy.
Qed.

Lemma only_split : forall s, only_slashes s = true -> forall cur, go (split s) cur = cur.
Proof.
  induction s as [|c s IH]; intros H cur; [reflexivity|]. cbn [only_slashes] in H. apply andb_true_iff in H. destruct H as [H1 H2].
  cbn [split]. rewrite H1. cbn [fold_left move]. now apply IH.
Qed.

Lemma rstrip_split : forall s cur, go (split (rstrip_slash s)) cur = go (split s) cur.
Proof.
  assert (G : forall s, exists e, split s = split (rstrip_slash s) ++ e /\ Forall (eq "") e).
  { induction s as [|c s (e & IH & F)]; [now exists []|].
    cbn [rstrip_slash]. destruct (rstrip_slash s) as [|d r] eqn:R.
    - cbn [split] in IH. cbn [split]. rewrite IH. destruct (Ascii.eqb c "/") eqn:C.
      + exists ("" :: e). split; [reflexivity|now constructor].
      + exists e. split; [|exact F]. cbn [split app]. now rewrite C.
    - exists e. split; [|exact F]. change (split (String c (String d r))) with
        (if Ascii.eqb c "/" then "" :: split (String d r) else match split (String d r) with h :: t => String c h :: t | [] => [] end).
      cbn [split]. fold (split (String d r)). cbn [split] in IH. rewrite IH.
      destruct (Ascii.eqb c "/"); [reflexivity|]. destruct (split_some (String d r)) as (h & t & E). cbn [split] in E.
      rewrite E. reflexivity. }
  intros s cur. destruct (G s) as (e & E & F). rewrite E, go_app. generalize (go (split (rstrip_slash s)) cur). clear E.
  induction F as [|x e <- F IH]; intro l; [reflexivity|]. apply IH.
Qed.

Lemma absolute_rstrip : forall s, rstrip_slash s <> "" -> absolute (rstrip_slash s) = absolute s.
Proof.
  intros [|c s] H; [easy|]. cbn in *. destruct (rstrip_slash s); [|reflexivity]. destruct (Ascii.eqb c "/") eqn:C; [easy|].
  cbn. exact C.
Qed.

Lemma place_rstrip : forall cwd s, rstrip_slash s <> "" -> place cwd (rstrip_slash s) = place cwd s.
Proof. intros cwd s H. rewrite !place_go. unfold base. now rewrite absolute_rstrip, rstrip_split. Qed.

Lemma place_dirname : forall cwd g dir, file_in cwd g dir -> place cwd (dirname g) = dir.
Proof.
  intros cwd g dir (f & F1 & F2 & [[-> ->]|(d & -> & <-)]).
  - unfold dirname. rewrite head_of_none by exact F2. reflexivity.
  - unfold dirname. cbn [String.append]. rewrite head_of_slash by exact F2. cbv zeta.
    destruct (negb (String.eqb (d ++ "/") "") && negb (only_slashes (d ++ "/")))%bool eqn:E; [|reflexivity].
    apply andb_true_iff in E. destruct E as [_ E]. apply place_rstrip. intro R. apply rstrip_only in R. now rewrite R in E.
Qed.

(** ** Numbers *)

Lemma digit_solid : forall n, 0 <= n < 10 -> absolute (digit n) = false /\ digit n <> "".
Proof.
  intros n H. unfold digit. split; [|discriminate]. cbn [absolute].
  assert (C : n = 0 \/ n = 1 \/ n = 2 \/ n = 3 \/ n = 4 \/ n = 5 \/ n = 6 \/ n = 7 \/ n = 8 \/ n = 9) by lia.
  repeat destruct C as [-> |C]; subst; reflexivity.
Qed.

Lemma show_absolute : forall n s, absolute (show n ++ s)%string = false.
Proof.
  intros n s. unfold show. destruct (Z.ltb_spec n 0) as [L|L]; [reflexivity|].
  assert (G : forall k m, 0 <= m -> absolute (show_nonneg (S k) m) = false /\ show_nonneg (S k) m <> "").
  { induction k as [|k IH]; intros m Hm.
    - cbn. destruct (Z.ltb_spec m 10); apply digit_solid; [lia|]. now apply Z.mod_pos_bound.
    - replace (show_nonneg (S (S k)) m) with (if m <? 10 then digit m else (show_nonneg (S k) (m / 10) ++ digit (m mod 10))%string)
        by reflexivity.
      destruct (Z.ltb_spec m 10); [apply digit_solid; lia|].
      destruct (IH (m / 10)) as [A B]; [apply Z.div_pos; lia|]. rewrite absolute_app by exact B. split; [exact A|].
      now destruct (show_nonneg (S k) (m / 10)). }
  destruct (G 19%nat n L) as [A B]. rewrite absolute_app by exact B. exact A.
Qed.

(** ** The files of a probe *)

Lemma place_file : forall cwd dir n, place cwd (join dir (show n ++ ".dat")) = go (split (show n ++ ".dat")) (place cwd dir).
Proof. intros. apply place_join, show_absolute. Qed.

Lemma store_ok : forall k s r, store k s = Ok r -> r = s.
Proof. intros k s r. unfold store. destruct (Nat.ltb _ _); congruence. Qed.

Lemma make_probe_ok : forall rp root c dir, make_probe rp root c = Ok dir -> exists rc,
  rc = (if String.eqb (pc_specie c) "none" then pc_component c else pc_component c ++ "/" ++ pc_specie c)%string /\
  dir = probe_path c (rp ++ "/" ++ root) rc.
Proof.
  intros rp root c dir H. unfold make_probe, data_root, result_component in H.
  destruct (store 100 (rp ++ "/" ++ root)) as [path| |] eqn:E1; [|discriminate|discriminate]. apply store_ok in E1. subst.
  rewrite bind_ok in H.
  destruct (store 256 _) as [x2| |] eqn:E2; [|discriminate|discriminate]. rewrite bind_ok in H.
  destruct (store 10 _) as [x3| |] eqn:E3; [|discriminate|discriminate]. rewrite bind_ok in H.
  destruct (store 100 (pc_specie c)) as [x4| |] eqn:E4; [|discriminate|discriminate]. rewrite bind_ok in H.
  match type of H with bind (store 100 ?x) _ = _ => destruct (store 100 x) as [rc| |] eqn:E5; [|discriminate|discriminate] end.
  apply store_ok in E5. rewrite bind_ok in H. apply store_ok in H. exists rc. split; assumption.
Qed.

(** the place of the directory of a probe on both sides *)
Lemma sim_place : forall cwd rp root rc last, rp <> "" ->
  place cwd ((rp ++ "/" ++ root) ++ "/" ++ rc ++ "/" ++ last)%string =
  go (split last) (go (split rc) (go (split root) (place cwd rp))).
Proof.
  intros cwd rp root rc last N. cbn [String.append]. rewrite place_slash by (destruct rp; [easy|discriminate]).
  rewrite split_slash, go_app. f_equal. f_equal. now apply place_slash.
Qed.

Lemma tool_place : forall cwd dp comp last, comp <> "" -> absolute comp = false ->
  place cwd (join dp (comp ++ "/" ++ last)) = go (split last) (go (split comp) (place cwd dp)).
Proof.
  intros cwd dp comp last N A. rewrite place_join by (rewrite absolute_app by exact N; exact A).
  cbn [String.append]. now rewrite split_slash, go_app.
Qed.

Lemma component_place : forall (q : Params.probe) tq cur,
  (pr_specie q = Some (tp_specie tq) \/ pr_specie q = None /\ tp_specie tq = "") -> pr_specie q <> Some "none" ->
  tp_component tq = pr_component q ->
  let c := conf_of_probe q in
  go (split (if String.eqb (pc_specie c) "none" then pc_component c else pc_component c ++ "/" ++ pc_specie c)%string) cur =
  go (split (asked_component tq)) cur.
Proof.
  intros q tq cur S N C c. unfold asked_component, c, conf_of_probe. cbn [pc_specie pc_component]. rewrite C.
  destruct S as [S|[S T]]; rewrite S.
  - destruct (String.eqb_spec (tp_specie tq) "none") as [E|_]; [congruence|].
    destruct (String.eqb_spec (tp_specie tq) "") as [E|_]; [|reflexivity]. rewrite E. cbn [String.append].
    rewrite split_slash, go_app. reflexivity.
  - rewrite T. reflexivity.
Qed.

Lemma as_int_small : forall z, z <= 2147483647 -> as_int z = z.
Proof. intros z H. unfold as_int. destruct (Z.ltb_spec z 2147483648); [reflexivity|lia]. Qed.

Lemma probe_file_place : forall S T dp rp root nr nz e (q : Params.probe) tq n path,
  rp <> "" -> place T dp = go (split root) (place S rp) -> says_probe nr nz e q -> same_probe q tq ->
  pr_component q <> "" -> absolute (pr_component q) = false -> pr_specie q <> Some "none" ->
  (do dir <- make_probe rp root (conf_of_probe q); get_data_path dir n) = Ok path ->
  exists path', reader_file dp (asked_component tq) (tp_type tq) (asked_shape tq) n = Ok path' /\ place T path' = place S path.
Proof.
  intros S T dp rp root nr nz e q tq n path Nrp Hdp Hs (C & _ & Sp & K) N1 N2 N3 H.
  destruct (make_probe rp root (conf_of_probe q)) as [dir| |] eqn:M; [|discriminate|discriminate]. rewrite bind_ok in H.
  apply make_probe_ok in M. destruct M as (rc & Erc & Edir). unfold get_data_path in H.
  destruct (store 100 (show n)) as [name| |] eqn:E1; [|discriminate|discriminate]. apply store_ok in E1. subst name.
  rewrite bind_ok in H. apply store_ok in H.
  assert (A1 : asked_component tq <> "" /\ absolute (asked_component tq) = false).
  { unfold asked_component. rewrite C. destruct (String.eqb (tp_specie tq) ""); [now split|].
    rewrite absolute_app by exact N1. split; [now destruct (pr_component q)|exact N2]. }
  destruct A1 as [A1 A2].
  assert (Key : forall last, dir = ((rp ++ "/" ++ root) ++ "/" ++ rc ++ "/" ++ last)%string ->
    reader_path dp (asked_component tq) (tp_type tq) (asked_shape tq) = Ok (join dp (asked_component tq ++ "/" ++ last)) ->
    exists path', reader_file dp (asked_component tq) (tp_type tq) (asked_shape tq) n = Ok path' /\ place T path' = place S path).
  { intros last Ed Er. unfold reader_file. rewrite Er, bind_ok. eexists. split; [reflexivity|].
    rewrite place_file, tool_place, Hdp by assumption. rewrite H, Ed.
    change ("/" ++ show n ++ ".dat")%string with (String "/" (show n ++ ".dat"))%string.
    rewrite (place_slash S ((rp ++ "/" ++ root) ++ "/" ++ rc ++ "/" ++ last)%string (show n ++ ".dat")) by (destruct rp; [easy|discriminate]). f_equal.
    rewrite (sim_place S rp root rc last Nrp). f_equal. rewrite Erc. symmetry. now apply component_place. }
  destruct Hs as (_ & _ & _ & Ht). unfold probe_path in Edir. unfold conf_of_probe in Edir.
  cbn [pc_type pc_start_r pc_start_z pc_end_r pc_end_z] in Edir.
  assert (I : forall nm z, attr_int e nm z -> as_int z = z) by (intros nm z (? & _ & _ & ?); apply as_int_small; lia).
  assert (Ty : forall s1 s2, attr e "type" s1 -> attr e "type" s2 -> s1 = s2).
  { intros s1 s2 X Y. apply attr_attribute in X. apply attr_attribute in Y. congruence. }
  destruct K as [(K0 & K1 & K2 & K3 & K4)|[(K0 & K1 & K2)|[(K0 & K1 & K2)|(K0 & K1 & K2 & K3)]]].
  - assert (F : frame_ranges e q /\ (pr_type q = 0 /\ tp_type tq = "frame" \/ pr_type q = 4 /\ tp_type tq = "mpframe")).
    { destruct K0 as [[K0 K0']|[K0 K0']]; rewrite K0' in Ht;
        (destruct Ht as [(_ & X & F)|[(_ & X & _)|[(_ & X & _)|[(_ & X & _)|(_ & X & F)]]]]; try discriminate X; split; [exact F|auto]). }
    destruct F as ((F1 & F2 & F3 & F4) & F0).
    rewrite (I _ _ F1), (I _ _ F2), (I _ _ F3), (I _ _ F4) in Edir.
    destruct F0 as [[F0 F0']|[F0 F0']]; rewrite F0 in Edir; cbn in Edir.
    + eapply Key; [rewrite Edir; reflexivity|]. unfold reader_path, asked_shape. rewrite F0'. cbn [String.eqb Ascii.eqb Bool.eqb orb].
      rewrite K1, K2, K3, K4. reflexivity.
    + eapply Key; [rewrite Edir; reflexivity|]. unfold reader_path, asked_shape. rewrite F0'. cbn [String.eqb Ascii.eqb Bool.eqb orb].
      rewrite K1, K2, K3, K4. reflexivity.
  - rewrite K1 in Ht. destruct Ht as [(_ & X & _)|[(_ & X & _ & _ & F)|[(_ & X & _)|[(_ & X & _)|(_ & X & _)]]]]; try discriminate X.
    rewrite K1, (I _ _ F) in Edir. cbn in Edir. eapply Key; [rewrite Edir; reflexivity|]. unfold reader_path, asked_shape.
    rewrite K0. cbn [String.eqb Ascii.eqb Bool.eqb orb]. rewrite K2. reflexivity.
  - rewrite K1 in Ht. destruct Ht as [(_ & X & _)|[(_ & X & _)|[(_ & X & F & _)|[(_ & X & _)|(_ & X & _)]]]]; try discriminate X.
    rewrite K1, (I _ _ F) in Edir. cbn in Edir. eapply Key; [rewrite Edir; reflexivity|]. unfold reader_path, asked_shape.
    rewrite K0. cbn [String.eqb Ascii.eqb Bool.eqb orb]. rewrite K2. reflexivity.
  - rewrite K1 in Ht. destruct Ht as [(_ & X & _)|[(_ & X & _)|[(_ & X & _)|[(_ & X & F & G)|(_ & X & _)]]]]; try discriminate X.
    rewrite K1, (I _ _ F), (I _ _ G) in Edir. cbn in Edir. eapply Key; [rewrite Edir; reflexivity|]. unfold reader_path, asked_shape.
    rewrite K0. cbn [String.eqb Ascii.eqb Bool.eqb orb]. rewrite K2, K3. reflexivity.
Qed.

(** ** The directory of the data *)

Lemma data_place : forall S T file rp root, absolute root = false -> absolute rp = true \/ file_in T file S ->
  place T (normpath (join (data_path_of file rp) root)) = go (split root) (place S rp).
Proof.
  intros S T file rp root Hr H. rewrite place_normpath, place_join by exact Hr. f_equal. unfold data_path_of.
  destruct (absolute rp) eqn:A.
  - rewrite !place_go. unfold base. now rewrite A.
  - destruct H as [H|H]; [discriminate|]. rewrite place_normpath, place_join by exact A.
    rewrite place_normpath, (place_dirname _ _ _ H), place_go. unfold base. now rewrite A.
Qed.

Lemma not_root : forall s, ~ starts_at_root s -> absolute s = false.
Proof.
  intros [|c s] H; [reflexivity|]. cbn. apply Ascii.eqb_neq. intros ->. apply H. now exists s.
Qed.
Lemma at_root : forall s, starts_at_root s -> absolute s = true.
Proof. intros s (t & ->). reflexivity. Qed.

Lemma Forall2_shared : forall (A B C : Type) (P : A -> B -> Prop) (Q : B -> C -> Prop) l m r,
  Forall2 P l m -> Forall2 Q m r -> Forall2 (fun b c => exists a, P a b /\ Q b c) m r.
Proof.
  intros A B C P Q l m r H. revert r. induction H as [|a b l m Hp _ IH]; intros r K; inversion K as [|? c ? ? Hq K']; subst; constructor.
  - now exists a.
  - now apply IH.
Qed.

Lemma Forall2_weaken : forall (A B : Type) (P Q : A -> B -> Prop) l m, (forall a b, P a b -> Q a b) -> Forall2 P l m -> Forall2 Q l m.
Proof. intros A B P Q l m H F. induction F; constructor; auto. Qed.

Lemma tools_find : forall S T file l1 doc l2 p, Forall no_element l1 -> Forall no_element l2 ->
  is_named "initial_parameters" doc -> says_params doc p -> tools_ready doc ->
  (forall s, du_result_path (p_dump p) = Some s -> s <> "" /\ (starts_at_root s \/ file_in T file S)) ->
  (forall s, du_data_root (p_dump p) = Some s -> ~ starts_at_root s) ->
  exists p' t, parameters (Some (l1 ++ doc :: l2)) = Ok p' /\ tool_parameters file (l1 ++ doc :: l2) = Ok t /\
    Forall2 (fun q tq => pr_component q <> "" -> ~ starts_at_root (pr_component q) -> pr_specie q <> Some "none" ->
      forall n path, sim_file p' q n = Ok path ->
      exists path', reader_file (reader_data_path t) (asked_component tq) (tp_type tq) (asked_shape tq) n = Ok path' /\
        place T path' = place S path) (p_probes p') (t_probes t).
Proof.
  intros S T file l1 doc l2 p L1 L2 Hn Hs Ht Hrp Hroot.
  destruct (both_read file l1 doc l2 p L1 L2 Hn Hs Ht) as (p' & t & A & B & C & _ & D & E & _ & (rp & F & G) & _).
  exists p', t. split; [exact A|]. split; [exact B|].
  destruct C as (_ & _ & _ & _ & _ & _ & _ & _ & (es & _ & _ & P3)).
  destruct E as (_ & _ & _ & _ & _ & Er & _ & _ & _ & _ & _ & _ & _ & _ & _ & _ & _ & Ep).
  assert (F2 := Forall2_shared _ _ _ _ _ _ _ _ P3 Ep). clear P3 Ep.
  rewrite <- D in Hrp, Hroot. destruct (Hrp _ F) as [R1 R2]. symmetry in Er. specialize (Hroot _ Er).
  eapply Forall2_weaken; [|exact F2]. cbn beta. intros q tq (e & Q1 & Q2) N1 N2 N3 n path H.
  unfold sim_file in H. rewrite F, Er in H.
  eapply probe_file_place with (S := S) (rp := rp) (root := t_data_root t); try eassumption.
  - unfold reader_data_path. rewrite G. apply data_place; [now apply not_root|]. destruct R2 as [R2|R2]; [left; now apply at_root|now right].
  - now apply not_root.
Qed.
