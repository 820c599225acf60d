(** Proofs for C37. *)
From Coq Require Import String Ascii List Bool Arith Lia.
From Verif.Model Require Import MkDir.
From Verif.Spec Require Import Tree.
Import ListNotations.
Local Open Scope string_scope.
Local Open Scope list_scope.

(** ** Strings *)

Lemma app_assoc_s : forall a b c, ((a ++ b) ++ c = a ++ b ++ c)%string.
Proof. induction a as [|x a IH]; intros; cbn; [reflexivity|now rewrite IH]. Qed.

Lemma app_nil_s : forall a, (a ++ "" = a)%string.
Proof. induction a as [|x a IH]; cbn; [reflexivity|now rewrite IH]. Qed.

Definition no_slash (n : string) : Prop := ~ In "/"%char (list_ascii_of_string n).

Lemma split_app : forall n s, no_slash n -> split (n ++ s) = match split s with h :: t => (n ++ h)%string :: t | [] => [] end.
Proof.
  induction n as [|c n IH]; intros s H.
  - cbn. destruct (split s) eqn:E; [|reflexivity]. reflexivity.
  - cbn [append split]. destruct (Ascii.eqb_spec c "/") as [->|N].
    + exfalso. apply H. now left.
    + rewrite IH by (intro; apply H; now right). now destruct (split s).
Qed.

Lemma abs_path_cons : forall n l, abs_path (n :: l) = ("/" ++ n ++ abs_path l)%string.
Proof.
  intros n l. unfold abs_path. cbn [map]. destruct l as [|m l]; cbn; [now rewrite app_nil_s|reflexivity].
Qed.

Lemma abs_path_snoc : forall l n, abs_path (l ++ [n]) = (abs_path l ++ "/" ++ n)%string.
Proof.
  induction l as [|m l IH]; intro n; [reflexivity|]. cbn [app]. rewrite !abs_path_cons, IH, !app_assoc_s. reflexivity.
Qed.

Lemma split_abs : forall l, Forall no_slash l -> split (abs_path l) = "" :: l.
Proof.
  induction l as [|n l IH]; intro H; [reflexivity|]. inversion H; subst. rewrite abs_path_cons.
  cbn [append split]. change (Ascii.eqb "/" "/") with true. cbv iota. rewrite split_app by assumption.
  rewrite IH by assumption. now rewrite app_nil_s.
Qed.

Lemma split_rel : forall n l, no_slash n -> Forall no_slash l -> split (rel_path n l) = n :: l.
Proof. intros n l Hn Hl. unfold rel_path. rewrite split_app by assumption. rewrite split_abs by assumption. now rewrite app_nil_s. Qed.

Lemma find_none : forall n, no_slash n -> find_last_slash n = None.
Proof.
  induction n as [|c n IH]; intro H; [reflexivity|]. cbn. rewrite IH by (intro; apply H; now right).
  destruct (Ascii.eqb_spec c "/") as [->|]; [exfalso; apply H; now left|reflexivity].
Qed.

Lemma find_last : forall p n, no_slash n -> find_last_slash (p ++ "/" ++ n) = Some (String.length p).
Proof.
  induction p as [|c p IH]; intros n H.
  - cbn [append find_last_slash]. rewrite find_none by assumption. reflexivity.
  - assert (E := IH n H). cbn [append] in *. cbn [find_last_slash String.length]. rewrite E. reflexivity.
Qed.

Lemma substring_app : forall p q, substring 0 (String.length p) (p ++ q) = p.
Proof. induction p as [|c p IH]; intro q; cbn; [now destruct q|now rewrite IH]. Qed.

(** ** Paths *)

Definition path_of (abs : bool) (l : list string) : string :=
  if abs then abs_path l else match l with [] => "" | n :: r => rel_path n r end.
Definition base_of (abs : bool) (cwd : list string) : list string := if abs then [] else cwd.

Lemma name_no_slash : forall n, name n -> no_slash n.
Proof. intros n H. apply H. Qed.

Lemma path_snoc : forall abs l n, (l <> [] \/ abs = true) -> path_of abs (l ++ [n]) = (path_of abs l ++ "/" ++ n)%string.
Proof.
  intros abs l n H. destruct abs; cbn; [apply abs_path_snoc|]. destruct H as [H|]; [|discriminate].
  destruct l as [|m l]; [contradiction|]. cbn. unfold rel_path. rewrite abs_path_snoc, app_assoc_s. reflexivity.
Qed.

Lemma path_split : forall abs l, l <> [] -> Forall name l -> split (path_of abs l) = (if abs then [""] else []) ++ l.
Proof.
  intros abs l N H. assert (F : Forall no_slash l) by (eapply Forall_impl; [exact name_no_slash|exact H]).
  destruct abs; [now apply split_abs|]. destruct l as [|n r]; [contradiction|]. inversion F; subst. now apply split_rel.
Qed.

Lemma path_absolute : forall abs l, l <> [] -> Forall name l -> absolute (path_of abs l) = abs.
Proof.
  intros abs l N H. destruct l as [|n r]; [contradiction|]. destruct abs; cbn [path_of]; [now rewrite abs_path_cons|].
  inversion H as [|? ? Hn]; subst. destruct Hn as (A & _ & _ & B). destruct n as [|c n]; [contradiction|]. cbn.
  destruct (Ascii.eqb_spec c "/") as [->|]; [exfalso; apply B; now left|reflexivity].
Qed.

Lemma path_nonempty : forall abs l, l <> [] -> Forall name l -> path_of abs l <> "".
Proof.
  intros abs l N H E. destruct l as [|n r]; [contradiction|]. destruct abs; cbn [path_of] in E; [rewrite abs_path_cons in E; discriminate|].
  inversion H as [|? ? Hn]; subst. destruct Hn as (A & _). destruct n; [contradiction|discriminate].
Qed.

Lemma name_tests : forall n, name n -> String.eqb n "" = false /\ String.eqb n "." = false /\ String.eqb n ".." = false.
Proof. intros n (A & B & C & _). repeat split; now apply String.eqb_neq. Qed.

Lemma walk_lead : forall abs f cur l, walk f cur ((if abs : bool then [""] else []) ++ l) = walk f cur l.
Proof. intros [|]; reflexivity. Qed.

(** mkdir on an ordinary path *)
Lemma mkdir_path : forall abs cwd f l n, Forall name l -> name n ->
  mkdir cwd f (path_of abs (l ++ [n])) =
  match walk f (base_of abs cwd) l with
  | inr e => inr e
  | inl parent => match f (parent ++ [n]) with
                  | Some _ => inr EEXIST
                  | None => match f parent with
                            | Some (Dir true) => inl (put f (parent ++ [n]) (Dir true))
                            | _ => inr EACCES
                            end
                  end
  end.
Proof.
  intros abs cwd f l n Hl Hn.
  assert (F : Forall name (l ++ [n])) by (apply Forall_app; split; [exact Hl|now constructor]).
  assert (N : l ++ [n] <> []) by (now destruct l).
  unfold mkdir. assert (E := path_nonempty abs _ N F). apply String.eqb_neq in E. rewrite E.
  rewrite path_split, path_absolute by assumption. rewrite app_assoc, rev_app_distr. cbn [rev app].
  destruct (name_tests n Hn) as (T1 & T2 & T3). cbn [drop_empty]. rewrite T1, T2, T3. cbn [orb].
  rewrite rev_involutive, walk_lead. reflexivity.
Qed.

Lemma exists_path : forall abs cwd f l, l <> [] -> Forall name l ->
  directory_exists cwd f (path_of abs l) = match walk f (base_of abs cwd) l with inl _ => true | inr _ => false end.
Proof.
  intros abs cwd f l N H. unfold directory_exists. assert (E := path_nonempty abs _ N H). apply String.eqb_neq in E.
  rewrite E, path_split, path_absolute, walk_lead by assumption. reflexivity.
Qed.

(** ** Walking *)

Lemma walk_cons : forall f cur n l, name n ->
  walk f cur (n :: l) = match f (cur ++ [n]) with
                        | Some (Dir _) => walk f (cur ++ [n]) l | Some File => inr ENOTDIR | None => inr ENOENT end.
Proof. intros f cur n l H. destruct (name_tests n H) as (T1 & T2 & T3). cbn [walk]. now rewrite T1, T2, T3. Qed.

Lemma app_cons_assoc : forall (a : list string) n l, a ++ n :: l = (a ++ [n]) ++ l.
Proof. intros. now rewrite <- app_assoc. Qed.

Lemma tree_below : forall f p l, tree f -> f p = None -> f (p ++ l) = None.
Proof.
  intros f p l T. revert p. induction l as [|n l IH]; intros p H; [now rewrite app_nil_r|].
  rewrite app_cons_assoc. apply IH. destruct (f (p ++ [n])) eqn:E; [|reflexivity].
  destruct (proj2 T p n) as (w & W); congruence.
Qed.

Lemma walk_inl : forall f l cur w q, Forall name l -> f cur = Some (Dir w) -> walk f cur l = inl q ->
  q = cur ++ l /\ (exists w', f q = Some (Dir w')) /\ (forall x, creatable f cur (l ++ x) <-> creatable f q x).
Proof.
  induction l as [|n l IH]; intros cur w q H D E.
  - injection E. intros <-. split; [now rewrite app_nil_r|]. split; [eauto|]. reflexivity.
  - inversion H; subst. rewrite walk_cons in E by assumption.
    destruct (f (cur ++ [n])) as [[w1|]|] eqn:G; try discriminate.
    destruct (IH _ w1 q H3 G E) as (-> & Q & C). split; [now rewrite <- app_cons_assoc|]. split; [exact Q|].
    intro x. rewrite <- C. cbn [app]. split.
    + intro K. inversion K; subst; [assumption|congruence].
    + intro K. now apply CrStep with w1.
Qed.

Lemma walk_enotdir : forall f l cur x e, Forall name l -> walk f cur l = inr e -> e <> ENOENT -> ~ creatable f cur (l ++ x).
Proof.
  induction l as [|n l IH]; intros cur x e H E Ne C; [discriminate|].
  inversion H; subst. rewrite walk_cons in E by assumption. cbn [app] in C.
  destruct (f (cur ++ [n])) as [[w1|]|] eqn:G.
  - inversion C; subst; [|congruence]. now apply (IH (cur ++ [n]) x e).
  - inversion C; subst; congruence.
  - congruence.
Qed.

Lemma walk_enoent : forall f l cur, tree f -> Forall name l -> walk f cur l = inr ENOENT ->
  l <> [] /\ f (cur ++ l) = None /\ (forall x, creatable f cur (l ++ x) <-> creatable f cur l).
Proof.
  induction l as [|n l IH]; intros cur T H E; [discriminate|]. split; [discriminate|].
  inversion H; subst. rewrite walk_cons in E by assumption.
  destruct (f (cur ++ [n])) as [[w1|]|] eqn:G; [|discriminate|].
  - destruct (IH _ T H3 E) as (_ & A & C). split; [now rewrite app_cons_assoc|]. intro x. cbn [app]. split; intro K.
    + inversion K; subst; [|congruence]. apply CrStep with w1; [exact G|]. now apply (C x).
    + inversion K; subst; [|congruence]. apply CrStep with w1; [exact G|]. now apply (C x).
  - split; [rewrite app_cons_assoc; now apply tree_below|]. intro x. cbn [app]. split; intro K.
    + inversion K; subst; [congruence|]. now apply CrNew.
    + inversion K; subst; [congruence|]. now apply CrNew.
Qed.

Lemma walk_errors : forall f l cur e, Forall name l -> walk f cur l = inr e -> e = ENOENT \/ e = ENOTDIR.
Proof.
  induction l as [|n l IH]; intros cur e H E; [discriminate|]. inversion H; subst. rewrite walk_cons in E by assumption.
  destruct (f (cur ++ [n])) as [[w1|]|]; [now apply (IH (cur ++ [n]))| |]; injection E; intros <-; tauto.
Qed.

Lemma creatable_dirs : forall f base l p w, f base = Some (Dir w) -> creatable f base l -> on_way base l p -> tree f ->
  (exists w, f p = Some (Dir w)) \/ f p = None.
Proof.
  intros f base l p w D C. revert w D p. induction C as [base w0 D|base n rest w0 G C IH|base n rest D G]; intros w1 D1 p (a & b & Na & E & ->) T.
  - destruct a; [contradiction|discriminate].
  - destruct a as [|m a]; [contradiction|]. injection E. intros E' <-. destruct a as [|m2 a].
    + left. eauto.
    + rewrite app_cons_assoc. apply (IH w0 G); [|exact T]. exists (m2 :: a), b. repeat split; [discriminate|exact E'].
  - destruct a as [|m a]; [contradiction|]. injection E. intros E' <-. right. rewrite app_cons_assoc. now apply tree_below.
Qed.

Lemma walk_all_dirs : forall f l cur, Forall name l -> (forall p, on_way cur l p -> exists w, f p = Some (Dir w)) ->
  walk f cur l = inl (cur ++ l).
Proof.
  induction l as [|n l IH]; intros cur H D; [cbn; now rewrite app_nil_r|]. inversion H; subst. rewrite walk_cons by assumption.
  destruct (D (cur ++ [n])) as (w & ->); [now exists [n], l|]. rewrite IH; [now rewrite <- app_cons_assoc|assumption|].
  intros p (a & b & Na & -> & ->). apply D. exists (n :: a), b. repeat split; [discriminate|]. now rewrite <- app_cons_assoc.
Qed.

Lemma on_way_snoc : forall base l n p, on_way base (l ++ [n]) p <-> on_way base l p \/ p = base ++ l ++ [n].
Proof.
  intros base l n p. split.
  - intros (a & b & Na & E & ->). destruct b as [|y b _] using rev_ind.
    + right. now rewrite app_nil_r in E; subst.
    + left. rewrite app_assoc in E. apply app_inj_tail in E. destruct E as [-> _]. now exists a, b.
  - intros [(a & b & Na & -> & ->)| ->].
    + exists a, (b ++ [n]). repeat split; [exact Na|now rewrite app_assoc].
    + exists (l ++ [n]), []. repeat split; [now destruct l|now rewrite app_nil_r].
Qed.

Lemma on_way_length : forall base l p, on_way base l p -> (length p <= length base + length l)%nat.
Proof. intros base l p (a & b & _ & -> & ->). rewrite !app_length. lia. Qed.

Lemma path_eqb_spec : forall p q, reflect (p = q) (path_eqb p q).
Proof. intros. unfold path_eqb. destruct (list_eq_dec _ _ _); now constructor. Qed.

(** ** The main lemma *)

Lemma make_path : forall abs cwd f, tree f -> forall w, f (base_of abs cwd) = Some (Dir w) ->
  forall l n, Forall name l -> name n -> forall fuel, (length l <= fuel)%nat ->
  let r := make_directory_fuel fuel cwd f (path_of abs (l ++ [n])) in
  (snd r = true <-> creatable f (base_of abs cwd) (l ++ [n])) /\
  (snd r = true -> completed (base_of abs cwd) (l ++ [n]) f (fst r)) /\
  (snd r = false -> fst r = f).
Proof.
  intros abs cwd f T w D l. induction l as [|m l IH] using rev_ind; intros n Hl Hn fuel Hf.
  - (* one name *)
    assert (M := mkdir_path abs cwd f [] n (Forall_nil _) Hn). cbn [app walk] in M.
    cbn [app]. set (B := base_of abs cwd) in *.
    assert (R : make_directory_fuel fuel cwd f (path_of abs [n]) =
      match f (B ++ [n]) with
      | Some (Dir _) => (f, true) | Some File => (f, false)
      | None => match f B with Some (Dir true) => (put f (B ++ [n]) (Dir true), true) | _ => (f, false) end end).
    { assert (X := exists_path abs cwd f [n] ltac:(discriminate) ltac:(now constructor)). fold B in X.
      rewrite walk_cons in X by assumption. cbn [walk] in X.
      destruct fuel; cbn [make_directory_fuel]; rewrite M; destruct (f (B ++ [n])) as [[?|]|]; rewrite ?X; try reflexivity;
        rewrite D; destruct w; reflexivity. }
    cbv zeta. rewrite R. destruct (f (B ++ [n])) as [[w1|]|] eqn:G; cbn [fst snd].
    + split; [|split; [|discriminate]].
      * split; [|reflexivity]. intros _. apply CrStep with w1; [exact G|]. now apply CrHere with w1.
      * intros _. split; [|reflexivity]. intros p (a & b & Na & E & ->) F.
        destruct a as [|x a]; [contradiction|]. destruct a; [|now destruct a]. injection E. intros _ <-. congruence.
    + split; [|split; [discriminate|reflexivity]]. split; [discriminate|]. intro C. inversion C; subst; congruence.
    + rewrite D. destruct w; cbn [fst snd].
      * split; [|split; [|discriminate]].
        -- split; [|reflexivity]. intros _. now apply CrNew.
        -- intros _. split.
           ++ intros p (a & b & Na & E & ->) F. destruct a as [|x a]; [contradiction|]. destruct a; [|now destruct a].
              injection E. intros _ <-. unfold put. destruct (path_eqb_spec (B ++ [n]) (B ++ [n])); [reflexivity|contradiction].
           ++ intros p Hp. unfold put. destruct (path_eqb_spec (B ++ [n]) p) as [<-|]; [|reflexivity].
              exfalso. apply Hp; [|exact G]. now exists [n], [].
      * split; [|split; [discriminate|reflexivity]]. split; [discriminate|]. intro C. inversion C; subst; congruence.
  - (* longer paths *)
    apply Forall_app in Hl. destruct Hl as [Hl Hm]. inversion Hm as [|? ? Hm1 _]; subst.
    assert (Hlm : Forall name (l ++ [m])) by (apply Forall_app; split; [exact Hl|now constructor]).
    set (pre := l ++ [m]) in *. set (B := base_of abs cwd) in *.
    assert (Np : pre <> []) by (unfold pre; now destruct l).
    assert (M : forall f', mkdir cwd f' (path_of abs (pre ++ [n])) = _) by (intro f'; apply (mkdir_path abs cwd f' pre n Hlm Hn)).
    fold B in M.
    assert (Lp : length pre = S (length l)) by (unfold pre; rewrite app_length; cbn; lia).
    destruct fuel as [|fuel]; [lia|]. cbv zeta. cbn [make_directory_fuel]. rewrite M.
    destruct (walk f B pre) as [q|e] eqn:W.
    + destruct (walk_inl f pre B w q Hlm D W) as (-> & (w1 & Q) & C).
      destruct (f ((B ++ pre) ++ [n])) as [[w2|]|] eqn:G; cbn [fst snd].
      * assert (X := exists_path abs cwd f (pre ++ [n]) ltac:(now destruct pre) ltac:(apply Forall_app; split; [exact Hlm|now constructor])).
        fold B in X. assert (Y : walk f B (pre ++ [n]) = inl (B ++ pre ++ [n])).
        { apply walk_all_dirs; [apply Forall_app; split; [exact Hlm|now constructor]|]. intros p Hp. apply on_way_snoc in Hp.
          destruct Hp as [Hp| ->]; [|rewrite app_assoc; eauto].
          assert (Cq : creatable f B pre) by (rewrite <- (app_nil_r pre); apply C; now apply CrHere with w1).
          destruct (creatable_dirs f B pre p w D Cq Hp T) as [|Fp]; [assumption|].
          exfalso. destruct Hp as (a & b & _ & E & ->). assert (Z := tree_below f _ b T Fp).
          rewrite <- app_assoc, <- E in Z. congruence. }
        rewrite X, Y. split; [|split; [|discriminate]].
        -- split; [|reflexivity]. intros _. apply C. apply CrStep with w2; [exact G|]. now apply CrHere with w2.
        -- intros _. split; [|reflexivity]. intros p Hp Fp. exfalso. destruct Hp as (a & b & _ & E & ->).
           assert (Z := tree_below f _ b T Fp). rewrite <- app_assoc, <- E, app_assoc in Z. congruence.
      * assert (X := exists_path abs cwd f (pre ++ [n]) ltac:(now destruct pre) ltac:(apply Forall_app; split; [exact Hlm|now constructor])).
        fold B in X. assert (Y : walk f B (pre ++ [n]) = inr ENOTDIR).
        { clear - W G Hlm Hn. revert W G. generalize B. induction Hlm as [|x k Hx Hk IHk]; intros B0 W G.
          - cbn [app]. rewrite walk_cons by assumption. injection W. intros E. rewrite app_nil_r in G. now rewrite G.
          - cbn [app]. rewrite walk_cons in * by assumption. destruct (f (B0 ++ [x])) as [[?|]|]; try discriminate.
            apply IHk; [rewrite W; f_equal; apply app_cons_assoc|]. now rewrite <- app_cons_assoc. }
        rewrite X, Y. split; [|split; [discriminate|reflexivity]]. split; [discriminate|]. intro K. apply C in K. inversion K; subst; congruence.
      * rewrite Q. destruct w1; cbn [fst snd].
        -- split; [|split; [|discriminate]].
           ++ split; [|reflexivity]. intros _. apply C. now apply CrNew.
           ++ intros _. split.
              ** intros p Hp Fp. apply on_way_snoc in Hp. unfold put. rewrite <- app_assoc.
                 destruct (path_eqb_spec (B ++ pre ++ [n]) p) as [|Ne]; [reflexivity|].
                 destruct Hp as [Hp|]; [|congruence]. exfalso. destruct Hp as (a & b & _ & E & ->).
                 assert (Z := tree_below f _ b T Fp). rewrite <- app_assoc, <- E in Z. congruence.
              ** intros p Hp. unfold put. destruct (path_eqb_spec ((B ++ pre) ++ [n]) p) as [<-|]; [|reflexivity].
                 exfalso. apply Hp; [|exact G]. apply on_way_snoc. right. now rewrite app_assoc.
        -- split; [|split; [discriminate|reflexivity]]. split; [discriminate|]. intro K. apply C in K. inversion K; subst; congruence.
    + destruct (walk_errors f pre B e Hlm W) as [-> | ->]; cbn [fst snd].
      2:{ split; [|split; [discriminate|reflexivity]]. split; [discriminate|]. intro K. exfalso.
          now apply (walk_enotdir f pre B [n] ENOTDIR Hlm W ltac:(discriminate)). }
      destruct (walk_enoent f pre B T Hlm W) as (_ & F0 & C).
      rewrite (path_snoc abs pre n) by (now left). rewrite find_last by (now apply name_no_slash). rewrite substring_app.
      specialize (IH m Hl Hm1 fuel ltac:(lia)). fold pre in IH. cbv zeta in IH. fold B in IH.
      destruct (make_directory_fuel fuel cwd f (path_of abs pre)) as [f1 ok]. cbn [fst snd] in IH.
      destruct IH as (I1 & I2 & I3). destruct ok.
      * destruct (I2 eq_refl) as [K1 K2]. rewrite <- (path_snoc abs pre n) by (now left). rewrite M.
        assert (Cp : creatable f B pre) by (now apply I1).
        assert (W1 : walk f1 B pre = inl (B ++ pre)).
        { apply walk_all_dirs; [exact Hlm|]. intros p Hp. destruct (creatable_dirs f B pre p w D Cp Hp T) as [(w2 & E2)|E2].
          - exists w2. rewrite K2; [exact E2|congruence].
          - exists true. now apply K1. }
        rewrite W1. assert (Fn : f1 ((B ++ pre) ++ [n]) = None).
        { rewrite K2; [now apply tree_below|]. intro Hp. exfalso. apply on_way_length in Hp. rewrite !app_length in Hp. cbn in Hp. lia. }
        rewrite Fn. assert (Fb : f1 (B ++ pre) = Some (Dir true)).
        { apply K1; [|exact F0]. exists pre, []. repeat split; [exact Np|now rewrite app_nil_r]. }
        rewrite Fb. cbn [fst snd]. split; [|split; [|discriminate]].
        -- split; [|reflexivity]. intros _. now apply C.
        -- intros _. split.
           ++ intros p Hp Fp. apply on_way_snoc in Hp. unfold put. rewrite <- app_assoc.
              destruct (path_eqb_spec (B ++ pre ++ [n]) p) as [|Ne]; [reflexivity|].
              destruct Hp as [Hp|]; [|congruence]. now apply K1.
           ++ intros p Hp. unfold put. destruct (path_eqb_spec ((B ++ pre) ++ [n]) p) as [<-|].
              ** exfalso. apply Hp; [apply on_way_snoc; right; now rewrite app_assoc|]. now apply tree_below.
              ** apply K2. intro O. apply Hp. apply on_way_snoc. now left.
      * cbn [fst snd]. split; [|split; [discriminate|intros _; now apply I3]]. split; [discriminate|].
        intro K. apply C in K. apply I1 in K. discriminate.
Qed.

Lemma app_length_s : forall a b, String.length (a ++ b) = (String.length a + String.length b)%nat.
Proof. induction a as [|c a IH]; intro b; cbn; [reflexivity|now rewrite IH]. Qed.

Lemma abs_path_length : forall l, (length l <= String.length (abs_path l))%nat.
Proof. induction l as [|n l IH]; [cbn; lia|]. rewrite abs_path_cons, !app_length_s. cbn. lia. Qed.

Lemma make_names : forall abs cwd f names w, tree f -> f (base_of abs cwd) = Some (Dir w) -> names <> [] -> Forall name names ->
  let r := make_directory cwd f (path_of abs names) in
  (snd r = true <-> creatable f (base_of abs cwd) names) /\
  (snd r = true -> completed (base_of abs cwd) names f (fst r)) /\
  (snd r = false -> fst r = f).
Proof.
  intros abs cwd f names w T D N H. destruct names as [|n l _] using rev_ind; [contradiction|].
  apply Forall_app in H. destruct H as [H Hn]. inversion Hn; subst.
  apply (make_path abs cwd f T w D); try assumption.
  destruct abs; cbn [path_of].
  - assert (A := abs_path_length (l ++ [n])). rewrite app_length in A. cbn in A. lia.
  - destruct l as [|m l]; cbn [app]; [cbn; lia|]. unfold rel_path. rewrite app_length_s.
    inversion H; subst. assert (M : (1 <= String.length m)%nat).
    { destruct H4 as (A & _). destruct m; [contradiction|cbn; lia]. }
    assert (A := abs_path_length (l ++ [n])). rewrite app_length in A. cbn in *. lia.
Qed.
