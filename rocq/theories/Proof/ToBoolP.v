(** Proofs for C39. *)
From Coq Require Import String Ascii List Bool Arith Lia.
From Verif.Lib Require Import Outcome.
From Verif.Model Require Import ToBool.
From Verif.Spec Require Import BoolText.
Local Open Scope string_scope.

Lemma isspace_spec : forall c, isspace c = true <-> In (nat_of_ascii c) (32 :: 9 :: 10 :: 11 :: 12 :: 13 :: nil)%nat.
Proof.
  intro c. unfold isspace. rewrite orb_true_iff, andb_true_iff, Nat.eqb_eq, !Nat.leb_le. cbn [In]. lia.
Qed.

Lemma tolower_code : forall c, nat_of_ascii (tolower c) =
  (if andb (Nat.leb 65 (nat_of_ascii c)) (Nat.leb (nat_of_ascii c) 90) then nat_of_ascii c + 32 else nat_of_ascii c)%nat.
Proof.
  intro c. unfold tolower. destruct (andb _ _) eqn:E; [|reflexivity].
  apply andb_true_iff in E. rewrite !Nat.leb_le in E. apply nat_ascii_embedding. lia.
Qed.

Lemma isspace_lower : forall c, isspace (tolower c) = isspace c.
Proof.
  intro c. apply eq_true_iff_eq. rewrite !isspace_spec, tolower_code.
  destruct (andb _ _) eqn:E; [|reflexivity]. apply andb_true_iff in E. rewrite !Nat.leb_le in E. cbn [In]. lia.
Qed.

(** a letter that is small *)
Definition small (d : ascii) : Prop := (97 <= nat_of_ascii d <= 122)%nat.

Lemma tolower_letter : forall d c, small d -> (tolower c = d <-> letter d c).
Proof.
  intros d c S. unfold letter, small in *. split.
  - intros <-. rewrite tolower_code in *. destruct (andb _ _) eqn:E.
    + right. lia.
    + left. unfold tolower. now rewrite E.
  - intro H. assert (C := tolower_code c). destruct H as [->|H].
    + unfold tolower. replace (Nat.leb (nat_of_ascii d) 90) with false; [now rewrite andb_false_r|].
      symmetry. apply Nat.leb_gt. lia.
    + assert (E : (Nat.leb 65 (nat_of_ascii c) && Nat.leb (nat_of_ascii c) 90)%bool = true).
      { apply andb_true_iff. rewrite !Nat.leb_le. lia. }
      rewrite E in C. rewrite <- (ascii_nat_embedding (tolower c)), C, H. apply ascii_nat_embedding.
Qed.

Lemma lower_blank : forall b s, blank b -> skipws (lower (b ++ s)) = skipws (lower s).
Proof.
  intros b s B. induction B as [|c b H B IH]; [reflexivity|]. cbn. rewrite isspace_lower.
  apply isspace_spec in H. now rewrite H.
Qed.

Lemma skip_split : forall s, exists b r, s = b ++ r /\ blank b /\ skipws (lower s) = lower r /\
  match r with "" => True | String c _ => isspace c = false end.
Proof.
  induction s as [|c s (b & r & E & B & K & N)].
  - exists "", "". repeat split. constructor.
  - destruct (isspace c) eqn:S.
    + exists (String c b), r. split; [cbn; congruence|]. split; [constructor; [now apply isspace_spec|exact B]|].
      split; [|exact N]. cbn. rewrite isspace_lower, S. exact K.
    + exists "", (String c s). split; [reflexivity|]. split; [constructor|]. split; [|exact S].
      cbn. now rewrite isspace_lower, S.
Qed.

(** [w] is a prefix of the lowered text *)
Lemma lower_spelled : forall w r, Forall small (list_ascii_of_string w) ->
  (exists t, lower r = w ++ t) <-> exists t r', r = t ++ r' /\ spelled w t.
Proof.
  induction w as [|d w IH]; intros r F.
  - split; intros _; [exists "", r; split; [reflexivity|constructor]|now exists (lower r)].
  - cbn in F. inversion F as [|? ? Fd Fw]; subst. split.
    + intros (t & E). destruct r as [|c r]; [discriminate|]. cbn in E. injection E. intros E2 E1.
      destruct (proj1 (IH r Fw) (ex_intro _ t E2)) as (t' & r' & -> & Sp).
      exists (String c t'), r'. split; [reflexivity|]. constructor; [|exact Sp]. now apply tolower_letter.
    + intros (t & r' & -> & Sp). inversion Sp as [|? c ? t' L Sp']; subst. cbn.
      destruct (proj2 (IH (t' ++ r') Fw)) as (t2 & E); [now exists t', r'|].
      exists t2. rewrite E. f_equal. now apply tolower_letter.
Qed.

Lemma get_bool_true : forall s, get_bool s = true <-> exists t, s = "true" ++ t.
Proof.
  intro s. split.
  - intro H.
    destruct s as [|c0 s]; [discriminate H|].
    unfold get_bool in H. cbn [read_name andb negb orb Nat.leb] in H.
    change (name_is "false" 0 c0) with (Ascii.eqb c0 "f") in H. change (name_is "true" 0 c0) with (Ascii.eqb c0 "t") in H.
    destruct (Ascii.eqb_spec c0 "t") as [->|N0].
    2:{ exfalso. destruct (Ascii.eqb_spec c0 "f") as [->|Nf]; cbn [negb andb orb] in H; [|cbn in H; discriminate].
        destruct s as [|c1 s]; [discriminate H|]. cbn [read_name andb negb orb Nat.leb] in H.
        destruct (name_is "false" 1 c1); cbn [negb andb orb] in H; [|discriminate H].
        destruct s as [|c2 s]; [discriminate H|]. cbn [read_name andb negb orb Nat.leb] in H.
        destruct (name_is "false" 2 c2); cbn [negb andb orb] in H; [|discriminate H].
        destruct s as [|c3 s]; [discriminate H|]. cbn [read_name andb negb orb Nat.leb] in H.
        destruct (name_is "false" 3 c3); cbn [negb andb orb] in H; [|discriminate H].
        destruct s as [|c4 s]; [discriminate H|]. cbn [read_name andb negb orb Nat.leb] in H.
        destruct (name_is "false" 4 c4); cbn [negb andb orb] in H; [|discriminate H].
        destruct s; discriminate H. }
    cbn [negb andb orb] in H. change (Ascii.eqb "t" "f") with false in H. cbn [negb andb orb] in H.
    destruct s as [|c1 s]; [discriminate H|]. cbn [read_name andb negb orb Nat.leb] in H.
    change (name_is "true" 1 c1) with (Ascii.eqb c1 "r") in H.
    destruct (Ascii.eqb_spec c1 "r") as [->|]; cbn [negb andb orb] in H; [|discriminate H].
    destruct s as [|c2 s]; [discriminate H|]. cbn [read_name andb negb orb Nat.leb] in H.
    change (name_is "true" 2 c2) with (Ascii.eqb c2 "u") in H.
    destruct (Ascii.eqb_spec c2 "u") as [->|]; cbn [negb andb orb] in H; [|discriminate H].
    destruct s as [|c3 s]; [discriminate H|]. cbn [read_name andb negb orb Nat.leb] in H.
    change (name_is "true" 3 c3) with (Ascii.eqb c3 "e") in H.
    destruct (Ascii.eqb_spec c3 "e") as [->|]; cbn [negb andb orb] in H; [|discriminate H].
    now exists s.
  - intros (t & ->). now destruct t.
Qed.

Lemma to_bool_blank : forall s, blank s -> to_bool s = UB.
Proof.
  intros s B. unfold to_bool. assert (E := lower_blank s "" B).
  assert (A : s ++ "" = s) by (clear; induction s as [|c s IH]; [reflexivity|cbn; now rewrite IH]).
  rewrite A in E. rewrite E. reflexivity.
Qed.

Lemma spelled_head : forall w t, spelled w t -> forall d w', w = String d w' -> exists c t', t = String c t' /\ letter d c.
Proof. intros w t S d w' E. inversion S; subst; [discriminate|]. inversion H1; subst. eauto. Qed.

Lemma small_true : Forall small (list_ascii_of_string "true").
Proof. repeat constructor; cbn; lia. Qed.

Lemma begins_true : forall s b r, s = b ++ r -> blank b ->
  match r with "" => True | String c _ => isspace c = false end ->
  (begins_with "true" s <-> exists t r', r = t ++ r' /\ spelled "true" t).
Proof.
  intros s b r -> B N. split.
  - intros (b2 & t & r2 & E & B2 & Sp). revert b2 E B2. induction B as [|c b Hc B IH]; intros b2 E B2.
    + inversion B2 as [|c2 b3 H2 B3]; subst; [cbn in E; now exists t, r2|].
      cbn in E. subst r. apply isspace_spec in H2. congruence.
    + inversion B2 as [|c2 b3 H2 B3]; subst.
      * cbn in E. destruct (spelled_head _ _ Sp _ _ eq_refl) as (c' & t' & -> & L). cbn in E. injection E. intros _ ->.
        exfalso. unfold letter in L. cbn [In] in Hc.
        destruct L as [->|L]; [cbn in Hc; lia|]. change (nat_of_ascii "t") with 116%nat in L. lia.
      * cbn in E. injection E. intros E2 ->. now apply (IH b3).
  - intros (t & r' & -> & Sp). exists b, t, r'. now repeat split.
Qed.

Lemma to_bool_cases : forall s, ~ blank s ->
  exists v, to_bool s = Ok v /\ (v = true <-> begins_with "true" s).
Proof.
  intros s N. destruct (skip_split s) as (b & r & E & B & K & M). unfold to_bool. rewrite K.
  destruct r as [|c r].
  - exfalso. apply N. rewrite E. clear - B. induction B; [constructor|cbn; now constructor].
  - exists (get_bool (lower (String c r))). split; [reflexivity|].
    rewrite get_bool_true, (lower_spelled "true" _ small_true). symmetry. now apply (begins_true s b).
Qed.

Lemma to_bool_documented : forall b t e, blank b ->
  (spelled "true" t -> to_bool (b ++ t ++ e) = Ok true) /\ (spelled "false" t -> to_bool (b ++ t ++ e) = Ok false).
Proof.
  intros b t e B.
  assert (P : forall d w c t', spelled (String d w) (String c t') -> small d ->
    match (String c t') ++ e with "" => True | String c _ => isspace c = false end).
  { intros d w c t' Sp S. cbn. inversion Sp; subst.
    assert (E : tolower c = d) by now apply tolower_letter. rewrite <- isspace_lower, E.
    unfold small in S. apply Bool.not_true_is_false. intro I. apply isspace_spec in I. cbn [In] in I. Lia.lia. }
  split; intro Sp; destruct (spelled_head _ _ Sp _ _ eq_refl) as (c & t' & -> & L);
    (assert (H := P _ _ _ _ Sp ltac:(unfold small; cbn; Lia.lia));
     assert (N : ~ blank (b ++ String c t' ++ e));
     [intro X; apply to_bool_blank in X; revert X; unfold to_bool; rewrite (lower_blank _ _ B);
      cbn in H; cbn; rewrite isspace_lower, H; discriminate|];
     destruct (to_bool_cases _ N) as (v & E & V); rewrite E; f_equal;
     rewrite (begins_true _ b (String c t' ++ e) eq_refl B H) in V).
  - apply V. now exists (String c t'), e.
  - destruct v; [|reflexivity]. exfalso. destruct (proj1 V eq_refl) as (t2 & r2 & E2 & Sp2).
    destruct (spelled_head _ _ Sp2 _ _ eq_refl) as (c2 & t3 & -> & L2). cbn in E2. injection E2. intros _ <-.
    apply tolower_letter in L; [|unfold small; cbn; Lia.lia]. apply tolower_letter in L2; [|unfold small; cbn; Lia.lia].
    congruence.
Qed.
