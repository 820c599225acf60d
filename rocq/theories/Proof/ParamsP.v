(** Proofs about the configuration reader. *)
From Coq Require Import String Ascii List Bool ZArith Reals Lia Lra.
From Verif.Lib Require Import Outcome RAux.
From Verif.Model Require Import ToBool Text Pml Xml Params.
From Verif.Spec Require Import BoolText Config.
From Verif.Proof Require Import ToBoolP.
Import ListNotations.
Local Open Scope string_scope.
Local Open Scope Z_scope.
Local Open Scope list_scope.
Local Open Scope outcome_scope.

(** ** Digits *)

Lemma digit_value_digit : forall c d, 0 <= d <= 9 -> Z.of_nat (nat_of_ascii c) = 48 + d -> digit_value 10 c = Some d.
Proof.
  intros c d Hd Hc. unfold digit_value. rewrite Hc.
  destruct (Z.leb_spec 48 (48 + d)); [|lia]. destruct (Z.leb_spec (48 + d) 57); [|lia]. cbn [andb].
  destruct (Z.ltb_spec (48 + d - 48) 10); [|lia]. f_equal. lia.
Qed.

(** the rest does not go on with a digit *)
Definition no_digit (s : string) : Prop := match s with String c _ => digit_value 10 c = None | EmptyString => True end.

Lemma read_digits_none : forall s a c, no_digit s -> read_digits 10 s a c = (a, c, s).
Proof. intros [|x s] a c H; cbn in *; [reflexivity|]. now rewrite H. Qed.

Lemma string_app_assoc : forall a b c : string, ((a ++ b) ++ c = a ++ (b ++ c))%string.
Proof. induction a as [|x a IH]; intros b c; cbn; [reflexivity|now rewrite IH]. Qed.

Lemma string_length_app : forall a b : string, String.length (a ++ b) = (String.length a + String.length b)%nat.
Proof. induction a as [|x a IH]; intros b; cbn; [reflexivity|now rewrite IH]. Qed.

Lemma read_digits_digits : forall s n, digits s n -> forall r a c,
  read_digits 10 (s ++ r)%string a c =
  read_digits 10 r (a * 10 ^ Z.of_nat (String.length s) + n) (c + Z.of_nat (String.length s)).
Proof.
  induction 1 as [x d Hd Hx|s n x d Hs IH Hd Hx]; intros r a c.
  - cbn [String.append read_digits String.length]. rewrite (digit_value_digit x d Hd Hx). f_equal; lia.
  - rewrite string_app_assoc, IH. cbn [String.append read_digits]. rewrite (digit_value_digit x d Hd Hx).
    rewrite string_length_app. cbn [String.length]. rewrite Nat2Z.inj_add, Z.pow_add_r by lia. change (Z.of_nat 1) with 1. f_equal; [rewrite Z.pow_1_r; ring|lia].
Qed.

Lemma digits_value : forall s n r a c, digits s n -> no_digit r ->
  read_digits 10 (s ++ r)%string a c =
  (a * 10 ^ Z.of_nat (String.length s) + n, c + Z.of_nat (String.length s), r).
Proof. intros. rewrite (read_digits_digits s n) by assumption. now rewrite read_digits_none. Qed.

Lemma string_app_nil : forall s : string, (s ++ "")%string = s.
Proof. induction s as [|x s IH]; cbn; [reflexivity|now rewrite IH]. Qed.

Definition digit_first (s : string) : Prop := exists c s', s = String c s' /\ 48 <= Z.of_nat (nat_of_ascii c) <= 57.

Lemma digits_first : forall s n, digits s n -> digit_first s.
Proof.
  induction 1 as [x d Hd Hx|s n x d Hs IH Hd Hx].
  - exists x, "". split; [reflexivity|lia].
  - destruct IH as (c & s' & -> & Hc). exists c, (s' ++ String x "")%string. now split.
Qed.

Lemma digit_first_app : forall s r, digit_first s -> digit_first (s ++ r)%string.
Proof. intros s r (c & s' & -> & Hc). exists c, (s' ++ r)%string. now split. Qed.

Lemma digits_nonneg : forall s n, digits s n -> 0 <= n.
Proof. induction 1; lia. Qed.

Lemma digits_length : forall s n, digits s n -> (1 <= String.length s)%nat.
Proof. intros s n H. destruct (digits_first _ _ H) as (c & s' & -> & _). cbn. lia. Qed.

Lemma not_space : forall c, 33 <= Z.of_nat (nat_of_ascii c) -> isspace c = false.
Proof.
  intros c H. unfold isspace. apply orb_false_intro; [apply Nat.eqb_neq; lia|].
  apply andb_false_intro2. apply Nat.leb_gt. lia.
Qed.

Lemma read_sign_digit : forall s, digit_first s -> read_sign s = (false, s).
Proof.
  intros s (c & s' & -> & Hc). unfold read_sign.
  destruct (Ascii.eqb_spec c "-"%char) as [->|N1]; [cbn in Hc; lia|].
  destruct (Ascii.eqb_spec c "+"%char) as [->|N2]; [cbn in Hc; lia|].
  destruct c as [b0 b1 b2 b3 b4 b5 b6 b7].
  destruct b0, b1, b2, b3, b4, b5, b6, b7; try reflexivity; cbn in Hc; exfalso; first [lia|apply N1; reflexivity|apply N2; reflexivity].
Qed.

Lemma skipws_digit : forall s, digit_first s -> skipws s = s.
Proof. intros s (c & s' & -> & Hc). cbn [skipws]. rewrite not_space by lia. reflexivity. Qed.

Lemma skipws_char : forall c s, 33 <= Z.of_nat (nat_of_ascii c) -> skipws (String c s) = String c s.
Proof. intros c s H. cbn [skipws]. now rewrite not_space. Qed.

Lemma digits_whole : forall s n a c, digits s n ->
  read_digits 10 s a c = (a * 10 ^ Z.of_nat (String.length s) + n, c + Z.of_nat (String.length s), ""%string).
Proof. intros s n a c H. rewrite <- (string_app_nil s) at 1. now apply digits_value. Qed.

Lemma blank_space : forall c s, blank (String c s) -> isspace c = true /\ 9 <= Z.of_nat (nat_of_ascii c) <= 32.
Proof.
  intros c s H. inversion H as [|? ? I _]; subst. unfold isspace. cbn [In] in I.
  repeat destruct I as [I|I]; try easy; rewrite <- I; split; try reflexivity; cbn; lia.
Qed.

Lemma blank_no_digit : forall b, blank b -> no_digit b.
Proof.
  intros [|c b] H; [exact Logic.I|]. destruct (blank_space _ _ H) as [_ B]. cbn. unfold digit_value.
  destruct (Z.leb_spec 48 (Z.of_nat (nat_of_ascii c))); [lia|]. cbn [andb].
  destruct (Z.leb_spec 97 (Z.of_nat (nat_of_ascii c))); [lia|]. cbn [andb].
  destruct (Z.leb_spec 65 (Z.of_nat (nat_of_ascii c))); [lia|]. reflexivity.
Qed.

Lemma skipws_blank : forall b s, blank b -> skipws (b ++ s)%string = skipws s.
Proof.
  intros b s H. induction H as [|c b Hc Hb IH]; [reflexivity|]. cbn [String.append skipws].
  destruct (blank_space c b) as [E _]; [now constructor|]. now rewrite E.
Qed.

Lemma unpadded : forall (A : Type) (T : string -> A -> Prop) s x, T s x -> padded T s x.
Proof. intros A T s x H. rewrite <- (string_app_nil s). apply (Padded T "" s "" x); [constructor|exact H|constructor]. Qed.

(** sign and digits of an integer text, no digit behind it *)
Lemma read_int_text : forall s z r, int_text s z -> no_digit r ->
  (let '(neg, s) := read_sign (s ++ r)%string in
   let '(v, _, _) := read_digits 10 s 0 0 in if neg then - v else v) = z /\ skipws (s ++ r)%string = (s ++ r)%string.
Proof.
  intros s z r H N. destruct H as [s n H|s n H|s n H].
  - rewrite read_sign_digit by (apply digit_first_app; now apply digits_first in H).
    rewrite (digits_value s n) by assumption. split; [lia|]. apply skipws_digit, digit_first_app. now apply digits_first in H.
  - cbn [String.append read_sign]. rewrite (digits_value s n) by assumption. split; [lia|]. apply skipws_char. cbn. lia.
  - cbn [String.append read_sign]. rewrite (digits_value s n) by assumption. split; [lia|]. apply skipws_char. cbn. lia.
Qed.

Lemma atoi_text : forall s z, padded int_text s z -> INT_MIN <= z <= INT_MAX -> atoi s = Ok z.
Proof.
  intros s z [b t c x Hb H Hc] B. destruct (read_int_text t x c H (blank_no_digit _ Hc)) as [E W].
  unfold atoi. rewrite skipws_blank, W by exact Hb.
  destruct (read_sign (t ++ c)%string) as [neg s']. destruct (read_digits 10 s' 0 0) as [[v cnt] r]. cbv zeta.
  rewrite E. destruct (Z.leb_spec INT_MIN x); [|lia]. destruct (Z.leb_spec x INT_MAX); [|lia]. reflexivity.
Qed.

(** ** Real numbers *)

Lemma no_digit_exp : forall u k r, exp_text u k -> blank r -> no_digit (u ++ r)%string.
Proof. intros u k r H Hr. destruct H as [|c s k [->| ->] H]; [now apply blank_no_digit|reflexivity|reflexivity]. Qed.

Lemma blank_tolower : forall c s d, blank (String c s) -> 33 <= Z.of_nat (nat_of_ascii d) -> Ascii.eqb (tolower c) d = false.
Proof.
  intros c s d H D. destruct (blank_space _ _ H) as [_ B]. unfold tolower.
  replace (Nat.leb 65 (nat_of_ascii c)) with false by (symmetry; apply Nat.leb_gt; lia). cbn [andb].
  destruct (Ascii.eqb_spec c d) as [->|N]; [lia|reflexivity].
Qed.

Lemma read_exponent_text : forall u k r, exp_text u k -> blank r -> read_exponent "e"%char (u ++ r)%string = k.
Proof.
  intros u k r H Hr. destruct H as [|c s k Hc H].
  - cbn [String.append]. destruct r as [|c r]; [reflexivity|]. unfold read_exponent.
    rewrite (blank_tolower c r) by (exact Hr || cbn; lia). reflexivity.
  - cbn [String.append]. unfold read_exponent.
    replace (Ascii.eqb (tolower c) "e"%char) with true by (destruct Hc as [->| ->]; reflexivity).
    destruct (read_int_text s k r H (blank_no_digit _ Hr)) as [E _]. destruct (read_sign (s ++ r)%string) as [neg s'].
    destruct (read_digits 10 s' 0 0) as [[v cnt] w]. exact E.
Qed.

Lemma powerRZ_IZR10 : forall n : nat, powerRZ 10 (- Z.of_nat n) = (/ 10 ^ n)%R.
Proof.
  intro n. rewrite powerRZ_neg by lra. rewrite <- pow_powerRZ. rewrite pow_inv. reflexivity.
Qed.

Lemma IZR_pow10 : forall n : nat, IZR (10 ^ Z.of_nat n) = (10 ^ n)%R.
Proof. intro n. rewrite <- pow_IZR. reflexivity. Qed.

Lemma read_number_text : forall s t u n f k r, digits s n -> frac_text t f -> exp_text u k -> blank r ->
  read_number 10 10 "e"%char (s ++ t ++ u ++ r)%string = ((IZR n + f) * powerRZ 10 k)%R.
Proof.
  intros s t u n f k r Hs Ht Hu Hr. assert (L := digits_length _ _ Hs). assert (Nu := no_digit_exp _ _ _ Hu Hr).
  unfold read_number. destruct Ht as [|w m Hw].
  - cbn [String.append]. rewrite (digits_value s n) by assumption.
    replace (0 * 10 ^ Z.of_nat (String.length s) + n) with n by lia.
    assert (E : match (u ++ r)%string with String "."%char s' => read_digits 10 s' n 0 | _ => (n, 0, (u ++ r)%string) end = (n, 0, (u ++ r)%string)).
    { destruct Hu as [|c v k [->| ->] Hv]; [|reflexivity|reflexivity]. cbn [String.append]. destruct r as [|c r]; [reflexivity|].
      destruct (blank_space _ _ Hr) as [_ B]. destruct c as [b0 b1 b2 b3 b4 b5 b6 b7].
      destruct b0, b1, b2, b3, b4, b5, b6, b7; try reflexivity. exfalso. cbn in B. lia. }
    rewrite E. destruct (Z.eqb_spec (0 + Z.of_nat (String.length s) + 0) 0) as [X|_]; [lia|].
    rewrite (read_exponent_text u k r Hu Hr). change (IZR 10) with 10%R. change (powerRZ 10 (- 0)) with 1%R. ring.
  - assert (Lw := digits_length _ _ Hw). cbn [String.append].
    rewrite (digits_value s n) by (assumption || reflexivity).
    rewrite (digits_value w m) by assumption.
    replace (0 * 10 ^ Z.of_nat (String.length s) + n) with n by lia.
    destruct (Z.eqb_spec (0 + Z.of_nat (String.length s) + (0 + Z.of_nat (String.length w))) 0) as [X|_]; [lia|].
    rewrite (read_exponent_text u k r Hu Hr). change (IZR 10) with 10%R.
    rewrite Z.add_0_l, powerRZ_IZR10, plus_IZR, mult_IZR, IZR_pow10.
    assert (P : (0 < 10 ^ String.length w)%R) by (apply pow_lt; lra).
    field. lra.
Qed.

Lemma tolower_digit : forall c, 48 <= Z.of_nat (nat_of_ascii c) <= 57 -> tolower c = c.
Proof.
  intros c H. unfold tolower. replace (Nat.leb 65 (nat_of_ascii c)) with false; [reflexivity|].
  symmetry. apply Nat.leb_gt. lia.
Qed.

Lemma prefix_digit : forall d w s, digit_first s -> (97 <= Z.of_nat (nat_of_ascii d)) -> prefix_of (String d w) s = false.
Proof.
  intros d w s (c & s' & -> & Hc) Hd. cbn [prefix_of]. rewrite tolower_digit by exact Hc.
  destruct (Ascii.eqb_spec c d) as [->|N]; [lia|reflexivity].
Qed.

Lemma tolower_x : forall c, 48 <= Z.of_nat (nat_of_ascii c) <= 57 -> Ascii.eqb (tolower c) "x"%char = false.
Proof.
  intros c H. rewrite tolower_digit by exact H. destruct (Ascii.eqb_spec c "x"%char) as [->|N]; [cbn in H; lia|reflexivity].
Qed.

Lemma hex_second : forall c x r, Ascii.eqb (tolower x) "x"%char = false -> hex_start (String c (String x r)) = false.
Proof.
  intros c x r H. unfold hex_start. destruct r as [|d r].
  - destruct c as [b0 b1 b2 b3 b4 b5 b6 b7]; destruct b0, b1, b2, b3, b4, b5, b6, b7; reflexivity.
  - rewrite H. destruct c as [b0 b1 b2 b3 b4 b5 b6 b7]; destruct b0, b1, b2, b3, b4, b5, b6, b7; reflexivity.
Qed.

(** the second character of digits is a digit *)
Lemma digits_second : forall s n, digits s n -> forall c x r, s = String c (String x r) -> 48 <= Z.of_nat (nat_of_ascii x) <= 57.
Proof.
  induction 1 as [y d Hd Hy|s n y d Hs IH Hd Hy]; intros c x r E; [discriminate|].
  destruct (digits_first _ _ Hs) as (c1 & s1 & -> & Hc1). cbn [String.append] in E. injection E as -> E.
  destruct s1 as [|x1 s1]; cbn [String.append] in E; injection E as -> E; [lia|].
  eapply IH. reflexivity.
Qed.

Lemma hex_start_number : forall s t u n f k r, digits s n -> frac_text t f -> exp_text u k -> blank r ->
  hex_start (s ++ t ++ u ++ r)%string = false.
Proof.
  intros s t u n f k r Hs Ht Hu Hr. assert (D2 := digits_second _ _ Hs).
  destruct (digits_first _ _ Hs) as (c & s' & -> & Hc).
  destruct s' as [|x s'].
  - cbn [String.append]. destruct Ht as [|w m Hw]; cbn [String.append].
    + destruct Hu as [|e v k Hv Hk]; cbn [String.append].
      * destruct r as [|x r]; [destruct c as [b0 b1 b2 b3 b4 b5 b6 b7]; destruct b0, b1, b2, b3, b4, b5, b6, b7; reflexivity|].
        apply hex_second. apply (blank_tolower x r); [exact Hr|cbn; lia].
      * apply hex_second. destruct Hv as [->| ->]; reflexivity.
    + apply hex_second. reflexivity.
  - cbn [String.append]. apply hex_second. apply tolower_x. eapply D2. reflexivity.
Qed.

(** unsigned number texts *)
Lemma atof_unsigned : forall s x r, real_text s x -> digit_first s -> blank r ->
  prefix_of "inf" (s ++ r) = false /\ prefix_of "nan" (s ++ r) = false /\ hex_start (s ++ r) = false /\
  read_number 10 10 "e"%char (s ++ r) = x /\ read_sign (s ++ r) = (false, (s ++ r)%string) /\ skipws (s ++ r) = (s ++ r)%string.
Proof.
  intros s x r H F Hr. assert (F' := digit_first_app s r F). destruct H as [s t u n f k Hs Ht Hu|s x H _|s x H _].
  - split; [apply prefix_digit; [exact F'|cbn; lia]|]. split; [apply prefix_digit; [exact F'|cbn; lia]|].
    split; [rewrite !string_app_assoc; eapply hex_start_number; eassumption|].
    split; [rewrite !string_app_assoc; now apply read_number_text|].
    split; [now apply read_sign_digit|now apply skipws_digit].
  - destruct F as (c & s' & E & Hc). injection E as <- _. cbn in Hc. lia.
  - destruct F as (c & s' & E & Hc). injection E as <- _. cbn in Hc. lia.
Qed.

Lemma atof_text : forall s x, padded real_text s x -> atof s = Fin (parse64 x).
Proof.
  intros s0 x0 [b s r x Hb H Hr]. unfold atof. rewrite skipws_blank by exact Hb. assert (H' := H).
  destruct H as [s t u n f k Hs Ht Hu|s x H F|s x H F].
  - destruct (atof_unsigned _ _ r H') as (A & B & C & D & E & W); [apply digit_first_app; eapply digits_first; eassumption|exact Hr|].
    rewrite W, E, A, B, C, D. reflexivity.
  - destruct (atof_unsigned _ _ r H F Hr) as (A & B & C & D & E & W). cbn [String.append].
    rewrite skipws_char by (cbn; lia). cbn [read_sign]. rewrite A, B, C, D. reflexivity.
  - destruct (atof_unsigned _ _ r H F Hr) as (A & B & C & D & E & W). cbn [String.append].
    rewrite skipws_char by (cbn; lia). cbn [read_sign]. rewrite A, B, C, D. reflexivity.
Qed.

(** ** Elements *)

Lemma named_spec : forall name n, named name n = true <-> is_named name n.
Proof.
  intros name [m a k|s|]; cbn; unfold is_named.
  - rewrite String.eqb_eq. split; [intros ->; eauto|intros (a' & k' & E); congruence].
  - split; [discriminate|intros (a & k & E); discriminate].
  - split; [discriminate|intros (a & k & E); discriminate].
Qed.

Lemma named_false : forall name n, ~ is_named name n -> named name n = false.
Proof. intros name n H. destruct (named name n) eqn:E; [|reflexivity]. now apply named_spec in E. Qed.

Lemma find_only : forall name l1 c l2, is_named name c -> Forall (fun x => ~ is_named name x) l1 ->
  find (named name) (l1 ++ c :: l2) = Some c.
Proof.
  intros name l1 c l2 Hc. induction 1 as [|x l H _ IH]; cbn.
  - apply named_spec in Hc. now rewrite Hc.
  - rewrite named_false by exact H. exact IH.
Qed.

Lemma only_child : forall n name c, only n name c -> try_first_child n name = Ok c.
Proof.
  intros n name c (l1 & l2 & E & Hc & H1 & _). unfold try_first_child, first_child.
  rewrite E, find_only by assumption. reflexivity.
Qed.

Lemma picks_filter : forall name l m, picks name l m -> filter (named name) l = m.
Proof.
  induction 1 as [|x l m Hx _ IH|x l m Hx _ IH]; cbn; [reflexivity| |].
  - apply named_spec in Hx. rewrite Hx. now f_equal.
  - rewrite named_false by exact Hx. exact IH.
Qed.

Lemma picks_first : forall name n x m, picks name (kids n) (x :: m) -> try_first_child n name = Ok x.
Proof.
  intros name n x m. unfold try_first_child, first_child. intro H.
  assert (G : find (named name) (kids n) = Some x); [|now rewrite G].
  remember (x :: m) as xm eqn:E. induction H as [|y l m' Hy _ IH|y l m' Hy _ IH]; cbn; [discriminate| |].
  - injection E as -> _. apply named_spec in Hy. now rewrite Hy.
  - rewrite named_false by exact Hy. now apply IH.
Qed.

Lemma picks_none : forall name n, picks name (kids n) [] -> try_first_child n name = abort.
Proof.
  intros name n. unfold try_first_child, first_child. intro H.
  assert (G : find (named name) (kids n) = None); [|now rewrite G].
  remember [] as nil eqn:E. induction H as [|y l m' Hy _ IH|y l m' Hy _ IH]; cbn; [reflexivity|discriminate|].
  rewrite named_false by exact Hy. now apply IH.
Qed.

Lemma text_is_text : forall n s, text_is n s -> text_of n = Ok s.
Proof. intros n s (name & a & k & ->). reflexivity. Qed.

Lemma int_child_says : forall n name z, says_int n name z -> int_child n name = Ok z.
Proof.
  intros n name z (s & (c & Hc & Ht) & Hi & B). unfold int_child.
  rewrite (only_child _ _ _ Hc), bind_ok, (text_is_text _ _ Ht), bind_ok. now apply atoi_text.
Qed.

Lemma real_child_says : forall n name e, says_real n name e -> real_child n name = Ok e.
Proof.
  intros n name e (s & x & (c & Hc & Ht) & Hr & ->). unfold real_child.
  rewrite (only_child _ _ _ Hc), bind_ok, (text_is_text _ _ Ht), bind_ok. f_equal. now apply atof_text.
Qed.

Lemma find_key : forall (l : list (string * string)) name s, In (name, s) l -> NoDup (map fst l) ->
  find (fun a => String.eqb (fst a) name) l = Some (name, s).
Proof.
  induction l as [|[k v] l IH]; intros name s H N; [easy|]. cbn in N. inversion N as [|? ? N1 N2]; subst. cbn.
  destruct (String.eqb_spec k name) as [->|Q].
  - destruct H as [H|H]; [now injection H as ->|]. exfalso. apply N1. change name with (fst (name, s)). now apply in_map.
  - destruct H as [H|H]; [injection H as -> _; easy|]. now apply IH.
Qed.

Lemma attr_attribute : forall n name s, attr n name s -> attribute n name = Some s.
Proof. intros n name s [H N]. unfold attribute. now rewrite (find_key _ _ _ H N). Qed.

Lemma attr_try : forall n name s, attr n name s -> try_atribute n name = Ok s.
Proof. intros n name s H. unfold try_atribute. now rewrite (attr_attribute _ _ _ H). Qed.

Lemma attr_int_read : forall n name z, attr_int n name z -> int_attr n name = Ok z.
Proof.
  intros n name z (s & Ha & Hi & B). unfold int_attr. rewrite (attr_try _ _ _ Ha), bind_ok.
  apply atoi_text; [exact Hi|unfold INT_MIN, INT_MAX; lia].
Qed.

Lemma unsigned_id : forall n name z, attr_int n name z -> to_unsigned z = z.
Proof. intros n name z (s & _ & _ & B). unfold to_unsigned. apply Z.mod_small. lia. Qed.

Lemma unsigned_small : forall z, 0 <= z <= 2147483647 -> to_unsigned z = z.
Proof. intros z B. unfold to_unsigned. apply Z.mod_small. lia. Qed.

Lemma map_all_forall2 : forall (A B : Type) (f : A -> outcome B) (R : A -> B -> Prop),
  (forall x y, R x y -> exists y', f x = Ok y' /\ R x y') ->
  forall l m, Forall2 R l m -> exists m', map_all f l = Ok m' /\ Forall2 R l m'.
Proof.
  intros A B f R H. induction 1 as [|x y l m Hxy _ (m' & E & F)]; [exists []; now split|].
  destruct (H x y Hxy) as (y' & Ey & Hy). exists (y' :: m'). cbn. rewrite Ey, bind_ok, E, bind_ok. split; auto.
Qed.

Lemma map_all_eq : forall (A B : Type) (f : A -> outcome B) (R : A -> B -> Prop),
  (forall x y, R x y -> f x = Ok y) -> forall l m, Forall2 R l m -> map_all f l = Ok m.
Proof.
  intros A B f R H. induction 1 as [|x y l m Hxy _ E]; [reflexivity|]. cbn. now rewrite (H x y Hxy), bind_ok, E.
Qed.

(** ** Probes *)

(** The specie of the probe that is built. *)
Lemma specie_attr : forall e (sp : option string), NoDup (map fst (attrs e)) ->
  (forall s, sp = Some s <-> In ("specie", s) (attrs e)) -> attribute e "specie" = sp.
Proof.
  intros e sp N H. destruct sp as [s|].
  - apply attr_attribute. split; [now apply H|exact N].
  - unfold attribute. destruct (find _ (attrs e)) as [[k v]|] eqn:F; [|reflexivity].
    apply find_some in F. cbn in F. destruct F as [I K]. apply String.eqb_eq in K. subst k.
    apply H in I. discriminate.
Qed.

Lemma init_probe_says : forall nr nz e p, 0 <= nr <= 2147483647 -> 0 <= nz <= 2147483647 ->
  says_probe nr nz e p -> exists p', init_probe nr nz e = Ok p' /\ says_probe nr nz e p'.
Proof.
  intros nr nz e p Hnr Hnz H. assert (H0 := H). destruct H as (Hc & Hs & Hk & H).
  assert (N := proj2 Hc). assert (S := specie_attr e _ N Hs).
  unfold init_probe. rewrite (attr_try _ _ _ Hc), bind_ok, S. cbv zeta.
  assert (K := attr_int_read _ _ _ Hk). assert (KU := unsigned_id _ _ _ Hk).
  destruct H as [(Ht & T & H1 & H2 & H3 & H4)|[(Ht & T & E1 & E2 & H3)|[(Ht & T & H1 & E3 & E4)|[(Ht & T & H1 & H3)|(Ht & T & H1 & H2 & H3 & H4)]]]];
    rewrite (attr_try _ _ _ Ht), bind_ok; cbn [String.eqb Ascii.eqb Bool.eqb].
  - rewrite (attr_int_read _ _ _ H1), bind_ok, (attr_int_read _ _ _ H2), bind_ok, (attr_int_read _ _ _ H3), bind_ok,
      (attr_int_read _ _ _ H4), bind_ok, bind_ok, K, bind_ok.
    rewrite (unsigned_id _ _ _ H1), (unsigned_id _ _ _ H2), (unsigned_id _ _ _ H3), (unsigned_id _ _ _ H4), KU.
    exists p. split; [|exact H0]. destruct p; cbn in *; now subst.
  - rewrite (attr_int_read _ _ _ H3), bind_ok, bind_ok, K, bind_ok.
    rewrite (unsigned_id _ _ _ H3), KU, (unsigned_small nr Hnr). eexists. split; [reflexivity|].
    unfold says_probe. cbn. split; [exact Hc|]. split; [exact Hs|]. split; [exact Hk|]. right; left. auto.
  - rewrite (attr_int_read _ _ _ H1), bind_ok, bind_ok, K, bind_ok.
    rewrite (unsigned_id _ _ _ H1), KU, (unsigned_small nz Hnz). eexists. split; [reflexivity|].
    unfold says_probe. cbn. split; [exact Hc|]. split; [exact Hs|]. split; [exact Hk|]. right; right; left. auto.
  - rewrite (attr_int_read _ _ _ H1), bind_ok, (attr_int_read _ _ _ H3), bind_ok, bind_ok, K, bind_ok.
    rewrite (unsigned_id _ _ _ H1), (unsigned_id _ _ _ H3), KU. eexists. split; [reflexivity|].
    unfold says_probe. cbn. split; [exact Hc|]. split; [exact Hs|]. split; [exact Hk|]. right; right; right; left. auto.
  - rewrite (attr_int_read _ _ _ H1), bind_ok, (attr_int_read _ _ _ H2), bind_ok, (attr_int_read _ _ _ H3), bind_ok,
      (attr_int_read _ _ _ H4), bind_ok, bind_ok, K, bind_ok.
    rewrite (unsigned_id _ _ _ H1), (unsigned_id _ _ _ H2), (unsigned_id _ _ _ H3), (unsigned_id _ _ _ H4), KU.
    exists p. split; [|exact H0]. destruct p; cbn in *; now subst.
Qed.

Lemma init_probes_says : forall nr nz doc es ps, 0 <= nr <= 2147483647 -> 0 <= nz <= 2147483647 ->
  probe_elements doc es -> es <> [] -> Forall2 (says_probe nr nz) es ps ->
  exists out, init_probes nr nz doc = Ok out /\ Forall2 (says_probe nr nz) es out.
Proof.
  intros nr nz doc es ps Hnr Hnz (f & pr & Hf & Hp & Hk) Hn H. unfold init_probes.
  rewrite (only_child _ _ _ Hf), bind_ok, (only_child _ _ _ Hp), bind_ok.
  destruct es as [|e es]; [easy|]. rewrite (picks_first _ _ _ _ Hk), bind_ok.
  unfold all_children. rewrite (picks_filter _ _ _ Hk).
  eapply map_all_forall2; [|exact H]. intros x y Hxy. eapply init_probe_says; eassumption.
Qed.

Lemma map_all_stop : forall (A B : Type) (f : A -> outcome B) l1 x l2 m, map_all f l1 = Ok m ->
  (forall y, f x <> Ok y) -> map_all f (l1 ++ x :: l2) = match f x with Ok y => Ok [] | Exit c => Exit c | UB => UB end.
Proof.
  intros A B f. induction l1 as [|y l1 IH]; intros x l2 m E N; cbn in *.
  - destruct (f x) eqn:F; [exfalso; eapply N; reflexivity|reflexivity|reflexivity].
  - destruct (f y) eqn:F; cbn in *; try discriminate.
    destruct (map_all f l1) eqn:G; cbn in *; try discriminate. rewrite (IH x l2 a0 eq_refl N).
    destruct (f x) eqn:X; [exfalso; eapply N; reflexivity|reflexivity|reflexivity].
Qed.

(** An element with an unknown type after correct ones. *)
Lemma init_probes_unknown : forall nr nz doc es1 ps e es2 c t, 0 <= nr <= 2147483647 -> 0 <= nz <= 2147483647 ->
  probe_elements doc (es1 ++ e :: es2) -> Forall2 (says_probe nr nz) es1 ps ->
  attr e "component" c -> attr e "type" t -> ~ In t ["frame"; "col"; "row"; "dot"; "mpframe"] ->
  init_probes nr nz doc = Exit 1.
Proof.
  intros nr nz doc es1 ps e es2 c t Hnr Hnz (f & pr & Hf & Hp & Hk) H1 Hc Ht Hn. unfold init_probes.
  rewrite (only_child _ _ _ Hf), bind_ok, (only_child _ _ _ Hp), bind_ok.
  assert (F : exists x, try_first_child pr "probe" = Ok x).
  { destruct es1 as [|y es1]; cbn [app] in Hk; rewrite (picks_first _ _ _ _ Hk); eauto. }
  destruct F as (x & F). rewrite F, bind_ok. unfold all_children. rewrite (picks_filter _ _ _ Hk).
  destruct (map_all_forall2 _ _ (init_probe nr nz) (says_probe nr nz)
              ltac:(intros; eapply init_probe_says; eassumption) _ _ H1) as (m & E & _).
  assert (X : init_probe nr nz e = Exit 1).
  { unfold init_probe. rewrite (attr_try _ _ _ Hc), bind_ok. cbv zeta. rewrite (attr_try _ _ _ Ht), bind_ok.
    cbn [In] in Hn.
    repeat match goal with |- context [if String.eqb t ?x then _ else _] =>
      destruct (String.eqb_spec t x) as [Q|_]; [exfalso; apply Hn; subst t; tauto|] end.
    reflexivity. }
  rewrite (map_all_stop _ _ _ _ _ _ _ E); rewrite X; [reflexivity|discriminate].
Qed.

(** ** The other sections *)

Lemma unsigned_says : forall n name z, says_int n name z -> 0 <= z -> to_unsigned z = z.
Proof. intros n name z (s & _ & _ & B) H. apply unsigned_small. lia. Qed.

Lemma init_specie_says : forall debug e s, says_specie debug e s -> init_specie debug e = Ok s.
Proof.
  intros debug e s (H1 & H2 & H3 & P & H4 & H5 & H6 & H7). unfold init_specie.
  rewrite (attr_try _ _ _ H1), bind_ok, (int_child_says _ _ _ H2), bind_ok, (int_child_says _ _ _ H3), bind_ok,
    (real_child_says _ _ _ H4), bind_ok, (real_child_says _ _ _ H5), bind_ok, (real_child_says _ _ _ H6), bind_ok,
    (real_child_says _ _ _ H7), bind_ok, (unsigned_says _ _ _ H3 P). now destruct s.
Qed.

Lemma init_particles_says : forall debug doc es ss, specie_elements doc es -> es <> [] ->
  Forall2 (says_specie debug) es ss -> init_particles debug doc = Ok ss.
Proof.
  intros debug doc es ss (pr & Hp & Hk) Hn H. unfold init_particles.
  rewrite (only_child _ _ _ Hp), bind_ok. destruct es as [|e es]; [easy|].
  rewrite (picks_first _ _ _ _ Hk), bind_ok. unfold all_children. rewrite (picks_filter _ _ _ Hk).
  eapply map_all_eq; [|exact H]. intros x y. apply init_specie_says.
Qed.

Lemma floorZ_int : forall z, 0 <= z -> 0 <= z < 4294967296 -> double_to_unsigned (Fin (IZR z)) = Ok z.
Proof.
  intros z H B. unfold double_to_unsigned. destruct (Rlt_dec (IZR z) 0) as [L|_]; [apply lt_IZR in L; lia|].
  rewrite floorZ_IZR. destruct (Z.leb_spec 0 z); [|lia]. destruct (Z.ltb_spec z 4294967296); [|lia]. reflexivity.
Qed.

Lemma init_beam_says : forall debug doc b, says_beam debug doc b -> init_beam_parameters debug doc = Ok b.
Proof.
  intros debug doc b (e & He & (s & Es & H1) & H2 & H3 & P3 & H4 & P4 & H5 & H6 & H7 & P7 & H8 & H9 & H10).
  unfold init_beam_parameters. rewrite (only_child _ _ _ He), bind_ok, (attr_attribute _ _ _ H1). cbv zeta.
  rewrite (int_child_says _ _ _ H2), bind_ok, (int_child_says _ _ _ H3), bind_ok, (int_child_says _ _ _ H4), bind_ok,
    (real_child_says _ _ _ H5), bind_ok, (real_child_says _ _ _ H6), bind_ok, (real_child_says _ _ _ H7), bind_ok,
    (floorZ_int _ (proj1 P7) P7), bind_ok,
    (real_child_says _ _ _ H8), bind_ok, (real_child_says _ _ _ H9), bind_ok, (real_child_says _ _ _ H10), bind_ok,
    (unsigned_says _ _ _ H3 P3), (unsigned_says _ _ _ H4 P4), <- Es. now destruct b.
Qed.

Lemma init_geometry_says : forall debug doc g, says_grid debug doc g -> init_geometry debug doc = Ok g.
Proof.
  intros debug doc g (e & He & H1 & H2 & H3 & H4 & _). unfold init_geometry.
  rewrite (only_child _ _ _ He), bind_ok, (real_child_says _ _ _ H1), bind_ok, (real_child_says _ _ _ H2), bind_ok,
    (int_child_says _ _ _ H3), bind_ok, (int_child_says _ _ _ H4), bind_ok. now destruct g.
Qed.

Lemma init_pml_says : forall doc p, says_pml doc p -> init_pml doc = Ok p.
Proof.
  intros doc p (e & He & H1 & H2 & H3 & H4 & H5). unfold init_pml.
  rewrite (only_child _ _ _ He), bind_ok, (real_child_says _ _ _ H1), bind_ok, (real_child_says _ _ _ H2), bind_ok,
    (real_child_says _ _ _ H3), bind_ok, (real_child_says _ _ _ H4), bind_ok, (real_child_says _ _ _ H5), bind_ok. now destruct p.
Qed.

Lemma init_time_says : forall doc c, says_time doc c -> init_time doc = Ok c.
Proof.
  intros doc p (e & He & H1 & H2 & H3 & H4 & H5). unfold init_time.
  rewrite (only_child _ _ _ He), bind_ok, (real_child_says _ _ _ H2), bind_ok, (real_child_says _ _ _ H3), bind_ok,
    (real_child_says _ _ _ H1), bind_ok, (real_child_says _ _ _ H4), bind_ok, (real_child_says _ _ _ H5), bind_ok. now destruct p.
Qed.

Lemma bool_child_says : forall n name b, says_bool n name b -> bool_child n name = Ok b.
Proof.
  intros n name b (s & (c & Hc & Ht) & Hb). unfold bool_child.
  rewrite (only_child _ _ _ Hc), bind_ok, (text_is_text _ _ Ht), bind_ok.
  destruct Hb as [b1 t r b Hb1 Hb _]. destruct (to_bool_documented b1 t r Hb1) as [A B]. destruct Hb; auto.
Qed.

Lemma says_text : forall n name s, says n name s -> exists c, try_first_child n name = Ok c /\ get_text c = Some s.
Proof.
  intros n name s (c & Hc & (nm & a & k & ->)). exists (Elem nm a (Txt s :: k)). split; [now apply only_child|reflexivity].
Qed.

Lemma init_dump_says : forall debug doc d, says_dump debug doc d -> init_data_dump_parameters debug doc = Ok d.
Proof.
  intros debug doc d (e & He & (s1 & E1 & H1) & (s2 & E2 & H2) & H3 & P3 & H4 & H5). unfold init_data_dump_parameters.
  destruct (says_text _ _ _ H1) as (c1 & C1 & T1). destruct (says_text _ _ _ H2) as (c2 & C2 & T2).
  rewrite (only_child _ _ _ He), bind_ok, C1, bind_ok, C2, bind_ok, (int_child_says _ _ _ H3), bind_ok,
    (bool_child_says _ _ _ H4), bind_ok, (int_child_says _ _ _ H5), bind_ok, (unsigned_says _ _ _ H3 P3), T1, T2, <- E1, <- E2.
  now destruct d.
Qed.

(** The whole document. The probe list may differ from the one described in members without meaning. *)
Lemma parameters_says : forall top doc p, (exists l1 l2, top = l1 ++ doc :: l2 /\ is_named "initial_parameters" doc /\
    Forall (fun x => ~ is_named "initial_parameters" x) l1) ->
  says_params doc p -> exists p', parameters (Some top) = Ok p' /\ says_params doc p' /\
    p_debug p' = p_debug p /\ p_use_hdf5 p' = p_use_hdf5 p /\ p_grid p' = p_grid p /\ p_pml p' = p_pml p /\
    p_time p' = p_time p /\ p_species p' = p_species p /\ p_beam p' = p_beam p /\ p_dump p' = p_dump p.
Proof.
  intros top doc p (l1 & l2 & -> & Hd & Hl) (H1 & H2 & H3 & H4 & H5 & H6 & H7 & H8 & (es & E1 & E2 & E3)).
  assert (G := H3). destruct G as (_ & _ & _ & _ & (_ & _ & _ & B1) & (_ & _ & _ & B2) & B3 & B4).
  destruct (init_probes_says (gr_n_r (p_grid p)) (gr_n_z (p_grid p)) doc es (p_probes p)) as (out & O1 & O2);
    try assumption; try lia.
  assert (H6' := H6). destruct H6 as (ss & S1 & S2 & S3).
  exists (Params (p_debug p) (p_use_hdf5 p) (p_grid p) (p_pml p) (p_time p) (p_species p) (p_beam p) (p_dump p) out).
  split.
  - unfold parameters. rewrite find_only by assumption.
    rewrite (bool_child_says _ _ _ H1), bind_ok, (bool_child_says _ _ _ H2), bind_ok, (init_geometry_says _ _ _ H3), bind_ok,
      (init_pml_says _ _ H4), bind_ok, (init_time_says _ _ H5), bind_ok, (init_particles_says _ _ _ _ S1 S2 S3), bind_ok,
      (init_beam_says _ _ _ H7), bind_ok, (init_dump_says _ _ _ H8), bind_ok, O1, bind_ok. reflexivity.
  - split; [|repeat split]. unfold says_params. cbn. repeat (split; [assumption|]). exists es. repeat split; assumption.
Qed.
