(** Proofs about the configuration reader of the tools. *)
From Coq Require Import String Ascii List Bool ZArith Reals Lia Lra.
From Flocq Require Import Core.
From Verif.Lib Require Import Outcome RAux.
From Verif.Model Require Import MkDir PyPath Paths ToBool Text Pml Xml Params ToolParams.
From Verif.Spec Require Import BoolText Config ToolSpec.
From Verif.Proof Require Import ToBoolP ParamsP.
Import ListNotations.
Local Open Scope string_scope.
Local Open Scope Z_scope.
Local Open Scope list_scope.
Local Open Scope outcome_scope.

(** ** Texts *)

Definition solid_end (s : string) : Prop := exists u c, s = (u ++ String c "")%string /\ isspace c = false.

Lemma rstrip_blank : forall b, blank b -> rstrip b = "".
Proof.
  intros b H. induction H as [|c b Hc Hb IH]; [reflexivity|]. cbn [rstrip]. rewrite IH.
  destruct (blank_space c b) as [E _]; [now constructor|]. now rewrite E.
Qed.

Lemma rstrip_app_blank : forall s b, blank b -> rstrip (s ++ b)%string = rstrip s.
Proof.
  intros s b H. induction s as [|c s IH]; [now apply rstrip_blank|]. cbn [String.append rstrip]. now rewrite IH.
Qed.

Lemma rstrip_solid : forall s, solid_end s -> rstrip s = s.
Proof.
  intros s (u & c & -> & Hc). induction u as [|d u IH].
  - cbn. now rewrite Hc.
  - cbn [String.append rstrip]. rewrite IH. destruct u; reflexivity.
Qed.

Lemma strip_padded : forall b s c, blank b -> blank c -> solid_end s -> skipws (s ++ c)%string = (s ++ c)%string ->
  strip (b ++ s ++ c)%string = s.
Proof.
  intros b s c Hb Hc Hs W. unfold strip. rewrite skipws_blank, W, rstrip_app_blank by assumption. now apply rstrip_solid.
Qed.

Lemma solid_app : forall s t, solid_end t -> solid_end (s ++ t)%string.
Proof. intros s t (u & c & -> & Hc). exists (s ++ u)%string, c. split; [now rewrite string_app_assoc|exact Hc]. Qed.

Lemma solid_digits : forall s n, digits s n -> solid_end s.
Proof.
  intros s n H. destruct H as [c d Hd Hc|s n c d H Hd Hc].
  - exists "", c. split; [reflexivity|]. apply not_space. lia.
  - exists s, c. split; [reflexivity|]. apply not_space. lia.
Qed.

Lemma solid_int : forall s z, int_text s z -> solid_end s.
Proof.
  intros s z [s' n H|s' n H|s' n H]; apply solid_digits in H; [exact H| |].
  - now apply (solid_app "+").
  - now apply (solid_app "-").
Qed.

Lemma solid_real : forall s x, real_text s x -> solid_end s.
Proof.
  intros s x H. induction H as [s t u n f k Hs Ht Hu|s x H IH F|s x H IH F].
  - destruct Hu as [|c v k Hc Hv].
    + destruct Ht as [|w m Hw].
      * cbn [String.append]. rewrite string_app_nil. eapply solid_digits; eassumption.
      * rewrite string_app_nil. apply solid_app. apply (solid_app "."). eapply solid_digits; eassumption.
    + apply solid_app, solid_app. apply (solid_app (String c "")). eapply solid_int; eassumption.
  - now apply (solid_app "+").
  - now apply (solid_app "-").
Qed.

(** ** Numbers *)

Definition stop (s : string) : Prop :=
  match s with String c _ => digit_value 10 c = None /\ Ascii.eqb c "_" = false | "" => True end.

Lemma read_group_stop : forall s a k, stop s -> read_group s a k = (a, k, s).
Proof.
  intros [|c s] a k H; [reflexivity|]. destruct H as [D U]. cbn [read_group]. rewrite D, U.
  destruct s as [|c2 s]; [reflexivity|]. destruct (digit_value 10 c2); reflexivity.
Qed.

Lemma read_group_digits : forall s n, digits s n -> forall r a c,
  read_group (s ++ r)%string a c =
  read_group r (a * 10 ^ Z.of_nat (String.length s) + n) (c + Z.of_nat (String.length s)).
Proof.
  induction 1 as [x d Hd Hx|s n x d Hs IH Hd Hx]; intros r a c.
  - cbn [String.append read_group String.length]. rewrite (digit_value_digit x d Hd Hx). f_equal; lia.
  - rewrite string_app_assoc, IH. cbn [String.append read_group]. rewrite (digit_value_digit x d Hd Hx).
    rewrite string_length_app. cbn [String.length]. rewrite Nat2Z.inj_add, Z.pow_add_r by lia. change (Z.of_nat 1) with 1.
    f_equal; [rewrite Z.pow_1_r; ring|lia].
Qed.

Lemma group_value : forall s n r a c, digits s n -> stop r ->
  read_group (s ++ r)%string a c = (a * 10 ^ Z.of_nat (String.length s) + n, c + Z.of_nat (String.length s), r).
Proof. intros. rewrite (read_group_digits s n) by assumption. now rewrite read_group_stop. Qed.

Lemma group_whole : forall s n a c, digits s n ->
  read_group s a c = (a * 10 ^ Z.of_nat (String.length s) + n, c + Z.of_nat (String.length s), ""%string).
Proof. intros s n a c H. rewrite <- (string_app_nil s) at 1. now apply group_value. Qed.

Lemma group_zero : forall s n, digits s n -> read_group s 0 0 = (n, Z.of_nat (String.length s), ""%string).
Proof. intros s n H. rewrite (group_whole s n 0 0 H). f_equal; f_equal; lia. Qed.

(** sign and digits *)
Lemma group_int : forall s z, int_text s z -> exists neg s' v n, read_sign s = (neg, s') /\ read_group s' 0 0 = (v, n, ""%string) /\
  (n =? 0) = false /\ (if neg : bool then - v else v) = z.
Proof.
  intros s z H. destruct H as [s n H|s n H|s n H]; assert (L := digits_length _ _ H);
    assert (Q : (Z.of_nat (String.length s) =? 0) = false) by (apply Z.eqb_neq; lia).
  - exists false, s, n, (Z.of_nat (String.length s)). rewrite read_sign_digit by now apply digits_first in H.
    now rewrite (group_zero s n).
  - exists false, s, n, (Z.of_nat (String.length s)). now rewrite (group_zero s n).
  - exists true, s, n, (Z.of_nat (String.length s)). now rewrite (group_zero s n).
Qed.

Lemma py_int_text : forall s z, padded int_text s z -> py_int s = Ok z.
Proof.
  intros s z [b t c x Hb H Hc]. unfold py_int.
  rewrite strip_padded; [|assumption|assumption|eapply solid_int; eassumption|apply (read_int_text t x c H (blank_no_digit _ Hc))].
  destruct (group_int t x H) as (neg & s' & v & n & E1 & E2 & E3 & E4). rewrite E1, E2, E3, E4. reflexivity.
Qed.

Lemma py_exponent_text : forall u k, exp_text u k -> py_exponent u = Some (k, ""%string).
Proof.
  intros u k H. destruct H as [|c s k Hc H]; [reflexivity|]. unfold py_exponent.
  replace (Ascii.eqb (tolower c) "e"%char) with true by (destruct Hc as [->| ->]; reflexivity).
  destruct (group_int s k H) as (neg & s' & v & n & E1 & E2 & E3 & E4). rewrite E1, E2, E3, E4. reflexivity.
Qed.

Lemma stop_exp : forall u k, exp_text u k -> stop u.
Proof. intros u k H. destruct H as [|c s k [->| ->] H]; cbn; auto. Qed.

Lemma lower_word : forall s w, digit_first s -> (forall c w', w = String c w' -> 97 <= Z.of_nat (nat_of_ascii c)) -> w <> "" ->
  String.eqb (lower s) w = false.
Proof.
  intros s w (c & s' & -> & Hc) Hw N. destruct w as [|d w]; [easy|]. cbn [lower]. rewrite tolower_digit by exact Hc.
  apply String.eqb_neq. intro E. injection E as -> _. specialize (Hw d w eq_refl). lia.
Qed.

(** an unsigned number *)
Definition py_unsigned (neg : bool) (s : string) : outcome ext :=
  let l := lower s in
  if (String.eqb l "inf" || String.eqb l "infinity")%bool then Ok (if neg then NInf else PInf)
  else if String.eqb l "nan" then Ok NotNum
  else
    let '(ip, n1, s1) := read_group s 0 0 in
    let '(m, n2, s2) := match s1 with
                        | String "."%char s' => read_group s' ip 0
                        | _ => (ip, 0, s1)
                        end in
    if n1 + n2 =? 0 then raise
    else match py_exponent s2 with
         | Some (k, "") => let x := (IZR m * powerRZ 10 (- n2) * powerRZ 10 k)%R in
                           Ok (Fin (parse64 (if neg then - x else x)%R))
         | _ => raise
         end.

Lemma py_unsigned_text : forall neg s t u n f k, digits s n -> frac_text t f -> exp_text u k ->
  py_unsigned neg (s ++ t ++ u)%string =
  Ok (Fin (parse64 (if neg then - ((IZR n + f) * powerRZ 10 k) else ((IZR n + f) * powerRZ 10 k))%R)).
Proof.
  intros neg s t u n f k Hs Ht Hu. assert (L := digits_length _ _ Hs). assert (Su := stop_exp _ _ Hu).
  assert (F := digit_first_app s (t ++ u)%string (digits_first _ _ Hs)).
  unfold py_unsigned. cbv zeta.
  rewrite !(lower_word (s ++ t ++ u)%string)
    by (exact F || discriminate || (let E := fresh in intros ? ? E; injection E as <- _; cbn; lia)).
  cbn [orb]. destruct Ht as [|w m Hw].
  - cbn [String.append]. rewrite (group_value s n) by assumption.
    replace (0 * 10 ^ Z.of_nat (String.length s) + n) with n by lia.
    assert (E : match u with String "."%char s' => read_group s' n 0 | _ => (n, 0, u) end = (n, 0, u)).
    { destruct Hu as [|c v k [->| ->] Hv]; reflexivity. }
    rewrite E. destruct (Z.eqb_spec (0 + Z.of_nat (String.length s) + 0) 0) as [X|_]; [lia|].
    rewrite (py_exponent_text u k Hu). change (powerRZ 10 (- 0)) with 1%R.
    replace (IZR n * 1 * powerRZ 10 k)%R with ((IZR n + 0) * powerRZ 10 k)%R by ring. reflexivity.
  - assert (Lw := digits_length _ _ Hw). cbn [String.append].
    rewrite (group_value s n) by (assumption || (cbn; auto)).
    rewrite (group_value w m) by assumption.
    replace (0 * 10 ^ Z.of_nat (String.length s) + n) with n by lia.
    destruct (Z.eqb_spec (0 + Z.of_nat (String.length s) + (0 + Z.of_nat (String.length w))) 0) as [X|_]; [lia|].
    rewrite (py_exponent_text u k Hu).
    rewrite Z.add_0_l, powerRZ_IZR10, plus_IZR, mult_IZR, IZR_pow10.
    assert (P : (0 < 10 ^ String.length w)%R) by (apply pow_lt; lra).
    replace ((IZR n * 10 ^ String.length w + IZR m) * / 10 ^ String.length w * powerRZ 10 k)%R
      with ((IZR n + IZR m / 10 ^ String.length w) * powerRZ 10 k)%R by (field; lra). reflexivity.
Qed.

Lemma real_skip : forall s x r, real_text s x -> blank r -> skipws (s ++ r)%string = (s ++ r)%string.
Proof.
  intros s x r H Hr. destruct H as [s t u n f k Hs Ht Hu|s x H F|s x H F].
  - apply skipws_digit, digit_first_app, digit_first_app. eapply digits_first; eassumption.
  - apply skipws_char. cbn. lia.
  - apply skipws_char. cbn. lia.
Qed.

Lemma real_unsigned : forall s x, real_text s x -> digit_first s -> forall neg,
  py_unsigned neg s = Ok (Fin (parse64 (if neg then - x else x)%R)).
Proof.
  intros s x H F neg. destruct H as [s t u n f k Hs Ht Hu|s x H _|s x H _].
  - now apply py_unsigned_text.
  - destruct F as (c & s' & E & Hc). injection E as <- _. cbn in Hc. lia.
  - destruct F as (c & s' & E & Hc). injection E as <- _. cbn in Hc. lia.
Qed.

Lemma py_float_text : forall s x, padded real_text s x -> py_float s = Ok (Fin (parse64 x)).
Proof.
  intros s0 x0 [b s r x Hb H Hr]. unfold py_float.
  rewrite strip_padded; [|assumption|assumption|eapply solid_real; eassumption|eapply real_skip; eassumption].
  assert (H' := H). destruct H as [s t u n f k Hs Ht Hu|s x H F|s x H F].
  - rewrite read_sign_digit by (apply digit_first_app; eapply digits_first; eassumption).
    apply (real_unsigned _ _ H' (digit_first_app _ _ (digits_first _ _ Hs)) false).
  - cbn [read_sign]. apply (real_unsigned _ _ H F false).
  - cbn [read_sign]. apply (real_unsigned _ _ H F true).
Qed.

(** a whole number is also a real number *)
Lemma int_real : forall s z, padded int_text s z -> padded real_text s (IZR z).
Proof.
  intros s z [b t c x Hb H Hc]. apply Padded; [assumption| |assumption]. clear b c Hb Hc.
  assert (P : forall s n, digits s n -> real_text s (IZR n)).
  { intros s0 n Hs. replace (IZR n) with ((IZR n + 0) * powerRZ 10 0)%R by (cbn; ring).
    rewrite <- (string_app_nil s0) at 1. change ""%string with ("" ++ "")%string at 1.
    apply RealPlain; [exact Hs|constructor|constructor]. }
  destruct H as [s0 n H|s0 n H|s0 n H].
  - now apply P.
  - apply RealPlus; [now apply P|]. now apply digits_first in H.
  - rewrite opp_IZR. apply RealMinus; [now apply P|]. now apply digits_first in H.
Qed.

(** ** Truth values *)

Lemma lower_app : forall a b, lower (a ++ b)%string = (lower a ++ lower b)%string.
Proof. induction a as [|c a IH]; intro b; cbn; [reflexivity|now rewrite IH]. Qed.

Lemma lower_blank_blank : forall b, blank b -> blank (lower b).
Proof.
  intros b H. induction H as [|c b Hc Hb IH]; [constructor|]. cbn [lower]. constructor; [|exact IH].
  apply isspace_spec. rewrite isspace_lower. now apply isspace_spec.
Qed.

Lemma lower_word_spelled : forall w t, Forall small (list_ascii_of_string w) -> spelled w t -> lower t = w.
Proof.
  intros w t S H. induction H as [|d c w t L H IH]; [reflexivity|]. cbn in S. inversion S as [|? ? Sd Sw]; subst.
  cbn [lower]. rewrite IH by exact Sw. f_equal. now apply tolower_letter.
Qed.

Lemma json_bool_text : forall s b, padded bool_text s b -> json_bool s = Ok b.
Proof.
  intros s b0 [b t c x Hb H Hc]. unfold json_bool. rewrite !lower_app.
  assert (E : lower t = if x then "true" else "false").
  { destruct H as [t H|t H]; apply lower_word_spelled; [|exact H| |exact H]; repeat constructor; cbn; lia. }
  rewrite E, strip_padded.
  - destruct x; reflexivity.
  - now apply lower_blank_blank.
  - now apply lower_blank_blank.
  - destruct x; [exists "tru"|exists "fals"]; exists "e"%char; split; reflexivity.
  - destruct x; reflexivity.
Qed.

(** ** Elements *)

Lemma tagged_none : forall name n, (forall d, below n d -> ~ is_named name d) -> tagged name n = [].
Proof.
  intro name. fix IH 1. intros [m a k|s|] H; [|reflexivity|reflexivity]. cbn [tagged].
  assert (G : forall c, In c k -> named name c = false /\ forall d, below c d -> ~ is_named name d).
  { intros c Hc. split; [apply named_false, H; now apply BelowKid|]. intros d Hd. apply H. now apply BelowDeep with c. }
  clear H. induction k as [|c k IHk]; [reflexivity|]. cbn [flat_map].
  destruct (G c (or_introl eq_refl)) as [N B]. rewrite N, (IH c B). cbn [app]. apply IHk. intros c' Hc'. apply G. now right.
Qed.

Lemma flat_map_named : forall name l, (forall c d, In c l -> below c d -> ~ is_named name d) ->
  flat_map (fun c => (if named name c then [c] else []) ++ tagged name c) l = filter (named name) l.
Proof.
  intros name l. induction l as [|c l IH]; intro H; [reflexivity|]. cbn [flat_map filter].
  rewrite (tagged_none name c), app_nil_r by (intros d Hd; apply (H c d); [now left|exact Hd]).
  rewrite IH by (intros c' d' Hc'; apply H; now right). now destruct (named name c).
Qed.

Lemma tagged_outermost : forall name n, outermost n name -> tagged name n = filter (named name) (kids n).
Proof. intros name [m a k|s|] H; [|reflexivity|reflexivity]. now apply flat_map_named. Qed.

Lemma filter_only : forall n name c, only n name c -> filter (named name) (kids n) = [c].
Proof.
  intros n name c (l1 & l2 & E & Hc & H1 & H2). rewrite E, filter_app. cbn [filter]. apply named_spec in Hc. rewrite Hc.
  assert (F : forall l, Forall (fun x => ~ is_named name x) l -> filter (named name) l = []).
  { induction 1 as [|x l Hx _ IH]; [reflexivity|]. cbn [filter]. now rewrite named_false. }
  now rewrite !F.
Qed.

Lemma first_tag_only : forall n name c, only n name c -> outermost n name -> first_tag n name = Ok c.
Proof. intros n name c H O. unfold first_tag. now rewrite tagged_outermost, (filter_only _ _ _ H). Qed.

Lemma text_is_data : forall n s, text_is n s -> data_of n = Ok s.
Proof. intros n s (m & a & k & ->). reflexivity. Qed.

Lemma text_tag_says : forall n name s, says n name s -> outermost n name -> text_tag n name = Ok s.
Proof.
  intros n name s (c & Hc & Ht) O. unfold text_tag. rewrite (first_tag_only _ _ _ Hc O), bind_ok. now apply text_is_data.
Qed.

Lemma int_tag_says : forall n name z, says_int n name z -> outermost n name -> int_tag n name = Ok z.
Proof.
  intros n name z (s & (c & Hc & Ht) & Hi & _) O. unfold int_tag.
  rewrite (first_tag_only _ _ _ Hc O), bind_ok, (text_is_data _ _ Ht), bind_ok. now apply py_int_text.
Qed.

Lemma float_tag_says : forall n name e, says_real n name e -> outermost n name -> float_tag n name = Ok e.
Proof.
  intros n name e (s & x & (c & Hc & Ht) & Hr & ->) O. unfold float_tag.
  rewrite (first_tag_only _ _ _ Hc O), bind_ok, (text_is_data _ _ Ht), bind_ok. now apply py_float_text.
Qed.

Lemma bool_tag_says : forall n name b, says_bool n name b -> outermost n name -> bool_tag n name = Ok b.
Proof.
  intros n name b (s & (c & Hc & Ht) & Hr) O. unfold bool_tag.
  rewrite (first_tag_only _ _ _ Hc O), bind_ok, (text_is_data _ _ Ht), bind_ok. now apply json_bool_text.
Qed.

Lemma attr_get : forall n name s, attr n name s -> get_attribute n name = s.
Proof. intros n name s H. unfold get_attribute. now rewrite (attr_attribute _ _ _ H). Qed.

Lemma attr_py_int : forall n name z, attr_int n name z -> py_int (get_attribute n name) = Ok z.
Proof. intros n name z (s & Ha & Hi & _). rewrite (attr_get _ _ _ Ha). now apply py_int_text. Qed.

(** the document around the element initial_parameters *)
Definition no_element (n : node) : Prop := forall name, ~ is_named name n.

Lemma tagged_leaf : forall name n, no_element n -> tagged name n = [].
Proof. intros name [m a k|s|] H; [|reflexivity|reflexivity]. exfalso. apply (H m). now exists a, k. Qed.

Lemma tagged_document : forall name l1 doc l2, Forall no_element l1 -> Forall no_element l2 -> ~ is_named name doc ->
  tagged name (Elem "#document" [] (l1 ++ doc :: l2)) = tagged name doc.
Proof.
  intros name l1 doc l2 H1 H2 N. cbn [tagged]. rewrite flat_map_app. cbn [flat_map].
  assert (F : forall l, Forall no_element l -> flat_map (fun c => (if named name c then [c] else []) ++ tagged name c) l = []).
  { induction 1 as [|x l Hx _ IH]; [reflexivity|]. cbn [flat_map]. rewrite IH, tagged_leaf by exact Hx.
    rewrite named_false by apply Hx. reflexivity. }
  rewrite !F by assumption. rewrite named_false by exact N. cbn [app]. apply app_nil_r.
Qed.

(** ** Sections *)

Lemma tool_probe_says : forall nr nz e p, says_probe nr nz e p -> exists t, tool_probe e = Ok t /\ same_probe p t.
Proof.
  intros nr nz e p (Hc & Hs & Hsch & Ht). unfold tool_probe. rewrite (attr_get _ _ _ Hc), (attr_py_int _ _ _ Hsch), bind_ok.
  assert (S : pr_specie p = Some (get_attribute e "specie") \/ pr_specie p = None /\ get_attribute e "specie" = "").
  { destruct (pr_specie p) as [s|] eqn:E.
    - left. assert (I := proj1 (Hs s) eq_refl). rewrite (attr_get e "specie" s); [reflexivity|].
      split; [exact I|apply Hc].
    - right. split; [reflexivity|]. unfold get_attribute, attribute.
      destruct (find (fun a => String.eqb (fst a) "specie") (attrs e)) as [[k v]|] eqn:F; [|reflexivity].
      apply find_some in F. destruct F as [F1 F2]. apply String.eqb_eq in F2. cbn [fst] in F2. subst k.
      apply Hs in F1. discriminate. }
  destruct Ht as [(Ty & N & A & B & C & D)|[(Ty & N & A & B & C)|[(Ty & N & A & B & C)|[(Ty & N & A & B)|(Ty & N & A & B & C & D)]]]];
    rewrite (attr_get _ _ _ Ty); cbn [String.eqb Ascii.eqb Bool.eqb orb].
  - rewrite (attr_py_int _ _ _ A), bind_ok, (attr_py_int _ _ _ B), bind_ok, (attr_py_int _ _ _ C), bind_ok,
      (attr_py_int _ _ _ D), bind_ok. eexists. split; [reflexivity|]. unfold same_probe. cbn. intuition.
  - rewrite (attr_py_int _ _ _ C), bind_ok. eexists. split; [reflexivity|]. unfold same_probe. cbn. intuition.
  - rewrite (attr_py_int _ _ _ A), bind_ok. eexists. split; [reflexivity|]. unfold same_probe. cbn. intuition.
  - rewrite (attr_py_int _ _ _ A), bind_ok, (attr_py_int _ _ _ B), bind_ok. eexists. split; [reflexivity|].
    unfold same_probe. cbn. intuition.
  - rewrite (attr_py_int _ _ _ A), bind_ok, (attr_py_int _ _ _ B), bind_ok, (attr_py_int _ _ _ C), bind_ok,
      (attr_py_int _ _ _ D), bind_ok. eexists. split; [reflexivity|]. unfold same_probe. cbn. intuition.
Qed.

Lemma says_real_det : forall n name x y, outermost n name -> says_real n name x -> says_real n name y -> x = y.
Proof.
  intros n name x y O H1 H2. apply float_tag_says in H1; [|exact O]. apply float_tag_says in H2; [|exact O]. congruence.
Qed.

Ltac outer O := let H := fresh in
  pose proof O as H; unfold all_outermost in H; rewrite Forall_forall in H; apply H; cbn [In]; tauto.

Lemma tool_specie_says : forall debug e s x, says_specie debug e s ->
  all_outermost e ["charge"; "mass"; "temperature"; "number_macro"; "left_density"; "right_density"] ->
  says_real e "number_macro" x -> exists t, tool_specie e = Ok t /\ same_specie debug s t /\ ts_number_macro t = x.
Proof.
  intros debug e s x (N & C & M & _ & Q & L & R & T) O X. unfold tool_specie.
  rewrite (int_tag_says _ _ _ C), bind_ok by outer O. rewrite (int_tag_says _ _ _ M), bind_ok by outer O.
  rewrite (float_tag_says _ _ _ T), bind_ok by outer O. rewrite (float_tag_says _ _ _ X), bind_ok by outer O.
  rewrite (float_tag_says _ _ _ L), bind_ok by outer O. rewrite (float_tag_says _ _ _ R), bind_ok by outer O.
  eexists. split; [reflexivity|]. unfold same_specie. cbn. rewrite (attr_get _ _ _ N).
  repeat split. intros ->. eapply says_real_det; [|exact X|exact Q]. outer O.
Qed.

Lemma map_all_related : forall (A B C : Type) (f : A -> outcome B) (P : A -> C -> Prop) (Q : C -> B -> Prop) l m,
  Forall2 P l m -> (forall a c, In a l -> P a c -> exists b, f a = Ok b /\ Q c b) -> exists r, map_all f l = Ok r /\ Forall2 Q m r.
Proof.
  intros A B C f P Q l m H. induction H as [|a c l m Hp _ IH]; intro K.
  - exists []. split; [reflexivity|constructor].
  - destruct (K a c (or_introl eq_refl) Hp) as (b & E1 & E2). destruct IH as (r & E3 & E4); [intros; apply K; [now right|assumption]|].
    exists (b :: r). cbn [map_all]. rewrite E1, bind_ok, E3, bind_ok. split; [reflexivity|now constructor].
Qed.

Lemma tool_plot_says : forall dr doc p, says_plot doc p -> first_tag dr "plot" = first_tag doc "plot" -> outermost doc "plot" ->
  tool_plot dr = Ok p.
Proof.
  intros dr doc p (pl & fi & fo & vi & H1 & H2 & H3 & H4 & O1 & O2 & O3 & O4 & A & B & C & D & E & F & G & H & I & J) Q O.
  unfold tool_plot. rewrite Q, (first_tag_only _ _ _ H1 O), bind_ok, (first_tag_only _ _ _ H2), bind_ok by outer O1.
  rewrite (text_tag_says _ _ _ A), bind_ok by outer O2. rewrite (float_tag_says _ _ _ B), bind_ok by outer O2.
  rewrite (float_tag_says _ _ _ C), bind_ok by outer O2. rewrite (int_tag_says _ _ _ D), bind_ok by outer O2.
  rewrite (first_tag_only _ _ _ H4), bind_ok by outer O2. rewrite (text_tag_says _ _ _ E), bind_ok by outer O3.
  rewrite (text_tag_says _ _ _ F), bind_ok by outer O3. rewrite (int_tag_says _ _ _ G), bind_ok by outer O3.
  rewrite (first_tag_only _ _ _ H3), bind_ok by outer O1. rewrite (text_tag_says _ _ _ H), bind_ok by outer O4.
  rewrite (int_tag_says _ _ _ I), bind_ok by outer O4. rewrite (int_tag_says _ _ _ J), bind_ok by outer O4.
  now destruct p.
Qed.

Lemma parse64_int : forall z, Z.abs z < 9007199254740992 -> parse64 (IZR z) = IZR z.
Proof.
  intros z H. unfold parse64. apply round_generic; [apply valid_rnd_N|]. apply generic_format_FLT.
  exists (Float radix2 z 0); [unfold F2R; cbn; ring|exact H|cbn; lia].
Qed.

Lemma says_int_real : forall n name z, says_int n name z -> says_real n name (Fin (IZR z)).
Proof.
  intros n name z (s & H & Hp & B). exists s, (IZR z). split; [exact H|]. split; [now apply int_real|].
  rewrite parse64_int by lia. reflexivity.
Qed.

(** ** The whole file *)

Definition data_path_of (file rp : string) : string :=
  if absolute rp then rp else normpath (join (normpath (dirname file)) rp).

Lemma tool_parameters_core : forall file l1 doc l2 p, Forall no_element l1 -> Forall no_element l2 ->
  is_named "initial_parameters" doc -> says_params doc p -> tools_names doc ->
  exists f, tool_parameters file (l1 ++ doc :: l2) = (do plot <- tool_plot (Elem "#document" [] (l1 ++ doc :: l2)); Ok (f plot)) /\
    first_tag (Elem "#document" [] (l1 ++ doc :: l2)) "plot" = first_tag doc "plot" /\
    forall plot, let t := f plot in same_configuration p t /\ t_config_path t = normpath (dirname file) /\
    (exists rp, du_result_path (p_dump p) = Some rp /\ t_data_path t = data_path_of file rp) /\ t_plot t = plot.
Proof.
  intros file l1 doc l2 p L1 L2 Hn Hs Ht.
  destruct Hs as (S1 & S2 & (g & G0 & G1 & G2 & G3 & G4 & _ & _) & _ & (ti & T0 & _ & T1 & _ & T2 & T3) & (es & E1 & _ & E3) &
    (b & B0 & _ & _ & _ & _ & B1 & _ & B2 & B3 & _ & _ & B4 & B5 & B6) & (d & D0 & (rp & D1 & D1') & (dr & D2 & D2') & D3 & _) &
    (ps & (f & pe & P0 & P1 & P2) & _ & P3)).
  destruct Ht as (O & Og & Of & Ob & Op & Oe & Ot).
  specialize (Og _ G0). destruct (Of _ D0) as (Od & Opp). specialize (Ob _ B0). specialize (Ot _ T0).
  specialize (Oe _ E1). destruct E1 as (pa & E0 & E1). specialize (Op _ E0).
  assert (f = d) by (apply only_child in P0; apply only_child in D0; congruence). subst f. specialize (Opp _ P1).
  assert (R : forall name, name <> "initial_parameters" ->
    first_tag (Elem "#document" [] (l1 ++ doc :: l2)) name = first_tag doc name).
  { intros name N. unfold first_tag. rewrite tagged_document; [reflexivity|assumption|assumption|].
    destruct Hn as (a & k & ->). intros (a' & k' & E). congruence. }
  assert (Rb : forall name, name <> "initial_parameters" ->
    bool_tag (Elem "#document" [] (l1 ++ doc :: l2)) name = bool_tag doc name) by (intros; unfold bool_tag; now rewrite R).
  destruct (map_all_related _ _ _ tool_probe _ same_probe _ _ P3) as (tp & TP1 & TP2).
  { intros a c _ H. eapply tool_probe_says; exact H. }
  destruct (map_all_related _ _ _ tool_specie _ (same_specie (p_debug p)) _ _ E3) as (ts & TS1 & TS2).
  { intros a c Ha H. rewrite Forall_forall in Oe. destruct (Oe a Ha) as (Oa & x & Hx). destruct (tool_specie_says (p_debug p) a c x H Oa Hx) as (t & X1 & X2 & _). now exists t. }
  unfold tool_parameters. cbv zeta.
  rewrite !Rb by discriminate. rewrite (bool_tag_says _ _ _ S1), bind_ok by outer O.
  rewrite (bool_tag_says _ _ _ S2), bind_ok by outer O.
  rewrite ?R by discriminate. rewrite (first_tag_only _ _ _ G0), bind_ok by outer O.
  rewrite (int_tag_says _ _ _ G3), bind_ok by (destruct (p_debug p); outer Og).
  rewrite (int_tag_says _ _ _ G4), bind_ok by (destruct (p_debug p); outer Og).
  rewrite (float_tag_says _ _ _ G1), bind_ok by outer Og. rewrite (float_tag_says _ _ _ G2), bind_ok by outer Og.
  rewrite ?R by discriminate. rewrite (first_tag_only _ _ _ D0), bind_ok by outer O.
  rewrite (first_tag_only _ _ _ P1), bind_ok by outer Od.
  rewrite (tagged_outermost _ _ Opp), (picks_filter _ _ _ P2), TP1, bind_ok.
  rewrite (text_tag_says _ _ _ D2'), bind_ok by (destruct (p_debug p); outer Od).
  rewrite (text_tag_says _ _ _ D1'), bind_ok by outer Od.
  rewrite (int_tag_says _ _ _ D3), bind_ok by outer Od.
  rewrite ?R by discriminate. rewrite (first_tag_only _ _ _ B0), bind_ok by outer O.
  rewrite (float_tag_says _ _ _ B6), bind_ok by outer Ob. rewrite (float_tag_says _ _ _ B5), bind_ok by outer Ob.
  rewrite (float_tag_says _ _ _ B4), bind_ok by outer Ob.
  rewrite (float_tag_says _ _ _ (says_int_real _ _ _ B1)), bind_ok by outer Ob.
  rewrite (float_tag_says _ _ _ B2), bind_ok by outer Ob. rewrite (float_tag_says _ _ _ B3), bind_ok by outer Ob.
  rewrite ?R by discriminate. rewrite (first_tag_only _ _ _ E0), bind_ok by outer O.
  rewrite (tagged_outermost _ _ Op), (picks_filter _ _ _ E1), TS1, bind_ok.
  rewrite ?R by discriminate. rewrite (first_tag_only _ _ _ T0), bind_ok by outer O.
  rewrite (float_tag_says _ _ _ T1), bind_ok by outer Ot. rewrite (float_tag_says _ _ _ T2), bind_ok by outer Ot.
  rewrite (float_tag_says _ _ _ T3), bind_ok by outer Ot.
  eexists (fun plot => TParams _ _ _ _ _ _ _ _ _ _ _ _ _ _ _ _ _ _ _ _ plot).
  split; [reflexivity|]. split; [reflexivity|].
  intro plot. cbv zeta beta. split; [|cbn; split; [reflexivity|split; [|reflexivity]]].
  - unfold same_configuration. cbn. rewrite D2. repeat split; assumption.
  - exists rp. split; [exact D1|reflexivity].
Qed.

Lemma tool_parameters_says : forall file l1 doc l2 p, Forall no_element l1 -> Forall no_element l2 ->
  is_named "initial_parameters" doc -> says_params doc p -> tools_ready doc ->
  exists t, tool_parameters file (l1 ++ doc :: l2) = Ok t /\ same_configuration p t /\ t_config_path t = normpath (dirname file) /\
    (exists rp, du_result_path (p_dump p) = Some rp /\ t_data_path t = data_path_of file rp) /\ says_plot doc (t_plot t).
Proof.
  intros file l1 doc l2 p L1 L2 Hn Hs (Ht & (pl & Hpl)).
  destruct (tool_parameters_core file l1 doc l2 p L1 L2 Hn Hs Ht) as (f & E & R & K).
  exists (f pl). rewrite E, (tool_plot_says _ _ _ Hpl R), bind_ok.
  - specialize (K pl). cbv zeta in K. destruct K as (K1 & K2 & K3 & K4). rewrite K4. tauto.
  - destruct Ht as (O & _). outer O.
Qed.

(** without the section plot *)
Lemma tool_parameters_no_plot : forall file l1 doc l2 p, Forall no_element l1 -> Forall no_element l2 ->
  is_named "initial_parameters" doc -> says_params doc p -> tools_names doc -> (forall d, below doc d -> ~ is_named "plot" d) ->
  tool_parameters file (l1 ++ doc :: l2) = Exit 1.
Proof.
  intros file l1 doc l2 p L1 L2 Hn Hs Ht N.
  destruct (tool_parameters_core file l1 doc l2 p L1 L2 Hn Hs Ht) as (f & E & R & _).
  rewrite E. unfold tool_plot. rewrite R. unfold first_tag. now rewrite tagged_none.
Qed.

(** both programs on the same file *)
Lemma both_read : forall file l1 doc l2 p, Forall no_element l1 -> Forall no_element l2 ->
  is_named "initial_parameters" doc -> says_params doc p -> tools_ready doc ->
  exists p' t, parameters (Some (l1 ++ doc :: l2)) = Ok p' /\ tool_parameters file (l1 ++ doc :: l2) = Ok t /\
    says_params doc p' /\ p_debug p' = p_debug p /\ p_dump p' = p_dump p /\
    same_configuration p' t /\ t_config_path t = normpath (dirname file) /\
    (exists rp, du_result_path (p_dump p') = Some rp /\ t_data_path t = data_path_of file rp) /\ says_plot doc (t_plot t).
Proof.
  intros file l1 doc l2 p L1 L2 Hn Hs Ht.
  destruct (parameters_says (l1 ++ doc :: l2) doc p) as (p' & Q1 & Q2 & Q3 & _ & _ & _ & _ & _ & _ & Q4); [|exact Hs|].
  { exists l1, l2. split; [reflexivity|]. split; [exact Hn|]. eapply Forall_impl; [|exact L1]. intros a Ha. apply Ha. }
  destruct (tool_parameters_says file l1 doc l2 p' L1 L2 Hn Q2 Ht) as (t & A & B & C & D & E).
  exists p', t. tauto.
Qed.
