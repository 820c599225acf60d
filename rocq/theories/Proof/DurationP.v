(** Proofs for C38. *)
From Coq Require Import ZArith Reals Lra Lia String Ascii List Psatz.
From Flocq Require Import Core.
From Verif.Lib Require Import Outcome.
From Verif.Model Require Import Binary64 Paths Duration.
From Verif.Spec Require Import Elapsed.
From Verif.Proof Require Import Binary64P PathsP.
Local Open Scope string_scope.
Local Open Scope Z_scope.

Lemma digits_app : forall s a t, digits a (s ++ t) = match digits a s with Some b => digits b t | None => None end.
Proof.
  induction s as [|c s IH]; intros a t; [reflexivity|]. cbn. destruct (_ && _)%bool; [apply IH|reflexivity].
Qed.

Lemma digits_digit : forall a n, 0 <= n <= 9 -> digits a (digit n) = Some (10 * a + n).
Proof.
  intros a n H. unfold digit. cbn [digits]. rewrite nat_ascii_embedding by lia.
  replace (Z.of_nat (48 + Z.to_nat n) - 48) with n by lia.
  destruct (Z.leb_spec 0 n); [|lia]. destruct (Z.leb_spec n 9); [|lia]. reflexivity.
Qed.

Lemma show_nonneg_numeral : forall fuel n, 0 <= n < 10 ^ Z.of_nat fuel -> (0 < fuel)%nat -> numeral (show_nonneg fuel n) n.
Proof.
  induction fuel as [|f IH]; intros n H F; [lia|]. cbn [show_nonneg]. destruct (Z.ltb_spec n 10) as [L|L].
  - split; [discriminate|]. rewrite digits_digit by lia. reflexivity.
  - assert (B : 0 <= n / 10 < 10 ^ Z.of_nat f).
    { split; [apply Z.div_pos; lia|]. apply Z.div_lt_upper_bound; [lia|].
      replace (10 * 10 ^ Z.of_nat f) with (10 ^ Z.of_nat (S f)); [lia|]. rewrite Nat2Z.inj_succ, Z.pow_succ_r; lia. }
    destruct f as [|f]; [cbn in B; assert (1 <= n / 10) by (apply Z.div_le_lower_bound; lia); lia|].
    destruct (IH (n / 10) B ltac:(lia)) as [N D]. split.
    + destruct (show_nonneg (S f) (n / 10)); [contradiction|discriminate].
    + rewrite digits_app, D, digits_digit; [f_equal; rewrite (Z.div_mod n 10) at 3; lia|].
      assert (M := Z.mod_pos_bound n 10). lia.
Qed.

Lemma show_numeral : forall n, 0 <= n < 10 ^ 20 -> numeral (show n) n.
Proof.
  intros n H. unfold show. destruct (Z.ltb_spec n 0); [lia|]. apply show_nonneg_numeral; [exact H|lia].
Qed.

Lemma to_int_Z : forall n, - 2 ^ 31 <= n < 2 ^ 31 -> to_int (IZR n) = Ok n.
Proof.
  intros n H. unfold to_int. rewrite Ztrunc_IZR. destruct (Z.ltb_spec (- 2 ^ 31 - 1) n); [|lia].
  destruct (Z.ltb_spec n (2 ^ 31)); [|lia]. reflexivity.
Qed.

(** Truncation of the rounded quotient is the whole quotient. *)
Lemma to_int_ddiv : forall a b, 0 <= a < 2 ^ 31 -> 0 < b <= 86400 -> to_int (ddiv a b) = Ok (a / b).
Proof.
  intros a b Ha Hb. set (k := a / b).
  assert (K : b * k <= a < b * (k + 1)) by (unfold k; assert (D := Z.div_mod a b); assert (M := Z.mod_pos_bound a b); lia).
  assert (Kp : 0 <= k) by (apply Z.div_pos; lia).
  assert (Ku : k <= a) by (assert (k * 1 <= b * k) by nia; lia).
  assert (Rb : (0 < IZR b)%R) by (apply IZR_lt; lia).
  assert (T : Ztrunc (ddiv a b) = k).
  { assert (Q0 : (IZR k <= IZR a / IZR b)%R).
    { apply Rmult_le_reg_r with (IZR b); [exact Rb|]. unfold Rdiv. rewrite Rmult_assoc, Rinv_l by lra.
      rewrite Rmult_1_r, <- mult_IZR. apply IZR_le. lia. }
    assert (Q1 : (IZR a / IZR b <= IZR (k + 1) - / IZR b)%R).
    { apply Rmult_le_reg_r with (IZR b); [exact Rb|]. unfold Rdiv. rewrite Rmult_assoc, Rinv_l by lra.
      rewrite Rmult_minus_distr_r, Rinv_l by lra. rewrite Rmult_1_r, <- mult_IZR, <- minus_IZR. apply IZR_le. lia. }
    change (ddiv a b) with (rnd (IZR a / IZR b)).
    assert (L : (IZR k <= rnd (IZR a / IZR b))%R).
    { rewrite <- (rnd_exact_Z k) by lia. unfold rnd. apply round_le; [apply (FLT_exp_valid (-1074) 53)|apply valid_rnd_N|exact Q0]. }
    assert (U : (rnd (IZR a / IZR b) < IZR (k + 1))%R).
    { destruct (Z.eq_dec a 0) as [->|Na].
      - replace (0 / IZR b)%R with 0%R by (unfold Rdiv; ring). unfold rnd. rewrite round_0 by apply valid_rnd_N.
        apply IZR_lt. lia.
      - assert (S : (bpow radix2 (-1022) <= IZR a / IZR b)%R).
        { apply Rle_trans with (bpow radix2 (-17)); [apply bpow_le; lia|].
          replace (bpow radix2 (-17)) with (/ 131072)%R by (cbn; lra).
          assert (B2 : (/ 86400 <= / IZR b)%R) by (apply Rinv_le; [exact Rb|apply IZR_le; lia]).
          assert (A2 : (1 <= IZR a)%R) by (apply IZR_le; lia). unfold Rdiv. nra. }
        destruct (rnd_bounds _ S) as [_ R]. eapply Rle_lt_trans; [exact R|].
        assert (Ub := u_val).
        assert (QU : (IZR a / IZR b <= 2147483648)%R).
        { eapply Rle_trans; [exact Q1|]. assert (0 < / IZR b)%R by (apply Rinv_0_lt_compat; exact Rb).
          assert (IZR (k + 1) <= 2147483648)%R by (apply IZR_le; lia). lra. }
        assert (B2 : (/ 86400 <= / IZR b)%R) by (apply Rinv_le; [exact Rb|apply IZR_le; lia]).
        assert (Up := u_small). nra. }
    rewrite Ztrunc_floor by (apply Rle_trans with (IZR k); [apply IZR_le; lia|exact L]).
    apply Zfloor_imp. split; [exact L|exact U]. }
  unfold to_int. rewrite T. destruct (Z.ltb_spec (- 2 ^ 31 - 1) k); [|lia].
  destruct (Z.ltb_spec k (2 ^ 31)); [|lia]. reflexivity.
Qed.

Lemma duration_states : forall t, 0 <= t < 2 ^ 31 -> t <> 60 -> t <> 3600 -> t <> 86400 ->
  exists s, duration_text t = Ok s /\ states_time s t.
Proof.
  intros t Ht N1 N2 N3. unfold duration_text.
  destruct (Z.ltb_spec 60 t) as [A1|A1]; destruct (Z.ltb_spec t 3600) as [A2|A2]; cbn [andb].
  2: destruct (Z.ltb_spec 3600 t) as [A3|A3]; [|lia]; destruct (Z.ltb_spec t 86400) as [A4|A4]; cbn [andb].
  3: destruct (Z.ltb_spec 86400 t) as [A5|A5]; [|lia].
  - rewrite to_int_Z, bind_ok by lia. cbv zeta. rewrite Z.quot_div_nonneg by lia. set (m := t / 60).
    assert (D : t = 60 * m + t mod 60) by apply (Z.div_mod t 60 ltac:(lia)).
    assert (M := Z.mod_pos_bound t 60 ltac:(lia)). eexists. split; [reflexivity|].
    replace (t - m * 60) with (t mod 60) by lia. replace t with (60 * m + t mod 60) at 2 by lia. apply StatesM; try apply show_numeral; lia.
  - rewrite to_int_Z, bind_ok by lia. cbv zeta. rewrite Z.quot_div_nonneg by lia. set (h := t / 3600).
    assert (D : t = 3600 * h + t mod 3600) by apply (Z.div_mod t 3600 ltac:(lia)).
    assert (M := Z.mod_pos_bound t 3600 ltac:(lia)). replace (t - h * 3600) with (t mod 3600) by lia.
    set (u := t mod 3600) in *. rewrite to_int_ddiv, bind_ok by lia. set (m := u / 60).
    assert (D2 : u = 60 * m + u mod 60) by apply (Z.div_mod u 60 ltac:(lia)).
    assert (M2 := Z.mod_pos_bound u 60 ltac:(lia)). replace (u - m * 60) with (u mod 60) by lia.
    eexists. split; [reflexivity|]. replace t with (3600 * h + 60 * m + u mod 60) by lia.
    apply StatesH; try apply show_numeral; lia.
  - rewrite to_int_Z, bind_ok by lia. cbv zeta. rewrite Z.quot_div_nonneg by lia. set (d := t / 86400).
    assert (D : t = 86400 * d + t mod 86400) by apply (Z.div_mod t 86400 ltac:(lia)).
    assert (M := Z.mod_pos_bound t 86400 ltac:(lia)). replace (t - d * 86400) with (t mod 86400) by lia.
    set (w := t mod 86400) in *. rewrite to_int_ddiv, bind_ok by lia. set (h := w / 3600).
    assert (D1 : w = 3600 * h + w mod 3600) by apply (Z.div_mod w 3600 ltac:(lia)).
    assert (M1 := Z.mod_pos_bound w 3600 ltac:(lia)). replace (w - h * 3600) with (w mod 3600) by lia.
    set (u := w mod 3600) in *. rewrite to_int_ddiv, bind_ok by lia. set (m := u / 60).
    assert (D2 : u = 60 * m + u mod 60) by apply (Z.div_mod u 60 ltac:(lia)).
    assert (M2 := Z.mod_pos_bound u 60 ltac:(lia)). replace (u - m * 60) with (u mod 60) by lia.
    eexists. split; [reflexivity|]. replace t with (86400 * d + 3600 * h + 60 * m + u mod 60) by lia.
    apply StatesD; try apply show_numeral; lia.
  - destruct (Z.ltb_spec 3600 t); [lia|]. destruct (Z.ltb_spec 86400 t); [lia|]. cbn [andb].
    eexists. split; [reflexivity|]. apply StatesS; [apply show_numeral; lia|lia].
  - lia.
Qed.

Lemma text_nonempty : forall t s, duration_text t = Ok s -> (1 <= String.length s)%nat.
Proof.
  assert (A : forall a c b, (1 <= String.length (a ++ String c b))%nat) by (intros; rewrite str_app_length; cbn; lia).
  intros t s. unfold duration_text.
  repeat match goal with |- context [if ?b then _ else _] => destruct b end; intro E;
    repeat match type of E with
    | context [bind (to_int ?x) _] => destruct (to_int x); [rewrite bind_ok in E|discriminate E|discriminate E]
    | Ok _ = Ok _ => injection E; intros <-; apply A
    end.
Qed.

Lemma duration_ub : forall t, get_simulation_duration t = UB.
Proof.
  intro t. unfold get_simulation_duration. destruct (duration_text t) as [s|c|] eqn:E.
  - rewrite bind_ok. apply store_ub. now apply (text_nonempty t).
  - exfalso. revert E. assert (T : forall x, (exists n, to_int x = Ok n) \/ to_int x = UB).
    { intro x. unfold to_int. destruct (_ <? _); [destruct (_ <? _)|]; eauto. }
    unfold duration_text.
    repeat match goal with |- context [if ?b then _ else _] => destruct b end;
      repeat match goal with
      | |- context [bind (to_int ?x) _] => let H := fresh in destruct (T x) as [(? & H)|H]; rewrite H; [rewrite bind_ok|cbn; discriminate]
      end; discriminate.
  - reflexivity.
Qed.
