(** With the arithmetic of the real numbers the definitions of Model/GenLoad.v are those of Model/Loading.v, Model/Bunch.v and Model/Rand.v. *)
From Coq Require Import Reals ZArith List Bool Lia Lra.
From Verif.Lib Require Import RAux Outcome Par.
From Verif.Model Require Import Constants Geometry Pusher Arith GenCode Rand Loading Bunch GenLoad.
From Verif.Proof Require Import RandP GenRealP.
Import ListNotations.
Local Open Scope R_scope.

Local Notation RA := real_arith.
Definition real_ipow (b k : Z) : R := powerRZ (IZR b) (- k).

Lemma grr_loop_real : forall b, (2 <= b)%Z -> forall fuel n o r, (0 <= n < 2 ^ Z.of_nat fuel)%Z -> grr_loop RA real_ipow fuel n b o r = rr_loop (Z.to_nat n) n b o r.
Proof.
  intros b Hb fuel. induction fuel as [|f IH]; intros n o r Hn.
  - assert (n = 0)%Z by (change (2 ^ Z.of_nat 0)%Z with 1%Z in Hn; lia). subst. reflexivity.
  - destruct Hn as (Hn0 & Hn). rewrite (rr_loop_val b Hb (Z.to_nat n) n o r Hn0 (le_n _)). cbn [grr_loop]. destruct (Z.leb_spec 1 n) as [H|H].
    + cbv zeta. rewrite Z.rem_mod_nonneg by lia.
      assert (E : ((n - n mod b) ÷ b = n / b)%Z).
      { assert (M := Z.div_mod n b ltac:(lia)). replace (n - n mod b)%Z with (n / b * b)%Z by lia. apply Z.quot_mul. lia. }
      rewrite E. assert (D := div_lt_self b Hb n H). assert (HH : (n / b < 2 ^ Z.of_nat f)%Z).
      { apply Z.div_lt_upper_bound; [lia|]. rewrite Nat2Z.inj_succ, Z.pow_succ_r in Hn by lia. nia. }
      rewrite IH by lia. rewrite (rr_loop_val b Hb (Z.to_nat (n / b)) (n / b)) by lia. f_equal. unfold real_ipow. ar. rewrite (val_step b Hb n) by lia. rewrite (powerRZ_step b Hb). assert (B := b_pos b Hb). field. lra.
    + replace n with 0%Z by lia. rewrite val_nonpos by lia. f_equal. ar. ring.
Qed.
Theorem grandom_reverse_real : forall b n, (2 <= b)%Z -> (0 <= n < 2 ^ 31)%Z -> grandom_reverse RA real_ipow n b = random_reverse n b.
Proof.
  intros b n Hb Hn. unfold grandom_reverse, random_reverse. apply grr_loop_real; [exact Hb|]. change (2 ^ Z.of_nat 32)%Z with (2 * 2 ^ 31)%Z. lia.
Qed.

Theorem gload_r_real : forall g x, gload_r RA (to_ggeom g) x = load_r g x. Proof. reflexivity. Qed.
Theorem gload_z_real : forall g n1 n2 left x, gload_z RA (to_ggeom g) n1 n2 left x = load_z g n1 n2 left x.
Proof.
  intros. unfold gload_z, load_z. rewrite gdz_real. ar. cbv zeta. destruct (Req_EM_T (n2 - n1) 0); cbn [of_dec gz_size to_ggeom]; [reflexivity|].
  replace (n1 * n1 + x * (2 * n1 * (n2 - n1) + (n2 - n1) * (n2 - n1))) with (n1 ^ 2 + x * (2 * n1 * (n2 - n1) + (n2 - n1) ^ 2)) by ring. reflexivity.
Qed.
Lemma gring_real : forall g r, gring RA (to_ggeom g) r = 2 * c_PI * r * dr g * dz g.
Proof. intros. unfold gring. rewrite gPI_real. reflexivity. Qed.
Lemma gv_sum_real : forall g rs, gv_sum RA (to_ggeom g) rs = rsum (map (fun r => 2 * c_PI * r * dr g * dz g) rs).
Proof.
  intros g rs. unfold gv_sum. ar. assert (G : forall s, fold_left (fun s r => s + gring RA (to_ggeom g) r) rs s = s + rsum (map (fun r => 2 * c_PI * r * dr g * dz g) rs)); [|rewrite G; ring].
  induction rs as [|r rs IH]; intro s; cbn [fold_left map rsum]; [ring|]. rewrite IH, gring_real. ring.
Qed.
Lemma gnorm_real : forall g v r, gnorm RA (to_ggeom g) v r = norm_volume g r / v.
Proof.
  intros. unfold gnorm, norm_volume. rewrite gPI_real, gdr_real, gdz_real. ar. destruct (Rlt_dec (dr g / 2) r); cbn [of_dec]; reflexivity.
Qed.
Theorem gthermal_real : forall mass energy rnd, gthermal RA mass energy (to_gvec rnd) = to_gvec (thermal_velocity mass energy rnd).
Proof.
  intros. unfold gthermal, thermal_velocity. rewrite !gget_gamma_inv_real. unfold gEL_CHARGE. ar.
  assert (E : IZR 16 / IZR (10 ^ 20) = EL_CHARGE). { unfold EL_CHARGE. f_equal. change 20%Z with (Z.of_nat 20). rewrite <- pow_IZR. reflexivity. }
  rewrite E. reflexivity.
Qed.

(** The whole: positions, charges and masses are those of load_cylindrical, for the random numbers of the sequence. *)
Definition to_macro (p : gparticle RA) : macro := Macro (g0 RA (gpos RA (gph RA p))) (g2 RA (gpos RA (gph RA p))) (gcharge RA p) (gmass RA p).
Lemma gload_one_real : forall g n1 n2 charge mass rands x d, In x rands ->
  to_macro (gload_one RA (to_ggeom g) n1 n2 charge mass (map (fun x => gload_r RA (to_ggeom g) (fst x)) rands) x d) =
  let number := INR (length rands) in
  let v_avg := rsum (map (fun x => 2 * c_PI * load_r g (fst x) * dr g * dz g) rands) / number in
  let n := (n1 + n2) / 2 * c_PI * r_size g * r_size g * z_size g / number * (norm_volume g (load_r g (fst x)) / v_avg) in
  Macro (load_r g (fst x)) (load_z g n1 n2 0 (snd x)) (charge * n) (mass * n).
Proof.
  intros. unfold to_macro, gload_one. cbn [gph gpos g0 g2 gcharge gmass]. rewrite gload_r_real, gload_z_real. cbv zeta. unfold gn_per_macro. rewrite gnorm_real. unfold gv_avg. rewrite gv_sum_real. unfold gn_total. rewrite gPI_real. ar.
  rewrite !map_length, <- INR_IZR_INZ, map_map. reflexivity.
Qed.
Theorem gload_group_real : forall g n1 n2 charge mass draws, (Z.of_nat (length draws) < 2 ^ 31)%Z ->
  let number := Z.of_nat (length draws) in
  exists rands ps, Forall2 (fun n x => random_reverse n 13 = Some (fst x) /\ random_reverse (number - 1 - n) 11 = Some (snd x)) (zrange 0 number) rands /\
  gload_group RA real_ipow (to_ggeom g) n1 n2 charge mass draws = Some ps /\ map to_macro ps = load_cylindrical g n1 n2 0 charge mass rands.
Proof.
  intros g n1 n2 charge mass draws HN number. unfold gload_group. fold number.
  assert (G : forall ns, (forall n, In n ns -> (0 <= n < number)%Z) -> exists rands, gload_rands RA real_ipow number ns = Some rands /\
    Forall2 (fun n x => random_reverse n 13 = Some (fst x) /\ random_reverse (number - 1 - n) 11 = Some (snd x)) ns rands).
  { induction ns as [|n ns IH]; intro H; [exists []; split; [reflexivity|constructor]|]. destruct IH as (l & E & F); [intros m Hm; apply H; now right|].
    assert (Hn := H n (or_introl eq_refl)). exists ((val 13 n, val 11 (number - 1 - n)) :: l). cbn [gload_rands]. unfold gload_rand. fold number in HN.
    rewrite !grandom_reverse_real, !random_reverse_val, E by lia. split; [reflexivity|]. constructor; [split; apply random_reverse_val; lia|exact F]. }
  destruct (G (zrange 0 number)) as (rands & E & F). { intros n Hn. apply zrange_in in Hn. exact Hn. }
  rewrite E. eexists rands, _. split; [exact F|]. split; [reflexivity|].
  assert (L : length rands = length draws). { assert (Y : forall (U V : Type) (P : U -> V -> Prop) l l', Forall2 P l l' -> length l = length l') by (intros U V P l l' X; induction X; cbn; congruence). assert (Z1 := Y _ _ _ _ _ F). unfold zrange in Z1. rewrite map_length, seq_length in Z1. transitivity (Z.to_nat (number - 0)); [symmetry; exact Z1|]. unfold number. rewrite Z.sub_0_r. apply Nat2Z.id. }
  rewrite map_map. unfold load_cylindrical.
  assert (C : forall (h : R * R -> macro) (l : list (R * R)) (l' : list (draw RA)), length l = length l' -> map (fun y => h (fst y)) (combine l l') = map h l).
  { intros h l. induction l as [|y l IH]; intros [|y' l'] H; cbn in *; try discriminate; [reflexivity|]. rewrite IH by lia. reflexivity. }
  rewrite <- (C _ rands draws L). apply map_ext_in. intros (x & d) I. apply in_combine_l in I. exact (gload_one_real g n1 n2 charge mass rands x d I).
Qed.

(** The constructor of Bunch *)
Lemma gbunch_volume_real : forall g r, gbunch_volume RA (to_ggeom g) r = bunch_volume g r.
Proof. intros. unfold gbunch_volume, bunch_volume. rewrite gPI_real, gdr_real, gdz_real. ar. destruct (Rlt_dec (dr g) r); cbn [of_dec]; reflexivity. Qed.
Lemma gbunch_r_real : forall g radius x, gbunch_r RA (to_ggeom g) radius x = bunch_r g radius x.
Proof. intros. unfold gbunch_r, bunch_r. rewrite gdr_real. reflexivity. Qed.
Lemma gbunch_sum_real : forall g rs s, fold_left (fun s r => s + gbunch_volume RA (to_ggeom g) r) rs s = s + rsum (map (bunch_volume g) rs).
Proof. intros g rs. induction rs as [|r rs IH]; intro s; cbn [fold_left map rsum]; [ring|]. rewrite IH, gbunch_volume_real. ring. Qed.
Theorem gbunch_load_real : forall g charge mass duration radius density velocity draws, (Z.of_nat (length draws) < 2 ^ 31)%Z ->
  exists rands ps, Forall2 (fun n x => random_reverse n 9 = Some x) (zrange 0 (Z.of_nat (length draws))) rands /\
  gbunch_load RA real_ipow (to_ggeom g) charge mass duration radius density velocity draws = Some ps /\
  map to_macro ps = bunch_load g charge mass duration radius density velocity rands /\ Forall (fun p => galive RA p = false) ps.
Proof.
  intros g charge mass duration radius density velocity draws HN. unfold gbunch_load. set (number := Z.of_nat (length draws)) in *.
  assert (G : forall ns, (forall n, In n ns -> (0 <= n < number)%Z) -> exists rands, gbunch_rands RA real_ipow ns = Some rands /\ Forall2 (fun n x => random_reverse n 9 = Some x) ns rands).
  { induction ns as [|n ns IH]; intro H; [exists []; split; [reflexivity|constructor]|]. destruct IH as (l & E & F); [intros m Hm; apply H; now right|].
    assert (Hn := H n (or_introl eq_refl)). exists (val 9 n :: l). cbn [gbunch_rands]. rewrite grandom_reverse_real, random_reverse_val, E by lia. split; [reflexivity|]. constructor; [apply random_reverse_val; lia|exact F]. }
  destruct (G (zrange 0 number)) as (rands & E & F). { intros n Hn. apply zrange_in in Hn. exact Hn. }
  rewrite E. eexists rands, _. split; [exact F|]. split; [reflexivity|].
  assert (L : length rands = length draws).
  { assert (Y : forall (U V : Type) (P : U -> V -> Prop) l l', Forall2 P l l' -> length l = length l') by (intros U V P l l' X; induction X; cbn; congruence). assert (Z1 := Y _ _ _ _ _ F). unfold zrange in Z1. rewrite map_length, seq_length in Z1. transitivity (Z.to_nat (number - 0)); [symmetry; exact Z1|]. unfold number. rewrite Z.sub_0_r. apply Nat2Z.id. }
  split.
  - rewrite map_map. unfold bunch_load.
    assert (C : forall (h : R -> macro) (k : R -> R) (l : list R) (l' : list (draw RA)), length l = length l' -> map (fun y => h (fst y)) (combine (map k l) l') = map (fun y => h (k y)) l).
    { intros h k l. induction l as [|y l IH]; intros [|y' l'] H; cbn in *; try discriminate; [reflexivity|]. rewrite IH by lia. reflexivity. }
    etransitivity; [|exact (C (fun r => Macro r 0 (charge * (c_PI * radius ^ 2 * (duration * velocity) * density / INR (length rands) * (norm_volume g r / (rsum (map (fun x => bunch_volume g (bunch_r g radius x)) rands) / INR (length rands)))))
      (mass * (c_PI * radius ^ 2 * (duration * velocity) * density / INR (length rands) * (norm_volume g r / (rsum (map (fun x => bunch_volume g (bunch_r g radius x)) rands) / INR (length rands)))))) (bunch_r g radius) rands draws L)].
    change (map (gbunch_r RA (to_ggeom g) radius) rands) with (map (bunch_r g radius) rands). apply map_ext. intros (r & d). cbn [fst snd].
    unfold to_macro, gbunch_one. cbn [gph gpos g0 g2 gcharge gmass]. cbv zeta. unfold gbunch_count, gbunch_avg, gbunch_total. rewrite gnorm_real, gPI_real. ar. rewrite gbunch_sum_real, map_length, <- INR_IZR_INZ, map_map.
    replace (0 + rsum (map (fun x => bunch_volume g (bunch_r g radius x)) rands)) with (rsum (map (fun x => bunch_volume g (bunch_r g radius x)) rands)) by ring.
    replace (radius * radius) with (radius ^ 2) by ring. reflexivity.
  - apply Forall_forall. intros p I. apply in_map_iff in I. destruct I as (y & <- & _). reflexivity.
Qed.
