(** Every execution of the parallel program with real numbers ends in the state that Model/Sim.v computes. *)
From Coq Require Import Reals ZArith List Bool Lia Lra.
From Verif.Lib Require Import RAux Outcome Grid Par ParProg.
From Verif.Model Require Bunch.
From Verif.Model Require Import Constants Geometry ChargeDeposit CurrentDeposit Fields Interp Pusher Motion Loading MainLoop Sim
  Arith GenCode GenRun GenSim.
From Verif.Spec Require Import Memory Whole.
From Verif.Proof Require Import GenRealP GenRunP GenLinkP GenSimP GenSimP2 GenSimRealP.
Import ListNotations.
Local Open Scope R_scope.

Local Notation RA := real_arith.

Definition counts (s : sim) : list Z := map (fun x => Z.of_nat (length (g_parts x))) (s_groups s).

Lemma groups_where : forall A (c : config A) nb, map where_ (groups A c nb) = seq 0 (length (groups A c nb)).
Proof.
  intros A c nb. unfold groups. rewrite map_app, app_length.
  assert (E : forall l lo, map where_ (combine (combine (seq lo (length l)) l) (repeat false (length l))) = seq lo (length l)).
  { induction l as [|x l IH]; intro lo; cbn; [reflexivity|]. now rewrite IH. }
  assert (E' : length (combine (combine (seq 0 (length (c_species A c))) (c_species A c)) (repeat false (length (c_species A c)))) = length (c_species A c)).
  { rewrite <- (map_length where_), E. apply seq_length. }
  rewrite E, E', seq_app. f_equal. rewrite map_map, map_length. unfold zrange. rewrite map_map, map_length, seq_length. cbn [where_].
  unfold bunch_pos. generalize (length (c_species A c)). intro L. generalize (Z.to_nat (nb - 0)). intro N.
  replace (0 + L)%nat with L by reflexivity.
  assert (E2 : forall a, map (fun k => (L + Z.to_nat (0 + Z.of_nat k))%nat) (seq a N) = seq (a + L) N).
  { induction N as [|N IH]; intro a; cbn [seq map]; [reflexivity|]. rewrite IH. f_equal. lia. }
  exact (E2 0%nat).
Qed.

Lemma zero_groups : forall (l : list group) m lo,
  Forall (fun x => g_bunch x = None) l ->
  (forall n x, nth_error l n = Some x -> holds_list RA m (lo + n) 0 (map to_gparticle (g_parts x))) ->
  Forall2 (grp RA m) (combine (combine (seq lo (length l)) (map (fun x => Z.of_nat (length (g_parts x))) l)) (repeat false (length l)))
    (map to_group l).
Proof.
  induction l as [|x l IH]; intros m lo HN H; [constructor|]. inversion HN; subst. cbn [map length seq combine repeat]. constructor.
  - unfold grp, to_group. cbn [fst snd]. replace (g_bunch x) with (@None Z) by congruence. split; [reflexivity|].
    split; [now rewrite map_length|]. specialize (H O x eq_refl). now rewrite Nat.add_0_r in H.
  - apply IH; [assumption|]. intros n y Hy. specialize (H (S n) y Hy). now rewrite Nat.add_succ_r in H.
Qed.

Definition number_of (v : value RA) : R := match v with VN _ x => x | _ => 0 end.

Lemma begin_repr : forall su f m s, Forall (fun x => g_bunch x = None) (s_groups s) -> s_bunch_number s = 0%Z -> in_memory m s ->
  exists gs, same_state s gs /\ repr RA (to_config su (counts s) f) m gs /\ gs_bunches RA gs = 0%Z.
Proof.
  intros su f m s HN H0 [M1 M2 M3 M4 M5 M6].
  exists (GSim RA (fun x => number_of (m (FLD x))) (fun i k => number_of (m (RHO RHO_BUNCH i k))) (map to_group (s_groups s)) 0).
  split; [|split; [|reflexivity]].
  - constructor; cbn [gs_fields gs_groups gs_bunches].
    + intros a i k Ha. rewrite M1; [reflexivity|..]; intros ->; discriminate.
    + intros. now rewrite M2.
    + intros. now rewrite M3.
    + intros. now rewrite M4.
    + reflexivity.
    + congruence.
    + lia.
    + rewrite H0. clear -HN. induction HN as [|x l Hx HN IH]; [reflexivity|]. unfold bunch_numbers. cbn [flat_map]. now rewrite Hx.
  - unfold repr. cbn [gs_fields gs_rho gs_groups gs_bunches]. split; [|split; [|split; [|lia]]].
    + intros [[a i] k]. destruct a; try (rewrite M1 by discriminate; reflexivity); [rewrite M2|rewrite M3|rewrite M4]; reflexivity.
    + intros i k. destruct (M5 i k) as (x & ->). reflexivity.
    + unfold groups. cbn [c_species to_config]. change (zrange 0 0) with (@nil Z). cbn [map]. rewrite app_nil_r.
      unfold counts. rewrite map_length. apply zero_groups; [exact HN|].
      intros n x Hx j p Hp. cbn [plus]. rewrite nth_error_map in Hp. destruct (nth_error (g_parts x) j) as [q|] eqn:Eq; [|discriminate].
      injection Hp as <-. exact (M6 n x j q Hx Eq).
Qed.

Lemma Forall2_nth : forall {X Y} (P : X -> Y -> Prop) l l' n y, Forall2 P l l' -> nth_error l' n = Some y ->
  exists x, nth_error l n = Some x /\ P x y.
Proof.
  intros X Y P l l' n y H. revert n. induction H as [|a b l l' Hab H IH]; intros [|n] E; cbn in *; try discriminate.
  - injection E as <-. eauto.
  - now apply IH.
Qed.

Lemma repr_end : forall su sp f m s gs, same_state s gs -> repr RA (to_config su sp f) m gs -> in_memory m s.
Proof.
  intros su sp f m s gs [S1 S2 S3 S4 S5 S6 S7 S8] (R1 & R2 & R3 & R4). constructor.
  - intros a i k H1 H2 H3. rewrite (R1 (a, i, k)). f_equal. apply S1. destruct a; try reflexivity; congruence.
  - intros. rewrite R1. f_equal. apply S2.
  - intros. rewrite R1. f_equal. apply S3.
  - intros. rewrite R1. f_equal. apply S4.
  - intros i k. exists (gs_rho RA gs i k). apply R2.
  - intros n x i p Hx Hp. rewrite S5 in R3.
    destruct (Forall2_nth _ _ _ n (to_group x) R3) as (y & Hy & G); [now rewrite nth_error_map, Hx|].
    assert (W : where_ y = n).
    { assert (E : nth_error (map where_ (groups RA (to_config su sp f) (gs_bunches RA gs))) n = Some (where_ y)) by now rewrite nth_error_map, Hy.
      rewrite groups_where in E. assert (n < length (groups RA (to_config su sp f) (gs_bunches RA gs)))%nat.
      { apply nth_error_Some. congruence. }
      rewrite (nth_error_nth' _ 0%nat) in E by (rewrite seq_length; assumption). injection E as E. rewrite seq_nth in E by assumption. lia. }
    destruct y as [[n' cnt] b]. cbn [where_] in W. subst n'. destruct G as (_ & _ & G).
    specialize (G i (to_gparticle p)). cbn [snd to_group] in G. rewrite nth_error_map, Hp in G. exact (G eq_refl).
Qed.

Lemma sound_fit : forall su f, sound su -> testmode su f -> Bunch.beam_z_size (su_beam su) = z_size (su_geom su) -> fit_setup su f.
Proof. intros su f H T Z. destruct H as (_ & _ & _ & D & _ & _ & _ & _ & _ & _ & _ & N & _). constructor; auto. Qed.

Theorem executions_real : forall su f fuel t0 e s s' m o, sound su -> testmode su f ->
  Bunch.beam_z_size (su_beam su) = z_size (su_geom su) -> begins (su_geom su) s -> in_memory m s ->
  run su fuel t0 e s = Some (Ok s') ->
  pieces_run RA (run_pieces RA (to_config su (counts s) f) fuel t0 e 0) m o ->
  exists m', o = Ok m' /\ in_memory m' s'.
Proof.
  intros su f fuel t0 e s s' m o HS HT HZ (HN & H0 & _) HM HR HE.
  destruct (begin_repr su f m s HN H0 HM) as (gs & SS & RP & B0).
  destruct (run_real su (counts s) f (sound_fit su f HS HT HZ) fuel t0 e s gs s' SS HR) as (gs' & GR & SS').
  assert (L := run_link RA (to_config su (counts s) f) f eq_refl).
  assert (HB : forall k, Z.of_nat (length (c_bunch RA (to_config su (counts s) f) k)) = c_macro RA (to_config su (counts s) f)).
  { intro k. cbn [c_bunch c_macro to_config g_parts new_bunch]. rewrite map_length. unfold new_bunch. cbn [g_parts]. rewrite map_length.
    destruct HS as (_ & _ & _ & _ & _ & _ & _ & _ & _ & _ & _ & _ & _ & N & _). rewrite <- (N k). unfold Bunch.bunch_load.
    now rewrite ?map_length. }
  specialize (L HB fuel t0 e m gs RP). rewrite B0, GR in L. destruct L as (m' & E & RP').
  assert (S := run_schedule RA (to_config su (counts s) f) fuel t0 e 0 m o (ex_intro _ f eq_refl) HE).
  rewrite E in S. destruct o as [m1|c|]; cbn in S; try contradiction. subst m1. exists m'. split; [reflexivity|].
  exact (repr_end su (counts s) f m' s' gs' SS' RP').
Qed.

(** A memory that shows a state. *)
Definition memory_of (s : sim) : rmemory := fun x =>
  match x with
  | FLD (JR, i, k) => number (s_current s J_R i k)
  | FLD (JPHI, i, k) => number (s_current s J_PHI i k)
  | FLD (JZ, i, k) => number (s_current s J_Z i k)
  | FLD l => number (s_fields s l)
  | RHO _ i k => number (s_rho_bunch s i k)
  | PT n i f =>
      match nth_error (s_groups s) n with
      | None => number 0
      | Some x =>
          match nth_error (g_parts x) (Z.to_nat i) with
          | None => number 0
          | Some p =>
              let ph := p_phase p in
              match f with
              | ALIVE => VB RA (p_alive p) | CHARGE => number (p_charge p) | MASS => number (p_mass p)
              | POS0 => number (v0 (pos ph)) | POS1 => number (v1 (pos ph)) | POS2 => number (v2 (pos ph))
              | VEL0 => number (v0 (vel ph)) | VEL1 => number (v1 (vel ph)) | VEL2 => number (v2 (vel ph))
              | OLD0 => number (r_old ph) | OLD2 => number (z_old ph) | SIN => number (sin_theta ph)
              | COS => number 0
              end
          end
      end
  | GEN => VG RA 0
  end.

Lemma memory_of_shows : forall s, in_memory (memory_of s) s.
Proof.
  intro s. constructor; try reflexivity.
  - intros a i k H1 H2 H3. destruct a; try reflexivity; contradiction.
  - intros i k. now exists (s_rho_bunch s i k).
  - intros n x i p Hx Hp. cbv zeta. unfold memory_of. rewrite Hx, Nat2Z.id, Hp. repeat split.
Qed.
