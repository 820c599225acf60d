(** Programs of a thread as trees of loads and stores whose addresses and control flow may depend on the
    values read, and the loops "omp parallel for" over such programs. Values are of any type. Nothing here
    models particular code. *)
From Coq Require Import List Permutation Bool Relations FunctionalExtensionality ZArith.
From Verif.Lib Require Import Outcome.
Import ListNotations.

Section ParProg.
Context {L V : Type} (eqb : L -> L -> bool).
Hypothesis eqb_spec : forall x y, reflect (x = y) (eqb x y).

Notation mem := (L -> V).

Definition put (m : mem) (l : L) (v : V) : mem := fun x => if eqb x l then v else m x.

Lemma put_same : forall m l v, put m l v l = v.
Proof. intros. unfold put. destruct (eqb_spec l l); congruence. Qed.
Lemma put_other : forall m l v x, x <> l -> put m l v x = m x.
Proof. intros m l v x H. unfold put. destruct (eqb_spec x l); congruence. Qed.
Lemma put_comm : forall m l v l' v', l <> l' -> put (put m l v) l' v' = put (put m l' v') l v.
Proof.
  intros m l v l' v' H. apply functional_extensionality. intro x. unfold put.
  destruct (eqb_spec x l), (eqb_spec x l'); congruence.
Qed.

(** [Halt None] is undefined behaviour, [Halt (Some c)] is exit(c). *)
Inductive prog : Type :=
| Done
| Halt (code : option Z)
| Ld (l : L) (k : V -> prog)
| St (l : L) (v : V) (p : prog).

Definition halted (c : option Z) : outcome mem := match c with Some c => Exit c | None => UB end.

(** The program alone. *)
Fixpoint prun (p : prog) (m : mem) : outcome mem :=
  match p with
  | Done => Ok m
  | Halt c => halted c
  | Ld l k => prun (k (m l)) m
  | St l v p' => prun p' (put m l v)
  end.

(** First [p], then [q]. *)
Fixpoint pseq (p q : prog) : prog :=
  match p with
  | Done => q
  | Halt c => Halt c
  | Ld l k => Ld l (fun v => pseq (k v) q)
  | St l v p' => St l v (pseq p' q)
  end.

Lemma prun_pseq : forall p q m, prun (pseq p q) m = bind (prun p m) (prun q).
Proof.
  induction p as [|c|l k IH|l v p IH]; intros q m; cbn; auto. now destruct c.
Qed.

Definition serial (ps : list prog) (m : mem) : outcome mem := fold_left (fun o p => bind o (prun p)) ps (Ok m).

Lemma serial_stuck : forall ps (o : outcome mem), (forall m, o <> Ok m) -> fold_left (fun o p => bind o (prun p)) ps o = o.
Proof.
  induction ps as [|p ps IH]; intros o H; [reflexivity|]. cbn. destruct o as [m|c|]; cbn; [destruct (H m eq_refl)| |];
    apply IH; discriminate.
Qed.

Lemma serial_cons : forall p ps m, serial (p :: ps) m = bind (prun p m) (serial ps).
Proof.
  intros p ps m. unfold serial. cbn. destruct (prun p m) as [m'|c|]; cbn; [reflexivity| |]; apply serial_stuck; discriminate.
Qed.

Lemma serial_app : forall a b m, serial (a ++ b) m = bind (serial a m) (serial b).
Proof.
  induction a as [|p a IH]; intros b m; [reflexivity|]. cbn [app]. rewrite !serial_cons.
  destruct (prun p m) as [m'|c|]; cbn; auto.
Qed.

Definition pconcat (ps : list prog) : prog := fold_right pseq Done ps.

Lemma prun_pconcat : forall ps m, prun (pconcat ps) m = serial ps m.
Proof.
  induction ps as [|p ps IH]; intro m; [reflexivity|]. cbn [pconcat fold_right]. rewrite prun_pseq, serial_cons.
  destruct (prun p m); cbn; auto.
Qed.

(** ** Threads *)

(** One load or store of one thread. *)
Inductive pstep : mem * list prog -> mem * list prog -> Prop :=
| pstep_ld : forall m pre l k post, pstep (m, pre ++ Ld l k :: post) (m, pre ++ k (m l) :: post)
| pstep_st : forall m pre l v p post, pstep (m, pre ++ St l v p :: post) (put m l v, pre ++ p :: post).

(** The threads [ps], started on memory [m], can end with [o]: normally when all of them are done, or at
    once when one of them halts the program. *)
Definition ends (ps : list prog) (m : mem) (o : outcome mem) : Prop :=
  exists m' ps', clos_refl_trans_1n _ pstep (m, ps) (m', ps') /\
    ((Forall (fun p => p = Done) ps' /\ o = Ok m') \/ (exists c, In (Halt c) ps' /\ o = halted c)).

(** ** What a program may touch *)

Fixpoint within (rd wr : L -> Prop) (p : prog) : Prop :=
  match p with
  | Done | Halt _ => True
  | Ld l k => rd l /\ forall v, within rd wr (k v)
  | St l v p' => wr l /\ within rd wr p'
  end.

Lemma within_pseq : forall rd wr p q, within rd wr p -> within rd wr q -> within rd wr (pseq p q).
Proof.
  intros rd wr p q. induction p as [|c|l k IH|l v p IH]; cbn; intros Hp Hq; auto.
  - destruct Hp as [H1 H2]. split; auto.
  - destruct Hp as [H1 H2]. split; auto.
Qed.

Lemma within_weaken : forall (rd wr rd' wr' : L -> Prop) p, (forall x, rd x -> rd' x) -> (forall x, wr x -> wr' x) ->
  within rd wr p -> within rd' wr' p.
Proof.
  intros rd wr rd' wr' p Hr Hw. induction p as [|c|l k IH|l v p IH]; cbn; auto.
  - intros [H1 H2]. split; auto.
  - intros [H1 H2]. split; auto.
Qed.

(** A footprint: what is read, what is written. *)
Record foot := Foot { f_rd : L -> Prop; f_wr : L -> Prop }.
Definition fits (f : foot) (p : prog) : Prop := within (f_rd f) (f_wr f) p.

(** Nobody writes what the other one touches. *)
Definition apart (f g : foot) : Prop :=
  (forall x, f_wr f x -> ~ f_rd g x /\ ~ f_wr g x) /\ (forall x, f_wr g x -> ~ f_rd f x /\ ~ f_wr f x).

Lemma apart_sym : forall f g, apart f g -> apart g f.
Proof. intros f g [H1 H2]. now split. Qed.

Definition omap (f : mem -> mem) (o : outcome mem) : outcome mem :=
  match o with Ok m => Ok (f m) | Exit c => Exit c | UB => UB end.

Lemma prun_put : forall f p m l v, fits f p -> ~ f_rd f l -> ~ f_wr f l ->
  prun p (put m l v) = omap (fun m' => put m' l v) (prun p m).
Proof.
  intros f p m l v Hp Hr Hw. revert m. unfold fits in Hp.
  induction p as [|c|x k IH|x u p IH]; intro m; cbn in *.
  - reflexivity.
  - now destruct c.
  - destruct Hp as [H1 H2]. rewrite put_other by (intros ->; contradiction). apply IH; auto.
  - destruct Hp as [H1 H2]. rewrite put_comm by (intros ->; contradiction). now apply IH.
Qed.

Lemma prun_keeps : forall f p m m' l, fits f p -> ~ f_wr f l -> prun p m = Ok m' -> m' l = m l.
Proof.
  intros f p m m' l Hp Hw. revert m. unfold fits in Hp.
  induction p as [|c|x k IH|x u p IH]; intros m E; cbn in *.
  - congruence.
  - destruct c; discriminate.
  - destruct Hp as [H1 H2]. now apply (IH (m x)).
  - destruct Hp as [H1 H2]. rewrite (IH H2 _ E). apply put_other. intros ->. contradiction.
Qed.

Lemma serial_put : forall fs ps m l v, Forall2 fits fs ps -> Forall (fun f => ~ f_rd f l /\ ~ f_wr f l) fs ->
  serial ps (put m l v) = omap (fun m' => put m' l v) (serial ps m).
Proof.
  intros fs ps m l v HF. revert m. induction HF as [|f p fs ps Hp HF IH]; intros m H; [reflexivity|].
  inversion H as [|a b [H1 H2] H3]; subst. rewrite !serial_cons, (prun_put f) by assumption.
  destruct (prun p m); cbn; auto.
Qed.

Lemma serial_keeps : forall fs ps m m' l, Forall2 fits fs ps -> Forall (fun f => ~ f_wr f l) fs ->
  serial ps m = Ok m' -> m' l = m l.
Proof.
  intros fs ps m m' l HF. revert m. induction HF as [|f p fs ps Hp HF IH]; intros m H E.
  - cbn in E. congruence.
  - inversion H as [|a b H1 H2]; subst. rewrite serial_cons in E. destruct (prun p m) as [m1|c|] eqn:E1; cbn in E; try discriminate.
    rewrite (IH m1 H2 E). now apply (prun_keeps f p).
Qed.

(** Every step leaves the result of running the threads to their end one after the other unchanged. *)
Lemma pstep_serial : forall fs m ps m' ps', Forall2 fits fs ps -> ForallOrdPairs apart fs -> pstep (m, ps) (m', ps') ->
  Forall2 fits fs ps' /\ serial ps' m' = serial ps m.
Proof.
  intros fs m ps m' ps' HF HA H. inversion H as [m0 pre l k post E1 E2|m0 pre l v p post E1 E2]; subst.
  - apply Forall2_app_inv_r in HF. destruct HF as (f1 & f2 & F1 & F2 & ->).
    inversion F2 as [|f p0 f2' ps2 Hp F3]; subst. destruct Hp as [Hl Hk]. split.
    + apply Forall2_app; [exact F1|]. constructor; [apply Hk|exact F3].
    + rewrite !serial_app. destruct (serial pre m') as [m1|c|] eqn:E; cbn [bind]; auto. rewrite !serial_cons. cbn [prun].
      rewrite (serial_keeps f1 pre m' m1 l F1); [reflexivity| |exact E].
      clear -HA Hl. induction f1 as [|a f1 IH]; [constructor|]. cbn in HA. inversion HA as [|x y Hx Hy]; subst.
      constructor; [|now apply IH]. apply Forall_app in Hx. destruct Hx as [_ Hx]. inversion Hx as [|u w Hu Hw]; subst.
      intro W. destruct Hu as [A _]. now destruct (A l W).
  - apply Forall2_app_inv_r in HF. destruct HF as (f1 & f2 & F1 & F2 & ->).
    inversion F2 as [|f p0 f2' ps2 Hp F3]; subst. destruct Hp as [Hl Hk]. split.
    + apply Forall2_app; [exact F1|]. constructor; [exact Hk|exact F3].
    + rewrite !serial_app, (serial_put f1 pre) by
        (exact F1 || (clear -HA Hl; induction f1 as [|a f1 IH]; [constructor|]; cbn in HA; inversion HA as [|x y Hx Hy]; subst;
         constructor; [|now apply IH]; apply Forall_app in Hx; destruct Hx as [_ Hx]; inversion Hx as [|u w Hu Hw]; subst;
         destruct Hu as [_ B]; exact (B l Hl))).
      destruct (serial pre m) as [m1|c|]; cbn [omap bind]; auto.
Qed.

(** The same end: the same memory, or both stop early. *)
Definition same_end (a b : outcome mem) : Prop :=
  match a, b with Ok m, Ok m' => m = m' | Ok _, _ | _, Ok _ => False | _, _ => True end.

Lemma same_end_refl : forall a, same_end a a.
Proof. intros [m|c|]; cbn; auto. Qed.
Lemma same_end_sym : forall a b, same_end a b -> same_end b a.
Proof. intros [m|c|] [m'|c'|]; cbn; auto. Qed.
Lemma same_end_trans : forall a b c, same_end a b -> same_end b c -> same_end a c.
Proof. intros [m|x|] [m'|x'|] [m''|x''|]; cbn; try tauto. congruence. Qed.
Lemma same_end_bind : forall a b (f g : mem -> outcome mem), same_end a b -> (forall m, same_end (f m) (g m)) ->
  same_end (bind a f) (bind b g).
Proof. intros [m|x|] [m'|x'|] f g H Hf; cbn in *; try tauto; subst; auto. Qed.

Lemma serial_halt : forall ps m c, In (Halt c) ps -> forall m', serial ps m <> Ok m'.
Proof.
  induction ps as [|p ps IH]; intros m c H m'; [destruct H|]. rewrite serial_cons. destruct H as [->|H].
  - destruct c; cbn; discriminate.
  - destruct (prun p m) as [m1|x|]; cbn; try discriminate. exact (IH m1 c H m').
Qed.

Theorem ends_serial : forall fs ps m o, Forall2 fits fs ps -> ForallOrdPairs apart fs -> ends ps m o ->
  same_end o (serial ps m).
Proof.
  intros fs ps m o HF HA (m' & ps' & Hs & He).
  assert (G : forall c c', clos_refl_trans_1n _ pstep c c' -> Forall2 fits fs (snd c) ->
              Forall2 fits fs (snd c') /\ serial (snd c') (fst c') = serial (snd c) (fst c)).
  { intros c c' R. induction R as [c|c d c' S _ IH]; intro F; [auto|].
    destruct c as [mc pc], d as [md pd]. cbn [fst snd] in *.
    destruct (pstep_serial fs mc pc md pd F HA S) as [Fd E]. destruct (IH Fd) as [F' E']. split; [exact F'|]. now rewrite E'. }
  destruct (G _ _ Hs HF) as [_ E]. cbn [fst snd] in E. rewrite <- E.
  destruct He as [[Hd ->]|(c & Hc & ->)].
  - clear -Hd. induction Hd as [|p ps Hp Hd IH]; [reflexivity|]. subst p. rewrite serial_cons. exact IH.
  - assert (N := serial_halt ps' m' c Hc). destruct (serial ps' m') as [m1|x|]; [destruct (N m1 eq_refl)| |]; now destruct c.
Qed.

(** Programs that are apart commute. *)
Lemma prun_comm : forall f g p q m, fits f p -> fits g q -> apart f g ->
  same_end (bind (prun p m) (prun q)) (bind (prun q m) (prun p)).
Proof.
  intros f g p q m Hp Hq Ha. revert m. unfold fits in Hp.
  induction p as [|c|l k IH|l v p IH]; intro m; cbn [prun bind].
  - destruct (prun q m); cbn; auto.
  - destruct c; cbn; destruct (prun q m) as [m1|x|]; cbn; auto.
  - destruct Hp as [H1 H2]. eapply same_end_trans; [apply (IH (m l) (H2 (m l)) m)|].
    destruct (prun q m) as [m1|x|] eqn:E; cbn; auto. rewrite (prun_keeps g q m m1 l Hq) by (auto; intro W; destruct Ha as [_ B]; now destruct (B l W)).
    apply same_end_refl.
  - destruct Hp as [H1 H2]. eapply same_end_trans; [apply (IH H2 (put m l v))|].
    destruct Ha as [A _]. destruct (A l H1) as [A1 A2]. rewrite (prun_put g) by assumption.
    destruct (prun q m) as [m1|x|]; cbn; auto. apply same_end_refl.
Qed.

(** ** "omp parallel for" *)

(** The iterations are distributed over the threads in some way, and the threads' loads and stores interleave in
    some way. *)
Definition omp_progs {I : Type} (body : I -> prog) (idx : list I) (m : mem) (o : outcome mem) : Prop :=
  exists parts : list (list I), Permutation (concat parts) idx /\ ends (map (fun part => pconcat (map body part)) parts) m o.

Lemma within_pconcat : forall rd wr ps, Forall (within rd wr) ps -> within rd wr (pconcat ps).
Proof. intros rd wr ps H. induction H as [|p ps Hp H IH]; cbn; auto. now apply within_pseq. Qed.

(** The footprint of several iterations together. *)
Definition foot_all {I : Type} (F : I -> foot) (l : list I) : foot :=
  Foot (fun x => exists i, In i l /\ f_rd (F i) x) (fun x => exists i, In i l /\ f_wr (F i) x).

Lemma FOP_app_inv : forall {A} (P : A -> A -> Prop) l l', ForallOrdPairs P (l ++ l') ->
  ForallOrdPairs P l /\ ForallOrdPairs P l' /\ (forall a b, In a l -> In b l' -> P a b).
Proof.
  intros A P l l'. induction l as [|a l IH]; cbn; intro H.
  - split; [constructor|]. split; [exact H|intros a b []].
  - inversion H as [|x y Hx Hy]; subst. destruct (IH Hy) as (I1 & I2 & I3). rewrite Forall_forall in Hx.
    split; [|split; [exact I2|]].
    + constructor; [|exact I1]. apply Forall_forall. intros b Hb. apply Hx. apply in_or_app. now left.
    + intros c b [->|Hc] Hb; [apply Hx; apply in_or_app; now right|now apply I3].
Qed.

Lemma FOP_perm' : forall {A} (P : A -> A -> Prop) l l', (forall a b, P a b -> P b a) ->
  Permutation l l' -> ForallOrdPairs P l -> ForallOrdPairs P l'.
Proof.
  intros A P l l' Hs H. induction H as [|x l l' Hp IH|x y l|l l' l'' H1 IH1 H2 IH2]; intro F; auto.
  - inversion F as [|a b Fa Fb]; subst. constructor; auto. eapply Permutation_Forall; eauto.
  - inversion F as [|a b Fa Fb]; subst. inversion Fb as [|c d Fc Fd]; subst.
    inversion Fa as [|e f Fe Ff]; subst. constructor; [constructor; auto|constructor; auto].
Qed.

(** Iterations that keep to footprints that are pairwise apart: every execution ends like the serial loop. *)
Theorem omp_progs_serial : forall {I : Type} (body : I -> prog) (F : I -> foot) idx m o,
  (forall i, In i idx -> fits (F i) (body i)) -> ForallOrdPairs (fun i j => apart (F i) (F j)) idx ->
  omp_progs body idx m o -> same_end o (serial (map body idx) m).
Proof.
  intros I body F idx m o Hf Ha (parts & Hp & He).
  assert (Ha' : ForallOrdPairs (fun i j => apart (F i) (F j)) (concat parts)).
  { eapply FOP_perm'; [|apply Permutation_sym; exact Hp|exact Ha]. intros a b. apply apart_sym. }
  assert (Hf' : forall i, In i (concat parts) -> fits (F i) (body i)).
  { intros i Hi. apply Hf. eapply Permutation_in; eauto. }
  assert (E1 : same_end o (serial (map (fun part => pconcat (map body part)) parts) m)).
  { apply (ends_serial (map (foot_all F) parts)); [| |exact He].
    - clear -Hf'. induction parts as [|p parts IH]; cbn; constructor.
      + unfold fits. apply within_pconcat. rewrite Forall_map. apply Forall_forall. intros i Hi.
        eapply within_weaken; [| |apply Hf'; cbn; apply in_or_app; left; exact Hi]; intros x Hx; cbn; eauto.
      + apply IH. intros i Hi. apply Hf'. cbn. apply in_or_app. now right.
    - clear -Ha'. induction parts as [|p parts IH]; cbn; [constructor|]. cbn in Ha'.
      apply FOP_app_inv in Ha'. destruct Ha' as (A1 & A2 & A3). constructor; [|now apply IH].
      rewrite Forall_map. apply Forall_forall. intros p' Hp'.
      assert (Q : forall i j, In i p -> In j p' -> apart (F i) (F j)).
      { intros i j Hi Hj. apply A3; [exact Hi|]. apply in_concat. eauto. }
      split; intros x (i & Hi & Hx); split; intros (j & Hj & Hy).
      1, 2: destruct (Q i j Hi Hj) as [Q1 _]; destruct (Q1 x Hx); contradiction.
      1, 2: destruct (Q j i Hj Hi) as [_ Q2]; destruct (Q2 x Hx); contradiction. }
  eapply same_end_trans; [exact E1|].
  assert (E2 : forall ps m, serial (map (fun part => pconcat (map body part)) ps) m = serial (map body (concat ps)) m).
  { clear. induction ps as [|p ps IH]; intro m; [reflexivity|]. cbn [map concat]. rewrite serial_cons, prun_pconcat, map_app, serial_app.
    destruct (serial (map body p) m); cbn; auto. }
  rewrite E2. clear -Hp Hf' Ha' eqb_spec.
  (* permuting indices *)
  revert Hf' Ha' Hp. generalize (concat parts). intros ps Hf' Ha' Hp. revert m Hf' Ha'.
  induction Hp as [|i l l' H IH|i j l|l l' l'' H1 IH1 H2 IH2]; intros m Hf' Ha'.
  - apply same_end_refl.
  - cbn [map]. rewrite !serial_cons. apply same_end_bind; [apply same_end_refl|]. intro m'. apply IH.
    + intros x Hx. apply Hf'. now right.
    + now inversion Ha'.
  - cbn [map]. inversion Ha' as [|a b B1 B2]; subst. inversion B1 as [|a b Hij B3]; subst.
    assert (C := prun_comm (F j) (F i) (body j) (body i) m (Hf' j (or_introl eq_refl)) (Hf' i (or_intror (or_introl eq_refl))) Hij).
    rewrite !serial_cons.
    destruct (prun (body j) m) as [mj|x|], (prun (body i) m) as [mi|y|]; cbn [bind] in *; rewrite ?serial_cons; auto.
    + apply same_end_bind; [exact C|]. intro. apply same_end_refl.
    + destruct (prun (body i) mj); cbn in *; tauto.
    + destruct (prun (body i) mj); cbn in *; tauto.
    + destruct (prun (body j) mi); cbn in *; tauto.
    + destruct (prun (body j) mi); cbn in *; tauto.
  - eapply same_end_trans; [apply IH1; auto|]. apply IH2.
    + intros i Hi. apply Hf'. eapply Permutation_in; [apply Permutation_sym; exact H1|exact Hi].
    + eapply FOP_perm'; [|exact H1|exact Ha']. intros a b. apply apart_sym.
Qed.

(** There is an execution: all iterations in one thread. *)
Lemma ends_one : forall p m, ends [p] m (prun p m).
Proof.
  intros p m.
  assert (G : forall p m, exists m' p', clos_refl_trans_1n _ pstep (m, [p]) (m', [p']) /\
                ((p' = Done /\ prun p m = Ok m') \/ (exists c, p' = Halt c /\ prun p m = halted c))).
  { clear p m. induction p as [|c|l k IH|l v p IH]; intro m.
    - exists m, Done. split; [constructor|]. left. auto.
    - exists m, (Halt c). split; [constructor|]. right. exists c. auto.
    - destruct (IH (m l) m) as (m' & p' & S & E). exists m', p'. split; [|exact E].
      eapply Relation_Operators.rt1n_trans; [apply (pstep_ld m [] l k [])|exact S].
    - destruct (IH (put m l v)) as (m' & p' & S & E). exists m', p'. split; [|exact E].
      eapply Relation_Operators.rt1n_trans; [apply (pstep_st m [] l v p [])|exact S]. }
  destruct (G p m) as (m' & p' & S & [[-> E]|(c & -> & E)]); exists m'; [exists [Done]|exists [Halt c]]; split; auto.
  right. exists c. split; [now left|exact E].
Qed.

Lemma omp_progs_exists : forall {I : Type} (body : I -> prog) idx m, omp_progs body idx m (serial (map body idx) m).
Proof.
  intros I body idx m. exists [idx]. split; [cbn; now rewrite app_nil_r|]. cbn [map]. rewrite <- prun_pconcat. apply ends_one.
Qed.

End ParProg.
Arguments Done {L V}.
Arguments Halt {L V} code.
