(** Assignments to memory locations, their serial execution, and the semantics of
    "omp parallel for" loops as interleavings of single loads and stores of threads.
    Nothing here models particular code. *)
From Coq Require Import List Permutation Bool Relations FunctionalExtensionality Lia ZArith.
Import ListNotations.

Section Par.
Context {L V : Type} (eqb : L -> L -> bool).
Hypothesis eqb_spec : forall x y, reflect (x = y) (eqb x y).

(** What the locations hold: [V] is the type of the values. *)
Definition memory := L -> V.

Definition store (m : memory) (l : L) (v : V) : memory := fun x => if eqb x l then v else m x.

Lemma store_same : forall m l v, store m l v l = v.
Proof. intros. unfold store. destruct (eqb_spec l l); congruence. Qed.

Lemma store_other : forall m l v x, x <> l -> store m l v x = m x.
Proof. intros m l v x H. unfold store. destruct (eqb_spec x l); congruence. Qed.

Lemma store_comm : forall m l v l' v', l <> l' ->
  store (store m l v) l' v' = store (store m l' v') l v.
Proof.
  intros m l v l' v' H. apply functional_extensionality. intro x. unfold store.
  destruct (eqb_spec x l), (eqb_spec x l'); congruence.
Qed.

(** One assignment [tgt := rhs (values of reads)]. *)
Record asg := Asg { tgt : L; reads : list L; rhs : list V -> V }.

Definition exec_asg (m : memory) (a : asg) : memory := store m (tgt a) (rhs a (map m (reads a))).

(** Serial execution. *)
Definition exec (l : list asg) (m : memory) : memory := fold_left exec_asg l m.

Lemma exec_app : forall a b m, exec (a ++ b) m = exec b (exec a m).
Proof. intros. unfold exec. apply fold_left_app. Qed.

Lemma exec_unwritten : forall l m x, (forall a, In a l -> tgt a <> x) -> exec l m x = m x.
Proof.
  induction l as [|a l IH]; intros m x H; [reflexivity|].
  change (exec (a :: l) m) with (exec l (exec_asg m a)). rewrite IH.
  - apply store_other. intro E. apply (H a); [now left|congruence].
  - intros b Hb. apply H. now right.
Qed.

(** ** Loads and stores *)

Inductive uop := Load (l : L) | Store (l : L) (f : list V -> V).

Definition compile (a : asg) : list uop := map Load (reads a) ++ [Store (tgt a) (rhs a)].

(** The loads fill a local buffer; the store computes from the buffer and empties it. *)
Definition ustep (s : memory * list V) (op : uop) : memory * list V :=
  match op with
  | Load l => (fst s, snd s ++ [fst s l])
  | Store l f => (store (fst s) l (f (snd s)), [])
  end.

Definition urun (ops : list uop) (s : memory * list V) : memory * list V := fold_left ustep ops s.

Lemma urun_loads : forall ls m buf, urun (map Load ls) (m, buf) = (m, buf ++ map m ls).
Proof.
  induction ls as [|l ls IH]; intros m buf; cbn.
  - now rewrite app_nil_r.
  - unfold urun in IH. cbn in IH. rewrite IH, <- app_assoc. reflexivity.
Qed.

Lemma urun_compile : forall a m, urun (compile a) (m, []) = (exec_asg m a, []).
Proof.
  intros a m. unfold compile, urun. rewrite fold_left_app.
  change (fold_left ustep (map Load (reads a)) (m, [])) with (urun (map Load (reads a)) (m, [])).
  rewrite urun_loads. reflexivity.
Qed.

Definition compile_all (l : list asg) : list uop := flat_map compile l.

Lemma urun_compile_all : forall l m, urun (compile_all l) (m, []) = (exec l m, []).
Proof.
  induction l as [|a l IH]; intro m; [reflexivity|].
  unfold compile_all, urun in *. cbn [flat_map]. rewrite fold_left_app.
  change (fold_left ustep (compile a) (m, [])) with (urun (compile a) (m, [])).
  rewrite urun_compile. rewrite IH. reflexivity.
Qed.

(** ** Threads *)

Definition thread := (list uop * list V)%type.

(** One load or store of one thread. *)
Inductive cstep : memory * list thread -> memory * list thread -> Prop :=
| cstep_intro : forall m pre op ops buf post,
    cstep (m, pre ++ (op :: ops, buf) :: post)
          (fst (ustep (m, buf) op), pre ++ (ops, snd (ustep (m, buf) op)) :: post).

(** Some interleaving of the threads [progs], started with empty buffers, takes [m] to [m']. *)
Definition interleaved (progs : list (list uop)) (m m' : memory) : Prop :=
  exists ths, clos_refl_trans_1n _ cstep (m, map (fun p => (p, [])) progs) (m', ths) /\
              Forall (fun th : thread => fst th = []) ths.

(** Running the threads to their end one after the other. *)
Definition finish (m : memory) (ths : list thread) : memory :=
  fold_left (fun m th => fst (urun (fst th) (m, snd th))) ths m.

Definition op_reads (op : uop) : list L := match op with Load l => [l] | Store _ _ => [] end.
Definition op_writes (op : uop) : list L := match op with Load _ => [] | Store l _ => [l] end.
Definition ops_reads (ops : list uop) : list L := flat_map op_reads ops.
Definition ops_writes (ops : list uop) : list L := flat_map op_writes ops.

(** Neither thread writes a location the other one reads or writes. *)
Definition no_conflict (a b : list uop) : Prop :=
  (forall x, In x (ops_writes a) -> ~ In x (ops_reads b) /\ ~ In x (ops_writes b)) /\
  (forall x, In x (ops_writes b) -> ~ In x (ops_reads a) /\ ~ In x (ops_writes a)).

Lemma urun_store_comm : forall ops m buf l v,
  ~ In l (ops_reads ops) -> ~ In l (ops_writes ops) ->
  urun ops (store m l v, buf) =
  (store (fst (urun ops (m, buf))) l v, snd (urun ops (m, buf))).
Proof.
  induction ops as [|op ops IH]; intros m buf l v Hr Hw; [reflexivity|].
  unfold ops_reads, ops_writes in Hr, Hw. cbn [flat_map] in Hr, Hw.
  rewrite in_app_iff in Hr, Hw.
  assert (Hr' : ~ In l (ops_reads ops)) by tauto. assert (Hw' : ~ In l (ops_writes ops)) by tauto.
  change (urun (op :: ops) (store m l v, buf)) with (urun ops (ustep (store m l v, buf) op)).
  change (urun (op :: ops) (m, buf)) with (urun ops (ustep (m, buf) op)).
  destruct op as [l'|l' f]; cbn [ustep fst snd].
  - assert (N : l' <> l) by (intro E; apply Hr; left; cbn; auto).
    rewrite store_other by exact N. now rewrite IH.
  - assert (N : l <> l') by (intro E; apply Hw; left; cbn; auto).
    rewrite store_comm by exact N. now rewrite IH.
Qed.

Lemma urun_unwritten : forall ops m buf l, ~ In l (ops_writes ops) -> fst (urun ops (m, buf)) l = m l.
Proof.
  induction ops as [|op ops IH]; intros m buf l H; [reflexivity|].
  unfold ops_writes in H. cbn [flat_map] in H. rewrite in_app_iff in H.
  change (urun (op :: ops) (m, buf)) with (urun ops (ustep (m, buf) op)).
  destruct op as [l'|l' f]; cbn [ustep fst snd]; rewrite IH; try tauto.
  apply store_other. intro E. apply H. left. cbn. auto.
Qed.

Lemma finish_store_comm : forall ths m l v,
  Forall (fun th : thread => ~ In l (ops_reads (fst th)) /\ ~ In l (ops_writes (fst th))) ths ->
  finish (store m l v) ths = store (finish m ths) l v.
Proof.
  induction ths as [|th ths IH]; intros m l v H; [reflexivity|].
  inversion H as [|x y [Hr Hw] H']; subst. unfold finish in *. cbn [fold_left].
  rewrite urun_store_comm by assumption. cbn [fst]. now apply IH.
Qed.

Lemma finish_unwritten : forall ths m l,
  Forall (fun th : thread => ~ In l (ops_writes (fst th))) ths -> finish m ths l = m l.
Proof.
  induction ths as [|th ths IH]; intros m l H; [reflexivity|].
  inversion H as [|x y Hw H']; subst. unfold finish in *. cbn [fold_left].
  rewrite IH by assumption. now apply urun_unwritten.
Qed.

Definition separate (ths : list thread) : Prop :=
  ForallOrdPairs (fun a b : thread => no_conflict (fst a) (fst b)) ths.

Lemma separate_pre : forall pre th post, separate (pre ++ th :: post) ->
  Forall (fun a : thread => no_conflict (fst a) (fst th)) pre.
Proof.
  induction pre as [|a pre IH]; intros th post H; [constructor|].
  inversion H as [|x y Hx Hy]; subst. constructor.
  - rewrite Forall_forall in Hx. apply (Hx th). apply in_or_app. right. now left.
  - now apply IH with post.
Qed.

Lemma no_conflict_tail_l : forall op a b, no_conflict (op :: a) b -> no_conflict a b.
Proof.
  intros op a b [H1 H2]. unfold ops_reads, ops_writes in *. cbn [flat_map] in *. split; intros x Hx.
  - apply H1. apply in_or_app. now right.
  - destruct (H2 x Hx) as [A B]. rewrite in_app_iff in A, B. tauto.
Qed.

Lemma no_conflict_sym : forall a b, no_conflict a b -> no_conflict b a.
Proof. intros a b [H1 H2]. now split. Qed.

Lemma separate_step : forall pre op ops buf buf' post,
  separate (pre ++ (op :: ops, buf) :: post) -> separate (pre ++ (ops, buf') :: post).
Proof.
  induction pre as [|a pre IH]; intros op ops buf buf' post H; inversion H as [|x y Hx Hy]; subst.
  - constructor; [|exact Hy]. eapply Forall_impl; [|exact Hx].
    intros b Hb. cbn in *. now apply no_conflict_tail_l with op.
  - cbn. constructor.
    + apply Forall_app in Hx. destruct Hx as [X1 X2]. inversion X2 as [|u w U W]; subst.
      apply Forall_app. split; [exact X1|]. constructor; [|exact W].
      cbn in *. apply no_conflict_sym, no_conflict_tail_l with op, no_conflict_sym. exact U.
    + now apply IH with op buf.
Qed.

Lemma finish_app : forall a b m, finish m (a ++ b) = finish (finish m a) b.
Proof. intros. unfold finish. apply fold_left_app. Qed.

Lemma finish_cons : forall th ths m, finish m (th :: ths) = finish (fst (urun (fst th) (m, snd th))) ths.
Proof. reflexivity. Qed.

Lemma cstep_finish : forall m ths m' ths', separate ths -> cstep (m, ths) (m', ths') ->
  separate ths' /\ finish m' ths' = finish m ths.
Proof.
  intros m ths m' ths' Hs H. inversion H as [m0 pre op ops buf post E1 E2]; subst.
  split; [eapply separate_step; exact Hs|].
  apply separate_pre in Hs. rewrite !finish_app, !finish_cons. cbn [fst snd].
  change (urun (op :: ops) (finish m pre, buf)) with (urun ops (ustep (finish m pre, buf) op)).
  destruct op as [l|l f]; cbn [ustep fst snd].
  - f_equal. rewrite finish_unwritten; [reflexivity|].
    eapply Forall_impl; [|exact Hs]. intros a [A B] Hw. destruct (A l Hw) as [A1 _].
    apply A1. cbn. now left.
  - f_equal. rewrite finish_store_comm; [reflexivity|].
    eapply Forall_impl; [|exact Hs]. intros a [A B]. cbn in B.
    destruct (B l (or_introl eq_refl)). now split.
Qed.

Lemma finish_done : forall ths m, Forall (fun th : thread => fst th = []) ths -> finish m ths = m.
Proof.
  induction ths as [|th ths IH]; intros m H; [reflexivity|]. inversion H as [|x y Hx Hy]; subst.
  rewrite finish_cons, Hx. cbn. now apply IH.
Qed.

(** Threads without conflicts: every interleaving gives the result of running them one
    after the other. *)
Theorem interleaved_serial : forall progs m m',
  ForallOrdPairs no_conflict progs -> interleaved progs m m' ->
  m' = finish m (map (fun p => (p, [])) progs).
Proof.
  intros progs m m' Hs (ths & Hr & Hd).
  assert (S : separate (map (fun p => (p, [])) progs)).
  { clear -Hs. induction Hs as [|p ps Hp _ IH]; cbn; [constructor|]. constructor; [|exact IH].
    rewrite Forall_map. exact Hp. }
  assert (G : forall c c', clos_refl_trans_1n _ cstep c c' -> separate (snd c) ->
              finish (fst c') (snd c') = finish (fst c) (snd c)).
  { intros c c' R. induction R as [c|c d c' St _ IH]; intro Sc; [reflexivity|].
    destruct c as [mc tc], d as [md td]. cbn [fst snd] in *.
    destruct (cstep_finish mc tc md td Sc St) as [Sd E]. rewrite IH by exact Sd. exact E. }
  assert (E := G _ _ Hr S). cbn [fst snd] in E. rewrite finish_done in E by exact Hd. exact E.
Qed.

(** ** Loops *)

Definition writes_of (l : list asg) : list L := map tgt l.
Definition reads_of (l : list asg) : list L := flat_map reads l.

(** Loop bodies without conflicts. *)
Definition independent (a b : list asg) : Prop :=
  (forall x, In x (writes_of a) -> ~ In x (reads_of b) /\ ~ In x (writes_of b)) /\
  (forall x, In x (writes_of b) -> ~ In x (reads_of a) /\ ~ In x (writes_of a)).

Lemma independent_sym : forall a b, independent a b -> independent b a.
Proof. intros a b [H1 H2]. now split. Qed.

Lemma ops_reads_compile : forall l x, In x (ops_reads (compile_all l)) <-> In x (reads_of l).
Proof.
  intros l x. unfold ops_reads, compile_all, reads_of. rewrite !in_flat_map. split.
  - intros (op & Ho & Hx). apply in_flat_map in Ho. destruct Ho as (a & Ha & Ho).
    unfold compile in Ho. apply in_app_or in Ho. destruct Ho as [Ho|[Ho|[]]].
    + apply in_map_iff in Ho. destruct Ho as (y & <- & Hy). cbn in Hx. destruct Hx as [<-|[]].
      exists a. now split.
    + subst op. destruct Hx.
  - intros (a & Ha & Hx). exists (Load x). split; [|now left].
    apply in_flat_map. exists a. split; [exact Ha|]. unfold compile. apply in_or_app. left. now apply in_map.
Qed.

Lemma ops_writes_compile : forall l x, In x (ops_writes (compile_all l)) <-> In x (writes_of l).
Proof.
  intros l x. unfold ops_writes, compile_all, writes_of. rewrite in_flat_map, in_map_iff. split.
  - intros (op & Ho & Hx). apply in_flat_map in Ho. destruct Ho as (a & Ha & Ho).
    unfold compile in Ho. apply in_app_or in Ho. destruct Ho as [Ho|[Ho|[]]].
    + apply in_map_iff in Ho. destruct Ho as (y & <- & Hy). destruct Hx.
    + subst op. cbn in Hx. destruct Hx as [<-|[]]. exists a. now split.
  - intros (a & Hx & Ha). subst x. exists (Store (tgt a) (rhs a)). split; [|now left].
    apply in_flat_map. exists a. split; [exact Ha|]. unfold compile. apply in_or_app. right. now left.
Qed.

Lemma independent_no_conflict : forall a b, independent a b -> no_conflict (compile_all a) (compile_all b).
Proof.
  intros a b [H1 H2].
  split; intros x Hx; rewrite ops_writes_compile in Hx; rewrite ops_reads_compile, ops_writes_compile; auto.
Qed.

Lemma independent_app_l : forall a a' b, independent a b -> independent a' b -> independent (a ++ a') b.
Proof.
  intros a a' b [H1 H2] [H3 H4]. split; intros x Hx; unfold writes_of, reads_of in *.
  - rewrite map_app, in_app_iff in Hx. destruct Hx; auto.
  - rewrite flat_map_app, map_app, !in_app_iff. destruct (H2 x Hx), (H4 x Hx). tauto.
Qed.

Lemma independent_nil_l : forall b, independent [] b.
Proof. intro b. split; intros x Hx; [destruct Hx|split; intros []]. Qed.

Lemma independent_concat_l : forall ls b, Forall (fun a => independent a b) ls -> independent (concat ls) b.
Proof.
  intros ls b H. induction H as [|a ls Ha _ IH]; cbn; [apply independent_nil_l|].
  now apply independent_app_l.
Qed.

(** Executing an independent body earlier does not matter. *)
Lemma exec_comm_asg : forall l m x v, ~ In x (reads_of l) -> ~ In x (writes_of l) ->
  exec l (store m x v) = store (exec l m) x v.
Proof.
  intros l m x v Hr Hw.
  assert (E := urun_compile_all l (store m x v)).
  rewrite urun_store_comm in E.
  - rewrite urun_compile_all in E. cbn [fst snd] in E. injection E as E. symmetry. exact E.
  - now rewrite ops_reads_compile.
  - now rewrite ops_writes_compile.
Qed.

Lemma exec_comm : forall a b m, independent a b -> exec b (exec a m) = exec a (exec b m).
Proof.
  induction a as [|x a IH]; intros b m [H1 H2]; [reflexivity|].
  change (exec (x :: a) m) with (exec a (exec_asg m x)).
  change (exec (x :: a) (exec b m)) with (exec a (exec_asg (exec b m) x)).
  assert (Hx := H1 (tgt x) (or_introl eq_refl)). destruct Hx as [X1 X2].
  rewrite IH.
  - f_equal. unfold exec_asg. rewrite exec_comm_asg by assumption. f_equal. f_equal.
    apply map_ext_in. intros y Hy. symmetry. apply exec_unwritten. intros c Hc E.
    destruct (H2 y) as [Y1 _]; [subst y; now apply in_map|].
    apply Y1. unfold reads_of. cbn [flat_map]. apply in_or_app. now left.
  - split; intros y Hy.
    + apply H1. now right.
    + destruct (H2 y Hy) as [A B]. unfold reads_of, writes_of in *. cbn [flat_map map] in *.
      rewrite in_app_iff in A. cbn in B. tauto.
Qed.

Lemma FOP_perm : forall {A} (P : A -> A -> Prop) l l', (forall a b, P a b -> P b a) ->
  Permutation l l' -> ForallOrdPairs P l -> ForallOrdPairs P l'.
Proof.
  intros A P l l' Hs H. induction H as [|x l l' Hp IH|x y l|l l' l'' H1 IH1 H2 IH2]; intro F; auto.
  - inversion F as [|a b Fa Fb]; subst. constructor; auto. eapply Permutation_Forall; eauto.
  - inversion F as [|a b Fa Fb]; subst. inversion Fb as [|c d Fc Fd]; subst.
    inversion Fa as [|e f Fe Ff]; subst. constructor; [constructor; auto|constructor; auto].
Qed.

Lemma exec_perm : forall bs bs' m, Permutation bs bs' -> ForallOrdPairs independent bs ->
  exec (concat bs) m = exec (concat bs') m.
Proof.
  intros bs bs' m H. revert m.
  induction H as [|x l l' Hp IH|x y l|l l' l'' H1 IH1 H2 IH2]; intros m F.
  - reflexivity.
  - cbn. rewrite !exec_app. inversion F as [|a b Fa Fb]; subst. now apply IH.
  - cbn. rewrite !exec_app. inversion F as [|a b Fa Fb]; subst. inversion Fa as [|c d Fc Fd]; subst.
    now rewrite (exec_comm y x).
  - rewrite IH1 by assumption. apply IH2. eapply FOP_perm; eauto using independent_sym.
Qed.

(** An "omp for" loop: the iterations are distributed over the threads in some way, and the
    threads' loads and stores interleave in some way; the implicit barrier at the end of the
    loop is that all threads have finished. *)
Definition omp_for (bodies : list (list asg)) (m m' : memory) : Prop :=
  exists parts : list (list (list asg)),
    Permutation (concat parts) bodies /\
    interleaved (map (fun part => compile_all (concat part)) parts) m m'.

Lemma FOP_app : forall {A} (P : A -> A -> Prop) l l',
  ForallOrdPairs P (l ++ l') ->
  ForallOrdPairs P l /\ ForallOrdPairs P l' /\ Forall (fun a => Forall (P a) l') l.
Proof.
  intros A P l l'. induction l as [|a l IH]; cbn; intro H.
  - split; [constructor|]. split; [exact H|constructor].
  - inversion H as [|x y Hx Hy]; subst. apply Forall_app in Hx. destruct Hx as [X1 X2].
    destruct (IH Hy) as (I1 & I2 & I3). split; [now constructor|]. split; [exact I2|]. now constructor.
Qed.

Lemma finish_compiled : forall parts m,
  finish m (map (fun p : list uop => (p, [])) (map (fun part => compile_all (concat part)) parts)) =
  exec (concat (concat parts)) m.
Proof.
  induction parts as [|p parts IH]; intro m; [reflexivity|].
  cbn [map]. rewrite finish_cons. cbn [fst snd]. rewrite urun_compile_all. cbn [fst].
  rewrite IH. cbn [concat]. rewrite concat_app, exec_app. reflexivity.
Qed.

Theorem omp_for_serial : forall bodies m m',
  ForallOrdPairs independent bodies -> omp_for bodies m m' -> m' = exec (concat bodies) m.
Proof.
  intros bodies m m' Hi (parts & Hp & Hr).
  assert (Hi' : ForallOrdPairs independent (concat parts)).
  { eapply FOP_perm; [exact independent_sym|apply Permutation_sym; exact Hp|exact Hi]. }
  assert (Hn : ForallOrdPairs no_conflict (map (fun part => compile_all (concat part)) parts)).
  { clear -Hi'. induction parts as [|p parts IH]; cbn in *; [constructor|].
    apply FOP_app in Hi'. destruct Hi' as (I1 & I2 & I3). constructor; [|now apply IH].
    rewrite Forall_map. apply Forall_forall. intros p' Hp'. apply independent_no_conflict.
    apply independent_concat_l. eapply Forall_impl; [|exact I3]. intros a Ha.
    apply independent_sym. apply independent_concat_l.
    apply Forall_forall. intros b Hb. apply independent_sym.
    rewrite Forall_forall in Ha. apply Ha. apply in_concat. now exists p'. }
  rewrite (interleaved_serial _ _ _ Hn Hr), finish_compiled. now apply exec_perm.
Qed.

(** A parallel region: several "omp for" loops one after the other. *)
Inductive omp_region : list (list (list asg)) -> memory -> memory -> Prop :=
| omp_end : forall m, omp_region [] m m
| omp_loop : forall b bs m m' m'', omp_for b m m' -> omp_region bs m' m'' -> omp_region (b :: bs) m m''.

Theorem omp_region_serial : forall loops m m',
  Forall (ForallOrdPairs independent) loops -> omp_region loops m m' ->
  m' = exec (concat (concat loops)) m.
Proof.
  intros loops m m' H R. induction R as [m|b bs m m' m'' Hb _ IH]; [reflexivity|].
  inversion H as [|x y Hx Hy]; subst. cbn. rewrite concat_app, exec_app.
  rewrite <- (omp_for_serial b m m' Hx Hb). now apply IH.
Qed.

(** The serial execution is one of the executions, so the relation is not empty. *)
Lemma interleaved_one : forall ops m, interleaved [ops] m (fst (urun ops (m, []))).
Proof.
  intros ops m. exists [([], snd (urun ops (m, [])))]. split; [|constructor; auto].
  cbn. generalize (@nil V). revert m. induction ops as [|op ops IH]; intros m buf.
  - cbn. constructor.
  - eapply (Relation_Operators.rt1n_trans _ _ _ (fst (ustep (m, buf) op), [(ops, snd (ustep (m, buf) op))])).
    + apply (cstep_intro m [] op ops buf []).
    + change (urun (op :: ops) (m, buf)) with (urun ops (ustep (m, buf) op)).
      destruct (ustep (m, buf) op) as [m1 b1]. apply IH.
Qed.

Lemma omp_for_exists : forall bodies m, omp_for bodies m (exec (concat bodies) m).
Proof.
  intros bodies m. exists [bodies]. split; [cbn; now rewrite app_nil_r|].
  cbn. assert (E := interleaved_one (compile_all (concat bodies)) m).
  now rewrite urun_compile_all in E.
Qed.

(** ** Value of a location after a loop of independent bodies *)

Lemma exec_loop_at : forall {I} (f : I -> list asg) (idx : list I) m i x,
  NoDup idx -> (forall a b, In a idx -> In b idx -> a <> b -> independent (f a) (f b)) ->
  In i idx -> In x (writes_of (f i)) ->
  exec (flat_map f idx) m x = exec (f i) m x.
Proof.
  intros I f idx m i x Hn Hi Hin Hx. revert m.
  induction idx as [|j idx IH]; intro m; [destruct Hin|].
  cbn [flat_map]. rewrite exec_app. inversion Hn as [|a b Na Nb]; subst.
  destruct Hin as [->|Hin].
  - apply exec_unwritten. intros a Ha E. apply in_flat_map in Ha. destruct Ha as (k & Hk & Ha).
    assert (N : i <> k) by (intros ->; contradiction).
    destruct (Hi i k (or_introl eq_refl) (or_intror Hk) N) as [H1 _].
    destruct (H1 x Hx) as [_ B]. apply B. rewrite <- E. now apply in_map.
  - rewrite IH; auto.
    + assert (N : i <> j) by (intros ->; contradiction).
      assert (IJ := Hi i j (or_intror Hin) (or_introl eq_refl) N).
      rewrite exec_comm by (apply independent_sym; exact IJ).
      apply exec_unwritten. intros a Ha E. destruct IJ as [H1 _]. destruct (H1 x Hx) as [_ B].
      apply B. rewrite <- E. now apply in_map.
    + intros a b Ha Hb. apply Hi; now right.
Qed.

Lemma exec_loop_unwritten : forall {I} (f : I -> list asg) (idx : list I) m x,
  (forall i, In i idx -> ~ In x (writes_of (f i))) -> exec (flat_map f idx) m x = m x.
Proof.
  intros I f idx m x H. apply exec_unwritten. intros a Ha E. apply in_flat_map in Ha.
  destruct Ha as (i & Hi & Ha). apply (H i Hi). rewrite <- E. now apply in_map.
Qed.

Lemma loop_independent : forall {I} (f : I -> list asg) (idx : list I),
  NoDup idx -> (forall a b, In a idx -> In b idx -> a <> b -> independent (f a) (f b)) ->
  ForallOrdPairs independent (map f idx).
Proof.
  intros I f idx Hn Hi. induction idx as [|i idx IH]; cbn; [constructor|].
  inversion Hn as [|a b Na Nb]; subst. constructor.
  - rewrite Forall_map. apply Forall_forall. intros j Hj. apply Hi; [now left|now right|].
    intros ->. contradiction.
  - apply IH; auto. intros a b Ha Hb. apply Hi; now right.
Qed.

End Par.

(** ** Index ranges *)

(** lo, lo+1, ..., hi-1 *)
Definition zrange (lo hi : Z) : list Z := map (fun n => (lo + Z.of_nat n)%Z) (seq 0 (Z.to_nat (hi - lo))).

Lemma zrange_in : forall lo hi i, In i (zrange lo hi) <-> (lo <= i < hi)%Z.
Proof.
  intros lo hi i. unfold zrange. rewrite in_map_iff. split.
  - intros (n & <- & Hn). apply in_seq in Hn. lia.
  - intro H. exists (Z.to_nat (i - lo)). split; [lia|]. apply in_seq. lia.
Qed.

Lemma zrange_nodup : forall lo hi, NoDup (zrange lo hi).
Proof.
  intros lo hi. unfold zrange. apply FinFun.Injective_map_NoDup; [|apply seq_NoDup].
  intros a b H. lia.
Qed.

(** Row-major pairs. *)
Definition cells (lo1 hi1 lo2 hi2 : Z) : list (Z * Z) := list_prod (zrange lo1 hi1) (zrange lo2 hi2).

Lemma cells_in : forall lo1 hi1 lo2 hi2 i k,
  In (i, k) (cells lo1 hi1 lo2 hi2) <-> (lo1 <= i < hi1 /\ lo2 <= k < hi2)%Z.
Proof. intros. unfold cells. rewrite in_prod_iff, !zrange_in. reflexivity. Qed.

Lemma list_prod_nodup : forall {A B} (l : list A) (l' : list B), NoDup l -> NoDup l' -> NoDup (list_prod l l').
Proof.
  intros A B l l' H H'. induction H as [|a l Ha _ IH]; cbn; [constructor|].
  assert (D : forall x, In x (map (fun y => (a, y)) l') -> ~ In x (list_prod l l')).
  { intros x Hx Hy. apply in_map_iff in Hx. destruct Hx as (y & <- & _).
    apply in_prod_iff in Hy. tauto. }
  assert (N : NoDup (map (fun y => (a, y)) l')).
  { apply FinFun.Injective_map_NoDup; [|exact H']. intros u v E. congruence. }
  clear -D N IH. induction N as [|x m Hx _ IHm]; cbn; [exact IH|].
  constructor.
  - rewrite in_app_iff. intros [H|H]; [contradiction|]. apply (D x); [now left|exact H].
  - apply IHm. intros y Hy. apply D. now right.
Qed.

Lemma cells_nodup : forall lo1 hi1 lo2 hi2, NoDup (cells lo1 hi1 lo2 hi2).
Proof. intros. apply list_prod_nodup; apply zrange_nodup. Qed.
