(** * Model of the task runtime (StarPU as used by NNTile)

    A submitted task is a list of data handles with access modes and a body (the CPU
    codelet function) working on the buffers of these handles
    (starpu_task_insert calls in src/starpu/*.cc).  The runtime may run any pending
    task that has no conflict with an earlier pending task (sequential data
    consistency of StarPU).  Tasks are atomic: concurrent execution of
    non-conflicting tasks is the same as running them in some order. *)
From Verif Require Import Base Traits.

Section Runtime.
Context {T : Type}.

(** Contents of a registered buffer: T*, Index*, bool_t* data. *)
Inductive buf := BF (l : list T) | BI (l : list Z) | BB (l : list bool).
(** Type of a buffer: element kind and number of elements.  StarPU buffers never
    change size after registration. *)
Inductive kind := KF | KI | KB.
Definition ty (b : buf) : kind * Z :=
  match b with BF l => (KF, zlen l) | BI l => (KI, zlen l) | BB l => (KB, zlen l) end.

Definition store := handle -> buf.

(** starpu_data_access_mode *)
Inductive mode := MR | MW | MRW | MCOMMUTE | MREDUX | MSCRATCH.

Definition writes (m : mode) : bool :=
  match m with MW | MRW | MCOMMUTE | MREDUX => true | MR | MSCRATCH => false end.
Definition reads (m : mode) : bool :=
  match m with MR | MRW | MCOMMUTE | MREDUX => true | MW | MSCRATCH => false end.

Record task := mkTask {
  t_acc : list (handle * mode);
  t_body : list buf -> res (list buf)
}.

(** Two accesses to the same handle must keep their submission order, unless both only
    read, both are reductions, both commute, or one is scratch. *)
Definition mode_conflict (m1 m2 : mode) : bool :=
  match m1, m2 with
  | MSCRATCH, _ | _, MSCRATCH => false
  | MR, MR => false
  | MCOMMUTE, MCOMMUTE => false
  | MREDUX, MREDUX => false
  | _, _ => true
  end.

Definition conflict (t1 t2 : task) : Prop :=
  exists h m1 m2, In (h, m1) (t_acc t1) /\ In (h, m2) (t_acc t2) /\ mode_conflict m1 m2 = true.

Definition upd_store (s : store) (h : handle) (b : buf) : store :=
  fun h' => if h' =? h then b else s h'.

Fixpoint write_back (acc : list (handle * mode)) (out : list buf) (s : store) : res store :=
  match acc, out with
  | [], [] => Ok s
  | (h, m) :: acc', b :: out' =>
      write_back acc' out' (match m with MSCRATCH => s | _ => upd_store s h b end)
  | _, _ => UB
  end.

(** Run a task.  A handle accessed in write-only or scratch mode is presented to the body with
    arbitrary contents [hv h] (a stale or uninitialised copy). *)
Definition in_buf (s : store) (hv : handle -> buf) (a : handle * mode) : buf :=
  if reads (snd a) then s (fst a) else hv (fst a).

Definition exec_task (t : task) (s : store) (hv : handle -> buf) : res store :=
  out <- t_body t (map (in_buf s hv) (t_acc t)) ;;
  write_back (t_acc t) out s.

Definition typed (hv : handle -> buf) (s : store) : Prop := forall h, ty (hv h) = ty (s h).

Inductive step : list task * store -> list task * store -> Prop :=
| step_run : forall l1 t l2 s hv s',
    (forall t', In t' l1 -> ~ conflict t' t) ->
    typed hv s ->
    exec_task t s hv = Ok s' ->
    step (l1 ++ t :: l2, s) (l1 ++ l2, s').

Inductive steps : list task * store -> list task * store -> Prop :=
| steps_refl : forall c, steps c c
| steps_cons : forall c1 c2 c3, step c1 c2 -> steps c2 c3 -> steps c1 c3.

(** No runnable task can fail (throw, access out of bounds, ...). *)
Definition safe (c : list task * store) : Prop :=
  forall l1 t l2 hv, fst c = l1 ++ t :: l2 ->
    (forall t', In t' l1 -> ~ conflict t' t) -> typed hv (snd c) ->
    exists s', exec_task t (snd c) hv = Ok s'.

(** Every execution of the submitted tasks is free of errors and ends in a state
    satisfying [P]. *)
Definition always (ts : list task) (s : store) (P : store -> Prop) : Prop :=
  forall ts' s', steps (ts, s) (ts', s') -> safe (ts', s') /\ (ts' = [] -> P s').

(** Access modes are sound: the body succeeds, keeps [I], changes only handles declared as
    written, and what it writes is a function of the handles declared as read. *)
Definition sound_task (I : store -> Prop) (t : task) : Prop :=
  (forall s hv, I s -> typed hv s ->
     exists s', exec_task t s hv = Ok s' /\ I s' /\
       forall h, (forall m, In (h, m) (t_acc t) -> writes m = false) -> s' h = s h) /\
  (forall s1 hv1 s1' s2 hv2 s2', I s1 -> I s2 -> typed hv1 s1 -> typed hv2 s2 ->
     (forall h m, In (h, m) (t_acc t) -> reads m = true -> s1 h = s2 h) ->
     exec_task t s1 hv1 = Ok s1' -> exec_task t s2 hv2 = Ok s2' ->
     forall h m, In (h, m) (t_acc t) -> writes m = true -> s1' h = s2' h).

(** The task relies on the submission order only (no commutative or reduction access). *)
Definition ordered_task (t : task) : Prop :=
  forall h m, In (h, m) (t_acc t) -> m <> MCOMMUTE /\ m <> MREDUX.

(* ------------------------------------------------------------------ *)
(** ** Effects: a task as a deterministic assignment *)

Definition eff := list (handle * (store -> buf)).

Fixpoint elookup (e : eff) (h : handle) : option (store -> buf) :=
  match e with
  | [] => None
  | (h', f) :: e' => if h =? h' then Some f else elookup e' h
  end.

Definition app_eff (e : eff) (s : store) : store :=
  fun h => match elookup e h with Some f => f s | None => s h end.

Definition seq_eff (es : list eff) (s : store) : store :=
  fold_left (fun s e => app_eff e s) es s.

Record task_eff (I : store -> Prop) (t : task) (e : eff) : Prop := {
  te_run : forall s hv, I s -> typed hv s ->
    exists s', exec_task t s hv = Ok s' /\ forall h, s' h = app_eff e s h;
  te_wr : forall h f, elookup e h = Some f -> exists m, In (h, m) (t_acc t) /\ writes m = true;
  te_rd : forall h f s1 s2, elookup e h = Some f -> I s1 -> I s2 ->
    (forall h m, In (h, m) (t_acc t) -> reads m = true -> s1 h = s2 h) -> f s1 = f s2;
  te_all : forall h m, In (h, m) (t_acc t) -> writes m = true -> elookup e h <> None;
  te_inv : forall s, I s -> I (app_eff e s)
}.

Definition ext_inv (I : store -> Prop) : Prop :=
  forall s1 s2, (forall h, s1 h = s2 h) -> I s1 -> I s2.

Definition eff_comm (I : store -> Prop) (e1 e2 : eff) : Prop :=
  forall s, I s -> forall h, app_eff e2 (app_eff e1 s) h = app_eff e1 (app_eff e2 s) h.

Lemma app_eff_ext I t e s1 s2 : task_eff I t e -> I s1 -> I s2 -> (forall h, s1 h = s2 h) ->
  forall h, app_eff e s1 h = app_eff e s2 h.
Proof.
  intros He H1 H2 Hs h. unfold app_eff. destruct (elookup e h) as [f|] eqn:E; [|apply Hs].
  eapply te_rd; eauto.
Qed.

Lemma seq_eff_ext I ts es : Forall2 (task_eff I) ts es -> forall s1 s2, I s1 -> I s2 -> (forall h, s1 h = s2 h) ->
  forall h, seq_eff es s1 h = seq_eff es s2 h.
Proof.
  induction 1 as [|t e ts es He H IH]; intros s1 s2 I1 I2 Hs h; simpl; [apply Hs|].
  apply IH; [eapply te_inv; eauto..|]. intros h'. eapply app_eff_ext; eauto.
Qed.

Lemma seq_eff_app es1 es2 s : seq_eff (es1 ++ es2) s = seq_eff es2 (seq_eff es1 s).
Proof. apply fold_left_app. Qed.

Lemma seq_eff_inv I ts es : Forall2 (task_eff I) ts es -> forall s, I s -> I (seq_eff es s).
Proof.
  induction 1 as [|t e ts es He H IH]; intros s Hs; simpl; [assumption|].
  apply IH. eapply te_inv; eauto.
Qed.

Theorem task_eff_sound I t e : ext_inv I -> task_eff I t e -> sound_task I t.
Proof.
  intros Hx He. split.
  - intros s hv Hs Hhv. destruct (te_run _ _ _ He s hv Hs Hhv) as (s' & E & Hs').
    exists s'. split; [assumption|]. split.
    { apply (Hx (app_eff e s)); [intros h; symmetry; apply Hs'|]. eapply te_inv; eauto. }
    intros h Hh. rewrite Hs'. unfold app_eff.
    destruct (elookup e h) as [f|] eqn:Ef; [|reflexivity].
    destruct (te_wr _ _ _ He h f Ef) as (m & Hm & Hw). rewrite (Hh m Hm) in Hw. discriminate.
  - intros s1 hv1 s1' s2 hv2 s2' H1 H2 Hh1 Hh2 Hag E1 E2 h m Hm Hw.
    destruct (te_run _ _ _ He s1 hv1 H1 Hh1) as (s1'' & E1' & Hs1).
    destruct (te_run _ _ _ He s2 hv2 H2 Hh2) as (s2'' & E2' & Hs2).
    replace s1' with s1'' by congruence. replace s2' with s2'' by congruence.
    rewrite Hs1, Hs2. unfold app_eff. destruct (elookup e h) as [f|] eqn:Ef.
    + eapply te_rd; eauto.
    + exfalso. eapply te_all; eauto.
Qed.

(** Non-conflicting tasks that share no commutative handle commute. *)
Definition share_comm (t1 t2 : task) : Prop :=
  exists h m, In (h, m) (t_acc t1) /\ In (h, m) (t_acc t2) /\ (m = MCOMMUTE \/ m = MREDUX).

Lemma mode_conflict_sym m1 m2 : mode_conflict m1 m2 = mode_conflict m2 m1.
Proof. destruct m1, m2; reflexivity. Qed.

Lemma conflict_sym t1 t2 : conflict t1 t2 -> conflict t2 t1.
Proof. intros (h & m1 & m2 & H1 & H2 & H). exists h, m2, m1. rewrite mode_conflict_sym. auto. Qed.

Lemma no_ww I t1 e1 t2 e2 : task_eff I t1 e1 -> task_eff I t2 e2 ->
  ~ conflict t1 t2 -> ~ share_comm t1 t2 ->
  forall h f m, elookup e2 h = Some f -> In (h, m) (t_acc t1) -> m = MSCRATCH.
Proof.
  intros H1 H2 Hc Hs h f m E Hm. destruct (te_wr _ _ _ H2 h f E) as (m2 & Hm2 & Hw).
  destruct (mode_conflict m m2) eqn:Ec; [exfalso; apply Hc; exists h, m, m2; auto|].
  destruct m, m2; try discriminate; try reflexivity; exfalso; apply Hs.
  - exists h, MCOMMUTE; auto.
  - exists h, MREDUX; auto.
Qed.

Lemma noshare_comm I t1 e1 t2 e2 : task_eff I t1 e1 -> task_eff I t2 e2 ->
  ~ conflict t1 t2 -> ~ share_comm t1 t2 -> eff_comm I e1 e2.
Proof.
  intros H1 H2 Hc Hs s Hi h.
  assert (Hc' : ~ conflict t2 t1) by (intros X; apply Hc, conflict_sym, X).
  assert (Hs' : ~ share_comm t2 t1) by (intros (h0 & m & ? & ? & ?); apply Hs; exists h0, m; auto).
  assert (G1 : forall f, elookup e1 h = Some f -> f (app_eff e2 s) = f s).
  { intros f E. eapply te_rd; [exact H1|exact E|eapply te_inv; eauto|exact Hi|]. intros h' m Hm Hr. unfold app_eff.
    destruct (elookup e2 h') eqn:E2; [|reflexivity].
    rewrite (no_ww _ _ _ _ _ H1 H2 Hc Hs _ _ _ E2 Hm) in Hr. discriminate. }
  assert (G2 : forall f, elookup e2 h = Some f -> f (app_eff e1 s) = f s).
  { intros f E. eapply te_rd; [exact H2|exact E|eapply te_inv; eauto|exact Hi|]. intros h' m Hm Hr. unfold app_eff.
    destruct (elookup e1 h') eqn:E2; [|reflexivity].
    rewrite (no_ww _ _ _ _ _ H2 H1 Hc' Hs' _ _ _ E2 Hm) in Hr. discriminate. }
  unfold app_eff at 1 3.
  destruct (elookup e1 h) as [f1|] eqn:E1, (elookup e2 h) as [f2|] eqn:E2; unfold app_eff in *.
  - destruct (te_wr _ _ _ H1 h f1 E1) as (m & Hm & Hw).
    rewrite (no_ww _ _ _ _ _ H1 H2 Hc Hs _ _ _ E2 Hm) in Hw. discriminate.
  - rewrite E1. symmetry. apply G1. reflexivity.
  - rewrite E2. apply G2. reflexivity.
  - rewrite E1, E2. reflexivity.
Qed.

(** Task lists whose result cannot depend on the schedule. *)
Record detlist (I : store -> Prop) (tes : list (task * eff)) : Prop := {
  dl_eff : forall p, In p tes -> task_eff I (fst p) (snd p);
  dl_comm : forall p q, In p tes -> In q tes -> ~ conflict (fst p) (fst q) -> eff_comm I (snd p) (snd q)
}.

Lemma detlist_noshare I tes :
  (forall p, In p tes -> task_eff I (fst p) (snd p)) ->
  (forall p q, In p tes -> In q tes -> ~ share_comm (fst p) (fst q)) ->
  detlist I tes.
Proof.
  intros He Hs. split; [assumption|]. intros p q Hp Hq Hc.
  eapply noshare_comm; [apply He, Hp|apply He, Hq|assumption|apply Hs; assumption].
Qed.

Lemma detlist_no_comm I tes :
  (forall p, In p tes -> task_eff I (fst p) (snd p)) ->
  (forall p h m, In p tes -> In (h, m) (t_acc (fst p)) -> m <> MCOMMUTE /\ m <> MREDUX) ->
  detlist I tes.
Proof.
  intros He Hm. apply detlist_noshare; [assumption|].
  intros p q Hp Hq (h & m & H1 & _ & Hx). destruct (Hm p h m Hp H1). tauto.
Qed.

Lemma seq_move I tes1 p tes2 s : ext_inv I -> detlist I (tes1 ++ p :: tes2) -> I s ->
  (forall q, In q tes1 -> ~ conflict (fst q) (fst p)) ->
  forall h, seq_eff (map snd (tes1 ++ p :: tes2)) s h = seq_eff (map snd (tes1 ++ tes2)) (app_eff (snd p) s) h.
Proof.
  intros Hx. revert s. induction tes1 as [|q tes1 IH]; intros s [He Hc] Hi Hn h; simpl; [reflexivity|].
  assert (Heq : task_eff I (fst q) (snd q)) by (apply He; left; reflexivity).
  assert (Hep : task_eff I (fst p) (snd p)) by (apply He; right; apply in_or_app; right; left; reflexivity).
  fold (seq_eff (map snd (tes1 ++ p :: tes2)) (app_eff (snd q) s)).
  rewrite IH.
  - assert (HF : Forall2 (task_eff I) (map fst (tes1 ++ tes2)) (map snd (tes1 ++ tes2))).
    { clear - He. assert (G : forall p, In p (tes1 ++ tes2) -> task_eff I (fst p) (snd p)).
      { intros r Hr. apply He. right. apply in_app_or in Hr. apply in_or_app. destruct Hr; [left|right; right]; assumption. }
      revert G. generalize (tes1 ++ tes2). clear. induction l; intros G; simpl; constructor; auto.
      apply G; left; reflexivity. apply IHl. intros; apply G; right; assumption. }
    eapply (seq_eff_ext I _ _ HF); [eapply te_inv; eauto; eapply te_inv; eauto..|]. intros h'. apply Hc.
    + left; reflexivity.
    + right; apply in_or_app; right; left; reflexivity.
    + apply Hn. left; reflexivity.
    + assumption.
  - split; [intros r Hr; apply He; right; exact Hr|].
    intros r1 r2 H1 H2. apply Hc; right; assumption.
  - eapply te_inv; eauto.
  - intros r Hr. apply Hn. right; assumption.
Qed.

Lemma map_fst_split {A B} (l : list (A * B)) l1 x l2 : map fst l = l1 ++ x :: l2 ->
  exists k1 p k2, l = k1 ++ p :: k2 /\ map fst k1 = l1 /\ fst p = x /\ map fst k2 = l2.
Proof.
  revert l1; induction l as [|q l IH]; intros l1 E.
  - destruct l1; discriminate.
  - destruct l1 as [|y l1]; simpl in E; inversion E; subst.
    + exists [], q, l. auto.
    + destruct (IH _ H1) as (k1 & p & k2 & -> & <- & <- & <-). exists (q :: k1), p, k2. auto.
Qed.

Lemma detlist_remove I k1 p k2 : detlist I (k1 ++ p :: k2) -> detlist I (k1 ++ k2).
Proof.
  intros [He Hc].
  assert (G : forall q, In q (k1 ++ k2) -> In q (k1 ++ p :: k2)).
  { intros q Hq. apply in_app_or in Hq. apply in_or_app. destruct Hq; [left|right; right]; assumption. }
  split; auto.
Qed.

Lemma detlist_cons I p k : detlist I (p :: k) -> detlist I k.
Proof. apply (detlist_remove I [] p k). Qed.

(** Every schedule gives the result of the sequential execution. *)
Theorem schedule_independence I tes s : ext_inv I -> detlist I tes -> I s ->
  always (map fst tes) s (fun s' => forall h, s' h = seq_eff (map snd tes) s h).
Proof.
  intros Hx Hd Hi ts' s' Hst.
  assert (G : forall c1 c2, steps c1 c2 -> forall tes s0, c1 = (map fst tes, s0) -> detlist I tes -> I s0 ->
    exists tes', fst c2 = map fst tes' /\ detlist I tes' /\ I (snd c2) /\
      forall h, seq_eff (map snd tes') (snd c2) h = seq_eff (map snd tes) s0 h).
  { clear - Hx. induction 1 as [c|c1 c2 c3 H1 H2 IH]; intros tes s0 -> Hd Hi.
    - exists tes. simpl. auto.
    - inversion H1 as [l1 t l2 s hv s1 Hn Hty E Eq]; subst.
      symmetry in Eq. apply map_fst_split in Eq as (k1 & p & k2 & -> & <- & <- & <-).
      assert (Hep : task_eff I (fst p) (snd p)) by (apply (dl_eff _ _ Hd), in_or_app; right; left; reflexivity).
      destruct (te_run _ _ _ Hep s0 hv Hi Hty) as (s1' & E' & Hs1).
      assert (s1' = s1) by congruence. subst s1'.
      assert (Hi1 : I s1). { apply (Hx (app_eff (snd p) s0)); [intros h; symmetry; apply Hs1|]. eapply te_inv; eauto. }
      destruct (IH (k1 ++ k2) s1) as (tes' & F & D & I' & S).
      { rewrite map_app. reflexivity. }
      { eapply detlist_remove; eauto. }
      { assumption. }
      exists tes'. split; [assumption|]. split; [assumption|]. split; [assumption|].
      intros h. rewrite S. rewrite (seq_move I k1 p k2 s0 Hx Hd Hi).
      + assert (HF : Forall2 (task_eff I) (map fst (k1 ++ k2)) (map snd (k1 ++ k2))).
        { pose proof (dl_eff _ _ (detlist_remove _ _ _ _ Hd)) as G0. revert G0. generalize (k1 ++ k2). clear.
          induction l; intros G; simpl; constructor; [apply G; left; reflexivity|].
          apply IHl. intros; apply G; right; assumption. }
        eapply (seq_eff_ext I _ _ HF); [assumption|eapply te_inv; eauto|assumption].
      + intros q Hq. apply Hn. apply in_map. assumption. }
  destruct (G _ _ Hst tes s eq_refl Hd Hi) as (tes' & F & D & I' & S). simpl in *. subst ts'. split.
  - intros l1 t l2 hv Eq Hn Hty. simpl in *.
    apply map_fst_split in Eq as (k1 & p & k2 & -> & <- & <- & <-).
    assert (Hep : task_eff I (fst p) (snd p)) by (apply (dl_eff _ _ D), in_or_app; right; left; reflexivity).
    destruct (te_run _ _ _ Hep s' hv I' Hty) as (s1' & E' & _). eauto.
  - intros E. destruct tes'; [|discriminate]. intros h. rewrite <- S. reflexivity.
Qed.

(** At least one execution runs to the end (so [always] is not vacuous). *)
Theorem always_terminates ts s P : always ts s P -> exists s', steps (ts, s) ([], s') /\ P s'.
Proof.
  revert s. induction ts as [|t ts IH]; intros s Ha.
  - exists s. split; [constructor|]. apply (Ha [] s); [constructor|reflexivity].
  - destruct (Ha (t :: ts) s) as [Hsafe _]; [constructor|].
    destruct (Hsafe [] t ts s) as (s1 & E); [reflexivity|intros ? []|intros h; reflexivity|].
    simpl in E.
    assert (Hst : step (t :: ts, s) (ts, s1)).
    { apply (step_run [] t ts s s s1); [intros ? []|intros h; reflexivity|assumption]. }
    destruct (IH s1) as (s' & Hs' & HP).
    + intros ts' s' Hs'. apply Ha. econstructor; eassumption.
    + exists s'. split; [econstructor; eassumption|assumption].
Qed.

Lemma always_weaken ts s (P Q : store -> Prop) : always ts s P -> (forall s', P s' -> Q s') -> always ts s Q.
Proof. intros Ha Hpq ts' s' Hs. destruct (Ha ts' s' Hs). split; auto. Qed.

(* ------------------------------------------------------------------ *)
(** ** Sequential values *)

Lemma seq_frame es s h : (forall e, In e es -> elookup e h = None) -> seq_eff es s h = s h.
Proof.
  revert s; induction es as [|e es IH]; intros s H; simpl; [reflexivity|].
  fold (seq_eff es (app_eff e s)). rewrite IH by (intros; apply H; right; assumption).
  unfold app_eff. rewrite H by (left; reflexivity). reflexivity.
Qed.

(** Independent writes: what a task writes is computed from the initial state. *)
Definition indep (e1 e2 : eff) : Prop :=
  (forall h f, elookup e1 h = Some f -> elookup e2 h = None) /\
  (forall h f s, elookup e2 h = Some f -> f (app_eff e1 s) = f s).

Lemma seq_indep es s e h f : ForallOrdPairs indep es -> In e es -> elookup e h = Some f ->
  seq_eff es s h = f s.
Proof.
  intros H. revert s. induction H as [|a l Ha Hl IH]; intros s Hin E; [destruct Hin|].
  simpl. fold (seq_eff l (app_eff a s)). rewrite Forall_forall in Ha. destruct Hin as [->|Hin].
  - rewrite seq_frame.
    + unfold app_eff. rewrite E. reflexivity.
    + intros e' He'. eapply (proj1 (Ha e' He')); eauto.
  - rewrite IH by assumption. eapply (proj2 (Ha e Hin)); eauto.
Qed.

(** Accumulation: several tasks update the same handle from its own contents and from
    handles nobody writes. *)
Definition fold_at (es : list eff) (s : store) (h : handle) (b : buf) : buf :=
  fold_left (fun b e => match elookup e h with Some f => f (upd_store s h b) | None => b end) es b.

Lemma seq_fold es s h (ro : handle -> Prop) :
  (forall e h', In e es -> ro h' -> elookup e h' = None) ->
  (forall e f s1 s2, In e es -> elookup e h = Some f ->
     (forall h', h' = h \/ ro h' -> s1 h' = s2 h') -> f s1 = f s2) ->
  seq_eff es s h = fold_at es s h (s h).
Proof.
  intros Hro Hf. unfold fold_at.
  assert (G : forall l s0, incl l es -> (forall h', ro h' -> s0 h' = s h') ->
    seq_eff l s0 h = fold_left (fun b e => match elookup e h with Some f => f (upd_store s h b) | None => b end) l (s0 h)).
  { induction l as [|e l IH]; intros s0 Hincl Hs0; simpl; [reflexivity|].
    fold (seq_eff l (app_eff e s0)).
    assert (Hine : In e es) by (apply Hincl; left; reflexivity).
    rewrite IH.
    - f_equal. unfold app_eff. destruct (elookup e h) as [f|] eqn:E; [|reflexivity].
      eapply Hf; eauto. intros h' [->|Hr]; unfold upd_store.
      + rewrite Z.eqb_refl. reflexivity.
      + destruct (Z.eqb_spec h' h); [subst; reflexivity|apply Hs0; assumption].
    - intros x Hx; apply Hincl; right; assumption.
    - intros h' Hr. unfold app_eff. rewrite (Hro e h' Hine Hr). apply Hs0; assumption. }
  apply G; [apply incl_refl|reflexivity].
Qed.

End Runtime.
Arguments buf : clear implicits.
Arguments store : clear implicits.
Arguments task : clear implicits.
Arguments eff : clear implicits.
