(** * Serializability of the runtime, for any tasks that respect their declared modes

    No determinism is assumed: a write-only or scratch buffer may hold anything and its
    contents may influence the result. *)
From Coq Require Import FunctionalExtensionality.
From Verif Require Import Base Spec Geometry Traits TraitsProofs Runtime Ops TensorSem ElemGeneric OneOut.

Section Serial.
Context {T : Type}.
Local Notation hview := (handle -> buf T).

(** The task only changes handles that it declared as written, and keeps buffer sizes. *)
Definition ok_task (s0 : store T) (t : task T) : Prop :=
  forall s hv s', tinv s0 s -> typed hv s -> exec_task t s hv = Ok s' ->
    tinv s0 s' /\ forall h, (forall m, In (h, m) (t_acc t) -> writes m = false) -> s' h = s h.

Lemma sound_ok s0 t : sound_task (tinv s0) t -> ok_task s0 t.
Proof.
  intros [H _] s hv s' Hi Hh E. destruct (H s hv Hi Hh) as (s'' & E' & H1 & H2).
  assert (s'' = s') by congruence. subst. split; assumption.
Qed.

(** Run tasks one after the other, each with its own stale data. *)
Fixpoint run_seq (l : list (task T * hview)) (s : store T) : res (store T) :=
  match l with
  | [] => Ok s
  | (t, hv) :: l => s' <- exec_task t s hv ;; run_seq l s'
  end.

Lemma run_seq_app l1 l2 s : run_seq (l1 ++ l2) s = s' <- run_seq l1 s ;; run_seq l2 s'.
Proof.
  revert s. induction l1 as [|[t hv] l1 IH]; intros s; [reflexivity|]. cbn [app run_seq].
  destruct (exec_task t s hv); [|reflexivity|reflexivity]. bnd. apply IH.
Qed.

(** What write_back stores at a handle. *)
Fixpoint wbl (acc : list (handle * mode)) (out : list (buf T)) (h : handle) : option (buf T) :=
  match acc, out with
  | (h', m) :: acc', b :: out' =>
      match wbl acc' out' h with
      | Some x => Some x
      | None => match m with MSCRATCH => None | _ => if h =? h' then Some b else None end
      end
  | _, _ => None
  end.
Lemma write_back_spec acc (out : list (buf T)) (s : store T) : (exists s', write_back acc out s = Ok s') <-> List.length out = List.length acc.
Proof.
  revert out s. induction acc as [|[h m] acc IH]; intros [|b out] s; cbn [write_back List.length].
  - split; eauto.
  - split; [intros (s' & [=])|discriminate].
  - split; [intros (s' & [=])|discriminate].
  - rewrite IH. lia.
Qed.
Lemma write_back_at acc (out : list (buf T)) (s s' : store T) h : write_back acc out s = Ok s' ->
  s' h = match wbl acc out h with Some b => b | None => s h end.
Proof.
  revert out s. induction acc as [|[h' m] acc IH]; intros [|b out] s E; cbn [write_back wbl] in *; try discriminate.
  - inversion E; reflexivity.
  - rewrite (IH _ _ E). destruct (wbl acc out h); [reflexivity|].
    unfold upd_store. destruct m; try reflexivity; destruct (h =? h'); reflexivity.
Qed.
Lemma wbl_In acc out h b : wbl acc out h = Some b -> exists m, In (h, m) acc /\ m <> MSCRATCH.
Proof.
  revert out. induction acc as [|[h' m] acc IH]; intros [|x out] E; cbn [wbl] in E; try discriminate.
  destruct (wbl acc out h) eqn:Ew.
  - rewrite E in Ew. destruct (IH _ Ew) as (m' & H1 & H2). exists m'. split; [right; assumption|assumption].
  - destruct m; try discriminate; destruct (Z.eqb_spec h h'); try discriminate; subst;
      eexists; (split; [left; reflexivity|discriminate]).
Qed.

Lemma tinv_typed s0 s (hv : hview) : tinv s0 s -> (typed hv s <-> typed hv s0).
Proof. intros H. split; intros H' h; rewrite H'; [apply H|symmetry; apply H]. Qed.

Definition nc (t1 t2 : task T) : Prop := ~ conflict t1 t2.

Lemma nc_sym t1 t2 : nc t1 t2 -> nc t2 t1.
Proof. intros H C. apply H, conflict_sym, C. Qed.

(** The tasks share no handle that one of them writes. *)
Definition indep (t1 t2 : task T) : Prop :=
  forall h m1 m2, In (h, m1) (t_acc t1) -> In (h, m2) (t_acc t2) -> m1 <> MSCRATCH -> m2 <> MSCRATCH ->
    writes m1 = false /\ writes m2 = false.
Lemma indep_sym t1 t2 : indep t1 t2 -> indep t2 t1.
Proof. intros H h m1 m2 H1 H2 N1 N2. destruct (H h m2 m1 H2 H1 N2 N1). auto. Qed.

(** No conflict means independence, unless both tasks commute or reduce on a common handle. *)
Lemma nc_indep t1 t2 : ordered_task t1 \/ ordered_task t2 -> nc t1 t2 -> indep t1 t2.
Proof.
  intros Ho Hn h m1 m2 H1 H2 N1 N2.
  assert (E : mode_conflict m1 m2 = false).
  { destruct (mode_conflict m1 m2) eqn:E; [|reflexivity]. exfalso. apply Hn. exists h, m1, m2. auto. }
  destruct Ho as [Ho|Ho]; [destruct (Ho h m1 H1) as [O1 O2]|destruct (Ho h m2 H2) as [O1 O2]];
    destruct m1, m2; try discriminate; try contradiction; auto.
Qed.
Definition cross (ts1 ts2 : list (task T)) : Prop :=
  forall t1 t2, In t1 ts1 -> In t2 ts2 -> nc t1 t2 -> indep t1 t2.
Lemma cross_l ts1 ts2 : Forall ordered_task ts1 -> cross ts1 ts2.
Proof. intros H t1 t2 H1 H2. rewrite Forall_forall in H. apply nc_indep. left. auto. Qed.
Lemma cross_r ts1 ts2 : Forall ordered_task ts2 -> cross ts1 ts2.
Proof. intros H t1 t2 H1 H2. rewrite Forall_forall in H. apply nc_indep. right. auto. Qed.

(** A handle accessed by [t2] is not written by a task independent of it. *)
Lemma nc_writes t1 t2 h m2 : indep t1 t2 -> In (h, m2) (t_acc t2) -> m2 <> MSCRATCH ->
  forall m1, In (h, m1) (t_acc t1) -> writes m1 = false.
Proof.
  intros Hn H2 Hs m1 H1. destruct m1; try reflexivity; apply (Hn h _ m2 H1 H2); (assumption || discriminate).
Qed.

Section S0.
Variable s0 : store T.

(** The inputs of t2 do not depend on whether t1 has run. *)
Lemma in_bufs (t1 t2 : task T) s hv1 s1 hv2 : ok_task s0 t1 -> indep t1 t2 -> tinv s0 s -> typed hv1 s ->
  exec_task t1 s hv1 = Ok s1 -> map (in_buf s1 hv2) (t_acc t2) = map (in_buf s hv2) (t_acc t2).
Proof.
  intros Hk Hn Hi Hh E. destruct (Hk s hv1 s1 Hi Hh E) as [_ Hw]. apply map_ext_in. intros [h m] Hin.
  unfold in_buf. cbn [fst snd]. destruct (reads m) eqn:Er; [|reflexivity]. apply Hw.
  eapply (nc_writes t1 t2 h m Hn Hin). intros ->. discriminate.
Qed.

Lemma exec_ok_iff (t : task T) (s : store T) hv : (exists s', exec_task t s hv = Ok s') <->
  exists out, t_body t (map (in_buf s hv) (t_acc t)) = Ok out /\ List.length out = List.length (t_acc t).
Proof.
  unfold exec_task. destruct (t_body t (map (in_buf s hv) (t_acc t))) as [out| |].
  - rewrite bind_Ok. rewrite write_back_spec. split; [eauto|]. intros (o & [= <-] & H). assumption.
  - split; [intros (? & [=])|intros (? & [=] & _)].
  - split; [intros (? & [=])|intros (? & [=] & _)].
Qed.

Lemma exec_inv (t : task T) (s : store T) hv s' : exec_task t s hv = Ok s' -> exists out, t_body t (map (in_buf s hv) (t_acc t)) = Ok out /\
  write_back (t_acc t) out s = Ok s'.
Proof. unfold exec_task. destruct (t_body t _) as [out| |]; [|discriminate|discriminate]. rewrite bind_Ok. eauto. Qed.

Lemma commute2 t1 hv1 t2 hv2 s s1 s2 : ok_task s0 t1 -> ok_task s0 t2 -> indep t1 t2 ->
  tinv s0 s -> typed hv1 s0 -> typed hv2 s0 ->
  exec_task t1 s hv1 = Ok s1 -> exec_task t2 s1 hv2 = Ok s2 ->
  exists s1', exec_task t2 s hv2 = Ok s1' /\ exec_task t1 s1' hv1 = Ok s2.
Proof.
  intros K1 K2 Hn Hi H1 H2 E1 E2.
  pose proof (proj2 (tinv_typed s0 s hv1 Hi) H1) as H1s. pose proof (proj2 (tinv_typed s0 s hv2 Hi) H2) as H2s.
  destruct (K1 s hv1 s1 Hi H1s E1) as [I1 W1].
  pose proof (in_bufs t1 t2 s hv1 s1 hv2 K1 Hn Hi H1s E1) as B2.
  destruct (exec_inv _ _ _ _ E1) as (o1 & Eo1 & Ew1). destruct (exec_inv _ _ _ _ E2) as (o2 & Eo2 & Ew2).
  assert (L2 : List.length o2 = List.length (t_acc t2)) by (apply (write_back_spec (t_acc t2) o2 s1); eauto).
  assert (L1 : List.length o1 = List.length (t_acc t1)) by (apply (write_back_spec (t_acc t1) o1 s); eauto).
  destruct (proj2 (write_back_spec (t_acc t2) o2 s) L2) as (s1' & Ew2').
  assert (E2' : exec_task t2 s hv2 = Ok s1').
  { unfold exec_task. rewrite <- B2, Eo2. rewrite bind_Ok. assumption. }
  exists s1'. split; [assumption|].
  destruct (K2 s hv2 s1' Hi H2s E2') as [I1' W2].
  pose proof (in_bufs t2 t1 s hv2 s1' hv1 K2 (indep_sym _ _ Hn) Hi H2s E2') as B1.
  destruct (proj2 (write_back_spec (t_acc t1) o1 s1') L1) as (s2' & Ew1').
  unfold exec_task. rewrite B1, Eo1, bind_Ok, Ew1'. f_equal. apply functional_extensionality. intros h.
  rewrite (write_back_at _ _ _ _ h Ew1'), (write_back_at _ _ _ _ h Ew2), (write_back_at _ _ _ _ h Ew1), (write_back_at _ _ _ _ h Ew2').
  destruct (wbl (t_acc t1) o1 h) as [b1|] eqn:L1h, (wbl (t_acc t2) o2 h) as [b2|] eqn:L2h; try reflexivity.
  destruct (wbl_In _ _ _ _ L1h) as (m1 & In1 & N1). destruct (wbl_In _ _ _ _ L2h) as (m2 & In2 & N2).
  pose proof (W1 h (nc_writes t1 t2 h m2 Hn In2 N2)) as V1.
  pose proof (W2 h (nc_writes t2 t1 h m1 (indep_sym _ _ Hn) In1 N1)) as V2.
  rewrite (write_back_at _ _ _ _ h Ew1), L1h in V1. rewrite (write_back_at _ _ _ _ h Ew2'), L2h in V2. congruence.
Qed.

(** A task with no conflict with those of [l] can be moved in front of them. *)
Lemma move_front l t hv s s1 s2 : ok_task s0 t ->
  Forall (fun p => ok_task s0 (fst p) /\ typed (snd p) s0 /\ indep (fst p) t) l ->
  typed hv s0 -> tinv s0 s -> run_seq l s = Ok s1 -> exec_task t s1 hv = Ok s2 ->
  exists s', exec_task t s hv = Ok s' /\ run_seq l s' = Ok s2.
Proof.
  intros Kt Hl Ht. revert s. induction Hl as [|[t1 hv1] l (K1 & H1 & N1) Hl IH]; intros s Hi E1 E2; cbn [fst snd] in *.
  - cbn [run_seq] in *. inversion E1; subst. eauto.
  - cbn [run_seq] in *. destruct (exec_task t1 s hv1) as [sa| |] eqn:Ea; try discriminate. rewrite bind_Ok in E1.
    destruct (K1 s hv1 sa Hi (proj2 (tinv_typed s0 s hv1 Hi) H1) Ea) as [Ia _].
    destruct (IH sa Ia E1 E2) as (sb & Eb & Rb).
    destruct (commute2 t1 hv1 t hv s sa sb K1 Kt N1 Hi H1 Ht Ea Eb) as (sc & Ec & Ed).
    exists sc. split; [assumption|]. rewrite Ed, bind_Ok. assumption.
Qed.
Lemma move_back l t hv s s1 s2 : ok_task s0 t ->
  Forall (fun p => ok_task s0 (fst p) /\ typed (snd p) s0 /\ indep (fst p) t) l ->
  typed hv s0 -> tinv s0 s -> exec_task t s hv = Ok s1 -> run_seq l s1 = Ok s2 ->
  exists s', run_seq l s = Ok s' /\ exec_task t s' hv = Ok s2.
Proof.
  intros Kt Hl Ht. revert s s1. induction Hl as [|[t1 hv1] l (K1 & H1 & N1) Hl IH]; intros s s1 Hi E1 E2; cbn [fst snd] in *.
  - cbn [run_seq] in *. inversion E2; subst. eauto.
  - cbn [run_seq] in *. destruct (exec_task t1 s1 hv1) as [sa| |] eqn:Ea; try discriminate. rewrite bind_Ok in E2.
    destruct (commute2 t hv t1 hv1 s s1 sa Kt K1 (indep_sym _ _ N1) Hi Ht H1 E1 Ea) as (sc & Ec & Ed).
    destruct (K1 s hv1 sc Hi (proj2 (tinv_typed s0 s hv1 Hi) H1) Ec) as [Ic _].
    destruct (IH sc sa Ic Ed E2) as (sd & Ee & Ef). exists sd. rewrite Ec, bind_Ok. auto.
Qed.

Definition okl (l : list (task T * hview)) : Prop :=
  Forall (fun p => ok_task s0 (fst p) /\ typed (snd p) s0) l.

Lemma run_seq_tinv l s s' : okl l -> tinv s0 s -> run_seq l s = Ok s' -> tinv s0 s'.
Proof.
  intros H. revert s. induction H as [|[t hv] l (K1 & H1) Hl IH]; intros s Hi E; cbn [run_seq fst snd] in *.
  - inversion E; subst; assumption.
  - destruct (exec_task t s hv) as [sa| |] eqn:Ea; try discriminate. rewrite bind_Ok in E.
    destruct (K1 s hv sa Hi (proj2 (tinv_typed s0 s hv Hi) H1) Ea) as [Ia _]. apply (IH sa); assumption.
Qed.

(** Order in which pending tasks were started. *)
Inductive sched : list (task T) -> list (task T * hview) -> list (task T) -> Prop :=
| sched_nil : forall ts, sched ts [] ts
| sched_snoc : forall ts l l1 t hv l2, sched ts l (l1 ++ t :: l2) -> (forall t', In t' l1 -> nc t' t) ->
    sched ts (l ++ [(t, hv)]) (l1 ++ l2).

Lemma steps_snoc (c1 c2 c3 : list (task T) * store T) : steps c1 c2 -> step c2 c3 -> steps c1 c3.
Proof. intros H. induction H; intros; [eapply steps_cons; [eassumption|apply steps_refl]|]. eapply steps_cons; eauto. Qed.

Lemma sched_incl ts l ts' : sched ts l ts' -> (forall t, In t ts' -> In t ts) /\ (forall p, In p l -> In (fst p) ts).
Proof.
  induction 1 as [ts|ts l l1 t hv l2 H [IH1 IH2] Hn].
  - split; [auto|]. intros p [].
  - split.
    + intros x Hx. apply IH1. apply in_app_or in Hx as [Hx|Hx]; apply in_or_app; [left|right; right]; assumption.
    + intros p Hp. apply in_app_or in Hp as [Hp|[<-|[]]]; [apply IH2; assumption|]. apply IH1. apply in_or_app. right. left. reflexivity.
Qed.

(** Runs of the pool are schedules. *)
Lemma steps_sched ts s ts' s' : Forall (ok_task s0) ts -> tinv s0 s ->
  steps (ts, s) (ts', s') -> exists l, sched ts l ts' /\ okl l /\ run_seq l s = Ok s'.
Proof.
  intros Hk Hi Hst.
  assert (G : forall c c', steps c c' -> forall l, c = (fst c, snd c) -> sched ts l (fst c) -> okl l -> run_seq l s = Ok (snd c) ->
    exists l', sched ts l' (fst c') /\ okl l' /\ run_seq l' s = Ok (snd c')).
  { induction 1 as [c|c1 c2 c3 Hs Hss IH]; intros l Ec Hsc Hol Hr; [eauto|].
    inversion Hs as [l1 t l2 sa hv sb Hnc Hty Hex Eq1 Eq2]; subst. cbn [fst snd] in *.
    pose proof (run_seq_tinv l s sa Hol Hi Hr) as Ia.
    assert (Hin : In t ts) by (apply (sched_incl _ _ _ Hsc); apply in_or_app; right; left; reflexivity).
    apply (IH (l ++ [(t, hv)])).
    - reflexivity.
    - apply sched_snoc; assumption.
    - apply Forall_app. split; [assumption|]. constructor; [|constructor]. cbn [fst snd].
      rewrite Forall_forall in Hk. split; [apply Hk; assumption|].
      apply (tinv_typed s0 sa hv Ia); assumption.
    - rewrite run_seq_app, Hr. bnd. cbn [run_seq]. rewrite Hex. reflexivity. }
  apply (G _ _ Hst []); [reflexivity|constructor|constructor|reflexivity].
Qed.
Lemma sched_steps ts l ts' s s' : sched ts l ts' -> okl l -> tinv s0 s -> run_seq l s = Ok s' -> steps (ts, s) (ts', s').
Proof.
  intros H. revert s s'. induction H as [ts|ts l l1 t hv l2 H IH Hn]; intros s s' Hol Hi Hr.
  - cbn in Hr. inversion Hr; subst. apply steps_refl.
  - apply Forall_app in Hol as [Hol Ht]. inversion Ht as [|? ? (Kt & Tt) _]; subst. cbn [fst snd] in *.
    rewrite run_seq_app in Hr. destruct (run_seq l s) as [sa| |] eqn:Ea; try discriminate. rewrite bind_Ok in Hr.
    cbn [run_seq] in Hr. destruct (exec_task t sa hv) as [sb| |] eqn:Eb; try discriminate. rewrite bind_Ok in Hr. inversion Hr; subst.
    eapply steps_snoc; [apply IH; eauto|]. apply step_run with (hv := hv); [assumption| |assumption].
    apply (tinv_typed s0 sa hv); [apply (run_seq_tinv l s sa); assumption|assumption].
Qed.

(** Schedule of ts1 ++ ts2: the part of ts1 can be done first. *)
Lemma sched_split ts1 ts2 l ts' s s' : cross ts1 ts2 -> sched (ts1 ++ ts2) l ts' -> okl l -> tinv s0 s -> run_seq l s = Ok s' ->
  exists k1 k2 r1 r2 u, ts' = r1 ++ r2 /\ sched ts1 k1 r1 /\ sched ts2 k2 r2 /\ okl k1 /\ okl k2 /\
    run_seq k1 s = Ok u /\ run_seq k2 u = Ok s' /\ (forall p t, In p k2 -> In t r1 -> nc t (fst p)).
Proof.
  intros Hx H. remember (ts1 ++ ts2) as ts eqn:Ets. revert s'. induction H as [ts|ts l l1 t hv l2 H IH Hn]; intros s' Hol Hi Hr.
  - cbn in Hr. inversion Hr; subst. exists [], [], ts1, ts2, s'. split; [reflexivity|]. split; [constructor|]. split; [constructor|]. split; [constructor|]. split; [constructor|]. split; [reflexivity|]. split; [reflexivity|]. intros p t [].
  - apply Forall_app in Hol as [Hol Ht]. inversion Ht as [|? ? (Kt & Tt) _]; subst. cbn [fst snd] in *.
    rewrite run_seq_app in Hr. destruct (run_seq l s) as [sa| |] eqn:Ea; try discriminate. rewrite bind_Ok in Hr.
    cbn [run_seq] in Hr. destruct (exec_task t sa hv) as [sb| |] eqn:Eb; try discriminate. rewrite bind_Ok in Hr. inversion Hr; subst.
    destruct (IH eq_refl sa Hol Hi eq_refl) as (k1 & k2 & r1 & r2 & u & Er & S1 & S2 & O1 & O2 & R1 & R2 & N12). clear IH.
    assert (Iu : tinv s0 u) by (apply (run_seq_tinv k1 s u); assumption).
    (* is t in r1 or in r2? *)
    assert (Cases : (exists r1b, r1 = l1 ++ t :: r1b /\ l2 = r1b ++ r2) \/ (exists r2a, l1 = r1 ++ r2a /\ r2 = r2a ++ t :: l2)).
    { clear - Er. revert r1 Er. induction l1 as [|x l1 IHl]; intros r1 Er; destruct r1 as [|y r1]; cbn [app] in *.
      - right. exists []. auto.
      - inversion Er; subst. left. exists r1. auto.
      - right. exists (x :: l1). auto.
      - inversion Er; subst. destruct (IHl _ H1) as [(a & -> & ->)|(a & -> & ->)]; [left|right]; eauto. }
    destruct Cases as [(r1b & -> & ->)|(r2a & -> & ->)].
    + (* t belongs to ts1: move it before k2 *)
      assert (F2 : Forall (fun p => ok_task s0 (fst p) /\ typed (snd p) s0 /\ indep (fst p) t) k2).
      { rewrite Forall_forall. intros p Hp. unfold okl in O2. rewrite Forall_forall in O2. destruct (O2 p Hp) as (A2 & A3).
        assert (Hin : In t (l1 ++ t :: r1b)) by (apply in_or_app; right; left; reflexivity).
        split; [assumption|]. split; [assumption|]. apply indep_sym. apply Hx; [apply (sched_incl _ _ _ S1); assumption|apply (sched_incl _ _ _ S2); assumption|].
        apply N12; assumption. }
      destruct (move_front k2 t hv u sa s' Kt F2 Tt Iu R2 Eb) as (u' & Eu & Ru).
      exists (k1 ++ [(t, hv)]), k2, (l1 ++ r1b), r2, u'. rewrite app_assoc. split; [reflexivity|].
      split; [apply sched_snoc; assumption|]. split; [assumption|].
      split; [apply Forall_app; split; [assumption|constructor; [cbn; auto|constructor]]|]. split; [assumption|].
      split; [rewrite run_seq_app, R1; bnd; cbn [run_seq]; rewrite Eu; reflexivity|]. split; [assumption|].
      intros p x Hp Hy. apply N12; [assumption|]. apply in_app_or in Hy as [Hy|Hy]; apply in_or_app; [left|right; right]; assumption.
    + exists k1, (k2 ++ [(t, hv)]), r1, (r2a ++ l2), u. rewrite app_assoc. split; [reflexivity|]. split; [assumption|].
      split; [apply sched_snoc; [assumption|]; intros x Hy; apply Hn; apply in_or_app; right; assumption|].
      split; [assumption|]. split; [apply Forall_app; split; [assumption|constructor; [cbn; auto|constructor]]|].
      split; [assumption|]. split; [rewrite run_seq_app, R2; bnd; cbn [run_seq]; rewrite Eb; reflexivity|].
      intros p x Hp Hy. apply in_app_or in Hp as [Hp|[<-|[]]]; [apply N12; assumption|]. cbn [fst].
      apply Hn. apply in_or_app. left. assumption.
Qed.

(** Every complete run gives the state of running the tasks in submission order, with
    suitable stale data. *)
Theorem serializable ts s s' : Forall ordered_task ts -> Forall (ok_task s0) ts -> tinv s0 s ->
  steps (ts, s) ([], s') ->
  exists hvs, List.length hvs = List.length ts /\ Forall (fun hv => typed hv s0) hvs /\ run_seq (combine ts hvs) s = Ok s'.
Proof.
  intros Ho Hk Hi Hst. revert s Hi Hst. induction Ho as [|t ts Ht Ho IH]; intros s Hi Hst.
  - inversion Hst as [|c1 c2 c3 Hs]; subst.
    + exists []. repeat split. constructor.
    + inversion Hs; destruct l1; discriminate.
  - inversion Hk as [|? ? Kt Kts]; subst.
    destruct (steps_sched (t :: ts) s [] s') as (l & Hl & Ol & Rl); [assumption..|].
    destruct (sched_split [t] ts l [] s s' (cross_r [t] ts Ho) Hl Ol Hi Rl) as (k1 & k2 & r1 & r2 & u & Er & S1 & S2 & O1 & O2 & R1 & R2 & _).
    symmetry in Er. apply app_eq_nil in Er as [-> ->].
    assert (Iu : tinv s0 u) by (apply (run_seq_tinv k1 s u); assumption).
    destruct (IH Kts u Iu) as (hvs & L & F & R); [apply (sched_steps ts k2 [] u s' S2 O2 Iu R2)|].
    (* k1 is exactly t *)
    assert (E1 : exists hv, k1 = [(t, hv)]).
    { clear - S1. inversion S1 as [|? l l1 x hv l2 S Hn E1 E2 E3]; subst. apply app_eq_nil in E3 as [-> ->]. cbn [app] in S.
      inversion S as [|? l' l1' x' hv' l2' S' Hn' E1 E2 E3]; subst.
      - exists hv. reflexivity.
      - exfalso. assert (Hlen : forall a b c, sched a b c -> (List.length c <= List.length a)%nat).
        { clear. induction 1 as [|? ? ? ? ? ? ? IHs]; [lia|]. rewrite app_length in *. cbn [List.length] in *. lia. }
        apply Hlen in S'. rewrite app_length in S'. cbn [List.length] in S'.
        apply (f_equal (@List.length _)) in E3. rewrite app_length in E3. cbn [List.length] in E3. lia. }
    destruct E1 as (hv & ->). inversion O1 as [|? ? (_ & Tt) _]; subst. cbn [fst snd] in Tt.
    cbn [run_seq] in R1. destruct (exec_task t s hv) as [v| |] eqn:Ev; try discriminate. rewrite bind_Ok in R1. inversion R1; subst.
    exists (hv :: hvs). split; [cbn; lia|]. split; [constructor; assumption|]. cbn [combine run_seq]. rewrite Ev, bind_Ok. assumption.
Qed.

Lemma always_here ts (s : store T) P ts1 s1 : always ts s P -> steps (ts, s) (ts1, s1) -> always ts1 s1 P.
Proof.
  intros H Hst ts' s' Hst'. apply H. clear H. revert Hst'. generalize (ts', s'). intros c Hst'.
  induction Hst as [|c1 c2 c3 Hs Hss IH]; [assumption|]. eapply steps_cons; [eassumption|]. apply IH. assumption.
Qed.

(** Two groups of tasks submitted one after the other without waiting in between. *)
Theorem always_app_cross ts1 ts2 s (P Q : store T -> Prop) : cross ts1 ts2 ->
  Forall (ok_task s0) ts1 -> Forall (ok_task s0) ts2 -> tinv s0 s ->
  always ts1 s P -> (forall s1, tinv s0 s1 -> P s1 -> always ts2 s1 Q) -> always (ts1 ++ ts2) s Q.
Proof.
  intros Hcr K1 K2 Hi A1 A2 ts' s' Hst.
  destruct (steps_sched (ts1 ++ ts2) s ts' s') as (l & Hl & Ol & Rl); [apply Forall_app; auto|assumption..|].
  destruct (sched_split ts1 ts2 l ts' s s' Hcr Hl Ol Hi Rl) as (k1 & k2 & r1 & r2 & u & -> & S1 & S2 & Q1 & Q2 & R1 & R2 & N12).
  assert (Iu : tinv s0 u) by (apply (run_seq_tinv k1 s u); assumption).
  assert (Is' : tinv s0 s') by (apply (run_seq_tinv k2 u); assumption).
  pose proof (sched_steps ts1 k1 r1 s u S1 Q1 Hi R1) as St1.
  assert (Fr1 : forall t, In t r1 -> ok_task s0 t).
  { intros t Ht. apply (sched_incl _ _ _ S1) in Ht. rewrite Forall_forall in K1. auto. }
  assert (X12 : forall p t, In p k2 -> In t r1 -> indep t (fst p)).
  { intros p t Hp Ht. apply Hcr; [apply (sched_incl _ _ _ S1); assumption|apply (sched_incl _ _ _ S2); assumption|]. apply N12; assumption. }
  split.
  - intros lA t lB hv E Hn Hty. cbn [fst snd] in *.
    assert (Tt : typed hv s0) by (apply (tinv_typed s0 s' hv Is'); assumption).
    assert (Cases : (exists r1b, r1 = lA ++ t :: r1b) \/ (exists r2a, lA = r1 ++ r2a /\ r2 = r2a ++ t :: lB)).
    { clear - E. revert r1 E. induction lA as [|x lA IHl]; intros r1 E; destruct r1 as [|y r1]; cbn [app] in *.
      - right. exists []. auto.
      - inversion E; subst. left. exists r1. auto.
      - right. exists (x :: lA). auto.
      - inversion E; subst. destruct (IHl _ H1) as [(a & ->)|(a & -> & ->)]; [left|right]; eauto. }
    (* the inputs of t are those it has in a state where it is known to succeed *)
    assert (Pull : forall k v w, okl k -> tinv s0 v -> (forall p, In p k -> indep (fst p) t) -> run_seq k v = Ok w ->
       map (in_buf w hv) (t_acc t) = map (in_buf v hv) (t_acc t)).
    { clear - s0. induction k as [|[x hx] k IHk]; intros v w Hok Hv Hnc Hr; cbn [run_seq] in Hr.
      - inversion Hr; reflexivity.
      - inversion Hok as [|? ? (A2 & A3) Hok']; subst. cbn [fst snd] in *.
        destruct (exec_task x v hx) as [v'| |] eqn:Ev; try discriminate. rewrite bind_Ok in Hr.
        pose proof (proj2 (tinv_typed s0 v hx Hv) A3) as A3'. destruct (A2 v hx v' Hv A3' Ev) as [Hv' _].
        rewrite (IHk v' w Hok' Hv') by (auto; intros; apply Hnc; right; assumption).
        apply (in_bufs x t v hx v' hv A2); auto. apply (Hnc (x, hx)). left. reflexivity. }
    destruct Cases as [(r1b & ->)|(r2a & -> & ->)].
    + destruct (A1 _ _ St1) as [Sf _].
      destruct (Sf lA t r1b hv eq_refl Hn (proj2 (tinv_typed s0 u hv Iu) Tt)) as (x & Ex).
      assert (Hx : exists x, exec_task t u hv = Ok x) by eauto. apply exec_ok_iff in Hx.
      apply exec_ok_iff. rewrite (Pull k2 u s' Q2 Iu); [assumption| |assumption].
      intros p Hp. apply indep_sym. apply X12; [assumption|]. apply in_or_app. right. left. reflexivity.
    + (* finish ts1 first *)
      destruct (always_terminates _ _ _ (always_here _ _ _ _ _ A1 St1)) as (ue & Ste & Pe).
      destruct (steps_sched r1 u [] ue) as (k3 & S3 & Q3 & R3); [rewrite Forall_forall; intros; apply Fr1; assumption|assumption..|].
      assert (Ie : tinv s0 ue) by (apply (run_seq_tinv k3 u ue); assumption).
      (* run k3 after k2, then k2 after k3 *)
      assert (Swap : forall k, okl k -> (forall p, In p k -> In (fst p) r1) -> forall v w, tinv s0 v -> run_seq k2 v = Ok w ->
         forall v', run_seq k v = Ok v' -> exists w', run_seq k w = Ok w' /\ run_seq k2 v' = Ok w').
      { clear - Q2 X12. induction k as [|[x hx] k IHk]; intros Hok Hin v w Hv Hr v' Hv'; cbn [run_seq] in *.
        - inversion Hv'; subst. eauto.
        - inversion Hok as [|? ? (A2 & A3) Hok']; subst. cbn [fst snd] in *.
          destruct (exec_task x v hx) as [va| |] eqn:Ev; try discriminate. rewrite bind_Ok in Hv'.
          pose proof (proj2 (tinv_typed s0 v hx Hv) A3) as A3'. destruct (A2 v hx va Hv A3' Ev) as [Hva _].
          assert (F2 : Forall (fun p => ok_task s0 (fst p) /\ typed (snd p) s0 /\ indep (fst p) x) k2).
          { rewrite Forall_forall. intros p Hp. unfold okl in Q2. rewrite Forall_forall in Q2. destruct (Q2 p Hp) as (B2 & B3).
            split; [assumption|]. split; [assumption|]. apply indep_sym. apply X12; [assumption|]. apply (Hin (x, hx)). left. reflexivity. }
          (* x succeeds after k2 *)
          assert (Hx : exists wa, exec_task x w hx = Ok wa).
          { assert (Hx : exists x', exec_task x v hx = Ok x') by eauto. apply exec_ok_iff in Hx. apply exec_ok_iff.
            assert (Em : map (in_buf w hx) (t_acc x) = map (in_buf v hx) (t_acc x)); [|rewrite Em; assumption].
            clear - s0 F2 Hv Hr. revert v Hv Hr. induction F2 as [|[y hy] k2 (B2 & B3 & B4) F2 IHF]; intros v Hv Hr; cbn [run_seq fst snd] in *.
            - inversion Hr; reflexivity.
            - destruct (exec_task y v hy) as [vb| |] eqn:Ey; try discriminate. rewrite bind_Ok in Hr.
              pose proof (proj2 (tinv_typed s0 v hy Hv) B3) as B3'. destruct (B2 v hy vb Hv B3' Ey) as [Hvb _].
              rewrite (IHF vb Hvb Hr). apply (in_bufs y x v hy vb hx B2); auto. }
          destruct Hx as (wa & Ewa). destruct (move_front k2 x hx v w wa A2 F2 A3 Hv Hr Ewa) as (va' & Eva & Rva).
          assert (va' = va) by congruence. subst va'.
          destruct (IHk Hok' (fun p Hp => Hin p (or_intror Hp)) va wa Hva Rva v' Hv') as (w' & W1 & W2).
          exists w'. rewrite Ewa, bind_Ok. auto. }
      destruct (Swap k3 Q3 (proj2 (sched_incl _ _ _ S3)) u s' Iu R2 ue R3) as (we & We1 & We2).
      pose proof (sched_steps ts2 k2 (r2a ++ t :: lB) ue we S2 Q2 Ie We2) as St2.
      destruct (A2 ue Ie Pe _ _ St2) as [Sf _].
      assert (Iw : tinv s0 we) by (apply (run_seq_tinv k2 ue we); assumption).
      destruct (Sf r2a t lB hv eq_refl) as (x & Ex).
      { intros y Hy. apply Hn. apply in_or_app. right. assumption. }
      { apply (tinv_typed s0 we hv Iw). assumption. }
      assert (Hx : exists x, exec_task t we hv = Ok x) by eauto. apply exec_ok_iff in Hx. apply exec_ok_iff.
      rewrite <- (Pull k3 s' we Q3 Is'); [assumption| |assumption].
      intros p Hp. pose proof (proj2 (sched_incl _ _ _ S3) p Hp) as Hp'. apply Hcr.
      { apply (proj1 (sched_incl _ _ _ S1)). assumption. }
      { apply (proj1 (sched_incl _ _ _ S2)). apply in_or_app. right. left. reflexivity. }
      apply Hn. apply in_or_app. left. assumption.
  - intros E. apply app_eq_nil in E as [-> ->].
    destruct (A1 _ _ St1) as [_ P1]. pose proof (sched_steps ts2 k2 [] u s' S2 Q2 Iu R2) as St2.
    apply (A2 u Iu (P1 eq_refl) _ _ St2). reflexivity.
Qed.

Theorem always_app ts1 ts2 s (P Q : store T -> Prop) : Forall ordered_task ts1 -> Forall ordered_task ts2 ->
  Forall (ok_task s0) ts1 -> Forall (ok_task s0) ts2 -> tinv s0 s ->
  always ts1 s P -> (forall s1, tinv s0 s1 -> P s1 -> always ts2 s1 Q) -> always (ts1 ++ ts2) s Q.
Proof. intros O1 _. apply always_app_cross. apply cross_l. assumption. Qed.
End S0.
End Serial.
