(** * Operations submitted one after the other

    The tasks of all operations wait in one pool and may overlap; the result is nevertheless
    that of running the operations to completion one by one. *)
From Coq Require Import FunctionalExtensionality.
From Verif Require Import Base Spec Geometry Traits TraitsProofs Runtime Ops TensorSem ElemGeneric OneOut.

Section Seq.
Context {T : Type}.

(** Submit [r1], then [r2], without waiting in between. *)
Definition then_ (r1 r2 : res (list (task T))) : res (list (task T)) :=
  a <- r1 ;; b <- r2 ;; Ok (a ++ b).

(** Run the whole of [ts], in submission order, with no stale data. *)
Fixpoint sequential (ts : list (task T)) (s : store T) : res (store T) :=
  match ts with
  | [] => Ok s
  | t :: ts => s' <- exec_task t s s ;; sequential ts s'
  end.

(** The assignment performed by a task. *)
Definition run_at (t : task T) (h : handle) (s : store T) : buf T :=
  match exec_task t s s with Ok s' => s' h | _ => s h end.
Definition eff_of (t : task T) : eff T :=
  map (fun a => (fst a, run_at t (fst a))) (filter (fun a => writes (snd a)) (t_acc t)).

Lemma eff_of_lookup t h : elookup (eff_of t) h = Some (run_at t h) /\ (exists m, In (h, m) (t_acc t) /\ writes m = true)
  \/ elookup (eff_of t) h = None /\ (forall m, In (h, m) (t_acc t) -> writes m = false).
Proof.
  unfold eff_of. induction (t_acc t) as [|[h' m'] l IH]; cbn [filter].
  - right. split; [reflexivity|]. intros m [].
  - cbn [snd]. destruct (writes m') eqn:Ew; cbn [map elookup fst].
    + destruct (Z.eqb_spec h h') as [->|Hne].
      * left. split; [reflexivity|]. exists m'. split; [left; reflexivity|assumption].
      * destruct IH as [[E (m & Hm & Hw)]|[E H]]; [left|right]; split; auto.
        { exists m. split; [right; assumption|assumption]. }
        { intros m [[= <- <-]|Hin]; [contradiction|apply H; assumption]. }
    + destruct IH as [[E (m & Hm & Hw)]|[E H]]; [left|right]; split; auto.
      { exists m. split; [right; assumption|assumption]. }
      { intros m [[= <- <-]|Hin]; [assumption|apply H; assumption]. }
Qed.

Lemma typed_refl (s : store T) : typed s s.
Proof. intros h; reflexivity. Qed.

Lemma sound_eff I t : ext_inv I -> sound_task I t -> task_eff I t (eff_of t).
Proof.
  intros Hx [H1 H2].
  assert (Run : forall s hv, I s -> typed hv s -> exists s', exec_task t s hv = Ok s' /\ forall h, s' h = app_eff (eff_of t) s h).
  { intros s hv Hs Hhv. destruct (H1 s hv Hs Hhv) as (s' & E & Hi & Hf). exists s'. split; [assumption|]. intros h.
    unfold app_eff. destruct (eff_of_lookup t h) as [[-> (m & Hm & Hw)]|[-> Hn]]; [|apply Hf; assumption].
    unfold run_at. destruct (H1 s s Hs (typed_refl s)) as (s2 & E2 & _). rewrite E2.
    eapply (H2 s hv s' s s s2); eauto using typed_refl. }
  constructor.
  - exact Run.
  - intros h f E. destruct (eff_of_lookup t h) as [[_ H]|[E' _]]; [assumption|congruence].
  - intros h f s1 s2 E I1 I2 Hag. destruct (eff_of_lookup t h) as [[E' (m & Hm & Hw)]|[E' _]]; [|congruence].
    assert (f = run_at t h) by congruence. subst f. unfold run_at.
    destruct (H1 s1 s1 I1 (typed_refl s1)) as (s1' & E1 & _). destruct (H1 s2 s2 I2 (typed_refl s2)) as (s2' & E2 & _).
    rewrite E1, E2. eapply (H2 s1 s1 s1' s2 s2 s2'); eauto using typed_refl.
  - intros h m Hin Hw. destruct (eff_of_lookup t h) as [[-> _]|[_ Hn]]; [discriminate|]. rewrite (Hn m Hin) in Hw. discriminate.
  - intros s Hs. destruct (H1 s s Hs (typed_refl s)) as (s' & E & Hi & _).
    destruct (Run s s Hs (typed_refl s)) as (s2 & E2 & Hs2). assert (s2 = s') by congruence. subst s2.
    apply (Hx s'); assumption.
Qed.

Lemma sequential_eff I ts s : ext_inv I -> Forall (sound_task I) ts -> I s ->
  exists s', sequential ts s = Ok s' /\ I s' /\ s' = seq_eff (map eff_of ts) s.
Proof.
  intros Hx H. revert s. induction H as [|t ts Ht H IH]; intros s Hs.
  - exists s. auto.
  - destruct (proj1 Ht s s Hs (typed_refl s)) as (s1 & E & Hi & _). cbn [sequential]. rewrite E. bnd.
    destruct (te_run _ _ _ (sound_eff I t Hx Ht) s s Hs (typed_refl s)) as (s1' & E' & Hs1).
    assert (s1' = s1) by congruence. subst s1'.
    destruct (IH s1 Hi) as (s' & E2 & Hi' & ->). exists (seq_eff (map eff_of ts) s1). split; [assumption|]. split; [assumption|].
    unfold seq_eff. cbn [map fold_left]. f_equal. apply functional_extensionality. intros h. apply Hs1.
Qed.

(** Every schedule of sound, ordered tasks is free of errors and ends in the state that
    running them one by one produces. *)
Theorem sound_deterministic I ts s : ext_inv I -> Forall (sound_task I) ts -> Forall ordered_task ts -> I s ->
  exists s', sequential ts s = Ok s' /\ I s' /\ always ts s (fun s'' => s'' = s').
Proof.
  intros Hx Hs Ho Hi. destruct (sequential_eff I ts s Hx Hs Hi) as (s' & E & Hi' & ->).
  eexists. split; [exact E|]. split; [assumption|].
  pose proof (schedule_independence I (map (fun t => (t, eff_of t)) ts) s Hx) as Ha.
  rewrite !map_map in Ha. cbn [fst snd] in Ha. rewrite map_id in Ha.
  eapply always_weaken; [apply Ha; [|assumption]|].
  - apply detlist_no_comm.
    + intros p Hp. apply in_map_iff in Hp as (t & <- & Ht). cbn [fst snd]. apply sound_eff; [assumption|].
      rewrite Forall_forall in Hs. apply Hs, Ht.
    + intros p h m Hp Hin. apply in_map_iff in Hp as (t & <- & Ht). cbn [fst] in Hin.
      rewrite Forall_forall in Ho. apply (Ho t Ht h m Hin).
  - intros s'' Hs''. apply functional_extensionality. assumption.
Qed.

Lemma sequential_app ts1 ts2 (s : store T) : sequential (ts1 ++ ts2) s = s' <- sequential ts1 s ;; sequential ts2 s'.
Proof.
  revert s. induction ts1 as [|t ts1 IH]; intros s; cbn [app sequential]; [reflexivity|].
  destruct (exec_task t s s); [|reflexivity|reflexivity]. bnd. apply IH.
Qed.

Lemma tinv_trans (s0 s1 : store T) : tinv s0 s1 -> forall s, tinv s1 s <-> tinv s0 s.
Proof. intros H s. unfold tinv in *. split; intros H' h; rewrite H'; [apply H|symmetry; apply H]. Qed.

Lemma always_det ts (s : store T) s' P : always ts s (fun x => x = s') -> always ts s P -> P s'.
Proof.
  intros H1 H2. destruct (always_terminates _ _ _ H1) as (x & Hx & ->). apply (H2 [] s' Hx). reflexivity.
Qed.

Lemma sound_tinv (s0 s1 : store T) t : tinv s0 s1 -> sound_task (tinv s1) t -> sound_task (tinv s0) t.
Proof.
  intros Ht [H1 H2]. split.
  - intros s hv Hs Hhv. apply (tinv_trans s0 s1 Ht) in Hs. destruct (H1 s hv Hs Hhv) as (s' & E & Hi & Hf).
    exists s'. split; [assumption|]. split; [apply (tinv_trans s0 s1 Ht); assumption|assumption].
  - intros x1 hv1 x1' x2 hv2 x2' I1 I2. apply H2; apply (tinv_trans s0 s1 Ht); assumption.
Qed.

(** [runs] composes. *)
Theorem runs_then r1 r2 s P Q : runs r1 s P -> (forall s1, tinv s s1 -> P s1 -> runs r2 s1 Q) -> runs (then_ r1 r2) s Q.
Proof.
  intros (ts1 & E1 & S1 & O1 & A1) H2.
  destruct (sound_deterministic (tinv s) ts1 s (tinv_ext s) S1 O1 (tinv_refl s)) as (s1 & Q1 & I1 & D1).
  destruct (always_det _ _ _ _ D1 A1) as [_ P1].
  destruct (H2 s1 I1 P1) as (ts2 & E2 & S2 & O2 & A2).
  assert (S2' : Forall (sound_task (tinv s)) ts2) by (eapply Forall_impl; [|exact S2]; intros t; apply sound_tinv; assumption).
  exists (ts1 ++ ts2). split; [unfold then_; rewrite E1, E2; reflexivity|].
  split; [apply Forall_app; split; assumption|]. split; [apply Forall_app; split; assumption|].
  destruct (sound_deterministic (tinv s) (ts1 ++ ts2) s (tinv_ext s)) as (s' & Q' & I' & D'); [apply Forall_app; split; assumption..|apply tinv_refl|].
  eapply always_weaken; [exact D'|]. intros x ->. split; [assumption|].
  destruct (sound_deterministic (tinv s1) ts2 s1 (tinv_ext s1) S2 O2 (tinv_refl s1)) as (s2 & Q2 & I2 & D2).
  rewrite sequential_app, Q1, bind_Ok, Q2 in Q'. inversion Q'; subst. exact (proj2 (always_det _ _ _ _ D2 A2)).
Qed.

(** What an operation [runs] to does not depend on the schedule: it is the state reached
    by running its tasks one by one. *)
Theorem runs_deterministic r s P : runs r s P -> exists ts s', r = Ok ts /\ sequential ts s = Ok s' /\ P s' /\
  always ts s (fun s'' => s'' = s').
Proof.
  intros (ts & E & S & Or & A).
  destruct (sound_deterministic (tinv s) ts s (tinv_ext s) S Or (tinv_refl s)) as (s' & Q & I & D).
  exists ts, s'. split; [assumption|]. split; [assumption|]. split; [exact (proj2 (always_det _ _ _ _ D A))|assumption].
Qed.
End Seq.

(** Frames of composed operations *)
Section Frame.
Context {T : Type} {DT : Dflt T}.
Implicit Types s : store T.
Lemma frame_elem ts s s' t idx : wft t -> inb (t_shape t) idx -> (forall t', In t' ts -> disj t t') -> frame ts s s' ->
  elem s' t idx = elem s t idx.
Proof.
  intros Ht Hi Hd Hf. unfold elem. rewrite Hf; [reflexivity|]. intros t' Hin Hh.
  apply (Hd t' Hin (th t (etile t idx))); [apply th_In; [assumption|apply etile_bound; assumption]|assumption].
Qed.
Lemma frame_trans ts1 ts2 s s1 s2 : frame ts1 s s1 -> frame ts2 s1 s2 -> frame (ts1 ++ ts2) s s2.
Proof.
  intros H1 H2 h Hh. rewrite H2, H1; [reflexivity| |]; intros t Ht; apply Hh; apply in_or_app; auto.
Qed.
Lemma frame_weaken ts1 ts2 s s' : (forall t, In t ts1 -> In t ts2) -> frame ts1 s s' -> frame ts2 s s'.
Proof. intros H1 H2 h Hh. apply H2. intros t Ht. apply Hh, H1, Ht. Qed.
End Frame.
Lemma disj_sym t1 t2 : disj t1 t2 -> disj t2 t1. Proof. intros H h A B. apply (H h); assumption. Qed.
