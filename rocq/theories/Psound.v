(** * Tasks whose declared access modes are sound, also when they may fail; programs made of such tasks

    A task is [psound] when a run that succeeds changes only handles declared as written, and
    its success and what it writes are determined by the handles declared as read. *)
From Coq Require Import FunctionalExtensionality.
From Verif Require Import Base Spec Geometry Traits TraitsProofs Runtime Ops TensorSem ElemGeneric OneOut Sequence Serial NdRuns.

Section P.
Context {T : Type}.
Local Notation hview := (handle -> buf T).

(** s0 fixes the kind and the size of every buffer (tinv). *)
Definition psound (s0 : store T) (t : task T) : Prop :=
  (forall s hv s', tinv s0 s -> typed hv s -> exec_task t s hv = Ok s' ->
     tinv s0 s' /\ forall h, (forall m, In (h, m) (t_acc t) -> writes m = false) -> s' h = s h) /\
  (forall s1 hv1 s1' s2 hv2, tinv s0 s1 -> tinv s0 s2 -> typed hv1 s1 -> typed hv2 s2 ->
     (forall h m, In (h, m) (t_acc t) -> reads m = true -> s1 h = s2 h) ->
     exec_task t s1 hv1 = Ok s1' -> exists s2', exec_task t s2 hv2 = Ok s2' /\
       forall h m, In (h, m) (t_acc t) -> writes m = true -> s1' h = s2' h).

Lemma psound_ok s0 t : psound s0 t -> ok_task s0 t.
Proof. intros [H _]. exact H. Qed.

Lemma sound_psound s0 t : sound_task (tinv s0) t -> psound s0 t.
Proof.
  intros H. split; [apply sound_ok; assumption|]. destruct H as [H1 H2].
  intros s1 hv1 s1' s2 hv2 I1 I2 V1 V2 Hr E1. destruct (H1 s2 hv2 I2 V2) as (s2' & E2 & _). exists s2'. split; [assumption|].
  exact (H2 s1 hv1 s1' s2 hv2 s2' I1 I2 V1 V2 Hr E1 E2).
Qed.

(** Tasks without write-only or scratch buffers. *)
Lemma rw_psound s0 t : ok_task s0 t -> (forall h m, In (h, m) (t_acc t) -> reads m = true) -> psound s0 t.
Proof.
  intros H Hm. split; [exact H|]. intros s1 hv1 s1' s2 hv2 I1 I2 V1 V2 Hr E1.
  assert (E : map (in_buf s2 hv2) (t_acc t) = map (in_buf s1 hv1) (t_acc t)).
  { apply map_ext_in. intros [h m] Hin. unfold in_buf. cbn [fst snd]. rewrite (Hm h m Hin). symmetry. apply (Hr h m); [assumption|apply (Hm h m Hin)]. }
  destruct (exec_inv _ _ _ _ E1) as (out & Eo & Ew). unfold exec_task. rewrite E, Eo. bnd.
  destruct (proj2 (write_back_spec (t_acc t) out s2)) as (s2' & E2).
  { apply (write_back_spec (t_acc t) out s1). eauto. }
  exists s2'. split; [assumption|]. intros h m Hin Hw. rewrite (write_back_at _ _ _ _ h Ew), (write_back_at _ _ _ _ h E2).
  destruct (wbl (t_acc t) out h) eqn:Eb; [reflexivity|]. exfalso.
  assert (L : List.length out = List.length (t_acc t)) by (apply (write_back_spec (t_acc t) out s1); eauto).
  clear - Hin Hw Eb L. revert out Eb L. induction (t_acc t) as [|[h' m'] acc IH]; intros [|b out] Eb L; cbn [List.length] in L; try discriminate; [contradiction|].
  cbn [wbl] in Eb. destruct (wbl acc out h) eqn:E'; [discriminate|]. destruct Hin as [E|Hin].
  - inversion E; subst. rewrite Z.eqb_refl in Eb. destruct m; discriminate.
  - apply (IH Hin out E'). lia.
Qed.

(** ** Determinism *)
Variable s0 : store T.

Lemma psound_any t s hv s' hv2 : psound s0 t -> tinv s0 s -> typed hv s -> typed hv2 s ->
  exec_task t s hv = Ok s' -> exec_task t s hv2 = Ok s'.
Proof.
  intros [H1 H2] Hi V1 V2 E. destruct (H2 s hv s' s hv2 Hi Hi V1 V2 (fun _ _ _ _ => eq_refl) E) as (s2 & E2 & Hw).
  rewrite E2. f_equal. apply functional_extensionality. intros h.
  destruct (H1 _ _ _ Hi V1 E) as [_ F1]. destruct (H1 _ _ _ Hi V2 E2) as [_ F2].
  destruct (existsb (fun a => (fst a =? h) && writes (snd a)) (t_acc t)) eqn:Ex.
  - apply existsb_exists in Ex as ([h' m] & Hin & Ex). cbn [fst snd] in Ex. apply andb_true_iff in Ex as [Eh Em]. apply Z.eqb_eq in Eh. subst.
    symmetry. apply (Hw h m Hin Em).
  - rewrite F1, F2; [reflexivity| |]; intros m Hin; apply not_true_iff_false; intros Em;
      rewrite <- not_true_iff_false in Ex; apply Ex; apply existsb_exists; exists (h, m); cbn [fst snd]; rewrite Z.eqb_refl, Em; auto.
Qed.

Lemma sequential_run ts s s' : Forall (psound s0) ts -> tinv s0 s -> sequential ts s = Ok s' ->
  forall hvs, List.length hvs = List.length ts -> Forall (fun hv => typed hv s0) hvs -> run_seq (combine ts hvs) s = Ok s'.
Proof.
  intros HF. revert s. induction HF as [|t ts Ht HF IH]; intros s Hi E [|hv hvs] L Hv; cbn [List.length] in L; try discriminate; [assumption|].
  cbn [sequential] in E. cbn [combine run_seq]. destruct (exec_task t s s) as [s1| |] eqn:E1; try discriminate. rewrite bind_Ok in E.
  inversion Hv; subst.
  rewrite (psound_any t s s s1 hv Ht Hi (typed_refl s)) by (first [assumption | apply (tinv_typed s0 s hv Hi); assumption]). bnd.
  apply IH; try assumption; [|lia]. apply (proj1 Ht _ _ _ Hi (typed_refl s) E1).
Qed.

Lemma run_sequential ts s s' hvs : Forall (psound s0) ts -> tinv s0 s -> List.length hvs = List.length ts ->
  Forall (fun hv => typed hv s0) hvs -> run_seq (combine ts hvs) s = Ok s' -> sequential ts s = Ok s'.
Proof.
  intros HF. revert s hvs. induction HF as [|t ts Ht HF IH]; intros s [|hv hvs] Hi L Hv E; cbn [List.length] in L; try discriminate; [assumption|].
  cbn [combine run_seq] in E. cbn [sequential]. destruct (exec_task t s hv) as [s1| |] eqn:E1; try discriminate. rewrite bind_Ok in E.
  inversion Hv; subst. assert (V : typed hv s) by (apply (tinv_typed s0 s hv Hi); assumption).
  rewrite (psound_any t s hv s1 s Ht Hi V (typed_refl s) E1). bnd.
  apply (IH _ hvs); try assumption; [|lia]. apply (proj1 Ht _ _ _ Hi V E1).
Qed.

Lemma same_hv (ts : list (task T)) s (hv : hview) : tinv s0 s -> typed hv s ->
  List.length (map (fun _ => hv) ts) = List.length ts /\ Forall (fun hv => typed hv s0) (map (fun _ : task T => hv) ts).
Proof.
  intros Hi Hv. split; [apply map_length|]. apply Forall_forall. intros x Hx. apply in_map_iff in Hx as (? & <- & _).
  apply (tinv_typed s0 s hv Hi). assumption.
Qed.

(** A ready task can go first without changing the result. *)
Lemma seq_ready l1 t l2 s s' hv : Forall (psound s0) (l1 ++ t :: l2) -> Forall ordered_task (l1 ++ t :: l2) -> tinv s0 s ->
  (forall t', In t' l1 -> ~ conflict t' t) -> typed hv s -> sequential (l1 ++ t :: l2) s = Ok s' ->
  exists s1, exec_task t s hv = Ok s1 /\ tinv s0 s1 /\ sequential (l1 ++ l2) s1 = Ok s'.
Proof.
  intros HF HO Hi Hc Hv E. rewrite sequential_app in E. destruct (sequential l1 s) as [u| |] eqn:E1; try discriminate. rewrite bind_Ok in E.
  cbn [sequential] in E. destruct (exec_task t u u) as [w| |] eqn:E2; try discriminate. rewrite bind_Ok in E.
  rewrite Forall_app in HF, HO. destruct HF as [F1 F2], HO as [O1 O2]. inversion F2 as [|? ? Ft F3]; subst. inversion O2 as [|? ? Ot O3]; subst.
  destruct (same_hv l1 s hv Hi Hv) as [L1 V1].
  pose proof (sequential_run l1 s u F1 Hi E1 _ L1 V1) as R1.
  assert (K : okl s0 (combine l1 (map (fun _ => hv) l1))).
  { apply Forall_forall. intros [t' hv'] Hin. cbn [fst snd]. rewrite Forall_forall in F1, V1. split.
    - apply psound_ok, F1. eapply in_combine_l; eassumption.
    - apply V1. eapply in_combine_r; eassumption. }
  assert (Iu : tinv s0 u) by (eapply (run_seq_tinv s0); eassumption).
  assert (V0 : typed hv s0) by (apply (tinv_typed s0 s hv Hi); assumption).
  assert (E2' : exec_task t u hv = Ok w).
  { apply (psound_any t u u w hv Ft Iu (typed_refl u)); [|assumption]. apply (tinv_typed s0 u hv Iu). assumption. }
  destruct (move_front s0 (combine l1 (map (fun _ => hv) l1)) t hv s u w (psound_ok _ _ Ft)) as (s1 & A1 & A2); try assumption.
  { apply Forall_forall. intros [t' hv'] Hin. cbn [fst snd]. rewrite Forall_forall in F1, V1. pose proof (in_combine_l _ _ _ _ Hin) as Hin'. split; [|split].
    - apply psound_ok, F1. assumption.
    - apply V1. eapply in_combine_r; eassumption.
    - apply nc_indep; [right; assumption|]. unfold nc. apply Hc. assumption. }
  exists s1. split; [assumption|]. assert (I1 : tinv s0 s1) by (apply (proj1 Ft _ _ _ Hi Hv A1)). split; [assumption|].
  rewrite sequential_app. rewrite (run_sequential l1 s1 w _ F1 I1 L1 V1 A2). bnd. assumption.
Qed.

(** Running the tasks one by one in submission order succeeds: then every schedule does, with the same final store. *)
Theorem psound_deterministic ts s s' : Forall (psound s0) ts -> Forall ordered_task ts -> tinv s0 s ->
  sequential ts s = Ok s' -> always ts s (fun x => x = s').
Proof.
  intros HF HO Hi E ts1 s1 Hs.
  assert (G : Forall (psound s0) ts1 /\ Forall ordered_task ts1 /\ tinv s0 s1 /\ sequential ts1 s1 = Ok s').
  { remember (ts, s) as c eqn:Ec. remember (ts1, s1) as c1 eqn:Ec1. revert ts s ts1 s1 HF HO Hi E Ec Ec1.
    induction Hs as [c|c c' c'' H1 H2 IH]; intros ts s ts1 s1 HF HO Hi E -> Ec1.
    - inversion Ec1; subst. auto.
    - inversion H1 as [l1 t l2 sa hv sb Hc Hv Ex]; subst.
      destruct (seq_ready l1 t l2 s s' hv HF HO Hi Hc Hv E) as (sb' & E1 & I1 & E2).
      assert (sb' = sb) by congruence. subst.
      rewrite Forall_app in HF, HO. destruct HF as [F1 F2], HO as [O1 O2]. inversion F2; subst. inversion O2; subst.
      eapply IH; try reflexivity; try assumption; apply Forall_app; auto. }
  destruct G as (F1 & O1 & I1 & E1). split.
  - intros l1 t l2 hv El Hc Hv. cbn [fst snd] in *. subst ts1.
    destruct (seq_ready l1 t l2 s1 s' hv F1 O1 I1 Hc Hv E1) as (sb & Eb & _). eauto.
  - intros ->. cbn [sequential] in E1. congruence.
Qed.
End P.

(** ** Programs: several operations submitted one after the other *)
Section Prog.
Context {T : Type}.

Fixpoint submit_all (rs : list (res (list (task T)))) : res (list (task T)) :=
  match rs with
  | [] => Ok []
  | r :: rs => ts <- r ;; ts' <- submit_all rs ;; Ok (ts ++ ts')
  end.

(** If the operation, run task by task from a state with the buffer sizes of s0, succeeds, then every schedule of it
    succeeds with the same result; and if it succeeds for some stale contents of the write-only handles, it succeeds
    for all of them. *)
Definition op_det (s0 : store T) (r : res (list (task T))) : Prop :=
  exists ts, r = Ok ts /\ Forall (ok_task s0) ts /\ Forall ordered_task ts /\
    (forall s s', tinv s0 s -> sequential ts s = Ok s' -> always ts s (fun x => x = s')) /\
    (forall s s' hvs, tinv s0 s -> List.length hvs = List.length ts -> Forall (fun hv => typed hv s0) hvs ->
       run_seq (combine ts hvs) s = Ok s' -> sequential ts s = Ok s').

Lemma psound_op s0 r ts : r = Ok ts -> Forall (psound s0) ts -> Forall ordered_task ts -> op_det s0 r.
Proof.
  intros E H1 H2. exists ts. split; [assumption|]. split; [eapply Forall_impl; [|exact H1]; intros; apply psound_ok; assumption|].
  split; [assumption|]. split; [intros; eapply psound_deterministic; eassumption|].
  intros s s' hvs Hi Hl Hh E'. exact (run_sequential _ _ _ _ _ H1 Hi Hl Hh E').
Qed.
Lemma runs_op s r P : runs r s P -> op_det s r.
Proof.
  intros (ts & E & H1 & H2 & _). eapply psound_op; [exact E| |assumption].
  eapply Forall_impl; [|exact H1]. intros. apply sound_psound. assumption.
Qed.

Lemma sequential_tinv s0 ts (s s' : store T) : Forall (ok_task s0) ts -> tinv s0 s -> sequential ts s = Ok s' -> tinv s0 s'.
Proof.
  intros HF. revert s. induction HF as [|t ts Ht HF IH]; intros s Hi E; cbn [sequential] in E; [inversion E; subst; assumption|].
  destruct (exec_task t s s) as [s1| |] eqn:E1; try discriminate. rewrite bind_Ok in E. apply (IH s1); [|assumption].
  apply (Ht s s s1 Hi (typed_refl s) E1).
Qed.

Theorem program_deterministic s0 rs ts s s' : Forall (op_det s0) rs -> submit_all rs = Ok ts -> tinv s0 s ->
  sequential ts s = Ok s' -> always ts s (fun x => x = s').
Proof.
  intros HF. revert ts s. induction HF as [|r rs (tr & Er & K & Or & Hr & _) HF IH]; intros ts s E Hi Hs; cbn [submit_all] in E.
  - inversion E; subst. inversion Hs; subst. apply always_nil. reflexivity.
  - rewrite Er, bind_Ok in E. destruct (submit_all rs) as [ts2| |] eqn:E2; try discriminate. rewrite bind_Ok in E. inversion E; subst; clear E.
    rewrite sequential_app in Hs. destruct (sequential tr s) as [s1| |] eqn:E1; try discriminate. rewrite bind_Ok in Hs.
    assert (I1 : tinv s0 s1) by (eapply sequential_tinv; eassumption).
    assert (KO : Forall (ok_task s0) ts2 /\ Forall ordered_task ts2).
    { clear - HF E2. revert ts2 E2. induction HF as [|r rs (tr & Er & K & Or & Hr) HF IH]; intros ts E; cbn [submit_all] in E.
      - inversion E; subst. split; constructor.
      - rewrite Er, bind_Ok in E. destruct (submit_all rs) as [ts2| |] eqn:E2; try discriminate. rewrite bind_Ok in E. inversion E; subst; clear E.
        destruct (IH ts2 eq_refl). split; apply Forall_app; split; assumption. }
    apply (always_app s0 tr ts2 s (fun x => x = s1)); try tauto; [apply Hr; assumption|].
    intros s2 _ ->. apply (IH ts2 s1); [reflexivity|assumption|assumption].
Qed.

Lemma submit_all_ok s0 rs ts : Forall (op_det s0) rs -> submit_all rs = Ok ts -> Forall (ok_task s0) ts /\ Forall ordered_task ts.
Proof.
  intros HF. revert ts. induction HF as [|r rs (tr & Er & K & Or & Hr) HF IH]; intros ts E; cbn [submit_all] in E.
  - inversion E; subst. split; constructor.
  - rewrite Er, bind_Ok in E. destruct (submit_all rs) as [ts2| |] eqn:E2; try discriminate. rewrite bind_Ok in E. inversion E; subst; clear E.
    destruct (IH ts2 eq_refl). split; apply Forall_app; split; assumption.
Qed.
Lemma submit_all_total s0 rs : Forall (op_det s0) rs -> exists ts, submit_all rs = Ok ts.
Proof.
  induction 1 as [|r rs (tr & Er & _) HF [ts IH]]; [exists []; reflexivity|]. exists (tr ++ ts). cbn [submit_all].
  rewrite Er, bind_Ok, IH, bind_Ok. reflexivity.
Qed.

Lemma program_serial s0 rs ts s s' hvs : Forall (op_det s0) rs -> submit_all rs = Ok ts -> tinv s0 s ->
  List.length hvs = List.length ts -> Forall (fun hv => typed hv s0) hvs -> run_seq (combine ts hvs) s = Ok s' -> sequential ts s = Ok s'.
Proof.
  intros HF. revert ts s hvs. induction HF as [|r rs (tr & Er & K & Or & Hd & Hr) HF IH]; intros ts s hvs E Hi Hl Hh Hs; cbn [submit_all] in E.
  - inversion E; subst. destruct hvs; [|discriminate]. exact Hs.
  - rewrite Er, bind_Ok in E. destruct (submit_all rs) as [ts2| |] eqn:E2; try discriminate. rewrite bind_Ok in E. inversion E; subst; clear E.
    rewrite app_length in Hl. pose proof (firstn_skipn (List.length tr) hvs) as Eh.
    assert (L1 : List.length (firstn (List.length tr) hvs) = List.length tr) by (rewrite firstn_length; lia).
    assert (L2 : List.length (skipn (List.length tr) hvs) = List.length ts2) by (rewrite skipn_length; lia).
    rewrite <- Eh in Hs, Hh. apply Forall_app in Hh. destruct Hh as [Hh1 Hh2].
    assert (Ec : forall (a : list (task T)) b (c d : list (handle -> buf T)), List.length a = List.length c ->
      combine (a ++ b) (c ++ d) = combine a c ++ combine b d).
    { induction a as [|x a IHa]; intros b [|y c] d Hq; try discriminate; [reflexivity|]. cbn [app combine]. rewrite IHa; [reflexivity|]. cbn in Hq. lia. }
    rewrite Ec, run_seq_app in Hs by (symmetry; exact L1).
    destruct (run_seq _ s) as [s1| |] eqn:E1; try discriminate. rewrite bind_Ok in Hs.
    assert (E1' : sequential tr s = Ok s1) by (eapply Hr; eassumption).
    rewrite sequential_app, E1', bind_Ok. eapply IH; try eassumption; [reflexivity|]. eapply sequential_tinv; eassumption.
Qed.
End Prog.
