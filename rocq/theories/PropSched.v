(** * C33 results do not depend on the schedule, C34 declared access modes are sound

    [submit_all (map submit p)] is the list of tasks submitted by the program p (a list of API calls) in order.
    [sequential ts s] runs the tasks one by one in submission order; [steps (ts, s) ([], s')] is an execution of all of them in
    any order that keeps the submission order of conflicting tasks, where write-only and scratch buffers are handed
    to the tasks with arbitrary stale contents; [always ts s P] says that no such execution fails and all of them end in P. *)
From Coq Require Import Reals Lra Floats.SpecFloat FunctionalExtensionality.
From Verif Require Import Base Spec Geometry Traits TraitsProofs Runtime Ops TensorSem ElemGeneric OneOut
  KernelsElem ElemOps ElemProofs Formulas PropElem Axis AccRuns Loops SliceOps SliceGeo SplitGeo RealOps RSum Concrete
  MatOps Sequence Serial NdRuns SubcopyOps PropCopy KeepRuns LossOps LossProofs LossRuns CommRuns TotalSum AnyRuns Psound Calls PropLoss Binary32.
Local Open Scope Z_scope.

(** No value of the type compares equal to both 0 and 1. *)
Definition one_is_not_zero {T} (O : Ops T) : Prop := forall x : T, o_eqb x o_zero = true -> o_eqb x o_one = false.

Section C33.
Context {T : Type} {O : Ops T}.

Theorem C33_program (s : store T) (p : list call) : one_is_not_zero O -> Forall (call_ok s) p ->
  exists ts, submit_all (map submit p) = Ok ts /\
    (forall s', sequential ts s = Ok s' -> always ts s (fun x => x = s')) /\
    (forall s', steps (ts, s) ([], s') -> sequential ts s = Ok s').
Proof.
  intros H01 Hp. assert (HF : Forall (op_det s) (map submit p)).
  { apply Forall_map. eapply Forall_impl; [|exact Hp]. intros c Hc. apply call_det; assumption. }
  destruct (submit_all_total _ _ HF) as [ts E]. exists ts. split; [assumption|]. split.
  - intros s' Hs. eapply program_deterministic; [exact HF|exact E|apply tinv_refl|exact Hs].
  - intros s' Hst. destruct (submit_all_ok _ _ _ HF E) as [Hk Ho].
    destruct (serializable s ts s s' Ho Hk (tinv_refl s) Hst) as (hvs & L & Hh & Er).
    eapply program_serial; [exact HF|exact E|apply tinv_refl|exact L|exact Hh|exact Er].
Qed.
End C33.

(** ** total_sum_accum, the only operation with commuting accesses: exact over the reals *)
Section C33R.
Lemma total_det (alpha : R) lse src labels val (s : store R) : wft lse -> wft src -> wft labels -> wft val ->
  total_match lse src labels val -> disj lse val -> disj src val -> disj labels val ->
  stored KF s lse -> stored KF s src -> stored KI s labels -> stored KF s val ->
  (forall idx, inb (t_shape labels) idx -> 0 <= ielem s labels idx < zn (t_shape src) 0) ->
  exists ts, total_sum_accum_async alpha lse src labels val = Ok ts /\ Forall (ok_task s) ts /\
    exists s', sequential ts s = Ok s' /\ tinv s s' /\ always ts s (fun x => x = s').
Proof.
  intros W1 W2 W3 W4 HM D1 D2 D3 S1 S2 S3 S4 Hl.
  pose proof (total_submits lse src labels val W1 W2 W3 W4 alpha HM) as E.
  destruct (total_sum_runs lse src labels val W1 W2 W3 W4 alpha s HM D1 D2 D3 S1 S2 S3 S4 Hl) as (ts & E' & _ & Ha).
  exists ts. split; [assumption|]. split.
  { rewrite E in E'. inversion E'; subst ts. apply Forall_map. apply Forall_forall. intros i _. apply total_sum_okt. }
  destruct (always_sequential _ _ _ Ha) as (s' & Es & [I1 _] & P1 & F1). exists s'. split; [assumption|]. split; [assumption|].
  eapply always_weaken; [exact Ha|]. intros s2 ([I2 _] & P2 & F2).
  apply (same_tensor s s2 s' val); try assumption. intros idx Hi.
  destruct HM as (_ & _ & _ & Ev). rewrite Ev in Hi. destruct idx as [|y l]; [|inversion Hi]. rewrite P1, P2. reflexivity.
Qed.

(** A program p1, then total_sum_accum, then p2: if running it task by task succeeds, and the labels are in range when
    total_sum_accum is reached, all schedules succeed with the same result. *)
Theorem C33_total_sum (alpha : R) lse src labels val (s : store R) p1 p2 :
  Forall (call_ok s) p1 -> Forall (call_ok s) p2 ->
  Forall wf_tensor [lse; src; labels; val] ->
  total_match lse src labels val -> disj lse val -> disj src val -> disj labels val ->
  stored KF s lse -> stored KF s src -> stored KI s labels -> stored KF s val ->
  exists ts1 ts2 ts3, submit_all (map submit p1) = Ok ts1 /\ total_sum_accum_async alpha lse src labels val = Ok ts2 /\
    submit_all (map submit p2) = Ok ts3 /\
    forall s1 s', sequential ts1 s = Ok s1 ->
      (forall idx, inb (t_shape labels) idx -> 0 <= ielem s1 labels idx < zn (t_shape src) 0) ->
      sequential (ts1 ++ ts2 ++ ts3) s = Ok s' -> always (ts1 ++ ts2 ++ ts3) s (fun x => x = s').
Proof.
  intros H1 H2 HW HM D1 D2 D3 S1 S2 S3 S4.
  assert (H01 : forall x : R, o_eqb x o_zero = true -> o_eqb x o_one = false).
  { intros x Hx. apply Reqb_true in Hx. subst. apply Reqb_false. cbn. lra. }
  assert (HF1 : Forall (op_det s) (map submit p1)).
  { apply Forall_map. eapply Forall_impl; [|exact H1]. intros c Hc. apply call_det; assumption. }
  assert (HF2 : Forall (op_det s) (map submit p2)).
  { apply Forall_map. eapply Forall_impl; [|exact H2]. intros c Hc. apply call_det; assumption. }
  destruct (submit_all_total _ _ HF1) as [ts1 E1]. destruct (submit_all_total _ _ HF2) as [ts3 E3].
  inversion HW as [|? ? W1 HW1]; subst. inversion HW1 as [|? ? W2 HW2]; subst. inversion HW2 as [|? ? W3 HW3]; subst. inversion HW3 as [|? ? W4 HW4]; subst.
  apply wf_wft in W1, W2, W3, W4.
  exists ts1. pose proof (total_submits lse src labels val W1 W2 W3 W4 alpha HM) as E2.
  eexists. exists ts3. split; [assumption|]. split; [exact E2|]. split; [assumption|].
  intros s1 s' Es Hl Hs. destruct (submit_all_ok _ _ _ HF1 E1) as [K1 O1]. destruct (submit_all_ok _ _ _ HF2 E3) as [K3 O3].
  assert (I1 : tinv s s1) by exact (sequential_tinv s ts1 s s1 K1 (tinv_refl s) Es).
  destruct (total_det alpha lse src labels val s1 W1 W2 W3 W4 HM D1 D2 D3 (tinv_stored _ _ _ _ I1 S1) (tinv_stored _ _ _ _ I1 S2)
    (tinv_stored _ _ _ _ I1 S3) (tinv_stored _ _ _ _ I1 S4) Hl) as (ts2 & E2' & K2 & s2 & Es2 & I2 & A2).
  rewrite E2 in E2'. inversion E2' as [E2'']. rewrite E2'' in *. clear E2' E2''.
  assert (K2' : Forall (ok_task s) ts2) by (eapply Forall_impl; [|exact K2]; intros t Ht; exact (ok_task_tinv s s1 t I1 Ht)).
  rewrite sequential_app, Es, bind_Ok, sequential_app, Es2, bind_Ok in Hs.
  apply (always_app_cross s ts1 (ts2 ++ ts3) s (fun x => x = s1)); [apply cross_l; assumption|assumption|apply Forall_app; split; assumption|apply tinv_refl| |].
  - eapply program_deterministic; [exact HF1|exact E1|apply tinv_refl|exact Es].
  - intros x Ix ->. apply (always_app_cross s ts2 ts3 s1 (fun x => x = s2)); [apply cross_r; assumption|assumption|assumption|assumption|assumption|].
    intros x Ix' ->. eapply program_deterministic; [exact HF2|exact E3|exact Ix'|exact Hs].
Qed.
End C33R.

(** In binary32 the order of the commuting tasks shows: 2^24 + 1 - 2^24 is 0, 2^24 - 2^24 + 1 is 1. *)
Theorem C33_commute_refuted :
  let lse := std_tensor [2] [1] 0 in let src := std_tensor [1; 2] [1; 1] 10 in
  let labels := std_tensor [2] [1] 20 in let val := std_tensor [] [] 30 in
  let one := f32_of 1 0 in let zero := S754_zero false in
  let s : store f32 := put lse (fun i => if zn i 0 =? 0 then one else f32_of (-1) 24) (put src (fun _ => zero)
         (puti labels (fun _ => 0) (put val (fun _ => f32_of 1 24) (fun _ => BF [])))) in
  exists ts s1 s2, total_sum_accum_async one lse src labels val = Ok ts /\
    steps (ts, s) ([], s1) /\ steps (ts, s) ([], s2) /\ elem s1 val [] = zero /\ elem s2 val [] = one.
Proof.
  intros lse src labels val one zero s.
  pose (t1 := total_sum_accum_submit one 1 1 0 10 20 30). pose (t2 := total_sum_accum_submit one 1 1 1 11 21 30).
  exists [t1; t2]. 
  assert (E1 : exec_task t1 s s = Ok (upd_store (upd_store (upd_store (upd_store s 0 (BF [one])) 10 (BF [zero])) 20 (BI [0])) 30 (BF [f32_of 1 24]))) by reflexivity.
  assert (E2 : exec_task t2 s s = Ok (upd_store (upd_store (upd_store (upd_store s 1 (BF [f32_of (-1) 24])) 11 (BF [zero])) 21 (BI [0])) 30 (BF [zero]))) by reflexivity.
  set (sa := upd_store _ _ _) in E1. set (sb := upd_store _ _ _) in E2.
  assert (E3 : exec_task t2 sa sa = Ok (upd_store (upd_store (upd_store (upd_store sa 1 (BF [f32_of (-1) 24])) 11 (BF [zero])) 21 (BI [0])) 30 (BF [zero]))) by reflexivity.
  assert (E4 : exec_task t1 sb sb = Ok (upd_store (upd_store (upd_store (upd_store sb 0 (BF [one])) 10 (BF [zero])) 20 (BI [0])) 30 (BF [one]))) by reflexivity.
  do 2 eexists. split; [reflexivity|]. split; [|split; [|split]].
  - eapply steps_cons; [apply (step_run [] t1 [t2] s s sa); [intros t' []|apply typed_refl|exact E1]|].
    eapply steps_cons; [apply (step_run [] t2 [] sa sa); [intros t' []|apply typed_refl|exact E3]|]. apply steps_refl.
  - eapply steps_cons; [apply (step_run [t1] t2 [] s s sb); [|apply typed_refl|exact E2]|].
    { intros t' [<-|[]] (h & m1 & m2 & I1 & I2 & Hm). revert Hm. cbn in I1, I2.
      repeat match goal with H : _ \/ _ |- _ => destruct H as [H|H] end; try contradiction; inversion I1; inversion I2; subst; try discriminate. }
    eapply steps_cons; [apply (step_run [] t1 [] sb sb); [intros t' []|apply typed_refl|exact E4]|]. apply steps_refl.
  - reflexivity.
  - reflexivity.
Qed.

(** ** C34 *)
(** [psound s t]: whenever the buffers have the sizes they have in s, (1) a run of t keeps sizes and changes no handle
    that t does not declare as written, and (2) two runs of t that agree on the handles declared as read, but may see different
    stale contents [hv1], [hv2] of the write-only and scratch handles, write the same contents (and if one succeeds so does the other). *)
Section C34.
Context {T : Type} {O : Ops T}.

Theorem C34_modes_partial (s : store T) (c : call) : one_is_not_zero O -> call_ok s c -> ~ partial_write c ->
  exists ts, submit c = Ok ts /\ Forall (psound s) ts.
Proof. intros H01 Hc Hp. destruct (call_sound H01 s c Hc Hp) as (ts & E & H & _). exists ts. split; assumption. Qed.

Theorem C34_total_sum (alpha : T) lse src labels val (s : store T) : Forall wf_tensor [lse; src; labels; val] ->
  total_match lse src labels val ->
  exists ts, total_sum_accum_async alpha lse src labels val = Ok ts /\ Forall (psound s) ts.
Proof.
  intros HW HM. inversion HW as [|? ? W1 HW1]; subst. inversion HW1 as [|? ? W2 HW2]; subst. inversion HW2 as [|? ? W3 HW3]; subst. inversion HW3 as [|? ? W4 HW4]; subst.
  apply wf_wft in W1, W2, W3, W4. rewrite (total_submits lse src labels val W1 W2 W3 W4 alpha HM). eexists. split; [reflexivity|].
  apply Forall_map, Forall_forall. intros i _. apply rw_psound; [apply total_sum_okt|].
  cbn. intros h m H. repeat destruct H as [H|H]; inversion H; reflexivity.
Qed.

(** Stale data never reaches the result of a program, whichever of its calls are used: any two complete executions, with
    any stale contents, end in the same state. *)
Theorem C34_no_leak (s : store T) (p : list call) ts s1 s2 : one_is_not_zero O -> Forall (call_ok s) p ->
  submit_all (map submit p) = Ok ts -> steps (ts, s) ([], s1) -> steps (ts, s) ([], s2) -> s1 = s2.
Proof.
  intros H01 Hp E X1 X2. destruct (C33_program s p H01 Hp) as (ts' & E' & _ & H). assert (ts' = ts) by congruence. subst ts'.
  pose proof (H _ X1). pose proof (H _ X2). congruence.
Qed.

(** gather and copy_intersection submit a first task that declares its destination write-only but fills only part of it. *)
Theorem C34_gather_refuted (a b : T) : a <> b ->
  let src := std_tensor [2] [1] 0 in let dst := std_tensor [2] [2] 10 in
  let s := put src (fun _ => a) (put dst (fun _ => a) (fun h => if h =? 20 then BI [0; 0] else BF [])) in
  call_ok s (CGather src dst 20) /\
  exists ts t, submit (CGather src dst 20) = Ok ts /\ In t ts /\ ~ psound s t.
Proof.
  intros Hab src dst s. split.
  - assert (W1 : wf_tensor src) by (unfold src; std_wf_tac). assert (W2 : wf_tensor dst) by (unfold dst; std_wf_tac).
    assert (HD : disj src dst) by (apply std_disj; left; vm_compute; congruence).
    cbn [call_ok]. split; [|split; [reflexivity|split; [reflexivity|split; [|reflexivity]]]].
    + split; [split; [assumption|]|repeat constructor; try assumption].
      * apply put_stored_other; [apply wf_wft; assumption|apply disj_sym; assumption|]. apply put_stored. apply wf_wft; assumption.
      * apply put_stored. apply wf_wft; assumption.
    + cbn. intros [H|[]]; discriminate.
  - exists [subcopy_submit ScOwn 1 [0] [1] [0] [1] [1] 0 10 20 MW; subcopy_submit ScOwn 1 [0] [1] [1] [1] [1] 1 10 20 MRW].
    eexists. split; [reflexivity|]. split; [left; reflexivity|]. intros [_ H].
    pose (hv := fun (x : T) h => if h =? 10 then BF [x; x] else s h).
    assert (Hty : forall x, typed (hv x) s) by (intros x h; unfold hv; destruct (Z.eqb_spec h 10) as [->|]; reflexivity).
    assert (E : forall x, exists s', exec_task (subcopy_submit ScOwn 1 [0] [1] [0] [1] [1] 0 10 20 MW) s (hv x) = Ok s' /\ s' 10 = BF [a; x])
      by (intros x; eexists; split; reflexivity).
    destruct (E a) as (sa & Ea & Va). destruct (E b) as (sb & Eb & Vb).
    destruct (H s (hv a) sa s (hv b) (tinv_refl s) (tinv_refl s) (Hty a) (Hty b) (fun _ _ _ _ => eq_refl) Ea) as (sb' & Eb' & Hw).
    assert (sb' = sb) by congruence. subst sb'.
    specialize (Hw 10 MW). rewrite Va, Vb in Hw. assert (Q : BF [a; a] = BF [a; b]) by (apply Hw; [cbn; tauto|reflexivity]).
    apply Hab. congruence.
Qed.

(** A program meeting the hypotheses: a broadcast, a sum along an axis, and a copy into one tile and back. *)
Example C33_case (v w : list Z -> T) :
  let A := std_tensor [5; 7] [2; 3] 0 in let B := std_tensor [5] [2] 20 in let C := std_tensor [5; 7] [5; 7] 30 in
  let s := put A v (put B w (put C v (fun h => if h =? 40 then BI [0; 0; 0; 0] else BF []))) in
  Forall (call_ok s) [CAddSlice o_one B o_one A 1; CSumSlice o_one A o_zero B 1; CGather A C 40; CRelu C; CScatter C A 40].
Proof.
  intros A B C s.
  assert (W1 : wf_tensor A) by (unfold A; std_wf_tac). assert (W2 : wf_tensor B) by (unfold B; std_wf_tac). assert (W3 : wf_tensor C) by (unfold C; std_wf_tac).
  assert (D1 : disj A B) by (apply std_disj; left; vm_compute; congruence).
  assert (D2 : disj A C) by (apply std_disj; left; vm_compute; congruence).
  assert (D3 : disj B C) by (apply std_disj; left; vm_compute; congruence).
  assert (SO : forall t t' s (f : list Z -> T), wf_tensor t' -> disj t t' -> stored KF s t' -> stored KF (put t f s) t').
  { intros. apply put_stored_other; [apply wf_wft; assumption|apply disj_sym; assumption|assumption]. }
  assert (S1 : stored KF s A) by (apply put_stored, wf_wft; assumption).
  assert (S2 : stored KF s B) by (apply SO; [assumption..|apply put_stored, wf_wft; assumption]).
  assert (S3 : stored KF s C) by (apply SO; [assumption..|apply SO; [assumption..|apply put_stored, wf_wft; assumption]]).
  pose proof (disj_sym _ _ D1). pose proof (disj_sym _ _ D2). pose proof (disj_sym _ _ D3).
  assert (I : forall t t', held KF s t -> held KF s t' -> disj t t' -> inout s [t] t') by (intros t t' X Y Z0; split; [exact Y|constructor; [split; assumption|constructor]]).
  assert (G1 : held KF s A) by (split; assumption). assert (G2 : held KF s B) by (split; assumption). assert (G3 : held KF s C) by (split; assumption).
  assert (SM : slice_match A B 1) by (repeat split; try reflexivity; vm_compute; congruence).
  assert (N1 : ~ In 40 (tile_handles C)) by (vm_compute; intros [Q|[]]; discriminate).
  assert (N2 : ~ In 40 (tile_handles A)) by (vm_compute; intuition discriminate).
  constructor; [split; [apply I; assumption|assumption]|].
  constructor; [split; [apply I; assumption|assumption]|].
  constructor; [cbn [call_ok]; split; [apply I; assumption|split; [reflexivity|split; [reflexivity|split; [assumption|reflexivity]]]]|].
  constructor; [assumption|].
  constructor; [cbn [call_ok]; split; [apply I; assumption|split; [reflexivity|split; [reflexivity|split; [assumption|reflexivity]]]]|constructor].
Qed.
End C34.
