(** * C21 maxsumexp, C22 softmax, C23 logsumexp, C24 sumnorm and normalize

    Over the extended reals of XReals.v (exact arithmetic with -inf for masked scores).
    [pair_match big P axis]: P has shape [2] ++ (shape of big without [axis]) and the matching tiling.
    [pelem s P idx]: the pair (P[0,idx], P[1,idx]).  [then_ r1 r2]: submit r1, then r2, without
    waiting in between. *)
From Coq Require Import Reals Lra Lia.
From Verif Require Import Base Spec Geometry Traits TraitsProofs Runtime Ops TensorSem ElemGeneric OneOut
  KernelsElem ElemOps Axis AccRuns Loops SliceOps SliceGeo SliceProofs SliceReduce RealOps RSum Concrete PropElem PropElemR
  PropSlice SoftmaxOps PairGeo SoftmaxProofs SoftmaxRuns Sequence XReals SoftmaxScalar.
Local Open Scope R_scope.

(** The values of src along [axis], at position idx of the other axes. *)
Definition axis_vals (s : store XR) (src : tensor) (axis : Z) (idx : list Z) : list XR :=
  map (fun k => elem s src (ins axis k idx)) (zrange (zn (t_shape src) axis)).

Section Aux.
Variables (src dst : tensor) (axis : Z).
Hypotheses (HA : wft src) (HB : wft dst) (Hm : pair_match src dst axis).
Lemma sq_del : t_shape (sq dst) = del axis (t_shape src).
Proof. destruct (sq_match _ _ _ Hm) as (_ & E & _). exact E. Qed.
Lemma pax_pos j : (0 <= j < sg_n src axis)%Z -> (0 < ax_len src axis j)%Z.
Proof.
  intros Hj. unfold ax_len. destruct Hm as (Ha & _). pose proof (wf_len _ HA) as Hl.
  assert (Hb : (0 < zn (t_base src) axis)%Z) by (apply pos_zn; [apply wf_pb; assumption|lia]).
  unfold sg_n in Hj. rewrite zn_gridZ in Hj by (assumption || lia).
  set (b := zn (t_base src) axis) in *. set (m := zn (t_shape src) axis) in *.
  pose proof (Z.div_mod (m + b - 1) b ltac:(lia)). pose proof (Z.mod_pos_bound (m + b - 1) b ltac:(lia)).
  assert ((j + 1) * b <= (m + b - 1) / b * b)%Z by (apply Z.mul_le_mono_nonneg_r; lia). lia.
Qed.
Lemma pax_inb idx j l : inb (del axis (t_shape src)) idx -> (0 <= j < sg_n src axis)%Z -> (0 <= l < ax_len src axis j)%Z ->
  inb (t_shape src) (ins axis (j * zn (t_base src) axis + l) idx).
Proof.
  intros Hi Hj Hl. rewrite <- sq_del in Hi. pose proof (pair_match_pairt _ _ _ Hm) as Hp. pose proof (sq_match _ _ _ Hm) as Hq.
  pose proof (sq_wft dst HB Hp) as HQ.
  pose proof (etile_bound (sq dst) idx HQ Hi) as Hit.
  destruct (sg_sizes src (sq dst) axis HA HQ Hq (etile (sq dst) idx) j Hit Hj) as (_ & _ & _ & _ & _ & _ & K).
  destruct (sg_up src (sq dst) axis HA HQ Hq idx j l Hi Hj) as (U1 & U2 & U3); [|assumption].
  cbv zeta in K. rewrite K. exact Hl.
Qed.
Lemma axis_concat s idx :
  flat_map (fun j => map (fun l => elem s src (ins axis (j * zn (t_base src) axis + l) idx)) (zrange (ax_len src axis j))) (zrange (sg_n src axis)) =
  axis_vals s src axis idx.
Proof.
  unfold axis_vals. destruct Hm as (Ha & _). pose proof (wf_len _ HA) as Hl. unfold sg_n, ax_len. rewrite zn_gridZ by (assumption || lia).
  rewrite <- (zrange_tiles (zn (t_shape src) axis) (zn (t_base src) axis)) at 1;
    [|apply pos_zn; [apply wf_ps; assumption|lia]|apply pos_zn; [apply wf_pb; assumption|lia]].
  rewrite !flat_map_concat_map. rewrite concat_map. rewrite map_map. f_equal. apply map_ext. intros j. rewrite map_map. reflexivity.
Qed.
Lemma ax_In idx k : inb (del axis (t_shape src)) idx -> (0 <= k < zn (t_shape src) axis)%Z -> inb (t_shape src) (ins axis k idx).
Proof.
  intros Hi Hk. destruct Hm as (Ha & _). pose proof (wf_len _ HA) as Hl.
  assert (Hb : (0 < zn (t_base src) axis)%Z) by (apply pos_zn; [apply wf_pb; assumption|lia]).
  set (b := zn (t_base src) axis) in *. replace k with (k / b * b + k mod b)%Z by (pose proof (Z.div_mod k b ltac:(lia)); lia).
  pose proof (Z.div_mod k b ltac:(lia)). pose proof (Z.mod_pos_bound k b ltac:(lia)).
  assert (0 <= k / b)%Z by (apply Z.div_pos; lia).
  apply pax_inb; [assumption| |].
  - unfold sg_n. rewrite zn_gridZ by (assumption || lia). fold b. set (m := zn (t_shape src) axis) in *. split; [assumption|].
    apply Z.div_lt_upper_bound; [lia|]. pose proof (Z.div_mod (m + b - 1) b ltac:(lia)). pose proof (Z.mod_pos_bound (m + b - 1) b ltac:(lia)). lia.
  - unfold ax_len. fold b. lia.
Qed.
End Aux.

Lemma axis_vals_In s src axis idx x : In x (axis_vals s src axis idx) <->
  exists k, (0 <= k < zn (t_shape src) axis)%Z /\ x = elem s src (ins axis k idx).
Proof.
  unfold axis_vals. rewrite in_map_iff. split.
  - intros (k & <- & Hk). apply zrange_In in Hk. exists k. auto.
  - intros (k & Hk & ->). exists k. split; [reflexivity|]. apply zrange_In. assumption.
Qed.

(** Every element of src is a finite number or -inf. *)
Definition scores (s : store XR) (src : tensor) : Prop := forall idx, inb (t_shape src) idx -> score (elem s src idx).

(** ** C21 *)
Theorem C21_maxsumexp src dst axis s (L0 : list Z -> list XR) : wf_tensor src -> wf_tensor dst ->
  (pair_match src dst axis -> disj src dst -> stored KF s src -> stored KF s dst ->
   scores s src -> (forall idx, inb (del axis (t_shape src)) idx -> rep (pelem s dst idx) (L0 idx)) ->
   runs (maxsumexp_async src dst axis false) s (fun s' =>
     (forall idx, inb (del axis (t_shape src)) idx ->
        rep (pelem s' dst idx) (L0 idx ++ axis_vals s src axis idx) /\
        (masked (axis_vals s src axis idx) -> pelem s' dst idx = pelem s dst idx)) /\
     frame [dst] s s')) /\
  (~ pair_match src dst axis -> throws (maxsumexp_async (T:=XR) src dst axis false)).
Proof.
  intros Hs Hd. apply wf_wft in Hs, Hd. split.
  - intros Hm Hdj S1 S2 Hsc HL. eapply runs_weaken; [apply maxsumexp_runs; assumption|].
    intros s' _ [H1 H2]. split; [|assumption]. intros idx Hi. rewrite H1 by (rewrite (sq_del src dst axis Hm); assumption).
    rewrite <- (axis_concat src dst axis Hs Hm s idx). 
    apply (fold_rep (sg_n src axis) (ax_len src axis) (fun j l => elem s src (ins axis (j * zn (t_base src) axis + l) idx))); [|auto].
    intros j Hj. split; [apply (pax_pos src dst axis); assumption|]. intros l Hl. apply Hsc. apply (pax_inb src dst axis); assumption.
  - intros Hm. unfold maxsumexp_async. eapply checks_false; [apply pair_check_checks; assumption|assumption].
Qed.

Lemma axis_vals_frame ts s s' src ms axis idx : wft src -> wft ms -> pair_match src ms axis -> inb (del axis (t_shape src)) idx ->
  (forall t, In t ts -> disj src t) -> frame ts s s' -> axis_vals s' src axis idx = axis_vals s src axis idx.
Proof.
  intros Hs Hms Hm Hi Hd Hf. unfold axis_vals. apply map_ext_in. intros k Hk. apply zrange_In in Hk.
  apply (frame_elem ts); auto. apply (ax_In src ms axis); assumption.
Qed.
Lemma pelem_inb P big axis idx : pair_match big P axis -> inb (del axis (t_shape big)) idx ->
  inb (t_shape P) (0%Z :: idx) /\ inb (t_shape P) (1%Z :: idx).
Proof. intros (_ & E & _) Hi. rewrite E. split; constructor; auto; lia. Qed.

(** clear; maxsumexp: the pair of the axis, whatever dst held before *)
Theorem C21_maxsumexp_fresh src dst axis s : wf_tensor src -> wf_tensor dst ->
  pair_match src dst axis -> disj src dst -> stored KF s src -> stored KF s dst -> scores s src ->
  runs (then_ (clear_async dst) (maxsumexp_async src dst axis false)) s (fun s' =>
     (forall idx, inb (del axis (t_shape src)) idx ->
        rep (pelem s' dst idx) (axis_vals s src axis idx) /\
        (masked (axis_vals s src axis idx) -> pelem s' dst idx = (Fin 0, Fin 0))) /\
     frame [dst] s s').
Proof.
  intros Hs Hd Hm Hdj S1 S2 Hsc. assert (Hs' := wf_wft _ Hs). assert (Hd' := wf_wft _ Hd).
  eapply runs_then; [apply C12_clear; assumption|]. intros s1 I1 [C1 F1]. cbn beta in C1.
  assert (Hz : forall idx, inb (del axis (t_shape src)) idx -> pelem s1 dst idx = (Fin 0, Fin 0)).
  { intros idx Hi. destruct (pelem_inb dst src axis idx Hm Hi). unfold pelem. rewrite !C1 by assumption. reflexivity. }
  assert (Hdd : forall t, In t [dst] -> disj src t) by (intros t [<-|[]]; assumption).
  eapply runs_weaken.
  - apply (proj1 (C21_maxsumexp src dst axis s1 (fun _ => []) Hs Hd)); try assumption.
    + eapply tinv_stored; eassumption.
    + eapply tinv_stored; eassumption.
    + intros idx Hi. rewrite (frame_elem [dst] s) by assumption. auto.
    + intros idx Hi. left. rewrite Hz by assumption. split; [intros r []|reflexivity].
  - intros s' _ [H1 H2]. split.
    + intros idx Hi. destruct (H1 idx Hi) as [R1 R2]. rewrite (axis_vals_frame [dst] s s1 src dst) in R1, R2 by assumption.
      rewrite (Hz idx Hi) in R2. auto.
    + eapply frame_weaken; [|eapply frame_trans; eassumption]. intros t [<-|[<-|[]]]; left; reflexivity.
Qed.

(** Two tilings (and two arrangements of tiles and schedules) of the same scores give the
    same pair. *)
Corollary C21_tiling_independent src1 dst1 src2 dst2 axis s1 s2 ts1 ts2 s1' s2' :
  wf_tensor src1 -> wf_tensor dst1 -> wf_tensor src2 -> wf_tensor dst2 ->
  pair_match src1 dst1 axis -> pair_match src2 dst2 axis -> disj src1 dst1 -> disj src2 dst2 ->
  stored KF s1 src1 -> stored KF s1 dst1 -> stored KF s2 src2 -> stored KF s2 dst2 -> scores s1 src1 ->
  t_shape src1 = t_shape src2 -> (forall idx, inb (t_shape src1) idx -> elem s1 src1 idx = elem s2 src2 idx) ->
  then_ (clear_async dst1) (maxsumexp_async src1 dst1 axis false) = Ok ts1 ->
  then_ (clear_async dst2) (maxsumexp_async src2 dst2 axis false) = Ok ts2 ->
  steps (ts1, s1) ([], s1') -> steps (ts2, s2) ([], s2') ->
  forall idx, inb (del axis (t_shape src1)) idx -> pelem s1' dst1 idx = pelem s2' dst2 idx.
Proof.
  intros W1 W2 W3 W4 M1 M2 D1 D2 A1 A2 B1 B2 Hsc Es Ee T1 T2 St1 St2 idx Hi.
  assert (Hsc2 : scores s2 src2) by (intros i Hi2; rewrite <- Es in Hi2; rewrite <- Ee by assumption; apply Hsc; assumption).
  destruct (C21_maxsumexp_fresh src1 dst1 axis s1 W1 W2 M1 D1 A1 A2 Hsc) as (x1 & E1 & _ & _ & R1).
  destruct (C21_maxsumexp_fresh src2 dst2 axis s2 W3 W4 M2 D2 B1 B2 Hsc2) as (x2 & E2 & _ & _ & R2).
  assert (x1 = ts1) by congruence. assert (x2 = ts2) by congruence. subst x1 x2.
  destruct (R1 _ _ St1) as [_ F1]. destruct (R2 _ _ St2) as [_ F2].
  destruct (F1 eq_refl) as (_ & G1 & _). destruct (F2 eq_refl) as (_ & G2 & _).
  destruct (G1 idx Hi) as [P1 Q1]. rewrite Es in Hi. destruct (G2 idx Hi) as [P2 Q2].
  assert (El : axis_vals s1 src1 axis idx = axis_vals s2 src2 axis idx).
  { unfold axis_vals. rewrite Es. apply map_ext_in. intros k Hk. apply zrange_In in Hk. apply Ee.
    rewrite Es. apply (ax_In src2 dst2 axis); try assumption; apply wf_wft; assumption. }
  rewrite El in *. destruct (max_or_masked (axis_vals s2 src2 axis idx)) as [H|[M HM]].
  - apply Forall_forall. intros x Hx. apply axis_vals_In in Hx as (k & Hk & ->). apply Hsc2.
    apply (ax_In src2 dst2 axis); try assumption; apply wf_wft; assumption.
  - rewrite Q1, Q2 by assumption. reflexivity.
  - eapply rep_unique; eassumption.
Qed.

(** ** C22 *)
Lemma del_inb big ms axis idx : pair_match big ms axis -> inb (t_shape big) idx ->
  inb (del axis (t_shape big)) (del axis idx) /\ (0 <= zn idx axis < zn (t_shape big) axis)%Z /\ ins axis (zn idx axis) (del axis idx) = idx.
Proof.
  intros (Ha & _) Hi. pose proof (inb_zlen _ _ Hi). split; [apply inb_del; assumption|]. split; [apply inb_zn; assumption|apply ins_del; lia].
Qed.
Lemma axis_vals_mem s big ms axis idx : pair_match big ms axis -> inb (t_shape big) idx ->
  In (elem s big idx) (axis_vals s big axis (del axis idx)).
Proof.
  intros Hm Hi. destruct (del_inb big ms axis idx Hm Hi) as (_ & Hk & E). apply axis_vals_In. exists (zn idx axis). split; [assumption|]. congruence.
Qed.
Lemma pair_match_ext b1 b2 P axis : t_shape b1 = t_shape b2 -> t_base b1 = t_base b2 -> pair_match b1 P axis -> pair_match b2 P axis.
Proof. intros E1 E2. unfold pair_match. rewrite E1, E2. auto. Qed.

(** clear; maxsumexp; softmax: alpha * exp(x) / sum of exp over the axis *)
Theorem C22_softmax (a : R) ms src dst axis s : wf_tensor ms -> wf_tensor src -> wf_tensor dst ->
  pair_match src ms axis -> t_shape src = t_shape dst -> t_base src = t_base dst ->
  disj ms src -> disj ms dst -> disj src dst -> stored KF s ms -> stored KF s src -> stored KF s dst -> scores s src ->
  runs (then_ (then_ (clear_async ms) (maxsumexp_async src ms axis false)) (softmax_async ms src (Fin a) dst axis)) s (fun s' =>
    (forall idx, inb (t_shape dst) idx ->
       elem s' dst idx = softmax_val a (axis_vals s src axis (del axis idx)) (elem s src idx)) /\
    frame [ms; dst] s s').
Proof.
  intros W1 W2 W3 Hm E1 E2 D1 D2 D3 S1 S2 S3 Hsc. 
  assert (V1 := wf_wft _ W1). assert (V2 := wf_wft _ W2). assert (V3 := wf_wft _ W3).
  eapply runs_then; [apply C21_maxsumexp_fresh; auto using disj_sym|]. intros s1 I1 [R1 F1].
  eapply runs_weaken.
  - apply softmax_runs; try assumption; try (eapply tinv_stored; eassumption). eapply pair_match_ext; eassumption.
  - intros s' _ [H1 H2]. split.
    + intros idx Hi. rewrite H1 by assumption. rewrite <- E1 in Hi.
      rewrite (frame_elem [ms] s) by (auto; intros t [<-|[]]; apply disj_sym; assumption).
      apply smax_val; [|eapply axis_vals_mem; eassumption|apply Hsc; assumption].
      apply R1. apply (del_inb src ms axis idx Hm Hi).
    + eapply frame_trans in H2; [|exact F1]. exact H2.
Qed.

(** clear; maxsumexp; softmax_inplace *)
Theorem C22_softmax_inplace (a : R) ms dst axis s : wf_tensor ms -> wf_tensor dst ->
  pair_match dst ms axis -> disj ms dst -> stored KF s ms -> stored KF s dst -> scores s dst ->
  runs (then_ (then_ (clear_async ms) (maxsumexp_async dst ms axis false)) (softmax_inplace_async ms (Fin a) dst axis)) s (fun s' =>
    (forall idx, inb (t_shape dst) idx ->
       elem s' dst idx = softmax_val a (axis_vals s dst axis (del axis idx)) (elem s dst idx)) /\
    frame [ms; dst] s s').
Proof.
  intros W1 W3 Hm D1 S1 S3 Hsc. 
  assert (V1 := wf_wft _ W1). assert (V3 := wf_wft _ W3).
  eapply runs_then; [apply C21_maxsumexp_fresh; auto using disj_sym|]. intros s1 I1 [R1 F1].
  eapply runs_weaken.
  - apply softmax_inplace_runs; try assumption; eapply tinv_stored; eassumption.
  - intros s' _ [H1 H2]. split.
    + intros idx Hi. rewrite H1 by assumption. 
      rewrite (frame_elem [ms] s) by (auto; intros t [<-|[]]; apply disj_sym; assumption).
      apply smax_val; [|eapply axis_vals_mem; eassumption|apply Hsc; assumption].
      apply R1. apply (del_inb dst ms axis idx Hm Hi).
    + eapply frame_trans in H2; [|exact F1]. exact H2.
Qed.

(** What an element of [src] becomes after the three steps is a probability: for alpha = 1
    entries along the axis are non-negative, positive where the score is not masked, and add up
    to one unless everything is masked. *)
Definition distribution (s s' : store XR) (src dst : tensor) (axis : Z) : Prop :=
  forall idx, inb (del axis (t_shape src)) idx -> exists p : Z -> R,
    (forall k, (0 <= k < zn (t_shape src) axis)%Z ->
       elem s' dst (ins axis k idx) = Fin (p k) /\ 0 <= p k /\ (p k = 0 <-> elem s src (ins axis k idx) = NInf)) /\
    ((exists k, (0 <= k < zn (t_shape src) axis)%Z /\ elem s src (ins axis k idx) <> NInf) ->
       Rsum (zn (t_shape src) axis) p = 1).

Lemma softmax_distribution s s' src ms dst axis : wft src -> wft ms -> pair_match src ms axis -> t_shape src = t_shape dst -> scores s src ->
  (forall idx, inb (t_shape dst) idx -> elem s' dst idx = softmax_val 1 (axis_vals s src axis (del axis idx)) (elem s src idx)) ->
  distribution s s' src dst axis.
Proof.
  intros Hs Hms Hm E1 Hsc H idx Hi. exists (fun k => fin_of (elem s' dst (ins axis k idx))).
  assert (Ha : (0 <= axis <= zlen idx)%Z).
  { destruct Hm as (Ha & _). apply inb_zlen in Hi. rewrite zlen_del in Hi by assumption. lia. }
  assert (E : forall k, (0 <= k < zn (t_shape src) axis)%Z -> elem s' dst (ins axis k idx) =
    softmax_val 1 (axis_vals s src axis idx) (elem s src (ins axis k idx)) /\ score (elem s src (ins axis k idx)) /\ In (elem s src (ins axis k idx)) (axis_vals s src axis idx)).
  { intros k Hk. assert (Hik : inb (t_shape src) (ins axis k idx)) by (apply (ax_In src ms axis); assumption).
    rewrite H by (rewrite <- E1; assumption). rewrite del_ins by assumption. split; [reflexivity|]. split; [apply Hsc; assumption|].
    apply axis_vals_In. exists k. auto. }
  assert (Hall : Forall score (axis_vals s src axis idx)).
  { apply Forall_forall. intros x Hx. apply axis_vals_In in Hx as (k & Hk & ->). apply E. assumption. }
  destruct (max_or_masked _ Hall) as [Hmk|[M HM]].
  - split.
    + intros k Hk. destruct (E k Hk) as (Ek & Sk & Ik). rewrite Ek. destruct (elem s src (ins axis k idx)) as [r| | |]; try destruct Sk.
      * destruct (Hmk r Ik).
      * cbn. split; [reflexivity|]. split; [lra|]. tauto.
    + intros (k & Hk & N). destruct (E k Hk) as (Ek & Sk & Ik). destruct (elem s src (ins axis k idx)) as [r| | |]; try destruct Sk; [destruct (Hmk r Ik)|congruence].
  - pose proof (sumexp_pos _ _ HM) as HS. split.
    + intros k Hk. destruct (E k Hk) as (Ek & Sk & Ik). rewrite Ek. destruct (elem s src (ins axis k idx)) as [r| | |]; try destruct Sk; cbn.
      * assert (0 < 1 * (exp r / sumexp (axis_vals s src axis idx))).
        { rewrite Rmult_1_l. apply Rdiv_lt_0_compat; [apply exp_pos|assumption]. }
        split; [reflexivity|]. split; [lra|]. split; [lra|discriminate].
      * split; [reflexivity|]. split; [lra|]. tauto.
    + intros _. rewrite <- (softmax_sum 1 _ _ HM). unfold Rsum. unfold axis_vals at 1. rewrite Rsuml_map. apply Rsuml_ext. intros k Hk.
      apply zrange_In in Hk. destruct (E k Hk) as (-> & _). reflexivity.
Qed.

Theorem C22_softmax_distribution ms src dst axis s : wf_tensor ms -> wf_tensor src -> wf_tensor dst ->
  pair_match src ms axis -> t_shape src = t_shape dst -> t_base src = t_base dst ->
  disj ms src -> disj ms dst -> disj src dst -> stored KF s ms -> stored KF s src -> stored KF s dst -> scores s src ->
  runs (then_ (then_ (clear_async ms) (maxsumexp_async src ms axis false)) (softmax_async ms src (Fin 1) dst axis)) s (fun s' =>
    distribution s s' src dst axis).
Proof.
  intros W1 W2 W3 Hm E1 E2 D1 D2 D3 S1 S2 S3 Hsc.
  eapply runs_weaken; [apply C22_softmax; assumption|]. intros s' _ [H1 _].
  apply (softmax_distribution s s' src ms dst axis); auto using wf_wft.
Qed.
Theorem C22_softmax_inplace_distribution ms dst axis s : wf_tensor ms -> wf_tensor dst ->
  pair_match dst ms axis -> disj ms dst -> stored KF s ms -> stored KF s dst -> scores s dst ->
  runs (then_ (then_ (clear_async ms) (maxsumexp_async dst ms axis false)) (softmax_inplace_async ms (Fin 1) dst axis)) s (fun s' =>
    distribution s s' dst dst axis).
Proof.
  intros W1 W3 Hm D1 S1 S3 Hsc.
  eapply runs_weaken; [apply C22_softmax_inplace; assumption|]. intros s' _ [H1 _].
  apply (softmax_distribution s s' dst ms dst axis); auto using wf_wft.
Qed.

(** Adding a constant to all scores of a slice changes nothing: if src holds x + c with c
    constant along the axis, the result is that for x. *)
Theorem C22_softmax_shift (a : R) ms src dst axis s (x : list Z -> XR) (c : list Z -> R) : wf_tensor ms -> wf_tensor src -> wf_tensor dst ->
  pair_match src ms axis -> t_shape src = t_shape dst -> t_base src = t_base dst ->
  disj ms src -> disj ms dst -> disj src dst -> stored KF s ms -> stored KF s src -> stored KF s dst ->
  (forall idx, inb (t_shape src) idx -> score (x idx) /\ elem s src idx = x_add (x idx) (Fin (c (del axis idx)))) ->
  runs (then_ (then_ (clear_async ms) (maxsumexp_async src ms axis false)) (softmax_async ms src (Fin a) dst axis)) s (fun s' =>
    forall idx, inb (t_shape dst) idx ->
      elem s' dst idx = softmax_val a (map (fun k => x (ins axis k (del axis idx))) (zrange (zn (t_shape src) axis))) (x idx)).
Proof.
  intros W1 W2 W3 Hm E1 E2 D1 D2 D3 S1 S2 S3 Hx.
  eapply runs_weaken; [apply C22_softmax; try assumption|].
  - intros idx Hi. destruct (Hx idx Hi) as [Hs ->]. destruct (x idx); auto.
  - intros s' _ [H1 _] idx Hi. rewrite H1 by assumption. rewrite <- E1 in Hi. destruct (Hx idx Hi) as [Hs ->].
    rewrite <- (softmax_shift a _ (x idx) (c (del axis idx))). f_equal. unfold axis_vals. rewrite map_map. apply map_ext_in. intros k Hk.
    apply zrange_In in Hk. destruct (del_inb src ms axis idx Hm Hi) as (Hd & _).
    assert (Hik : inb (t_shape src) (ins axis k (del axis idx))) by (apply (ax_In src ms axis); auto using wf_wft).
    rewrite (proj2 (Hx _ Hik)). rewrite del_ins; [reflexivity|]. destruct Hm as (Ha & _). apply inb_zlen in Hd. rewrite zlen_del in Hd by assumption. lia.
Qed.

Theorem C22_throws (a : XR) ms src dst axis : wf_tensor ms -> wf_tensor src -> wf_tensor dst ->
  (~ (pair_match dst ms axis /\ t_shape src = t_shape dst /\ t_base src = t_base dst) -> throws (softmax_async ms src a dst axis)) /\
  (~ pair_match dst ms axis -> throws (softmax_inplace_async ms a dst axis)).
Proof.
  intros W1 W2 W3. apply wf_wft in W1, W2, W3. split; intros H.
  - unfold softmax_async. eapply checks_false; [apply softmax_checks; assumption|assumption].
  - unfold softmax_inplace_async. eapply checks_false; [apply pair_check_checks; assumption|assumption].
Qed.

(** ** C23 *)
Theorem C23_logsumexp src ms dst axis s : wf_tensor ms -> wf_tensor src -> wf_tensor dst ->
  pair_match src ms axis -> lse_match ms dst -> disj ms src -> disj ms dst -> disj src dst ->
  stored KF s ms -> stored KF s src -> stored KF s dst -> scores s src ->
  runs (then_ (then_ (clear_async ms) (maxsumexp_async src ms axis false)) (logsumexp_async ms dst)) s (fun s' =>
    (forall idx, inb (t_shape dst) idx ->
       elem s' dst idx = x_log (Fin (sumexp (axis_vals s src axis idx)))) /\
    frame [ms; dst] s s').
Proof.
  intros W1 W2 W3 Hm E1 D1 D2 D3 S1 S2 S3 Hsc.
  assert (V1 := wf_wft _ W1). assert (V2 := wf_wft _ W2). assert (V3 := wf_wft _ W3).
  eapply runs_then; [apply C21_maxsumexp_fresh; auto using disj_sym|]. intros s1 I1 [R1 F1].
  eapply runs_weaken.
  - apply logsumexp_runs; try assumption; eapply tinv_stored; eassumption.
  - intros s' _ [H1 H2]. split.
    + intros idx Hi. rewrite H1 by assumption.
      assert (Hi' : inb (del axis (t_shape src)) idx).
      { destruct Hm as (_ & X & _). destruct E1 as (Y & _). rewrite X in Y. inversion Y. congruence. }
      destruct (R1 idx Hi') as [Rp Rz]. apply (lse_val (pelem s1 ms idx)); [assumption| |intros Hmk; rewrite Rz by assumption; reflexivity].
      apply Forall_forall. intros x Hx. apply axis_vals_In in Hx as (k & Hk & ->). apply Hsc. apply (ax_In src ms axis); assumption.
    + eapply frame_trans in H2; [|exact F1]. exact H2.
Qed.
(** for a slice with at least one unmasked score the result is a finite number, ln(sum exp) *)
Lemma C23_finite l r : In (Fin r) l -> x_log (Fin (sumexp l)) = Fin (ln (sumexp l)) /\ 0 < sumexp l.
Proof.
  intros H. assert (0 < sumexp l).
  { unfold sumexp. apply in_split in H as (l1 & l2 & ->). rewrite Rsuml_app, Rsuml_cons.
    pose proof (Rsuml_nonneg l1 (expm 0) (fun x _ => expm_nonneg 0 x)).
    pose proof (Rsuml_nonneg l2 (expm 0) (fun x _ => expm_nonneg 0 x)). pose proof (exp_pos (r - 0)). cbn [expm]. lra. }
  split; [apply x_log_fin; assumption|assumption].
Qed.
Theorem C23_throws ms dst : wf_tensor ms -> wf_tensor dst -> ~ lse_match ms dst -> throws (logsumexp_async (T:=XR) ms dst).
Proof.
  intros W1 W2 H. apply wf_wft in W1, W2. unfold logsumexp_async. eapply checks_false; [apply logsumexp_checks; assumption|assumption].
Qed.

(** ** C24 *)
(** src holds the finite numbers v *)
Definition holds (s : store XR) (src : tensor) (v : list Z -> R) : Prop := forall idx, inb (t_shape src) idx -> elem s src idx = Fin (v idx).

Theorem C24_sumnorm src dst axis s v : wf_tensor src -> wf_tensor dst ->
  (pair_match src dst axis -> disj src dst -> stored KF s src -> stored KF s dst -> holds s src v ->
   runs (sumnorm_async src dst axis) s (fun s' =>
     (forall idx, inb (del axis (t_shape src)) idx ->
        pelem s' dst idx = (Fin (Rsum (zn (t_shape src) axis) (fun k => v (ins axis k idx))),
                            Fin (sqrt (Rsum (zn (t_shape src) axis) (fun k => v (ins axis k idx) * v (ins axis k idx)))))) /\
     frame [dst] s s')) /\
  (~ pair_match src dst axis -> throws (sumnorm_async (T:=XR) src dst axis)).
Proof.
  intros Hs Hd. apply wf_wft in Hs, Hd. split.
  - intros Hm Hdj S1 S2 Hv. eapply runs_weaken; [apply sumnorm_runs; assumption|].
    intros s' _ [H1 H2]. split; [|assumption]. intros idx Hi. rewrite H1 by (rewrite (sq_del src dst axis Hm); assumption).
    pose proof (sq_match _ _ _ Hm) as Hq.
    rewrite <- (axis_sum src (sq dst) axis (fun k => v (ins axis k idx))) by assumption.
    rewrite <- (axis_sum src (sq dst) axis (fun k => v (ins axis k idx) * v (ins axis k idx))) by assumption.
    rewrite (fold_left_ext _ (fun p j => sn_upd (sn (ax_len src axis j) (fun l => Fin (v (ins axis (j * zn (t_base src) axis + l) idx))) p))).
    + change (o_zero, o_zero) with (Fin 0, Fin 0). rewrite (fold_sn (ax_len src axis) (fun j l => v (ins axis (j * zn (t_base src) axis + l) idx))).
      * rewrite Rmult_0_l, !Rplus_0_l. reflexivity.
      * pose proof (sg_n_pos src (sq dst) axis Hs Hq). lia.
      * lra.
      * intros j Hj. pose proof (pax_pos src dst axis Hs Hm j Hj). lia.
    + intros p j Hj. apply zrange_In in Hj. f_equal. apply sn_ext. intros l Hl. apply Hv. apply (pax_inb src dst axis); assumption.
  - intros Hm. unfold sumnorm_async. eapply checks_false; [apply pair_check_checks; assumption|assumption].
Qed.

(** sumnorm; normalize: layer normalisation along the axis.  [gb] holds (gamma, beta). *)
Theorem C24_normalize_partial gb ms dst axis s v ga be eps : wf_tensor gb -> wf_tensor ms -> wf_tensor dst ->
  t_shape gb = [2%Z] -> ntiles gb = 1%Z -> 0 < eps -> pair_match dst ms axis ->
  disj gb ms -> disj gb dst -> disj ms dst -> stored KF s gb -> stored KF s ms -> stored KF s dst -> holds s dst v ->
  elem s gb [0%Z] = Fin ga -> elem s gb [1%Z] = Fin be ->
  let n := zn (t_shape dst) axis in
  runs (then_ (sumnorm_async dst ms axis) (normalize_async gb ms dst n (Fin eps) axis)) s (fun s' =>
    (forall idx, inb (t_shape dst) idx ->
       let x := fun k => v (ins axis k (del axis idx)) in
       ((exists k, (0 <= k < n)%Z /\ x k <> 0) ->
          elem s' dst idx = Fin (ga * ((v idx - Rmean n x) / sqrt (Rvar n x + eps)) + be)) /\
       (** an all-zero slice gives 0/0 *)
       ((forall k, (0 <= k < n)%Z -> x k = 0) -> elem s' dst idx = NaN)) /\
    frame [ms; dst] s s').
Proof.
  intros W1 W2 W3 E1 E2 He Hm D1 D2 D3 S1 S2 S3 Hv Hg Hb n.
  assert (V1 := wf_wft _ W1). assert (V2 := wf_wft _ W2). assert (V3 := wf_wft _ W3).
  assert (Hn : (0 < n)%Z) by (destruct Hm as (Ha & _); apply pos_zn; [apply wf_ps; assumption|assumption]).
  eapply runs_then; [apply (proj1 (C24_sumnorm dst ms axis s v W3 W2)); auto using disj_sym|]. intros s1 I1 [R1 F1].
  eapply runs_weaken.
  - apply normalize_runs; try assumption; try (eapply tinv_stored; eassumption).
    unfold o_geb. cbn. rewrite Rltb_ge by lra. rewrite (proj2 (Reqb_false eps 0)) by lra. reflexivity.
  - intros s' _ [H1 H2]. split.
    + intros idx Hi x. rewrite H1 by assumption.
      assert (Hgb : forall c, (0 <= c < 2)%Z -> inb (t_shape gb) [c]) by (intros c Hc; rewrite E1; repeat constructor; lia).
      assert (Dg : forall t, In t [ms] -> disj gb t) by (intros t [<-|[]]; assumption).
      assert (Dd : forall t, In t [ms] -> disj dst t) by (intros t [<-|[]]; apply disj_sym; assumption).
      rewrite (frame_elem [ms] s s1 gb [0%Z]) by (auto; apply Hgb; lia). rewrite (frame_elem [ms] s s1 gb [1%Z]) by (auto; apply Hgb; lia).
      rewrite (frame_elem [ms] s s1 dst idx) by auto. rewrite Hg, Hb, Hv by assumption.
      destruct (del_inb dst ms axis idx Hm Hi) as (Hd & _). rewrite R1 by assumption. fold n. split.
      * intros Hx. apply (nrmz_ok n x eps ga be (v idx)); assumption.
      * intros Hx. rewrite (Rsum_ext n _ (fun _ => 0)) by assumption.
        rewrite (Rsum_ext n (fun k => v (ins axis k (del axis idx)) * v (ins axis k (del axis idx))) (fun _ => 0))
          by (intros k Hk; fold (x k); rewrite Hx by assumption; ring).
        rewrite Rsum_const by lia. rewrite Rmult_0_r, sqrt_0. apply nrmz_zero; assumption.
    + eapply frame_trans in H2; [|exact F1]. exact H2.
Qed.
Theorem C24_normalize_throws gb ms dst axis n eps : wf_tensor gb -> wf_tensor ms -> wf_tensor dst ->
  ~ (t_shape gb = [2%Z] /\ ntiles gb = 1%Z /\ (0 < n)%Z /\ 0 < eps /\ pair_match dst ms axis) ->
  throws (normalize_async gb ms dst n (Fin eps) axis).
Proof.
  intros W1 W2 W3 H. apply wf_wft in W1, W2, W3. unfold normalize_async. eapply checks_false; [apply normalize_checks; assumption|].
  intros (A & B & C & D & E). apply H. repeat (split; [assumption|]). split; [|assumption].
  unfold o_geb in D. cbn in D. destruct (Rltb eps 0) eqn:L; [discriminate|]. cbn in D. apply Rltb_false in L. apply Reqb_false in D. lra.
Qed.

(** ** The hypotheses are satisfiable: a 5x3 tensor in tiles 2x2, axis 0, with masked scores
    (column 2 is fully masked) *)
Definition sx_src := std_tensor [5; 3]%Z [2; 2]%Z 0%Z.
Definition sx_ms := std_tensor [2; 3]%Z [2; 2]%Z 100%Z.
Definition sx_dst := std_tensor [5; 3]%Z [2; 2]%Z 200%Z.
Definition sx_out := std_tensor [3]%Z [2]%Z 300%Z.
Definition sx_gb := std_tensor [2]%Z [2]%Z 400%Z.
Definition sx_val (i : list Z) : XR :=
  if (zn i 1 =? 2)%Z then NInf else if (zn i 0 =? 1)%Z then NInf else Fin (IZR (zn i 0 + 10 * zn i 1)).
Definition sx_num (i : list Z) : R := IZR (zn i 0 + 10 * zn i 1).
Definition sx_s0 : store XR := put sx_ms (fun _ => NaN) (put sx_dst (fun i => Fin (sx_num i)) (put sx_out (fun _ => NaN)
  (put sx_gb (fun i => Fin (IZR (zn i 0 + 3))) (fun _ => BF [])))).
Definition sx_s : store XR := put sx_src sx_val sx_s0.

Ltac sx_stored := repeat (apply put_stored_other; [apply wf_wft; std_wf_tac|apply std_disj; vm_compute; (right; discriminate) || (left; discriminate)|]);
  apply put_stored; apply wf_wft; std_wf_tac.
Example sx_hyps :
  (wf_tensor sx_src /\ wf_tensor sx_ms /\ wf_tensor sx_dst /\ wf_tensor sx_out /\ wf_tensor sx_gb) /\
  (pair_match sx_src sx_ms 0 /\ pair_match sx_dst sx_ms 0 /\ lse_match sx_ms sx_out) /\
  (disj sx_ms sx_src /\ disj sx_ms sx_dst /\ disj sx_src sx_dst /\ disj sx_ms sx_out /\ disj sx_src sx_out /\ disj sx_gb sx_ms /\ disj sx_gb sx_dst) /\
  (stored KF sx_s sx_src /\ stored KF sx_s sx_ms /\ stored KF sx_s sx_dst /\ stored KF sx_s sx_out /\ stored KF sx_s sx_gb) /\
  scores sx_s sx_src /\ holds sx_s sx_dst sx_num /\ ntiles sx_gb = 1%Z /\
  elem sx_s sx_gb [0%Z] = Fin 3 /\ elem sx_s sx_gb [1%Z] = Fin 4.
Proof.
  split; [repeat split; std_wf_tac|].
  split; [unfold pair_match, lse_match; repeat split; try reflexivity; vm_compute; discriminate|].
  split; [repeat split; apply std_disj; vm_compute; (right; discriminate) || (left; discriminate)|].
  split; [unfold sx_s, sx_s0; repeat split; sx_stored|].
  split. { intros idx Hi. unfold sx_s. rewrite put_elem by (assumption || (apply wf_wft; std_wf_tac)). unfold sx_val.
    destruct (zn idx 1 =? 2)%Z; [exact I|]. destruct (zn idx 0 =? 1)%Z; exact I. }
  assert (Dj : forall s1 b1 n1 s2 b2 n2, (n1 + prodZ (gridZ s1 b1) <= n2 \/ n2 + prodZ (gridZ s2 b2) <= n1)%Z -> disj (std_tensor s1 b1 n1) (std_tensor s2 b2 n2)) by (intros; apply std_disj; assumption).
  assert (G : forall c, (0 <= c < 2)%Z -> elem sx_s sx_gb [c] = Fin (IZR (c + 3))).
  { intros c Hc. assert (Hi : inb (t_shape sx_gb) [c]) by (repeat constructor; lia). unfold sx_s, sx_s0, put at 1 2 3 4.
    repeat (rewrite put_elem_other; [|apply wf_wft; std_wf_tac|apply Dj; vm_compute; (right; discriminate) || (left; discriminate)|assumption]).
    rewrite put_elem by (assumption || (apply wf_wft; std_wf_tac)). reflexivity. }
  split. { intros idx Hi. unfold sx_s, sx_s0, put at 1 2.
    repeat (rewrite put_elem_other; [|apply wf_wft; std_wf_tac|apply Dj; vm_compute; (right; discriminate) || (left; discriminate)|assumption]).
    rewrite put_elem by (assumption || (apply wf_wft; std_wf_tac)). reflexivity. }
  split; [reflexivity|]. split; [apply (G 0%Z); lia|apply (G 1%Z); lia].
Qed.
Lemma sx_at i k : (0 <= i < 5)%Z -> (0 <= k < 3)%Z -> elem sx_s sx_src [i; k] = sx_val [i; k].
Proof. intros. unfold sx_s. apply put_elem; [apply wf_wft; std_wf_tac|repeat constructor; lia]. Qed.
(** column 0 holds 0, -inf, 2, 3, 4 *)
Example sx_softmax : runs (then_ (then_ (clear_async sx_ms) (maxsumexp_async sx_src sx_ms 0%Z false)) (softmax_async sx_ms sx_src (Fin 1) sx_dst 0%Z)) sx_s
  (fun s' => elem s' sx_dst [3; 0]%Z = Fin (exp 3 / (exp 0 + exp 2 + exp 3 + exp 4)) /\ elem s' sx_dst [1; 0]%Z = Fin 0 /\ elem s' sx_dst [4; 2]%Z = Fin 0).
Proof.
  destruct sx_hyps as ((A1 & A2 & A3 & _) & (B1 & B2 & _) & (C1 & C2 & C3 & _) & (D1 & D2 & D3 & _) & E1 & _).
  eapply runs_weaken; [apply C22_softmax; try assumption; reflexivity|]. intros s' _ [H _].
  rewrite !H by (repeat constructor; lia). unfold axis_vals. change (zn (t_shape sx_src) 0) with 5%Z.
  change (zrange 5) with [0%Z; 1%Z; 2%Z; 3%Z; 4%Z].
  change (del 0 [3; 0]%Z) with [0%Z]. change (del 0 [1; 0]%Z) with [0%Z]. change (del 0 [4; 2]%Z) with [2%Z]. cbn [map].
  change (ins 0 0 [0%Z]) with [0; 0]%Z. change (ins 0 1 [0%Z]) with [1; 0]%Z. change (ins 0 2 [0%Z]) with [2; 0]%Z.
  change (ins 0 3 [0%Z]) with [3; 0]%Z. change (ins 0 4 [0%Z]) with [4; 0]%Z.
  rewrite !sx_at by lia. split; [|split; reflexivity].
  change (sx_val [0; 0]%Z) with (Fin 0). change (sx_val [1; 0]%Z) with NInf. change (sx_val [2; 0]%Z) with (Fin 2).
  change (sx_val [3; 0]%Z) with (Fin 3). change (sx_val [4; 0]%Z) with (Fin 4).
  cbn [softmax_val]. unfold sumexp, Rsuml. cbn [fold_right expm]. rewrite !Rminus_0_r. f_equal.
  rewrite Rmult_1_l. f_equal. ring.
Qed.
Example sx_logsumexp : runs (then_ (then_ (clear_async sx_ms) (maxsumexp_async sx_src sx_ms 0%Z false)) (logsumexp_async sx_ms sx_out)) sx_s
  (fun s' => elem s' sx_out [2%Z] = NInf /\ exists l, elem s' sx_out [0%Z] = Fin l).
Proof.
  destruct sx_hyps as ((A1 & A2 & A3 & A4 & _) & (B1 & B2 & B3) & (C1 & C2 & C3 & C4 & C5 & _) & (D1 & D2 & D3 & D4 & _) & E1 & _).
  eapply runs_weaken; [apply C23_logsumexp; try assumption|]. intros s' _ [H _].
  rewrite !H by (repeat constructor; lia). unfold axis_vals. change (zn (t_shape sx_src) 0) with 5%Z.
  change (zrange 5) with [0%Z; 1%Z; 2%Z; 3%Z; 4%Z]. cbn [map].
  split.
  - change (ins 0 0 [2%Z]) with [0; 2]%Z. change (ins 0 1 [2%Z]) with [1; 2]%Z. change (ins 0 2 [2%Z]) with [2; 2]%Z.
    change (ins 0 3 [2%Z]) with [3; 2]%Z. change (ins 0 4 [2%Z]) with [4; 2]%Z. rewrite !sx_at by lia.
    change (sumexp _) with (sumexp [NInf; NInf; NInf; NInf; NInf]). unfold sumexp, Rsuml. cbn [fold_right expm x_log]. rewrite !Rplus_0_r.
    rewrite Rltb_ge by lra. rewrite (proj2 (Reqb_true 0 0) eq_refl). reflexivity.
  - eexists. eapply C23_finite. left. change (ins 0 0 [0%Z]) with [0; 0]%Z. rewrite sx_at by lia. reflexivity.
Qed.
Example sx_normalize : runs (then_ (sumnorm_async sx_dst sx_ms 0%Z) (normalize_async sx_gb sx_ms sx_dst 5%Z (Fin 2) 0%Z)) sx_s
  (fun s' => elem s' sx_dst [3; 0]%Z = Fin (3 * ((3 - 2) / sqrt (2 + 2)) + 4)).
Proof.
  destruct sx_hyps as ((A1 & A2 & A3 & A4 & A5) & (B1 & B2 & B3) & (C1 & C2 & C3 & C4 & C5 & C6 & C7) & (D1 & D2 & D3 & D4 & D5) & E1 & E2 & E3 & E4 & E5).
  eapply runs_weaken; [apply (C24_normalize_partial sx_gb sx_ms sx_dst 0%Z sx_s sx_num 3 4 2); try assumption; try reflexivity; lra|]. intros s' _ [H _].
  destruct (H [3; 0]%Z ltac:(repeat constructor; lia)) as [H1 _]. rewrite H1.
  - change (zn (t_shape sx_dst) 0) with 5%Z. change (del 0 [3; 0]%Z) with [0%Z].
    assert (Em : Rmean 5 (fun k => sx_num (ins 0 k [0%Z])) = 2).
    { unfold Rmean, Rsum. change (zrange 5) with [0%Z; 1%Z; 2%Z; 3%Z; 4%Z]. unfold Rsuml. cbn [fold_right].
      change (sx_num (ins 0 0 [0%Z])) with 0. change (sx_num (ins 0 1 [0%Z])) with 1. change (sx_num (ins 0 2 [0%Z])) with 2.
      change (sx_num (ins 0 3 [0%Z])) with 3. change (sx_num (ins 0 4 [0%Z])) with 4. lra. }
    assert (Ev : Rvar 5 (fun k => sx_num (ins 0 k [0%Z])) = 2).
    { unfold Rvar. rewrite Em. unfold Rsum. change (zrange 5) with [0%Z; 1%Z; 2%Z; 3%Z; 4%Z]. unfold Rsuml. cbn [fold_right].
      change (sx_num (ins 0 0 [0%Z])) with 0. change (sx_num (ins 0 1 [0%Z])) with 1. change (sx_num (ins 0 2 [0%Z])) with 2.
      change (sx_num (ins 0 3 [0%Z])) with 3. change (sx_num (ins 0 4 [0%Z])) with 4. lra. }
    rewrite Em, Ev. change (sx_num [3; 0]%Z) with 3. reflexivity.
  - exists 1%Z. split; [vm_compute; split; [discriminate|reflexivity]|]. change (1 <> 0). lra.
Qed.
