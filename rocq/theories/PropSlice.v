(** * C16 (sum_slice), C18 (norm_slice), C19 (sumprod_slice), C20 (slice broadcasts) over the reals

    [slice_match big small axis]: small has the shape and tiling of big with dimension [axis]
    dropped.  [del axis idx] drops coordinate [axis]; [ins axis k idx] inserts k there. *)
From Coq Require Import Reals Lra Lia.
From Verif Require Import Base Spec Geometry Traits TraitsProofs Runtime Ops TensorSem ElemGeneric OneOut
  KernelsElem ElemOps Axis AccRuns Loops SliceOps SliceGeo SliceProofs SliceReduce RealOps RSum Concrete PropElem PropElemR.
Local Open Scope R_scope.

(** ** Scalars *)
Lemma bc_R (beta x old : R) : bc beta x old = x + beta * old.
Proof. unfold bc. reqb; cbn; subst; lra. Qed.

Lemma ksum_R n f : (0 <= n)%Z -> ksum n f = (Rsum n f, 0).
Proof.
  intros Hn. pattern n. apply natlike_ind; [reflexivity| |assumption]. intros k Hk IH. unfold Z.succ, ksum.
  rewrite zrange_succ by assumption. rewrite fold_left_app. fold (ksum k f). rewrite IH.
  rewrite Rsum_succ by assumption. cbn. f_equal; lra.
Qed.
Lemma kres_R alpha beta S v : kres alpha beta (S, 0) v = beta * v + alpha * S.
Proof. unfold kres. reqb; cbn; subst; lra. Qed.

Lemma fold_beta (alpha beta : R) (S : Z -> R) g v : (0 < g)%Z ->
  fold_left (fun v j => bj beta j * v + alpha * S j) (zrange g) v = beta * v + alpha * Rsum g S.
Proof.
  intros Hg. assert (G : forall k, (0 <= k)%Z -> fold_left (fun v j => bj beta j * v + alpha * S j) (zrange (k + 1)) v
     = beta * v + alpha * Rsum (k + 1) S).
  { intros k0 Hk0. pattern k0. apply natlike_ind; [| |assumption].
    - rewrite Rsum_succ by lia. rewrite Rsum_neg by lia. change (zrange (0 + 1)) with [0%Z]. cbn [fold_left].
      change (bj beta 0%Z) with beta. lra.
    - intros k Hk IH. unfold Z.succ. rewrite (zrange_succ (k + 1)) by lia. rewrite fold_left_app, IH. cbn [fold_left].
      rewrite (Rsum_succ (k + 1)) by lia. unfold bj. destruct (Z.eqb_spec (k + 1) 0); [lia|]. cbn. lra. }
  specialize (G (g - 1)%Z ltac:(lia)). replace (g - 1 + 1)%Z with g in G by ring. exact G.
Qed.

Lemma ax_pos src dst axis j : wft src -> slice_match src dst axis -> (0 <= j < sg_n src axis)%Z -> (0 <= ax_len src axis j)%Z.
Proof.
  intros Hs Hm Hj. unfold ax_len. destruct Hm as (Ha & _). pose proof (wf_len _ Hs) as Hl.
  assert (Hb : (0 < zn (t_base src) axis)%Z) by (apply pos_zn; [apply wf_pb; assumption|lia]).
  unfold sg_n in Hj. rewrite zn_gridZ in Hj by (assumption || lia).
  set (b := zn (t_base src) axis) in *. set (m := zn (t_shape src) axis) in *.
  pose proof (Z.div_mod (m + b - 1) b ltac:(lia)). pose proof (Z.mod_pos_bound (m + b - 1) b ltac:(lia)).
  assert ((j + 1) * b <= (m + b - 1) / b * b)%Z by (apply Z.mul_le_mono_nonneg_r; lia).
  lia.
Qed.

(** sum over tiles of tile sums = sum over the axis *)
Lemma axis_sum src dst axis (f : Z -> R) : wft src -> slice_match src dst axis ->
  Rsum (sg_n src axis) (fun j => Rsum (ax_len src axis j) (fun l => f (j * zn (t_base src) axis + l)%Z)) =
  Rsum (zn (t_shape src) axis) f.
Proof.
  intros Hs (Ha & _). pose proof (wf_len _ Hs) as Hl. unfold sg_n, ax_len. rewrite zn_gridZ by (assumption || lia).
  apply Rsum_tiles; apply pos_zn; try apply wf_ps; try apply wf_pb; try assumption; lia.
Qed.

Lemma fold_left_ext2 {A B} (f g : A -> B -> A) l a : (forall a x, In x l -> f a x = g a x) -> fold_left f l a = fold_left g l a.
Proof. apply fold_left_ext. Qed.

(** ** C16 *)
Theorem C16_sum_slice (alpha beta : R) src dst axis s : wf_tensor src -> wf_tensor dst ->
  (slice_match src dst axis -> disj src dst -> stored KF s src -> stored KF s dst ->
   runs (sum_slice_async alpha src beta dst axis false) s (fun s' =>
     (forall idx, inb (t_shape dst) idx ->
        elem s' dst idx = beta * elem s dst idx +
          alpha * Rsum (zn (t_shape src) axis) (fun k => elem s src (ins axis k idx))) /\
     frame [dst] s s')) /\
  (~ slice_match src dst axis -> throws (sum_slice_async alpha src beta dst axis false)).
Proof.
  intros Hs Hd. apply wf_wft in Hs, Hd. split.
  - intros Hm Hdj S1 S2. eapply runs_weaken; [apply sum_slice_runs; assumption|].
    intros s' _ [H1 H2]. split; [|assumption]. intros idx Hi. rewrite H1 by assumption.
    rewrite <- (axis_sum src dst axis (fun k => elem s src (ins axis k idx))) by assumption.
    rewrite <- fold_beta by (eapply sg_n_pos; eassumption).
    apply fold_left_ext. intros v j Hj. apply zrange_In in Hj.
    rewrite ksum_R by (eapply ax_pos; eassumption). apply kres_R.
  - intros Hm. unfold sum_slice_async. eapply checks_false; [apply slice_check2_checks; assumption|assumption].
Qed.

(** With beta = 0 the old contents of dst do not matter: stated for any scalar operations, so
    it also covers uninitialised memory holding NaNs. *)
Theorem C16_sum_slice_beta0 {T} {O : Ops T} (alpha beta : T) src dst axis : wf_tensor src -> wf_tensor dst ->
  o_eqb beta o_zero = true -> slice_match src dst axis -> disj src dst ->
  forall s1 s2 ts s1' s2', stored KF s1 src -> stored KF s1 dst -> stored KF s2 src -> stored KF s2 dst ->
  (forall idx, inb (t_shape src) idx -> elem s1 src idx = elem s2 src idx) ->
  sum_slice_async alpha src beta dst axis false = Ok ts ->
  steps (ts, s1) ([], s1') -> steps (ts, s2) ([], s2') ->
  forall idx, inb (t_shape dst) idx -> elem s1' dst idx = elem s2' dst idx.
Proof.
  intros Hs Hd Hb Hm Hdj s1 s2 ts s1' s2' A1 A2 B1 B2 E Ets St1 St2 idx Hi. apply wf_wft in Hs, Hd.
  destruct (sum_slice_runs src dst axis Hs Hd alpha beta s1 Hm Hdj A1 A2) as (ts1 & E1 & _ & _ & R1).
  destruct (sum_slice_runs src dst axis Hs Hd alpha beta s2 Hm Hdj B1 B2) as (ts2 & E2 & _ & _ & R2).
  assert (ts1 = ts) by congruence. assert (ts2 = ts) by congruence. subst ts1 ts2.
  destruct (R1 _ _ St1) as [_ F1]. destruct (R2 _ _ St2) as [_ F2].
  destruct (F1 eq_refl) as (_ & G1 & _). destruct (F2 eq_refl) as (_ & G2 & _).
  rewrite G1, G2 by assumption.
  pose proof (sg_n_pos src dst axis Hs Hm) as Hn.
  assert (Es : forall j, (0 <= j < sg_n src axis)%Z -> 
     ksum (ax_len src axis j) (fun l => elem s1 src (ins axis (j * zn (t_base src) axis + l) idx)) =
     ksum (ax_len src axis j) (fun l => elem s2 src (ins axis (j * zn (t_base src) axis + l) idx))).
  { intros j Hj. apply ksum_ext. intros l Hl. apply E.
    pose proof (etile_bound dst idx Hd Hi) as Hit.
    destruct (sg_sizes src dst axis Hs Hd Hm (etile dst idx) j Hit Hj) as (_ & _ & _ & _ & _ & _ & K).
    destruct (sg_up src dst axis Hs Hd Hm idx j l Hi Hj) as (U1 & U2 & U3); [|assumption].
    cbv zeta in K. rewrite K. exact Hl. }
  assert (Z1 : forall k, (0 <= k)%Z -> (k + 1 <= sg_n src axis)%Z -> forall v1 v2,
    fold_left (fun v j => kres alpha (bj beta j)
      (ksum (ax_len src axis j) (fun l => elem s1 src (ins axis (j * zn (t_base src) axis + l) idx))) v) (zrange (k + 1)) v1 =
    fold_left (fun v j => kres alpha (bj beta j)
      (ksum (ax_len src axis j) (fun l => elem s2 src (ins axis (j * zn (t_base src) axis + l) idx))) v) (zrange (k + 1)) v2).
  { intros k0 Hk0. pattern k0. apply natlike_ind; [| |assumption].
    - intros Hk v1 v2. change (zrange (0 + 1)) with [0%Z]. cbn [fold_left]. rewrite Es by lia.
      change (bj beta 0%Z) with beta. unfold kres. rewrite Hb. reflexivity.
    - intros k Hk IH Hkn v1 v2. unfold Z.succ in *. rewrite (zrange_succ (k + 1)) by lia. rewrite !fold_left_app.
      cbn [fold_left]. rewrite (IH ltac:(lia) v1 v2). rewrite Es by lia. reflexivity. }
  specialize (Z1 (sg_n src axis - 1)%Z ltac:(lia) ltac:(lia)).
  replace (sg_n src axis - 1 + 1)%Z with (sg_n src axis) in Z1 by ring. apply Z1.
Qed.

(** ** C19: sumprod_slice.  The tiling of src2 is assumed equal to that of src1; the code does
    not check it (see C19_sumprod_slice_refuted). *)
Theorem C19_sumprod_slice_partial (alpha beta : R) src1 src2 dst axis s : wf_tensor src1 -> wf_tensor src2 -> wf_tensor dst ->
  t_base src2 = t_base src1 ->
  (slice_match src1 dst axis -> t_shape src2 = t_shape src1 -> disj src1 dst -> disj src2 dst ->
   stored KF s src1 -> stored KF s src2 -> stored KF s dst ->
   runs (sumprod_slice_async alpha src1 src2 beta dst axis false) s (fun s' =>
     (forall idx, inb (t_shape dst) idx ->
        elem s' dst idx = beta * elem s dst idx +
          alpha * Rsum (zn (t_shape src1) axis) (fun k => elem s src1 (ins axis k idx) * elem s src2 (ins axis k idx))) /\
     frame [dst] s s')) /\
  (~ (slice_match src1 dst axis /\ t_shape src2 = t_shape src1) -> throws (sumprod_slice_async alpha src1 src2 beta dst axis false)).
Proof.
  intros Hs Hs2 Hd Eb. apply wf_wft in Hs, Hs2, Hd. split.
  - intros Hm Es Hdj Hdj2 S1 S3 S2. eapply runs_weaken; [apply sumprod_slice_runs; assumption|].
    intros s' _ [H1 H2]. split; [|assumption]. intros idx Hi. rewrite H1 by assumption.
    rewrite <- (axis_sum src1 dst axis (fun k => elem s src1 (ins axis k idx) * elem s src2 (ins axis k idx))) by assumption.
    rewrite <- fold_beta by (eapply sg_n_pos; eassumption).
    apply fold_left_ext. intros v j Hj. apply zrange_In in Hj.
    rewrite ksum_R by (eapply ax_pos; eassumption). apply kres_R.
  - intros Hm. unfold sumprod_slice_async. eapply checks_false; [apply sumprod_slice_checks; assumption|]. intuition.
Qed.

(** Equal shapes with different tilings are accepted, although the tile of src2 that is read does
    not hold the right elements: here the list of tiles of src2 is too short. *)
Theorem C19_sumprod_slice_refuted : exists src1 src2 dst axis,
  wf_tensor src1 /\ wf_tensor src2 /\ wf_tensor dst /\ slice_match src1 dst axis /\ t_shape src2 = t_shape src1 /\
  forall alpha beta : R, sumprod_slice_async alpha src1 src2 beta dst axis false = UB.
Proof.
  exists (std_tensor [4; 2] [2; 2] 0)%Z, (std_tensor [4; 2] [4; 2] 10)%Z, (std_tensor [2] [2] 20)%Z, 0%Z.
  split; [std_wf_tac|]. split; [std_wf_tac|]. split; [std_wf_tac|].
  split; [split; [vm_compute; split; [discriminate|reflexivity]|split; reflexivity]|]. split; [reflexivity|]. intros. reflexivity.
Qed.

(** ** C20: broadcasts of a slice *)
Theorem C20_add_slice (alpha beta : R) src dst axis s : wf_tensor src -> wf_tensor dst ->
  (slice_match dst src axis -> disj src dst -> stored KF s src -> stored KF s dst ->
   runs (add_slice_async alpha src beta dst axis) s (fun s' =>
     (forall idx, inb (t_shape dst) idx ->
        elem s' dst idx = alpha * elem s src (del axis idx) + beta * elem s dst idx) /\
     frame [dst] s s')) /\
  (~ slice_match dst src axis -> throws (add_slice_async alpha src beta dst axis)).
Proof.
  intros Hs Hd. apply wf_wft in Hs, Hd. split.
  - intros Hm Hdj S1 S2. eapply runs_weaken; [apply add_slice_runs; assumption|].
    intros s' _ [H1 H2]. split; [|assumption]. intros idx Hi. rewrite H1 by assumption. apply bc_R.
  - intros Hm. unfold add_slice_async.
    eapply checks_false; [apply (slice_check_checks dst src axis True (Ok tt)); auto using checks_ok|tauto].
Qed.
Theorem C20_prod_slice (alpha : R) src dst axis s : wf_tensor src -> wf_tensor dst ->
  (slice_match dst src axis -> disj src dst -> stored KF s src -> stored KF s dst ->
   runs (prod_slice_async src alpha dst axis) s (fun s' =>
     (forall idx, inb (t_shape dst) idx ->
        elem s' dst idx = alpha * elem s src (del axis idx) * elem s dst idx) /\
     frame [dst] s s')) /\
  (~ slice_match dst src axis -> throws (prod_slice_async src alpha dst axis)).
Proof.
  intros Hs Hd. apply wf_wft in Hs, Hd. split.
  - intros Hm Hdj S1 S2. eapply runs_weaken; [apply prod_slice_runs; assumption|].
    intros s' _ [H1 H2]. split; [|assumption]. intros idx Hi. rewrite H1 by assumption. cbn. lra.
  - intros Hm. unfold prod_slice_async.
    eapply checks_false; [apply (slice_check_checks dst src axis True (Ok tt)); auto using checks_ok|tauto].
Qed.
Theorem C20_add_slice3 (alpha beta : R) src1 src2 dst axis s : wf_tensor src1 -> wf_tensor src2 -> wf_tensor dst ->
  (slice_match dst src1 axis -> same_tiling dst src2 -> disj src1 dst -> disj src2 dst ->
   stored KF s src1 -> stored KF s src2 -> stored KF s dst ->
   runs (add_slice3_async alpha src1 beta src2 dst axis) s (fun s' =>
     (forall idx, inb (t_shape dst) idx ->
        elem s' dst idx = alpha * elem s src1 (del axis idx) + beta * elem s src2 idx) /\
     frame [dst] s s')) /\
  (~ (slice_match dst src1 axis /\ same_tiling dst src2) -> throws (add_slice3_async alpha src1 beta src2 dst axis)).
Proof.
  intros Hs Hs2 Hd. apply wf_wft in Hs, Hs2, Hd. split.
  - intros Hm [E1 E2] Hdj Hdj2 S1 S3 S2. eapply runs_weaken; [apply add_slice3_runs; assumption|].
    intros s' _ [H1 H2]. split; [|assumption]. intros idx Hi. rewrite H1 by assumption. apply bc_R.
  - intros Hm. unfold add_slice3_async. eapply checks_false; [apply add_slice3_checks; assumption|exact Hm].
Qed.

(** ** C18: norm_slice *)
(** The running triple (largest magnitude, scaled sum of squares, compensation). *)
Definition ssq_inv (st : R * R * R) (S : R) : Prop :=
  let '(mx, ssq, c) := st in 0 <= mx /\ 0 <= ssq /\ c = 0 /\ mx * mx * ssq = S /\ (mx = 0 -> ssq = 0).

Lemma ssq_step_ok x st S : ssq_inv st S -> ssq_inv (ssq_step x st) (S + x * x).
Proof.
  destruct st as [[mx ssq] c]. intros (H1 & H2 & -> & H3 & H4). unfold ssq_step.
  cbn [o_abs o_zero o_ltb o_div o_mul o_sub o_add o_one Rops].
  assert (Ex : Rabs x * Rabs x = x * x) by (rewrite <- Rabs_mult; apply Rabs_right; nra).
  pose proof (Rabs_pos x) as Hx.
  destruct (Rltb 0 (Rabs x)) eqn:E; [apply Rltb_true in E|apply Rltb_false in E].
  - destruct (Rltb mx (Rabs x)) eqn:E2; cbn [negb]; [apply Rltb_true in E2|apply Rltb_false in E2].
    + unfold ssq_inv. repeat split; try lra.
      * assert (0 <= mx / Rabs x * (mx / Rabs x)) by nra. nra.
      * rewrite <- H3, <- Ex. field. lra.
    + assert (Hm : mx <> 0) by lra. unfold ssq_inv.
      assert (0 <= Rabs x / mx * (Rabs x / mx)) by nra.
      repeat split; try lra. rewrite <- H3, <- Ex. field. assumption.
  - assert (Rabs x = 0) by lra. unfold ssq_inv. repeat split; auto; nra.
Qed.

Lemma nsum_R n f : (0 <= n)%Z -> ssq_inv (nsum n f) (Rsum n (fun i => f i * f i)).
Proof.
  intros Hn. pattern n. apply natlike_ind; [| |assumption].
  - rewrite Rsum_neg by lia. change (ssq_inv (0, 0, 0) 0). unfold ssq_inv. repeat split; try lra; auto.
  - intros k Hk IH. unfold Z.succ, nsum. rewrite zrange_succ, fold_left_app, Rsum_succ by assumption.
    cbn [fold_left]. apply ssq_step_ok. exact IH.
Qed.

Lemma norm_result_R (beta old nm ssq : R) : 0 <= nm -> 0 <= ssq -> (nm = 0 -> True) ->
  norm_result beta old nm ssq 0 = sqrt ((beta * old) * (beta * old) + nm * nm * ssq).
Proof.
  intros H1 H2 _. unfold norm_result. cbn [o_zero o_eqb o_mul o_sqrt o_ltb o_abs o_div o_sub o_add o_one Rops].
  assert (SQ : forall a b, 0 <= a -> 0 <= b -> a * sqrt b = sqrt (a * a * b)).
  { intros a b Ha Hb. rewrite sqrt_mult by nra. rewrite sqrt_square by assumption. reflexivity. }
  assert (Ex : Rabs (beta * old) * Rabs (beta * old) = (beta * old) * (beta * old))
    by (rewrite <- Rabs_mult; apply Rabs_right; nra).
  pose proof (Rabs_pos (beta * old)) as Hx.
  destruct (Reqb beta 0) eqn:Eb; [apply Reqb_true in Eb; subst; rewrite SQ by assumption; f_equal; ring|].
  destruct (Rltb 0 nm) eqn:E; [apply Rltb_true in E|apply Rltb_false in E].
  - destruct (Rltb nm (Rabs (beta * old))) eqn:E2; cbn [negb]; [apply Rltb_true in E2|apply Rltb_false in E2].
    + rewrite SQ; [|assumption|].
      * f_equal. rewrite <- Ex. field. lra.
      * assert (0 <= nm / Rabs (beta * old) * (nm / Rabs (beta * old))) by nra. nra.
    + rewrite SQ; [|assumption|].
      * f_equal. rewrite <- Ex. field. lra.
      * assert (0 <= Rabs (beta * old) / nm * (Rabs (beta * old) / nm)) by nra. nra.
  - assert (nm = 0) by lra. subst nm. rewrite <- Ex. replace (_ + _) with (Rabs (beta * old) * Rabs (beta * old)) by ring.
    rewrite sqrt_square; auto.
Qed.

Lemma nres_R alpha beta n f v : (0 <= n)%Z ->
  nres alpha beta (nsum n f) v = sqrt ((beta * v) * (beta * v) + alpha * alpha * Rsum n (fun i => f i * f i)).
Proof.
  intros Hn. pose proof (nsum_R n f Hn) as H. unfold nres. destruct (nsum n f) as [[mx ssq] c].
  destruct H as (H1 & H2 & -> & H3 & H4). cbn [fst snd o_mul o_abs Rops].
  pose proof (Rabs_pos alpha). rewrite norm_result_R by (auto; nra). f_equal. rewrite <- H3.
  assert (Ex : Rabs alpha * Rabs alpha = alpha * alpha) by (rewrite <- Rabs_mult; apply Rabs_right; nra).
  replace (mx * Rabs alpha * (mx * Rabs alpha) * ssq) with (mx * mx * ssq * (Rabs alpha * Rabs alpha)) by ring.
  rewrite Ex. ring.
Qed.

Lemma fold_norm (alpha beta : R) (S : Z -> R) g v : (0 < g)%Z -> (forall j, (0 <= j < g)%Z -> 0 <= S j) ->
  fold_left (fun v j => sqrt ((bj beta j * v) * (bj beta j * v) + alpha * alpha * S j)) (zrange g) v =
  sqrt ((beta * v) * (beta * v) + alpha * alpha * Rsum g S).
Proof.
  intros Hg HS. assert (G : forall k, (0 <= k)%Z -> (k + 1 <= g)%Z ->
     fold_left (fun v j => sqrt ((bj beta j * v) * (bj beta j * v) + alpha * alpha * S j)) (zrange (k + 1)) v
     = sqrt ((beta * v) * (beta * v) + alpha * alpha * Rsum (k + 1) S)).
  { intros k0 Hk0. pattern k0. apply natlike_ind; [| |assumption].
    - intros _. rewrite Rsum_succ by lia. rewrite Rsum_neg by lia.
      change (zrange (0 + 1)) with [0%Z]. cbn [fold_left]. change (bj beta 0%Z) with beta. f_equal. lra.
    - intros k Hk IH Hkg. unfold Z.succ in *. rewrite (zrange_succ (k + 1)) by lia. rewrite fold_left_app, IH by lia. cbn [fold_left].
      rewrite (Rsum_succ (k + 1)) by lia. unfold bj. destruct (Z.eqb_spec (k + 1) 0); [lia|]. cbn [o_one Rops].
      rewrite !Rmult_1_l. rewrite sqrt_sqrt; [f_equal; ring|].
      assert (0 <= Rsum (k + 1) S).
      { apply Rsuml_nonneg. intros x Hx. apply zrange_In in Hx. apply HS. lia. }
      pose proof (Rle_0_sqr alpha). pose proof (Rle_0_sqr (beta * v)). unfold Rsqr in *. nra. }
  specialize (G (g - 1)%Z ltac:(lia) ltac:(lia)). replace (g - 1 + 1)%Z with g in G by ring. exact G.
Qed.

Theorem C18_norm_slice (alpha beta : R) src dst axis s : wf_tensor src -> wf_tensor dst ->
  (slice_match src dst axis -> disj src dst -> stored KF s src -> stored KF s dst ->
   runs (norm_slice_async alpha src beta dst axis false) s (fun s' =>
     (forall idx, inb (t_shape dst) idx ->
        elem s' dst idx = sqrt ((beta * elem s dst idx) * (beta * elem s dst idx) +
          alpha * alpha * Rsum (zn (t_shape src) axis) (fun k => elem s src (ins axis k idx) * elem s src (ins axis k idx)))) /\
     frame [dst] s s')) /\
  (~ slice_match src dst axis -> throws (norm_slice_async alpha src beta dst axis false)).
Proof.
  intros Hs Hd. apply wf_wft in Hs, Hd. split.
  - intros Hm Hdj S1 S2. eapply runs_weaken; [apply norm_slice_runs; assumption|].
    intros s' _ [H1 H2]. split; [|assumption]. intros idx Hi. rewrite H1 by assumption.
    rewrite <- (axis_sum src dst axis (fun k => elem s src (ins axis k idx) * elem s src (ins axis k idx))) by assumption.
    rewrite <- fold_norm.
    + apply fold_left_ext. intros v j Hj. apply zrange_In in Hj. apply nres_R. eapply ax_pos; eassumption.
    + eapply sg_n_pos; eassumption.
    + intros j Hj. apply Rsuml_nonneg. intros x _. apply Rle_0_sqr.
  - intros Hm. unfold norm_slice_async. eapply checks_false; [apply norm_slice_checks; assumption|assumption].
Qed.

(** ** The hypotheses are satisfiable: src 5x3 in tiles 2x2, reduced along axis 0 *)
Definition ex_src := std_tensor [5; 3]%Z [2; 2]%Z 0%Z.
Definition ex_dst := std_tensor [3]%Z [2]%Z 100%Z.
Definition ex_s : store R := put ex_src (fun i => IZR (zn i 0 + 10 * zn i 1)) (put ex_dst (fun i => IZR (zn i 0)) (fun _ => BF [])).
Example ex_slice_hyps : wf_tensor ex_src /\ wf_tensor ex_dst /\ slice_match ex_src ex_dst 0 /\ disj ex_src ex_dst /\
  stored KF ex_s ex_src /\ stored KF ex_s ex_dst.
Proof.
  assert (HA : wf_tensor ex_src) by std_wf_tac. assert (HB : wf_tensor ex_dst) by std_wf_tac.
  assert (D : disj ex_dst ex_src) by (apply std_disj; vm_compute; right; discriminate).
  split; [assumption|]. split; [assumption|]. split; [split; [vm_compute; split; [discriminate|reflexivity]|split; reflexivity]|].
  split; [intros h H1 H2; apply (D h); assumption|]. split.
  - apply put_stored. apply wf_wft. assumption.
  - apply put_stored_other; [apply wf_wft; assumption|assumption|]. apply put_stored. apply wf_wft. assumption.
Qed.
(** Summing columns 0, 1, 2 of that tensor: column 2 holds 20 21 22 23 24. *)
Example ex_sum_slice : runs (sum_slice_async 2 ex_src 3 ex_dst 0%Z false) ex_s (fun s' => elem s' ex_dst [2%Z] = 3 * 2 + 2 * 110).
Proof.
  destruct ex_slice_hyps as (HA & HB & Hm & Hd & S1 & S2).
  eapply runs_weaken; [apply (proj1 (C16_sum_slice 2 3 ex_src ex_dst 0 ex_s HA HB)); assumption|].
  intros s' _ [H1 _]. rewrite H1 by (repeat constructor; lia).
  assert (HA' := wf_wft _ HA). assert (HB' := wf_wft _ HB).
  assert (D : disj ex_dst ex_src) by (intros h X Y; apply (Hd h); assumption).
  assert (E1 : elem ex_s ex_dst [2%Z] = 2).
  { unfold ex_s, put at 1. rewrite put_elem_other; [|assumption|assumption|repeat constructor; lia].
    rewrite put_elem; [reflexivity|assumption|repeat constructor; lia]. }
  rewrite E1. f_equal. f_equal.
  assert (E2 : forall k, (0 <= k < 5)%Z -> elem ex_s ex_src (ins 0 k [2%Z]) = IZR (k + 20)).
  { intros k Hk. unfold ex_s. rewrite put_elem; [reflexivity|assumption|]. constructor; [assumption|repeat constructor; lia]. }
  change (zn (t_shape ex_src) 0) with 5%Z.
  rewrite (Rsum_ext 5 _ (fun k => IZR (k + 20))) by assumption.
  unfold Rsum, Rsuml. change (zrange 5) with [0%Z; 1%Z; 2%Z; 3%Z; 4%Z]. cbn [fold_right].
  rewrite !plus_IZR. lra.
Qed.
