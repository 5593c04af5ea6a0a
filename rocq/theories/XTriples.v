(** * Operations on finite data in extended-real arithmetic

    What the modelled operations do to tensors holding finite numbers when computing in the
    extended reals (the instance with infinities and NaN).  Operands that are only written may
    hold anything beforehand. *)
From Coq Require Import Reals Lra.
From Verif Require Import Base Spec Geometry Traits TraitsProofs Runtime Ops RealOps TensorSem ElemGeneric OneOut ElemOps Formulas Axis AccRuns Loops SliceOps SliceGeo SliceProofs SliceReduce RSum PropElem PropElem2 PropElemR PropSlice FiberOps FiberGeo FiberProofs FiberReduce PropFiber XReals Sequence SplitGeo MatOps MatProofs GemmProofs GemmRuns Nrm2Proofs PropMat.
Local Open Scope R_scope.
Local Close Scope Z_scope.
Local Open Scope R_scope.

(** The tensor holds the numbers [f], resp. the finite numbers [f]. *)
Definition xval (s : store XR) (t : tensor) (f : list Z -> XR) : Prop := forall idx, inb (t_shape t) idx -> elem s t idx = f idx.
Definition fin (f : list Z -> R) : list Z -> XR := fun idx => Fin (f idx).

(** ** Scalar formulas on finite values *)
Definition finp (p : R * R) : XR * XR := (Fin (fst p), Fin (snd p)).
Definition fint (p : R * R * R) : XR * XR * XR := (Fin (fst (fst p)), Fin (snd (fst p)), Fin (snd p)).

Lemma fold_hom {A B C} (h : A -> B) (F : B -> C -> B) (f : A -> C -> A) l a :
  (forall a x, In x l -> F (h a) x = h (f a x)) -> fold_left F l (h a) = h (fold_left f l a).
Proof.
  revert a. induction l as [|x l IH]; intros a H; [reflexivity|]. cbn [fold_left].
  rewrite H by (left; reflexivity). apply IH. intros. apply H. right; assumption.
Qed.

Lemma x_ksum n (f : Z -> R) : (0 <= n)%Z -> ksum n (fun i => Fin (f i)) = (Fin (Rsum n f), Fin 0).
Proof.
  intros Hn. transitivity (finp (ksum n f)); [|rewrite ksum_R by assumption; reflexivity].
  unfold ksum. change (o_zero, o_zero) with (finp (0, 0)) at 1. apply fold_hom. intros [a c] i _. reflexivity.
Qed.
Lemma x_ksum2 n m (f : Z -> Z -> R) : ksum2 n m (fun i j => Fin (f i j)) = (Fin (Rsum n (fun i => Rsum m (f i))), Fin 0).
Proof.
  transitivity (finp (ksum2 n m f)); [|rewrite ksum2_R; reflexivity].
  unfold ksum2. change (o_zero, o_zero) with (finp (0, 0)) at 1. apply fold_hom. intros a i _. apply fold_hom.
  intros [b c] j _. reflexivity.
Qed.
Lemma x_psum2 n m (f : Z -> Z -> R) : psum2 n m (fun i j => Fin (f i j)) = Fin (Rsum n (fun i => Rsum m (f i))).
Proof.
  transitivity (Fin (psum2 n m f)); [|rewrite psum2_R; reflexivity].
  unfold psum2. change (o_zero (T := XR)) with (Fin 0). apply fold_hom. intros a i _. apply fold_hom. intros b j _. reflexivity.
Qed.
Lemma x_eqb0 (b : R) : o_eqb (Fin b) o_zero = Reqb b 0. Proof. reflexivity. Qed.

Lemma x_kres (al be S v : R) : kres (Fin al) (Fin be) (Fin S, Fin 0) (Fin v) = Fin (be * v + al * S).
Proof.
  unfold kres. rewrite x_eqb0. destruct (Reqb be 0) eqn:E; [apply Reqb_true in E|]; cbn; f_equal; [rewrite E|]; ring.
Qed.
Lemma x_kres0 (al S : R) v w : kres (Fin al) (Fin 0) (Fin S, Fin 0) v = kres (Fin al) (Fin 0) (Fin S, Fin 0) w.
Proof. unfold kres. rewrite x_eqb0. assert (E : Reqb 0 0 = true) by (apply Reqb_true; reflexivity). rewrite E. reflexivity. Qed.
Lemma x_fres (al be S v : R) : fres (Fin al) (Fin be) (Fin S, Fin 0) (Fin v) = Fin (be * v + al * S).
Proof.
  unfold fres. rewrite x_eqb0. destruct (Reqb be 0) eqn:E; [apply Reqb_true in E|]; cbn; f_equal; [rewrite E|]; ring.
Qed.
Lemma x_spres (al be S v : R) : spres (Fin al) (Fin be) (Fin S) (Fin v) = Fin (be * v + al * S).
Proof.
  unfold spres. rewrite x_eqb0. destruct (Reqb be 0) eqn:E; [apply Reqb_true in E|]; cbn; f_equal; [rewrite E|]; ring.
Qed.
Lemma x_gm (be x c : R) : gm (Fin be) (Fin x) (Fin c) = Fin (be * c + x).
Proof. unfold gm. rewrite x_eqb0. destruct (Reqb be 0) eqn:E; [apply Reqb_true in E|]; cbn; f_equal; [rewrite E|]; ring. Qed.
Lemma x_gm0 (x : R) v w : gm (Fin 0) (Fin x) v = gm (Fin 0) (Fin x) w.
Proof. unfold gm. rewrite x_eqb0. assert (E : Reqb 0 0 = true) by (apply Reqb_true; reflexivity). rewrite E. reflexivity. Qed.
Lemma x_bc (be x c : R) : bc (Fin be) (Fin x) (Fin c) = Fin (x + be * c).
Proof. unfold bc. rewrite x_eqb0. destruct (Reqb be 0) eqn:E; [apply Reqb_true in E|]; cbn; f_equal; [rewrite E|]; ring. Qed.
Lemma x_bj (be : R) j : bj (Fin be) j = Fin (bj be j).
Proof. unfold bj. destruct (j =? 0)%Z; reflexivity. Qed.

Lemma x_abs_fin x : x_abs (Fin x) = Fin (Rabs x). Proof. reflexivity. Qed.
Lemma x_ssq x (st : R * R * R) S : ssq_inv st S -> ssq_step (Fin x) (fint st) = fint (ssq_step x st).
Proof.
  destruct st as [[mx q] c]. intros (H1 & _). unfold ssq_step, fint. cbn [fst snd].
  change (o_abs (Fin x)) with (Fin (Rabs x)). change (o_abs x) with (Rabs x).
  change (o_ltb o_zero (Fin (Rabs x))) with (Rltb 0 (Rabs x)). change (o_ltb o_zero (Rabs x)) with (Rltb 0 (Rabs x)).
  change (o_ltb (Fin mx) (Fin (Rabs x))) with (Rltb mx (Rabs x)). change (o_ltb mx (Rabs x)) with (Rltb mx (Rabs x)).
  destruct (Rltb 0 (Rabs x)) eqn:E; [apply Rltb_true in E|reflexivity].
  destruct (Rltb mx (Rabs x)) eqn:E2; cbn [negb]; [apply Rltb_true in E2|apply Rltb_false in E2].
  - change (o_div (Fin mx) (Fin (Rabs x))) with (x_div (Fin mx) (Fin (Rabs x))). rewrite x_div_fin by lra. reflexivity.
  - change (o_div (Fin (Rabs x)) (Fin mx)) with (x_div (Fin (Rabs x)) (Fin mx)). rewrite x_div_fin by lra. reflexivity.
Qed.
Lemma x_nsum n (f : Z -> R) : (0 <= n)%Z -> nsum n (fun i => Fin (f i)) = fint (nsum n f).
Proof.
  intros Hn. pattern n. apply natlike_ind; [reflexivity| |assumption].
  intros k Hk IH. unfold Z.succ. unfold nsum in *. rewrite zrange_succ by assumption. rewrite !fold_left_app, IH. cbn [fold_left].
  eapply x_ssq. apply (nsum_R k f Hk).
Qed.
(** beta = 0: the old value is ignored *)
Lemma x_nres (al : R) n (f : Z -> R) v : (0 <= n)%Z ->
  nres (Fin al) (Fin 0) (nsum n (fun i => Fin (f i))) v = Fin (nres al 0 (nsum n f) 0).
Proof.
  intros Hn. rewrite x_nsum by assumption. pose proof (nsum_R n f Hn) as H. destruct (nsum n f) as [[mx q] c].
  destruct H as (H1 & H2 & -> & _). unfold nres, norm_result, fint. cbn [fst snd].
  rewrite x_eqb0. change (o_eqb 0 o_zero) with (Reqb 0 0). assert (E : Reqb 0 0 = true) by (apply Reqb_true; reflexivity). rewrite E.
  change (o_sqrt (Fin q)) with (x_sqrt (Fin q)). rewrite x_sqrt_fin by assumption. reflexivity.
Qed.
Lemma x_nres1 (al : R) n (f : Z -> R) v : (0 <= n)%Z -> 0 <= v ->
  nres (Fin al) (Fin 1) (nsum n (fun i => Fin (f i))) (Fin v) = Fin (nres al 1 (nsum n f) v).
Proof.
  intros Hn Hv. rewrite x_nsum by assumption. pose proof (nsum_R n f Hn) as H. destruct (nsum n f) as [[mx q] c].
  destruct H as (H1 & H2 & -> & _). unfold nres, norm_result, fint. cbn [fst snd].
  rewrite x_eqb0. change (o_eqb 1 o_zero) with (Reqb 1 0). assert (E : Reqb 1 0 = false) by (apply Reqb_false; lra). rewrite E.
  set (nm := mx * Rabs al). assert (Hnm : 0 <= nm) by (unfold nm; pose proof (Rabs_pos al); nra).
  change (o_mul (Fin mx) (o_abs (Fin al))) with (Fin nm). change (o_mul mx (o_abs al)) with nm.
  change (o_ltb o_zero (Fin nm)) with (Rltb 0 nm). change (o_ltb o_zero nm) with (Rltb 0 nm).
  set (tr := Rabs (1 * v)). assert (Htr : 0 <= tr) by apply Rabs_pos.
  change (o_abs (o_mul (Fin 1) (Fin v))) with (Fin tr). change (o_abs (o_mul 1 v)) with tr.
  change (o_ltb (Fin nm) (Fin tr)) with (Rltb nm tr). change (o_ltb nm tr) with (Rltb nm tr).
  destruct (Rltb 0 nm) eqn:E1; [apply Rltb_true in E1|reflexivity].
  destruct (Rltb nm tr) eqn:E2; cbn [negb]; [apply Rltb_true in E2|apply Rltb_false in E2].
  - change (o_div (Fin nm) (Fin tr)) with (x_div (Fin nm) (Fin tr)). rewrite x_div_fin by lra.
    cbn [o_mul o_sub o_add o_sqrt o_one o_div Xops Rops x_mul x_sub x_add].
    rewrite x_sqrt_fin; [reflexivity|]. assert (0 <= nm / tr * (nm / tr)) by nra. nra.
  - change (o_div (Fin tr) (Fin nm)) with (x_div (Fin tr) (Fin nm)). rewrite x_div_fin by lra.
    cbn [o_mul o_sub o_add o_sqrt o_one o_div Xops Rops x_mul x_sub x_add].
    rewrite x_sqrt_fin; [reflexivity|]. assert (0 <= tr / nm * (tr / nm)) by nra. nra.
Qed.

(** Folding over the tiles of the reduced axis: the first step multiplies by beta. *)
Lemma x_fold_beta (F : XR -> Z -> XR) (f : R -> Z -> R) g v v0 : (0 < g)%Z ->
  (F v 0%Z = F (Fin v0) 0%Z) ->
  (forall a j, (0 <= j < g)%Z -> F (Fin a) j = Fin (f a j)) ->
  fold_left F (zrange g) v = Fin (fold_left f (zrange g) v0).
Proof.
  intros Hg H0 HF. replace g with (1 + (g - 1))%Z by lia. rewrite zrange_app by lia. change (zrange 1) with [0%Z].
  cbn [app fold_left]. rewrite H0, HF by lia. apply fold_hom. intros a x Hx. apply in_map_iff in Hx as (l & <- & Hl).
  apply zrange_In in Hl. apply HF. lia.
Qed.

(** ** Triples *)
Section Tr.
Implicit Types (s : store XR) (fs fd : list Z -> R).

Lemma ax_fits src dst axis j l : wft src -> slice_match src dst axis -> (0 <= j < sg_n src axis)%Z -> (0 <= l < ax_len src axis j)%Z ->
  (0 <= j * zn (t_base src) axis + l < zn (t_shape src) axis)%Z.
Proof.
  intros W (Ha & _) Hj Hl. unfold ax_len in Hl. assert (0 < zn (t_base src) axis)%Z by (apply (proj1 (pos_zn _) (wf_pb src W)); rewrite (wf_len src W) in *; assumption). nia.
Qed.
Lemma ins_fits src dst axis x idx : slice_match src dst axis -> (0 <= x < zn (t_shape src) axis)%Z -> inb (t_shape dst) idx ->
  inb (t_shape src) (ins axis x idx).
Proof. intros (Ha & Es & _) Hx Hi. apply inb_ins; [assumption|assumption|rewrite <- Es; assumption]. Qed.

Lemma x_sum_slice (al be : R) src dst axis s fs fd : wf_tensor src -> wf_tensor dst -> slice_match src dst axis -> disj src dst ->
  stored KF s src -> stored KF s dst -> xval s src (fin fs) -> (be = 0 \/ xval s dst (fin fd)) ->
  runs (sum_slice_async (Fin al) src (Fin be) dst axis false) s (fun s' =>
    xval s' dst (fin (fun idx => be * fd idx + al * Rsum (zn (t_shape src) axis) (fun k => fs (ins axis k idx)))) /\ frame [dst] s s').
Proof.
  intros Hs Hd Hm Hdj S1 S2 V Vd. apply wf_wft in Hs, Hd.
  eapply runs_weaken; [apply sum_slice_runs; assumption|]. intros s' _ [H1 H2]. split; [|assumption].
  intros idx Hi. rewrite H1 by assumption. unfold fin.
  rewrite <- (axis_sum src dst axis (fun k => fs (ins axis k idx))) by assumption.
  pose proof (sg_n_pos _ _ _ Hs Hm) as Hg.
  rewrite <- fold_beta by assumption.
  set (F := fun v j => kres (Fin al) (bj (Fin be) j) (ksum (ax_len src axis j) (fun l => elem s src (ins axis (j * zn (t_base src) axis + l) idx))) v).
  assert (HF : forall v j, (0 <= j < sg_n src axis)%Z -> F v j = kres (Fin al) (Fin (bj be j)) (Fin (Rsum (ax_len src axis j) (fun l => fs (ins axis (j * zn (t_base src) axis + l)%Z idx))), Fin 0) v).
  { intros v j Hj. unfold F. rewrite x_bj. f_equal.
    rewrite (ksum_ext _ _ (fun l => Fin (fs (ins axis (j * zn (t_base src) axis + l)%Z idx)))).
    - apply x_ksum. eapply ax_pos; eassumption.
    - intros l Hl. apply V. apply (ins_fits src dst); [assumption| |assumption]. eapply ax_fits; eassumption. }
  apply x_fold_beta; [assumption| |].
  - rewrite !HF by lia. destruct Vd as [->|Vd]; [apply x_kres0|]. rewrite Vd by assumption. reflexivity.
  - intros a j Hj. rewrite HF by assumption. apply x_kres.
Qed.

Lemma x_sumprod_slice (al be : R) src src2 dst axis s fs fs2 fd : wf_tensor src -> wf_tensor src2 -> wf_tensor dst ->
  slice_match src dst axis -> same_tiling src2 src -> disj src dst -> disj src2 dst ->
  stored KF s src -> stored KF s src2 -> stored KF s dst -> xval s src (fin fs) -> xval s src2 (fin fs2) -> (be = 0 \/ xval s dst (fin fd)) ->
  runs (sumprod_slice_async (Fin al) src src2 (Fin be) dst axis false) s (fun s' =>
    xval s' dst (fin (fun idx => be * fd idx + al * Rsum (zn (t_shape src) axis) (fun k => fs (ins axis k idx) * fs2 (ins axis k idx)))) /\ frame [dst] s s').
Proof.
  intros Hs Hs2 Hd Hm [T1 T2] Hdj Hdj2 S1 S12 S2 V V2 Vd. apply wf_wft in Hs, Hs2, Hd.
  eapply runs_weaken; [apply sumprod_slice_runs; assumption|]. intros s' _ [H1 H2]. split; [|assumption].
  intros idx Hi. rewrite H1 by assumption. unfold fin.
  rewrite <- (axis_sum src dst axis (fun k => fs (ins axis k idx) * fs2 (ins axis k idx))) by assumption.
  pose proof (sg_n_pos _ _ _ Hs Hm) as Hg.
  rewrite <- fold_beta by assumption.
  set (F := fun v j => kres (Fin al) (bj (Fin be) j) (ksum (ax_len src axis j) (fun l => o_mul (elem s src (ins axis (j * zn (t_base src) axis + l) idx)) (elem s src2 (ins axis (j * zn (t_base src) axis + l) idx)))) v).
  assert (HF : forall v j, (0 <= j < sg_n src axis)%Z -> F v j = kres (Fin al) (Fin (bj be j)) (Fin (Rsum (ax_len src axis j) (fun l => fs (ins axis (j * zn (t_base src) axis + l)%Z idx) * fs2 (ins axis (j * zn (t_base src) axis + l)%Z idx))), Fin 0) v).
  { intros v j Hj. unfold F. rewrite x_bj. f_equal.
    rewrite (ksum_ext _ _ (fun l => Fin (fs (ins axis (j * zn (t_base src) axis + l)%Z idx) * fs2 (ins axis (j * zn (t_base src) axis + l)%Z idx)))).
    - apply x_ksum. eapply ax_pos; eassumption.
    - intros l Hl. assert (Hin : inb (t_shape src) (ins axis (j * zn (t_base src) axis + l) idx)).
      { apply (ins_fits src dst); [assumption| |assumption]. eapply ax_fits; eassumption. }
      rewrite V by assumption. rewrite V2 by (rewrite T1; assumption). reflexivity. }
  apply x_fold_beta; [assumption| |].
  - rewrite !HF by lia. destruct Vd as [->|Vd]; [apply x_kres0|]. rewrite Vd by assumption. reflexivity.
  - intros a j Hj. rewrite HF by assumption. apply x_kres.
Qed.

(** only with beta = 0, as the layers use it *)
Lemma x_norm_slice (al : R) src dst axis s fs : wf_tensor src -> wf_tensor dst -> slice_match src dst axis -> disj src dst ->
  stored KF s src -> stored KF s dst -> xval s src (fin fs) ->
  runs (norm_slice_async (Fin al) src (Fin 0) dst axis false) s (fun s' =>
    xval s' dst (fin (fun idx => sqrt (al * al * Rsum (zn (t_shape src) axis) (fun k => fs (ins axis k idx) * fs (ins axis k idx))))) /\ frame [dst] s s').
Proof.
  intros Hs Hd Hm Hdj S1 S2 V. apply wf_wft in Hs, Hd.
  eapply runs_weaken; [apply norm_slice_runs; assumption|]. intros s' _ [H1 H2]. split; [|assumption].
  intros idx Hi. rewrite H1 by assumption. unfold fin.
  pose proof (sg_n_pos _ _ _ Hs Hm) as Hg.
  set (g := fun j l => fs (ins axis (j * zn (t_base src) axis + l)%Z idx)).
  set (S := fun j => Rsum (ax_len src axis j) (fun l => g j l * g j l)).
  assert (HF : forall v j, (0 <= j < sg_n src axis)%Z ->
     nres (Fin al) (bj (Fin 0) j) (nsum (ax_len src axis j) (fun l => elem s src (ins axis (j * zn (t_base src) axis + l) idx))) v =
     nres (Fin al) (Fin (bj 0 j)) (nsum (ax_len src axis j) (fun l => Fin (g j l))) v).
  { intros v j Hj. rewrite x_bj. f_equal. apply nsum_ext. intros l Hl. apply V. apply (ins_fits src dst); [assumption| |assumption]. eapply ax_fits; eassumption. }
  rewrite (fold_left_ext _ (fun v j => nres (Fin al) (Fin (bj 0 j)) (nsum (ax_len src axis j) (fun l => Fin (g j l))) v))
    by (intros v j Hj; apply zrange_In in Hj; apply HF; assumption).
  assert (Hax : forall j, (0 <= j < sg_n src axis)%Z -> (0 <= ax_len src axis j)%Z) by (intros; eapply ax_pos; eassumption).
  assert (G : forall k, (0 <= k)%Z -> (k + 1 <= sg_n src axis)%Z ->
     fold_left (fun v j => nres (Fin al) (Fin (bj 0 j)) (nsum (ax_len src axis j) (fun l => Fin (g j l))) v) (zrange (k + 1)) (elem s dst idx)
     = Fin (sqrt (al * al * Rsum (k + 1) S))).
  { intros k0 Hk0. pattern k0. apply natlike_ind; [| |assumption].
    - intros _. change (zrange (0 + 1)) with [0%Z]. cbn [fold_left]. change (bj 0 0%Z) with 0.
      rewrite x_nres by (apply Hax; lia). f_equal. rewrite nres_R by (apply Hax; lia). rewrite Rsum_succ, (Rsum_neg 0) by lia. fold (S 0%Z). f_equal. unfold S. ring.
    - intros k Hk IH Hkg. unfold Z.succ in *. rewrite (zrange_succ (k + 1)) by lia. rewrite fold_left_app, IH by lia. cbn [fold_left].
      assert (Eb : bj 0 (k + 1) = 1) by (unfold bj; destruct (Z.eqb_spec (k + 1) 0); [lia|reflexivity]). rewrite Eb.
      rewrite x_nres1; [|apply Hax; lia|apply sqrt_pos]. f_equal. rewrite nres_R by (apply Hax; lia).
      rewrite (Rsum_succ (k + 1)) by lia. f_equal. rewrite !Rmult_1_l.
      rewrite sqrt_sqrt; [unfold S at 3; ring|]. apply Rmult_le_pos; [nra|]. apply Rsuml_nonneg. intros j Hj.
      apply Rsuml_nonneg. intros l _. nra. }
  replace (sg_n src axis) with (sg_n src axis - 1 + 1)%Z by lia. rewrite G by lia. do 3 f_equal.
  replace (sg_n src axis - 1 + 1)%Z with (sg_n src axis) by lia.
  apply (axis_sum src dst axis (fun k => fs (ins axis k idx) * fs (ins axis k idx))); assumption.
Qed.

Lemma del_fits big small axis idx : slice_match big small axis -> inb (t_shape big) idx -> inb (t_shape small) (del axis idx).
Proof. intros (Ha & Es & _) Hi. rewrite Es. apply inb_del; assumption. Qed.

Lemma x_add_slice (al be : R) src dst axis s fs fd : wf_tensor src -> wf_tensor dst -> slice_match dst src axis -> disj src dst ->
  stored KF s src -> stored KF s dst -> xval s src (fin fs) -> xval s dst (fin fd) ->
  runs (add_slice_async (Fin al) src (Fin be) dst axis) s (fun s' =>
    xval s' dst (fin (fun idx => al * fs (del axis idx) + be * fd idx)) /\ frame [dst] s s').
Proof.
  intros Hs Hd Hm Hdj S1 S2 V Vd. apply wf_wft in Hs, Hd.
  eapply runs_weaken; [apply add_slice_runs; assumption|]. intros s' _ [H1 H2]. split; [|assumption].
  intros idx Hi. rewrite H1 by assumption. rewrite V by (eapply del_fits; eassumption). rewrite Vd by assumption.
  unfold fin. cbn [o_mul Xops x_mul]. apply x_bc.
Qed.
Lemma x_prod_slice (al : R) src dst axis s fs fd : wf_tensor src -> wf_tensor dst -> slice_match dst src axis -> disj src dst ->
  stored KF s src -> stored KF s dst -> xval s src (fin fs) -> xval s dst (fin fd) ->
  runs (prod_slice_async src (Fin al) dst axis) s (fun s' =>
    xval s' dst (fin (fun idx => al * fs (del axis idx) * fd idx)) /\ frame [dst] s s').
Proof.
  intros Hs Hd Hm Hdj S1 S2 V Vd. apply wf_wft in Hs, Hd.
  eapply runs_weaken; [apply prod_slice_runs; assumption|]. intros s' _ [H1 H2]. split; [|assumption].
  intros idx Hi. rewrite H1 by assumption. rewrite V by (eapply del_fits; eassumption). rewrite Vd by assumption.
  unfold fin. cbn. f_equal. ring.
Qed.
Lemma x_add_slice3 (al be : R) src src2 dst axis s fs fs2 : wf_tensor src -> wf_tensor src2 -> wf_tensor dst -> slice_match dst src axis ->
  same_tiling dst src2 -> disj src dst -> disj src2 dst -> stored KF s src -> stored KF s src2 -> stored KF s dst ->
  xval s src (fin fs) -> xval s src2 (fin fs2) ->
  runs (add_slice3_async (Fin al) src (Fin be) src2 dst axis) s (fun s' =>
    xval s' dst (fin (fun idx => al * fs (del axis idx) + be * fs2 idx)) /\ frame [dst] s s').
Proof.
  intros Hs Hs2 Hd Hm [T1 T2] Hdj Hdj2 S1 S12 S2 V V2. apply wf_wft in Hs, Hs2, Hd.
  eapply runs_weaken; [apply add_slice3_runs; assumption|]. intros s' _ [H1 H2]. split; [|assumption].
  intros idx Hi. rewrite H1 by assumption. rewrite V by (eapply del_fits; eassumption). rewrite V2 by (rewrite <- T1; assumption).
  unfold fin. cbn [o_mul Xops x_mul]. apply x_bc.
Qed.

Lemma fib_fits big small axis b idx : wft big -> wft small -> fiber_match big small axis b -> inb (t_shape big) idx -> inb (t_shape small) (fib axis b idx).
Proof. intros HA HB Hm Hi. destruct (fg_geo big small axis b HA HB Hm idx Hi) as (H & _). exact H. Qed.

Lemma x_add_fiber (al be : R) src dst axis b s fs fd : wf_tensor src -> wf_tensor dst -> fiber_match dst src axis b -> disj src dst -> al <> 0 ->
  stored KF s src -> stored KF s dst -> xval s src (fin fs) -> xval s dst (fin fd) ->
  runs (add_fiber_async (Fin al) src (Fin be) dst axis b) s (fun s' =>
    xval s' dst (fin (fun idx => al * fs (fib axis b idx) + be * fd idx)) /\ frame [dst] s s').
Proof.
  intros Hs Hd Hm Hdj Hal S1 S2 V Vd. apply wf_wft in Hs, Hd.
  eapply runs_weaken; [apply add_fiber_runs; try assumption; apply Reqb_false; assumption|]. intros s' _ [H1 H2]. split; [|assumption].
  intros idx Hi. rewrite H1 by assumption. rewrite V by (eapply fib_fits; eassumption). rewrite Vd by assumption.
  unfold fin. cbn [o_mul Xops x_mul]. apply x_bc.
Qed.
Lemma x_prod_fiber3 (al : R) src src2 dst axis s fs fs2 : wf_tensor src -> wf_tensor src2 -> wf_tensor dst -> fiber_match dst src axis 0 ->
  same_tiling src2 dst -> disj src dst -> disj src2 dst -> stored KF s src -> stored KF s src2 -> stored KF s dst ->
  xval s src (fin fs) -> xval s src2 (fin fs2) ->
  runs (prod_fiber3_async src (Fin al) src2 dst axis) s (fun s' =>
    xval s' dst (fin (fun idx => al * fs (fib axis 0 idx) * fs2 idx)) /\ frame [dst] s s').
Proof.
  intros Hs Hs2 Hd Hm [T1 T2] Hdj Hdj2 S1 S12 S2 V V2. apply wf_wft in Hs, Hs2, Hd.
  eapply runs_weaken; [apply prod_fiber3_runs; assumption|]. intros s' _ [H1 H2]. split; [|assumption].
  intros idx Hi. rewrite H1 by assumption. rewrite V by (eapply fib_fits; eassumption). rewrite V2 by (rewrite T1; assumption).
  unfold fin. cbn. f_equal.
Qed.

Lemma x_sum_fiber (al be : R) src dst axis b s fs fd : wf_tensor src -> wf_tensor dst -> fiber_match src dst axis b -> disj src dst ->
  stored KF s src -> stored KF s dst -> xval s src (fin fs) -> xval s dst (fin fd) ->
  runs (sum_fiber_async (Fin al) src (Fin be) dst axis b false) s (fun s' =>
    xval s' dst (fin (fun d => be * fd d + al * fiber_sum (t_shape src) axis b d fs)) /\ frame [dst] s s').
Proof.
  intros Hs Hd Hm Hdj S1 S2 V Vd. apply wf_wft in Hs, Hd.
  eapply runs_weaken; [apply sum_fiber_runs; assumption|]. intros s' _ [H1 H2]. split; [|assumption].
  intros d Hi. rewrite H1 by assumption. unfold fin.
  rewrite <- (fiber_sum_tiles src dst axis b) by assumption.
  rewrite <- (fold_first src dst axis b) by (try assumption; apply etile_bound; assumption).
  rewrite Vd by assumption. unfold fin. apply fold_hom. intros v i Hin. apply filter_In in Hin as [Hin Eo]. apply zrange_In in Hin. apply Z.eqb_eq in Eo.
  rewrite (ksum2_ext _ _ _ (fun j k => Fin (fs (eidx src i (fpos src axis b i (eoff dst d) j k))))).
  - rewrite x_ksum2. replace (bi src axis b (Fin be) i) with (Fin (bi src axis b be i)) by (unfold bi; destruct (fg_first _ _ _ _); reflexivity). apply x_fres.
  - intros j k Hj Hk. apply V.
    destruct (fg_up src dst axis b Hs Hd Hm d i k j Hi Hin Eo Hk Hj) as (U1 & U2). apply eidx_spec; assumption.
Qed.
Lemma x_sumprod_fiber (al be : R) src src2 dst axis s fs fs2 fd : wf_tensor src -> wf_tensor src2 -> wf_tensor dst -> fiber_match src dst axis 0 ->
  same_tiling src2 src -> disj src dst -> disj src2 dst ->
  stored KF s src -> stored KF s src2 -> stored KF s dst -> xval s src (fin fs) -> xval s src2 (fin fs2) -> xval s dst (fin fd) ->
  runs (sumprod_fiber_async (Fin al) src src2 (Fin be) dst axis false) s (fun s' =>
    xval s' dst (fin (fun d => be * fd d + al * fiber_sum (t_shape src) axis 0 d (fun idx => fs idx * fs2 idx))) /\ frame [dst] s s').
Proof.
  intros Hs Hs2 Hd Hm [T1 T2] Hdj Hdj2 S1 S12 S2 V V2 Vd. apply wf_wft in Hs, Hs2, Hd.
  eapply runs_weaken; [apply sumprod_fiber_runs; assumption|]. intros s' _ [H1 H2]. split; [|assumption].
  intros d Hi. rewrite H1 by assumption. unfold fin.
  rewrite <- (fiber_sum_tiles src dst axis 0 Hs Hd Hm d (fun idx => fs idx * fs2 idx)) by assumption.
  rewrite <- (fold_first src dst axis 0) by (try assumption; apply etile_bound; assumption).
  rewrite Vd by assumption. unfold fin. apply fold_hom. intros v i Hin. apply filter_In in Hin as [Hin Eo]. apply zrange_In in Hin. apply Z.eqb_eq in Eo.
  rewrite (psum2_ext _ _ _ (fun j k => Fin (fs (eidx src i (fpos src axis 0 i (eoff dst d) j k)) * fs2 (eidx src i (fpos src axis 0 i (eoff dst d) j k))))).
  - rewrite x_psum2. replace (bi src axis 0 (Fin be) i) with (Fin (bi src axis 0 be i)) by (unfold bi; destruct (fg_first _ _ _ _); reflexivity). apply x_spres.
  - intros j k Hj Hk. 
    destruct (fg_up src dst axis 0 Hs Hd Hm d i k j Hi Hin Eo Hk Hj) as (U1 & U2).
    assert (Hin' : inb (t_shape src) (eidx src i (fpos src axis 0 i (eoff dst d) j k))) by (apply eidx_spec; assumption).
    rewrite V by assumption. rewrite V2 by (rewrite T1; assumption). reflexivity.
Qed.

Lemma x_gemm (al be : R) tA tB A B C ndim batch s fa fb fc sm sk sn sb bm bk bn bb : wf_tensor A -> wf_tensor B -> wf_tensor C ->
  t_shape A = op_dims tA sm sk sb -> t_base A = op_dims tA bm bk bb ->
  t_shape B = op_dims tB sk sn sb -> t_base B = op_dims tB bk bn bb ->
  t_shape C = sm ++ sn ++ sb -> t_base C = bm ++ bn ++ bb ->
  zlen sk = ndim -> zlen bk = ndim -> zlen sb = batch -> zlen bb = batch ->
  disj A C -> disj B C -> stored KF s A -> stored KF s B -> stored KF s C ->
  xval s A (fin fa) -> xval s B (fin fb) -> (be = 0 \/ xval s C (fin fc)) ->
  runs (gemm_async (Fin al) tA A tB B (Fin be) C ndim batch false) s (fun s' =>
    (forall mi ni bi, inb sm mi -> inb sn ni -> inb sb bi ->
       elem s' C (mi ++ ni ++ bi) = Fin (be * fc (mi ++ ni ++ bi) +
         al * Rsuml (all_idx sk) (fun ki => fa (op_dims tA mi ki bi) * fb (op_dims tB ki ni bi)))) /\
    frame [C] s s').
Proof.
  intros HA HB HC E1 F1 E2 F2 E3 F3 L1 L1' L2 L2' D1 D2 S1 S2 S3 Va Vb Vc.
  eapply runs_weaken; [eapply (C28_gemm_generic (Fin al) (Fin be) tA tB A B C ndim batch s sm sk sn sb bm bk bn bb); eassumption|].
  intros s' _ [H1 H2]. split; [|assumption]. intros mi ni bi Im In_ Ib. rewrite H1 by assumption.
  apply wf_wft in HA, HB, HC.
  destruct (gemm_lengths tA A C sm sk sn sb bm bk bn bb HA HC E1 F1 E3 F3) as (G1 & G2 & G3 & G4); [congruence..|].
  destruct (gm_geo tA A C sm sk sn sb bm bk bn bb HA HC G1 G2 G3 G4 E1 F1 E3 F3) as (Q1 & Q2 & Q3 & Q4).
  rewrite <- (Rsum_geo sk bk _ Q2). rewrite <- fold_beta by (apply rn_pos; assumption).
  assert (HF : forall v l, (0 <= l < rn sk bk)%Z ->
    gm (bj (Fin be) l) (o_mul (Fin al) (tile_dot tA tB A B sk bk s mi ni bi l)) v =
    gm (Fin (bj be l)) (Fin (al * Rsum (rsz sk bk l) (fun o => fa (op_dims tA mi (ridx sk bk l o) bi) * fb (op_dims tB (ridx sk bk l o) ni bi)))) v).
  { intros v l Hl. rewrite x_bj. f_equal. pose proof (rsz_pos Q2 l Hl) as Hp.
    change (Fin (al * ?x)) with (o_mul (Fin al) (Fin x)). f_equal. unfold tile_dot.
    rewrite (fold_left_ext _ (fun t o => o_add t (Fin (fa (op_dims tA mi (ridx sk bk l o) bi) * fb (op_dims tB (ridx sk bk l o) ni bi))))).
    - rewrite <- (dot_R (rsz sk bk l)) by lia. change (o_zero (T := XR)) with (Fin 0). apply fold_hom. intros; reflexivity.
    - intros t o Ho. apply zrange_In in Ho. assert (Hr : inb sk (ridx sk bk l o)) by (apply ridx_spec; assumption).
      rewrite Va, Vb; [reflexivity| |].
      + rewrite E2. destruct tB; cbn [op_dims]; repeat apply inb_app; assumption.
      + rewrite E1. destruct tA; cbn [op_dims]; repeat apply inb_app; assumption. }
  rewrite (fold_left_ext _ _ _ _ (fun v l Hl => HF v l (proj1 (zrange_In _ _) Hl))).
  apply x_fold_beta; [apply rn_pos; assumption| |].
  - change (bj be 0%Z) with be. destruct Vc as [->|Vc]; [apply x_gm0|].
    rewrite Vc; [reflexivity|]. rewrite E3. repeat apply inb_app; assumption.
  - intros a l Hl. apply x_gm.
Qed.
End Tr.
