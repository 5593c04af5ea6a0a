(** * Assertions on named tensors: masks and softmax *)
From Coq Require Import Reals Lra.
From Verif Require Import Base Spec Geometry Traits TraitsProofs Runtime Ops RealOps TensorSem ElemGeneric OneOut ElemOps Axis AccRuns Loops SliceOps SliceGeo RSum PropElem PropElemR PropSlice SoftmaxOps PairGeo SoftmaxProofs SoftmaxRuns Sequence XReals SoftmaxScalar PropSoftmax LossOps LossRuns PropLoss NdRuns XTriples HasRuns.
Local Close Scope Z_scope.
Local Open Scope R_scope.

Section Has.
Context {E : env}.
Implicit Types (M : smap) (s : store XR) (x y : gvar).

Lemma h_liftx M s y op (g f' : list Z -> XR) : has M s -> U y ->
  runs op s (fun s' => xval s' (A y) g /\ frame [A y] s s') ->
  (forall idx, inb (t_shape (A y)) idx -> g idx = f' idx) ->
  runs_nd op s (has (upd y (Some f') M)).
Proof.
  intros HM Hy Hr Hg. apply runs_runs_nd. eapply runs_weaken; [exact Hr|]. intros s' Ht [Hv Hf].
  eapply has_write; try eassumption. intros f Ef. inversion Ef; subst. intros idx Hi. rewrite Hv by assumption. apply Hg. assumption.
Qed.
(** mask_scalar: entries the mask forbids are set to [val] *)
Lemma h_mask mask (m : list Z -> bool) (val : XR) b M s y f (f' : list Z -> XR) : wf_tensor mask -> disj mask (A y) -> stored KB s mask ->
  (forall idx, inb (t_shape mask) idx -> belem s mask idx = m idx) -> mask_match mask (A y) b ->
  has M s -> U y -> M y = Some (fin f) ->
  (forall idx, inb (t_shape (A y)) idx -> (if m (firstn (Z.to_nat (zlen (t_shape (A y)) - b)) idx) then Fin (f idx) else val) = f' idx) ->
  runs_nd (mask_scalar_async mask val (A y) b) s (has (upd y (Some f') M)).
Proof.
  intros WM DM SM VM Hm HM Uy My Hf. eapply (h_liftx M s y _ (fun idx => if m (firstn (Z.to_nat (zlen (t_shape (A y)) - b)) idx) then Fin (f idx) else val)); try eassumption.
  eapply runs_weaken; [apply (C31_mask_scalar mask (A y) b val s); try assumption; [apply UW; assumption|eapply has_st; eassumption]|].
  intros s' _ [H1 H2]. split; [|assumption]. intros idx Hi. rewrite H1 by assumption. rewrite VM.
  - rewrite (has_val M s y _ HM Uy My) by assumption. reflexivity.
  - destruct Hm as (Hb & -> & _). clear - Hi. revert idx Hi. generalize (Z.to_nat (zlen (t_shape (A y)) - b)). intros k. generalize (t_shape (A y)) as sh. induction k as [|k IH]; intros sh idx Hi; [constructor|].
    destruct Hi; cbn [firstn]; [constructor|]. constructor; [assumption|]. apply IH. assumption.
Qed.
(** maxsumexp into a cleared buffer, then softmax_inplace *)
Lemma h_softmax axis M s ms y (x f' : list Z -> XR) : has M s -> U ms -> U y -> ms <> y -> pair_match (A y) (A ms) axis ->
  M ms = Some (fin (fun _ => 0)) -> M y = Some x -> (forall idx, inb (t_shape (A y)) idx -> score (x idx)) ->
  (forall idx, inb (t_shape (A y)) idx -> softmax_val 1 (map (fun k => x (ins axis k (del axis idx))) (zrange (zn (t_shape (A y)) axis))) (x idx) = f' idx) ->
  runs_nd (then_ (maxsumexp_async (A y) (A ms) axis false) (softmax_inplace_async (A ms) (Fin 1) (A y) axis)) s (has (upd y (Some f') (upd ms None M))).
Proof.
  intros HM Us Uy Hn Hm Ms My Hsc Hf.
  assert (W1 := UW ms Us). assert (W2 := UW y Uy). assert (V1 := wf_wft _ W1). assert (V2 := wf_wft _ W2). assert (D := UD ms y Us Uy Hn).
  assert (S1 := has_st _ _ _ HM Us). assert (S2 := has_st _ _ _ HM Uy).
  assert (X1 := has_val _ _ _ _ HM Us Ms). assert (X2 := has_val _ _ _ _ HM Uy My).
  apply runs_runs_nd. eapply runs_then.
  - apply (proj1 (C21_maxsumexp (A y) (A ms) axis s (fun _ => []) W2 W1)); try assumption.
    + apply disj_sym. assumption.
    + intros idx Hi. rewrite X2 by assumption. apply Hsc. assumption.
    + intros idx Hi. left. destruct (pelem_inb (A ms) (A y) axis idx Hm Hi). unfold pelem. rewrite !X1 by assumption. split; [intros r []|reflexivity].
  - intros s1 I1 [R1 F1]. eapply runs_weaken; [apply (softmax_inplace_runs (A ms) (A y)); try assumption; eapply tinv_stored; eassumption|].
    intros s' I2 [H1 H2].
    assert (HM1 : has (upd ms None M) s1) by (eapply has_write; try eassumption; intros f Ef; discriminate).
    eapply has_write; try eassumption. intros f Ef. inversion Ef; subst f.
    intros idx Hi. rewrite H1 by assumption. destruct (del_inb (A y) (A ms) axis idx Hm Hi) as (Hd & _).
    destruct (R1 _ Hd) as [R2 _]. cbn [app] in R2.
    rewrite (frame_elem [A ms] s) by (auto; intros t [<-|[]]; apply disj_sym; assumption).
    rewrite (smax_val 1 _ (axis_vals s (A y) axis (del axis idx))); [|exact R2|eapply axis_vals_mem; eassumption|rewrite X2 by assumption; apply Hsc; assumption].
    rewrite X2 by assumption.
    replace (axis_vals s (A y) axis (del axis idx)) with (map (fun k => x (ins axis k (del axis idx))) (zrange (zn (t_shape (A y)) axis))).
    { exact (Hf idx Hi). }
    apply map_ext_in. intros k Hk. apply zrange_In in Hk. symmetry. apply X2. apply (ax_In (A y) (A ms) axis); assumption.
Qed.
End Has.
