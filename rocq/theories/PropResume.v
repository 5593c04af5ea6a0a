(** * C69, from a file: what C68 loads is the state of the optimizer that training goes on with *)
From Coq Require Import Reals Lra FunctionalExtensionality Sorted.
From Coquelicot Require Import Coquelicot.
From Verif Require Import Base Spec Geometry Traits TraitsProofs Runtime Ops RealOps TensorSem OneOut ElemOps ElemGeneric Concrete Axis SliceGeo Sequence XReals NdRuns AnyRuns Serial2 RSum AttnSpec MatOps PropElem IntCopy CrossEntropy XTriples HasRuns TapeMath VjpMath Tape PyLayers PyLinear PySimple PyNorm AttMath PyAttn Backprop CeLoss PropLayers PropModel PyTrain PropTrain PyAdam PropAdam PyModels BuildEnv GptBuild BuildModel OptBuild GptSpec GptModel GptRun PropGpt GptTrain OptState NumpyIO PropNumpy Checkpoint PropCheckpoint.
Local Close Scope Z_scope.
Local Open Scope R_scope.

(** adam.py:29-40, 164-175, adamw.py:29-37: (first_moments[i], second_moments[i]) for the
    parameters [ps] of the build [b], named from [k] on *)
Definition moment_tensors (b : build) (ps : list nat) (k : nat) : list (tensor * tensor) := map (fun p => (PyModels.bt b (Tmp k p), PyModels.bt b (Tmp (S k) p))) ps.
(** the tensors of the state have the shapes of their parameters *)
Definition state_shaped (b : build) (ps : list nat) (k : nat) : Prop := forall p, In p ps ->
  t_shape (PyModels.bt b (Tmp k p)) = t_shape (PyModels.bt b (Val p)) /\ t_shape (PyModels.bt b (Tmp (S k) p)) = t_shape (PyModels.bt b (Val p)).

Lemma moments_nth b k : forall ps j, (j < List.length ps)%nat ->
  nth_error (flat (moment_tensors b ps k)) (2 * j) = Some (PyModels.bt b (Tmp k (nth j ps O))) /\
  nth_error (flat (moment_tensors b ps k)) (S (2 * j)) = Some (PyModels.bt b (Tmp (S k) (nth j ps O))).
Proof.
  induction ps as [|p ps IH]; intros j Hj; [cbn in Hj; lia|]. destruct j as [|j]; [split; reflexivity|].
  replace (2 * S j)%nat with (S (S (2 * j))) by lia. cbn [List.length] in Hj. apply (IH j ltac:(lia)).
Qed.
(** Two models with parameters of the same shapes, built in this or another process. *)
Theorem C69_loaded_state kd lr b1 b2 wd eps b ps k b' ps' k' (ob ob2 : optobj XR) m v s s' :
  let o := OAdam kd lr b1 b2 wd eps in
  map (fun p => t_shape (PyModels.bt b (Val p))) ps = map (fun p => t_shape (PyModels.bt b' (Val p))) ps' ->
  state_shaped b ps k -> oo_moments ob = moment_tensors b ps k -> oo_moments ob2 = moment_tensors b' ps' k' ->
  same_moments (fun x => x) ob ob2 s s' -> opt_state o b ps k m v s -> opt_state o b' ps' k' m v s'.
Proof.
  intros o Es Hs E1 E2 Hm Hst j idx Hj p Hi.
  assert (El : List.length ps = List.length ps') by (apply (f_equal (@List.length _)) in Es; rewrite !map_length in Es; exact Es).
  assert (Hj' : (j < List.length ps)%nat) by lia.
  assert (Esh : t_shape (PyModels.bt b (Val (nth j ps O))) = t_shape (PyModels.bt b' (Val (nth j ps' O)))).
  { apply (f_equal (fun l => nth_error l j)) in Es. rewrite !nth_error_map in Es.
    rewrite (nth_error_nth' ps O Hj'), (nth_error_nth' ps' O Hj) in Es. cbn [option_map] in Es. congruence. }
  destruct (Hs (nth j ps O)) as [S1 S2]; [apply nth_In; exact Hj'|].
  destruct (moments_nth b k ps j Hj') as [N1 N2], (moments_nth b' k' ps' j Hj) as [N1' N2'].
  destruct (Hst j idx Hj') as [V1 V2]; [rewrite Esh; exact Hi|]. unfold same_moments, moments_of in Hm. rewrite E1, E2 in Hm.
  split; [rewrite <- V1; apply (Hm (2 * j)%nat)|rewrite <- V2; apply (Hm (S (2 * j)))]; try assumption; rewrite ?S1, ?S2, Esh; exact Hi.
Qed.
(** Save with one optimizer object, load with another one: the state of training arrives. *)
Theorem C69_adam_from_file to_half to_bf16 kd lr b1 b2 wd eps b ps k b' ps' k' (ob ob' : optobj XR) q q' m v s :
  let o := OAdam kd lr b1 b2 wd eps in
  map (fun p => t_shape (PyModels.bt b (Val p))) ps = map (fun p => t_shape (PyModels.bt b' (Val p))) ps' ->
  state_shaped b ps k -> oo_moments ob = moment_tensors b ps k -> oo_moments ob' = moment_tensors b' ps' k' -> oo_max ob = [] ->
  let '(r1, f) := adam_save to_half to_bf16 ob q in
  let '(r2, ob2) := adam_load ob' f q' in
  saveable s (moments_of ob) q -> loadable s (arrays_of f) (moments_of ob') q' -> opt_state o b ps k m v s ->
  runs_nd (then_ r1 r2) s (fun s' => opt_state o b' ps' k' m v s') /\ oo_hyper ob2 = oo_hyper ob.
Proof.
  intros o Es Hs E1 E2 Hmax.
  assert (Hl : List.length (oo_moments ob') = List.length (oo_moments ob)).
  { rewrite E1, E2. unfold moment_tensors. rewrite !map_length. apply (f_equal (@List.length _)) in Es. rewrite !map_length in Es. congruence. }
  pose proof (C68_adam_checkpoint to_half to_bf16 ob ob' q q' s Hmax Hl) as H. destruct (adam_save to_half to_bf16 ob q) as [r1 f]. destruct (adam_load ob' f q') as [r2 ob2].
  intros H1 H2 Hst. destruct (H H1 H2) as (R & Hh & Em). split; [|exact Hh]. eapply nd_weaken; [exact R|].
  intros s' _ Hsm. refine (C69_loaded_state kd lr b1 b2 wd eps b ps k b' ps' k' ob ob2 m v s s' Es Hs E1 _ Hsm Hst). congruence.
Qed.
(** FusedAdamW with dtype "fp32" *)
Theorem C69_fused_from_file to_half to_bf16 kd lr b1 b2 wd eps b ps k b' ps' k' (ob ob' : optobj XR) q q' m v s :
  let o := OAdam kd lr b1 b2 wd eps in
  map (fun p => t_shape (PyModels.bt b (Val p))) ps = map (fun p => t_shape (PyModels.bt b' (Val p))) ps' ->
  state_shaped b ps k -> oo_moments ob = moment_tensors b ps k -> oo_moments ob' = moment_tensors b' ps' k' ->
  let '(r1, f) := fused_save to_half to_bf16 Torch ob FP32 q in
  let '(r2, ob2) := fused_load ob' f q' in
  saveable s (moments_of ob) q -> loadable s (arrays_of f) (moments_of ob') q' -> opt_state o b ps k m v s ->
  runs_nd (then_ r1 r2) s (fun s' => opt_state o b' ps' k' m v s') /\ oo_hyper ob2 = oo_hyper ob.
Proof.
  intros o Es Hs E1 E2.
  assert (Hl : List.length (oo_moments ob') = List.length (oo_moments ob)).
  { rewrite E1, E2. unfold moment_tensors. rewrite !map_length. apply (f_equal (@List.length _)) in Es. rewrite !map_length in Es. congruence. }
  pose proof (C68_fused_checkpoint to_half to_bf16 Torch ob ob' FP32 q q' s ltac:(discriminate) (or_introl eq_refl) Hl) as H. destruct (fused_save to_half to_bf16 Torch ob FP32 q) as [r1 f]. destruct (fused_load ob' f q') as [r2 ob2].
  intros H1 H2 Hst. destruct (H H1 H2) as (R & Hh & Em). split; [|exact Hh]. eapply nd_weaken; [exact R|].
  intros s' _ Hsm. refine (C69_loaded_state kd lr b1 b2 wd eps b ps k b' ps' k' ob ob2 m v s s' Es Hs E1 _ Hsm Hst). congruence.
Qed.
