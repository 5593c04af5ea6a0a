(** * The hypotheses of C75 can be met *)
From Coq Require Import Reals Lra.
From Verif Require Import Base Spec Geometry Traits TraitsProofs Runtime Ops RealOps TensorSem ElemGeneric Concrete Axis SliceGeo Sequence XReals NdRuns AnyRuns Serial2 RSum AttnSpec MatOps CrossEntropy XTriples HasRuns TapeMath Tape PyLayers PyLinear AttMath PyAdam PropAdam PyModels BuildEnv GptBuild BuildModel OptBuild OptState GptSpec GptModel GptRun PropGpt GptTrain GptExamples GptTrainExamples PyMixer MixerRuns MixSpec MixModel MixExamples SegTrain MixTrainExamples ReluSpec ReluBuild ReluModel PropRelu ReluExamples PropInfer InferTrain LinBuild PropDeepLinear.
Local Close Scope R_scope.
Local Open Scope list_scope.
Local Open Scope Z_scope.

Lemma deep_linear_finite sd nd add addb m x next b : deep_linear sd nd add addb m (input_build x None next) = Ok b -> finite b.
Proof.
  intros H. unfold deep_linear in H.
  assert (F0 : finite (input_build x None next)).
  { exists [Val 0]. intros v Hv. cbn [input_build b_mem] in Hv. destruct v as [[|?]|[|?]|? ?]; try congruence. left. reflexivity. }
  destruct (Z.of_nat m <? 2)%Z; [discriminate|]. destruct (nd <=? 0)%Z; [discriminate|]. cbn [throw_if] in H. cbv zeta in H.
  destruct (match sd with SideL => _ | SideR => _ end) as [ns nb]. ob H.
  assert (F1 : finite a) by (eapply push_finite; [|exact E]; intros d b1; apply linear_finite; exact F0).
  assert (F2 : finite a0) by (eapply (repeat_finite _ _ a); [|exact F1|exact E0]; intros b1 b2 Hb Hp; eapply push_finite; [|exact Hp]; intros d b3; apply linear_finite; exact Hb).
  eapply push_finite; [|exact H]; intros d b1; apply linear_finite; exact F2.
Qed.
(** any input and any parameters can be put into a constructed model *)
Theorem C75_state_exists sd sI bI d db add addb n x next b :
  rdims sI bI [d] [db] add addb d -> (0 < n)%nat -> wf_tensor x -> tens x (lin_x sd sI [d]) (lin_x sd bI [db]) -> (forall k, In k (tile_handles x) -> k < next) ->
  deep_linear sd 1 add addb (S n) (input_build x None next) = Ok b ->
  forall X P, exists s, (forall v t, b_mem b v = Some t -> stored KF s t) /\
      (forall idx, inb (t_shape x) idx -> elem s x idx = Fin (X idx)) /\
      (forall j idx, (j < List.length (bm_params b))%nat -> inb (t_shape (rpval b j)) idx -> elem s (rpval b j) idx = Fin (P j idx)).
Proof.
  intros HG Hn Wx Tx Hh E1 X P. destruct (low_handles x next Hh) as (lo & Hlo & Hr).
  assert (Hdb : (0 < db)%Z) by (destruct HG as [_ (_ & _ & F) _ _ _]; inversion F; assumption).
  pose proof (deep_linear_ok sd sI bI d db add addb n HG Hdb x lo next Hn Wx Tx Hlo Hr) as H1. rewrite E1 in H1. cbn [okp] in H1. destruct H1 as [H1 _].
  destruct (deep_linear_finite _ _ _ _ _ _ _ _ E1) as [names Hnames].
  assert (EP := dl_params sd sI bI d db add addb n x lo b H1). assert (ND := dl_ps_nodup n).
  set (f := fun v : gvar => match v with Val O => X | Val m => P (index m (bm_params b)) | _ => fun _ => 0%R end).
  destruct (fill_ok b lo f (lm_inv _ _ _ _ _ _ _ _ _ _ _ _ H1) (fun _ => BF []) names) as (s & _ & _ & F3).
  exists s. split; [|split].
  - intros v t Hv. apply (F3 v t); [apply Hnames; congruence|exact Hv].
  - apply (F3 (Val 0) x); [apply Hnames|]; rewrite (lm_x _ _ _ _ _ _ _ _ _ _ _ _ H1); congruence.
  - intros j idx Hj Hi. unfold rpval in *. assert (Hin : In (nth j (bm_params b) O) (bm_params b)) by (apply nth_In; exact Hj).
    rewrite EP in Hin. assert (N0 : nth j (bm_params b) O <> O) by (rewrite EP; intros C; rewrite C in Hin; inversion ND; contradiction).
    apply dl_ps_in in Hin as (k & Hk & Hm). rewrite <- EP in Hm.
    destruct (dl_node sd sI bI d db add addb n x lo b H1 (nth j (bm_params b) O) ltac:(lia)) as (tr & (t & T1 & _) & _).
    unfold PyModels.bt in *. rewrite T1 in *. assert (Hn1 : In (Val (nth j (bm_params b) O)) names) by (apply Hnames; rewrite T1; discriminate). destruct (F3 _ t Hn1 T1) as [_ F4]. rewrite F4 by exact Hi. unfold f.
    destruct (nth j (bm_params b) O) eqn:E; [congruence|]. rewrite <- E. f_equal. rewrite index_nth; [reflexivity| |exact Hj]. rewrite EP. inversion ND; assumption.
Qed.
Definition signal : tensor := std_tensor [4; 5] [3; 2] 0.
Theorem C75_example : exists b s, deep_linear SideR 1 6 4 3 (input_build signal None 12) = Ok b /\
  runs_nd (bm_forward mreq b) s (fun s' => forall t v, inb [5] t -> 0 <= v < 4 ->
    elem s' (PyModels.bt b (Val (out_node b))) (v :: t) = Fin (chain SideR 4 6 (fun l => IZR (@List.hd Z 0%Z l)) (fun j l => INR j) 3 t [v])) /\
  (forall b', deep_linear SideR 2 6 4 3 (input_build signal None 12) <> Ok b').
Proof.
  assert (W1 : wf_tensor signal) by (apply std_wf; [reflexivity|repeat constructor; lia|repeat constructor; lia]).
  assert (T1 : tens signal (lin_x SideR [5] [4]) (lin_x SideR [2] [3])) by (repeat split).
  assert (H1 : forall k, In k (tile_handles signal) -> k < 12) by (intros k Hk; apply std_handles in Hk; change (0 <= k < 6) in Hk; lia).
  assert (HG : rdims [5] [2] [4] [3] 6 4 4) by (split; repeat split; repeat constructor; lia).
  destruct (C75_deep_linear_forward SideR [5] [2] 4 3 6 4 2 signal 12 HG ltac:(lia) W1 T1 H1) as (b & E1 & _ & _ & _ & HF).
  destruct (C75_state_exists SideR [5] [2] 4 3 6 4 2 signal 12 b HG ltac:(lia) W1 T1 H1 E1 (fun l => IZR (@List.hd Z 0%Z l)) (fun j l => INR j)) as (s & S1 & S2 & S3).
  exists b, s. split; [exact E1|]. split.
  - eapply nd_weaken; [apply (HF _ _ s S1 S2 S3)|]. intros s' _ (Q & _). exact Q.
  - apply C75_deep_linear_refuses; [lia|]. vm_compute. congruence.
Qed.
