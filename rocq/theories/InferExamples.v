(** * The hypotheses of C74 can be met *)
From Coq Require Import Reals Lra.
From Verif Require Import Base Spec Geometry Traits TraitsProofs Runtime Ops RealOps TensorSem ElemGeneric Concrete Axis SliceGeo Sequence XReals NdRuns AnyRuns Serial2 RSum AttnSpec MatOps CrossEntropy XTriples HasRuns TapeMath Tape PyLayers PyLinear AttMath PyAdam PropAdam PyModels BuildEnv GptBuild BuildModel OptBuild OptState GptSpec GptModel GptRun PropGpt GptTrain GptTrain GptExamples GptTrainExamples PyMixer MixerRuns MixSpec MixModel MixExamples SegTrain MixTrainExamples ReluSpec ReluBuild ReluModel PropRelu ReluExamples PropInfer InferTrain.
Local Close Scope R_scope.
Local Open Scope list_scope.
Local Open Scope Z_scope.

(** Training on one batch with Adam, the second batch evaluated, then training on it *)
Theorem C74_example : exists b labels d1 d2 s,
  let shapes := relu_shapes SideR [4; 3] 6 true 2 7 in
  let loss := fun mbs P => fold_right (fun d z => (1 * samples_cross_entropy [5]%Z 7 (flab d) (preact SideR [4; 3]%Z 6 true (fval d) P 2) + z)%R) 0%R mbs in
  relu_ready labels b [5] [4; 3] [d1; d2] 6 start_one s /\
  runs_any (then_ (relu_train 1 adam images labels b 1 [[d1]]) (evaluate (fx d2) images b)) s (fun s' => exists P' m' v' hist,
    opt_iterates adam shapes 1 [loss [d1]] start_one (fun _ _ => 0%R) (fun _ _ => 0%R) P' m' v' hist /\
    forall t v, inb [5] t -> 0 <= v < 7 -> elem s' (PyModels.bt b (Val (out_node b))) (v :: t) = Fin (preact SideR [4; 3]%Z 6 true (fval d2) P' 2 t v)) /\
  runs_any (then_ (relu_train 1 adam images labels b 1 [[d1]]) (then_ (evaluate (fx d2) images b) (relu_train 1 adam images labels b 2 [[d2]]))) s (fun s' => exists P' m' v' hist,
    opt_iterates adam shapes 1 [loss [d1]; loss [d2]] start_one (fun _ _ => 0%R) (fun _ _ => 0%R) P' m' v' hist /\ relu_ready labels b [5] [4; 3] [d1; d2] 6 P' s').
Proof.
  assert (W1 : wf_tensor images) by (apply std_wf; [reflexivity|repeat constructor; lia|repeat constructor; lia]).
  assert (T1 : tens images ([4; 3] ++ [5]) ([3; 2] ++ [2])) by (repeat split).
  assert (H1 : forall k, In k (tile_handles images) -> k < 12) by (intros k Hk; apply std_handles in Hk; vm_compute in Hk |- *; intuition congruence).
  assert (Ho : opt_ok adam) by (cbn; unfold hyper; lra).
  assert (HG : rdims [5] [2] [4; 3] [3; 2] 6 4 7) by (split; repeat split; repeat constructor; lia).
  destruct (C74_trained_deep_relu [5] [2] [4; 3] [3; 2] 6 4 7 true images 2 12 adam HG ltac:(lia) W1 T1 H1 Ho) as (b0 & labels & b1 & b & E1 & E2 & E3 & HT).
  destruct (C66_state_exists [5] [2] [4; 3] [3; 2] 6 4 7 true images 2 12 adam b0 labels b1 b HG ltac:(lia) W1 T1 H1 E1 E2 E3 start_one
    [(img_a, lab1); (img_b, lab2)]) as (data & s & D1 & D2 & D3).
  { intros X lab Hin t _. assert (R1 : forall z, 0 <= z mod 7 < 7) by (intros; apply Z.mod_pos_bound; lia).
    cbn [In] in Hin. destruct Hin as [Hin|[Hin|[]]]; injection Hin as <- <-; apply R1. }
  destruct data as [|d1 [|d2 [|]]]; try discriminate D1.
  exists b, labels, d1, d2, s. intros shapes loss. split; [exact D3|].
  assert (HX : forall d, In d [d1; d2] -> forall idx, (0 <= fval d idx)%R).
  { cbn [map] in D1. injection D1 as Ea _ Eb _. intros d [<-|[<-|[]]]; [rewrite Ea; intros; apply Rabs_pos|rewrite Eb; intros; unfold img_b; lra]. }
  assert (H0 : forall j idx, (1 <= start_one j idx)%R) by (intros; unfold start_one; pose proof (Rabs_pos (IZR (@List.hd Z 0%Z idx))); lra).
  assert (C : forall mbs, In mbs [[d1]; [d2]] -> incl mbs [d1; d2]).
  { intros mbs [<-|[<-|[]]] d Hd; cbn [In] in *; tauto. }
  assert (Sm : forall done mbs rest P1 m1 v1 hist, [[d1]; [d2]] = done ++ mbs :: rest ->
    opt_iterates adam shapes 1 (map loss done) start_one (fun _ _ => 0%R) (fun _ _ => 0%R) P1 m1 v1 hist -> forall d, In d mbs ->
    forall k t i, (k < 2)%nat -> inb [5] t -> 0 <= i < 6 -> preact SideR [4; 3]%Z 6 true (fval d) P1 k t i <> 0%R).
  { intros done mbs rest P1 m1 v1 hist Eq Hit d Hd k t i _ _ _. apply Rgt_not_eq.
    assert (Hin : In d [d1; d2]) by (apply (C mbs); [rewrite Eq; apply in_or_app; right; left; reflexivity|exact Hd]).
    assert (HP : forall j idx, (0 < P1 j idx)%R).
    { destruct done as [|y [|z [|? done]]]; cbn [app] in Eq.
      - cbn [map opt_iterates] in Hit. destruct Hit as (-> & _). intros j idx. specialize (H0 j idx). lra.
      - injection Eq as <- Eq. cbn [map opt_iterates] in Hit. destruct Hit as (P3 & m3 & v3 & h3 & (g & _ & Hp & _) & _ & (-> & _)).
        intros j idx. rewrite Hp. pose proof (first_step (g j idx) (start_one j idx)). specialize (H0 j idx). cbn [opt_first adam] in *. lra.
      - discriminate Eq.
      - discriminate Eq. }
    apply preact_pos; [apply HX; exact Hin|intros; specialize (HP (2 * j)%nat idx); lra|intros; apply HP]. }
  specialize (HT [d1; d2] [[d1]] d2 [[d2]] 1%R start_one s). cbv zeta in HT. cbn [opt_first adam app] in HT. change (1 + zlen [[d1]])%Z with 2%Z in HT.
  destruct HT as [HA HB]; [exact D2|right; left; reflexivity|exact C|exact Sm|exact D3|].
  split.
  - eapply any_weaken; [exact HA|]. intros s' _ (P' & m' & v' & hist & Q1 & _ & Q3). exists P', m', v', hist. split; [exact Q1|exact Q3].
  - eapply any_weaken; [exact HB|]. intros s' _ (P' & m' & v' & hist & Q1 & Q2 & _). exists P', m', v', hist. split; [exact Q1|exact Q2].
Qed.
