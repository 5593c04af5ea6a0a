(** * The hypotheses of C77 can be met *)
From Coq Require Import Reals Lra.
From Coquelicot Require Import Coquelicot.
From Verif Require Import Base Spec Geometry Traits TraitsProofs Runtime Ops RealOps TensorSem ElemGeneric Concrete Axis SliceGeo Sequence XReals NdRuns AnyRuns Serial2 RSum AttnSpec MatOps CrossEntropy XTriples HasRuns TapeMath Tape PyLayers PyLinear AttMath PyAdam PropAdam PyModels BuildEnv GptBuild BuildModel OptBuild OptState GptSpec GptModel GptRun PropGpt GptTrain GptExamples GptTrainExamples PyMixer MixerRuns MixSpec MixModel MixExamples SegTrain MixTrainExamples ReluSpec ReluBuild ReluModel PropRelu ReluExamples PropInfer InferTrain LinBuild PropDeepLinear LinExamples LinTrain.
Local Close Scope R_scope.
Local Open Scope list_scope.
Local Open Scope Z_scope.

Lemma gen_frob_finite o b b' : gen_frob o b = Ok b' -> finite b -> finite b'.
Proof.
  intros H Hb. unfold gen_frob in H. ob H. eapply alloc_finite; [|exact H]. eapply alloc_finite; [|eassumption]. eapply alloc_finite; [|eassumption]. eapply alloc_finite; [|eassumption]. exact Hb.
Qed.
(** any input, target, parameters and gradients can be put into a constructed model with its loss *)
Theorem C77_state_exists sd sI bI d db add addb n x next b0 b :
  rdims sI bI [d] [db] add addb d -> (0 < n)%nat -> wf_tensor x -> tens x (lin_x sd sI [d]) (lin_x sd bI [db]) -> (forall k, In k (tile_handles x) -> k < next) ->
  deep_linear sd 1 add addb (S n) (input_build x None next) = Ok b0 -> gen_frob (out_node b0) b0 = Ok b ->
  forall X P Q tgt, exists s, (forall v t, b_mem b v = Some t -> stored KF s t) /\
      (forall idx, inb (t_shape x) idx -> elem s x idx = Fin (X idx)) /\
      (forall j idx, (j < List.length (bm_params b))%nat -> inb (t_shape (rpval b j)) idx -> elem s (rpval b j) idx = Fin (P j idx)) /\
      (forall j idx, (j < List.length (bm_params b))%nat -> inb (t_shape (rpgrad b j)) idx -> elem s (rpgrad b j) idx = Fin (Q j idx)) /\
      (forall idx, inb (t_shape (PyModels.bt b (Tmp (S n) 1))) idx -> elem s (PyModels.bt b (Tmp (S n) 1)) idx = Fin (tgt idx)).
Proof.
  intros HG Hn Wx Tx Hh E1 EF X P Q tgt. destruct (low_handles x next Hh) as (lo & Hlo & Hr).
  assert (Hdb : (0 < db)%Z) by (destruct HG as [_ (_ & _ & F) _ _ _]; inversion F; assumption).
  pose proof (deep_linear_ok sd sI bI d db add addb n HG Hdb x lo next Hn Wx Tx Hlo Hr) as H1. rewrite E1 in H1. cbn [okp] in H1. destruct H1 as [H0 HF].
  assert (O0 : out_node b0 = (3 * n + 3)%nat) by exact (act_last b0 _ n (lm_acts _ _ _ _ _ _ _ _ _ _ _ _ H0)).
  assert (L0 : lid b0 = S n) by (unfold lid; rewrite (lm_layers _ _ _ _ _ _ _ _ _ _ _ _ H0), map_length, seq_length; reflexivity).
  assert (So := s_out sd sI bI d db add addb n x lo b0 H0).
  assert (Fy : fit (lin_y sd sI [d]) (lin_y sd bI [db])).
  { destruct HG as [(G1 & G2 & G3) (G4 & G5 & G6) _ _ _]. clear - G1 G2 G3 G4 G5 G6. unfold fit, zlen in *. destruct sd; cbn [lin_y]; rewrite !app_length; (split; [lia|split; apply Forall_app; split; assumption]). }
  pose proof (gen_frob_ok lo (out_node b0) _ _ b0 (lm_inv _ _ _ _ _ _ _ _ _ _ _ _ H0) HF ltac:(rewrite O0; exact So) Fy) as H2. rewrite EF in H2. cbn [okp] in H2.
  destruct H2 as (I1 & I2 & I3 & I4 & I5 & Ty & _). rewrite L0 in *.
  assert (HB : lmade sd sI bI d db add addb n x lo (S n) b).
  { destruct H0 as [h1 h2 h3 h4 h5 h6 h7]. split; try congruence; [intros C; lia|apply I2; exact h6|]. intros j i tr Hj Hi. eapply hasn_ext; [exact I2|exact (h7 j i tr Hj Hi)]. }
  destruct (gen_frob_finite _ _ _ EF (deep_linear_finite _ _ _ _ _ _ _ _ E1)) as [names Hnames].
  assert (EP := dl_params sd sI bI d db add addb n x lo b HB). assert (ND := dl_ps_nodup n).
  set (f := fun v : gvar => match v with Val O => X | Val m => P (index m (bm_params b)) | Grad m => Q (index m (bm_params b)) | Tmp _ _ => tgt end).
  destruct (fill_ok b lo f I1 (fun _ => BF []) names) as (s & _ & _ & F3).
  assert (Nth : forall j, (j < List.length (bm_params b))%nat -> exists m, nth j (bm_params b) O = S m /\ index (S m) (bm_params b) = j /\ exists tr, hasn b (S m) tr).
  { intros j Hj. assert (Hin : In (nth j (bm_params b) O) (bm_params b)) by (apply nth_In; exact Hj).
    rewrite EP in Hin. assert (N0 : nth j (bm_params b) O <> O) by (rewrite EP; intros C; rewrite C in Hin; inversion ND; contradiction).
    apply dl_ps_in in Hin as (k & Hk & Hm). rewrite <- EP in Hm.
    destruct (dl_node sd sI bI d db add addb n x lo b HB (nth j (bm_params b) O) ltac:(lia)) as (tr & H).
    destruct (nth j (bm_params b) O) as [|m] eqn:E; [congruence|]. exists m. split; [reflexivity|]. split; [rewrite <- E; apply index_nth; [rewrite EP; inversion ND; assumption|exact Hj]|exists tr; exact H]. }
  exists s. split; [|split; [|split; [|split]]].
  - intros v t Hv. apply (F3 v t); [apply Hnames; congruence|exact Hv].
  - apply (F3 (Val 0) x); [apply Hnames|]; rewrite (lm_x _ _ _ _ _ _ _ _ _ _ _ _ HB); congruence.
  - intros j idx Hj Hi. unfold rpval in *. destruct (Nth j Hj) as (m & E & Ei & tr & (t & T1 & _) & _). rewrite E in *.
    unfold PyModels.bt in *. rewrite T1 in *. destruct (F3 (Val (S m)) t ltac:(apply Hnames; congruence) T1) as [_ F4]. rewrite F4 by exact Hi. unfold f. rewrite Ei. reflexivity.
  - intros j idx Hj Hi. unfold rpgrad in *. destruct (Nth j Hj) as (m & E & Ei & tr & _ & (t & T1 & _)). rewrite E in *.
    unfold PyModels.bt in *. rewrite T1 in *. destruct (F3 (Grad (S m)) t ltac:(apply Hnames; congruence) T1) as [_ F4]. rewrite F4 by exact Hi. unfold f. rewrite Ei. reflexivity.
  - intros idx Hi. destruct Ty as (t & T1 & _). unfold PyModels.bt in *. rewrite T1 in *. destruct (F3 (Tmp (S n) 1) t ltac:(apply Hnames; congruence) T1) as [_ F4]. exact (F4 idx Hi).
Qed.
(** three layers 4 -> 6 -> 6 -> 4 over 5 samples in tiles *)
Theorem C77_example : exists b s, 
  runs_nd (frob_step b) s (fun s' =>
    elem s' (PyModels.bt b (Tmp 3 0)) [] = Fin (half_squares [4; 5] (chain_out SideR 4 6 3 (fun l => IZR (@List.hd Z 0%Z l)) (fun j l => INR j)) (fun _ => 7%R)) /\
    forall j idx, (j < 6)%nat -> inb (t_shape (rpval b j)) idx -> exists g, elem s' (rpgrad b j) idx = Fin g /\
      is_derive (fun z => half_squares [4; 5] (chain_out SideR 4 6 3 (fun l => IZR (@List.hd Z 0%Z l)) (vary (fun j l => INR j) j idx z)) (fun _ => 7%R)) (INR j) (g - 1)%R).
Proof.
  assert (W1 : wf_tensor signal) by (apply std_wf; [reflexivity|repeat constructor; lia|repeat constructor; lia]).
  assert (T1 : tens signal (lin_x SideR [5] [4]) (lin_x SideR [2] [3])) by (repeat split).
  assert (H1 : forall k, In k (tile_handles signal) -> k < 12) by (intros k Hk; apply std_handles in Hk; change (0 <= k < 6) in Hk; lia).
  assert (HG : rdims [5] [2] [4] [3] 6 4 4) by (split; repeat split; repeat constructor; lia).
  destruct (C77_deep_linear_step SideR [5] [2] 4 3 6 4 2 signal 12 HG ltac:(lia) W1 T1 H1) as (b0 & b & E1 & E2 & HS). cbv zeta in HS.
  destruct HS as (_ & _ & _ & Eo & EL & HF). rewrite Eo in HF. change (lin_y SideR [5] [4]) with [4; 5] in HF.
  destruct (C77_state_exists SideR [5] [2] 4 3 6 4 2 signal 12 b0 b HG ltac:(lia) W1 T1 H1 E1 E2 (fun l => IZR (@List.hd Z 0%Z l)) (fun j l => INR j) (fun _ _ => 1%R) (fun _ => 7%R)) as (s & S1 & S2 & S3 & S4 & S5).
  exists b, s. eapply nd_weaken; [apply (HF _ _ _ _ s S1 S2 S3 S4 S5)|]. intros s' _ (_ & Q2 & _ & Q4). split; [exact Q2|].
  intros j idx Hj Hi. rewrite EL in Q4. destruct (Q4 j idx ltac:(lia) Hi) as (_ & g & R1 & R2). exists g. split; [exact R1|exact R2].
Qed.
