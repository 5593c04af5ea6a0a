(** * The hypotheses of C72 can be met *)
From Coq Require Import String Reals Lra.
From Verif Require Import Base Spec Geometry Traits TraitsProofs Runtime Ops RealOps TensorSem ElemGeneric Concrete Axis SliceGeo Sequence XReals NdRuns AnyRuns RSum AttnSpec MatOps CrossEntropy XTriples HasRuns TapeMath Tape PyLayers PyLinear PySimple AttMath PyModels BuildEnv GptBuild BuildModel GptSpec GptModel PropGpt GptExamples NumpyIO PropNumpy Checkpoint PropCheckpoint GptTorch PropTorch PropTorchBack PropTorchGpt TorchExamples PyMixer MixerRuns MixSpec MixerSeg PropMixer PyMixModels MixBuild MixModel PropMixModel MixExamples MixTorchSpec MixTorch PropDeriv PropMixTorch.
Import ListNotations.
Local Close Scope string_scope.
Local Close Scope R_scope.
Local Open Scope list_scope.
Local Open Scope Z_scope.

(** For every model C72 speaks about and all contents there is a state in which the loading starts. *)
Theorem C72_state_exists C B bt E Q Qt V x layers next os b0 labels b :
  mdims C B bt E Q Qt V -> (0 < layers)%nat -> wf_tensor x -> tens x [C; B; Q] [C; bt; Qt] -> (forall k, In k (tile_handles x) -> (k < next)%Z) ->
  mlp_mixer x E layers V next = Ok (os, b0) -> gen_cross_entropy (last_out os) b0 = Ok (labels, b) ->
  forall X lab G L0 l, map n_shape l = map t_shape (mixer_params_of os b) -> exists mem q s,
    room s mem q (mixer_params_of os b) /\ holds_arrays s mem l /\
    (forall j t, (j < 2 + 8 * layers)%nat -> t = labels \/ (exists v, b_mem b v = Some t) -> ~ In (sl_next (q j)) (tile_handles t)) /\
    mixer_unloaded os b x labels C B Q X lab (2 + 8 * layers) G L0 s.
Proof.
  intros HG Hn Wx Tx Hh E1 E2 X lab G L0 l ES.
  destruct (C63_state_exists C B bt E Q Qt V x layers next os b0 labels b HG Hn Wx Tx Hh E1 E2 X lab (fun _ _ => 0%R) G L0) as (s & Hs).
  assert (Hlo : exists lo, (lo <= next)%Z /\ forall k, In k (tile_handles x) -> (lo <= k)%Z).
  { clear - next. induction (tile_handles x) as [|k l (lo & H1 & H2)]; [exists next; split; [lia|intros ? []]|]. exists (Z.min lo k). split; [lia|]. intros k' [<-|H]; [lia|]. specialize (H2 _ H). lia. }
  destruct Hlo as (lo & Hlo & Hlo'). assert (Hr : forall k, In k (tile_handles x) -> (lo <= k < next)%Z) by (intros k Hk; auto).
  pose proof (mlp_mixer_ok C B bt E Q Qt V HG x layers lo next Hn Wx Tx Hlo Hr) as H1. rewrite E1 in H1. cbn [okp] in H1. destruct H1 as (-> & HB & Ht).
  assert (El := mlid_eq C B bt E Q Qt V x layers lo b0 HB). assert (Eo := mout_eq layers).
  destruct (mb_post _ _ _ _ _ _ _ _ _ _ _ HB 3%nat _ eq_refl) as [N1 _]. cbn [fst snd] in N1.
  assert (HF : fit [V; B] [V; bt]) by (destruct HG; apply fit2; assumption).
  pose proof (gen_ce_ok lo (mfirst layers + 3) V [B] [bt] b0 (mb_inv _ _ _ _ _ _ _ _ _ _ _ HB) Ht N1 HF) as H2.
  rewrite <- Eo, E2 in H2. cbn [okp] in H2.
  destruct H2 as (HI & HX & Hn' & HL & HA & Wl & (Sl & Bl & _) & Hl & Dl & C0 & C1 & C2 & _). rewrite El in C0.
  assert (HB' := mbuilt_ext _ _ _ _ _ _ _ _ _ _ _ _ HB HI HX Hn' HL).
  destruct (bounded (tile_handles labels)) as (B1 & HB1). set (Bd := Z.max B1 (b_next b)).
  assert (KM : forall v t, b_mem b v = Some t -> forall k, In k (tile_handles t) -> k < Bd).
  { intros v t Hv k Hk. pose proof (bi_rng _ _ HI v t k Hv Hk). unfold Bd. lia. }
  assert (OLD : forall t, t = labels \/ (exists v, b_mem b v = Some t) -> forall k, In k (tile_handles t) -> k < Bd).
  { intros t [->|(v & Hv)] k Hk; [specialize (HB1 k Hk); unfold Bd; lia|exact (KM v t Hv k Hk)]. }
  assert (OLD' : forall t, t = labels \/ (exists v, b_mem b v = Some t) -> forall k, In k (tile_handles t) -> add_arrays Bd l s k = s k).
  { intros t Ht' k Hk. apply add_old. exact (OLD t Ht' k Hk). }
  assert (EPm := mm_params_eq layers). assert (PL := mparams_len layers). assert (PD := mparams_nodup layers).
  assert (PM : forall j t, nth_error (mixer_params_of (all_objs layers) b) j = Some t -> b_mem b (Val (nth j (m_params layers) O)) = Some t /\ (j < 2 + 8 * layers)%nat).
  { intros j t Hj. assert (Hlt : (j < List.length (mixer_params_of (all_objs layers) b))%nat) by (apply nth_error_Some; congruence). unfold mixer_params_of in Hlt. rewrite map_length, EPm, PL in Hlt. split; [|exact Hlt].
    destruct (mixer_param_nodes C B bt E Q Qt V x layers lo b HB' j Hlt) as (_ & tr & (u & U1 & _) & _). rewrite U1. rewrite <- Hj. unfold mixer_params_of. symmetry.
    erewrite (map_nth_error (fun m => PyModels.bt b (Val m))); [|apply nth_error_nth'; rewrite EPm, PL; exact Hlt]. rewrite EPm. unfold PyModels.bt. rewrite U1. reflexivity. }
  exists (ex_mem Bd), (ex_q Bd), (add_arrays Bd l s). split; [|split; [|split]].
  - apply add_room; [exact ES| |].
    + intros t Ht'. apply In_nth_error in Ht' as (j & Hj). destruct (PM j t Hj) as [Hm' _]. split; [exact (bi_wf _ _ HI _ _ Hm')|]. split; [exact (ms_alloc _ _ _ _ _ _ _ _ _ _ _ _ _ _ Hs _ _ Hm')|exact (KM _ _ Hm')].
    + intros i j t u Hij H3 H4. destruct (PM i t H3) as [M3 L3], (PM j u H4) as [M4 L4]. eapply (bi_disj _ _ HI); [exact M3|exact M4|]. intros K. injection K as K. apply Hij.
      assert (ND : NoDup (m_params layers)) by (inversion PD; assumption).
      apply (proj1 (NoDup_nth (m_params layers) 0%nat) ND i j); [rewrite PL; lia|rewrite PL; lia|exact K].
  - apply add_holds.
  - intros j t Hj Ht' K. unfold ex_q in K. cbn [sl_next] in K. specialize (OLD t Ht' _ K). unfold slot_k in *. lia.
  - destruct Hs as [u1 u2 [u3 u3'] u4 u5 u6]. split.
    + intros v t Hv. eapply stored_ext; [exact (bi_wf _ _ HI _ _ Hv)|apply OLD'; right; eauto|exact (u1 v t Hv)].
    + intros c t q Hc Ht0 Hq. rewrite <- (u2 c t q Hc Ht0 Hq). destruct Tx as (Tx1 & _). apply elem_ext; [exact Wx|rewrite Tx1; repeat constructor; lia|]. apply OLD'. right. exists (Val 0). exact (mb_x _ _ _ _ _ _ _ _ _ _ _ HB').
    + assert (O := OLD' labels ltac:(left; reflexivity)). split; [eapply stored_ext; [exact Wl|exact O|exact u3]|]. intros t Ht0. rewrite <- (u3' t Ht0). apply ielem_ext; [exact Wl|rewrite Sl; repeat constructor; lia|exact O].
    + intros j idx Hj Hx. rewrite <- (u5 j idx Hj Hx). destruct (mixer_param_nodes C B bt E Q Qt V x layers lo b HB' j Hj) as (_ & tr & _ & (y & Y1 & _)).
      assert (Ey : mpgrad (all_objs layers) b j = y) by (unfold mpgrad, PyModels.bt; rewrite EPm, Y1; reflexivity). rewrite Ey in *. apply elem_ext; [exact (bi_wf _ _ HI _ _ Y1)|exact Hx|apply OLD'; right; eauto].
    + rewrite <- u6. destruct (hast_U b _ _ _ C0) as (U0 & S0 & B0). destruct (bU_inv b _ U0) as (t & Et & Eb).
      assert (Elv : loss_val b = PyModels.bt b (Tmp (2 + 8 * layers) 0)) by (unfold loss_val; rewrite (mlid_eq C B bt E Q Qt V x layers lo b HB'); reflexivity).
      rewrite Elv. rewrite Eb in *. apply elem_ext; [exact (bi_wf _ _ HI _ _ Et)|rewrite S0; constructor|apply OLD'; right; eauto].
Qed.

(** ** One Mixer layer: 2 patches, 3 features, 4 pixels, 5 classes; every torch element says which it is *)
Definition tagged_mixer : list (narr Z) := parameters_of (torch_mixer_shapes 2 3 4 5 1) tag.
Theorem C72_example : exists l, mixer_dims tagged_mixer = Ok (3, 4, 2) /\ mixer_layers tagged_mixer = 1%nat /\
  mixer_arrays (mixer_shapes 2 3 4 5 1) tagged_mixer = Ok l /\ map n_shape l = mixer_shapes 2 3 4 5 1 /\
  (* pixel 3 to feature 1: torch's weight [1, 3] *)
  n_at (nth 0 l (mkN [] (fun _ => 0))) [3; 1] = 103 /\
  (* inner channel 7 from patch 1: not transposed *)
  n_at (nth 3 l (mkN [] (fun _ => 0))) [7; 1] = 3701 /\
  (* feature 2 to inner feature 11: torch's [11, 2] *)
  n_at (nth 7 l (mkN [] (fun _ => 0))) [2; 11] = 8102.
Proof. eexists. split; [reflexivity|]. split; [reflexivity|]. split; [reflexivity|]. repeat split; reflexivity. Qed.
(** 4 features, 4 pixels: the first weight stays as it is, though NNTile's weights are [pixels; features] *)
Theorem C72_example_square : exists l, mixer_arrays (mixer_shapes 2 4 4 5 1) (parameters_of (torch_mixer_shapes 2 4 4 5 1) tag) = Ok l /\
  n_at (nth 0 l (mkN [] (fun _ => 0))) [3; 1] = 301.
Proof. eexists. split; [reflexivity|]. reflexivity. Qed.
(** from_torch makes the model of the first (whatever its numbers are), and raises if the model has
    three parameters *)
Theorem C72_example_made (W : nat -> list Z -> R) : (exists x os b, mixer_of_torch (parameters_of (torch_mixer_shapes 2 3 4 5 1) W) 6 5 0 = Ok (x, os, b) /\ t_shape x = [2; 6; 4]) /\
  exists m, mixer_of_torch (firstn 3 tagged_mixer) 6 5 0 = Throw m.
Proof.
  destruct (mixer_loaded_step 2 6 3 4 5 1 0 ltac:(lia) ltac:(lia) ltac:(lia) ltac:(lia) ltac:(lia) ltac:(lia)) as (x & os & b0 & labels & b & H1 & H2 & H3 & H4).
  split; [|eexists; reflexivity]. exists x, os, b0. split; [apply H1|exact H3].
Qed.
