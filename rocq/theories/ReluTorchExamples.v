(** * The hypotheses of C73 can be met *)
From Coq Require Import String Reals Lra.
From Verif Require Import Base Spec Geometry Traits TraitsProofs Runtime Ops RealOps TensorSem ElemGeneric Concrete Axis SliceGeo Sequence XReals NdRuns AnyRuns Serial2 RSum AttnSpec MatOps CrossEntropy XTriples HasRuns TapeMath Tape PyLayers PyLinear AttMath PyAdam PropAdam PyModels BuildEnv GptBuild BuildModel OptBuild OptState GptSpec GptModel GptRun PropGpt GptTrain GptExamples GptTrainExamples NumpyIO PropNumpy Checkpoint PropCheckpoint GptTorch PropTorch PropTorchBack PropTorchGpt TorchExamples PyMixer MixerRuns MixSpec MixModel MixExamples SegTrain MixTrainExamples ReluSpec ReluBuild ReluModel PropRelu ReluExamples MixTorch PropMixTorch ReluTorch PropReluTorch.
Import ListNotations.
Local Close Scope string_scope.
Local Close Scope R_scope.
Local Open Scope list_scope.
Local Open Scope Z_scope.

(** For every model C73 speaks about, all parameters of the torch model and all data there is a state
    in which the loading starts. *)
Theorem C73_state_exists D B H V bias x layers next o b0 labels b1 b :
  0 < D -> 0 < B -> 0 < H -> 0 < V -> (0 < layers)%nat -> wf_tensor x -> tens x [D; B] [D; B] -> (forall k, In k (tile_handles x) -> k < next) ->
  deep_relu SideR 1 H H (S layers) V bias (input_build x None next) = Ok b0 -> gen_cross_entropy (out_node b0) b0 = Ok (labels, b1) ->
  opt_new o (S (lid b1)) (bm_params b1) b1 = Ok b -> map t_shape (relu_params_of b) = torch_mlp_shapes D H bias layers V ->
  forall W (l : list (arr * (list Z -> Z))), (forall X lab, In (X, lab) l -> forall t, inb [B] t -> 0 <= lab t < V) ->
  exists data mem q s, map (fun d => (fval d, flab d)) data = l /\ (forall d, In d data -> rdata_ok labels [B] [B] [D] [D] V b d) /\
    room s mem q (relu_params_of b) /\ holds_arrays s mem (parameters_of (torch_mlp_shapes D H bias layers V) W) /\
    relu_unloaded labels b B D data q (List.length (torch_mlp_shapes D H bias layers V)) s.
Proof.
  intros hD hB hH hV Hn Wx Tx Hh E1 E2 E3 ES W l Hl0.
  assert (HG : rdims [B] [B] [D] [D] H H V) by (split; repeat split; try (repeat constructor; assumption); try assumption).
  destruct (C66_state_exists [B] [B] [D] [D] H H V bias x layers next o b0 labels b1 b HG Hn Wx Tx Hh E1 E2 E3 (fun _ _ => 0%R) l Hl0) as (data & s & D1 & D2 & [r1 r2 r3 r4]).
  destruct (relu_params_mem [B] [B] [D] [D] H H V bias x layers next o b0 labels b1 b HG Hn Wx Tx Hh E1 E2 E3) as (PM & PD & Wl & lo & HI).
  set (ws := parameters_of (torch_mlp_shapes D H bias layers V) W).
  destruct (bounded (tile_handles labels ++ flat_map (fun d => tile_handles (fx d) ++ tile_handles (fy d)) data)) as (B1 & HB1). set (Bd := Z.max B1 (b_next b)).
  assert (KM : forall v t, b_mem b v = Some t -> forall k, In k (tile_handles t) -> k < Bd).
  { intros v t Hv k Hk. pose proof (bi_rng _ _ HI v t k Hv Hk). unfold Bd. lia. }
  assert (KL : forall k, In k (tile_handles labels) -> k < Bd).
  { intros k Hk. specialize (HB1 k ltac:(apply in_or_app; left; exact Hk)). unfold Bd. lia. }
  assert (KD : forall d, In d data -> forall k, In k (tile_handles (fx d)) \/ In k (tile_handles (fy d)) -> k < Bd).
  { intros d Hd k Hk. specialize (HB1 k ltac:(apply in_or_app; right; apply in_flat_map; exists d; split; [exact Hd|apply in_or_app; exact Hk])). unfold Bd. lia. }
  assert (PN : forall j t, nth_error (relu_params_of b) j = Some t -> exists p, nth_error (bm_params b) j = Some p /\ b_mem b (Val p) = Some t).
  { intros j t Hj. unfold relu_params_of in Hj. destruct (nth_error (bm_params b) j) as [p|] eqn:Ep; [|apply nth_error_None in Ep; assert (j < List.length (map (fun m => PyModels.bt b (Val m)) (bm_params b)))%nat by (apply nth_error_Some; congruence); rewrite map_length in *; lia].
    rewrite (map_nth_error _ _ _ Ep) in Hj. injection Hj as <-. exists p. split; [reflexivity|]. apply PM. eapply nth_error_In; exact Ep. }
  exists data, (ex_mem Bd), (ex_q Bd), (add_arrays Bd ws s). split; [exact D1|]. split; [exact D2|]. split; [|split].
  - apply add_room.
    + unfold ws. rewrite parameters_shapes. symmetry. exact ES.
    + intros t Ht. apply In_nth_error in Ht as (j & Hj). destruct (PN j t Hj) as (p & _ & Hp). split; [exact (bi_wf _ _ HI _ _ Hp)|]. split; [exact (r1 _ _ Hp)|exact (KM _ _ Hp)].
    + intros i j t u Hij Hi Hj. destruct (PN i t Hi) as (p & P1 & P2), (PN j u Hj) as (p' & P1' & P2'). eapply (bi_disj _ _ HI); [exact P2|exact P2'|].
      intros K. injection K as ->. apply Hij. apply (proj1 (NoDup_nth_error (bm_params b)) PD); [apply nth_error_Some; congruence|congruence].
  - apply add_holds.
  - split.
    + intros v t Hv. eapply stored_ext; [exact (bi_wf _ _ HI _ _ Hv)| |exact (r1 v t Hv)]. intros k Hk. apply add_old. exact (KM v t Hv k Hk).
    + eapply stored_ext; [exact Wl| |exact r2]. intros k Hk. apply add_old, KL, Hk.
    + intros d Hd. destruct (r3 d Hd) as (u1 & u2 & u3 & u4). destruct (D2 d Hd) as [(Wfx & Sfx & _) (Wfy & Sfy & _) q1 q2 q3].
      assert (OX : forall k, In k (tile_handles (fx d)) -> add_arrays Bd ws s k = s k) by (intros k Hk; apply add_old, (KD d Hd); left; exact Hk).
      assert (OY : forall k, In k (tile_handles (fy d)) -> add_arrays Bd ws s k = s k) by (intros k Hk; apply add_old, (KD d Hd); right; exact Hk).
      split; [eapply stored_ext; [exact Wfx|exact OX|exact u1]|]. split; [eapply stored_ext; [exact Wfy|exact OY|exact u2]|]. split; [|split].
      * intros k t Hk Ht. assert (Hi : inb ([D] ++ [B]) [k; t]) by (cbn [app]; repeat constructor; lia). rewrite <- (u3 [k; t] Hi). apply elem_ext; [exact Wfx|rewrite Sfx; exact Hi|exact OX].
      * intros t Ht. assert (Hi : inb [B] [t]) by (repeat constructor; lia). rewrite <- (u4 [t] Hi). apply ielem_ext; [exact Wfy|rewrite Sfy; exact Hi|exact OY].
      * intros j _. unfold ex_q. cbn [sl_next]. split; intros K; [specialize (KD d Hd _ (or_introl K))|specialize (KD d Hd _ (or_intror K))]; unfold slot_k in *; lia.
Qed.

(** Three Linear layers with biases, 4 features, 3 rows, 5 hidden features, 2 classes; the torch
    parameters [start_at] (weights at least 0, biases 1/10); Adam, one batch: the hypotheses of C73 hold
    at once, so its conclusion holds, and the loss that is left is torch's at the loaded parameters. *)
Definition lab2 (l : list Z) : Z := (List.hd 0 l) mod 2.
Theorem C73_example : exists x b0 labels b d mem q s,
  relu_of_torch (parameters_of (torch_mlp_shapes 4 5 true 2 2) start_at) 3 2 "relu" 0 = Ok (x, b0) /\ t_shape x = [4; 3] /\
  room s mem q (relu_params_of b) /\ holds_arrays s mem (parameters_of (torch_mlp_shapes 4 5 true 2 2) start_at) /\
  runs_any (then_ (relu_load (parameters_of (torch_mlp_shapes 4 5 true 2 2) start_at) mem q (relu_params_of b)) (relu_train 1 adam x labels b 1 [[d]])) s (fun s' =>
    elem s' (loss_val b) [] = Fin (1 * rows_cross_entropy 3 2 (fun t => lab2 [t]) (torch_mlp 4 5 true img_a start_at 2) + 0)%R).
Proof.
  assert (Ho : opt_ok adam) by (cbn; unfold PyAdam.hyper; lra).
  destruct (C73_pretrained_deep_relu 4 3 5 2 true 2 0 adam ltac:(lia) ltac:(lia) ltac:(lia) ltac:(lia) ltac:(lia) Ho) as (x & b0 & labels & b1 & b & E0 & E2 & E3 & Sx & ES & HT).
  pose proof (E0 start_at) as E1. rewrite relu_of_torch_eq in E1 by lia.
  pose proof (mk_ok 0 [4; 3] [4; 3] (fun _ => [0]) (mkB (fun _ => None) 0 0 [] []) ltac:(apply fit2; lia) eq_refl ltac:(cbn; lia)) as K0. unfold okp in K0.
  destruct (mk_tensor [4; 3] [4; 3] (fun _ => [0]) (mkB (fun _ => None) 0 0 [] [])) as [[y w1]| |]; try contradiction.
  destruct K0 as (Wx & Tx & Hh & _ & N1 & _). cbn [bind] in E1.
  destruct (deep_relu SideR 1 5 5 3 2 true (input_build y None (b_next w1))) as [b0'| |] eqn:E1'; try discriminate. cbn [bind] in E1. injection E1 as -> ->.
  assert (Hh' : forall k, In k (tile_handles x) -> k < b_next w1) by (intros k Hk; apply Hh, Hk).
  destruct (C73_state_exists 4 3 5 2 true x 2 (b_next w1) adam b0 labels b1 b ltac:(lia) ltac:(lia) ltac:(lia) ltac:(lia) ltac:(lia) Wx Tx Hh' E1' E2 E3 ES start_at [(img_a, lab2)]) as (data & mem & q & s & D1 & D2 & D3 & D4 & D5).
  { intros X lab Hin t _. cbn [In] in Hin. destruct Hin as [Hin|[]]; injection Hin as <- <-. unfold lab2. apply Z.mod_pos_bound. lia. }
  destruct data as [|d [|]]; try discriminate D1. cbn [map] in D1. injection D1 as Ea Eb.
  exists x, b0, labels, b, d, mem, q, s. split; [apply E0|]. split; [exact Sx|]. split; [exact D3|]. split; [exact D4|].
  specialize (HT start_at [d] [[d]] 1%R mem q s). cbv zeta in HT.
  eapply any_weaken; [apply HT|].
  - exact D2.
  - intros mbs Hm. cbn [In] in Hm. destruct Hm as [<-|[]]; intros d' Hd; exact Hd.
  - intros done mbs rest P1 m1 v1 hist Eq Hit d' Hd k t i _ _ _. apply Rgt_not_eq.
    assert (Hdone : done = [] /\ mbs = [d]).
    { destruct done as [|z [|z' done]]; cbn [app] in Eq; [injection Eq as -> ->; auto|destruct mbs; discriminate|discriminate]. }
    destruct Hdone as [-> ->]. cbn [map opt_iterates] in Hit. destruct Hit as (-> & _).
    rewrite torch_mlp_preact by lia. apply preact_pos.
    + cbn [In] in Hd. destruct Hd as [<-|[]]. rewrite Ea. intros; apply Rabs_pos.
    + intros j idx. unfold start_at. replace (Nat.even (2 * j)) with true; [apply Rabs_pos|]. symmetry. apply Nat.even_spec. exists j. reflexivity.
    + intros j idx. unfold start_at. replace (Nat.even (S (2 * j))) with false; [lra|]. rewrite Nat.even_succ. symmetry. apply Bool.not_true_iff_false. intros C. apply Nat.odd_spec in C. destruct C. lia.
  - exact D3.
  - exact D4.
  - exact D5.
  - intros s' _ (P' & m' & v' & hist & Q1 & _ & Q3). rewrite Q3 by discriminate. cbn [map opt_iterates] in Q1.
    destruct Q1 as (p1 & m2 & v2 & hist' & _ & -> & _ & _ & _ & ->). cbn [last fold_right]. rewrite Ea, Eb. reflexivity.
Qed.
