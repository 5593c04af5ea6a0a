(** * The hypotheses of C62 and C63 can be met *)
From Coq Require Import Reals Lra.
From Verif Require Import Base Spec Geometry Traits TraitsProofs Runtime Ops RealOps TensorSem ElemGeneric Concrete Axis SliceGeo XReals RSum AttnSpec MatOps CrossEntropy XTriples HasRuns TapeMath Tape PyLayers PyLinear AttMath PyModels BuildEnv GptBuild BuildModel GptSpec GptModel GptRun PropGpt GptExamples PyMixer MixerRuns MixSpec MixerSeg PropMixer PyMixModels MixBuild MixModel PropMixModel.
Local Close Scope R_scope.
Local Open Scope list_scope.
Local Open Scope Z_scope.

Lemma mixmlp_finite x sd b b' : finite b -> gen_mixer_mlp x sd b = Ok b' -> finite b'.
Proof.
  intros Hb H. unfold gen_mixer_mlp in H. ob H.
  assert (F1 : finite a) by (eapply push_finite; [|exact E]; intros d b1; apply linear_finite; assumption).
  assert (F2 : finite a0) by (eapply push_finite; [|exact E0]; intros d b1; apply act_finite; assumption).
  eapply push_finite; [|exact H]. intros d b1. apply linear_finite. assumption.
Qed.
Lemma mixer_finite x b o b' : finite b -> gen_mixer x b = Ok (o, b') -> finite b'.
Proof.
  intros Hb H. unfold gen_mixer in H. ob H. injection H as <- <-.
  assert (F1 : finite a) by (eapply push_finite; [|exact E]; intros d b1; apply norm_finite; assumption).
  assert (F2 : finite a0) by (eapply mixmlp_finite; eassumption).
  assert (F3 : finite a1) by (eapply push_finite; [|exact E1]; intros d b1; apply norm_finite; assumption).
  eapply mixmlp_finite; eassumption.
Qed.
Lemma mixers_finite n : forall os b os' b', finite b -> add_mixers n os b = Ok (os', b') -> finite b'.
Proof.
  induction n as [|n IH]; intros os b os' b' Hb H; cbn [add_mixers] in H; [injection H as <- <-; assumption|]. ob H.
  eapply IH; [|exact H]. eapply mixer_finite; eassumption.
Qed.
Lemma gap_finite x b o b' : finite b -> gen_gap x b = Ok (o, b') -> finite b'.
Proof. intros Hb H. unfold gen_gap in H. ob H. injection H as <- <-. fin. assumption. Qed.
Lemma mlinear_finite x sd k b o b' : finite b -> model_linear x sd k b = Ok (o, b') -> finite b'.
Proof. intros Hb H. unfold model_linear in H. ob H. injection H as <- <-. eapply push_finite; [|exact E]. intros d b1. apply linear_finite. assumption. Qed.
Lemma mlp_mixer_finite x E n V next os b : mlp_mixer x E n V next = Ok (os, b) -> finite b.
Proof.
  intros H. unfold mlp_mixer in H. ob H. injection H as <- <-.
  assert (F0 : finite (input_build x None next)).
  { exists [Val 0]. intros v Hv. cbn [input_build b_mem] in Hv. destruct v as [[|?]|[|?]|? ?]; try congruence. left. reflexivity. }
  repeat match goal with
  | Hb : finite ?b, E : model_linear _ _ _ ?b = Ok (_, ?b') |- _ => assert (finite b') by (exact (mlinear_finite _ _ _ _ _ _ Hb E)); clear E
  | Hb : finite ?b, E : add_mixers _ _ ?b = Ok (_, ?b') |- _ => assert (finite b') by (exact (mixers_finite _ _ _ _ _ Hb E)); clear E
  | Hb : finite ?b, E : gen_gap _ ?b = Ok (_, ?b') |- _ => assert (finite b') by (exact (gap_finite _ _ _ _ Hb E)); clear E
  end. assumption.
Qed.

(** For every model C63 speaks about and all contents there is a state in which the step starts. *)
Theorem C63_state_exists C B bt E Q Qt V x layers next os b0 labels b :
  mdims C B bt E Q Qt V -> (0 < layers)%nat -> wf_tensor x -> tens x [C; B; Q] [C; bt; Qt] -> (forall k, In k (tile_handles x) -> k < next) ->
  mlp_mixer x E layers V next = Ok (os, b0) -> gen_cross_entropy (last_out os) b0 = Ok (labels, b) ->
  forall X lab P G L0, exists s, mixer_state os b x labels C B Q X lab (2 + 8 * layers) P G L0 s.
Proof.
  intros HG Hn Wx Tx Hh E1 E2 X lab P G L0.
  assert (Hlo : exists lo, (lo <= next)%Z /\ forall k, In k (tile_handles x) -> (lo <= k)%Z).
  { clear - next. induction (tile_handles x) as [|k l (lo & H1 & H2)]; [exists next; split; [lia|intros ? []]|]. exists (Z.min lo k). split; [lia|]. intros k' [<-|H]; [lia|]. specialize (H2 _ H). lia. }
  destruct Hlo as (lo & Hlo & Hlo'). assert (Hr : forall k, In k (tile_handles x) -> (lo <= k < next)%Z) by (intros k Hk; auto).
  pose proof (mlp_mixer_ok C B bt E Q Qt V HG x layers lo next Hn Wx Tx Hlo Hr) as H1. rewrite E1 in H1. cbn [okp] in H1. destruct H1 as (-> & HB & Ht).
  assert (El := mlid_eq C B bt E Q Qt V x layers lo b0 HB). assert (Eo := mout_eq layers).
  destruct (mb_post _ _ _ _ _ _ _ _ _ _ _ HB 3%nat _ eq_refl) as [N1 _]. cbn [fst snd] in N1.
  assert (HF : fit [V; B] [V; bt]) by (destruct HG; apply fit2; assumption).
  pose proof (gen_ce_ok lo (mfirst layers + 3) V [B] [bt] b0 (mb_inv _ _ _ _ _ _ _ _ _ _ _ HB) Ht N1 HF) as H2.
  rewrite <- Eo, E2 in H2. cbn [okp] in H2.
  destruct H2 as (HI & HX & Hn' & HL & HA & Wl & (Sl & Bl & _) & Hl & Dl & C0 & C1 & C2 & _).
  assert (HB' := mbuilt_ext _ _ _ _ _ _ _ _ _ _ _ _ HB HI HX Hn' HL).
  assert (Fb : finite b) by (eapply ce_finite; [eapply mlp_mixer_finite; exact E1|exact E2]). destruct Fb as [names Hnames].
  assert (PL := mparams_len layers). assert (PD := mparams_nodup layers). assert (EP := mm_params_eq layers).
  set (ns := 0%nat :: m_params layers) in *.
  set (f := fun v : gvar => match v with Val m => xp X P (index m ns) | Grad m => xp (fun _ => 0%R) G (index m ns) | Tmp _ _ => fun _ => L0 end).
  set (sa := (puti labels (idx1 lab) (fun _ => BF []) : store XR)).
  destruct (fill_ok b lo f HI sa names) as (s & F1 & F2 & F3). exists s.
  assert (Vl : forall k, In k (tile_handles labels) -> s k = sa k).
  { intros k Hk. apply F2. intros v t Hv Hc. exact (Dl v t Hv k Hk Hc). }
  assert (F4 : forall v t, b_mem b v = Some t -> stored KF s t /\ forall idx, inb (t_shape t) idx -> elem s t idx = Fin (f v idx)).
  { intros v t Hv. apply F3; [apply Hnames; congruence|assumption]. }
  assert (F5 : forall v sh ba, hast b v sh ba -> forall idx, inb (t_shape (PyModels.bt b v)) idx -> elem s (PyModels.bt b v) idx = Fin (f v idx)).
  { intros v sh ba (t & Et & _) idx Hidx. unfold PyModels.bt in *. rewrite Et in *. apply (F4 v t Et). assumption. }
  assert (HN : forall j, (j < 2 + 8 * layers)%nat -> exists tr, hasn b (nth j (m_params layers) O) tr).
  { intros j Hj. assert (Hin : In (nth j (m_params layers) O) (m_params layers)) by (apply nth_In; rewrite PL; assumption). revert Hin. generalize (nth j (m_params layers) O) as m. intros m Hin.
    apply in_mparams in Hin as [-> | [(k & Hk & Hin) | -> ]].
    - eexists. apply (mb_pre _ _ _ _ _ _ _ _ _ _ _ HB' 0%nat). reflexivity.
    - apply mparams_range in Hin. assert (exists tr, nth_error (mix_nodes C B bt E) (m - mfirst k) = Some tr) as [tr Etr].
      { destruct (nth_error (mix_nodes C B bt E) (m - mfirst k)) eqn:En; [eauto|]. apply nth_error_None in En. cbn [List.length mix_nodes app] in En. unfold mfirst in *. lia. }
      exists tr. replace m with (mfirst k + (m - mfirst k))%nat by lia. eapply (mb_blk _ _ _ _ _ _ _ _ _ _ _ HB'); [lia|exact Etr].
    - eexists. apply (mb_post _ _ _ _ _ _ _ _ _ _ _ HB' 2%nat). reflexivity. }
  assert (EI : forall j, (j < 2 + 8 * layers)%nat -> index (nth j (m_params layers) O) ns = S j).
  { intros j Hj. change (nth j (m_params layers) O) with (nth (S j) ns O). apply index_nth; [assumption|]. unfold ns. cbn [List.length]. rewrite PL. lia. }
  split.
  - intros v t Hv. apply (F4 v t Hv).
  - intros c t q Hc Ht0 Hq. destruct (F4 _ _ (mb_x _ _ _ _ _ _ _ _ _ _ _ HB')) as [_ J]. rewrite J; [reflexivity|]. destruct Tx as (-> & _). repeat apply Forall2_cons; try assumption; apply Forall2_nil.
  - split; [eapply stored_ext; [exact Wl|exact Vl|apply puti_stored, wf_wft; exact Wl]|]. intros t Ht0. assert (Ix : inb (t_shape labels) [t]) by (rewrite Sl; repeat apply Forall2_cons; try assumption; apply Forall2_nil).
    rewrite (ielem_ext sa s) by assumption. unfold sa. rewrite puti_ielem by (assumption || apply wf_wft; assumption). reflexivity.
  - intros j idx Hj Hidx. unfold mpval in *. rewrite EP in *. destruct (HN j Hj) as (tr & T1 & _). rewrite (F5 _ _ _ T1 idx Hidx). cbn [f]. rewrite EI by assumption. reflexivity.
  - intros j idx Hj Hidx. unfold mpgrad in *. rewrite EP in *. destruct (HN j Hj) as (tr & _ & T1). rewrite (F5 _ _ _ T1 idx Hidx). cbn [f]. rewrite EI by assumption. reflexivity.
  - unfold loss_val. assert (Eb : lid b = lid b0) by (unfold lid; rewrite HL; reflexivity). rewrite Eb. destruct (hast_U b _ _ _ C0) as (_ & S0 & _).
    rewrite (F5 _ _ _ C0) by (rewrite S0; constructor). reflexivity.
Qed.

(** Two layers, samples and input features in ragged tiles. *)
Definition patches : tensor := std_tensor [3; 5; 4] [3; 2; 3] 0.
Lemma patches_dims : mdims 3 5 2 6 4 3 7. Proof. split; lia. Qed.
Lemma small_C63 : exists os b0 labels b, mlp_mixer patches 6 2 7 6 = Ok (os, b0) /\ gen_cross_entropy (last_out os) b0 = Ok (labels, b) /\
  List.length (mm_params os) = 18%nat /\
  forall X lab P G L0, exists s, mixer_state os b patches labels 3 5 4 X lab 18 P G L0 s.
Proof.
  assert (W1 : wf_tensor patches) by (apply std_wf; [reflexivity|repeat constructor; lia|repeat constructor; lia]).
  assert (T1 : tens patches [3; 5; 4] [3; 2; 3]) by (repeat split).
  assert (H1 : forall k, In k (tile_handles patches) -> k < 6) by (intros k Hk; apply std_handles in Hk; vm_compute in Hk |- *; intuition congruence).
  destruct (C63_mlp_mixer_training_step 3 5 2 6 4 3 7 patches 2 6 patches_dims ltac:(lia) W1 T1 H1) as (os & b0 & labels & b & E1 & E2 & _ & _ & E3 & _).
  exists os, b0, labels, b. split; [exact E1|]. split; [exact E2|]. split.
  - apply (f_equal (@List.length _)) in E3. rewrite map_length in E3. rewrite E3. reflexivity.
  - exact (C63_state_exists 3 5 2 6 4 3 7 patches 2 6 os b0 labels b patches_dims ltac:(lia) W1 T1 H1 E1 E2).
Qed.
(** and the Mixer and GAP layers of every such model meet the hypotheses of C62 *)
Lemma C62_met C B bt E Q Qt V x layers next :
  mdims C B bt E Q Qt V -> (0 < layers)%nat -> wf_tensor x -> tens x [C; B; Q] [C; bt; Qt] -> (0 <= next) -> (forall k, In k (tile_handles x) -> 0 <= k < next) ->
  exists b (HE : benv_ok b []), (exists h1 h2, mixer_ok (E := benv b [] HE) mreq h1 h2 C B E (C * 4) (E * 4)) /\ exists x y yT, gap_ok (E := benv b [] HE) mreq x y yT C B E C bt E.
Proof.
  intros HG Hn W1 T1 Hx H1.
  pose proof (mlp_mixer_ok C B bt E Q Qt V HG x layers 0 next Hn W1 T1 Hx H1) as K. unfold okp in K. destruct (mlp_mixer x E layers V next) as [[os b]| |]; try contradiction.
  destruct K as (-> & HB & _). destruct (mb_inv _ _ _ _ _ _ _ _ _ _ _ HB) as [i1 i2 i3 i4 i5].
  assert (HE : benv_ok b []) by (split; [exact i2|exact i4|intros ? []|intros ? ? ? []]). exists b, HE. split.
  - exists (mh1 C B bt E 0), (mh2 C B bt E 0). eapply m_mixer_ok; [exact HB|exact Hn].
  - do 3 eexists. eapply m_gap_ok. exact HB.
Qed.
Lemma small_C62 : exists b (HE : benv_ok b []),
  (exists h1 h2, mixer_ok (E := benv b [] HE) mreq h1 h2 3 5 6 (3 * 4) (6 * 4)) /\ exists x y yT, gap_ok (E := benv b [] HE) mreq x y yT 3 5 6 3 2 6.
Proof.
  apply (C62_met 3 5 2 6 4 3 7 patches 2 6 patches_dims).
  - lia.
  - apply std_wf; [reflexivity|repeat constructor; lia|repeat constructor; lia].
  - repeat split.
  - lia.
  - intros k Hk; apply std_handles in Hk; vm_compute in Hk |- *; intuition congruence.
Qed.
