(** * The hypotheses of C65 can be met *)
From Coq Require Import Reals Lra.
From Verif Require Import Base Spec Geometry Traits TraitsProofs Runtime Ops RealOps TensorSem ElemGeneric Concrete Axis SliceGeo Sequence XReals NdRuns AnyRuns RSum AttnSpec MatOps CrossEntropy XTriples HasRuns TapeMath Tape PyLayers PyLinear AttMath PyAdam PropAdam PyModels BuildEnv GptBuild BuildModel OptBuild GptSpec GptModel GptRun PropGpt GptTrain GptExamples GptTrainExamples PyMixer MixerRuns MixSpec MixerSeg PropMixer PyMixModels MixBuild MixModel PropMixModel MixExamples SegTrain PropMixTrain.
Local Close Scope R_scope.
Local Open Scope list_scope.
Local Open Scope Z_scope.

Lemma elem_ext (s s' : store XR) t idx : wf_tensor t -> inb (t_shape t) idx -> (forall h, In h (tile_handles t) -> s' h = s h) -> elem s' t idx = elem s t idx.
Proof. intros W Hi H. unfold elem. rewrite H; [reflexivity|]. apply th_In; [apply wf_wft; assumption|apply etile_bound; [apply wf_wft; assumption|assumption]]. Qed.

(** ** Tensors of the data, stored above all other tensors *)
Definition fsample_at (C B bt Q Qt H : Z) (s : store XR) (d : fsample) : Prop :=
  (wf_tensor (fx d) /\ t_shape (fx d) = [C; B; Q] /\ t_base (fx d) = [C; bt; Qt]) /\
  (wf_tensor (fy d) /\ t_shape (fy d) = [B] /\ t_base (fy d) = [bt]) /\
  (forall h, In h (tile_handles (fx d)) \/ In h (tile_handles (fy d)) -> H <= h) /\
  stored KF s (fx d) /\ stored KI s (fy d) /\
  (forall c t q, 0 <= c < C -> 0 <= t < B -> 0 <= q < Q -> elem s (fx d) [c; t; q] = Fin (fval d [c; t; q])) /\
  (forall t, 0 <= t < B -> ielem s (fy d) [t] = flab d [t]).
Lemma fdata_fill C B bt Q Qt (Hp : 0 < C /\ 0 < B /\ 0 < bt /\ 0 < Q /\ 0 < Qt) : forall (l : list (arr * (list Z -> Z))) H (s : store XR), exists data s',
  map (fun d => (fval d, flab d)) data = l /\ (forall h, h < H -> s' h = s h) /\ forall d, In d data -> fsample_at C B bt Q Qt H s' d.
Proof.
  set (qx := prodZ (gridZ [C; B; Q] [C; bt; Qt])). set (qy := prodZ (gridZ [B] [bt])).
  assert (Hqx : 0 < qx) by (apply prodZ_pos, gridZ_pos; first [reflexivity|repeat apply Forall_cons; try apply Forall_nil; lia]).
  assert (Hqy : 0 < qy) by (apply prodZ_pos, gridZ_pos; first [reflexivity|repeat apply Forall_cons; try apply Forall_nil; lia]).
  assert (Wx : forall H, wf_tensor (std_tensor [C; B; Q] [C; bt; Qt] H)) by (intros; apply std_wf; [reflexivity|repeat constructor; lia|repeat constructor; lia]).
  assert (Wy : forall H, wf_tensor (std_tensor [B] [bt] H)) by (intros; apply std_wf; [reflexivity|repeat constructor; lia|repeat constructor; lia]).
  induction l as [|[X lab] l IH]; intros H s; [exists [], s; split; [reflexivity|split; [reflexivity|intros d []]]|].
  destruct (IH (H + qx + qy) s) as (data & s1 & E & F1 & F2).
  set (tx := std_tensor [C; B; Q] [C; bt; Qt] H). set (ty := std_tensor [B] [bt] (H + qx)).
  set (s2 := (put tx (fun i => Fin (X i)) (puti ty lab s1) : store XR)).
  exists ({| fx := tx; fy := ty; fval := X; flab := lab |} :: data), s2.
  assert (Hx : forall h, In h (tile_handles tx) <-> H <= h < H + qx) by (intros; apply std_handles).
  assert (Hy : forall h, In h (tile_handles ty) <-> H + qx <= h < H + qx + qy) by (intros; apply std_handles).
  assert (Far : forall h, ~ H <= h < H + qx + qy -> s2 h = s1 h).
  { intros h Hh. unfold s2, put, puti. rewrite !put_other; [reflexivity| |]; rewrite ?Hx, ?Hy; lia. }
  assert (Dxy : disj ty tx) by (intros h K1 K2; apply Hx in K2; apply Hy in K1; lia).
  split; [cbn [map fval flab]; rewrite E; reflexivity|]. split.
  { intros h Hh. rewrite Far by lia. apply F1. lia. }
  intros d [<-|Hd].
  - unfold fsample_at. cbn [fx fy fval flab]. split; [split; [apply Wx|split; reflexivity]|]. split; [split; [apply Wy|split; reflexivity]|].
    split; [intros h [K|K]; [apply Hx in K|apply Hy in K]; lia|]. split; [apply put_stored, wf_wft, Wx|].
    split; [apply put_stored_other; [apply wf_wft, Wy|assumption|apply puti_stored, wf_wft, Wy]|]. split.
    + intros c t q Hc Ht Hq. unfold s2. rewrite put_elem; [reflexivity|apply wf_wft, Wx|repeat constructor; lia].
    + intros t Ht. rewrite (ielem_ext (puti ty lab s1 : store XR)); [|apply Wy|repeat constructor; lia|].
      * rewrite puti_ielem; [reflexivity|apply wf_wft, Wy|repeat constructor; lia].
      * intros h K. unfold s2, put at 1. apply put_other. intros Ch. exact (Dxy h K Ch).
  - destruct (F2 d Hd) as ((w1 & e1 & e2) & (w2 & e3 & e4) & g & st2 & st3 & v & v').
    assert (X1 : forall h, In h (tile_handles (fx d)) -> s2 h = s1 h) by (intros h K; apply Far; specialize (g h (or_introl K)); lia).
    assert (X2 : forall h, In h (tile_handles (fy d)) -> s2 h = s1 h) by (intros h K; apply Far; specialize (g h (or_intror K)); lia).
    split; [repeat split; assumption|]. split; [repeat split; assumption|]. split; [intros h K; specialize (g h K); lia|].
    split; [eapply stored_ext; eassumption|]. split; [eapply stored_ext; eassumption|]. split.
    + intros c t q Hc Ht Hq. rewrite <- (v c t q Hc Ht Hq). apply elem_ext; try assumption. rewrite e1; repeat constructor; lia.
    + intros t Ht. rewrite <- (v' t Ht). apply ielem_ext; try assumption. rewrite e3; repeat constructor; lia.
Qed.

(** ** For every model, optimizer, data and parameters C65 speaks about there is a state in which
    the training starts. *)
Theorem C65_state_exists C B bt E Q Qt V x layers next o os b0 labels b1 b :
  mdims C B bt E Q Qt V -> (0 < layers)%nat -> wf_tensor x -> tens x [C; B; Q] [C; bt; Qt] -> (forall k, In k (tile_handles x) -> k < next) ->
  mlp_mixer x E layers V next = Ok (os, b0) -> gen_cross_entropy (last_out os) b0 = Ok (labels, b1) -> opt_new o (lid b1 + 3) (mm_params os) b1 = Ok b ->
  forall P (l : list (arr * (list Z -> Z))), (forall X lab, In (X, lab) l -> forall t, 0 <= t < B -> 0 <= lab [t] < V) ->
  exists data s, map (fun d => (fval d, flab d)) data = l /\ (forall d, In d data -> mdata_ok labels C B bt Q Qt V b d) /\
    mixer_ready os labels b C B Q data (2 + 8 * layers) P s.
Proof.
  intros HG Hn Wx Tx Hh E1 E2 E3 P l Hl0.
  destruct (C63_state_exists C B bt E Q Qt V x layers next os b0 labels b1 HG Hn Wx Tx Hh E1 E2 (fun _ => 0%R) (fun _ => 0) P P 0%R) as [s0 [q1 q2 [q3 _] q4 q5 q6]].
  assert (Hlo : exists lo, (lo <= next)%Z /\ forall k, In k (tile_handles x) -> (lo <= k)%Z).
  { clear - next. induction (tile_handles x) as [|k l (lo & H1 & H2)]; [exists next; split; [lia|intros ? []]|]. exists (Z.min lo k). split; [lia|]. intros k' [<-|H]; [lia|]. specialize (H2 _ H). lia. }
  destruct Hlo as (lo & Hlo & Hlo'). assert (Hr : forall k, In k (tile_handles x) -> (lo <= k < next)%Z) by (intros k Hk; auto).
  pose proof (mlp_mixer_ok C B bt E Q Qt V HG x layers lo next Hn Wx Tx Hlo Hr) as H1. rewrite E1 in H1. cbn [okp] in H1. destruct H1 as (-> & HB & Ht).
  assert (El := mlid_eq C B bt E Q Qt V x layers lo b0 HB). assert (Eo := mout_eq layers).
  destruct (mb_post _ _ _ _ _ _ _ _ _ _ _ HB 3%nat _ eq_refl) as [N1 _]. cbn [fst snd] in N1.
  assert (HF : fit [V; B] [V; bt]) by (destruct HG; apply fit2; assumption).
  pose proof (gen_ce_ok lo (mfirst layers + 3) V [B] [bt] b0 (mb_inv _ _ _ _ _ _ _ _ _ _ _ HB) Ht N1 HF) as H2.
  rewrite <- Eo, E2 in H2. cbn [okp] in H2.
  destruct H2 as (HI & HX & Hn' & HL & HA & Wl & (Sl & Bl & _) & Hl & Dl & C0 & C1 & C2 & Tf). rewrite El in C0, C1, C2, Tf.
  assert (HB1 := mbuilt_ext _ _ _ _ _ _ _ _ _ _ _ _ HB HI HX Hn' HL).
  assert (El1 := mlid_eq C B bt E Q Qt V x layers lo b1 HB1).
  assert (Ep := mm_params_eq layers). unfold opt_new in E3. rewrite El1, Ep in E3.
  replace (2 + 8 * layers + 3)%nat with (5 + 8 * layers)%nat in E3 by lia. set (kid := (5 + 8 * layers)%nat) in *.
  assert (NK : NoDup (opt_kinds o kid)).
  { destruct o as [lr mom wd damp nest|kd lr b1' b2 wd eps]; cbn [opt_kinds]; [destruct (Rltb 0 mom); repeat constructor; intros []|].
    repeat constructor; cbn [In]; lia. }
  assert (KK : forall k, In k (opt_kinds o kid) -> (kid <= k)%nat).
  { intros k. destruct o as [lr mom wd damp nest|kd lr b1' b2 wd eps]; cbn [opt_kinds]; [destruct (Rltb 0 mom)|]; cbn [In]; lia. }
  assert (PH : forall p, In p (m_params layers) -> exists tr, hasn b1 p tr).
  { intros p Hp. apply in_mparams in Hp as [-> | [(k & Hk & Hin) | -> ]].
    - eexists. apply (mb_pre _ _ _ _ _ _ _ _ _ _ _ HB1 0%nat). reflexivity.
    - apply mparams_range in Hin. assert (exists tr, nth_error (mix_nodes C B bt E) (p - mfirst k) = Some tr) as [tr Etr].
      { destruct (nth_error (mix_nodes C B bt E) (p - mfirst k)) eqn:En; [eauto|]. apply nth_error_None in En. cbn [List.length mix_nodes app] in En. unfold mfirst in *. lia. }
      exists tr. replace p with (mfirst k + (p - mfirst k))%nat by lia. eapply (mb_blk _ _ _ _ _ _ _ _ _ _ _ HB1); [lia|exact Etr].
    - eexists. apply (mb_post _ _ _ _ _ _ _ _ _ _ _ HB1 2%nat). reflexivity. }
  assert (PN : NoDup (0%nat :: m_params layers)) by apply mparams_nodup.
  assert (PD : NoDup (m_params layers)) by (apply (NoDup_cons_iff 0%nat); exact PN).
  assert (PL := mparams_len layers).
  assert (H3 : okp (gen_states (opt_kinds o kid) (m_params layers) b1) (fun b' => grown lo b1 b' /\ (forall k p sh ba, In k (opt_kinds o kid) -> In p (m_params layers) -> hast b1 (Val p) sh ba -> hast b' (Tmp k p) sh ba))).
  { apply (gen_states_ok lo (opt_kinds o kid) (m_params layers) b1 HI); [|exact NK|exact PD|].
    - intros p Hin. destruct (PH p Hin) as (tr & T1 & _). eauto.
    - intros k p Hk _. apply Tf. apply KK in Hk. unfold kid in Hk. lia. }
  rewrite E3 in H3. cbn [okp] in H3. destruct H3 as (GR & _). destruct GR as [GI GX Gn GL GA Gnew Gnext].
  assert (Fb : finite b) by (eapply states_finite; [eapply ce_finite; [eapply mlp_mixer_finite; exact E1|exact E2]|exact E3]). destruct Fb as [names Hnames].
  set (f := fun v : gvar => match v with Val m => P (index m (m_params layers)) | _ => fun _ => 0%R end).
  destruct (fill_ok b lo f GI s0 names) as (s1 & F1 & F2 & F3).
  destruct (fdata_fill C B bt Q Qt ltac:(destruct HG; lia) l (b_next b) s1) as (data & s & D1 & D2 & D3).
  assert (Blo : lo <= b_next b) by (destruct GI; assumption).
  assert (Kb : forall v t k, b_mem b v = Some t -> In k (tile_handles t) -> lo <= k < b_next b) by (intros v t k Hx Hk; eapply (bi_rng _ _ GI); eassumption).
  assert (Vl : forall k, In k (tile_handles labels) -> s k = s0 k).
  { intros k Hk. rewrite D2 by (specialize (Hl k Hk); lia). apply F2. intros v t Hx Ch. destruct (b_mem b1 v) as [u|] eqn:Eu.
    - assert (u = t) by (apply GX in Eu; congruence). subst. exact (Dl v t Eu k Hk Ch).
    - specialize (Gnew v t k Hx Eu Ch). specialize (Hl k Hk). lia. }
  exists data, s. split; [assumption|]. split.
  - intros d Hd. destruct (D3 d Hd) as (A1 & A2 & A3 & _).
    assert (G1 : forall t : tensor, (forall k, In k (tile_handles t) -> k < b_next b) -> disj (fx d) t /\ disj (fy d) t).
    { intros t Ht0. split; intros k K1 K2; specialize (Ht0 k K2); [specialize (A3 k (or_introl K1))|specialize (A3 k (or_intror K1))]; lia. }
    destruct (G1 labels) as [L1 L2]; [intros k Hk; specialize (Hl k Hk); lia|].
    split; [assumption|assumption| | |].
    + split; [assumption|]. intros v t Hx. apply G1. intros k Hk. specialize (Kb v t k Hx Hk). lia.
    + split; [assumption|]. intros v t Hx. apply G1. intros k Hk. specialize (Kb v t k Hx Hk). lia.
    + apply (Hl0 (fval d)). rewrite <- D1. change (fval d, flab d) with ((fun d => (fval d, flab d)) d). apply in_map. assumption.
  - assert (VB : forall v t k, b_mem b v = Some t -> In k (tile_handles t) -> s k = s1 k) by (intros v t k Hx Hk; apply D2; specialize (Kb v t k Hx Hk); lia).
    assert (VW : forall v t, b_mem b v = Some t -> wf_tensor t) by (intros v t Hx; eapply (bi_wf _ _ GI); eassumption).
    split.
    + intros v t Hx. eapply stored_ext; [eapply VW; exact Hx|intros k Hk; eapply VB; eassumption|]. destruct (F3 v t) as [F4 _]; [apply Hnames; congruence|assumption|exact F4].
    + eapply stored_ext; [exact Wl|exact Vl|exact q3].
    + intros d Hd. destruct (D3 d Hd) as (_ & _ & _ & A4 & A5 & A6 & A7). repeat (split; [assumption|]). assumption.
    + intros j idx Hj Hidx. unfold mpval in *. rewrite Ep in *.
      assert (Hin : In (nth j (m_params layers) O) (m_params layers)) by (apply nth_In; rewrite PL; exact Hj).
      destruct (PH _ Hin) as ([sh' ba'] & T1 & _). cbn [fst snd] in T1. apply (hast_ext _ _ _ _ _ GX) in T1. destruct T1 as (t & Et & _). unfold PyModels.bt in *. rewrite Et in *.
      destruct (F3 (Val (nth j (m_params layers) O)) t) as [_ F4]; [apply Hnames; congruence|assumption|].
      transitivity (elem s1 t idx).
      { apply elem_ext; [eapply VW; exact Et|assumption|]. intros k Hk. eapply VB; eassumption. }
      rewrite F4 by assumption. cbn [f]. rewrite index_nth; [reflexivity|exact PD|rewrite PL; exact Hj].
Qed.

(** Adam on the two-layer model of MixExamples.v, trained on two batches, one of two minibatches:
    all hypotheses of C65 hold at once, so its conclusion holds. *)
Definition lab1 (l : list Z) : Z := (List.hd 0 l) mod 7.
Definition lab2 (l : list Z) : Z := (3 * List.hd 0 l + 1) mod 7.
Definition img1 (l : list Z) : R := IZR (List.hd 0 l).
Definition img2 (l : list Z) : R := (1 / 2)%R.
Theorem C65_example P : exists os b labels data d1 d2 d3 s, data = [d1; d2; d3] /\
  mixer_ready os labels b 3 5 4 data 18 P s /\
  runs_any (mixer_train 1 adam os patches labels b 1 [[d1; d2]; [d3]]) s (fun s' => exists P',
    mixer_ready os labels b 3 5 4 data 18 P' s' /\ exists z, elem s' (loss_val b) [] = Fin z).
Proof.
  assert (W1 : wf_tensor patches) by (apply std_wf; [reflexivity|repeat constructor; lia|repeat constructor; lia]).
  assert (T1 : tens patches [3; 5; 4] [3; 2; 3]) by (repeat split).
  assert (H1 : forall k, In k (tile_handles patches) -> k < 6) by (intros k Hk; apply std_handles in Hk; vm_compute in Hk |- *; intuition congruence).
  assert (Ho : opt_ok adam) by (cbn; unfold hyper; lra).
  destruct (C65_mlp_mixer_training 3 5 2 6 4 3 7 patches 2 6 adam patches_dims ltac:(lia) W1 T1 H1 Ho) as (os & b0 & labels & b1 & b & E1 & E2 & E3 & _ & HT).
  destruct (C65_state_exists 3 5 2 6 4 3 7 patches 2 6 adam os b0 labels b1 b patches_dims ltac:(lia) W1 T1 H1 E1 E2 E3 P
    [(img1, lab1); (img2, lab2); (img1, lab2)]) as (data & s & D1 & D2 & D3).
  { intros X lab Hin t _. assert (R1 : forall z, 0 <= z mod 7 < 7) by (intros; apply Z.mod_pos_bound; lia).
    cbn [In] in Hin. destruct Hin as [Hin|[Hin|[Hin|[]]]]; injection Hin as <- <-; apply R1. }
  destruct data as [|d1 [|d2 [|d3 [|]]]]; try discriminate D1.
  exists os, b, labels, [d1; d2; d3], d1, d2, d3, s. split; [reflexivity|]. split; [exact D3|].
  specialize (HT [d1; d2; d3] [[d1; d2]; [d3]] 1%R P s).
  eapply any_weaken; [apply HT|].
  - exact D2.
  - intros mbs Hm. cbn [In] in Hm. destruct Hm as [<-|[<-|[]]]; intros d Hd; cbn [In] in *; tauto.
  - exact D3.
  - intros s' _ (P' & m' & v' & hist & _ & R1 & R2). exists P'. split; [exact R1|]. eexists. apply R2. discriminate.
Qed.
