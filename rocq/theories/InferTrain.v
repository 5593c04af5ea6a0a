(** * C74: inference with DeepReLU, after its construction and between batches of training *)
From Coq Require Import Reals Lra FunctionalExtensionality.
From Verif Require Import Base Spec Geometry Traits TraitsProofs Runtime Ops RealOps TensorSem ElemGeneric Concrete Axis SliceGeo Sequence XReals NdRuns AnyRuns Serial2 OneOut ElemOps RSum AttnSpec MatOps PropElem IntCopy CrossEntropy XTriples HasRuns TapeMath VjpMath Tape PyLayers PyLinear AttMath PyAdam PropAdam PyModels BuildEnv GptBuild BuildModel OptBuild GptSpec GptModel GptRun PropGpt GptTrain Segments MixModel SegTrain ReluSpec ReluBuild ReluModel OptState PropRelu GptExamples PropTorchGpt PropInfer.
Local Close Scope Z_scope.
Local Open Scope R_scope.

Lemma low_handles x next : (forall k, In k (tile_handles x) -> (k < next)%Z) -> exists lo, (lo <= next)%Z /\ forall k, In k (tile_handles x) -> (lo <= k < next)%Z.
Proof.
  intros Hh. assert (Hlo : exists lo, (lo <= next)%Z /\ forall k, In k (tile_handles x) -> (lo <= k)%Z).
  { clear - next. induction (tile_handles x) as [|k l (lo & H1 & H2)]; [exists next; split; [lia|intros ? []]|]. exists (Z.min lo k). split; [lia|]. intros k' [<-|H]; [lia|]. specialize (H2 _ H). lia. }
  destruct Hlo as (lo & H1 & H2). exists lo. split; [exact H1|]. intros k Hk. split; [apply H2|apply Hh]; exact Hk.
Qed.

(** The constructed model, on either side: from any contents of all other tensors of the model
    (gradients never cleared, activations never computed), x holding X and the parameters P, every
    execution of forward_async gives the function of the network for every sample and class, and
    changes nothing but the values of activations. *)
Theorem C74_deep_relu_forward sd sI bI din dinb add addb V bias x layers next :
  rdims sI bI din dinb add addb V -> (0 < layers)%nat -> wf_tensor x -> tens x (lin_x sd sI din) (lin_x sd bI dinb) -> (forall k, In k (tile_handles x) -> (k < next)%Z) ->
  exists b, deep_relu sd (zlen din) add addb (S layers) V bias (input_build x None next) = Ok b /\
    forall X P s, let np := List.length (relu_shapes sd din add bias layers V) in
      (forall v t, b_mem b v = Some t -> stored KF s t) ->
      (forall idx, inb (t_shape x) idx -> elem s x idx = Fin (X idx)) ->
      (forall j idx, (j < np)%nat -> inb (t_shape (rpval b j)) idx -> elem s (rpval b j) idx = Fin (P j idx)) ->
      runs_nd (bm_forward mreq b) s (fun s' =>
        (forall t v, inb sI t -> (0 <= v < V)%Z ->
          elem s' (PyModels.bt b (Val (out_node b))) (match sd with SideL => t ++ [v] | SideR => v :: t end) = Fin (preact sd din add bias X P layers t v)) /\
        (forall idx, inb (t_shape x) idx -> elem s' x idx = Fin (X idx)) /\ only_activations b s s').
Proof.
  intros HG Hn Wx Tx Hh. destruct (low_handles x next Hh) as (lo & Hlo & Hr).
  pose proof (deep_relu_ok sd sI bI din dinb add addb V bias HG x layers lo next Hn Wx Tx Hlo Hr) as H1. unfold okp in H1.
  destruct (deep_relu sd (zlen din) add addb (S layers) V bias (input_build x None next)) as [b| |]; try contradiction. destruct H1 as (HB & _).
  exists b. split; [reflexivity|]. intros X P s np HA HX HP. destruct Tx as (T1 & T2 & _).
  apply (fwd_runs sd sI bI din dinb add addb V bias x layers lo b HG HB (conj T1 T2) X P s HA HX).
  intros j idx Hj. apply HP. unfold np. replace (List.length (relu_shapes sd din add bias layers V)) with ((if bias then 2 else 1) * S layers)%nat; [exact Hj|].
  clear. unfold relu_shapes. cbv zeta. rewrite <- (seq_length (S layers) 0) at 1. generalize (seq 0 (S layers)). intros l.
  induction l as [|k l IH]; [destruct bias; reflexivity|]. cbn [flat_map List.length]. rewrite app_length, <- IH. destruct bias; cbn [List.length]; lia.
Qed.

(** the model after loss and optimizer were constructed *)
Lemma relu_built sI bI din dinb add addb V bias x layers next o b0 labels b1 b :
  rdims sI bI din dinb add addb V -> (0 < layers)%nat -> wf_tensor x -> tens x (din ++ sI) (dinb ++ bI) -> (forall k, In k (tile_handles x) -> (k < next)%Z) ->
  deep_relu SideR (zlen din) add addb (S layers) V bias (input_build x None next) = Ok b0 -> gen_cross_entropy (out_node b0) b0 = Ok (labels, b1) ->
  opt_new o (S (lid b1)) (bm_params b1) b1 = Ok b ->
  exists lo, rbuilt SideR sI bI din dinb add addb V bias x layers lo b /\ (forall v t, b_mem b v = Some t -> disj labels t) /\ wf_tensor labels /\ t_shape labels = sI /\
    forall p j sh ba, In p (bm_params b) -> In j (opt_kinds o (S (lid b))) -> hast b (Val p) sh ba -> hast b (Tmp j p) sh ba.
Proof.
  intros HG Hn Wx Tx Hh E1 E2 E3. destruct (low_handles x next Hh) as (lo & Hlo & Hr).
  pose proof (deep_relu_ok SideR sI bI din dinb add addb V bias HG x layers lo next Hn Wx Tx Hlo Hr) as H1. rewrite E1 in H1. cbn [okp] in H1. destruct H1 as (HB & Ht).
  assert (El := t_lid sI bI din dinb add addb V bias x layers lo b0 HB). assert (Eo := t_out sI bI din dinb add addb V bias x layers lo b0 HB).
  destruct (out_hasn sI bI din dinb add addb V bias x layers lo b0 HB) as [N1 _]. cbn [fst snd] in N1.
  assert (HF : fit (V :: sI) (V :: bI)).
  { destruct HG as [(g1 & g2 & g3) _ _ _ g6]. split; [rewrite !zlen_cons; lia|]. split; constructor; assumption. }
  pose proof (gen_ce_ok lo (out_node b0) V sI bI b0 (rb_inv _ _ _ _ _ _ _ _ _ _ _ _ _ HB) Ht ltac:(rewrite Eo; exact N1) HF) as H2.
  rewrite E2 in H2. cbn [okp] in H2.
  destruct H2 as (HI & HX & Hn' & HL & HA & Wl & (Sl & Bl & _) & Hl & Dl & C0 & C1 & C2 & Tf). rewrite El in C0, C1, C2, Tf.
  assert (HB1 := rbuilt_ext _ _ _ _ _ _ _ _ _ _ _ _ _ _ HB HI HX Hn' HL HA).
  assert (El1 := t_lid sI bI din dinb add addb V bias x layers lo b1 HB1).
  assert (Ep := t_params sI bI din dinb add addb V bias x layers lo b1 HB1). unfold opt_new in E3. rewrite El1, Ep in E3.
  set (kid := S (2 * layers + 1)) in *.
  assert (NK : NoDup (opt_kinds o kid)).
  { destruct o as [lr mom wd damp nest|kd lr b1' b2 wd eps]; cbn [opt_kinds]; [destruct (Rltb 0 mom); repeat constructor; intros []|].
    repeat constructor; cbn [In]; lia. }
  assert (KK : forall k, In k (opt_kinds o kid) -> (kid <= k)%nat).
  { intros k. destruct o as [lr mom wd damp nest|kd lr b1' b2 wd eps]; cbn [opt_kinds]; [destruct (Rltb 0 mom)|]; cbn [In]; lia. }
  assert (PH : forall p, In p (r_params bias layers) -> exists tr, hasn b1 p tr) by (intros p Hp; eapply params_hasn; eassumption).
  assert (PD : NoDup (r_params bias layers)) by (apply (NoDup_cons_iff 0%nat); exact (t_nodup sI bI din dinb add addb V bias x layers lo b1 HB1)).
  assert (H3 : okp (gen_states (opt_kinds o kid) (r_params bias layers) b1) (fun b' => grown lo b1 b' /\ (forall k p sh ba, In k (opt_kinds o kid) -> In p (r_params bias layers) -> hast b1 (Val p) sh ba -> hast b' (Tmp k p) sh ba))).
  { apply (gen_states_ok lo (opt_kinds o kid) (r_params bias layers) b1 HI); [|exact NK|exact PD|].
    - intros p Hin. destruct (PH p Hin) as (tr & T1 & _). eauto.
    - intros k p Hk _. apply Tf. apply KK in Hk. unfold kid in Hk. lia. }
  rewrite E3 in H3. cbn [okp] in H3. destruct H3 as (GR & HT). destruct GR as [GI GX Gn GL GA Gnew Gnext].
  assert (HB2 := rbuilt_ext _ _ _ _ _ _ _ _ _ _ _ _ _ _ HB1 GI GX Gn GL GA).
  exists lo. split; [exact HB2|]. split; [|split; [exact Wl|split; [exact Sl|]]].
  - intros v t Hv. destruct (b_mem b1 v) as [u|] eqn:Eu; [assert (u = t) by (apply GX in Eu; congruence); subst; apply (Dl v t Eu)|].
    intros k K1 K2. specialize (Gnew v t k Hv Eu K2). specialize (Hl k K1). lia.
  - intros p j sh ba Hin Hj Hv. rewrite (t_params sI bI din dinb add addb V bias x layers lo b HB2) in Hin. rewrite (t_lid sI bI din dinb add addb V bias x layers lo b HB2) in Hj.
    apply (HT j p sh ba Hj Hin). destruct (PH p Hin) as ([sh' ba'] & T1 & _). cbn [fst snd] in T1.
    assert (T2 := hast_ext _ _ _ _ _ GX T1). destruct T2 as (t & Q1 & <- & <- & _), Hv as (t' & Q2 & <- & <- & _). assert (t' = t) by congruence. subst. exact T1.
Qed.

Section Eval.
Variables (sI bI din dinb : list Z) (add addb V : Z) (bias : bool) (x : tensor) (layers : nat) (next : Z) (o : optimizer) (b0 : build) (labels : tensor) (b1 b : build).
Hypothesis HG : rdims sI bI din dinb add addb V.
Hypothesis Hn : (0 < layers)%nat.
Hypothesis Wx : wf_tensor x.
Hypothesis Tx : tens x (din ++ sI) (dinb ++ bI).
Hypothesis Hh : forall k, In k (tile_handles x) -> (k < next)%Z.
Hypothesis E1 : deep_relu SideR (zlen din) add addb (S layers) V bias (input_build x None next) = Ok b0.
Hypothesis E2 : gen_cross_entropy (out_node b0) b0 = Ok (labels, b1).
Hypothesis E3 : opt_new o (S (lid b1)) (bm_params b1) b1 = Ok b.
Notation np := (List.length (relu_shapes SideR din add bias layers V)).

Lemma np_eq : np = ((if bias then 2 else 1) * S layers)%nat.
Proof.
  clear. unfold relu_shapes. cbv zeta. rewrite <- (seq_length (S layers) 0) at 2. generalize (seq 0 (S layers)). intros l.
  induction l as [|k l IH]; [destruct bias; reflexivity|]. cbn [flat_map List.length]. rewrite app_length, IH. destruct bias; cbn [List.length]; lia.
Qed.
Lemma evaluate_runs data d P s : (forall d, In d data -> rdata_ok labels sI bI din dinb V b d) -> In d data -> relu_ready labels b sI din data np P s ->
  runs_nd (evaluate (fx d) x b) s (fun s' =>
    (forall t v, inb sI t -> (0 <= v < V)%Z -> elem s' (PyModels.bt b (Val (out_node b))) (v :: t) = Fin (preact SideR din add bias (fval d) P layers t v)) /\
    relu_ready labels b sI din data np P s' /\ only_activations b s s').
Proof.
  intros Hdata Hd [r1 r2 r3 r4].
  destruct (relu_built sI bI din dinb add addb V bias x layers next o b0 labels b1 b HG Hn Wx Tx Hh E1 E2 E3) as (lo & HB & HD & Wl & Sl & _).
  destruct Tx as (T1 & T2 & _).
  destruct (Hdata d Hd) as [(Wfx & Sfx & Bfx) (Wfy & Sfy & _) (D1 & D2) (D3 & D4) Hr]. destruct (r3 d Hd) as (x1 & _ & x3 & _).
  assert (M0 : b_mem b (Val 0) = Some x) by exact (rb_x _ _ _ _ _ _ _ _ _ _ _ _ _ HB).
  assert (Ep := t_params sI bI din dinb add addb V bias x layers lo b HB).
  assert (PD := t_nodup sI bI din dinb add addb V bias x layers lo b HB).
  assert (HI := rb_inv _ _ _ _ _ _ _ _ _ _ _ _ _ HB).
  assert (PM : forall j, (j < np)%nat -> b_mem b (Val (nth j (bm_params b) O)) = Some (rpval b j) /\ nth j (bm_params b) O <> O /\ ~ In (nth j (bm_params b) O) (b_acts b)).
  { intros j Hj. rewrite Ep. assert (Hin : In (nth j (r_params bias layers) O) (r_params bias layers)).
    { apply nth_In. rewrite (t_ps_len sI bI din dinb add addb V bias x layers lo b HB). rewrite <- np_eq. exact Hj. }
    destruct (params_hasn sI bI din dinb add addb V bias x layers lo b HB _ Hin) as (tr & (t & Q1 & _) & _).
    split; [unfold rpval; rewrite Ep; unfold PyModels.bt; rewrite Q1; reflexivity|]. assert (N0 : nth j (r_params bias layers) O <> O) by (intros C; rewrite C in Hin; inversion PD; contradiction).
    split; [exact N0|]. rewrite (t_acts sI bI din dinb add addb V bias x layers lo b HB). intros [C|C]; [congruence|].
    exact (t_po sI bI din dinb add addb V bias x layers lo b HB _ (or_intror Hin) C). }
  assert (ST : same_tiling (fx d) x) by (split; congruence).
  unfold evaluate. eapply nd_then.
  { apply runs_runs_nd. apply (proj1 (C12_copy (fx d) x s Wfx Wx) ST x1 (r1 _ _ M0)). apply (D2 _ _ M0). }
  intros s1 I1 [V1 F1].
  assert (S1 : forall v t, b_mem b v = Some t -> stored KF s1 t) by (intros v t Hv; eapply tinv_stored; [exact I1|exact (r1 v t Hv)]).
  assert (K1 : forall v t idx, b_mem b v = Some t -> v <> Val 0 -> inb (t_shape t) idx -> elem s1 t idx = elem s t idx).
  { intros v t idx Hv Ne Hi. assert (Wt := bi_wf _ _ HI v t Hv). apply elem_ext; [exact Wt|exact Hi|]. intros k Hk. apply F1. intros u [<-|[]] Ku. exact (bi_disj _ _ HI _ _ _ _ Hv M0 Ne k Hk Ku). }
  eapply nd_weaken.
  { apply (fwd_runs SideR sI bI din dinb add addb V bias x layers lo b HG HB (conj T1 T2) (fval d) P s1 S1).
    - intros idx Hi. rewrite V1 by exact Hi. apply x3. rewrite T1 in Hi. exact Hi.
    - intros j idx Hj Hi. rewrite <- np_eq in Hj. destruct (PM j Hj) as (Q1 & Q2 & _). rewrite (K1 _ _ idx Q1 ltac:(congruence) Hi). apply r4; assumption. }
  intros s2 I2 (A1 & A2 & A3 & A4).
  assert (I3 : tinv s s2) by (apply (tinv_trans _ _ I1); exact I2).
  assert (OA : only_activations b s s2).
  { split.
    - intros v t idx Hv Ha Hi. rewrite (A3 v t idx Hv Ha Hi). apply (K1 v t idx Hv); [|exact Hi]. apply Ha. rewrite (t_acts sI bI din dinb add addb V bias x layers lo b HB). left. reflexivity.
    - intros k Hk. rewrite (A4 k Hk). apply F1. intros u [<-|[]]. exact (Hk _ _ M0). }
  split; [exact A1|]. split; [|exact OA]. destruct OA as [O1 O2].
  split.
  - intros v t Hv. eapply tinv_stored; [exact I3|exact (r1 v t Hv)].
  - eapply tinv_stored; [exact I3|exact r2].
  - intros d' Hd'. destruct (r3 d' Hd') as (y1 & y2 & y3 & y4). destruct (Hdata d' Hd') as [(Wa & Sa & _) (Wb & Sb & _) (G1 & G2) (G3 & G4) _].
    split; [eapply tinv_stored; [exact I3|exact y1]|]. split; [eapply tinv_stored; [exact I3|exact y2]|]. split.
    + intros idx Hi. rewrite <- (y3 idx Hi). apply elem_ext; [exact Wa|rewrite Sa; exact Hi|]. intros k Hk. apply O2. intros v t Hv Kt. exact (G2 v t Hv k Hk Kt).
    + intros t Hi. rewrite <- (y4 t Hi). apply ielem_ext; [exact Wb|rewrite Sb; exact Hi|]. intros k Hk. apply O2. intros v u Hv Ku. exact (G4 v u Hv k Hk Ku).
  - intros j idx Hj Hi. destruct (PM j Hj) as (Q1 & Q2 & Q3). rewrite (O1 _ _ idx Q1 ltac:(intros m Hm C; injection C as C; rewrite C in Q3; contradiction) Hi). apply r4; assumption.
Qed.
(** the state of the optimizer stays *)
Lemma evaluate_opt_state s s' m v : only_activations b s s' -> opt_state o b (bm_params b) (S (lid b)) m v s -> opt_state o b (bm_params b) (S (lid b)) m v s'.
Proof.
  intros [O1 _] Hst j idx Hj. specialize (Hst j idx Hj). cbv zeta in *. intros Hi. specialize (Hst Hi).
  destruct (relu_built sI bI din dinb add addb V bias x layers next o b0 labels b1 b HG Hn Wx Tx Hh E1 E2 E3) as (lo & HB & _ & _ & _ & HT).
  set (p := nth j (bm_params b) O) in *. assert (Hin : In p (bm_params b)) by (apply nth_In; exact Hj).
  assert (Hin' := Hin). rewrite (t_params sI bI din dinb add addb V bias x layers lo b HB) in Hin'.
  destruct (params_hasn sI bI din dinb add addb V bias x layers lo b HB p Hin') as (tr & T1 & _).
  assert (KE : forall k, In k (opt_kinds o (S (lid b))) -> elem s' (PyModels.bt b (Tmp k p)) idx = elem s (PyModels.bt b (Tmp k p)) idx).
  { intros k Hk. destruct (HT p k _ _ Hin Hk T1) as (t & Q1 & Q2 & _). destruct T1 as (u & Q3 & Q4 & _).
    assert (Eu : PyModels.bt b (Val p) = u) by (unfold PyModels.bt; rewrite Q3; reflexivity). rewrite Eu in Hi.
    unfold PyModels.bt. rewrite Q1. apply (O1 _ _ idx Q1); [discriminate|congruence]. }
  destruct o as [lr mom wd damp nest|kd lr be1 be2 wd eps]; cbn [opt_kinds] in KE.
  - intros Hm. assert (Em : Rltb 0 mom = true) by (apply Rltb_true; exact Hm). rewrite Em in KE. rewrite KE by (left; reflexivity). exact (Hst Hm).
  - rewrite !KE by (cbn [In]; auto). exact Hst.
Qed.
End Eval.

Lemma opt_iterates_length o shapes it losses : forall P m v P' m' v' hist, opt_iterates o shapes it losses P m v P' m' v' hist -> List.length hist = List.length losses.
Proof.
  revert it. induction losses as [|l losses IH]; intros it P m v P' m' v' hist H; cbn [opt_iterates] in H.
  - destruct H as (_ & _ & _ & ->). reflexivity.
  - destruct H as (P1 & m1 & v1 & hist' & _ & -> & H). cbn [List.length]. f_equal. eapply IH. exact H.
Qed.
Lemma last_app_cons (l : list R) r l' d : last (l ++ r :: l') d = last (r :: l') d.
Proof. induction l as [|a l IH]; [reflexivity|]. cbn [app]. rewrite <- IH. destruct (l ++ r :: l') eqn:E; [destruct l; discriminate|reflexivity]. Qed.

(** ** C74 *)
(** The input of any minibatch is evaluated between two stretches of training.  In every execution
    the outputs then are the network's function of that input at the parameters reached; and the
    training goes on as if there had been no evaluation. *)
Theorem C74_trained_deep_relu sI bI din dinb add addb V bias x layers next o :
  rdims sI bI din dinb add addb V -> (0 < layers)%nat -> wf_tensor x -> tens x (din ++ sI) (dinb ++ bI) -> (forall k, In k (tile_handles x) -> (k < next)%Z) -> opt_ok o ->
  exists b0 labels b1 b,
    deep_relu SideR (zlen din) add addb (S layers) V bias (input_build x None next) = Ok b0 /\ gen_cross_entropy (out_node b0) b0 = Ok (labels, b1) /\
    opt_new o (S (lid b1)) (bm_params b1) b1 = Ok b /\
    forall data before d after a P s,
      let shapes := relu_shapes SideR din add bias layers V in
      let np := List.length shapes in
      let model := fun X P => preact SideR din add bias X P layers in
      let loss := fun mbs P => fold_right (fun d z => a * samples_cross_entropy sI V (flab d) (model (fval d) P) + z) 0 mbs in
      let zero := fun (_ : nat) (_ : list Z) => 0 in
      let train := relu_train a o x labels b in
      (forall d, In d data -> rdata_ok labels sI bI din dinb V b d) -> In d data ->
      (forall mbs, In mbs (before ++ after) -> incl mbs data) ->
      (forall done mbs rest P1 m1 v1 hist, before ++ after = done ++ mbs :: rest ->
         opt_iterates o shapes (opt_first o) (map loss done) P zero zero P1 m1 v1 hist -> forall d, In d mbs ->
         forall k t i, (k < layers)%nat -> inb sI t -> (0 <= i < add)%Z -> preact SideR din add bias (fval d) P1 k t i <> 0) ->
      relu_ready labels b sI din data np P s ->
      runs_any (then_ (train (opt_first o) before) (evaluate (fx d) x b)) s (fun s' => exists P' m' v' hist,
        opt_iterates o shapes (opt_first o) (map loss before) P zero zero P' m' v' hist /\ relu_ready labels b sI din data np P' s' /\
        forall t v, inb sI t -> (0 <= v < V)%Z -> elem s' (PyModels.bt b (Val (out_node b))) (v :: t) = Fin (model (fval d) P' t v)) /\
      runs_any (then_ (train (opt_first o) before) (then_ (evaluate (fx d) x b) (train (opt_first o + zlen before)%Z after))) s (fun s' => exists P' m' v' hist,
        opt_iterates o shapes (opt_first o) (map loss (before ++ after)) P zero zero P' m' v' hist /\ relu_ready labels b sI din data np P' s' /\
        (after <> [] -> elem s' (loss_val b) [] = Fin (last hist 0))).
Proof.
  intros HG Hn Wx Tx Hh Ho. destruct (C69_deep_relu_resumed_training sI bI din dinb add addb V bias x layers next o HG Hn Wx Tx Hh Ho) as (b0 & labels & b1 & b & E1 & E2 & E3 & _ & H).
  exists b0, labels, b1, b. split; [exact E1|]. split; [exact E2|]. split; [exact E3|].
  intros data before d after a P s shapes np model loss zero train Hdat Hd Hinc Hsm Hs.
  assert (T : runs_acc (train (opt_first o) before) s (fun s' => exists P' m' v' hist,
    opt_iterates o shapes (opt_first o) (map loss before) P zero zero P' m' v' hist /\ relu_ready labels b sI din data np P' s' /\
    (map loss before <> [] -> opt_state o b (bm_params b) (S (lid b)) m' v' s'))).
  { specialize (H data [] before a P P zero zero [] s). cbv zeta in H. change (zlen []) with 0%Z in H. rewrite Z.add_0_r in H.
    eapply acc_weaken; [apply H|].
    - repeat split.
    - congruence.
    - exact Hdat.
    - intros mbs Hm. apply Hinc. apply in_or_app. left. exact Hm.
    - intros done mbs rest P1 m1 v1 hist Eq Hit. apply (Hsm done mbs (rest ++ after) P1 m1 v1 hist); [rewrite Eq, <- app_assoc; reflexivity|exact Hit].
    - exact Hs.
    - cbv beta. intros s' _ (P' & m' & v' & hist & Q1 & Q2 & Q3 & _). exists P', m', v', hist. auto. }
  split; apply acc_any; (eapply acc_then; [exact T|]); intros s1 _ (P1 & m1 & v1 & h1 & Q1 & Q2 & Q3).
  - apply nd_acc. eapply nd_weaken; [apply (evaluate_runs sI bI din dinb add addb V bias x layers next o b0 labels b1 b HG Hn Wx Tx Hh E1 E2 E3 data d P1 s1 Hdat Hd Q2)|].
    intros s2 _ (R1 & R2 & _). exists P1, m1, v1, h1. auto.
  - eapply acc_then; [apply nd_acc; apply (evaluate_runs sI bI din dinb add addb V bias x layers next o b0 labels b1 b HG Hn Wx Tx Hh E1 E2 E3 data d P1 s1 Hdat Hd Q2)|].
    intros s2 _ (R1 & R2 & R3).
    specialize (H data (map loss before) after a P P1 m1 v1 h1 s2). cbv zeta in H.
    replace (zlen (map loss before)) with (zlen before) in H by (unfold zlen; rewrite map_length; reflexivity).
    eapply acc_weaken; [apply H|].
    + exact Q1.
    + intros Hne. assert (Hne' : map loss before <> []) by exact Hne.
      exact (evaluate_opt_state sI bI din dinb add addb V bias x layers next o b0 labels b1 b HG Hn Wx Tx Hh E1 E2 E3 s1 s2 m1 v1 R3 (Q3 Hne')).
    + exact Hdat.
    + intros mbs Hm. apply Hinc. apply in_or_app. right. exact Hm.
    + intros done mbs rest P2 m2 v2 hist Eq Hit. apply (Hsm (before ++ done) mbs rest P2 m2 v2 hist); [rewrite Eq, <- app_assoc; reflexivity|rewrite map_app; exact Hit].
    + exact R2.
    + cbv beta. intros s' _ (P' & m' & v' & hist & S1 & S2 & _ & S4). exists P', m', v', (h1 ++ hist). rewrite map_app. split; [exact S1|]. split; [exact S2|].
      intros Hne. assert (L1 := opt_iterates_length _ _ _ _ _ _ _ _ _ _ _ Q1). assert (L2 := opt_iterates_length _ _ _ _ _ _ _ _ _ _ _ S1).
      rewrite app_length, L1, app_length, Nat.add_cancel_l, map_length in L2. destruct hist as [|r hist]; [destruct after; [congruence|discriminate L2]|].
      rewrite (S4 Hne). f_equal. symmetry. apply last_app_cons.
Qed.
