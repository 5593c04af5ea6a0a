(** * The hypotheses of C66 can be met *)
From Coq Require Import Reals Lra.
From Verif Require Import Base Spec Geometry Traits TraitsProofs Runtime Ops RealOps TensorSem ElemGeneric Concrete Axis SliceGeo Sequence XReals NdRuns AnyRuns Serial2 RSum AttnSpec MatOps CrossEntropy XTriples HasRuns TapeMath Tape PyLayers PyLinear AttMath PyAdam PropAdam PyModels BuildEnv GptBuild BuildModel OptBuild OptState GptSpec GptModel GptRun PropGpt GptTrain GptTrain GptExamples GptTrainExamples PyMixer MixerRuns MixSpec MixModel MixExamples SegTrain MixTrainExamples ReluSpec ReluBuild ReluModel PropRelu.
Local Close Scope R_scope.
Local Open Scope list_scope.
Local Open Scope Z_scope.

Lemma deep_relu_finite sd nd add addb m V bias x next b : deep_relu sd nd add addb m V bias (input_build x None next) = Ok b -> finite b.
Proof.
  intros H. unfold deep_relu in H.
  assert (F0 : finite (input_build x None next)).
  { exists [Val 0]. intros v Hv. cbn [input_build b_mem] in Hv. destruct v as [[|?]|[|?]|? ?]; try congruence. left. reflexivity. }
  assert (PL : forall o sd nd a ab bias b b', finite b -> push (gen_linear o sd NoTrans nd [a] [ab] bias b) = Ok b' -> finite b').
  { intros o0 sd0 nd0 a0 ab0 bias0 b0 b0' Hb E. eapply push_finite; [|exact E]. intros d bb E'. eapply linear_finite; eassumption. }
  assert (PA : forall o b b', finite b -> push (gen_act o Relu b) = Ok b' -> finite b').
  { intros o0 b0 b0' Hb E. eapply push_finite; [|exact E]. intros d bb E'. eapply act_finite; eassumption. }
  destruct (Z.of_nat m <? 2); [discriminate|]. destruct (nd <=? 0); [discriminate|]. cbn [throw_if] in H. ob H.
  repeat match goal with
  | Hb : finite ?b, E : push (gen_linear _ _ _ _ _ _ _ ?b) = Ok ?b' |- _ => assert (finite b') by (eapply PL; [exact Hb|exact E]); clear E
  | Hb : finite ?b, E : push (gen_act _ _ ?b) = Ok ?b' |- _ => assert (finite b') by (eapply PA; [exact Hb|exact E]); clear E
  | Hb : finite ?b, E : repeat_build _ _ ?b = Ok ?b' |- _ => assert (finite b') by (refine (repeat_finite _ _ _ _ _ Hb E);
      intros bi bo Hi Ho; ob Ho; eapply PA; [|eassumption]; eapply PL; [|eassumption]; exact Hi); clear E
  end. assumption.
Qed.

(** ** Tensors of the data, stored above all other tensors *)
Section Data.
Variables (sx bx sy by_ : list Z).
Hypothesis Fx : fit sx bx.
Hypothesis Fy : fit sy by_.
Let zl : List.length sx = List.length bx /\ List.length sy = List.length by_.
Proof. destruct Fx as (g1 & _), Fy as (g2 & _). unfold zlen in *. lia. Qed.
Definition fsample_at (H : Z) (s : store XR) (d : fsample) : Prop :=
  (wf_tensor (fx d) /\ t_shape (fx d) = sx /\ t_base (fx d) = bx) /\
  (wf_tensor (fy d) /\ t_shape (fy d) = sy /\ t_base (fy d) = by_) /\
  (forall h, In h (tile_handles (fx d)) \/ In h (tile_handles (fy d)) -> H <= h) /\
  stored KF s (fx d) /\ stored KI s (fy d) /\
  (forall idx, inb sx idx -> elem s (fx d) idx = Fin (fval d idx)) /\
  (forall idx, inb sy idx -> ielem s (fy d) idx = flab d idx).
Lemma data_fill' : forall (l : list (arr * (list Z -> Z))) H (s : store XR), exists data s',
  map (fun d => (fval d, flab d)) data = l /\ (forall h, h < H -> s' h = s h) /\ forall d, In d data -> fsample_at H s' d.
Proof.
  set (qx := prodZ (gridZ sx bx)). set (qy := prodZ (gridZ sy by_)).
  assert (Hqx : 0 < qx) by (apply prodZ_pos, gridZ_pos; first [apply Fx|apply Fy|apply zl]).
  assert (Hqy : 0 < qy) by (apply prodZ_pos, gridZ_pos; first [apply Fx|apply Fy|apply zl]).
  assert (Wx : forall H, wf_tensor (std_tensor sx bx H)) by (intros; apply std_wf; first [apply Fx|apply Fy|symmetry; apply Fx|symmetry; apply Fy]).
  assert (Wy : forall H, wf_tensor (std_tensor sy by_ H)) by (intros; apply std_wf; first [apply Fx|apply Fy|symmetry; apply Fx|symmetry; apply Fy]).
  induction l as [|[X lab] l IH]; intros H s; [exists [], s; split; [reflexivity|split; [reflexivity|intros d []]]|].
  destruct (IH (H + qx + qy) s) as (data & s1 & E & F1 & F2).
  set (tx := std_tensor sx bx H). set (ty := std_tensor sy by_ (H + qx)).
  set (s2 := (put tx (fun i => Fin (X i)) (puti ty lab s1) : store XR)).
  exists ({| fx := tx; fy := ty; fval := X; flab := lab |} :: data), s2.
  assert (Hx : forall h, In h (tile_handles tx) <-> H <= h < H + qx) by (intros; apply std_handles).
  assert (Hy : forall h, In h (tile_handles ty) <-> H + qx <= h < H + qx + qy) by (intros; apply std_handles).
  assert (Far : forall h, ~ H <= h < H + qx + qy -> s2 h = s1 h).
  { intros h Hh. unfold s2, put, puti. rewrite !put_other; [reflexivity| |]; rewrite ?Hx, ?Hy; lia. }
  assert (Dxy : disj ty tx) by (intros h K1 K2; apply Hx in K2; apply Hy in K1; lia).
  split; [cbn [map fval flab]; rewrite E; reflexivity|]. split.
  { intros h Hh. rewrite Far by lia. apply F1. lia. }
  intros d [<-|Hd].
  - unfold fsample_at. cbn [fx fy fval flab]. split; [split; [apply Wx|split; reflexivity]|]. split; [split; [apply Wy|split; reflexivity]|].
    split; [intros h [K|K]; [apply Hx in K|apply Hy in K]; lia|]. split; [apply put_stored, wf_wft, Wx|].
    split; [apply put_stored_other; [apply wf_wft, Wy|assumption|apply puti_stored, wf_wft, Wy]|]. split.
    + intros idx Hi. unfold s2. rewrite put_elem; [reflexivity|apply wf_wft, Wx|exact Hi].
    + intros idx Hi. rewrite (ielem_ext (puti ty lab s1 : store XR)); [|apply Wy|exact Hi|].
      * rewrite puti_ielem; [reflexivity|apply wf_wft, Wy|exact Hi].
      * intros h K. unfold s2, put at 1. apply put_other. intros Ch. exact (Dxy h K Ch).
  - destruct (F2 d Hd) as ((w1 & e1 & e2) & (w2 & e3 & e4) & g & st2 & st3 & v & v').
    assert (X1 : forall h, In h (tile_handles (fx d)) -> s2 h = s1 h) by (intros h K; apply Far; specialize (g h (or_introl K)); lia).
    assert (X2 : forall h, In h (tile_handles (fy d)) -> s2 h = s1 h) by (intros h K; apply Far; specialize (g h (or_intror K)); lia).
    split; [repeat split; assumption|]. split; [repeat split; assumption|]. split; [intros h K; specialize (g h K); lia|].
    split; [eapply stored_ext; eassumption|]. split; [eapply stored_ext; eassumption|]. split.
    + intros idx Hi. rewrite <- (v idx Hi). apply elem_ext; try assumption. rewrite e1; assumption.
    + intros idx Hi. rewrite <- (v' idx Hi). apply ielem_ext; try assumption. rewrite e3; assumption.
Qed.

End Data.

(** ** For every model, optimizer, data and parameters C66 speaks about there is a state in which
    the training starts. *)
Theorem C66_state_exists sI bI din dinb add addb V bias x layers next o b0 labels b1 b :
  rdims sI bI din dinb add addb V -> (0 < layers)%nat -> wf_tensor x -> tens x (din ++ sI) (dinb ++ bI) -> (forall k, In k (tile_handles x) -> k < next) ->
  deep_relu SideR (zlen din) add addb (S layers) V bias (input_build x None next) = Ok b0 -> gen_cross_entropy (out_node b0) b0 = Ok (labels, b1) ->
  opt_new o (S (lid b1)) (bm_params b1) b1 = Ok b ->
  forall P (l : list (arr * (list Z -> Z))), (forall X lab, In (X, lab) l -> forall t, inb sI t -> 0 <= lab t < V) ->
  exists data s, map (fun d => (fval d, flab d)) data = l /\ (forall d, In d data -> rdata_ok labels sI bI din dinb V b d) /\
    relu_ready labels b sI din data (List.length (relu_shapes SideR din add bias layers V)) P s.
Proof.
  intros HG Hn Wx Tx Hh E1 E2 E3 P l Hl0.
  assert (Hlo : exists lo, (lo <= next)%Z /\ forall k, In k (tile_handles x) -> (lo <= k)%Z).
  { clear - next. induction (tile_handles x) as [|k l (lo & H1 & H2)]; [exists next; split; [lia|intros ? []]|]. exists (Z.min lo k). split; [lia|]. intros k' [<-|H]; [lia|]. specialize (H2 _ H). lia. }
  destruct Hlo as (lo & Hlo & Hlo'). assert (Hr : forall k, In k (tile_handles x) -> (lo <= k < next)%Z) by (intros k Hk; auto).
  pose proof (deep_relu_ok SideR sI bI din dinb add addb V bias HG x layers lo next Hn Wx Tx Hlo Hr) as H1. rewrite E1 in H1. cbn [okp] in H1. destruct H1 as (HB & Ht).
  assert (El := t_lid sI bI din dinb add addb V bias x layers lo b0 HB). assert (Eo := t_out sI bI din dinb add addb V bias x layers lo b0 HB).
  destruct (out_hasn sI bI din dinb add addb V bias x layers lo b0 HB) as [N1 _]. cbn [fst snd] in N1.
  assert (HF : fit (V :: sI) (V :: bI)).
  { destruct HG as [(g1 & g2 & g3) _ _ _ g6]. split; [rewrite !zlen_cons; lia|]. split; constructor; assumption. }
  pose proof (gen_ce_ok lo (out_node b0) V sI bI b0 (rb_inv _ _ _ _ _ _ _ _ _ _ _ _ _ HB) Ht ltac:(rewrite Eo; exact N1) HF) as H2.
  rewrite E2 in H2. cbn [okp] in H2.
  destruct H2 as (HI & HX & Hn' & HL & HA & Wl & (Sl & Bl & _) & Hl & Dl & C0 & C1 & C2 & Tf). rewrite El in C0, C1, C2, Tf.
  assert (HB1 := rbuilt_ext _ _ _ _ _ _ _ _ _ _ _ _ _ _ HB HI HX Hn' HL HA).
  assert (El1 := t_lid sI bI din dinb add addb V bias x layers lo b1 HB1).
  assert (Ep := t_params sI bI din dinb add addb V bias x layers lo b1 HB1). unfold opt_new in E3. rewrite El1, Ep in E3.
  set (kid := S (2 * layers + 1)) in *.
  assert (NK : NoDup (opt_kinds o kid)).
  { destruct o as [lr mom wd damp nest|kd lr b1' b2 wd eps]; cbn [opt_kinds]; [destruct (Rltb 0 mom); repeat constructor; intros []|].
    repeat constructor; cbn [In]; lia. }
  assert (KK : forall k, In k (opt_kinds o kid) -> (kid <= k)%nat).
  { intros k. destruct o as [lr mom wd damp nest|kd lr b1' b2 wd eps]; cbn [opt_kinds]; [destruct (Rltb 0 mom)|]; cbn [In]; lia. }
  assert (PH : forall p, In p (r_params bias layers) -> exists tr, hasn b1 p tr) by (intros p Hp; eapply params_hasn; eassumption).
  assert (PD : NoDup (r_params bias layers)) by (apply (NoDup_cons_iff 0%nat); exact (t_nodup sI bI din dinb add addb V bias x layers lo b1 HB1)).
  assert (PL := t_ps_len sI bI din dinb add addb V bias x layers lo b1 HB1).
  assert (H3 : okp (gen_states (opt_kinds o kid) (r_params bias layers) b1) (fun b' => grown lo b1 b' /\ (forall k p sh ba, In k (opt_kinds o kid) -> In p (r_params bias layers) -> hast b1 (Val p) sh ba -> hast b' (Tmp k p) sh ba))).
  { apply (gen_states_ok lo (opt_kinds o kid) (r_params bias layers) b1 HI); [|exact NK|exact PD|].
    - intros p Hin. destruct (PH p Hin) as (tr & T1 & _). eauto.
    - intros k p Hk _. apply Tf. apply KK in Hk. unfold kid in Hk. lia. }
  rewrite E3 in H3. cbn [okp] in H3. destruct H3 as (GR & _). destruct GR as [GI GX Gn GL GA Gnew Gnext].
  assert (HB2 := rbuilt_ext _ _ _ _ _ _ _ _ _ _ _ _ _ _ HB1 GI GX Gn GL GA).
  assert (Ep2 := t_params sI bI din dinb add addb V bias x layers lo b HB2).
  assert (HD : forall v t, b_mem b v = Some t -> disj labels t).
  { intros v t Hv. destruct (b_mem b1 v) as [u|] eqn:Eu; [assert (u = t) by (apply GX in Eu; congruence); subst; apply (Dl v t Eu)|].
    intros k K1 K2. specialize (Gnew v t k Hv Eu K2). specialize (Hl k K1). lia. }
  assert (EN : List.length (relu_shapes SideR din add bias layers V) = ((if bias then 2 else 1) * S layers)%nat).
  { assert (Hdat0 : forall d, In d [] -> rdata_ok labels sI bI din dinb V b d) by (intros d []).
    rewrite <- (t_shapes' sI bI din dinb add addb V bias x labels layers lo b HB2 Wl HD [] Hdat0), map_length, Ep2. exact PL. }
  rewrite EN.
  assert (Fb : finite b) by (eapply states_finite; [eapply ce_finite; [eapply deep_relu_finite; exact E1|exact E2]|exact E3]). destruct Fb as [names Hnames].
  set (f := fun v : gvar => match v with Val m => P (index m (r_params bias layers)) | _ => fun _ => 0%R end).
  set (s0 := (puti labels (fun _ => 0) (fun _ => BF []) : store XR)).
  assert (q3 : stored KI s0 labels) by (apply puti_stored, wf_wft, Wl).
  destruct (fill_ok b lo f GI s0 names) as (s1 & F1 & F2 & F3).
  assert (FX : fit (din ++ sI) (dinb ++ bI)).
  { destruct HG as [(g1 & g2 & g3) (g4 & g5 & g6) _ _ _]. split; [rewrite !zlen_app; lia|]. unfold pos in *. split; apply Forall_app; split; assumption. }
  destruct (data_fill' (din ++ sI) (dinb ++ bI) sI bI FX ltac:(apply HG) l (b_next b) s1) as (data & s & D1 & D2 & D3).
  assert (Blo : lo <= b_next b) by (destruct GI; assumption).
  assert (Kb : forall v t k, b_mem b v = Some t -> In k (tile_handles t) -> lo <= k < b_next b) by (intros v t k Hx Hk; eapply (bi_rng _ _ GI); eassumption).
  assert (Vl : forall k, In k (tile_handles labels) -> s k = s0 k).
  { intros k Hk. rewrite D2 by (specialize (Hl k Hk); lia). apply F2. intros v t Hx Ch. exact (HD v t Hx k Hk Ch). }
  exists data, s. split; [assumption|]. split.
  - intros d Hd. destruct (D3 d Hd) as (A1 & A2 & A3 & _).
    assert (G1 : forall t : tensor, (forall k, In k (tile_handles t) -> k < b_next b) -> disj (fx d) t /\ disj (fy d) t).
    { intros t Ht0. split; intros k K1 K2; specialize (Ht0 k K2); [specialize (A3 k (or_introl K1))|specialize (A3 k (or_intror K1))]; lia. }
    destruct (G1 labels) as [L1 L2]; [intros k Hk; specialize (Hl k Hk); lia|].
    split; [assumption|assumption| | |].
    + split; [assumption|]. intros v t Hx. apply G1. intros k Hk. specialize (Kb v t k Hx Hk). lia.
    + split; [assumption|]. intros v t Hx. apply G1. intros k Hk. specialize (Kb v t k Hx Hk). lia.
    + apply (Hl0 (fval d)). rewrite <- D1. change (fval d, flab d) with ((fun d => (fval d, flab d)) d). apply in_map. assumption.
  - assert (VB : forall v t k, b_mem b v = Some t -> In k (tile_handles t) -> s k = s1 k) by (intros v t k Hx Hk; apply D2; specialize (Kb v t k Hx Hk); lia).
    assert (VW : forall v t, b_mem b v = Some t -> wf_tensor t) by (intros v t Hx; eapply (bi_wf _ _ GI); eassumption).
    split.
    + intros v t Hx. eapply stored_ext; [eapply VW; exact Hx|intros k Hk; eapply VB; eassumption|]. destruct (F3 v t) as [F4 _]; [apply Hnames; congruence|assumption|exact F4].
    + eapply stored_ext; [exact Wl|exact Vl|exact q3].
    + intros d Hd. destruct (D3 d Hd) as (_ & _ & _ & A4 & A5 & A6 & A7). repeat (split; [assumption|]). assumption.
    + intros j idx Hj Hidx. unfold rpval in *. rewrite Ep2 in *.
      assert (Hin : In (nth j (r_params bias layers) O) (r_params bias layers)) by (apply nth_In; rewrite PL; exact Hj).
      destruct (PH _ Hin) as ([sh' ba'] & T1 & _). cbn [fst snd] in T1. apply (hast_ext _ _ _ _ _ GX) in T1. destruct T1 as (t & Et & _). unfold PyModels.bt in *. rewrite Et in *.
      destruct (F3 (Val (nth j (r_params bias layers) O)) t) as [_ F4]; [apply Hnames; congruence|assumption|].
      transitivity (elem s1 t idx).
      { apply elem_ext; [eapply VW; exact Et|assumption|]. intros k Hk. eapply VB; eassumption. }
      rewrite F4 by assumption. cbn [f]. rewrite index_nth; [reflexivity|exact PD|rewrite PL; exact Hj].
Qed.

(** ** Rectifiers are not met at the kink when inputs and weights are at least 0 and biases positive *)
Lemma preact_pos sd din add X P k t i : (forall idx, (0 <= X idx)%R) -> (forall j idx, (0 <= P (2 * j)%nat idx)%R) -> (forall j idx, (0 < P (S (2 * j)) idx)%R) ->
  (0 < preact sd din add true X P k t i)%R.
Proof.
  intros HX HW Hb.
  assert (HS : forall (l : list (list Z)) g, (forall f, (0 <= g f)%R) -> (0 <= Rsuml l g)%R).
  { intros l g Hg. induction l as [|f l IH]; [unfold Rsuml; cbn; lra|]. unfold Rsuml in *. cbn [fold_right]. specialize (Hg f). lra. }
  assert (HA : forall h, (forall t f, (0 <= h t f)%R) -> forall k t i, (0 < affine sd din add true P k h t i)%R).
  { intros h Hh k0 t0 i0. unfold affine, W_of. specialize (Hb k0 [i0]).
    assert (0 <= Rsuml (all_idx (features din add k0)) (fun f => h t0 f * weight sd (P (2 * k0)%nat) f i0))%R; [|lra].
    apply HS. intros f. apply Rmult_le_pos; [apply Hh|]. unfold weight. apply HW. }
  unfold preact. apply HA. destruct k as [|k]; intros t0 f0; [apply HX|]. cbn [hidden_of]. apply Rmax_r.
Qed.

(** A network of three layers (two rectified) with biases on samples of one axis, features of two
    axes, all in tiles that do not divide the axes; Adam, one batch of two minibatches: all
    hypotheses of C66 hold at once, so its conclusion holds. *)
Definition images : tensor := std_tensor [4; 3; 5] [3; 2; 2] 0.
Definition img_a (l : list Z) : R := Rabs (IZR (List.hd 0 l)).
Definition img_b (l : list Z) : R := (1 / 2)%R.
Definition start_at (j : nat) (l : list Z) : R := if Nat.even j then Rabs (IZR (List.hd 0 l)) else (1 / 10)%R.
Theorem C66_example : exists b labels data d1 d2 s, data = [d1; d2] /\
  relu_ready labels b [5] [4; 3] data 6 start_at s /\
  runs_any (relu_train 1 adam images labels b 1 [[d1; d2]]) s (fun s' => exists P',
    relu_ready labels b [5] [4; 3] data 6 P' s' /\ exists z, elem s' (loss_val b) [] = Fin z).
Proof.
  assert (W1 : wf_tensor images) by (apply std_wf; [reflexivity|repeat constructor; lia|repeat constructor; lia]).
  assert (T1 : tens images ([4; 3] ++ [5]) ([3; 2] ++ [2])) by (repeat split).
  assert (H1 : forall k, In k (tile_handles images) -> k < 12) by (intros k Hk; apply std_handles in Hk; vm_compute in Hk |- *; intuition congruence).
  assert (Ho : opt_ok adam) by (cbn; unfold hyper; lra).
  assert (HG : rdims [5] [2] [4; 3] [3; 2] 6 4 7) by (split; repeat split; repeat constructor; lia).
  destruct (C66_deep_relu_training [5] [2] [4; 3] [3; 2] 6 4 7 true images 2 12 adam HG ltac:(lia) W1 T1 H1 Ho) as (b0 & labels & b1 & b & E1 & E2 & E3 & _ & HT).
  destruct (C66_state_exists [5] [2] [4; 3] [3; 2] 6 4 7 true images 2 12 adam b0 labels b1 b HG ltac:(lia) W1 T1 H1 E1 E2 E3 start_at
    [(img_a, lab1); (img_b, lab2)]) as (data & s & D1 & D2 & D3).
  { intros X lab Hin t _. assert (R1 : forall z, 0 <= z mod 7 < 7) by (intros; apply Z.mod_pos_bound; lia).
    cbn [In] in Hin. destruct Hin as [Hin|[Hin|[]]]; injection Hin as <- <-; apply R1. }
  destruct data as [|d1 [|d2 [|]]]; try discriminate D1.
  exists b, labels, [d1; d2], d1, d2, s. split; [reflexivity|]. split; [exact D3|].
  specialize (HT [d1; d2] [[d1; d2]] 1%R start_at s).
  eapply any_weaken; [apply HT|].
  - exact D2.
  - intros mbs Hm. cbn [In] in Hm. destruct Hm as [<-|[]]; intros d Hd; cbn [In] in *; tauto.
  - intros done mbs rest P1 m1 v1 hist Eq Hit d Hd k t i _ _ _. apply Rgt_not_eq.
    assert (Hdone : done = [] /\ mbs = [d1; d2]).
    { destruct done as [|y [|z done]]; cbn [app] in Eq; [injection Eq as -> ->; auto|destruct mbs; discriminate|discriminate]. }
    destruct Hdone as [-> ->]. cbn [map opt_iterates] in Hit. destruct Hit as (-> & _).
    apply preact_pos.
    + cbn [map] in D1. injection D1 as Ea _ Eb _. cbn [In] in Hd. destruct Hd as [<-|[<-|[]]]; [rewrite Ea; intros; apply Rabs_pos|rewrite Eb; intros; unfold img_b; lra].
    + intros j idx. unfold start_at. replace (Nat.even (2 * j)) with true; [apply Rabs_pos|]. symmetry. apply Nat.even_spec. exists j. reflexivity.
    + intros j idx. unfold start_at. replace (Nat.even (S (2 * j))) with false; [lra|]. rewrite Nat.even_succ. symmetry. apply Bool.not_true_iff_false. intros C. apply Nat.odd_spec in C. destruct C. lia.
  - exact D3.
  - intros s' _ (P' & m' & v' & hist & _ & R1 & R2). exists P'. split; [exact R1|]. eexists. apply R2. discriminate.
Qed.

(** ** C69: one batch, then another call goes on with the second one.  Adam's first step is shorter
    than 1, so parameters that start at 1 or more are positive after it and no rectifier is met at
    its kink. *)
Definition start_one (j : nat) (l : list Z) : R := (1 + Rabs (IZR (@List.hd Z 0%Z l)))%R.
Lemma first_step g p : (p - 1 < rule_p adam 1 p g 0 0)%R.
Proof.
  unfold rule_p, adam, step_p, step_m, step_v, PyAdam.ad_new, ad_m, ad_v, ad_p, ad_g, kind_lr, kind_dec. change (Z.to_nat 1) with 1%nat.
  cbv beta iota.
  match goal with |- context [(sqrt ?e + 1)%R] => replace e with (Rsqr g) by (unfold Rsqr; field) end.
  match goal with |- (_ < _ - 1 * ?e / _)%R => replace e with g by field end.
  rewrite sqrt_Rsqr_abs. assert (H : (0 < Rabs g + 1)%R) by (pose proof (Rabs_pos g); lra).
  assert (Hq : (1 * g / (Rabs g + 1) < 1)%R).
  { apply (Rmult_lt_reg_r (Rabs g + 1)); [exact H|]. unfold Rdiv. rewrite Rmult_assoc, Rinv_l by lra. pose proof (Rle_abs g). lra. }
  lra.
Qed.
Theorem C69_example : exists b labels d1 d2 s,
  let shapes := relu_shapes SideR [4; 3] 6 true 2 7 in
  let loss := fun mbs P => fold_right (fun d z => (1 * samples_cross_entropy [5]%Z 7 (flab d) (preact SideR [4; 3]%Z 6 true (fval d) P 2) + z)%R) 0%R mbs in
  relu_ready labels b [5] [4; 3] [d1; d2] 6 start_one s /\
  runs_acc (then_ (relu_train 1 adam images labels b 1 [[d1]]) (relu_train 1 adam images labels b 2 [[d2]])) s (fun s' => exists P' m' v' hist,
    opt_iterates adam shapes 1 [loss [d1]; loss [d2]] start_one (fun _ _ => 0%R) (fun _ _ => 0%R) P' m' v' hist /\
    relu_ready labels b [5] [4; 3] [d1; d2] 6 P' s' /\ opt_state adam b (bm_params b) (S (lid b)) m' v' s').
Proof.
  assert (W1 : wf_tensor images) by (apply std_wf; [reflexivity|repeat constructor; lia|repeat constructor; lia]).
  assert (T1 : tens images ([4; 3] ++ [5]) ([3; 2] ++ [2])) by (repeat split).
  assert (H1 : forall k, In k (tile_handles images) -> k < 12) by (intros k Hk; apply std_handles in Hk; vm_compute in Hk |- *; intuition congruence).
  assert (Ho : opt_ok adam) by (cbn; unfold hyper; lra).
  assert (HG : rdims [5] [2] [4; 3] [3; 2] 6 4 7) by (split; repeat split; repeat constructor; lia).
  destruct (C69_deep_relu_resumed_training [5] [2] [4; 3] [3; 2] 6 4 7 true images 2 12 adam HG ltac:(lia) W1 T1 H1 Ho) as (b0 & labels & b1 & b & E1 & E2 & E3 & _ & HT).
  destruct (C66_state_exists [5] [2] [4; 3] [3; 2] 6 4 7 true images 2 12 adam b0 labels b1 b HG ltac:(lia) W1 T1 H1 E1 E2 E3 start_one
    [(img_a, lab1); (img_b, lab2)]) as (data & s & D1 & D2 & D3).
  { intros X lab Hin t _. assert (R1 : forall z, 0 <= z mod 7 < 7) by (intros; apply Z.mod_pos_bound; lia).
    cbn [In] in Hin. destruct Hin as [Hin|[Hin|[]]]; injection Hin as <- <-; apply R1. }
  destruct data as [|d1 [|d2 [|]]]; try discriminate D1.
  exists b, labels, d1, d2, s. intros shapes loss. split; [exact D3|].
  assert (HX : forall d, In d [d1; d2] -> forall idx, (0 <= fval d idx)%R).
  { cbn [map] in D1. injection D1 as Ea _ Eb _. intros d [<-|[<-|[]]]; [rewrite Ea; intros; apply Rabs_pos|rewrite Eb; intros; unfold img_b; lra]. }
  assert (H0 : forall j idx, (1 <= start_one j idx)%R) by (intros; unfold start_one; pose proof (Rabs_pos (IZR (@List.hd Z 0%Z idx))); lra).
  eapply acc_then.
  { apply (HT [d1; d2] [] [[d1]] 1%R start_one start_one (fun _ _ => 0%R) (fun _ _ => 0%R) [] s); [repeat split|congruence|exact D2| | |exact D3].
    - intros mbs [<-|[]] d Hd. cbn [In] in *. tauto.
    - intros done mbs rest P1 m1 v1 hist Eq Hit d Hd k t i _ _ _. apply Rgt_not_eq.
      assert (Hdone : done = [] /\ mbs = [d1]) by (destruct done as [|y [|z done]]; cbn [app] in Eq; [injection Eq as -> ->; auto|destruct mbs; discriminate|discriminate]).
      destruct Hdone as [-> ->]. destruct Hit as (-> & _). apply preact_pos; [apply HX; cbn [In] in *; tauto|intros; specialize (H0 (2 * j)%nat idx); lra|intros; specialize (H0 (S (2 * j)) idx); lra]. }
  cbv beta. intros s1 _ (P1 & m1 & v1 & h1 & I1 & R1 & S1 & _). cbn [app] in I1.
  eapply acc_weaken.
  { apply (HT [d1; d2] [loss [d1]] [[d2]] 1%R start_one P1 m1 v1 ([] ++ h1) s1); [exact I1|intros _; apply S1; discriminate|exact D2| | |exact R1].
    - intros mbs [<-|[]] d Hd. cbn [In] in *. tauto.
    - intros done mbs rest P2 m2 v2 hist Eq Hit d Hd k t i _ _ _. apply Rgt_not_eq.
      assert (Hdone : done = [] /\ mbs = [d2]) by (destruct done as [|y [|z done]]; cbn [app] in Eq; [injection Eq as -> ->; auto|destruct mbs; discriminate|discriminate]).
      destruct Hdone as [-> ->]. cbn [map app opt_iterates] in Hit. destruct Hit as (P3 & m3 & v3 & h3 & (g & _ & Hp & _) & _ & (-> & _)).
      assert (HP : forall j idx, (0 < P3 j idx)%R) by (intros; rewrite Hp; pose proof (first_step (g j idx) (start_one j idx)); specialize (H0 j idx); cbn [opt_first adam] in *; lra).
      apply preact_pos; [apply HX; cbn [In] in *; tauto|intros; specialize (HP (2 * j)%nat idx); lra|intros; apply HP]. }
  cbv beta. intros s2 _ (P2 & m2 & v2 & h2 & I2 & R2 & S2 & _). exists P2, m2, v2, (([] ++ h1) ++ h2). split; [exact I2|]. split; [exact R2|apply S2; discriminate].
Qed.
