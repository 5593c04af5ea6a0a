(** * The hypotheses of C61 can be met *)
From Coq Require Import Reals Lra.
From Verif Require Import Base Spec Geometry Traits TraitsProofs Runtime Ops RealOps TensorSem ElemGeneric Concrete Axis SliceGeo Sequence XReals NdRuns AnyRuns RSum AttnSpec MatOps CrossEntropy XTriples HasRuns TapeMath Tape PyLayers PyLinear AttMath PyAdam PropAdam PyModels BuildEnv GptBuild BuildModel OptBuild GptSpec GptModel PropGpt GptTrain PropGptTrain GptExamples.
Local Close Scope R_scope.
Local Open Scope list_scope.
Local Open Scope Z_scope.

Lemma slots_finite ks p : forall b b', finite b -> gen_slots ks p b = Ok b' -> finite b'.
Proof.
  induction ks as [|k ks IH]; intros b b' Hb H; cbn [gen_slots] in H; [injection H as <-; assumption|].
  ob H. eapply IH; [|exact H]. eapply alloc_finite; eassumption.
Qed.
Lemma states_finite ks ps : forall b b', finite b -> gen_states ks ps b = Ok b' -> finite b'.
Proof.
  induction ps as [|p ps IH]; intros b b' Hb H; cbn [gen_states] in H; [injection H as <-; assumption|].
  ob H. eapply IH; [|exact H]. eapply slots_finite; eassumption.
Qed.

(** ** Tensors of the data, stored above all other tensors *)
Definition sample_at (n nb nt bt H : Z) (s : store XR) (d : sample) : Prop :=
  (wf_tensor (sx d) /\ t_shape (sx d) = [n; nb] /\ t_base (sx d) = [nt; bt]) /\
  (wf_tensor (sy d) /\ t_shape (sy d) = [n; nb] /\ t_base (sy d) = [nt; bt]) /\
  (forall h, In h (tile_handles (sx d)) \/ In h (tile_handles (sy d)) -> H <= h) /\
  stored KI s (sx d) /\ stored KI s (sy d) /\
  (forall i t, 0 <= i < n -> 0 <= t < nb -> ielem s (sx d) [i; t] = stok d i t /\ ielem s (sy d) [i; t] = slab d i t).
Lemma data_fill n nb nt bt (Hp : 0 < n /\ 0 < nb /\ 0 < nt /\ 0 < bt) : forall (l : list ((Z -> Z -> Z) * (Z -> Z -> Z))) H (s : store XR), exists data s',
  map (fun d => (stok d, slab d)) data = l /\ (forall h, h < H -> s' h = s h) /\ forall d, In d data -> sample_at n nb nt bt H s' d.
Proof.
  set (q := prodZ (gridZ [n; nb] [nt; bt])).
  assert (Hq : 0 < q) by (apply prodZ_pos, gridZ_pos; first [reflexivity|repeat apply Forall_cons; try apply Forall_nil; lia]).
  assert (W : forall H, wf_tensor (std_tensor [n; nb] [nt; bt] H)) by (intros; apply std_wf; [reflexivity|repeat constructor; lia|repeat constructor; lia]).
  induction l as [|[tok lab] l IH]; intros H s; [exists [], s; split; [reflexivity|split; [reflexivity|intros d []]]|].
  destruct (IH (H + 2 * q) s) as (data & s1 & E & F1 & F2).
  set (tx := std_tensor [n; nb] [nt; bt] H). set (ty := std_tensor [n; nb] [nt; bt] (H + q)).
  exists ({| sx := tx; sy := ty; stok := tok; slab := lab |} :: data), (puti tx (idx2 tok) (puti ty (idx2 lab) s1) : store XR).
  assert (Hx : forall h, In h (tile_handles tx) <-> H <= h < H + q) by (intros; apply std_handles).
  assert (Hy : forall h, In h (tile_handles ty) <-> H + q <= h < H + q + q) by (intros; apply std_handles).
  assert (Far : forall h, ~ H <= h < H + 2 * q -> (puti tx (idx2 tok) (puti ty (idx2 lab) s1) : store XR) h = s1 h).
  { intros h Hh. unfold puti. rewrite !put_other; [reflexivity| |]; rewrite ?Hx, ?Hy; lia. }
  assert (Dxy : disj ty tx) by (intros h K1 K2; apply Hx in K2; apply Hy in K1; lia).
  split; [cbn [map stok slab]; rewrite E; reflexivity|]. split.
  { intros h Hh. rewrite Far by lia. apply F1. lia. }
  intros d [<-|Hd].
  - unfold sample_at. cbn [sx sy stok slab]. split; [split; [apply W|split; reflexivity]|]. split; [split; [apply W|split; reflexivity]|].
    split; [intros h [K|K]; [apply Hx in K|apply Hy in K]; lia|]. split; [apply puti_stored, wf_wft, W|].
    split; [apply put_stored_other; [apply wf_wft, W|assumption|apply puti_stored, wf_wft, W]|].
    intros i t Hi Ht. assert (Ix : inb [n; nb] [i; t]) by (repeat constructor; lia). split; [rewrite puti_ielem by (apply wf_wft, W || exact Ix); reflexivity|].
    rewrite (ielem_ext (puti ty (idx2 lab) s1 : store XR)); [|apply W|exact Ix|].
    + rewrite puti_ielem by (apply wf_wft, W || exact Ix). reflexivity.
    + intros h K. unfold puti at 1. apply put_other. intros C. exact (Dxy h K C).
  - destruct (F2 d Hd) as ((w1 & e1 & e2) & (w2 & e3 & e4) & g & s2 & s3 & v).
    assert (X1 : forall h, In h (tile_handles (sx d)) -> (puti tx (idx2 tok) (puti ty (idx2 lab) s1) : store XR) h = s1 h) by (intros h K; apply Far; specialize (g h (or_introl K)); lia).
    assert (X2 : forall h, In h (tile_handles (sy d)) -> (puti tx (idx2 tok) (puti ty (idx2 lab) s1) : store XR) h = s1 h) by (intros h K; apply Far; specialize (g h (or_intror K)); lia).
    split; [repeat split; assumption|]. split; [repeat split; assumption|]. split; [intros h K; specialize (g h K); lia|].
    split; [eapply stored_ext; eassumption|]. split; [eapply stored_ext; eassumption|].
    intros i t Hi Ht. destruct (v i t Hi Ht) as [v1 v2]. rewrite <- v1, <- v2. split; apply ielem_ext; try assumption; [rewrite e1|rewrite e3]; repeat constructor; lia.
Qed.

(** ** For every model, optimizer, data and parameters C61 speaks about there is a state in which
    the training starts. *)
Theorem C61_state_exists c ids pos n nb nt bt h next o mask b0 labels b1 b :
  gdims c n nb nt bt h ->
  wf_tensor ids -> t_shape ids = [n; nb] -> t_base ids = [nt; bt] -> (forall k, In k (tile_handles ids) -> k < next) ->
  wf_tensor pos -> t_shape pos = [n] -> t_base pos = [nt] -> (forall k, In k (tile_handles pos) -> k < next) -> disj ids pos ->
  gpt2 c ids pos next = Ok (mask, b0) -> gen_cross_entropy (out_node b0) b0 = Ok (labels, b1) -> opt_new o (S (lid b1)) (bm_params b1) b1 = Ok b ->
  forall positions P (l : list ((Z -> Z -> Z) * (Z -> Z -> Z))),
  (forall tok lab, In (tok, lab) l -> forall i t, 0 <= i < n -> 0 <= t < nb -> 0 <= tok i t < c_vocab c /\ 0 <= lab i t < c_vocab c) ->
  exists data s, map (fun d => (stok d, slab d)) data = l /\ (forall d, In d data -> data_ok c ids labels n nb nt bt b d) /\
    gpt2_ready ids pos mask labels b n nb positions data (5 + 16 * c_layers c) P s.
Proof.
  intros HG Wi Si Bi Hi Wp Sp Bp Hp Dip E1 E2 E3 positions P l Hl0.
  destruct (C59_state_exists c ids pos n nb nt bt h next mask b0 labels b1 HG Wi Si Bi Hi Wp Sp Bp Hp Dip E1 E2 (fun _ _ => 0) positions (fun _ _ => 0) P P 0%R) as [s0 [q1 q2 q3 q4 q5 q6 q7 q8]].
  pose proof (gpt2_ok c ids pos n nb nt bt h next HG Si Bi Sp Bp) as H1. rewrite E1 in H1. cbn [okp] in H1.
  destruct H1 as (lo & Hlo & Wm & (Sm & Bm & _) & Hm & HB & Ht).
  assert (El : lid b0 = (5 + 8 * c_layers c)%nat) by (apply (lid_eq c mask ids pos n nb nt bt h lo b0 HB)).
  assert (Eo : out_node b0 = (first (c_layers c) + 4)%nat) by (apply (out_eq c mask ids pos n nb nt bt h lo b0 HB)).
  destruct (gb_post _ _ _ _ _ _ _ _ _ _ _ HB 4%nat _ eq_refl) as [N1 _]. cbn [fst snd] in N1.
  assert (HF : fit [c_vocab c; n; nb] [c_vocab c; nt; bt]) by (destruct HG; repeat split; repeat constructor; assumption).
  pose proof (gen_ce_ok lo (first (c_layers c) + 4) (c_vocab c) [n; nb] [nt; bt] b0 (gb_inv _ _ _ _ _ _ _ _ _ _ _ HB) Ht N1 HF) as H2.
  rewrite <- Eo, E2 in H2. cbn [okp] in H2. destruct H2 as (HI & HX & Hn & HL & HA & Wl & (Sl & Bl & _) & Hl & Dl & C0 & C1 & C2 & Tf).
  rewrite El in C0, C1, C2, Tf.
  assert (HB1 := gbuilt_ext _ _ _ _ _ _ _ _ _ _ _ _ HB HI HX Hn HL HA).
  assert (El1 : lid b1 = (5 + 8 * c_layers c)%nat) by (apply (lid_eq c mask ids pos n nb nt bt h lo b1 HB1)).
  assert (Ep := bm_params_eq c mask ids pos n nb nt bt h lo b1 HB1). unfold opt_new in E3. rewrite El1, Ep in E3.
  set (kid := S (5 + 8 * c_layers c)) in *.
  assert (NK : NoDup (opt_kinds o kid)).
  { destruct o as [lr mom wd damp nest|kd lr b1' b2 wd eps]; cbn [opt_kinds]; [destruct (Rltb 0 mom); repeat constructor; intros []|].
    repeat constructor; cbn [In]; lia. }
  assert (KK : forall k, In k (opt_kinds o kid) -> (kid <= k)%nat).
  { intros k. destruct o as [lr mom wd damp nest|kd lr b1' b2 wd eps]; cbn [opt_kinds]; [destruct (Rltb 0 mom)|]; cbn [In]; lia. }
  assert (H3 : okp (gen_states (opt_kinds o kid) (g_params c) b1) (fun b' => grown lo b1 b' /\ (forall k p sh ba, In k (opt_kinds o kid) -> In p (g_params c) -> hast b1 (Val p) sh ba -> hast b' (Tmp k p) sh ba))).
  { apply (gen_states_ok lo (opt_kinds o kid) (g_params c) b1 HI); [|exact NK|apply params_nodup|].
    - intros p Hin. destruct (p_hast c mask ids pos n nb nt bt h lo b1 HB1 p Hin) as (sh & ba & T1 & _). eauto.
    - intros k p Hk _. apply Tf. apply KK in Hk. unfold kid in Hk. lia. }
  rewrite E3 in H3. cbn [okp] in H3. destruct H3 as (GR & _). destruct GR as [GI GX Gn GL GA Gnew Gnext].
  assert (HB2 := gbuilt_ext _ _ _ _ _ _ _ _ _ _ _ _ HB1 GI GX Gn GL GA).
  assert (Fb : finite b) by (eapply states_finite; [eapply ce_finite; [eapply gpt2_finite; exact E1|exact E2]|exact E3]). destruct Fb as [names Hnames].
  set (f := fun x : gvar => match x with Val m => P (GptRun.index m (g_params c)) | _ => fun _ => 0%R end).
  destruct (fill_ok b lo f GI s0 names) as (s1 & F1 & F2 & F3).
  destruct (data_fill n nb nt bt ltac:(destruct HG; lia) l (b_next b) s1) as (data & s & D1 & D2 & D3).
  assert (Blo : lo <= b_next b) by (destruct GI; assumption).
  assert (Kb : forall x t k, b_mem b x = Some t -> In k (tile_handles t) -> lo <= k < b_next b) by (intros x t k Hx Hk; eapply (bi_rng _ _ GI); eassumption).
  assert (Vlo : forall k, k < lo -> s k = s0 k) by (intros k Hk; rewrite D2 by lia; apply F1; assumption).
  assert (Vl : forall k, In k (tile_handles labels) -> s k = s0 k).
  { intros k Hk. rewrite D2 by (specialize (Hl k Hk); lia). apply F2. intros x t Hx C. destruct (b_mem b1 x) as [u|] eqn:Eu.
    - assert (u = t) by (apply GX in Eu; congruence). subst. exact (Dl x t Eu k Hk C).
    - specialize (Gnew x t k Hx Eu C). specialize (Hl k Hk). lia. }
  exists data, s. split; [assumption|]. split.
  - intros d Hd. destruct (D3 d Hd) as (A1 & A2 & A3 & _).
    assert (G1 : forall t : tensor, (forall k, In k (tile_handles t) -> k < b_next b) -> disj (sx d) t /\ disj (sy d) t).
    { intros t Ht0. split; intros k K1 K2; specialize (Ht0 k K2); [specialize (A3 k (or_introl K1))|specialize (A3 k (or_intror K1))]; lia. }
    destruct (G1 ids) as [I1 I2]; [intros k Hk; specialize (Hi k Hk); lia|]. destruct (G1 labels) as [L1 L2]; [intros k Hk; specialize (Hl k Hk); lia|].
    split; [assumption|assumption| | |].
    + split; [assumption|]. split; [assumption|]. intros x t Hx. apply G1. intros k Hk. specialize (Kb x t k Hx Hk). lia.
    + split; [assumption|]. split; [assumption|]. intros x t Hx. apply G1. intros k Hk. specialize (Kb x t k Hx Hk). lia.
    + apply Hl0. rewrite <- D1. change (stok d, slab d) with ((fun d => (stok d, slab d)) d). apply in_map. assumption.
  - assert (VI : forall k, In k (tile_handles ids) -> s k = s0 k) by (intros k Hk; apply Vlo; specialize (Hi k Hk); lia).
    assert (VP : forall k, In k (tile_handles pos) -> s k = s0 k) by (intros k Hk; apply Vlo; specialize (Hp k Hk); lia).
    assert (VM : forall k, In k (tile_handles mask) -> s k = s0 k) by (intros k Hk; apply Vlo; specialize (Hm k Hk); lia).
    assert (VB : forall x t k, b_mem b x = Some t -> In k (tile_handles t) -> s k = s1 k) by (intros x t k Hx Hk; apply D2; specialize (Kb x t k Hx Hk); lia).
    assert (VW : forall x t, b_mem b x = Some t -> wf_tensor t) by (intros x t Hx; eapply (bi_wf _ _ GI); eassumption).
    split.
    + intros x t Hx. eapply stored_ext; [eapply VW; exact Hx|intros k Hk; eapply VB; eassumption|]. destruct (F3 x t) as [F4 _]; [apply Hnames; congruence|assumption|exact F4].
    + eapply stored_ext; [exact Wi|exact VI|apply q2].
    + eapply stored_ext; [exact Wl|exact Vl|apply q5].
    + destruct q3 as [q3 q3']. split; [eapply stored_ext; eassumption|]. intros i Hi0. rewrite <- q3' by assumption. apply ielem_ext; [assumption|rewrite Sp; repeat constructor; lia|assumption].
    + destruct q4 as [q4 q4']. split; [eapply stored_ext; eassumption|]. intros i j Hi0 Hj0. rewrite <- q4' by assumption. apply belem_ext; [assumption|rewrite Sm; repeat constructor; lia|assumption].
    + intros d Hd. destruct (D3 d Hd) as (_ & _ & _ & A4 & A5 & A6). split; [assumption|]. split; assumption.
    + intros j idx Hj Hidx. unfold pval in *. rewrite (GptTrain.Eb c mask ids pos n nb nt bt h lo b HB2) in * by exact Hj.
      assert (Hin : In (nth j (g_params c) O) (g_params c)) by (apply nth_In; rewrite GptRun.params_len; exact Hj).
      destruct (p_hast c mask ids pos n nb nt bt h lo b HB2 _ Hin) as (sh & ba & (t & Et & _) & _). unfold PyModels.bt in *. rewrite Et in *.
      destruct (F3 (Val (nth j (g_params c) O)) t) as [_ F4]; [apply Hnames; congruence|assumption|].
      transitivity (elem s1 t idx).
      { unfold elem. rewrite (VB _ t _ Et); [reflexivity|]. apply th_In; [apply wf_wft; eapply VW; exact Et|apply etile_bound; [apply wf_wft; eapply VW; exact Et|assumption]]. }
      rewrite F4 by assumption. cbn [f]. rewrite GptRun.index_nth; [reflexivity|apply params_nodup|rewrite GptRun.params_len; exact Hj].
Qed.

(** Adam on the two-block model of GptExamples.v, trained on two batches, one of two minibatches:
    all hypotheses of C61 hold at once, so its conclusion holds. *)
Definition adam : optimizer := OAdam Adam 1 (1/2) (1/2) 0 1.
Definition tok1 (i t : Z) : Z := (i + t) mod 7.
Definition tok2 (i t : Z) : Z := (2 * i + 3 * t) mod 7.
Lemma tok_range i t : (0 <= tok1 i t < 7) /\ (0 <= tok2 i t < 7).
Proof. unfold tok1, tok2. split; apply Z.mod_pos_bound; lia. Qed.
Theorem C61_example P : exists mask b labels data d1 d2 d3 s, data = [d1; d2; d3] /\
  gpt2_ready small_ids small_pos mask labels b 4 2 (fun i => i) data 37 P s /\
  runs_any (gpt2_train 1 adam small_ids labels b 1 [[d1; d2]; [d3]]) s (fun s' => exists P',
    gpt2_ready small_ids small_pos mask labels b 4 2 (fun i => i) data 37 P' s' /\ exists z, elem s' (loss_val b) [] = Fin z).
Proof.
  assert (W1 : wf_tensor small_ids) by (apply std_wf; [reflexivity|repeat constructor; lia|repeat constructor; lia]).
  assert (W2 : wf_tensor small_pos) by (apply std_wf; [reflexivity|repeat constructor; lia|repeat constructor; lia]).
  assert (H1 : forall k, In k (tile_handles small_ids) -> 0 <= k < 4) by (intros k Hk; apply std_handles in Hk; vm_compute in Hk |- *; intuition congruence).
  assert (H2 : forall k, In k (tile_handles small_pos) -> 4 <= k < 6) by (intros k Hk; apply std_handles in Hk; vm_compute in Hk |- *; intuition congruence).
  assert (H1' : forall k, In k (tile_handles small_ids) -> k < 6) by (intros k Hk; specialize (H1 k Hk); lia).
  assert (H2' : forall k, In k (tile_handles small_pos) -> k < 6) by (intros k Hk; specialize (H2 k Hk); lia).
  assert (Dd : disj small_ids small_pos) by (intros k K1 K2; specialize (H1 k K1); specialize (H2 k K2); lia).
  assert (Ho : opt_ok adam) by (cbn; unfold hyper; lra).
  destruct (C61_gpt2_training small small_ids small_pos 4 2 2 1 3 6 adam small_gdims Rlt_0_1 (fun _ => conj (ex_intro (fun z => 4 = z * 2) 2 eq_refl) (ex_intro (fun z => 2 = z * 1) 2 eq_refl))
    Ho W1 eq_refl eq_refl H1' W2 eq_refl eq_refl H2' Dd) as (mask & b0 & labels & b1 & b & E1 & E2 & E3 & _ & HT).
  destruct (C61_state_exists small small_ids small_pos 4 2 2 1 3 6 adam mask b0 labels b1 b small_gdims W1 eq_refl eq_refl H1' W2 eq_refl eq_refl H2' Dd E1 E2 E3 (fun i => i) P
    [(tok1, tok2); (tok2, tok1); (tok1, tok1)]) as (data & s & D1 & D2 & D3).
  { intros tok lab Hin i t _ _. pose proof (tok_range i t) as [T1 T2]. cbn [In] in Hin. destruct Hin as [Hin|[Hin|[Hin|[]]]]; injection Hin as <- <-; split; assumption. }
  destruct data as [|d1 [|d2 [|d3 [|]]]]; try discriminate D1.
  exists mask, b, labels, [d1; d2; d3], d1, d2, d3, s. split; [reflexivity|]. split; [exact D3|].
  specialize (HT (fun i => i) [d1; d2; d3] [[d1; d2]; [d3]] 1%R P s).
  eapply any_weaken; [apply HT|].
  - exact D2.
  - intros i Hi. cbn. lia.
  - intros mbs Hm. cbn [In] in Hm. destruct Hm as [<-|[<-|[]]]; intros d Hd; cbn [In] in *; tauto.
  - intros done mbs rest P1 m1 v1 hist _ _ d _ C. discriminate C.
  - exact D3.
  - intros s' _ (P' & m' & v' & hist & _ & R1 & R2). exists P'. split; [exact R1|]. eexists. apply R2. discriminate.
Qed.
