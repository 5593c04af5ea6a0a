(** * C73: training that starts from the parameters of a torch MLP *)
From Coq Require Import String Reals Lra FunctionalExtensionality.
From Verif Require Import Base Spec Geometry Traits TraitsProofs Runtime Ops RealOps TensorSem ElemGeneric Concrete Axis SliceGeo Sequence XReals NdRuns AnyRuns Serial2 RSum AttnSpec MatOps CrossEntropy XTriples HasRuns TapeMath Tape PyLayers PyLinear AttMath PyAdam PropAdam PyModels BuildEnv GptBuild BuildModel OptBuild OptState GptSpec GptModel GptRun PropGpt GptTrain GptExamples GptTrainExamples NumpyIO PropNumpy Checkpoint PropCheckpoint GptTorch PropTorch PropTorchBack PropTorchGpt PyMixer MixerRuns MixSpec MixModel SegTrain ReluSpec ReluBuild ReluModel PropRelu MixTorch PropMixTorch ReluTorch.
Import ListNotations.
Local Close Scope string_scope.
Local Close Scope R_scope.
Local Open Scope list_scope.
Local Open Scope Z_scope.

Definition relu_params_of (b : build) : list tensor := map (fun m => PyModels.bt b (Val m)) (bm_params b).
(** the shapes are the ones of C66 *)
Lemma torch_shapes_eq D H bias n V : torch_mlp_shapes D H bias n V = relu_shapes SideR [D] H bias n V.
Proof.
  unfold torch_mlp_shapes, relu_shapes. f_equal. apply functional_extensionality. intros k. destruct k; reflexivity.
Qed.
Lemma torch_shapes_ne D H bias n V : Forall (fun sh => sh <> []) (torch_mlp_shapes D H bias n V).
Proof.
  apply Forall_forall. intros sh Hs. apply in_flat_map in Hs as (k & _ & Hk). cbn zeta in Hk. destruct bias; cbn [In] in Hk; intuition congruence.
Qed.
Lemma torch_shapes_len D H bias n V : List.length (torch_mlp_shapes D H bias n V) = ((if bias then 2 else 1) * S n)%nat.
Proof.
  unfold torch_mlp_shapes. cbv zeta. rewrite <- (seq_length (S n) 0) at 2. generalize (seq 0 (S n)). intros l.
  induction l as [|k l IH]; [destruct bias; reflexivity|]. cbn [flat_map List.length]. rewrite app_length, IH. destruct bias; cbn [List.length]; lia.
Qed.

(** ** torch's outputs are NNTile's *)
Lemma torch_mlp_preact D H bias X (W : nat -> arr) n t i : 0 < D -> 0 < H -> torch_mlp D H bias X W n t i = preact SideR [D] H bias X W n [t] i.
Proof.
  intros hD hH.
  assert (EB : forall k i, match (if bias then Some (W (2 * k + 1)%nat) else None) with Some b => b [i] | None => 0%R end = (if bias then W (S (W_of bias k)) [i] else 0%R)).
  { intros k j. unfold W_of. destruct bias; [|reflexivity]. rewrite Nat.add_1_r. reflexivity. }
  revert i. induction n as [|n IH]; intros i; cbn [torch_mlp]; unfold nn_linear, preact, affine; rewrite EB; f_equal; cbn [features]; rewrite sum1 by assumption.
  - apply Rsum_ext. intros k _. reflexivity.
  - apply Rsum_ext. intros k _. cbn [hidden_of List.hd]. unfold preact in IH. rewrite IH, Rmax_comm. reflexivity.
Qed.
Lemma rows_eq B V d (lg : list Z -> Z -> R) y : 0 < B -> (forall t v, lg [t] v = y t v) ->
  samples_cross_entropy [B] V (flab d) lg = rows_cross_entropy B V (fun t => flab d [t]) y.
Proof.
  intros hB E. unfold samples_cross_entropy, rows_cross_entropy. rewrite sum1 by assumption. apply Rsum_ext. intros t _. rewrite E.
  rewrite (Rsum_ext V (fun v => exp (lg [t] v)) (fun v => exp (y t v))) by (intros v _; rewrite E; reflexivity). reflexivity.
Qed.

(** ** What loading touches *)
Lemma relu_params_mem sI bI din dinb add addb V bias x layers next o b0 labels b1 b :
  rdims sI bI din dinb add addb V -> (0 < layers)%nat -> wf_tensor x -> tens x (din ++ sI) (dinb ++ bI) -> (forall k, In k (tile_handles x) -> k < next) ->
  deep_relu SideR (zlen din) add addb (S layers) V bias (input_build x None next) = Ok b0 -> gen_cross_entropy (out_node b0) b0 = Ok (labels, b1) ->
  opt_new o (S (lid b1)) (bm_params b1) b1 = Ok b ->
  (forall p, In p (bm_params b) -> b_mem b (Val p) = Some (PyModels.bt b (Val p))) /\ NoDup (bm_params b) /\ wf_tensor labels /\
  exists lo, binv lo b.
Proof.
  intros HG Hn Wx Tx Hh E1 E2 E3.
  assert (Hlo : exists lo, (lo <= next)%Z /\ forall k, In k (tile_handles x) -> (lo <= k)%Z).
  { clear - next. induction (tile_handles x) as [|k l (lo & H1 & H2)]; [exists next; split; [lia|intros ? []]|]. exists (Z.min lo k). split; [lia|]. intros k' [<-|H]; [lia|]. specialize (H2 _ H). lia. }
  destruct Hlo as (lo & Hlo & Hlo'). assert (Hr : forall k, In k (tile_handles x) -> (lo <= k < next)%Z) by (intros k Hk; auto).
  pose proof (deep_relu_ok SideR sI bI din dinb add addb V bias HG x layers lo next Hn Wx Tx Hlo Hr) as H1. rewrite E1 in H1. cbn [okp] in H1. destruct H1 as (HB & Ht).
  assert (El := t_lid sI bI din dinb add addb V bias x layers lo b0 HB). assert (Eo := t_out sI bI din dinb add addb V bias x layers lo b0 HB).
  destruct (out_hasn sI bI din dinb add addb V bias x layers lo b0 HB) as [N1 _]. cbn [fst snd] in N1.
  assert (HF : fit (V :: sI) (V :: bI)).
  { destruct HG as [(g1 & g2 & g3) _ _ _ g6]. split; [rewrite !zlen_cons; lia|]. split; constructor; assumption. }
  pose proof (gen_ce_ok lo (out_node b0) V sI bI b0 (rb_inv _ _ _ _ _ _ _ _ _ _ _ _ _ HB) Ht ltac:(rewrite Eo; exact N1) HF) as H2.
  rewrite E2 in H2. cbn [okp] in H2.
  destruct H2 as (HI & HX & Hn' & HL & HA & Wl & (Sl & Bl & _) & Hl & Dl & C0 & C1 & C2 & Tf). rewrite El in C0, C1, C2, Tf.
  assert (HB1 := rbuilt_ext _ _ _ _ _ _ _ _ _ _ _ _ _ _ HB HI HX Hn' HL HA).
  assert (El1 := t_lid sI bI din dinb add addb V bias x layers lo b1 HB1).
  assert (Ep := t_params sI bI din dinb add addb V bias x layers lo b1 HB1). unfold opt_new in E3. rewrite El1, Ep in E3.
  set (kid := S (2 * layers + 1)) in *.
  assert (NK : NoDup (opt_kinds o kid)).
  { destruct o as [lr mom wd damp nest|kd lr b1' b2 wd eps]; cbn [opt_kinds]; [destruct (Rltb 0 mom); repeat constructor; intros []|].
    repeat constructor; cbn [In]; lia. }
  assert (KK : forall k, In k (opt_kinds o kid) -> (kid <= k)%nat).
  { intros k. destruct o as [lr mom wd damp nest|kd lr b1' b2 wd eps]; cbn [opt_kinds]; [destruct (Rltb 0 mom)|]; cbn [In]; lia. }
  assert (PH : forall p, In p (r_params bias layers) -> exists tr, hasn b1 p tr) by (intros p Hp; eapply params_hasn; eassumption).
  assert (PD : NoDup (r_params bias layers)) by (apply (NoDup_cons_iff 0%nat); exact (t_nodup sI bI din dinb add addb V bias x layers lo b1 HB1)).
  assert (H3 : okp (gen_states (opt_kinds o kid) (r_params bias layers) b1) (fun b' => grown lo b1 b' /\ (forall k p sh ba, In k (opt_kinds o kid) -> In p (r_params bias layers) -> hast b1 (Val p) sh ba -> hast b' (Tmp k p) sh ba))).
  { apply (gen_states_ok lo (opt_kinds o kid) (r_params bias layers) b1 HI); [|exact NK|exact PD|].
    - intros p Hin. destruct (PH p Hin) as (tr & T1 & _). eauto.
    - intros k p Hk _. apply Tf. apply KK in Hk. unfold kid in Hk. lia. }
  rewrite E3 in H3. cbn [okp] in H3. destruct H3 as (GR & _). destruct GR as [GI GX Gn GL GA Gnew Gnext].
  assert (HB2 := rbuilt_ext _ _ _ _ _ _ _ _ _ _ _ _ _ _ HB1 GI GX Gn GL GA).
  assert (Ep2 := t_params sI bI din dinb add addb V bias x layers lo b HB2). rewrite Ep2.
  split; [|split; [exact PD|split; [exact Wl|eauto]]].
  intros p Hp. destruct (PH p Hp) as (tr & (t & T1 & _) & _). apply GX in T1. unfold PyModels.bt. rewrite T1. reflexivity.
Qed.

(** what from_torch makes of a torch MLP with parameters W *)
Lemma relu_of_torch_eq D B H V bias layers (W : nat -> arr) next : (0 < layers)%nat ->
  relu_of_torch (parameters_of (torch_mlp_shapes D H bias layers V) W) B V "relu"%string next =
  ('(x, b) <- mk_tensor [D; B] [D; B] (fun _ => [0]) (mkB (fun _ => None) next 0 [] []) ;;
   b <- deep_relu SideR 1 H H (S layers) V bias (input_build x None (b_next b)) ;; Ok (x, b)).
Proof.
  intros Hn. set (ps := parameters_of (torch_mlp_shapes D H bias layers V) W). unfold relu_of_torch.
  assert (EM : mlp_layers ps = Ok (bias, S layers)).
  { unfold mlp_layers, ps. rewrite parameters_nth, parameters_len, torch_shapes_len. unfold torch_mlp_shapes. destruct layers as [|m]; [lia|]. cbn [seq flat_map Nat.eqb app].
    destruct bias; cbn [nth_error option_map app n_shape]; cbv [zlen List.length Z.of_nat Pos.of_succ_nat Pos.succ]; cbn [Z.eqb Pos.eqb].
    - do 2 f_equal. rewrite Nat.mul_comm, Nat.div_mul by lia. reflexivity.
    - do 2 f_equal. lia. }
  assert (N0 : nth_error ps 0 = Some (mkN [H; D] (W O))).
  { unfold ps. rewrite parameters_nth. unfold torch_mlp_shapes. destruct layers as [|m]; [lia|]. reflexivity. }
  rewrite EM. cbn [bind]. destruct ps as [|p0 r]; [discriminate|]. injection N0 as ->. cbn [dim n_shape nth_error bind].
  destruct (mk_tensor _ _ _ _) as [[x b]| |]; reflexivity.
Qed.

(** Before the parameters are loaded: the state of C66 but for the values of the parameters; the
    arrays' temporary tensors are not tiles of the data *)
Record relu_unloaded (labels : tensor) (b : build) (B D : Z) (data : list fsample) (q : nat -> slot) (np : nat) (s : store XR) : Prop := {
  ru_alloc : forall v t, b_mem b v = Some t -> stored KF s t;
  ru_labels : stored KI s labels;
  ru_data : forall d, In d data -> stored KF s (fx d) /\ stored KI s (fy d) /\
    (forall k t, 0 <= k < D -> 0 <= t < B -> elem s (fx d) [k; t] = Fin (fval d [k; t])) /\
    (forall t, 0 <= t < B -> ielem s (fy d) [t] = flab d [t]) /\
    (forall j, (j < np)%nat -> ~ In (sl_next (q j)) (tile_handles (fx d)) /\ ~ In (sl_next (q j)) (tile_handles (fy d)))
}.
Lemma inb1 n idx : inb [n] idx -> exists i, idx = [i] /\ 0 <= i < n.
Proof. intros H. inversion H as [|i s' l l' Hi Hl]; subst. inversion Hl; subst. eauto. Qed.
Lemma inb2 m n idx : inb [m; n] idx -> exists i j, idx = [i; j] /\ 0 <= i < m /\ 0 <= j < n.
Proof. intros H. inversion H as [|i s' l l' Hi Hl]; subst. apply inb1 in Hl as (j & -> & Hj). eauto. Qed.

(** C73: DeepReLU.from_torch makes a model of the torch MLP with parameters W, which has the shapes of
    torch's parameters; loading them and training is training torch's function of the parameters: each
    batch moves the parameters as the optimizer does for the gradient of the cross entropy of torch's
    outputs, and the first batch starts at W. *)
Theorem C73_pretrained_deep_relu D B H V bias layers next o :
  0 < D -> 0 < B -> 0 < H -> 0 < V -> (0 < layers)%nat -> opt_ok o ->
  let torch := fun W : nat -> list Z -> R => parameters_of (torch_mlp_shapes D H bias layers V) W in
  exists x b0 labels b1 b,
    (forall W, relu_of_torch (torch W) B V "relu"%string next = Ok (x, b0)) /\ gen_cross_entropy (out_node b0) b0 = Ok (labels, b1) /\
    opt_new o (S (lid b1)) (bm_params b1) b1 = Ok b /\
    t_shape x = [D; B] /\ map t_shape (relu_params_of b) = torch_mlp_shapes D H bias layers V /\
    forall W data batches a mem q s,
      let np := List.length (torch_mlp_shapes D H bias layers V) in
      let logits := fun X P t v => torch_mlp D H bias X P layers t v in
      let loss := fun mbs P => fold_right (fun d z => a * rows_cross_entropy B V (fun t => flab d [t]) (logits (fval d) P) + z)%R 0%R mbs in
      let zero := fun (_ : nat) (_ : list Z) => 0%R in
      let shapes := torch_mlp_shapes D H bias layers V in
      (forall d, In d data -> rdata_ok labels [B] [B] [D] [D] V b d) ->
      (forall mbs, In mbs batches -> incl mbs data) ->
      (forall done mbs rest P1 m1 v1 hist, batches = done ++ mbs :: rest ->
         opt_iterates o shapes (opt_first o) (map loss done) W zero zero P1 m1 v1 hist -> forall d, In d mbs ->
         forall k t i, (k < layers)%nat -> 0 <= t < B -> 0 <= i < H -> torch_mlp D H bias (fval d) P1 k t i <> 0%R) ->
      room s mem q (relu_params_of b) -> holds_arrays s mem (torch W) ->
      relu_unloaded labels b B D data q np s ->
      runs_any (then_ (relu_load (torch W) mem q (relu_params_of b)) (relu_train a o x labels b (opt_first o) batches)) s (fun s' => exists P' m' v' hist,
        opt_iterates o shapes (opt_first o) (map loss batches) W zero zero P' m' v' hist /\
        (forall j t idx, nth_error (relu_params_of b) j = Some t -> inb (t_shape t) idx -> elem s' t idx = Fin (P' j idx)) /\
        (batches <> [] -> elem s' (loss_val b) [] = Fin (last hist 0%R))).
Proof.
  intros hD hB hH hV Hn Ho torch.
  assert (HG : rdims [B] [B] [D] [D] H H V) by (split; repeat split; try (repeat constructor; assumption); try assumption).
  set (w0 := mkB (fun _ => None) next 0 [] []).
  assert (HF2 : fit [D; B] [D; B]) by (apply fit2; assumption).
  assert (H1 : prodZ (gridZ [D; B] [D; B]) = 1).
  { assert (G1 : forall z, 0 < z -> (z + z - 1) / z = 1) by (intros z Hz; symmetry; apply (Z.div_unique _ _ _ (z - 1)); lia). unfold gridZ. cbn [map2 prodZ]. rewrite !G1 by assumption. reflexivity. }
  pose proof (mk_ok next [D; B] [D; B] (fun _ => [0]) w0 HF2 ltac:(rewrite H1; reflexivity) ltac:(cbn; lia)) as K0. unfold okp in K0.
  destruct (mk_tensor [D; B] [D; B] (fun _ => [0]) w0) as [[x w1]| |] eqn:E0; try contradiction.
  destruct K0 as (Wx & Tx & Hh & M1 & N1 & _). cbn [b_next w0] in Hh, N1.
  assert (Hh' : forall k, In k (tile_handles x) -> k < b_next w1) by (intros k Hk; apply Hh, Hk).
  assert (Tx' : tens x ([D] ++ [B]) ([D] ++ [B])) by exact Tx.
  destruct (C66_deep_relu_training [B] [B] [D] [D] H H V bias x layers (b_next w1) o HG Hn Wx Tx' Hh' Ho) as (b0 & labels & b1 & b & E1 & E2 & E3 & ES & HT).
  destruct (relu_params_mem [B] [B] [D] [D] H H V bias x layers (b_next w1) o b0 labels b1 b HG Hn Wx Tx' Hh' E1 E2 E3) as (PM & PD & _).
  assert (ES' : map t_shape (relu_params_of b) = torch_mlp_shapes D H bias layers V) by (unfold relu_params_of; rewrite map_map, ES, torch_shapes_eq; reflexivity).
  assert (PL : List.length (relu_params_of b) = List.length (torch_mlp_shapes D H bias layers V)) by (rewrite <- ES', map_length; reflexivity).
  exists x, b0, labels, b1, b. split; [|split; [exact E2|split; [exact E3|split; [apply Tx|split; [exact ES'|]]]]].
  { intros W. unfold torch. rewrite relu_of_torch_eq by assumption. fold w0. rewrite E0. cbn [bind]. change (zlen [D]) with 1 in E1. rewrite E1. reflexivity. }
  intros W data batches a mem q s np logits loss zero shapes Hdata Hb Hkink HR HA [U1 U2 U3].
  assert (ETS : map n_shape (torch W) = map t_shape (relu_params_of b)) by (unfold torch; rewrite parameters_shapes; symmetry; exact ES').
  assert (ETL : List.length (torch W) = List.length (relu_params_of b)) by (rewrite <- (map_length n_shape), ETS; apply map_length).
  assert (EL : relu_load (torch W) mem q (relu_params_of b) = loads (T := XR) false q (map (fun x => (Numpy, x)) (in_memory mem (torch W))) (relu_params_of b)).
  { unfold relu_load. rewrite (firstn_all2 (in_memory mem (torch W))) by (rewrite in_memory_len; lia). rewrite (firstn_all2 (relu_params_of b)) by lia. reflexivity. }
  rewrite EL.
  eapply any_then_l; [apply (load_arrays_runs (torch W) mem q _ s); [exact ETS|rewrite ES'; apply torch_shapes_ne|exact HR|exact HA]|].
  intros s1 I1 [V1 F1].
  assert (EV : forall j idx, (j < np)%nat -> values (torch W) j idx = W j idx).
  { intros j idx Hj. unfold values. destruct (nth_error (torch W) j) as [c|] eqn:Ec; [|apply nth_error_None in Ec; unfold np in Hj; lia].
    rewrite (nth_error_nth _ _ _ Ec). unfold torch in Ec. rewrite parameters_nth in Ec. destruct (nth_error (torch_mlp_shapes D H bias layers V) j); [|discriminate]. injection Ec as <-. reflexivity. }
  assert (PN : forall j, (j < np)%nat -> nth_error (relu_params_of b) j = Some (rpval b j)).
  { intros j Hj. unfold relu_params_of, rpval. apply (map_nth_error (fun m => PyModels.bt b (Val m))). apply nth_error_nth'. unfold relu_params_of in PL. rewrite map_length in PL. unfold np in Hj. lia. }
  assert (FR : forall t d, In d data -> t = fx d \/ t = fy d -> forall k, In k (tile_handles t) -> s1 k = s k).
  { intros t d Hd Ht k Hk. apply F1.
    - intros j Hj ->. rewrite PL in Hj. destruct (U3 d Hd) as (_ & _ & _ & _ & HS). destruct (HS j Hj). destruct Ht as [-> | ->]; contradiction.
    - intros u Hu Ku. unfold relu_params_of in Hu. apply in_map_iff in Hu as (p & <- & Hp). specialize (PM p Hp).
      destruct (Hdata d Hd) as [q1 q2 (q3 & D1) (q4 & D2) q5]. destruct Ht as [-> | ->]; [exact (D1 _ _ PM k Hk Ku)|exact (D2 _ _ PM k Hk Ku)]. }
  assert (HS : relu_ready labels b [B] [D] data np W s1).
  { split.
    - intros v t Hv. eapply tinv_stored; [exact I1|]. exact (U1 v t Hv).
    - eapply tinv_stored; [exact I1|exact U2].
    - intros d Hd. destruct (U3 d Hd) as (u1 & u2 & u3 & u4 & _). destruct (Hdata d Hd) as [(Wfx & Sfx & _) (Wfy & Sfy & _) q1 q2 q3].
      split; [eapply tinv_stored; [exact I1|exact u1]|]. split; [eapply tinv_stored; [exact I1|exact u2]|]. split.
      + intros idx Hi. change ([D] ++ [B]) with [D; B] in Hi, Sfx. destruct (inb2 D B idx Hi) as (k & t & -> & Hk & Ht).
        rewrite <- (u3 k t Hk Ht). apply elem_ext; [exact Wfx|rewrite Sfx; exact Hi|]. apply (FR _ d Hd). left. reflexivity.
      + intros idx Hi. destruct (inb1 B idx Hi) as (t & -> & Ht). rewrite <- (u4 t Ht). apply ielem_ext; [exact Wfy|rewrite Sfy; exact Hi|]. apply (FR _ d Hd). right. reflexivity.
    - intros j idx Hj Hi. rewrite (V1 j (rpval b j) idx (PN j Hj) Hi), EV by exact Hj. reflexivity. }
  assert (EPL : (fun mbs P => fold_right (fun d z => a * samples_cross_entropy [B] V (flab d) (preact SideR [D] H bias (fval d) P layers) + z)%R 0%R mbs) = loss).
  { apply functional_extensionality. intros mbs. apply functional_extensionality. intros P. unfold loss. induction mbs as [|d mbs IH]; [reflexivity|]. cbn [fold_right]. rewrite IH. do 2 f_equal.
    apply rows_eq; [exact hB|]. intros t v. unfold logits. symmetry. apply torch_mlp_preact; assumption. }
  specialize (HT data batches a W s1). cbv zeta beta in HT. rewrite EPL in HT. rewrite <- torch_shapes_eq in HT. fold np in HT.
  eapply any_weaken; [apply HT; [exact Hdata|exact Hb| |exact HS]|].
  - intros done mbs rest P1 m1 v1 hist Eq Hit d Hd k t i Hk Ht Hi. destruct (inb1 B t Ht) as (t' & -> & Ht').
    rewrite <- torch_mlp_preact by assumption. exact (Hkink done mbs rest P1 m1 v1 hist Eq Hit d Hd k t' i Hk Ht' Hi).
  - intros s2 _ (P' & m' & v' & hist & Q1 & Q2 & Q3). exists P', m', v', hist. split; [exact Q1|]. split; [|exact Q3].
    intros j t idx Hj Hi. assert (Hlt : (j < np)%nat) by (unfold np; rewrite <- PL; apply nth_error_Some; congruence). rewrite (PN j Hlt) in Hj. injection Hj as <-. exact (rr_params _ _ _ _ _ _ _ _ Q2 j idx Hlt Hi).
Qed.

(** ** What from_torch does not accept *)
(** Loading raises if the torch parameter at some place has another shape than the model's parameter
    there (hidden layers of different sizes, another number of classes). *)
Lemma load_shapes (q : nat -> slot) (xs : list ndarray) : forall ts l, Forall (fun t => wf_tensor t /\ t_shape t <> []) ts ->
  loads (T := XR) false q (map (fun x => (Numpy, x)) xs) ts = Ok l -> forall j x t, nth_error xs j = Some x -> nth_error ts j = Some t -> a_shape x = t_shape t.
Proof.
  revert q. induction xs as [|x0 xs IH]; intros q ts l HW HL j x t Hx Ht; [destruct j; discriminate|].
  destruct ts as [|t0 ts]; [destruct j; discriminate|]. cbn [map loads] in HL. inversion HW as [|? ? (W0 & N0) HW']; subst.
  unfold then_ in HL. destruct (load1 (T := XR) false t0 (Numpy, x0) (q O)) as [l0| |] eqn:E0; try discriminate. cbn [bind] in HL.
  destruct (loads (T := XR) false (fun j => q (S j)) (map (fun x => (Numpy, x)) xs) ts) as [l1| |] eqn:E1; try discriminate.
  destruct j as [|j]; [|eapply IH; eassumption].
  cbn [nth_error] in Hx, Ht. injection Hx as ->. injection Ht as ->.
  destruct (list_eq_dec Z.eq_dec (a_shape x) (t_shape t)) as [|Ne]; [assumption|exfalso].
  unfold load1 in E0. cbn [fst snd] in E0. unfold from_array in E0.
  assert (En : t_ndim t = zlen (t_shape t)) by (apply t_ndim_eq, wf_wft, W0).
  destruct (t_ndim t =? 0) eqn:E; [apply Z.eqb_eq in E; rewrite En in E; destruct (t_shape t); [congruence|rewrite zlen_cons in E; unfold zlen in E; lia]|].
  destruct (check_nd_spec (t_shape t) x) as [_ Hc]. specialize (Hc Ne). rewrite <- En in Hc.
  destruct Hc as (msg & Hc). rewrite Hc in E0. discriminate.
Qed.
Lemma nth_error_firstn {A} (l : list A) : forall k j, (j < k)%nat -> nth_error (firstn k l) j = nth_error l j.
Proof. induction l as [|x l IH]; intros k j Hk; [destruct k; destruct j; reflexivity|]. destruct k; [lia|]. destruct j; [reflexivity|]. cbn [firstn nth_error]. apply IH. lia. Qed.
Theorem C73_mismatch_raises (ps : list (narr R)) mem q ts j a t :
  Forall (fun t => wf_tensor t /\ t_shape t <> []) ts ->
  nth_error ps j = Some a -> nth_error ts j = Some t -> n_shape a <> t_shape t ->
  forall l, relu_load (T := XR) ps mem q ts <> Ok l.
Proof.
  intros HW Ha Ht Ne l HL. unfold relu_load in HL. apply Ne.
  assert (j < List.length ps)%nat by (apply nth_error_Some; congruence). assert (j < List.length ts)%nat by (apply nth_error_Some; congruence).
  refine (load_shapes q _ _ l _ HL j {| a_shape := n_shape a; a_mem := mem j |} t _ _).
  - apply Forall_forall. intros u Hu. rewrite Forall_forall in HW. apply HW. revert Hu. clear. revert ts. induction (List.length ps) as [|k IH]; intros [|v ts]; cbn [firstn In]; try tauto. intros [<-|Hu]; [left; reflexivity|right; apply IH, Hu].
  - rewrite nth_error_firstn by assumption. rewrite in_memory_nth, Ha. reflexivity.
  - rewrite nth_error_firstn by assumption. exact Ht.
Qed.
(** A torch model that is one Linear layer, with or without biases, is never accepted. *)
Theorem C73_single_layer_raises {X} (w : narr X) (b : list (narr X)) batch n_classes f next :
  (b = [] \/ exists v, b = [v] /\ zlen (n_shape v) = 1) -> forall r, relu_of_torch (w :: b) batch n_classes f next <> Ok r.
Proof.
  intros [->|(v & -> & Hv)] r; unfold relu_of_torch, mlp_layers; cbn [nth_error]; [discriminate|]. rewrite Hv. cbn [Z.eqb Pos.eqb List.length bind].
  change (2 / 2)%nat with 1%nat. destruct (dim 1 w); try discriminate. destruct (dim 0 w); try discriminate. cbn [bind].
  destruct (mk_tensor _ _ _ _) as [[x b']| |]; try discriminate. cbn [bind]. destruct (String.eqb f "relu"%string); [|discriminate].
  unfold deep_relu. change (Z.of_nat 1 <? 2) with true. discriminate.
Qed.
