(** * C66: training of DeepReLU, from the constructor to the trained parameters *)
From Coq Require Import Reals Lra FunctionalExtensionality Sorted.
From Coquelicot Require Import Coquelicot.
From Verif Require Import Base Spec Geometry Traits TraitsProofs Runtime Ops RealOps TensorSem OneOut ElemOps ElemGeneric Concrete Axis SliceGeo Sequence XReals NdRuns AnyRuns Serial2 RSum AttnSpec MatOps PropElem IntCopy CrossEntropy XTriples HasRuns TapeMath VjpMath Tape PyLayers PyLinear PySimple PyNorm AttMath PyAttn Backprop CeLoss PropLayers PropModel PyTrain PropTrain PyAdam PropAdam PyModels BuildEnv GptBuild BuildModel OptBuild GptSpec GptModel GptRun PropGpt GptTrain Segments SegDiff PyMixer MixerRuns MixSpec MixerSeg MixModel SegTrain ReluSpec ReluBuild ReluModel OptState.
Local Close Scope Z_scope.
Local Open Scope R_scope.

(** ** Model *)
(** pipeline.py:50-71 for the built model with the loss [labels], scale [a].  The tensors of the
    optimizer are named from [S (lid b)] on. *)
Definition relu_loss (a : R) (labels : tensor) (b : build) : res (list (task XR)) :=
  crossentropy_calc (Fin a) (bt b (Val (out_node b))) labels (bt b (Tmp (lid b) 1)) (bt b (Tmp (lid b) 2)) (loss_val b) (bt b (Grad (out_node b))).
Definition relu_batch (a : R) (o : optimizer) (x labels : tensor) (b : build) (it : Z) (mbs : list fsample) : res (list (task XR)) :=
  train_batch (map (bmom mreq b) (bm_params b)) (map (bmom mreq b) (b_acts b)) (loss_val b) x labels
    (bm_layers mreq b) (relu_loss a labels b) (map (fun d => (fx d, fy d)) mbs) (opt_step mreq b o (S (lid b)) (bm_params b) it).
(** pipeline.py:41-71: the batches of all epochs in order *)
Fixpoint relu_train (a : R) (o : optimizer) (x labels : tensor) (b : build) (it : Z) (batches : list (list fsample)) : res (list (task XR)) :=
  match batches with
  | [] => Ok []
  | mbs :: rest => then_ (relu_batch a o x labels b it mbs) (relu_train a o x labels b (it + 1) rest)
  end.

(** ** Specification *)
(** sum over the samples of minus the logarithm of the probability that the softmax of the logits
    gives to the label *)
Definition samples_cross_entropy (sI : list Z) (V : Z) (lab : list Z -> Z) (lg : list Z -> Z -> R) : R :=
  Rsuml (all_idx sI) (fun t => - ln (exp (lg t (lab t)) / Rsum V (fun v => exp (lg t v)))).

(** ** What is asked of the minibatches *)
(** the tensors of the minibatch [d]: input and labels of the shapes and tiles of [x] and [labels],
    apart from all others; labels in range *)
Record rdata_ok (labels : tensor) (sI bI din dinb : list Z) (V : Z) (b : build) (d : fsample) : Prop := {
  rd_x : wf_tensor (fx d) /\ t_shape (fx d) = din ++ sI /\ t_base (fx d) = dinb ++ bI;
  rd_y : wf_tensor (fy d) /\ t_shape (fy d) = sI /\ t_base (fy d) = bI;
  rd_dx : disj (fx d) labels /\ forall v t, b_mem b v = Some t -> disj (fx d) t;
  rd_dy : disj (fy d) labels /\ forall v t, b_mem b v = Some t -> disj (fy d) t;
  rd_rng : forall t, inb sI t -> (0 <= flab d t < V)%Z
}.
(** the parameter number [j] of the model *)
Definition rpval (b : build) (j : nat) : tensor := bt b (Val (nth j (bm_params b) O)).
(** All tensors made are allocated, the tensors of the minibatches hold their contents, the
    parameters hold [P].  Nothing is asked of the contents of [x], [labels], of gradients,
    activations, loss and of the tensors of the optimizer. *)
Record relu_ready (labels : tensor) (b : build) (sI din : list Z) (data : list fsample) (np : nat) (P : nat -> arr) (s : store XR) : Prop := {
  rr_alloc : forall v t, b_mem b v = Some t -> stored KF s t;
  rr_labels : stored KI s labels;
  rr_data : forall d, In d data -> stored KF s (fx d) /\ stored KI s (fy d) /\
    (forall idx, inb (din ++ sI) idx -> elem s (fx d) idx = Fin (fval d idx)) /\
    (forall t, inb sI t -> ielem s (fy d) t = flab d t);
  rr_params : forall j idx, (j < np)%nat -> inb (t_shape (rpval b j)) idx -> elem s (rpval b j) idx = Fin (P j idx)
}.

Lemma rbuilt_ext sd sI bI din dinb add addb V bias x n lo b b' : rbuilt sd sI bI din dinb add addb V bias x n lo b ->
  binv lo b' -> ext b b' -> b_n b' = b_n b -> b_layers b' = b_layers b -> b_acts b' = b_acts b -> rbuilt sd sI bI din dinb add addb V bias x n lo b'.
Proof.
  intros [q1 q2 q3 q4 q5 q6 q7] B' X N L A. split; try congruence; auto; intros; eapply hasn_ext; eauto.
Qed.

Section Train.
Variables (sI bI din dinb : list Z) (add addb V : Z) (bias : bool) (x labels : tensor) (n : nat) (lo : Z) (b : build).
Notation sd := SideR.
Notation bb := (if bias then 1 else 0)%nat.
Notation rf := (rfirst bias).
Notation out k := (rf k + 1 + bb)%nat.
Hypothesis HG : rdims sI bI din dinb add addb V.
Hypothesis HB : rbuilt sd sI bI din dinb add addb V bias x n lo b.
Hypothesis Hx : t_shape x = din ++ sI /\ t_base x = dinb ++ bI.
Hypothesis Hlabels : t_shape labels = sI /\ t_base labels = bI.
Hypothesis Hwf : wf_tensor labels.
Hypothesis Hdisj : forall v t, b_mem b v = Some t -> disj labels t.
Notation lidn := (2 * n + 1)%nat.
Hypothesis Hce : hast b (Tmp lidn 0) [] [] /\ hast b (Tmp lidn 1) (2 :: sI)%Z (2 :: bI)%Z /\ hast b (Tmp lidn 2) sI bI.
Variables (data : list fsample) (a : R) (o : optimizer).
Hypothesis Hok : opt_ok o.
Hypothesis Hdata : forall d, In d data -> rdata_ok labels sI bI din dinb V b d.
Notation kid := (2 * n + 2)%nat.
Notation ps := (r_params bias n).
Hypothesis Hopt : forall p j sh ba, In p ps -> In j (opt_kinds o kid) -> hast b (Val p) sh ba -> hast b (Tmp j p) sh ba.
Notation np := ((if bias then 2 else 1) * S n)%nat.

Definition tcs : list const := CStored labels :: flat_map (fun d => [CReal (fx d) (fval d); CInt (fy d) (flab d)]) data.
Lemma in_tcs k : In k tcs -> k = CStored labels \/ exists d, In d data /\ (k = CReal (fx d) (fval d) \/ k = CInt (fy d) (flab d)).
Proof. intros [<-|H]; [left; reflexivity|right]. apply in_flat_map in H as (d & H1 & [<-|[<-|[]]]); exists d; auto. Qed.
Lemma tenv_ok : benv_ok b tcs.
Proof.
  destruct (rb_inv _ _ _ _ _ _ _ _ _ _ _ _ _ HB) as [i1 i2 i3 i4 i5]. split; [exact i2|exact i4| |].
  - intros k Hk. apply in_tcs in Hk as [->|(d & Hd & [->| ->])]; [assumption|apply (Hdata d Hd)..].
  - intros k v t Hk Hv. apply in_tcs in Hk as [->|(d & Hd & [->| ->])]; cbn [c_tensor]; [eapply Hdisj; eassumption|apply (rd_dx _ _ _ _ _ _ _ _ (Hdata d Hd)) with (v := v)|apply (rd_dy _ _ _ _ _ _ _ _ (Hdata d Hd)) with (v := v)]; assumption.
Qed.
Instance tenv : env := benv b tcs tenv_ok.
Notation gs := (r_segs sd sI din add V bias n b tcs tenv_ok).
Notation gl := (all_layers gs).
Lemma t_ok : segs_ok mreq gs (0%nat :: ps) (out n) lidn.
Proof. exact (r_segs_ok sd sI bI din dinb add addb V bias x n lo b tcs HG HB tenv_ok Hx). Qed.
Lemma t_outs : outs (lms gl) = r_outs bias n.
Proof. rewrite (rl_eq sd sI din add V bias n b tcs tenv_ok). apply r_outs_eq. Qed.
Lemma t_nodup : NoDup (0%nat :: ps).
Proof. exact (rparams_nodup _ _ _ _ _ _ _ _ _ _ _ _ _ HB). Qed.
Lemma t_po m : In m (0%nat :: ps) -> ~ In m (r_outs bias n).
Proof. exact (rparams_outs _ _ _ _ _ _ _ _ _ _ _ _ _ HB m). Qed.
Lemma t_ps_len : List.length ps = np.
Proof. exact (rparams_len _ _ _ _ _ _ _ _ _ _ _ _ _ HB). Qed.
Lemma t_params : bm_params b = ps.
Proof. exact (r_params_eq sd sI bI din dinb add addb V bias x n lo b HB). Qed.
Lemma t_lid : lid b = lidn.
Proof. exact (rlid_eq sd sI bI din dinb add addb V bias x n lo b HB). Qed.
Lemma t_out : out_node b = out n.
Proof. exact (rout_eq sd sI bI din dinb add addb V bias x n lo b HB). Qed.
Lemma t_acts : b_acts b = 0%nat :: r_outs bias n.
Proof. exact (rb_acts _ _ _ _ _ _ _ _ _ _ _ _ _ HB). Qed.
Lemma t_req p : In p ps -> mreq p = true.
Proof. intros Hp. apply mreq_S. pose proof t_nodup as PD. destruct p; [exfalso; inversion PD; contradiction|lia]. Qed.
Lemma out_hasn : hasn b (out n) (V :: sI, V :: bI).
Proof.
  replace (out n) with (rf n + (1 + bb))%nat by lia. apply (rb_head _ _ _ _ _ _ _ _ _ _ _ _ _ HB). unfold lin_nodes. clear. destruct bias; reflexivity.
Qed.
Lemma t_ce : ce_shape mreq (out n) lidn labels V sI.
Proof.
  destruct Hce as (C0 & C1 & C2). destruct out_hasn as [N1 N2]. cbn [fst snd] in N1, N2.
  destruct (hast_U b _ _ _ C0) as (U0 & S0 & B0), (hast_U b _ _ _ C1) as (U1 & S1 & B1), (hast_U b _ _ _ C2) as (U2 & S2 & B2),
    (hast_U b _ _ _ N1) as (U3 & S3 & B3), (hast_U b _ _ _ N2) as (U4 & S4 & B4).
  destruct Hlabels as [El1 El2].
  split.
  - apply (sk_nodes _ _ _ _ _ t_ok). apply in_or_app. left. apply (sk_o _ _ _ _ _ t_ok).
  - apply mreq_S. lia.
  - intros i Hi. destruct i as [|[|[|i]]]; [exact U0|exact U1|exact U2|lia].
  - apply Hwf.
  - intros v Hv. destruct (bU_inv b v Hv) as (t & Et & Eb). change (A v) with (PyModels.bt b v). rewrite Eb. apply (Hdisj v t Et).
  - split; cbn [A tenv benv]; rewrite ?El2; try (split; assumption); try assumption. split; congruence.
Qed.
Lemma t_x : A (Val 0) = x.
Proof. cbn [A tenv benv]. unfold PyModels.bt. rewrite (rb_x _ _ _ _ _ _ _ _ _ _ _ _ _ HB). reflexivity. Qed.
Lemma lparams_hasn k : (k <= n)%nat -> forall p, In p (lin_params bias k) -> exists tr, hasn b p tr.
Proof.
  intros Hk p Hp. assert (Hi : exists i tr, p = (rf k + i)%nat /\ nth_error (lin_nodes sd sI bI din dinb add addb bias k (wid add V n k) (widb addb V n k)) i = Some tr).
  { unfold lin_params in Hp. destruct Hp as [<-|Hp].
    - exists 0%nat. eexists. split; [lia|reflexivity].
    - apply bias_in in Hp as (Eb & ->). exists 1%nat. eexists. split; [reflexivity|]. unfold lin_nodes. rewrite Eb. reflexivity. }
  destruct Hi as (i & tr & -> & Hi). exists tr. unfold wid, widb in Hi. destruct (Nat.eqb_spec k n) as [->|Hne].
  - apply (rb_head _ _ _ _ _ _ _ _ _ _ _ _ _ HB). assumption.
  - apply (rb_blk _ _ _ _ _ _ _ _ _ _ _ _ _ HB); [lia|]. unfold relu_nodes. rewrite nth_error_app1; [assumption|]. apply nth_error_Some. congruence.
Qed.
Lemma params_hasn p : In p ps -> exists tr, hasn b p tr.
Proof. intros Hp. apply in_rparams in Hp as (k & Hk & Hp). eapply lparams_hasn; eassumption. Qed.
Lemma t_shapes : map vshape ps = relu_shapes sd din add bias n V.
Proof.
  unfold r_params, relu_shapes. assert (HK : forall l, (forall k, In k l -> (k <= n)%nat) -> map vshape (flat_map (lin_params bias) l) =
    flat_map (fun k => let o := if (k =? n)%nat then V else add in (o :: features din add k) :: (if bias then [[o]] else [])) l).
  { induction l as [|k l IH]; intros Hl; [reflexivity|]. cbn [flat_map]. rewrite map_app, IH by (intros; apply Hl; right; assumption). f_equal.
    assert (Hk : (k <= n)%nat) by (apply Hl; left; reflexivity).
    pose proof (w_isn sd sI bI din dinb add addb V bias x n lo b tcs HB tenv_ok k Hk) as (_ & Sw & _).
    pose proof (b_isn sd sI bI din dinb add addb V bias x n lo b tcs HB tenv_ok k Hk) as Hb.
    unfold lin_params. cbn [map]. f_equal; [exact Sw|].
    assert (Eb : bias = true \/ bias = false) by (clear; destruct bias; auto). destruct Eb as [Eb|Eb]; [|rewrite Eb; reflexivity].
    destruct (Hb Eb) as (_ & Sb & _). rewrite Eb. cbn [map]. f_equal. rewrite <- Eb. exact Sb. }
  apply HK. intros k Hk. apply in_seq in Hk. lia.
Qed.
Lemma t_shapes' : map (fun m => t_shape (PyModels.bt b (Val m))) (bm_params b) = relu_shapes sd din add bias n V.
Proof. rewrite t_params. exact t_shapes. Qed.
Lemma t_K s d : @K tenv s -> In d data -> c_holds s (CReal (fx d) (fval d)) /\ c_holds s (CInt (fy d) (flab d)).
Proof.
  intros HK Hd. cbn [K tenv benv] in HK. unfold bK in HK. rewrite Forall_forall in HK. split; apply HK; right; apply in_flat_map; exists d; (split; [assumption|]); [left|right; left]; reflexivity.
Qed.
(** every object that carries a gradient and is no activation is a parameter *)
Lemma node_cases m : bU b (Grad m) -> mreq m = true -> ~ In m (0%nat :: r_outs bias n) -> In m ps.
Proof.
  intros HU Hr Ho. assert (H0 : m <> 0%nat) by (intros ->; discriminate). assert (Ho' : ~ In m (r_outs bias n)) by (intros C; apply Ho; right; assumption). clear Ho Hr.
  assert (Hm : (m < rf n + 2 + bb)%nat).
  { destruct (Nat.lt_ge_cases m (rf n + 2 + bb)) as [|Hge]; [assumption|]. exfalso. apply HU.
    apply (bi_fresh _ _ (rb_inv _ _ _ _ _ _ _ _ _ _ _ _ _ HB)). rewrite (rb_n _ _ _ _ _ _ _ _ _ _ _ _ _ HB). assumption. }
  clear HU. rewrite in_routs in Ho'. apply in_rparams.
  pose (w := (if bias then 4 else 3)%nat). assert (Hw : w <> 0%nat) by (unfold w; clear; destruct bias; lia).
  pose (k := ((m - 1) / w)%nat). assert (Em : m = (rf k + (m - 1) mod w)%nat) by (unfold rfirst; fold w; unfold k; pose proof (Nat.div_mod (m - 1) w Hw); lia).
  assert (Hr : ((m - 1) mod w < w)%nat) by (apply Nat.mod_upper_bound; assumption). revert Em Hr. clearbody k. generalize ((m - 1) mod w)%nat as r. intros r Em Hr.
  assert (Hk : (k <= n)%nat) by (unfold rfirst in *; fold w in Em, Hm; subst w; clear - Em Hm Hr; destruct bias; lia).
  exists k. split; [assumption|]. unfold lin_params.
  destruct (Nat.eq_dec k n) as [->|Hne].
  - assert (Hn : m <> out n) by (intros C; apply Ho'; right; assumption). subst w. clear - Em Hm Hr Hn. destruct bias; cbn [In]; lia.
  - assert (Hn : ~ In m (relu_outs bias k)) by (intros C; apply Ho'; left; exists k; split; [lia|assumption]). subst w. clear - Em Hr Hn. unfold relu_outs in Hn. cbn [In] in Hn. destruct bias; cbn [In]; lia.
Qed.

(** the sum of the losses of a batch, in the words of the specification *)
Notation model X P := (preact sd din add bias X P n).
Definition batch_loss (mbs : list fsample) (P : nat -> arr) : R := fold_right (fun d z => a * samples_cross_entropy sI V (flab d) (model (fval d) P) + z) 0 mbs.
Lemma t_mb P d : In d data -> seg_mb gs ps (out n) V sI a P d = a * samples_cross_entropy sI V (flab d) (model (fval d) P).
Proof.
  intros Hd. assert (Hr := rd_rng _ _ _ _ _ _ _ _ (Hdata d Hd)).
  assert (PI : pos sI) by apply HG.
  assert (EV : forall v t, (0 <= v < V)%Z -> inb sI t -> eval (lms gl) (penv (0%nat :: ps) (xp (fval d) P)) (out n) (v :: t) = model (fval d) P t v).
  { intros v t Hv Ht. rewrite (rl_eq sd sI din add V bias n b tcs tenv_ok).
    pose proof (v_pre sd sI bI din dinb add addb V bias x n lo b tcs HG HB tenv_ok Hx (fval d) P n t v (le_n n) Ht) as Q. unfold wid in Q. rewrite Nat.eqb_refl in Q. exact (Q Hv). }
  unfold seg_mb, ce_loss, samples_cross_entropy. f_equal. apply Rsuml_ext. intros t Ht. apply all_idx_In in Ht; [|exact PI].
  rewrite EV by auto. replace (Rsum V (fun k => exp (eval (lms gl) (penv (0%nat :: ps) (xp (fval d) P)) (out n) (k :: t)))) with (Rsum V (fun v => exp (model (fval d) P t v))).
  2:{ apply Rsum_ext. intros v Hv. rewrite EV by assumption. reflexivity. }
  assert (HS : 0 < Rsum V (fun v => exp (model (fval d) P t v))) by (apply sumexp_pos'; apply HG).
  unfold Rdiv. rewrite ln_mult by (apply exp_pos || (apply Rinv_0_lt_compat; exact HS)). rewrite ln_exp, ln_Rinv by exact HS. ring.
Qed.
Lemma t_sum mbs : incl mbs data -> (fun P => sum_mb gs ps (out n) V sI a P mbs) = batch_loss mbs.
Proof.
  intros Hi. apply functional_extensionality. intros P. unfold sum_mb, batch_loss. induction mbs as [|d mbs IH]; [reflexivity|]. cbn [fold_right].
  rewrite t_mb by (apply Hi; left; reflexivity). f_equal. apply IH. intros y Hy. apply Hi. right. assumption.
Qed.

Lemma relu_train_eq it batches : relu_train a o x labels b it batches = seg_train mreq gs (0%nat :: r_outs bias n) ps (out n) lidn kid labels a o it batches.
Proof.
  revert it. induction batches as [|mbs rest IH]; intros it; [reflexivity|]. cbn [relu_train seg_train]. rewrite IH. f_equal.
  unfold relu_batch, seg_batch, relu_loss, seg_loss, loss_val. rewrite t_x, t_lid, t_out, t_params, t_acts, <- (rsegs_py sd sI bI din dinb add addb V bias x n lo b tcs HB tenv_ok).
  replace (S lidn) with kid by lia. destruct o; reflexivity.
Qed.
Lemma state_tensor p j : In p ps -> In j (opt_kinds o kid) -> bU b (Tmp j p) /\ t_shape (PyModels.bt b (Tmp j p)) = t_shape (PyModels.bt b (Val p)).
Proof.
  intros Hp Hj. destruct (params_hasn p Hp) as (tr & T1 & _). destruct (hast_U b _ _ _ T1) as (U1 & S1 & B1), (hast_U b _ _ _ (Hopt p j _ _ Hp Hj T1)) as (U2 & S2 & B2).
  split; [exact U2|congruence].
Qed.
(** training from any iteration number and state of the optimizer *)
Lemma relu_train_from it m v P batches s : (opt_first o <= it)%Z -> o_inv ps o it (penv ps m, penv ps v) -> (it <> opt_first o -> opt_state o b ps kid m v s) ->
  (forall mbs, In mbs batches -> incl mbs data) ->
  (forall done mbs rest P1 m1 v1 hist, batches = done ++ mbs :: rest ->
     opt_iterates o (relu_shapes sd din add bias n V) it (map batch_loss done) P m v P1 m1 v1 hist -> forall d, In d mbs ->
     forall k t i, (k < n)%nat -> inb sI t -> (0 <= i < add)%Z -> preact sd din add bias (fval d) P1 k t i <> 0) ->
  relu_ready labels b sI din data np P s ->
  let shapes := relu_shapes sd din add bias n V in
  runs_acc (relu_train a o x labels b it batches) s (fun s' => exists P' m' v' hist,
    opt_iterates o shapes it (map batch_loss batches) P m v P' m' v' hist /\
    relu_ready labels b sI din data np P' s' /\
    (it + zlen batches <> opt_first o -> opt_state o b ps kid m' v' s')%Z /\
    (batches <> [] -> elem s' (loss_val b) [] = Fin (last hist 0))).
Proof.
  intros Hit Inv0 Hst0 Hinc Hsm [r1 r2 r3 r4] shapes.
  assert (Ep := t_params). unfold rpval in *.
  assert (Einit : has (Mst ps (lidn) P None (o_known ps kid o it (penv ps m, penv ps v))) s).
  { split.
    - cbn [K tenv benv]. unfold bK. rewrite Forall_forall. intros k Hk. apply in_tcs in Hk as [->|(d & Hd & Hk)]; [exact r2|]. destruct (r3 d Hd) as (x1 & x2 & x3 & x4).
      destruct (Hdata d Hd) as [(_ & Sx & _) (_ & Sy & _) _ _ _].
      destruct Hk as [->| ->]; (split; [assumption|]).
      + rewrite Sx. intros idx Hi. apply x3; assumption.
      + rewrite Sy. intros idx Hi. apply x4; assumption.
    - intros gv Uv. destruct (bU_inv b gv Uv) as (t & Et & Ebt). cbn [A tenv benv]. split; [rewrite Ebt; eapply r1; eassumption|]. intros f Hf.
      destruct gv as [q|q|k i]; cbn [Mst] in Hf.
      + destruct (in_dec Nat.eq_dec q ps) as [Hq|]; [|discriminate]. injection Hf as <-. intros idx Hi. destruct (nth_index _ _ Hq) as [I1 I2]. rewrite t_ps_len in I2.
        specialize (r4 _ idx I2). rewrite Ep, I1 in r4. apply r4. exact Hi.
      + discriminate.
      + destruct (Nat.eq_dec k (lidn)); [destruct (Nat.eq_dec i 0); discriminate|].
        destruct (Z.eq_dec it (opt_first o)) as [Eit|Nit].
        { exfalso. rewrite Eit in Hf. clear - Hf. revert Hf. destruct o as [lr mom wd damp nest|kd lr b1 b2 wd eps]; cbn [o_known opt_first]; intros Hf.
          - unfold sgd_known in Hf. cbn [Z.eqb] in Hf. destruct (Nat.eq_dec k kid); [destruct (in_dec Nat.eq_dec i ps); [destruct (Rltb 0 mom)|]|]; discriminate.
          - unfold adam_known in Hf. cbn in Hf. discriminate. }
        destruct (o_known ps kid o it (penv ps m, penv ps v) k i) as [f0|] eqn:Hf0; [|discriminate]. injection Hf as <-.
        specialize (Hst0 Nit). intros idx Hi. exact (state_known o b ps kid state_tensor m v s it k i f0 idx Hst0 Hf0 Hi). }
  assert (EL : map (fun mbs P => sum_mb gs ps (out n) V sI a P mbs) batches = map batch_loss batches).
  { apply map_ext_in. intros mbs Hm. apply t_sum. apply Hinc. assumption. }
  rewrite relu_train_eq. eapply acc_weaken.
  { refine (train_runs mreq gs (0%nat :: r_outs bias n) ps (out n) (lidn) kid labels V sI data a t_ok _ _ t_req _ _ t_ce _ _ _ _ _ o Hok _ _ shapes t_shapes batches Hinc it P m v None s _ Inv0 Einit).
    - rewrite t_outs. intros q Hm. right. assumption.
    - intros q Hm Hr. destruct Hm as [<-|Hm]; [discriminate|]. exact (proj1 (proj2 (sk_nodes _ _ _ _ _ t_ok q ltac:(apply in_or_app; left; rewrite t_outs; exact Hm)) Hr)).
    - intros q Hm Hp. destruct Hm as [<-|Hm]; [pose proof (t_req _ Hp); discriminate|]. exact (t_po q (or_intror Hp) Hm).
    - intros q HU Hr Ha. exact (node_cases q HU Hr Ha).
    - intros d Hd. destruct (Hdata d Hd) as [(Wx & Sx & Bx) (Wy & Sy & By) (D1 & D2) (D3 & D4) Hr]. destruct Hx as [X1 X2], Hlabels as [L1 L2]. split.
      + rewrite t_x. split; [assumption|]. split; [apply (D2 (Val 0)); apply (rb_x _ _ _ _ _ _ _ _ _ _ _ _ _ HB)|]. split; congruence.
      + split; [assumption|]. split; [assumption|]. split; congruence.
      + intros idx Hi. apply Hr; assumption.
    - intros s0 d HK Hd. destruct (t_K s0 d HK Hd) as [Q1 _]. exact Q1.
    - intros s0 d HK Hd. destruct (t_K s0 d HK Hd) as [_ Q1]. destruct (Hdata d Hd) as [_ (_ & Sy & _) _ _ _]. cbn [c_holds] in Q1. rewrite Sy in Q1. exact Q1.
    - intros s0 HK. cbn [K tenv benv] in HK. unfold bK, tcs in HK. inversion HK; assumption.
    - intros s0 s1 Ht Hf. cbn [K tenv benv]. unfold bK. rewrite !Forall_forall. intros HK k Hk. specialize (HK k Hk). apply in_tcs in Hk as [->|(d & Hd & Hk)].
      + cbn [c_holds] in *. eapply tinv_stored; eassumption.
      + destruct (Hdata d Hd) as [(Wx & _) (Wy & _) (D1 & _) (D3 & _) _]. eapply c_frame; [| |exact Ht|exact Hf|exact HK]; destruct Hk as [->| ->]; assumption.
    - intros p j Hp Hj. pose proof (params_hasn p Hp) as Hn.
      destruct Hn as (tr & T1 & _). destruct (hast_U b _ _ _ T1) as (U1 & S1 & B1), (hast_U b _ _ _ (Hopt p j _ _ Hp Hj T1)) as (U2 & S2 & B2).
      split; [exact U2|]. split; cbn [A tenv benv]; congruence.
    - intros k Hk. rewrite (rl_eq sd sI din add V bias n b tcs tenv_ok), (r_ids sd sI din add V bias n b tcs tenv_ok). assert (Hk' : (kid <= k)%nat) by (destruct Hk as [<-|[<-|[<-|[]]]]; lia). split; [lia|].
      intros K1. apply in_seq in K1. lia.
    - intros done mbs rest P1 m1 v1 hist Eq Hit' d Hd. unfold smooth. rewrite (rl_eq sd sI din add V bias n b tcs tenv_ok).
      apply (r_dom sd sI bI din dinb add addb V bias x n lo b tcs HG HB tenv_ok Hx). intros k t i Hk Ht Hi.
      apply (Hsm done mbs rest P1 m1 v1 hist Eq) with (d := d); try assumption.
      erewrite map_ext_in; [exact Hit'|]. intros mbs' Hm'. cbv beta. symmetry. apply t_sum. apply Hinc. rewrite Eq. apply in_or_app. left. assumption. }
  intros s' _ (P' & m' & v' & hist & T1 & T2). exists P', m', v', hist. rewrite EL in T1. split; [exact T1|]. split.
  - destruct T2 as [HK HH]. split.
    + intros gv t Hv. destruct (HH gv) as [Hst _]; [cbn; unfold bU; congruence|]. cbn [A tenv benv] in Hst. unfold PyModels.bt in Hst. rewrite Hv in Hst. exact Hst.
    + cbn [K tenv benv] in HK. unfold bK, tcs in HK. inversion HK; assumption.
    + intros d Hd. destruct (t_K s' d HK Hd) as [[x1 x2] [y1 y2]]. destruct (Hdata d Hd) as [(_ & Sx & _) (_ & Sy & _) _ _ _]. rewrite Sx in x2. rewrite Sy in y2.
      split; [assumption|]. split; [assumption|]. split; intros; [apply x2|apply y2]; assumption.
    + intros j idx Hj Hi. unfold rpval in *. rewrite Ep in *.
      assert (Hin : In (nth j ps O) ps) by (apply nth_In; rewrite t_ps_len; exact Hj).
      assert (Uv : U (Val (nth j ps O))) by (apply (sk_nodes _ _ _ _ _ t_ok); apply in_or_app; right; right; assumption).
      destruct (HH (Val (nth j ps O)) Uv) as [_ HV]. cbn [Mst] in HV.
      destruct (in_dec Nat.eq_dec (nth j ps O) ps); [|contradiction]. etransitivity; [exact (HV _ eq_refl idx Hi)|].
      unfold fin, penv. rewrite index_nth; [reflexivity|apply (NoDup_cons_iff 0%nat); apply t_nodup|rewrite t_ps_len; exact Hj].
  - split.
    { intros Nit. destruct T2 as [_ HH]. apply (known_state o b ps kid state_tensor m' v' s' (it + zlen batches)); [apply (NoDup_cons_iff 0%nat); apply t_nodup|pose proof (zlen_nonneg batches); lia|exact Nit|].
      intros k i f idx Hf Uk Hi. destruct (HH (Tmp k i) Uk) as [_ HV]. apply (HV (fin f)); [|exact Hi]. cbn [Mst].
      destruct (Nat.eq_dec k lidn) as [->|]; [|rewrite Hf; reflexivity]. exfalso.
      clear - Hf. destruct o as [lr mom wd damp nest|kd lr b1 b2 wd eps]; cbn [o_known] in Hf; [unfold sgd_known in Hf|unfold adam_known in Hf].
      - destruct (Nat.eq_dec lidn kid); [lia|discriminate].
      - destruct (it + zlen batches =? 1)%Z; [discriminate|]. destruct (in_dec Nat.eq_dec i ps); [|discriminate]. destruct (Nat.eq_dec lidn kid); [lia|]. destruct (Nat.eq_dec lidn (S kid)); [lia|discriminate]. }
    intros Hne. assert (Hh : hist <> []).
    { destruct batches as [|mbs rest]; [congruence|]. cbn [map opt_iterates] in T1. destruct T1 as (? & ? & ? & ? & _ & -> & _). discriminate. }
    destruct Hce as [HC0 _]. destruct (hast_U b _ _ _ HC0) as (U0 & S0 & _). destruct T2 as [_ HH]. destruct (HH _ U0) as [_ HV]. cbn [Mst] in HV.
    destruct (Nat.eq_dec (lidn) (lidn)); [|congruence]. cbn [Nat.eq_dec] in HV.
    unfold loss_val. rewrite t_lid. destruct hist as [|z hist]; [congruence|]. apply (HV _ eq_refl). cbn [A tenv benv]. rewrite S0. constructor.
Qed.
End Train.

(** ** C69 *)
(** Training goes on from the parameters [P], iteration number and state [m], [v] of the optimizer
    that steps on [past] from the parameters [P0] lead to: whatever reached them, in this process or
    another one (C68: loaded from a file), the parameters and the state of the optimizer after it are
    those that steps on [past] followed by the batches lead to.  [runs_acc]: as [runs_any], every
    execution; and all tasks are ordered by their handles or accumulate into the loss, so that calls
    can follow each other without a wait ([acc_then]). *)
Theorem C69_deep_relu_resumed_training sI bI din dinb add addb V bias x layers next o :
  rdims sI bI din dinb add addb V -> (0 < layers)%nat -> wf_tensor x -> tens x (din ++ sI) (dinb ++ bI) -> (forall k, In k (tile_handles x) -> (k < next)%Z) -> opt_ok o ->
  exists b0 labels b1 b,
    deep_relu SideR (zlen din) add addb (S layers) V bias (input_build x None next) = Ok b0 /\ gen_cross_entropy (out_node b0) b0 = Ok (labels, b1) /\
    opt_new o (S (lid b1)) (bm_params b1) b1 = Ok b /\
    let shapes := relu_shapes SideR din add bias layers V in
    map (fun m => t_shape (PyModels.bt b (Val m))) (bm_params b) = shapes /\
    forall data past batches a P0 P m v past_hist s,
      let np := List.length shapes in
      let model := fun X P => preact SideR din add bias X P layers in
      let loss := fun mbs P => fold_right (fun d z => a * samples_cross_entropy sI V (flab d) (model (fval d) P) + z) 0 mbs in
      let zero := fun (_ : nat) (_ : list Z) => 0 in
      let it := (opt_first o + zlen past)%Z in
      opt_iterates o shapes (opt_first o) past P0 zero zero P m v past_hist ->
      (past <> [] -> opt_state o b (bm_params b) (S (lid b)) m v s) ->
      (forall d, In d data -> rdata_ok labels sI bI din dinb V b d) ->
      (forall mbs, In mbs batches -> incl mbs data) ->
      (forall done mbs rest P1 m1 v1 hist, batches = done ++ mbs :: rest ->
         opt_iterates o shapes (opt_first o) (past ++ map loss done) P0 zero zero P1 m1 v1 hist -> forall d, In d mbs ->
         forall k t i, (k < layers)%nat -> inb sI t -> (0 <= i < add)%Z -> preact SideR din add bias (fval d) P1 k t i <> 0) ->
      relu_ready labels b sI din data np P s ->
      runs_acc (relu_train a o x labels b it batches) s (fun s' => exists P' m' v' hist,
        opt_iterates o shapes (opt_first o) (past ++ map loss batches) P0 zero zero P' m' v' (past_hist ++ hist) /\
        relu_ready labels b sI din data np P' s' /\
        (past ++ map loss batches <> [] -> opt_state o b (bm_params b) (S (lid b)) m' v' s') /\
        (batches <> [] -> elem s' (loss_val b) [] = Fin (last hist 0))).
Proof.
  intros HG Hn Wx Tx Hh Ho.
  assert (Hlo : exists lo, (lo <= next)%Z /\ forall k, In k (tile_handles x) -> (lo <= k)%Z).
  { clear - next. induction (tile_handles x) as [|k l (lo & H1 & H2)]; [exists next; split; [lia|intros ? []]|]. exists (Z.min lo k). split; [lia|]. intros k' [<-|H]; [lia|]. specialize (H2 _ H). lia. }
  destruct Hlo as (lo & Hlo & Hlo'). assert (Hr : forall k, In k (tile_handles x) -> (lo <= k < next)%Z) by (intros k Hk; auto).
  pose proof (deep_relu_ok SideR sI bI din dinb add addb V bias HG x layers lo next Hn Wx Tx Hlo Hr) as H1. unfold okp in H1.
  destruct (deep_relu SideR (zlen din) add addb (S layers) V bias (input_build x None next)) as [b0| |] eqn:E1; try contradiction.
  destruct H1 as (HB & Ht).
  assert (El := t_lid sI bI din dinb add addb V bias x layers lo b0 HB). assert (Eo := t_out sI bI din dinb add addb V bias x layers lo b0 HB).
  destruct (out_hasn sI bI din dinb add addb V bias x layers lo b0 HB) as [N1 _]. cbn [fst snd] in N1.
  assert (HF : fit (V :: sI) (V :: bI)).
  { destruct HG as [(g1 & g2 & g3) _ _ _ g6]. split; [rewrite !zlen_cons; lia|]. split; constructor; assumption. }
  pose proof (gen_ce_ok lo (out_node b0) V sI bI b0 (rb_inv _ _ _ _ _ _ _ _ _ _ _ _ _ HB) Ht ltac:(rewrite Eo; exact N1) HF) as H2.
  unfold okp in H2. destruct (gen_cross_entropy (out_node b0) b0) as [[labels b1]| |] eqn:E2; try contradiction.
  destruct H2 as (HI & HX & Hn' & HL & HA & Wl & (Sl & Bl & _) & Hl & Dl & C0 & C1 & C2 & Tf). rewrite El in C0, C1, C2, Tf.
  assert (HB1 := rbuilt_ext _ _ _ _ _ _ _ _ _ _ _ _ _ _ HB HI HX Hn' HL HA).
  assert (El1 := t_lid sI bI din dinb add addb V bias x layers lo b1 HB1).
  assert (Ep := t_params sI bI din dinb add addb V bias x layers lo b1 HB1).
  set (kid := (2 * layers + 2)%nat).
  assert (NK : NoDup (opt_kinds o kid)).
  { destruct o as [lr mom wd damp nest|kd lr b1' b2 wd eps]; cbn [opt_kinds]; [destruct (Rltb 0 mom); repeat constructor; intros []|].
    repeat constructor; cbn [In]; lia. }
  assert (KK : forall k, In k (opt_kinds o kid) -> (kid <= k)%nat).
  { intros k. destruct o as [lr mom wd damp nest|kd lr b1' b2 wd eps]; cbn [opt_kinds]; [destruct (Rltb 0 mom)|]; cbn [In]; lia. }
  assert (PH : forall p, In p (r_params bias layers) -> exists tr, hasn b1 p tr) by (intros p Hp; eapply params_hasn; eassumption).
  assert (PD : NoDup (r_params bias layers)) by (apply (NoDup_cons_iff 0%nat); exact (t_nodup sI bI din dinb add addb V bias x layers lo b1 HB1)).
  assert (H3 : okp (gen_states (opt_kinds o kid) (r_params bias layers) b1) (fun b' => grown lo b1 b' /\ (forall k p sh ba, In k (opt_kinds o kid) -> In p (r_params bias layers) -> hast b1 (Val p) sh ba -> hast b' (Tmp k p) sh ba))).
  { apply (gen_states_ok lo (opt_kinds o kid) (r_params bias layers) b1 HI); [|exact NK|exact PD|].
    - intros p Hin. destruct (PH p Hin) as (tr & T1 & _). eauto.
    - intros k p Hk _. apply Tf. apply KK in Hk. unfold kid in Hk. lia. }
  unfold okp in H3. destruct (gen_states (opt_kinds o kid) (r_params bias layers) b1) as [b| |] eqn:E3; try contradiction.
  destruct H3 as (GR & HT). destruct GR as [GI GX Gn GL GA Gnew Gnext].
  assert (HB2 := rbuilt_ext _ _ _ _ _ _ _ _ _ _ _ _ _ _ HB1 GI GX Gn GL GA).
  exists b0, labels, b1, b. split; [reflexivity|]. split; [assumption|]. split.
  { unfold opt_new. rewrite El1, Ep. replace (S (2 * layers + 1)) with kid by (unfold kid; lia). exact E3. }
  assert (HD : forall v t, b_mem b v = Some t -> disj labels t).
  { intros v t Hv. destruct (b_mem b1 v) as [u|] eqn:Eu; [assert (u = t) by (apply GX in Eu; congruence); subst; apply (Dl v t Eu)|].
    intros k K1 K2. specialize (Gnew v t k Hv Eu K2). specialize (Hl k K1). lia. }
  assert (HC : hast b (Tmp (2 * layers + 1) 0) [] [] /\ hast b (Tmp (2 * layers + 1) 1) (2 :: sI)%Z (2 :: bI)%Z /\ hast b (Tmp (2 * layers + 1) 2) sI bI).
  { repeat split; eapply hast_ext; eauto. }
  assert (HT' : forall p j sh ba, In p (r_params bias layers) -> In j (opt_kinds o kid) -> hast b (Val p) sh ba -> hast b (Tmp j p) sh ba).
  { intros p j sh ba Hin Hj Hv. apply (HT j p sh ba Hj Hin). destruct (PH p Hin) as ([sh' ba'] & T1 & _). cbn [fst snd] in T1.
    assert (T2 := hast_ext _ _ _ _ _ GX T1). destruct T2 as (t & Q1 & <- & <- & _), Hv as (t' & Q2 & <- & <- & _). assert (t' = t) by congruence. subst. exact T1. }
  destruct Tx as (Tx1 & Tx2 & _).
  assert (ES : map (fun m => t_shape (PyModels.bt b (Val m))) (bm_params b) = relu_shapes SideR din add bias layers V).
  { assert (Hdat0 : forall d, In d [] -> rdata_ok labels sI bI din dinb V b d) by (intros d []).
    exact (t_shapes' sI bI din dinb add addb V bias x labels layers lo b HB2 Wl HD [] Hdat0). }
  assert (EN : List.length (relu_shapes SideR din add bias layers V) = ((if bias then 2 else 1) * S layers)%nat).
  { rewrite <- ES, map_length, (t_params sI bI din dinb add addb V bias x layers lo b HB2). exact (t_ps_len sI bI din dinb add addb V bias x layers lo b HB2). }
  intros shapes. split; [exact ES|].
  intros data past batches a P0 P m v ph s np model loss zero it Hit Hst Hdat Hinc Hsm Hs. unfold np, shapes in *. rewrite EN in *.
  rewrite (t_params sI bI din dinb add addb V bias x layers lo b HB2), (t_lid sI bI din dinb add addb V bias x layers lo b HB2) in *. replace (S (2 * layers + 1)) with (2 * layers + 2)%nat in * by lia.
  eapply acc_weaken.
  { apply (relu_train_from sI bI din dinb add addb V bias x labels layers lo b HG HB2 (conj Tx1 Tx2) (conj Sl Bl) Wl HD HC data a o Ho Hdat HT' it m v P batches s).
    - unfold it. pose proof (zlen_nonneg past). lia.
    - unfold it. eapply (o_inv_iterates o _ _ past); [exact Ho|apply o_inv0|exact Hit].
    - unfold it. intros Hne. apply Hst. intros ->. apply Hne. change (zlen []) with 0%Z. lia.
    - exact Hinc.
    - intros done mbs rest P1 m1 v1 hist Eq Hi. apply (Hsm done mbs rest P1 m1 v1 (ph ++ hist) Eq). eapply iterates_app; [exact Hit|exact Hi].
    - exact Hs. }
  cbv beta. intros s' _ (P' & m' & v' & hist & T1 & T2 & T3 & T4). exists P', m', v', hist. split; [eapply iterates_app; [exact Hit|exact T1]|]. split; [exact T2|]. split; [|exact T4].
  intros Hne. apply T3. unfold it. intros C. apply Hne. pose proof (zlen_nonneg past). pose proof (zlen_nonneg batches).
  assert (zlen past = 0%Z /\ zlen batches = 0%Z) as [Z1 Z2] by lia. unfold zlen in Z1, Z2. destruct past; [|discriminate]. destruct batches; [reflexivity|discriminate].
Qed.

(** ** C66 *)
(** The model (on side R, the side the loss wants: classes on the first axis), the loss and the
    optimizer are constructed in this order.  [batches]: the batches of all epochs in order, each a
    list of minibatches.  After every execution (every order of tasks allowed by the declared
    accesses, in which the accumulations into the value of the loss may change places) the
    parameters are the iterates of the optimizer on the sums of the scaled cross-entropies of the
    minibatches of a batch, started with state zero, and the value of the loss is that of the last
    batch, at the parameters before its step.  Asked of the data: no rectifier is met at its kink. *)
Theorem C66_deep_relu_training sI bI din dinb add addb V bias x layers next o :
  rdims sI bI din dinb add addb V -> (0 < layers)%nat -> wf_tensor x -> tens x (din ++ sI) (dinb ++ bI) -> (forall k, In k (tile_handles x) -> (k < next)%Z) -> opt_ok o ->
  exists b0 labels b1 b,
    deep_relu SideR (zlen din) add addb (S layers) V bias (input_build x None next) = Ok b0 /\ gen_cross_entropy (out_node b0) b0 = Ok (labels, b1) /\
    opt_new o (S (lid b1)) (bm_params b1) b1 = Ok b /\
    let shapes := relu_shapes SideR din add bias layers V in
    map (fun m => t_shape (PyModels.bt b (Val m))) (bm_params b) = shapes /\
    forall data batches a P s,
      let np := List.length shapes in
      let model := fun X P => preact SideR din add bias X P layers in
      let loss := fun mbs P => fold_right (fun d z => a * samples_cross_entropy sI V (flab d) (model (fval d) P) + z) 0 mbs in
      let zero := fun (_ : nat) (_ : list Z) => 0 in
      (forall d, In d data -> rdata_ok labels sI bI din dinb V b d) ->
      (forall mbs, In mbs batches -> incl mbs data) ->
      (forall done mbs rest P1 m1 v1 hist, batches = done ++ mbs :: rest ->
         opt_iterates o shapes (opt_first o) (map loss done) P zero zero P1 m1 v1 hist -> forall d, In d mbs ->
         forall k t i, (k < layers)%nat -> inb sI t -> (0 <= i < add)%Z -> preact SideR din add bias (fval d) P1 k t i <> 0) ->
      relu_ready labels b sI din data np P s ->
      runs_any (relu_train a o x labels b (opt_first o) batches) s (fun s' => exists P' m' v' hist,
        opt_iterates o shapes (opt_first o) (map loss batches) P zero zero P' m' v' hist /\
        relu_ready labels b sI din data np P' s' /\
        (batches <> [] -> elem s' (loss_val b) [] = Fin (last hist 0))).
Proof.
  intros HG Hn Wx Tx Hh Ho. destruct (C69_deep_relu_resumed_training sI bI din dinb add addb V bias x layers next o HG Hn Wx Tx Hh Ho) as (b0 & labels & b1 & b & E1 & E2 & E3 & ES & H).
  exists b0, labels, b1, b. split; [exact E1|]. split; [exact E2|]. split; [exact E3|]. split; [exact ES|].
  intros data batches a P s np model loss zero Hdat Hinc Hsm Hs. specialize (H data [] batches a P P zero zero [] s). cbv zeta in H. change (zlen []) with 0%Z in H. rewrite Z.add_0_r in H.
  apply acc_any. eapply acc_weaken; [apply H; try assumption; [repeat split|congruence]|]. cbv beta. intros s' _ (P' & m' & v' & hist & T1 & T2 & _ & T4). exists P', m', v', hist. auto.
Qed.
