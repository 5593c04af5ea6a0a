(** * The layers of DeepReLU are right, in order, and those the constructor makes *)
From Coq Require Import Reals Lra FunctionalExtensionality Sorted.
From Verif Require Import Base Spec Geometry Traits TraitsProofs Runtime Ops RealOps TensorSem ElemGeneric Concrete Axis SliceGeo PropElem FiberGeo XReals MatOps RSum MatProofs GemmProofs AttMath XTriples HasRuns TapeMath VjpMath Tape PyLayers PyLinear PySimple PyNorm PyAttn Backprop PropModel PyModels PropGpt BuildEnv GptBuild BuildModel GptModel GptRun Segments SegDiff PyMixer MixerRuns MixSpec MixerSeg MixModel ReluSpec ReluBuild.
Local Close Scope R_scope.
Local Open Scope list_scope.
Local Open Scope Z_scope.
Notation lms ls := (map ly_m ls).
Notation ids ls := (map ly_id ls).

Lemma singles l : all_layers (map single l) = l.
Proof. unfold all_layers. induction l as [|y l IH]; [reflexivity|]. cbn [map flat_map single sg_layers app]. rewrite IH. reflexivity. Qed.
Lemma singles_zero l : all_zero (map single l) = [].
Proof. unfold all_zero. induction l as [|y l IH]; [reflexivity|]. cbn [map flat_map single sg_zero app]. exact IH. Qed.
Lemma singles_only l : only_here (map single l).
Proof. rewrite <- (app_nil_r (map single l)). apply only_here_app; [|exact Logic.I]. intros g Hg. apply in_map_iff in Hg as (y & <- & _). reflexivity. Qed.
Lemma number_app req b ds : forall k ds', number req b k (ds ++ ds') = number req b k ds ++ number req b (k + List.length ds) ds'.
Proof. induction ds as [|d ds IH]; intros k ds'; cbn [app number List.length]; [rewrite Nat.add_0_r; reflexivity|]. rewrite IH. do 3 f_equal. lia. Qed.

Section Relu.
Variables (sd : side) (sI bI din dinb : list Z) (add addb V : Z) (bias : bool) (x : tensor) (n : nat) (lo : Z) (b : build) (cs : list const).
Hypothesis G : rdims sI bI din dinb add addb V.
Hypothesis HB : rbuilt sd sI bI din dinb add addb V bias x n lo b.
Hypothesis HE : benv_ok b cs.
Hypothesis Hx : t_shape x = lin_x sd sI din /\ t_base x = lin_x sd bI dinb.
Instance REnv : env := benv b cs HE.
Notation isn := (isn mreq).
Notation K := (features din add).
Notation bK := (features dinb addb).
Notation bb := (if bias then 1 else 0)%nat.
Notation rf := (rfirst bias).
Notation out k := (rf k + 1 + bb)%nat.
Definition r_lin (k : nat) (o : Z) : layer := linear_layer mreq sd NoTrans (rf k - 1) (out k) (rf k) (zlen (K k)) (if bias then Some (rf k + 1)%nat else None) (2 * k) sI (K k) [o].
Definition r_act (k : nat) : layer := act_layer mreq Relu (out k) (rf k + 2 + bb) (2 * k + 1).
Definition r_blk (k : nat) : list layer := [r_lin k add; r_act k].
Definition r_layers : list layer := flat_map r_blk (seq 0 n) ++ [r_lin n V].
Definition r_segs : list segment := map single r_layers.
Lemma rl_eq : all_layers r_segs = r_layers.
Proof. apply singles. Qed.
Lemma rlid_eq : lid b = (2 * n + 1)%nat.
Proof.
  unfold lid. rewrite (rb_layers _ _ _ _ _ _ _ _ _ _ _ _ _ HB), app_length. cbn [List.length].
  assert (E : List.length (flat_map (relu_layers sd din add bias) (seq 0 n)) = (2 * n)%nat); [|rewrite E; lia].
  clear. induction n as [|k IH]; [reflexivity|]. rewrite seq_flat, app_length, IH. cbn [relu_layers List.length]. lia.
Qed.
Lemma rout_eq : out_node b = out n.
Proof. unfold out_node. rewrite (rb_acts _ _ _ _ _ _ _ _ _ _ _ _ _ HB), app_comm_cons. apply last_last. Qed.
Lemma rsegs_py : map sg_py r_segs = bm_layers mreq b.
Proof.
  unfold bm_layers. rewrite (rb_layers _ _ _ _ _ _ _ _ _ _ _ _ _ HB). unfold r_segs, r_layers. rewrite !map_app, number_app. f_equal.
  - clear. induction n as [|k IH]; [reflexivity|]. rewrite !seq_flat, !map_app, number_app, IH. f_equal.
Qed.

(** ** Dimensions *)
Lemma r_isn k tr : (0 < k)%nat -> hasn b k tr -> isn k (fst tr) (snd tr).
Proof.
  intros Hk [H1 H2]. apply hast_U in H1 as (U1 & S1 & B1). apply hast_U in H2 as (U2 & S2 & B2).
  split; [|split; assumption]. split; [assumption|]. intros _. split; [assumption|]. split; [exact (eq_trans S2 (eq_sym S1))|exact (eq_trans B2 (eq_sym B1))].
Qed.
Lemma rx_isn : isn 0 (lin_x sd sI din) (lin_x sd bI dinb).
Proof.
  assert (E0 := rb_x _ _ _ _ _ _ _ _ _ _ _ _ _ HB). split; [|].
  - split; [|intros Hr; discriminate]. change (bU b (Val 0)). unfold bU. rewrite E0. discriminate.
  - unfold vshape, vbase. cbn [A REnv benv]. unfold PyModels.bt. rewrite E0. exact Hx.
Qed.
Definition wid (k : nat) : Z := if (k =? n)%nat then V else add.
Definition widb (k : nat) : Z := if (k =? n)%nat then V else addb.
Lemma rlin_isn k i tr : (k <= n)%nat -> nth_error (lin_nodes sd sI bI din dinb add addb bias k (wid k) (widb k)) i = Some tr -> isn (rf k + i) (fst tr) (snd tr).
Proof.
  intros Hk Hi. apply r_isn; [unfold rfirst; lia|]. unfold wid, widb in Hi. destruct (Nat.eqb_spec k n) as [->|Hne].
  - apply (rb_head _ _ _ _ _ _ _ _ _ _ _ _ _ HB). assumption.
  - apply (rb_blk _ _ _ _ _ _ _ _ _ _ _ _ _ HB); [lia|]. unfold relu_nodes. rewrite nth_error_app1; [assumption|]. apply nth_error_Some. congruence.
Qed.
Lemma w_isn k : (k <= n)%nat -> isn (rf k) (lin_w sd (K k) [wid k]) (lin_w sd (bK k) [widb k]).
Proof. intros Hk. pose proof (rlin_isn k 0 _ Hk eq_refl) as H. rewrite Nat.add_0_r in H. exact H. Qed.
Lemma b_isn k : (k <= n)%nat -> bias = true -> isn (rf k + 1) [wid k] [widb k].
Proof. intros Hk Hb. apply (rlin_isn k 1 ([wid k], [widb k]) Hk). unfold lin_nodes. rewrite Hb. reflexivity. Qed.
Lemma y_isn k : (k <= n)%nat -> isn (out k) (lin_y sd sI [wid k]) (lin_y sd bI [widb k]).
Proof.
  intros Hk. replace (out k) with (rf k + (1 + bb))%nat by lia. apply (rlin_isn k (1 + bb) (lin_y sd sI [wid k], lin_y sd bI [widb k]) Hk). unfold lin_nodes. destruct bias; reflexivity.
Qed.
Lemma a_isn k : (k < n)%nat -> isn (rf k + 2 + bb) (lin_y sd sI [add]) (lin_y sd bI [addb]).
Proof.
  intros Hk. replace (rf k + 2 + bb)%nat with (rf k + (2 + bb))%nat by lia. apply (r_isn _ (lin_y sd sI [add], lin_y sd bI [addb])); [unfold rfirst; lia|].
  apply (rb_blk _ _ _ _ _ _ _ _ _ _ _ _ _ HB); [assumption|]. unfold relu_nodes, lin_nodes. destruct bias; reflexivity.
Qed.
Lemma in_isn k : (k <= n)%nat -> isn (rf k - 1) (lin_x sd sI (K k)) (lin_x sd bI (bK k)).
Proof.
  intros Hk. destruct k as [|k].
  - replace (rf 0 - 1)%nat with 0%nat by (unfold rfirst; destruct bias; lia). exact rx_isn.
  - replace (rf (S k) - 1)%nat with (rf k + 2 + bb)%nat by (unfold rfirst; destruct bias; lia). pose proof (a_isn k ltac:(lia)) as H. cbn [features]. destruct sd; exact H.
Qed.
Lemma bias_some (k m : nat) : (if bias then Some k else None) = Some m -> bias = true /\ m = k.
Proof. clear HB. destruct bias; intros H; [injection H as <-; auto|discriminate]. Qed.
Lemma bias_in (k m : nat) : In m (if bias then [k] else []) -> bias = true /\ m = k.
Proof. clear HB. destruct bias; [intros [<-|[]]; auto|intros []]. Qed.
Lemma rlen k : zlen (bK k) = zlen (K k).
Proof. destruct G as [_ (g1 & _) _ _ _]. destruct k; [exact g1|reflexivity]. Qed.
Lemma rlin_ok k : (k <= n)%nat ->
  linear_ok mreq sd NoTrans (rf k - 1) (out k) (rf k) (zlen (K k)) (if bias then Some (rf k + 1)%nat else None) sI (K k) [wid k] bI (bK k) [widb k].
Proof.
  intros Hk. destruct (in_isn k Hk) as (X1 & X2 & X3), (w_isn k Hk) as (W1 & W2 & W3), (y_isn k Hk) as (Y1 & Y2 & Y3).
  assert (Hr : (0 < rf k)%nat) by (unfold rfirst; lia). split.
  - split; [assumption|split; [assumption|split; [assumption|]]]. intros m Hm. apply bias_some in Hm as (Eb & ->). apply b_isn; assumption.
  - split; [apply mreq_S; lia|]. split; [lia|]. split; [lia|]. intros m Hm. apply bias_some in Hm as (Eb & ->). rewrite Eb. lia.
  - split; [reflexivity|apply rlen].
  - destruct sd; cbn [lin_x] in *; unfold op_dims; rewrite !app_nil_r; split; assumption.
  - destruct sd; cbn [lin_w] in *; split; assumption.
  - destruct sd; cbn [lin_y] in *; split; assumption.
  - split; [apply G|reflexivity].
  - intros m Hm. apply bias_some in Hm as (Eb & ->). split; [reflexivity|]. destruct (b_isn k Hk Eb) as (_ & B2 & B3). split; assumption.
Qed.
Lemma ract_ok k : (k < n)%nat -> act_ok mreq (out k) (rf k + 2 + bb).
Proof.
  intros Hk. assert (H1 := y_isn k ltac:(lia)). unfold wid, widb in H1. destruct (Nat.eqb_spec k n); [lia|]. eapply m_act; [exact H1|exact (a_isn k Hk)|lia|apply mreq_S; lia].
Qed.
Lemma wid_lt k : (k < n)%nat -> wid k = add.
Proof. intros Hk. unfold wid. destruct (Nat.eqb_spec k n); [lia|reflexivity]. Qed.
Lemma wid_n : wid n = V. Proof. unfold wid. rewrite Nat.eqb_refl. reflexivity. Qed.

(** ** The order *)
Definition r_outs : list nat := flat_map (relu_outs bias) (seq 0 n) ++ [out n].
Lemma r_outs_eq : outs (lms r_layers) = r_outs.
Proof.
  unfold outs, r_layers, r_outs. rewrite !map_app. f_equal. generalize (seq 0 n) as l. induction l as [|k l IH]; [reflexivity|].
  cbn [flat_map]. rewrite !map_app, IH. reflexivity.
Qed.
Definition lin_params (k : nat) : list nat := rf k :: (if bias then [(rf k + 1)%nat] else []).
Definition r_params : list nat := flat_map lin_params (seq 0 (S n)).
Lemma r_params_eq : bm_params b = r_params.
Proof.
  unfold bm_params, r_params. rewrite (rb_layers _ _ _ _ _ _ _ _ _ _ _ _ _ HB), flat_map_app, seq_flat. f_equal.
  - generalize (seq 0 n) as l. induction l as [|k l IH]; [reflexivity|]. cbn [flat_map]. rewrite flat_map_app, IH. f_equal. unfold lin_params. cbn [relu_layers flat_map lin_desc ld_params]. destruct bias; reflexivity.
  - cbn [flat_map lin_desc ld_params]. rewrite app_nil_r. unfold lin_params. destruct bias; reflexivity.
Qed.
Lemma in_rparams m : In m r_params <-> exists k, (k <= n)%nat /\ In m (lin_params k).
Proof. unfold r_params. rewrite in_flat_map. split; intros (k & H1 & H2); exists k; [apply in_seq in H1|split; [apply in_seq|assumption]]; (split; [lia|assumption]) || lia. Qed.
Lemma in_routs m : In m r_outs <-> (exists k, (k < n)%nat /\ In m (relu_outs bias k)) \/ m = out n.
Proof.
  unfold r_outs. rewrite in_app_iff, in_flat_map. cbn [In]. split.
  - intros [(k & H1 & H2)|[<-|[]]]; [left; exists k; apply in_seq in H1; split; [lia|assumption]|right; reflexivity].
  - intros [(k & H1 & H2)| ->]; [left; exists k; split; [apply in_seq; lia|assumption]|right; left; reflexivity].
Qed.
Lemma lparams_range k m : In m (lin_params k) -> (rf k <= m < rf k + 1 + bb)%nat.
Proof. unfold lin_params. destruct bias; cbn [In]; lia. Qed.
Lemma outs_range k m : In m (relu_outs bias k) -> (rf k + 1 + bb <= m < rf (S k))%nat.
Proof. unfold relu_outs, rfirst. destruct bias; cbn [In]; lia. Qed.
Lemma rf_mono j k : (j < k)%nat -> (rf (S j) <= rf k)%nat.
Proof. unfold rfirst. destruct bias; lia. Qed.
Lemma rparams_outs m : In m (0%nat :: r_params) -> ~ In m r_outs.
Proof.
  intros HP HO. apply in_routs in HO. assert (F0 : (0 < rf 0)%nat) by (unfold rfirst; lia).
  assert (HO' : exists k, (k <= n)%nat /\ (rf k + 1 + bb <= m < rf (S k))%nat).
  { destruct HO as [(k & H1 & H2)| ->]; [exists k; split; [lia|apply outs_range; assumption]|]. exists n. split; [lia|]. unfold rfirst. destruct bias; lia. }
  destruct HO' as (k & H1 & H2). destruct HP as [<-|HP]; [unfold rfirst in H2; lia|]. apply in_rparams in HP as (j & H3 & H4). apply lparams_range in H4.
  unfold rfirst in *. destruct bias; assert (j = k) by lia; subst; lia.
Qed.
Lemma routs_sorted : StronglySorted lt r_outs.
Proof.
  unfold r_outs. assert (Rg : forall m j, In m (flat_map (relu_outs bias) (seq 0 j)) -> (m < rf j)%nat).
  { intros m j Hm. apply in_flat_map in Hm as (i & Hi & Hm). apply in_seq in Hi. apply outs_range in Hm. assert (H := rf_mono i j ltac:(lia)). lia. }
  apply app_sorted.
  - generalize n as k. induction k as [|k IH]; [constructor|]. rewrite seq_flat. apply app_sorted; [assumption| |].
    + unfold relu_outs. repeat (first [apply SSorted_cons|apply SSorted_nil|apply Forall_cons|apply Forall_nil]); lia.
    + intros u y Hu Hy. apply Rg in Hu. apply outs_range in Hy. lia.
  - repeat (first [apply SSorted_cons|apply SSorted_nil|apply Forall_cons|apply Forall_nil]).
  - intros u y Hu [<-|[]]. apply Rg in Hu. lia.
Qed.
Lemma rparams_nodup : NoDup (0%nat :: r_params).
Proof.
  assert (Rg : forall m j, In m (flat_map lin_params (seq 0 j)) -> (0 < m < rf j)%nat).
  { intros m j Hm. apply in_flat_map in Hm as (i & Hi & Hm). apply in_seq in Hi. apply lparams_range in Hm. assert (H := rf_mono i j ltac:(lia)). unfold rfirst in *. destruct bias; lia. }
  constructor; [intros H; apply Rg in H; lia|]. unfold r_params. generalize (S n) as k. induction k as [|k IH]; [constructor|]. rewrite seq_flat. apply app_nodup; [assumption| |].
  - unfold lin_params. destruct bias; repeat (first [apply NoDup_cons|apply NoDup_nil]); cbn [In]; lia.
  - intros u Hu Hy. apply Rg in Hu. apply lparams_range in Hy. lia.
Qed.
Lemma in_of k : (k <= n)%nat -> In (rf k - 1)%nat (0%nat :: r_params) \/ (In (rf k - 1)%nat r_outs /\ (rf k - 1 < out k)%nat).
Proof.
  intros Hk. destruct k as [|k]; [left; left; unfold rfirst; destruct bias; lia|]. right. split; [|lia]. apply in_routs. left. exists k. split; [lia|].
  unfold relu_outs, rfirst. destruct bias; cbn [In]; lia.
Qed.
Lemma in_rlayers l : In l r_layers -> (exists k, (k <= n)%nat /\ l = r_lin k (wid k)) \/ exists k, (k < n)%nat /\ l = r_act k.
Proof.
  unfold r_layers. rewrite in_app_iff, in_flat_map. intros [(k & H1 & [<-|[<-|[]]])|[<-|[]]].
  - apply in_seq in H1. left. exists k. split; [lia|]. rewrite wid_lt by lia. reflexivity.
  - apply in_seq in H1. right. exists k. split; [lia|reflexivity].
  - left. exists n. split; [lia|]. rewrite wid_n. reflexivity.
Qed.
Lemma lin_in k : (k <= n)%nat -> In (r_lin k (wid k)) r_layers.
Proof.
  intros Hk. unfold r_layers. apply in_or_app. destruct (Nat.eq_dec k n) as [->|Hne].
  - right. rewrite wid_n. left. reflexivity.
  - left. apply in_flat_map. exists k. split; [apply in_seq; lia|]. rewrite wid_lt by lia. left. reflexivity.
Qed.
Lemma act_in k : (k < n)%nat -> In (r_act k) r_layers.
Proof. intros Hk. unfold r_layers. apply in_or_app. left. apply in_flat_map. exists k. split; [apply in_seq; lia|]. right. left. reflexivity. Qed.
Lemma r_ordered : ordered (lms r_layers) (0%nat :: r_params).
Proof.
  apply ordered_sorted; rewrite ?r_outs_eq; [exact routs_sorted| |exact rparams_outs].
  intros l i Hl Hi. apply in_map_iff in Hl as (ll & <- & Hl). apply in_rlayers in Hl as [(k & Hk & ->)|(k & Hk & ->)].
  - cbn [ly_m r_lin linear_layer ml_ins ml_out] in Hi |- *. destruct Hi as [<-|[<-|Hi]].
    + apply in_of. assumption.
    + left. right. apply in_rparams. exists k. split; [assumption|left; reflexivity].
    + left. right. apply in_rparams. exists k. split; [assumption|]. unfold lin_params. destruct bias; [|destruct Hi]. cbn [opt_list In] in Hi |- *. right. tauto.
  - cbn [ly_m r_act act_layer ml_ins ml_out In] in Hi |- *. destruct Hi as [<-|[]]. right. split; [|lia]. apply in_routs. left. exists k. split; [assumption|left; reflexivity].
Qed.
Lemma r_ids : ids r_layers = seq 0 (2 * n + 1).
Proof.
  unfold r_layers. rewrite map_app, seq_app. cbn [map r_lin linear_layer ly_id seq Nat.add]. f_equal. generalize n as k. induction k as [|k IH]; [reflexivity|].
  rewrite seq_flat, map_app, IH. replace (2 * S k)%nat with (2 * k + 2)%nat by lia. rewrite seq_app. cbn [r_blk map r_lin r_act linear_layer act_layer ly_id seq Nat.add]. do 3 f_equal. lia.
Qed.
Lemma r_node m : In m (r_outs ++ 0%nat :: r_params) -> node_ok mreq m.
Proof.
  intros Hm. apply in_app_or in Hm as [Hm|[<-|Hm]].
  - apply in_routs in Hm as [(k & Hk & Hm)| ->]; [|apply (y_isn n); lia]. cbn [relu_outs In] in Hm. destruct Hm as [<-|[<-|[]]]; [apply (y_isn k); lia|apply (a_isn k Hk)].
  - apply rx_isn.
  - apply in_rparams in Hm as (k & Hk & Hm). unfold lin_params in Hm. destruct Hm as [<-|Hm]; [apply (w_isn k Hk)|]. apply bias_in in Hm as (Eb & ->). apply (b_isn k Hk Eb).
Qed.
Lemma r_segs_ok : segs_ok mreq r_segs (0%nat :: r_params) (out n) (2 * n + 1).
Proof.
  split.
  - unfold r_segs. apply Forall_map, Forall_forall. intros l Hl. apply single_good. apply in_rlayers in Hl as [(k & Hk & ->)|(k & Hk & ->)].
    + split; [eapply linear_layer_ok; exact (rlin_ok k Hk)|eapply linear_vjp; exact (rlin_ok k Hk)].
    + split; [apply act_layer_ok; exact (ract_ok k Hk)|apply act_vjp; exact (ract_ok k Hk)].
  - rewrite rl_eq, r_ids. constructor; [rewrite in_seq; lia|apply seq_NoDup].
  - rewrite rl_eq. exact r_ordered.
  - exact rparams_nodup.
  - rewrite rl_eq, r_outs_eq. apply in_routs. right. reflexivity.
  - apply singles_only.
  - unfold r_segs. rewrite singles_zero. intros ? [].
  - rewrite rl_eq, r_outs_eq. exact r_node.
Qed.

(** ** Values *)
Local Close Scope Z_scope.
Local Open Scope R_scope.
Lemma r_reads : Forall reads_inputs (lms r_layers).
Proof.
  rewrite Forall_forall. intros l Hl. apply in_map_iff in Hl as (ll & <- & Hl). apply in_rlayers in Hl as [(k & Hk & ->)|(k & Hk & ->)]; [apply linear_reads|apply act_reads].
Qed.
Lemma rparams_len : List.length r_params = ((if bias then 2 else 1) * S n)%nat.
Proof. unfold r_params. apply (nth_blocks lin_params (if bias then 2 else 1)%nat). intros k. unfold lin_params. destruct bias; reflexivity. Qed.
Lemma rparam_w k : (k <= n)%nat -> nth (W_of bias k) r_params O = rf k.
Proof.
  intros Hk. unfold r_params. destruct (nth_blocks lin_params (if bias then 2 else 1)%nat) with (L := S n) as [_ E2]; [intros j; unfold lin_params; destruct bias; reflexivity|].
  specialize (E2 k 0%nat ltac:(lia)). replace (W_of bias k) with ((if bias then 2 else 1) * k + 0)%nat by (unfold W_of; destruct bias; lia). rewrite E2 by (destruct bias; lia). reflexivity.
Qed.
Lemma rparam_b k : (k <= n)%nat -> bias = true -> nth (S (W_of bias k)) r_params O = (rf k + 1)%nat.
Proof.
  intros Hk Hb. unfold r_params. destruct (nth_blocks lin_params (if bias then 2 else 1)%nat) with (L := S n) as [_ E2]; [intros j; unfold lin_params; destruct bias; reflexivity|].
  specialize (E2 k 1%nat ltac:(lia)). replace (S (W_of bias k)) with ((if bias then 2 else 1) * k + 1)%nat by (unfold W_of; rewrite Hb; lia). rewrite E2 by (rewrite Hb; lia). unfold lin_params. rewrite Hb. reflexivity.
Qed.
Section Values.
Variables (X : arr) (P : nat -> arr).
Notation e0 := (penv (0%nat :: r_params) (xp X P)).
Definition rval : nat -> arr := eval (lms r_layers) e0.
Lemma rval_fix l : In l r_layers -> rval (ml_out (ly_m l)) = ml_F (ly_m l) (args (ly_m l) rval).
Proof. intros Hl. apply (eval_fix _ _ e0 r_ordered r_reads). apply in_map. assumption. Qed.
Lemma rval_leaf j : (j < S (List.length r_params))%nat -> rval (nth j (0%nat :: r_params) O) = xp X P j.
Proof.
  intros Hj. unfold rval. rewrite eval_other by (eapply ordered_fresh; [apply r_ordered|apply nth_In; assumption]).
  unfold penv. rewrite index_nth by (assumption || apply rparams_nodup). reflexivity.
Qed.
Lemma rval_w k : (k <= n)%nat -> rval (rf k) = P (W_of bias k).
Proof.
  intros Hk. rewrite <- (rparam_w k Hk). change (nth (W_of bias k) r_params O) with (nth (S (W_of bias k)) (0%nat :: r_params) O). rewrite rval_leaf; [reflexivity|].
  rewrite rparams_len. unfold W_of. destruct bias; lia.
Qed.
Lemma rval_b k : (k <= n)%nat -> bias = true -> rval (rf k + 1)%nat = P (S (W_of bias k)).
Proof.
  intros Hk Hb. rewrite <- (rparam_b k Hk Hb). change (nth (S (W_of bias k)) r_params O) with (nth (S (S (W_of bias k))) (0%nat :: r_params) O). rewrite rval_leaf; [reflexivity|].
  rewrite rparams_len. unfold W_of. rewrite Hb. lia.
Qed.
Notation hid k := (hidden_of sd din add bias X P k).
Notation pre k := (preact sd din add bias X P k).
(** the value of node [m] at sample [t], features [f] *)
Definition holds_at (m : nat) (Kd : list Z) (h : list Z -> list Z -> R) : Prop := forall t f, inb sI t -> inb Kd f -> at_ sd (rval m) t f = h t f.
Lemma v_lin k h : (k <= n)%nat -> holds_at (rf k - 1) (K k) h -> forall t i, inb sI t -> (0 <= i < wid k)%Z ->
  at_ sd (rval (out k)) t [i] = affine sd din add bias P k h t i.
Proof.
  intros Hk Hh t i Ht Hi. assert (Ev := rval_fix _ (lin_in k Hk)). cbn [ly_m r_lin linear_layer ml_out ml_F] in Ev.
  assert (Hi1 : inb [wid k] [i]) by (repeat apply Forall2_cons; try assumption; apply Forall2_nil).
  unfold affine, at_ at 1. rewrite Ev. unfold lin_F, args, inp. cbn [nth ml_ins ly_m r_lin linear_layer].
  assert (Ew := rval_w k Hk). f_equal.
  - unfold holds_at, at_ in Hh. unfold weight. destruct sd.
    + rewrite matmul_0 by assumption. apply Rsuml_ext. intros f Hf. apply all_idx_In in Hf; [|apply (K_fit sI bI din dinb add addb V G k)]. app_norm. rewrite Hh by assumption. rewrite Ew. reflexivity.
    + rewrite matmul_0 by assumption. apply Rsuml_ext. intros f Hf. apply all_idx_In in Hf; [|apply (K_fit sI bI din dinb add addb V G k)]. app_norm. rewrite Hh by assumption. rewrite Ew. cbn [app]. ring.
  - assert (Ewb := rval_b k Hk). assert (Hb2 : bias = true \/ bias = false) by (clear; destruct bias; auto). destruct Hb2 as [Eb|Eb]; [specialize (Ewb Eb)|]; clear - Ewb Eb Ht; (try (rewrite Eb; reflexivity)). all: generalize dependent rval; intros rv Ewb; rewrite Eb in Ewb |- *; cbn [opt_list nth]; rewrite Ewb. f_equal. unfold lin_axis. destruct sd.
    + assert (Hz : zlen sI = zlen t) by (first [exact (inb_zlen _ _ Ht)|exact (eq_sym (inb_zlen _ _ Ht))]). rewrite Hz. apply fib_L.
    + cbn [app]. apply fib_R.
Qed.
Lemma v_hidden k : (k <= n)%nat -> holds_at (rf k - 1) (K k) (hid k).
Proof.
  induction k as [|k IH]; intros Hk t f Ht Hf.
  - replace (rf 0 - 1)%nat with 0%nat by (unfold rfirst; destruct bias; lia). cbn [hidden_of]. change 0%nat with (nth 0 (0%nat :: r_params) 0%nat) at 1. rewrite rval_leaf by lia. reflexivity.
  - cbn [features] in Hf. apply inb1_inv in Hf as (i & -> & Hi). replace (rf (S k) - 1)%nat with (rf k + 2 + bb)%nat by (unfold rfirst; destruct bias; lia).
    assert (Ev := rval_fix _ (act_in k ltac:(lia))). cbn [ly_m r_act act_layer ml_out ml_F] in Ev. unfold at_ at 1. rewrite Ev. unfold args, inp. cbn [nth ml_ins ly_m r_act act_layer].
    cbn [hidden_of List.hd]. rewrite <- (v_lin k (hid k) ltac:(lia) (IH ltac:(lia)) t i Ht) by (rewrite wid_lt by lia; assumption). unfold at_. reflexivity.
Qed.
Lemma v_pre k t i : (k <= n)%nat -> inb sI t -> (0 <= i < wid k)%Z -> at_ sd (rval (out k)) t [i] = pre k t i.
Proof. intros Hk Ht Hi. apply v_lin; try assumption. apply v_hidden. assumption. Qed.
Lemma y_split o idx : inb (lin_y sd sI [o]) idx -> exists t i, idx = (match sd with SideL => t ++ [i] | SideR => [i] ++ t end) /\ inb sI t /\ (0 <= i < o)%Z.
Proof.
  clear. intros H. destruct sd; cbn [lin_y] in H; apply inb_app_inv_l in H as (u & v & -> & Hu & Hv).
  - apply inb1_inv in Hv as (i & -> & Hi). exists u, i. auto.
  - apply inb1_inv in Hu as (i & -> & Hi). exists v, i. auto.
Qed.
Lemma r_dom : (forall k t i, (k < n)%nat -> inb sI t -> (0 <= i < add)%Z -> pre k t i <> 0) -> dom (lms r_layers) e0.
Proof.
  intros Hp. apply (dom_fix _ _ _ r_ordered r_reads). intros l Hl. apply in_map_iff in Hl as (ll & <- & Hl). apply in_rlayers in Hl as [(k & Hk & ->)|(k & Hk & ->)]; [exact Logic.I|].
  cbn [ly_m r_act act_layer ml_D]. intros idx Hidx. destruct (a_isn k Hk) as (_ & Sa & _). rewrite Sa in Hidx. unfold args, inp. cbn [nth ml_ins ly_m r_act act_layer act_smooth].
  change (eval (lms r_layers) e0) with rval. intros Hz.
  apply y_split in Hidx as (t & i & -> & Ht & Hi). apply (Hp k t i Hk Ht Hi). rewrite <- v_pre by (lia || assumption || (rewrite wid_lt by assumption; assumption)). exact Hz.
Qed.
End Values.
End Relu.
