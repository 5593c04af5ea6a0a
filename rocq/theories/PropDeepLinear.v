(** * C75: DeepLinear: construction and inference *)
From Coq Require Import Reals Lra FunctionalExtensionality.
From Verif Require Import Base Spec Geometry Traits TraitsProofs Runtime Ops RealOps TensorSem ElemGeneric Concrete Axis SliceGeo Sequence XReals NdRuns AnyRuns Serial2 PropElem FiberGeo MatOps RSum MatProofs GemmProofs AttMath XTriples HasRuns TapeMath VjpMath Tape PyLayers PyLinear PySimple PyNorm PyAttn Backprop PropModel PyModels PropGpt BuildEnv GptBuild BuildModel GptModel GptRun Segments SegDiff PyMixer MixerRuns MixSpec MixerSeg MixModel ReluSpec ReluBuild ReluModel PropRelu GptExamples PropTorchGpt PropInfer InferTrain LinBuild.
Local Close Scope Z_scope.
Local Open Scope list_scope.
Local Open Scope R_scope.

(** ** Specification *)
(** Entry [t],[f] of what goes into layer [k]: the input, or the affine map of layer [k-1]
    ([affine] of ReluSpec.v) of what went into it. *)
Fixpoint chain (sd : side) (d add : Z) (X : arr) (P : nat -> arr) (k : nat) : list Z -> list Z -> R :=
  match k with
  | O => at_ sd X
  | S k => fun t f => affine sd [d] add true P k (chain sd d add X P k) t (@List.hd Z 0%Z f)
  end.

(** ** Refusal: with two or more dimensions of features the last layer would need a bias of that
    many dimensions *)
Theorem C75_deep_linear_refuses sd nd add addb nlayers b : (2 <= nd)%Z -> (2 <= zlen (bshape b O))%Z ->
  forall b', deep_linear sd nd add addb nlayers b <> Ok b'.
Proof.
  intros H1 H2 b' H. unfold deep_linear in H.
  destruct (Z.of_nat nlayers <? 2)%Z; [discriminate|]. destruct (nd <=? 0)%Z; [discriminate|]. cbn [throw_if] in H. cbv zeta in H.
  set (c := match sd with SideL => (sl_last nd (bshape b 0), sl_last nd (bbase b 0)) | SideR => (sl_to nd (bshape b 0), sl_to nd (bbase b 0)) end) in H.
  assert (L : (1 < zlen (fst c))%Z).
  { unfold c, zlen in *. destruct sd; cbn [fst]; unfold sl_last, sl_to; [rewrite skipn_length|rewrite firstn_length]; lia. }
  destruct c as [ns nb]. cbn [fst] in L. cbn [bind] in H.
  destruct (push (gen_linear 0 sd NoTrans nd [add] [addb] true b)) as [b1| |]; try discriminate H. cbn [bind] in H.
  destruct (repeat_build _ _ b1) as [b2| |]; try discriminate H. cbn [bind] in H.
  revert H. unfold push, gen_linear. cbn [throw_if Z.leb Z.compare].
  destruct (lin_cut sd NoTrans 1 (bshape b2 (act b2 1)) ns) as [ws ys], (lin_cut sd NoTrans 1 (bbase b2 (act b2 1)) nb) as [wb yb].
  destruct (moments_new ws wb zeros b2) as [[w b3]| |]; cbn [bind]; try discriminate.
  destruct (Z.ltb_spec 1 (zlen ns)); [|lia]. cbn [throw_if bind]. discriminate.
Qed.

(** ** Forward *)
Section Fwd.
Variables (sd : side) (sI bI : list Z) (d db add addb : Z) (n : nat) (x : tensor) (lo : Z) (b : build).
Hypothesis G : rdims sI bI [d] [db] add addb d.
Hypothesis HB : lmade sd sI bI d db add addb n x lo (S n) b.
Hypothesis Hx : t_shape x = lin_x sd sI [d] /\ t_base x = lin_x sd bI [db].
Notation K := (features [d] add).
Notation bK := (features [db] addb).
Hypothesis HE : benv_ok b [].
Variable s0 : store XR.
Instance DEnv : env := kenv b HE s0.
Notation isn := (isn mreq).
Lemma dl_isn k tr : (0 < k)%nat -> hasn b k tr -> isn k (fst tr) (snd tr).
Proof.
  intros Hk [H1 H2]. apply hast_U in H1 as (U1 & S1 & B1). apply hast_U in H2 as (U2 & S2 & B2).
  split; [|split; assumption]. split; [assumption|]. intros _. split; [assumption|]. split; [exact (eq_trans S2 (eq_sym S1))|exact (eq_trans B2 (eq_sym B1))].
Qed.
Lemma dl_in k : (k <= n)%nat -> isn (3 * k) (lin_x sd sI (K k)) (lin_x sd bI (bK k)).
Proof.
  intros Hk. destruct k as [|k].
  - assert (E0 := lm_x _ _ _ _ _ _ _ _ _ _ _ _ HB). split; [|].
    + split; [|intros Hr; discriminate]. change (bU b (Val 0)). unfold bU. rewrite E0. discriminate.
    + unfold vshape, vbase. change (t_shape (PyModels.bt b (Val 0)) = lin_x sd sI [d] /\ t_base (PyModels.bt b (Val 0)) = lin_x sd bI [db]). unfold PyModels.bt. rewrite E0. exact Hx.
  - replace (3 * S k)%nat with (3 * k + 1 + 2)%nat by lia.
    assert (Q : nth_error (dl_nodes sd sI bI d db add addb n k) 2 = Some (lin_y sd sI [add], lin_y sd bI [addb])).
    { unfold dl_nodes, wid, widb, lin_nodes. destruct (Nat.eqb_spec k n); [lia|]. reflexivity. }
    pose proof (dl_isn (3 * k + 1 + 2) _ ltac:(lia) (lm_blk _ _ _ _ _ _ _ _ _ _ _ _ HB k _ _ ltac:(lia) Q)) as H. cbn [fst snd features] in *. destruct sd; exact H.
Qed.
Notation w k := (LinBuild.wid d add n k).
Notation wb k := (LinBuild.widb db addb n k).
Definition dl_layer (k : nat) : layer := linear_layer mreq sd NoTrans (3 * k) (3 * k + 3) (3 * k + 1) 1 (Some (3 * k + 2)%nat) k sI (K k) [w k].
Lemma dl_ok k : (k <= n)%nat -> linear_ok mreq sd NoTrans (3 * k) (3 * k + 3) (3 * k + 1) 1 (Some (3 * k + 2)%nat) sI (K k) [w k] bI (bK k) [wb k].
Proof.
  intros Hk.
  assert (Q : forall i tr, nth_error (dl_nodes sd sI bI d db add addb n k) i = Some tr -> isn (3 * k + 1 + i) (fst tr) (snd tr)).
  { intros i tr Hi. apply dl_isn; [lia|]. apply (lm_blk _ _ _ _ _ _ _ _ _ _ _ _ HB k); [lia|exact Hi]. }
  destruct (dl_in k Hk) as (X1 & X2 & X3). pose proof (Q 0%nat _ eq_refl) as (W1 & W2 & W3). pose proof (Q 1%nat _ eq_refl) as (B1 & B2 & B3). pose proof (Q 2%nat _ eq_refl) as (Y1 & Y2 & Y3). cbn [fst snd] in *.
  replace (3 * k + 1 + 0)%nat with (3 * k + 1)%nat in * by lia. replace (3 * k + 1 + 1)%nat with (3 * k + 2)%nat in * by lia. replace (3 * k + 1 + 2)%nat with (3 * k + 3)%nat in * by lia.
  assert (EK : zlen (K k) = 1%Z) by (destruct k; reflexivity).
  split.
  - split; [exact X1|split; [exact Y1|split; [exact W1|]]]. intros m Hm. injection Hm as <-. exact B1.
  - split; [apply mreq_S; lia|]. split; [lia|]. split; [lia|]. intros m Hm. injection Hm as <-. lia.
  - split; [exact EK|]. destruct k; reflexivity.
  - destruct sd; cbn [lin_x] in *; unfold op_dims; rewrite !app_nil_r; split; assumption.
  - destruct sd; cbn [lin_w] in *; split; assumption.
  - destruct sd; cbn [lin_y] in *; split; assumption.
  - split; [apply G|reflexivity].
  - intros m Hm. injection Hm as <-. split; [reflexivity|]. split; assumption.
Qed.
Lemma dl_value k P h vs : (k <= n)%nat -> (forall t f, inb sI t -> inb (K k) f -> at_ sd (vs 0%nat) t f = h t f) ->
  vs 1%nat = P (2 * k)%nat -> vs 2%nat = P (S (2 * k)) ->
  forall t i, inb sI t -> (0 <= i < w k)%Z -> at_ sd (lin_F sd NoTrans sI (K k) [w k] true vs) t [i] = affine sd [d] add true P k h t i.
Proof.
  intros Hk Hh Ew Eb t i Ht Hi. assert (Hi1 : inb [w k] [i]) by (repeat apply Forall2_cons; try assumption; apply Forall2_nil).
  unfold affine, at_ at 1. unfold lin_F. rewrite Ew, Eb. change (W_of true k) with (2 * k)%nat. f_equal.
  - unfold at_ in Hh. unfold weight. pose proof (proj1 (K_fit sI bI [d] [db] add addb d G k)) as KF'. destruct sd.
    + rewrite matmul_0 by assumption. apply Rsuml_ext. intros f Hf. apply all_idx_In in Hf; [|apply KF']. app_norm. rewrite Hh by assumption. reflexivity.
    + rewrite matmul_0 by assumption. apply Rsuml_ext. intros f Hf. apply all_idx_In in Hf; [|apply KF']. app_norm. rewrite Hh by assumption. cbn [app]. ring.
  - f_equal. unfold lin_axis. destruct sd.
    + assert (Hz : zlen sI = zlen t) by (first [exact (inb_zlen _ _ Ht)|exact (eq_sym (inb_zlen _ _ Ht))]). rewrite Hz. apply fib_L.
    + cbn [app]. apply fib_R.
Qed.
Lemma dl_run X P m : forall k N s h, (k + m <= S n)%nat -> has N s -> N (Val (3 * k)) = Some (fin h) ->
  (forall t f, inb sI t -> inb (if (k =? S n)%nat then [d] else K k) f -> at_ sd h t f = chain sd d add X P k t f) ->
  (forall j, (k <= j < k + m)%nat -> N (Val (3 * j + 1)) = Some (fin (P (2 * j)%nat)) /\ N (Val (3 * j + 2)) = Some (fin (P (S (2 * j))))) ->
  runs_nd (model_forward (map (fun j => ly_py (dl_layer j)) (seq k m))) s (fun s' => exists N' h', has N' s' /\ N' (Val (3 * (k + m))) = Some (fin h') /\
    (forall t f, inb sI t -> inb (if (k + m =? S n)%nat then [d] else K (k + m)) f -> at_ sd h' t f = chain sd d add X P (k + m) t f) /\
    forall z, (forall j, (k <= j < k + m)%nat -> z <> Val (3 * j + 3)) -> N' z = N z).
Proof.
  unfold model_forward. induction m as [|m IH]; intros k N s h Hk Hs H0 Hv HP; cbn [seq map].
  - apply py_nil. exists N, h. rewrite Nat.add_0_r. auto.
  - assert (Hkn : (k <= n)%nat) by lia. assert (NE : (k =? S n)%nat = false) by (apply Nat.eqb_neq; lia). rewrite NE in Hv.
    destruct (HP k ltac:(lia)) as [P1 P2].
    set (vs := fun j : nat => match j with O => h | 1%nat => P (2 * k)%nat | _ => P (S (2 * k)) end).
    eapply py_cons; [apply (linear_inf mreq sd NoTrans _ _ _ _ _ k _ _ _ _ _ _ (dl_ok k Hkn) vs N s Hs)|].
    { intros j Hj. change (j < 3)%nat in Hj. destruct j as [|[|[|j]]]; [exact H0|exact P1|exact P2|lia]. }
    intros s1 (N1 & S1 & V1 & F1). cbn [linear_layer ly_m ml_out ml_F] in V1, F1.
    eapply nd_weaken.
    { apply (IH (S k) N1 s1 (lin_F sd NoTrans sI (K k) [w k] true vs) ltac:(lia) S1).
      - replace (3 * S k)%nat with (3 * k + 3)%nat by lia. exact V1.
      - intros t f Ht Hf. cbn [chain]. assert (Ef : exists i, f = [i] /\ (0 <= i < w k)%Z).
        { unfold LinBuild.wid. change (S k =? S n)%nat with (k =? n)%nat in Hf. destruct (k =? n)%nat; cbn [features] in Hf; apply inb1_inv in Hf as (i & -> & Hi); exists i; auto. }
        destruct Ef as (i & -> & Hi). cbn [List.hd]. apply (dl_value k P (chain sd d add X P k) vs Hkn Hv eq_refl eq_refl t i Ht Hi).
      - intros j Hj. rewrite !F1 by (intros C; injection C; lia). apply HP. lia. }
    intros s2 _ (N2 & h2 & A1 & A2 & A3 & A4). exists N2, h2. replace (k + S m)%nat with (S k + m)%nat by lia. split; [exact A1|]. split; [exact A2|]. split; [exact A3|].
    intros z Hz. rewrite A4 by (intros j Hj; apply Hz; lia). apply F1. apply Hz. lia.
Qed.
End Fwd.

Lemma act_last b k l : b_acts b = k :: map dl_out (seq 0 (S l)) -> out_node b = (3 * l + 3)%nat.
Proof. intros E. unfold out_node. rewrite E, seq_map, app_comm_cons. apply last_last. Qed.
Notation dl_ps n := (flat_map (fun k => [(3 * k + 1)%nat; (3 * k + 2)%nat]) (seq 0 (S n))).
Lemma dl_ps_in n m : In m (dl_ps n) <-> exists k, (k <= n)%nat /\ (m = 3 * k + 1 \/ m = 3 * k + 2)%nat.
Proof.
  rewrite in_flat_map. split.
  - intros (k & Hk & Hm). apply in_seq in Hk. exists k. split; [lia|]. destruct Hm as [<-|[<-|[]]]; auto.
  - intros (k & Hk & Hm). exists k. split; [apply in_seq; lia|]. cbn [In]. destruct Hm as [->| ->]; auto.
Qed.
Lemma dl_ps_nodup n : NoDup (0%nat :: dl_ps n).
Proof.
  constructor; [rewrite dl_ps_in; intros (k & _ & H); lia|].
  assert (Q : forall k m, NoDup (flat_map (fun k => [(3 * k + 1)%nat; (3 * k + 2)%nat]) (seq k m)) /\ forall z, In z (flat_map (fun k => [(3 * k + 1)%nat; (3 * k + 2)%nat]) (seq k m)) -> (3 * k < z)%nat).
  { intros k m. revert k. induction m as [|m IH]; intros k; cbn [seq flat_map app]; [split; [constructor|intros ? []]|]. destruct (IH (S k)) as [I1 I2]. split.
    - constructor; [intros [C|C]; [lia|apply I2 in C; lia]|]. constructor; [intros C; apply I2 in C; lia|exact I1].
    - intros z [<-|[<-|Hz]]; [lia|lia|]. apply I2 in Hz. lia. }
  apply Q.
Qed.
Lemma dl_ps_nth n k : (k <= n)%nat -> nth (2 * k) (dl_ps n) O = (3 * k + 1)%nat /\ nth (S (2 * k)) (dl_ps n) O = (3 * k + 2)%nat /\ List.length (dl_ps n) = (2 * S n)%nat.
Proof.
  intros Hk. destruct (nth_blocks (fun k => [(3 * k + 1)%nat; (3 * k + 2)%nat]) 2 (fun _ => eq_refl) (S n)) as [L E].
  split; [|split]; [| |exact L].
  - specialize (E k 0%nat ltac:(lia) ltac:(lia)). rewrite Nat.add_0_r in E. exact E.
  - specialize (E k 1%nat ltac:(lia) ltac:(lia)). replace (S (2 * k)) with (2 * k + 1)%nat by lia. exact E.
Qed.

Section Final.
Variables (sd : side) (sI bI : list Z) (d db add addb : Z) (n : nat) (x : tensor) (lo : Z) (b : build).
Hypothesis G : rdims sI bI [d] [db] add addb d.
Hypothesis HB : lmade sd sI bI d db add addb n x lo (S n) b.
Hypothesis Hx : t_shape x = lin_x sd sI [d] /\ t_base x = lin_x sd bI [db].
Lemma dl_benv : benv_ok b [].
Proof. destruct (lm_inv _ _ _ _ _ _ _ _ _ _ _ _ HB) as [i1 i2 i3 i4 i5]. split; [exact i2|exact i4| |]; intros k; [|intros v t]; intros []. Qed.
Lemma dl_params : bm_params b = dl_ps n.
Proof. unfold bm_params. rewrite (lm_layers _ _ _ _ _ _ _ _ _ _ _ _ HB). generalize (seq 0 (S n)). intros l. induction l as [|k l IH]; [reflexivity|]. cbn [map flat_map ld_params dl_desc app]. rewrite IH. reflexivity. Qed.
Lemma dl_node m : (0 < m <= 3 * n + 3)%nat -> exists tr, hasn b m tr.
Proof.
  intros Hm. assert (Hj : exists j i, (j <= n)%nat /\ (i < 3)%nat /\ m = (3 * j + 1 + i)%nat).
  { exists ((m - 1) / 3)%nat, ((m - 1) mod 3)%nat. pose proof (Nat.div_mod (m - 1) 3 ltac:(lia)). pose proof (Nat.mod_upper_bound (m - 1) 3 ltac:(lia)). lia. }
  destruct Hj as (j & i & H1 & H2 & ->).
  destruct (nth_error (dl_nodes sd sI bI d db add addb n j) i) as [tr|] eqn:E; [|apply nth_error_None in E; cbn in E; lia].
  exists tr. apply (lm_blk _ _ _ _ _ _ _ _ _ _ _ _ HB j); [lia|exact E].
Qed.
Lemma dl_runs X P (s : store XR) : (forall v t, b_mem b v = Some t -> stored KF s t) ->
  (forall idx, inb (t_shape x) idx -> elem s x idx = Fin (X idx)) ->
  (forall j idx, (j < 2 * S n)%nat -> inb (t_shape (rpval b j)) idx -> elem s (rpval b j) idx = Fin (P j idx)) ->
  runs_nd (bm_forward mreq b) s (fun s' =>
    (forall t v, inb sI t -> (0 <= v < d)%Z ->
      elem s' (PyModels.bt b (Val (out_node b))) (match sd with SideL => t ++ [v] | SideR => v :: t end) = Fin (chain sd d add X P (S n) t [v])) /\
    (forall idx, inb (t_shape x) idx -> elem s' x idx = Fin (X idx)) /\ only_activations b s s').
Proof.
  intros HA HX HP.
  assert (EP : bm_forward mreq b = model_forward (map (fun j => ly_py (@dl_layer sd sI d add n b dl_benv s j)) (seq 0 (S n)))).
  { unfold bm_forward, bm_layers. rewrite (lm_layers _ _ _ _ _ _ _ _ _ _ _ _ HB). f_equal. generalize (S n) 0%nat. intros m. induction m as [|m IH]; intros k; [reflexivity|].
    cbn [seq map number]. rewrite IH. reflexivity. }
  rewrite EP. set (ps := dl_ps n). set (e := penv (0%nat :: ps) (xp X P)).
  set (N := fun z => match z with Val m => if in_dec Nat.eq_dec m (0%nat :: ps) then Some (fin (e m)) else Some (fun idx => elem s (PyModels.bt b z) idx) | _ => Some (fun idx => elem s (PyModels.bt b z) idx) end).
  assert (PD : NoDup (0%nat :: ps)) by exact (dl_ps_nodup n).
  assert (EB : bm_params b = ps) by exact dl_params.
  assert (PL : List.length ps = (2 * S n)%nat) by apply (dl_ps_nth n 0 ltac:(lia)).
  assert (E0 : PyModels.bt b (Val 0) = x) by (unfold PyModels.bt; rewrite (lm_x _ _ _ _ _ _ _ _ _ _ _ _ HB); reflexivity).
  assert (EN : forall z t, b_mem b z = Some t -> PyModels.bt b z = t) by (intros z t Ez; unfold PyModels.bt; rewrite Ez; reflexivity).
  assert (XV : forall m, In m (0%nat :: ps) -> forall idx, inb (t_shape (PyModels.bt b (Val m))) idx -> elem s (PyModels.bt b (Val m)) idx = Fin (e m idx)).
  { intros m [<-|Hm] idx Hi.
    - rewrite E0 in *. rewrite HX by assumption. reflexivity.
    - destruct (nth_index _ _ Hm) as [I1 I2]. rewrite PL in I2. specialize (HP _ idx I2). unfold rpval in HP. rewrite EB, I1 in HP. rewrite HP by assumption.
      unfold e, penv. cbn [index]. destruct (Nat.eq_dec 0%nat m) as [<-|_]; [inversion PD; contradiction|reflexivity]. }
  assert (HN : @has (kenv b dl_benv s) N s).
  { split; [intros k _; reflexivity|]. intros z Uz. destruct (bU_inv b z Uz) as (t & Et & Eb).
    split; [change (stored KF s (PyModels.bt b z)); rewrite Eb; exact (HA z t Et)|]. intros f Hf idx Hi. change (inb (t_shape (PyModels.bt b z)) idx) in Hi. change (elem s (PyModels.bt b z) idx = f idx).
    unfold N in Hf. destruct z as [m|m|k i]; [|injection Hf as <-; reflexivity..]. destruct (in_dec Nat.eq_dec m (0%nat :: ps)) as [Hm|]; injection Hf as <-; [|reflexivity]. exact (XV m Hm idx Hi). }
  assert (N0 : N (Val (3 * 0)) = Some (fin X)).
  { unfold N. change (3 * 0)%nat with 0%nat. destruct (in_dec Nat.eq_dec 0%nat (0%nat :: ps)) as [|C]; [reflexivity|exfalso; apply C; left; reflexivity]. }
  assert (NP : forall j i, (i < 2)%nat -> (j <= n)%nat -> N (Val (3 * j + 1 + i)) = Some (fin (P (2 * j + i)%nat))).
  { intros j i Hi Hj. destruct (dl_ps_nth n j Hj) as (Q1 & Q2 & _). fold ps in Q1, Q2.
    assert (Q : nth (2 * j + i) ps O = (3 * j + 1 + i)%nat) by (destruct i as [|[|i]]; [rewrite !Nat.add_0_r; exact Q1|replace (2 * j + 1)%nat with (S (2 * j)) by lia; rewrite Q2; lia|lia]).
    assert (Hin : In (3 * j + 1 + i)%nat ps) by (rewrite <- Q; apply nth_In; rewrite PL; lia).
    unfold N. destruct (in_dec Nat.eq_dec (3 * j + 1 + i)%nat (0%nat :: ps)) as [_|C]; [|exfalso; apply C; right; exact Hin].
    do 2 f_equal. unfold e, penv. rewrite <- Q. change (nth (2 * j + i) ps O) with (nth (S (2 * j + i)) (0%nat :: ps) O). rewrite index_nth; [reflexivity|exact PD|cbn [List.length]; rewrite PL; lia]. }
  eapply nd_weaken.
  { apply (dl_run sd sI bI d db add addb n x lo b G HB Hx dl_benv s X P (S n) 0 N s X ltac:(lia) HN N0).
    - intros t f Ht Hf. reflexivity.
    - intros j Hj. pose proof (NP j 0%nat ltac:(lia) ltac:(lia)) as Q1. pose proof (NP j 1%nat ltac:(lia) ltac:(lia)) as Q2. rewrite !Nat.add_0_r in Q1.
      replace (3 * j + 1 + 1)%nat with (3 * j + 2)%nat in Q2 by lia. replace (2 * j + 1)%nat with (S (2 * j)) in Q2 by lia. split; assumption. }
  intros s' _ (N' & h' & HN' & HO & HVal & HF). cbn [Nat.add] in HO, HVal. rewrite Nat.eqb_refl in HVal.
  destruct HN' as [HKk HV].
  assert (RV : forall m f, bU b (Val m) -> N' (Val m) = Some f -> forall idx, inb (t_shape (PyModels.bt b (Val m))) idx -> elem s' (PyModels.bt b (Val m)) idx = f idx).
  { intros m f Um Ef idx Hi. destruct (HV (Val m) Um) as [_ HV']. exact (HV' f Ef idx Hi). }
  split; [|split; [|split]].
  - intros t v Ht Hv. rewrite (act_last b _ n (lm_acts _ _ _ _ _ _ _ _ _ _ _ _ HB)). replace (3 * n + 3)%nat with (3 * S n)%nat by lia.
    assert (Q : nth_error (dl_nodes sd sI bI d db add addb n n) 2 = Some (lin_y sd sI [d], lin_y sd bI [db])).
    { unfold dl_nodes, LinBuild.wid, LinBuild.widb, lin_nodes. rewrite Nat.eqb_refl. reflexivity. }
    destruct (lm_blk _ _ _ _ _ _ _ _ _ _ _ _ HB n _ _ ltac:(lia) Q) as [(u & U1 & U2 & _) _]. replace (3 * n + 1 + 2)%nat with (3 * S n)%nat in U1 by lia. cbn [fst] in U2.
    assert (Uo : bU b (Val (3 * S n))) by (unfold bU; rewrite U1; discriminate).
    rewrite (RV (3 * S n)%nat _ Uo HO).
    + unfold fin. f_equal. assert (Hv1 : inb [d] [v]) by (constructor; [exact Hv|constructor]). rewrite <- (HVal t [v] Ht Hv1). unfold at_. clear. destruct sd; reflexivity.
    + rewrite (EN _ _ U1), U2. assert (Hv1 : inb [d] [v]) by (constructor; [exact Hv|constructor]). clear - Ht Hv1. destruct sd; cbn [lin_y]; [apply Forall2_app; assumption|apply (Forall2_app Hv1 Ht)].
  - intros idx Hi. rewrite <- E0 in Hi |- *.
    assert (U0 : bU b (Val 0)) by (unfold bU; rewrite (lm_x _ _ _ _ _ _ _ _ _ _ _ _ HB); discriminate).
    rewrite (RV 0%nat (fin X) U0); [reflexivity| |exact Hi].
    rewrite HF; [exact N0|]. intros m Hm C. injection C. lia.
  - intros z t idx Ez Ha Hi. assert (Uz : bU b z) by (unfold bU; congruence). destruct (HV z Uz) as [_ HV']. rewrite <- (EN z t Ez) in *.
    rewrite (lm_acts _ _ _ _ _ _ _ _ _ _ _ _ HB) in Ha.
    assert (Fz : N' z = N z) by (apply HF; intros m Hm; apply Ha; right; apply in_map_iff; exists m; split; [reflexivity|apply in_seq; lia]).
    assert (Nz : exists f, N z = Some f /\ forall idx, inb (t_shape (PyModels.bt b z)) idx -> elem s (PyModels.bt b z) idx = f idx).
    { unfold N. destruct z as [m|m|k i]; [|eexists; split; [reflexivity|reflexivity]..]. destruct (in_dec Nat.eq_dec m (0%nat :: ps)) as [Hm|]; eexists; (split; [reflexivity|]); [exact (XV m Hm)|reflexivity]. }
    destruct Nz as (f & Ef & Vf). rewrite Ef in Fz. rewrite (Vf idx Hi). exact (HV' f Fz idx Hi).
  - exact HKk.
Qed.
End Final.

(** ** C75 *)
Theorem C75_deep_linear_forward sd sI bI d db add addb n x next :
  rdims sI bI [d] [db] add addb d -> (0 < n)%nat -> wf_tensor x -> tens x (lin_x sd sI [d]) (lin_x sd bI [db]) -> (forall k, In k (tile_handles x) -> (k < next)%Z) ->
  exists b, deep_linear sd 1 add addb (S n) (input_build x None next) = Ok b /\
    map (fun m => t_shape (PyModels.bt b (Val m))) (bm_params b) = relu_shapes sd [d] add true n d /\
    t_shape (PyModels.bt b (Val (out_node b))) = t_shape x /\ t_base (PyModels.bt b (Val (out_node b))) = t_base x /\
    forall X P s, (forall v t, b_mem b v = Some t -> stored KF s t) ->
      (forall idx, inb (t_shape x) idx -> elem s x idx = Fin (X idx)) ->
      (forall j idx, (j < List.length (bm_params b))%nat -> inb (t_shape (rpval b j)) idx -> elem s (rpval b j) idx = Fin (P j idx)) ->
      runs_nd (bm_forward mreq b) s (fun s' =>
        (forall t v, inb sI t -> (0 <= v < d)%Z ->
          elem s' (PyModels.bt b (Val (out_node b))) (match sd with SideL => t ++ [v] | SideR => v :: t end) = Fin (chain sd d add X P (S n) t [v])) /\
        (forall idx, inb (t_shape x) idx -> elem s' x idx = Fin (X idx)) /\ only_activations b s s').
Proof.
  intros HG Hn Wx Tx Hh. destruct (low_handles x next Hh) as (lo & Hlo & Hr).
  assert (Hdb : (0 < db)%Z) by (destruct HG as [_ (_ & _ & F) _ _ _]; inversion F; assumption).
  pose proof (deep_linear_ok sd sI bI d db add addb n HG Hdb x lo next Hn Wx Tx Hlo Hr) as H1. unfold okp in H1.
  destruct (deep_linear sd 1 add addb (S n) (input_build x None next)) as [b| |]; try contradiction. destruct H1 as [H1 _].
  assert (HBk := lm_blk _ _ _ _ _ _ _ _ _ _ _ _ H1). destruct Tx as (T1 & T2 & _).
  assert (Q : nth_error (dl_nodes sd sI bI d db add addb n n) 2 = Some (lin_y sd sI [d], lin_y sd bI [db])).
  { unfold dl_nodes, LinBuild.wid, LinBuild.widb, lin_nodes. rewrite Nat.eqb_refl. reflexivity. }
  destruct (HBk n _ _ ltac:(lia) Q) as [(u & U1 & U2 & U3 & _) _]. cbn [fst snd] in U2, U3. replace (3 * n + 1 + 2)%nat with (3 * n + 3)%nat in U1 by lia.
  assert (Eo : PyModels.bt b (Val (out_node b)) = u) by (rewrite (act_last b _ n (lm_acts _ _ _ _ _ _ _ _ _ _ _ _ H1)); unfold PyModels.bt; rewrite U1; reflexivity).
  exists b. split; [reflexivity|]. split; [|split; [|split]].
  - rewrite (dl_params sd sI bI d db add addb n x lo b H1). unfold relu_shapes. cbv zeta.
    assert (Hs : forall k, In k (seq 0 (S n)) -> (k <= n)%nat) by (intros k Hk; apply in_seq in Hk; lia). revert Hs. generalize (seq 0 (S n)). intros l Hs.
    induction l as [|k l IH]; [reflexivity|]. cbn [flat_map app map]. specialize (Hs k (or_introl eq_refl)) as Hk. rewrite IH by (intros j Hj; apply Hs; right; exact Hj).
    destruct (HBk k 0%nat _ ltac:(lia) eq_refl) as [(w & W1 & W2 & _) _]. destruct (HBk k 1%nat _ ltac:(lia) eq_refl) as [(v & V1 & V2 & _) _]. cbn [fst] in W2, V2.
    rewrite Nat.add_0_r in W1. replace (3 * k + 1 + 1)%nat with (3 * k + 2)%nat in V1 by lia.
    unfold PyModels.bt at 1 2. rewrite W1, V1, W2, V2. unfold LinBuild.wid. destruct sd; reflexivity.
  - rewrite Eo, U2, T1. destruct sd; reflexivity.
  - rewrite Eo, U3, T2. destruct sd; reflexivity.
  - intros X P s HA HX HP. apply (dl_runs sd sI bI d db add addb n x lo b HG H1 (conj T1 T2) X P s HA HX).
    intros j idx Hj. apply HP. rewrite (dl_params sd sI bI d db add addb n x lo b H1). destruct (dl_ps_nth n 0 ltac:(lia)) as (_ & _ & L). rewrite L. exact Hj.
Qed.
