(** * C77: DeepLinear: one step of backpropagation with the Frobenius loss *)
From Coq Require Import Reals Lra FunctionalExtensionality Sorted.
From Coquelicot Require Import Coquelicot.
From Verif Require Import Base Spec Geometry Traits TraitsProofs Runtime Ops RealOps TensorSem ElemGeneric OneOut ElemOps PropElem Nrm2Proofs Concrete Axis SliceGeo Sequence XReals NdRuns AnyRuns Serial2 FiberGeo MatOps RSum MatProofs GemmProofs AttMath XTriples HasRuns TapeMath VjpMath Tape PyLayers PyLinear PySimple PyNorm Backprop Frob PropModel PyModels BuildEnv GptBuild BuildModel GptModel GptRun PropGpt MixModel ReluSpec ReluBuild ReluModel PropRelu PropInfer InferTrain InferTrain LinBuild PropDeepLinear.
Local Close Scope R_scope.
Local Open Scope list_scope.
Local Open Scope Z_scope.

(** ** The loss: frob.py:41-56 (generate_simple); the tags are not modelled.  With [l] the number of layers, the target y is
    [Tmp l 1], the value [Tmp l 0], its square root [Tmp l 2], tmp [Tmp l 3]. *)
Definition gen_frob (o : nat) (b : build) : res build :=
  let sh := bshape b o in let ba := bbase b o in let d := fun _ : TensorTraits => bdistr b o in
  b <- alloc (Tmp (lid b) 1) sh ba d b ;;
  b <- alloc (Tmp (lid b) 0) [] [] (fun _ => [0]) b ;;
  b <- alloc (Tmp (lid b) 2) [] [] (fun _ => [0]) b ;;
  alloc (Tmp (lid b) 3) (gridZ sh ba) (map (fun _ => 1) sh) d b.

Lemma grid1 (g sh : list Z) : List.length g = List.length sh -> gridZ g (map (fun _ => 1) sh) = g.
Proof.
  revert sh. induction g as [|x g IH]; intros [|y sh] H; try discriminate; [reflexivity|]. cbn [map].
  change (gridZ (x :: g) (1 :: map (fun _ => 1) sh)) with ((x + 1 - 1) / 1 :: gridZ g (map (fun _ => 1) sh)).
  rewrite IH by (cbn in H; lia). rewrite Z.div_1_r. f_equal. lia.
Qed.
Lemma grid_len (sh ba : list Z) : List.length sh = List.length ba -> List.length (gridZ sh ba) = List.length sh.
Proof.
  revert ba. induction sh as [|x sh IH]; intros [|y ba] H; try discriminate; [reflexivity|].
  change (gridZ (x :: sh) (y :: ba)) with ((x + y - 1) / y :: gridZ sh ba). cbn [List.length] in *. rewrite IH by lia. reflexivity.
Qed.
Lemma gen_frob_ok lo o sh ba b : binv lo b -> tfree (lid b) b -> hast b (Val o) sh ba -> fit sh ba ->
  okp (gen_frob o b) (fun b' => binv lo b' /\ ext b b' /\ b_n b' = b_n b /\ b_layers b' = b_layers b /\ b_acts b' = b_acts b /\
    hast b' (Tmp (lid b) 1) sh ba /\ hast b' (Tmp (lid b) 0) [] [] /\ hast b' (Tmp (lid b) 2) [] [] /\
    hast b' (Tmp (lid b) 3) (gridZ sh ba) (map (fun _ => 1) sh)).
Proof.
  intros [i1 i2 i3 i4 i5] Ht Ho Hf. destruct (hast_shape _ _ _ _ Ho) as (E1 & E2 & E3). unfold gen_frob. rewrite E1, E2. cbv zeta.
  assert (Hf' := Hf). destruct Hf' as (F1 & F2 & F3).
  assert (F0 : fit [] []) by (split; [reflexivity|split; constructor]).
  assert (FL : List.length sh = List.length ba) by (unfold zlen in F1; lia).
  assert (GL := grid_len sh ba FL). assert (G1 := grid1 (gridZ sh ba) sh GL).
  assert (FG : fit (gridZ sh ba) (map (fun _ => 1) sh)).
  { split; [unfold zlen; rewrite map_length, GL; reflexivity|]. split; [apply gridZ_pos; assumption|]. apply Forall_map, Forall_forall. intros; lia. }
  eapply okp_bind; [apply (alloc_ok lo (Tmp (lid b) 1) sh ba (fun _ => bdistr b o) b); try assumption; apply Ht; lia|].
  intros b2 ([a2 w2 r2 d2 e2 o2 n2 l2 c2 nw2 m2] & T2). assert (L2 : lid b2 = lid b) by (unfold lid in *; rewrite l2; reflexivity). rewrite L2.
  eapply okp_bind.
  { apply (alloc_ok lo (Tmp (lid b) 0) [] [] (fun _ => [0]) b2); try assumption; [|reflexivity]. rewrite o2 by congruence. apply Ht. lia. }
  intros b3 ([a3 w3 r3 d3 e3 o3 n3 l3 c3 nw3 m3] & T3). assert (L3 : lid b3 = lid b) by (unfold lid in *; rewrite l3; assumption). rewrite L3.
  eapply okp_bind.
  { apply (alloc_ok lo (Tmp (lid b) 2) [] [] (fun _ => [0]) b3); try assumption; [|reflexivity]. rewrite o3, o2 by congruence. apply Ht. lia. }
  intros b4 ([a4 w4 r4 d4 e4 o4 n4 l4 c4 nw4 m4] & T4). assert (L4 : lid b4 = lid b) by (unfold lid in *; rewrite l4; assumption). rewrite L4.
  eapply okp_weaken.
  { apply (alloc_ok lo (Tmp (lid b) 3) (gridZ sh ba) (map (fun _ => 1) sh) (fun _ => bdistr b o) b4); try assumption; [|rewrite G1; exact E3].
    rewrite o4, o3, o2 by congruence. apply Ht. lia. }
  intros b5 ([a5 w5 r5 d5 e5 o5 n5 l5 c5 nw5 m5] & T5).
  split; [|split; [|split; [|split; [|split; [|split; [|split; [|split]]]]]]].
  - split; try assumption. intros k Hk. rewrite !o5, !o4, !o3, !o2 by congruence. apply i5. rewrite <- n2, <- n3, <- n4, <- n5. assumption.
  - intros x t Hx. apply e5, e4, e3, e2. assumption.
  - congruence.
  - congruence.
  - congruence.
  - eapply hast_ext; [exact e5|]. eapply hast_ext; [exact e4|]. eapply hast_ext; [exact e3|exact T2].
  - eapply hast_ext; [exact e5|]. eapply hast_ext; [exact e4|exact T3].
  - eapply hast_ext; [exact e5|exact T4].
  - exact T5.
Qed.

Local Close Scope Z_scope.
Local Open Scope R_scope.
(** ** Specification *)
(** the output of the chain of [n] affine maps as a tensor: features last (SideL) or first (SideR) *)
Definition chain_out (sd : side) (d add : Z) (n : nat) (X : arr) (P : nat -> arr) (idx : list Z) : R :=
  match sd with
  | SideL => chain sd d add X P n (removelast idx) [List.last idx 0%Z]
  | SideR => chain sd d add X P n (List.tl idx) [@List.hd Z 0%Z idx]
  end.
(** half of the sum of squared differences to the target *)
Definition half_squares (sh : list Z) (out tgt : arr) : R := / 2 * Rsuml (all_idx sh) (fun idx => (out idx - tgt idx) * (out idx - tgt idx)).
(** the gradient of parameter [j] *)
Definition rpgrad (b : build) (j : nat) : tensor := PyModels.bt b (Grad (nth j (bm_params b) O)).

Section Step.
Variables (sd : side) (sI bI : list Z) (d db add addb : Z) (n : nat) (x : tensor) (lo : Z) (b : build).
Hypothesis G : rdims sI bI [d] [db] add addb d.
Hypothesis HB : lmade sd sI bI d db add addb n x lo (S n) b.
Hypothesis Hx : t_shape x = lin_x sd sI [d] /\ t_base x = lin_x sd bI [db].
Hypothesis HE : benv_ok b [].
Notation ysh := (lin_y sd sI [d]).
Notation yba := (lin_y sd bI [db]).
Hypothesis Ty : hast b (Tmp (S n) 1) ysh yba.
Hypothesis Tv : hast b (Tmp (S n) 0) [] [].
Hypothesis Tq : hast b (Tmp (S n) 2) [] [].
Hypothesis Tt : hast b (Tmp (S n) 3) (gridZ ysh yba) (map (fun _ => 1%Z) ysh).
Variable s0 : store XR.
Local Instance SEnv : env := kenv b HE s0.
Notation ps := (flat_map (fun k => [(3 * k + 1)%nat; (3 * k + 2)%nat]) (seq 0 (S n))).
Notation dlay k := (dl_layer sd sI d add n b HE s0 k).
Definition dls : list layer := map (fun k => dlay k) (seq 0 (S n)).
Notation dms := (map ly_m dls).
Lemma s_outs : outs dms = map dl_out (seq 0 (S n)).
Proof. unfold outs, dls. rewrite !map_map. reflexivity. Qed.
Lemma in_souts m : In m (outs dms) <-> exists k, (k <= n)%nat /\ m = (3 * k + 3)%nat.
Proof.
  rewrite s_outs, in_map_iff. split.
  - intros (k & <- & Hk). apply in_seq in Hk. exists k. split; [lia|reflexivity].
  - intros (k & Hk & ->). exists k. split; [reflexivity|apply in_seq; lia].
Qed.
Lemma in_dls l : In l dls <-> exists k, (k <= n)%nat /\ l = dlay k.
Proof.
  unfold dls. rewrite in_map_iff. split.
  - intros (k & <- & Hk). apply in_seq in Hk. exists k. split; [lia|reflexivity].
  - intros (k & Hk & ->). exists k. split; [reflexivity|apply in_seq; lia].
Qed.
Lemma s_leaf m : In m (0%nat :: ps) -> ~ In m (outs dms).
Proof.
  intros Hm C. apply in_souts in C as (k & Hk & ->). destruct Hm as [C|Hm]; [lia|]. apply dl_ps_in in Hm as (j & Hj & C). lia.
Qed.
Lemma s_sorted : StronglySorted lt (outs dms).
Proof.
  rewrite s_outs. generalize 0%nat as a. generalize (S n) as m. induction m as [|m IH]; intros a; [constructor|]. cbn [seq map]. constructor; [apply IH|].
  apply Forall_forall. intros y Hy. apply in_map_iff in Hy as (k & <- & Hk). apply in_seq in Hk. unfold dl_out. lia.
Qed.
Lemma s_ordered : ordered dms (0%nat :: ps).
Proof.
  apply ordered_sorted; [exact s_sorted| |exact s_leaf].
  intros l i Hl Hi. apply in_map_iff in Hl as (ll & <- & Hl). apply in_dls in Hl as (k & Hk & ->).
  cbn [dl_layer ly_m linear_layer ml_ins ml_out opt_list] in Hi |- *. destruct Hi as [<-|[<-|[<-|[]]]].
  - destruct k as [|k]; [left; left; reflexivity|]. right. split; [|lia]. apply in_souts. exists k. split; lia.
  - left. right. apply dl_ps_in. exists k. auto.
  - left. right. apply dl_ps_in. exists k. auto.
Qed.
Lemma s_node m : (m <= 3 * n + 3)%nat -> node_ok mreq m.
Proof.
  intros Hm. destruct m as [|m].
  - apply (dl_in sd sI bI d db add addb n x lo b HB Hx HE s0 0). lia.
  - destruct (dl_node sd sI bI d db add addb n x lo b HB (S m) ltac:(lia)) as (tr & H). apply (dl_isn b HE s0 (S m) tr ltac:(lia) H).
Qed.
Lemma s_ids : map ly_id dls = seq 0 (S n).
Proof. unfold dls. rewrite map_map. cbn [dl_layer linear_layer ly_id]. apply map_id. Qed.
Lemma s_model : model_ok mreq dls (0%nat :: ps) (3 * n + 3) (S n).
Proof.
  split.
  - apply Forall_forall. intros l Hl. apply in_dls in Hl as (k & Hk & ->). pose proof (dl_ok sd sI bI d db add addb n x lo b G HB Hx HE s0 k Hk) as O.
    split; [eapply linear_layer_ok; exact O|eapply linear_vjp; exact O].
  - rewrite s_ids. constructor; [rewrite in_seq; lia|apply seq_NoDup].
  - exact s_ordered.
  - exact (dl_ps_nodup n).
  - apply in_souts. exists n. split; lia.
  - intros m Hm. apply s_node. apply in_app_or in Hm as [Hm|[<-|Hm]]; [apply in_souts in Hm as (k & Hk & ->); lia|lia|apply dl_ps_in in Hm as (k & Hk & Hm); lia].
Qed.
Lemma s_out : hast b (Val (3 * n + 3)) ysh yba.
Proof.
  assert (Q : nth_error (dl_nodes sd sI bI d db add addb n n) 2 = Some (ysh, yba)).
  { unfold dl_nodes, LinBuild.wid, LinBuild.widb, lin_nodes. rewrite Nat.eqb_refl. reflexivity. }
  destruct (lm_blk _ _ _ _ _ _ _ _ _ _ _ _ HB n _ _ ltac:(lia) Q) as [H1 _]. replace (3 * n + 1 + 2)%nat with (3 * n + 3)%nat in H1 by lia. exact H1.
Qed.
Lemma s_frob : frob_ok mreq (3 * n + 3) (S n).
Proof.
  destruct (hast_U _ _ _ _ s_out) as (_ & S1 & B1). destruct (hast_U _ _ _ _ Ty) as (U2 & S2 & B2). destruct (hast_U _ _ _ _ Tv) as (U3 & S3 & B3).
  destruct (hast_U _ _ _ _ Tq) as (U4 & S4 & B4). destruct (hast_U _ _ _ _ Tt) as (U5 & S5 & B5).
  split.
  - apply s_node. lia.
  - apply mreq_S. lia.
  - intros [|[|[|[|i]]]] Hi; [exact U3|exact U2|exact U4|exact U5|lia].
  - split; [exact (eq_trans S1 (eq_sym S2))|exact (eq_trans B1 (eq_sym B2))].
  - exact S3.
  - split; [exact S4|]. split.
    + change (t_shape (PyModels.bt b (Tmp (S n) 3)) = gridZ (t_shape (PyModels.bt b (Val (3 * n + 3)))) (t_base (PyModels.bt b (Val (3 * n + 3))))). rewrite S5, S1, B1. reflexivity.
    + change (Forall (fun b0 => b0 = 1%Z) (t_base (PyModels.bt b (Tmp (S n) 3)))). rewrite B5. apply Forall_map, Forall_forall. reflexivity.
Qed.
Lemma s_dom e : dom dms e.
Proof. unfold dls. rewrite map_map. generalize (seq 0 (S n)). intros l. revert e. induction l as [|k l IH]; intros e; [exact Logic.I|]. split; [exact Logic.I|apply IH]. Qed.
Lemma s_reads : Forall reads_inputs dms.
Proof. rewrite Forall_forall. intros l Hl. apply in_map_iff in Hl as (ll & <- & Hl). apply in_dls in Hl as (k & Hk & ->). apply linear_reads. Qed.

Section Vals.
Variables (X : arr) (P : nat -> arr).
Notation sval := (eval dms (penv (0%nat :: ps) (xp X P))).
Lemma s_ps_len : List.length ps = (2 * S n)%nat.
Proof. apply (dl_ps_nth n 0 ltac:(lia)). Qed.
Lemma s_val_leaf j : (j < S (2 * S n))%nat -> sval (nth j (0%nat :: ps) O) = xp X P j.
Proof.
  intros Hj. assert (Hl : (j < List.length (0%nat :: ps))%nat) by (cbn [List.length]; rewrite s_ps_len; exact Hj).
  rewrite eval_other by (apply s_leaf, nth_In; exact Hl). unfold penv. rewrite index_nth; [reflexivity|apply dl_ps_nodup|exact Hl].
Qed.
Lemma s_chain k : (k <= S n)%nat -> forall t f, inb sI t -> inb (if (k =? S n)%nat then [d] else features [d] add k) f -> at_ sd (sval (3 * k)%nat) t f = chain sd d add X P k t f.
Proof.
  induction k as [|k IH]; intros Hk t f Ht Hf.
  - change (3 * 0)%nat with (nth 0 (0%nat :: ps) O). rewrite s_val_leaf by lia. reflexivity.
  - assert (Hkn : (k <= n)%nat) by lia. assert (NE : (k =? S n)%nat = false) by (apply Nat.eqb_neq; lia). rewrite NE in IH.
    replace (3 * S k)%nat with (ml_out (ly_m (dlay k))) by (cbn [dl_layer ly_m linear_layer ml_out]; lia).
    rewrite (eval_fix _ _ _ s_ordered s_reads) by (apply in_map, in_dls; exists k; auto).
    assert (Ef : exists i, f = [i] /\ (0 <= i < LinBuild.wid d add n k)%Z).
    { unfold LinBuild.wid. change (S k =? S n)%nat with (k =? n)%nat in Hf. destruct (k =? n)%nat; cbn [features] in Hf; apply inb1_inv in Hf as (i & -> & Hi); exists i; auto. }
    destruct Ef as (i & -> & Hi). cbn [chain List.hd dl_layer ly_m linear_layer ml_F].
    destruct (dl_ps_nth n k Hkn) as (Q1 & Q2 & _).
    apply (dl_value sd sI bI d db add addb n x lo b G HB Hx k P (chain sd d add X P k) _ Hkn); try assumption.
    + exact (IH ltac:(lia)).
    + unfold args, inp. cbn [nth ml_ins ly_m dl_layer linear_layer opt_list]. rewrite <- Q1. change (nth (2 * k) ps O) with (nth (S (2 * k)) (0%nat :: ps) O). rewrite s_val_leaf by lia. reflexivity.
    + unfold args, inp. cbn [nth ml_ins ly_m dl_layer linear_layer opt_list]. rewrite <- Q2. change (nth (S (2 * k)) ps O) with (nth (S (S (2 * k))) (0%nat :: ps) O). rewrite s_val_leaf by lia. reflexivity.
Qed.
Lemma s_chain_out idx : inb ysh idx -> sval (3 * n + 3)%nat idx = chain_out sd d add (S n) X P idx.
Proof.
  intros Hi. assert (HC := s_chain (S n) ltac:(lia)). rewrite Nat.eqb_refl in HC. replace (3 * S n)%nat with (3 * n + 3)%nat in HC by lia.
  destruct (y_split sd sI d idx Hi) as (t & i & -> & Ht & Hv). assert (Hv1 : inb [d] [i]) by (constructor; [exact Hv|constructor]).
  specialize (HC t [i] Ht Hv1). unfold at_ in HC. unfold chain_out. revert HC. generalize sval. intros v HC. clear - HC. destruct sd.
  - rewrite removelast_last, last_last. exact HC.
  - exact HC.
Qed.
Lemma s_loss tgt : / 2 * Rsuml (all_idx ysh) (fun idx => (sval (3 * n + 3)%nat idx - tgt idx) * (sval (3 * n + 3)%nat idx - tgt idx)) = half_squares ysh (chain_out sd d add (S n) X P) tgt.
Proof.
  unfold half_squares. f_equal. apply Rsuml_ext. intros idx Hi. apply all_idx_In in Hi; [rewrite s_chain_out by exact Hi; reflexivity|].
  destruct (lm_inv _ _ _ _ _ _ _ _ _ _ _ _ HB) as [_ W _ _ _]. destruct s_out as (t & E1 & E2 & _). rewrite <- E2. apply wf_ps, wf_wft. exact (W _ _ E1).
Qed.
End Vals.
End Step.

(** The step: clear the gradients of activations, forward, the loss, backward: pipeline.py:54-68, what it does
    for a minibatch with base_model.py:62-65 (clear_activations_grads), frob.py:58-75 (calc_async). *)
Definition frob_step (b : build) : res (list (task XR)) :=
  let l := lid b in
  pyseq [bm_clear_activations mreq b; bm_forward mreq b;
         frob_calc (bmom mreq b (out_node b)) (PyModels.bt b (Tmp l 1)) (PyModels.bt b (Tmp l 0)) (PyModels.bt b (Tmp l 2)) (PyModels.bt b (Tmp l 3));
         bm_backward mreq b].

(** ** C77 *)
Theorem C77_deep_linear_step sd sI bI d db add addb n x next :
  rdims sI bI [d] [db] add addb d -> (0 < n)%nat -> wf_tensor x -> tens x (lin_x sd sI [d]) (lin_x sd bI [db]) -> (forall k, In k (tile_handles x) -> (k < next)%Z) ->
  exists b0 b, deep_linear sd 1 add addb (S n) (input_build x None next) = Ok b0 /\ gen_frob (out_node b0) b0 = Ok b /\
    let y := PyModels.bt b (Tmp (S n) 1) in let val := PyModels.bt b (Tmp (S n) 0) in let out := PyModels.bt b (Val (out_node b)) in
    lid b = S n /\ t_shape y = t_shape out /\ t_shape val = [] /\ t_shape out = lin_y sd sI [d] /\ List.length (bm_params b) = (2 * S n)%nat /\
    forall X P Q tgt s, (forall v t, b_mem b v = Some t -> stored KF s t) ->
      (forall idx, inb (t_shape x) idx -> elem s x idx = Fin (X idx)) ->
      (forall j idx, (j < List.length (bm_params b))%nat -> inb (t_shape (rpval b j)) idx -> elem s (rpval b j) idx = Fin (P j idx)) ->
      (forall j idx, (j < List.length (bm_params b))%nat -> inb (t_shape (rpgrad b j)) idx -> elem s (rpgrad b j) idx = Fin (Q j idx)) ->
      (forall idx, inb (t_shape y) idx -> elem s y idx = Fin (tgt idx)) ->
      runs_nd (frob_step b) s (fun s' =>
        (forall idx, inb (t_shape out) idx -> elem s' out idx = Fin (chain_out sd d add (S n) X P idx)) /\
        elem s' val [] = Fin (half_squares (t_shape out) (chain_out sd d add (S n) X P) tgt) /\
        (forall idx, inb (t_shape x) idx -> elem s' x idx = Fin (X idx)) /\
        (forall j idx, (j < List.length (bm_params b))%nat -> inb (t_shape (rpval b j)) idx ->
           elem s' (rpval b j) idx = Fin (P j idx) /\
           exists g, elem s' (rpgrad b j) idx = Fin g /\
             is_derive (fun z => half_squares (t_shape out) (chain_out sd d add (S n) X (vary P j idx z)) tgt) (P j idx) (g - Q j idx))).
Proof.
  intros HG Hn Wx Tx Hh. destruct (low_handles x next Hh) as (lo & Hlo & Hr).
  assert (Hdb : (0 < db)%Z) by (destruct HG as [_ (_ & _ & F) _ _ _]; inversion F; assumption).
  pose proof (deep_linear_ok sd sI bI d db add addb n HG Hdb x lo next Hn Wx Tx Hlo Hr) as H1. unfold okp in H1.
  destruct (deep_linear sd 1 add addb (S n) (input_build x None next)) as [b0| |]; try contradiction. destruct H1 as [H0 HF].
  assert (O0 : out_node b0 = (3 * n + 3)%nat) by exact (act_last b0 _ n (lm_acts _ _ _ _ _ _ _ _ _ _ _ _ H0)).
  assert (L0 : lid b0 = S n) by (unfold lid; rewrite (lm_layers _ _ _ _ _ _ _ _ _ _ _ _ H0), map_length, seq_length; reflexivity).
  assert (So := s_out sd sI bI d db add addb n x lo b0 H0).
  assert (Fy : fit (lin_y sd sI [d]) (lin_y sd bI [db])).
  { destruct HG as [(G1 & G2 & G3) (G4 & G5 & G6) _ _ _]. clear - G1 G2 G3 G4 G5 G6. unfold fit, zlen in *. destruct sd; cbn [lin_y]; rewrite !app_length; (split; [lia|split; apply Forall_app; split; assumption]). }
  pose proof (gen_frob_ok lo (out_node b0) _ _ b0 (lm_inv _ _ _ _ _ _ _ _ _ _ _ _ H0) HF ltac:(rewrite O0; exact So) Fy) as H2. unfold okp in H2.
  destruct (gen_frob (out_node b0) b0) as [b| |] eqn:EF; try contradiction. destruct H2 as (I1 & I2 & I3 & I4 & I5 & Ty & Tv & Tq & Tt). rewrite L0 in *.
  assert (HB : lmade sd sI bI d db add addb n x lo (S n) b).
  { destruct H0 as [h1 h2 h3 h4 h5 h6 h7]. split; try congruence; [intros C; lia|apply I2; exact h6|]. intros j i tr Hj Hi. eapply hasn_ext; [exact I2|exact (h7 j i tr Hj Hi)]. }
  assert (HE := dl_benv sd sI bI d db add addb n x lo b HB). destruct Tx as (T1 & T2 & _). assert (Hx := conj T1 T2).
  assert (Ob : out_node b = (3 * n + 3)%nat) by exact (act_last b _ n (lm_acts _ _ _ _ _ _ _ _ _ _ _ _ HB)).
  assert (Lb : lid b = S n) by (unfold lid in *; rewrite I4; exact L0).
  assert (EP := dl_params sd sI bI d db add addb n x lo b HB).
  assert (Sb := s_out sd sI bI d db add addb n x lo b HB).
  destruct (hast_U _ _ _ _ Sb) as (Uo & So1 & So2). destruct (hast_U _ _ _ _ Ty) as (Uy & Sy1 & Sy2). destruct (hast_U _ _ _ _ Tv) as (Uv & Sv1 & Sv2).
  exists b0, b. split; [reflexivity|]. split; [exact EF|]. cbv zeta. rewrite Ob.
  set (ps := flat_map (fun k => [(3 * k + 1)%nat; (3 * k + 2)%nat]) (seq 0 (S n))) in *.
  assert (PL : List.length ps = (2 * S n)%nat) by exact (s_ps_len n).
  assert (PD : NoDup (0%nat :: ps)) by exact (dl_ps_nodup n).
  split; [exact Lb|]. split; [exact (eq_trans Sy1 (eq_sym So1))|]. split; [exact Sv1|]. split; [exact So1|]. split; [rewrite EP; exact PL|].
  intros X P Q tgt s HA HX HP HQ HT. rewrite EP, PL in *.
  assert (PN : forall j, (j < 2 * S n)%nat -> In (nth j ps O) ps) by (intros j Hj; apply nth_In; rewrite PL; exact Hj).
  set (e := penv (0%nat :: ps) (xp X P)). set (Gr := penv (0%nat :: ps) (xp X Q)).
  assert (EI : forall W j, (j < 2 * S n)%nat -> penv (0%nat :: ps) (xp X W) (nth j ps O) = W j).
  { intros W j Hj. unfold penv. change (nth j ps O) with (nth (S j) (0%nat :: ps) O). rewrite index_nth; [reflexivity|exact PD|cbn [List.length]; rewrite PL; lia]. }
  set (dl := dls sd sI d add n b HE s). set (SE := kenv b HE s : env).
  assert (Ex : PyModels.bt b (Val 0) = x) by (unfold PyModels.bt; rewrite (lm_x _ _ _ _ _ _ _ _ _ _ _ _ HB); reflexivity).
  assert (Ea : b_acts b = 0%nat :: outs (map ly_m dl)) by (rewrite (lm_acts _ _ _ _ _ _ _ _ _ _ _ _ HB); f_equal; symmetry; apply s_outs).
  assert (EL : bm_layers mreq b = map ly_py dl).
  { unfold bm_layers, dl, dls. rewrite (lm_layers _ _ _ _ _ _ _ _ _ _ _ _ HB), map_map. generalize (S n) 0%nat. intros m. induction m as [|m IH]; intros k; [reflexivity|]. cbn [seq map number]. rewrite IH. reflexivity. }
  assert (Hb : @before SE mreq (b_acts b) (0%nat :: ps) e Gr (upd (Tmp (S n) 1) (Some (fin tgt)) (fun _ => None)) s).
  { split.
    - split; [intros k _; reflexivity|]. intros z Uz. destruct (bU_inv b z Uz) as (t & Et & Eb). change (stored KF s (PyModels.bt b z)). rewrite Eb. exact (HA z t Et).
    - intros m Hm idx Hi. change (inb (t_shape (PyModels.bt b (Val m))) idx) in Hi. change (elem s (PyModels.bt b (Val m)) idx = fin (e m) idx). destruct Hm as [<-|Hm].
      + rewrite Ex in *. rewrite HX by exact Hi. reflexivity.
      + destruct (nth_index _ _ Hm) as [J1 J2]. rewrite PL in J2. specialize (HP _ idx J2). unfold rpval in HP. rewrite EP, J1 in HP. rewrite HP by exact Hi.
        unfold fin, e. rewrite <- J1 at 2. rewrite EI by exact J2. reflexivity.
    - intros m Um Hr' Hm idx Hi. change (inb (t_shape (PyModels.bt b (Grad m))) idx) in Hi. change (elem s (PyModels.bt b (Grad m)) idx = fin (Gr m) idx).
      assert (Hin : In m ps).
      { apply dl_ps_in. assert (m <> 0)%nat by (intros ->; discriminate).
        assert (m < 3 * S n + 1)%nat. { destruct (Nat.lt_ge_cases m (3 * S n + 1)) as [|Hge]; [assumption|]. exfalso. apply Um. apply (bi_fresh _ _ I1). rewrite (lm_n _ _ _ _ _ _ _ _ _ _ _ _ HB). exact Hge. }
        assert (NM : forall k, (k <= n)%nat -> m <> (3 * k + 3)%nat). { intros k Hk ->. apply Hm. rewrite Ea. right. apply in_souts. exists k. auto. }
        exists ((m - 1) / 3)%nat. pose proof (Nat.div_mod (m - 1) 3 ltac:(lia)) as D1. pose proof (Nat.mod_upper_bound (m - 1) 3 ltac:(lia)) as D2. specialize (NM ((m - 1) / 3)%nat). lia. }
      destruct (nth_index _ _ Hin) as [J1 J2]. rewrite PL in J2. specialize (HQ _ idx J2). unfold rpgrad in HQ. rewrite EP, J1 in HQ. rewrite HQ by exact Hi.
      unfold fin, Gr. rewrite <- J1 at 2. rewrite EI by exact J2. reflexivity.
    - intros k i f Uz Hf idx Hi. unfold upd in Hf. destruct (gvar_dec (Tmp k i) (Tmp (S n) 1)) as [E|E].
      + injection E as -> ->. injection Hf as <-. exact (HT idx Hi).
      + discriminate. }
  pose proof (s_model sd sI bI d db add addb n x lo b HG HB Hx HE s) as HM.
  assert (ER : frob_step b = pyseq [clear_grads (map (@node SE mreq) (b_acts b)); model_forward (map ly_py dl);
     frob_calc (@node SE mreq (3 * n + 3)) (@A SE (Tmp (S n) 1)) (@A SE (Tmp (S n) 0)) (@A SE (Tmp (S n) 2)) (@A SE (Tmp (S n) 3)); model_backward (map ly_py dl)]).
  { unfold frob_step, bm_clear_activations, bm_forward, bm_backward. rewrite EL, Lb, Ob. reflexivity. }
  rewrite ER. eapply nd_weaken.
  { apply (@C49_backprop_frob SE mreq dl (b_acts b) (0%nat :: ps) (3 * n + 3) (S n) tgt e Gr s HM).
    - rewrite Ea. intros m Hm. right. exact Hm.
    - intros m Hm Hrq. rewrite Ea in Hm. destruct Hm as [<-|Hm]; [discriminate|]. apply in_souts in Hm as (k & Hk & ->).
      destruct (s_node sd sI bI d db add addb n x lo b HB Hx HE s (3 * k + 3) ltac:(lia)) as [_ HN]. exact (proj1 (HN Hrq)).
    - exact (s_frob sd sI bI d db add addb n x lo b HB Hx HE Ty Tv Tq Tt s).
    - apply s_dom.
    - exact Hb. }
  intros s' _ (A1 & A2 & A3 & G' & A4 & A5 & _).
  assert (SL := fun X P => s_loss sd sI bI d db add addb n x lo b HG HB Hx HE s X P tgt).
  split; [|split; [|split]].
  - intros idx Hi. specialize (A1 (3 * n + 3)%nat). assert (Hin : In (3 * n + 3)%nat (outs (map ly_m dl) ++ 0%nat :: ps)) by (apply in_or_app; left; apply in_souts; exists n; split; lia).
    specialize (A1 Hin idx Hi). refine (eq_trans A1 _). unfold fin. f_equal. rewrite So1 in Hi.
    exact (s_chain_out sd sI bI d db add addb n x lo b HG HB Hx HE s X P idx Hi).
  - specialize (A2 Uv []). assert (Hi : inb (t_shape (@A SE (Tmp (S n) 0))) []) by (change (inb (t_shape (PyModels.bt b (Tmp (S n) 0))) []); rewrite Sv1; constructor).
    specialize (A2 Hi). refine (eq_trans A2 _). unfold fin. f_equal. rewrite So1, <- SL. change (@vshape SE (3 * n + 3)) with (t_shape (PyModels.bt b (Val (3 * n + 3)))). rewrite So1. reflexivity.
  - intros idx Hi. specialize (A3 0%nat (or_introl eq_refl) idx). rewrite <- Ex in Hi |- *. exact (A3 Hi).
  - intros j idx Hj Hi. assert (Hin := PN j Hj). unfold rpval, rpgrad in *. rewrite EP in *. set (m := nth j ps O) in *.
    split; [refine (eq_trans (A3 m (or_intror Hin) idx Hi) _); unfold fin, e, m; rewrite EI by exact Hj; reflexivity|].
    assert (Hm : (0 < m <= 3 * n + 3)%nat) by (apply dl_ps_in in Hin as (k & Hk & Hm); lia).
    assert (Hrq : mreq m = true) by (apply mreq_S; lia).
    destruct (s_node sd sI bI d db add addb n x lo b HB Hx HE s m ltac:(lia)) as [_ HN]. destruct (HN Hrq) as [Ug [Sg _]].
    exists (G' m idx). split.
    + apply (A4 m Ug Hrq idx). exact (eq_ind_r (fun l => inb l idx) Hi Sg).
    + specialize (A5 m idx (or_intror Hin) Hi). destruct (in_dec Nat.eq_dec m (b_acts b)) as [C|_].
      { exfalso. rewrite Ea in C. destruct C as [C|C]; [lia|]. exact (s_leaf sd sI d add n b HE s m (or_intror Hin) C). }
      assert (Ee : e m = P j) by exact (EI P j Hj). assert (Eg : Gr m = Q j) by exact (EI Q j Hj). rewrite Ee, Eg in A5. rewrite So1.
      eapply is_derive_ext; [|exact A5]. intros z. cbn beta. rewrite <- SL. unfold e, m.
      change (nth j ps O) with (nth (S j) (0%nat :: ps) O). rewrite penv_vary by (exact PD || (cbn [List.length]; rewrite PL; lia)).
      change (@vshape SE (3 * n + 3)) with (t_shape (PyModels.bt b (Val (3 * n + 3)))). rewrite So1.
      assert (EX : vary (xp X P) (S j) idx z = xp X (vary P j idx z)).
      { apply functional_extensionality. intros [|i]; unfold vary; cbn [xp]; [reflexivity|]. destruct (Nat.eq_dec (S i) (S j)), (Nat.eq_dec i j); (reflexivity || lia). }
      rewrite EX. reflexivity.
Qed.
