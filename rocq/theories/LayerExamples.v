(** * Concrete cases for C46-C53 *)
From Coq Require Import Reals Lra.
From Coquelicot Require Import Coquelicot.
From Verif Require Import Base Spec Geometry Traits TraitsProofs Runtime Ops RealOps TensorSem ElemGeneric OneOut Concrete ElemOps Formulas PropDeriv Axis SliceOps SliceGeo FiberOps FiberGeo MatOps Nrm2Proofs PropElem PropElemR Sequence XReals NdRuns AnyRuns RSum LossOps EmbedRuns CrossEntropy PropSoftmax XTriples HasRuns TapeMath VjpMath Tape PyLayers PyLinear PySimple PyNorm Backprop Frob CeLoss PropLayers PropModel PyTrain PropTrain ConcreteEnv.
Local Close Scope R_scope.
Local Open Scope Z_scope.

Lemma std_same (k0 s : store XR) sh ba n (H : wf_tensor (std_tensor sh ba n)) kd : (forall h, n <= h < n + prodZ (gridZ sh ba) -> s h = k0 h) ->
  stored kd k0 (std_tensor sh ba n) -> stored kd s (std_tensor sh ba n) /\
  forall idx, inb sh idx -> ielem s (std_tensor sh ba n) idx = ielem k0 (std_tensor sh ba n) idx /\ belem s (std_tensor sh ba n) idx = belem k0 (std_tensor sh ba n) idx.
Proof.
  intros Hs Hk.
  assert (Hth : forall i, 0 <= i < ntiles (std_tensor sh ba n) -> s (th (std_tensor sh ba n) i) = k0 (th (std_tensor sh ba n) i)).
  { intros i Hi. apply Hs. rewrite std_ntiles in Hi. rewrite std_th by assumption. lia. }
  split.
  - intros i Hi. rewrite Hth by assumption. apply Hk. assumption.
  - intros idx Hi. unfold ielem, belem. rewrite Hth; [split; reflexivity|]. apply etile_bound; [apply wf_wft; assumption|]. rewrite std_shape. assumption.
Qed.

(** ** A block: Embedding, AddSlice, LayerNorm, Linear with bias, GELU, Linear, Add, Linear
    without bias; then the cross-entropy loss over 5 classes and 3 samples *)
Definition shE (x : gvar) : list Z := match x with
  | Val 0 | Grad 0 => [4; 5] | Val 1 | Grad 1 => [4; 3] | Val 2 | Grad 2 => [4] | Val 3 | Grad 3 => [4; 3]
  | Val 4 | Grad 4 => [4] | Val 5 | Grad 5 => [4] | Val 6 | Grad 6 => [4; 3] | Val 7 | Grad 7 => [6; 4] | Val 8 | Grad 8 => [6]
  | Val 9 | Grad 9 => [6; 3] | Val 10 | Grad 10 => [6; 3] | Val 11 | Grad 11 => [4; 6] | Val 12 | Grad 12 => [4; 3] | Val 13 | Grad 13 => [4; 3]
  | Val 14 | Grad 14 => [5; 4] | Val 15 | Grad 15 => [5; 3]
  | Tmp 2 0 | Tmp 2 1 => [4; 3] | Tmp 2 2 | Tmp 2 3 => [3]
  | Tmp 9 0 => [] | Tmp 9 1 => [2; 3] | Tmp 9 2 => [3]
  | _ => [] end.
Definition baE (x : gvar) : list Z := match x with
  | Val 0 | Grad 0 => [2; 5] | Val 1 | Grad 1 => [2; 2] | Val 2 | Grad 2 => [2] | Val 3 | Grad 3 => [2; 2]
  | Val 4 | Grad 4 => [2] | Val 5 | Grad 5 => [2] | Val 6 | Grad 6 => [2; 2] | Val 7 | Grad 7 => [3; 2] | Val 8 | Grad 8 => [3]
  | Val 9 | Grad 9 => [3; 2] | Val 10 | Grad 10 => [3; 2] | Val 11 | Grad 11 => [2; 3] | Val 12 | Grad 12 => [2; 2] | Val 13 | Grad 13 => [2; 2]
  | Val 14 | Grad 14 => [5; 2] | Val 15 | Grad 15 => [5; 2]
  | Tmp 2 0 | Tmp 2 1 => [2; 2] | Tmp 2 2 | Tmp 2 3 => [2]
  | Tmp 9 0 => [] | Tmp 9 1 => [2; 2] | Tmp 9 2 => [2]
  | _ => [] end.

Definition nodesE : list nat := seq 0 16.
Definition lE : list gvar := map Val nodesE ++ map Grad nodesE ++ [Tmp 2 0; Tmp 2 1; Tmp 2 2; Tmp 2 3; Tmp 9 0; Tmp 9 1; Tmp 9 2].
Definition ixE : tensor := std_tensor [3] [2] (-100).
Definition labE : tensor := std_tensor [3] [2] (-50).
Definition ivE (idx : list Z) : Z := 4 - 2 * zn idx 0.
Definition lbE (idx : list Z) : Z := 1 + zn idx 0.
Definition kE : store XR := puti ixE ivE (puti labE lbE (fun _ => BF [])).
Lemma fitsE : Forall (cfits shE baE) lE.
Proof.
  cbv [lE nodesE seq map app].
  repeat (apply Forall_cons; [unfold cfits; (split; [cbn; try exact I; lia|]); (split; [reflexivity|]); (split; [unfold pos; cbn [shE]; repeat constructor|]);
    (split; [unfold pos; cbn [baE]; repeat constructor|]); vm_compute; discriminate|]).
  apply Forall_nil.
Qed.
Definition EE : env := cenv shE baE lE kE fitsE.
Definition reqE (n : nat) : bool := true.
Lemma ndE : NoDup lE.
Proof. cbv [lE nodesE seq map app]. repeat (constructor; [cbn; intuition discriminate|]). constructor. Qed.
Ltac inl := cbv [lE nodesE seq map app]; repeat first [left; reflexivity|right].
Lemma UE n : (n < 16)%nat -> node_ok (E := EE) reqE n.
Proof.
  intros Hn. unfold node_ok. cbn [U A EE cenv].
  assert (In n nodesE) by (apply in_seq; lia).
  split; [apply in_or_app; left; apply in_map; assumption|]. intros _.
  split; [apply in_or_app; right; apply in_or_app; left; apply in_map; assumption|].
  unfold same_tiling, ctensor. rewrite !std_shape, !std_base.
  do 16 (destruct n as [|n]; [split; reflexivity|]). lia.
Qed.
Lemma wf_ix : wf_tensor ixE. Proof. std_wf_tac. Qed.
Lemma wf_lab : wf_tensor labE. Proof. std_wf_tac. Qed.
Lemma dis_ix_lab : disj ixE labE. Proof. apply std_disj. vm_compute. left. discriminate. Qed.
Lemma neg_disj x t : In x lE -> (forall h, In h (tile_handles t) -> h < 0) -> disj t (ctensor shE baE x).
Proof. intros Hx Ht h H1 H2. apply std_handles in H2. pose proof (gnum_nonneg x). specialize (Ht h H1). lia. Qed.
Lemma neg_ix h : In h (tile_handles ixE) -> h < 0.
Proof. intros H. apply std_handles in H. change (prodZ (gridZ [3] [2])) with 2 in H. lia. Qed.
Lemma neg_lab h : In h (tile_handles labE) -> h < 0.
Proof. intros H. apply std_handles in H. change (prodZ (gridZ [3] [2])) with 2 in H. lia. Qed.
Lemma kE_ix s : kept kE s -> stored KI s ixE /\ forall idx, inb [3] idx -> ielem s ixE idx = ivE idx.
Proof.
  intros Hk. assert (S : stored KI kE ixE) by (apply puti_stored, wf_wft, wf_ix).
  destruct (std_same kE s [3] [2] (-100) wf_ix KI) as [S1 S2]; [|exact S|].
  - intros h Hh. apply Hk. change (prodZ (gridZ [3] [2])) with 2 in Hh. lia.
  - split; [exact S1|]. intros idx Hi. unfold ixE in *. rewrite (proj1 (S2 idx Hi)). apply puti_ielem; [apply wf_wft, wf_ix|exact Hi].
Qed.
Lemma kE_lab s : kept kE s -> stored KI s labE /\ forall idx, inb [3] idx -> ielem s labE idx = lbE idx.
Proof.
  intros Hk. assert (D : disj labE ixE) by (intros h H1 H2; exact (dis_ix_lab h H2 H1)).
  assert (S : stored KI kE labE) by (apply put_stored_other; [apply wf_wft, wf_lab|exact D|apply puti_stored, wf_wft, wf_lab]).
  destruct (std_same kE s [3] [2] (-50) wf_lab KI) as [S1 S2]; [|exact S|].
  - intros h Hh. apply Hk. change (prodZ (gridZ [3] [2])) with 2 in Hh. lia.
  - split; [exact S1|]. intros idx Hi. unfold labE in *. rewrite (proj1 (S2 idx Hi)).
    assert (E1 : ielem kE labE idx = ielem (puti labE lbE (fun _ : Z => @BF XR [])) labE idx).
    { unfold ielem, kE, puti. rewrite put_other; [reflexivity|]. intros C. apply (D (th labE (etile labE idx))); [|exact C].
      apply th_In; [apply wf_wft, wf_lab|apply etile_bound; [apply wf_wft, wf_lab|exact Hi]]. }
    unfold labE in E1. rewrite E1. apply puti_ielem; [apply wf_wft, wf_lab|exact Hi].
Qed.
Lemma inb1 n idx : inb [n] idx -> exists k, idx = [k] /\ 0 <= k < n.
Proof. intros H. inversion H as [|? ? ? ? H1 H2]; subst. inversion H2; subst. eauto. Qed.

#[local] Existing Instance EE.
Definition emb1 := emb_layer reqE ixE ivE 1 0 0 1.
Lemma embE : emb_ok reqE ixE ivE 1 0 0.
Proof.
  split; try (apply UE; lia); try reflexivity; try discriminate.
  - exact wf_ix.
  - apply (neg_disj (Val 1)); [inl|exact neg_ix].
  - apply (neg_disj (Grad 0)); [inl|exact neg_ix].
  - intros s Hs. destruct (kE_ix s Hs) as [S1 S2]. split; [exact S1|]. exact S2.
  - split; [split; [split; vm_compute; [discriminate|reflexivity]|split; reflexivity]|]. split; [reflexivity|]. split; [reflexivity|]. exists 1. reflexivity.
  - intros idx Hi. apply inb1 in Hi as (k & -> & Hk). change (0 <= 4 - 2 * k < 5). lia.
Qed.
Lemma sliceE : add_slice_ok reqE 1 2 3 1.
Proof.
  split; try (apply UE; lia); try reflexivity; try discriminate; [split; reflexivity|]. split; [split; vm_compute; [discriminate|reflexivity]|split; reflexivity].
Qed.
Lemma lnE : ln_ok reqE 3 6 4 5 0 (/ 100)%R 2.
Proof.
  split; try (apply UE; lia); try reflexivity; try discriminate.
  - split; reflexivity.
  - split; [lia|]. split; [split; vm_compute; [discriminate|reflexivity]|split; reflexivity].
  - split; [lia|]. split; [split; vm_compute; [discriminate|reflexivity]|split; reflexivity].
  - intros i Hi. do 4 (destruct i as [|i]; [cbn [U EE cenv]; inl|]). lia.
  - split; reflexivity.
  - split; reflexivity.
  - split; [split; vm_compute; [discriminate|reflexivity]|split; reflexivity].
  - split; [split; vm_compute; [discriminate|reflexivity]|split; reflexivity].
  - lra.
Qed.
Lemma linE1 : linear_ok reqE SideR NoTrans 6 9 7 1 (Some 8%nat) [3] [4] [6] [2] [2] [3].
Proof.
  split; try (split; reflexivity).
  - repeat (split; [apply UE; lia|]). intros n Hn. inversion Hn; subst. apply UE; lia.
  - repeat (split; [first [reflexivity|discriminate]|]). intros n Hn. inversion Hn. discriminate.
  - intros n Hn. inversion Hn; subst. repeat split.
Qed.
Lemma actE : act_ok reqE 9 10.
Proof. split; try (apply UE; lia); try reflexivity; try discriminate. split; reflexivity. Qed.
Lemma linE2 : linear_ok reqE SideR NoTrans 10 12 11 1 None [3] [6] [4] [2] [3] [2].
Proof.
  split; try (split; reflexivity).
  - repeat (split; [apply UE; lia|]). intros n Hn. discriminate.
  - repeat (split; [first [reflexivity|discriminate]|]). intros n Hn. discriminate.
  - intros n Hn. discriminate.
Qed.
Lemma addE : add_ok reqE 6 12 13.
Proof. split; try (apply UE; lia); try reflexivity; try discriminate; split; reflexivity. Qed.
Lemma linE3 : linear_ok reqE SideR NoTrans 13 15 14 1 None [3] [4] [5] [2] [2] [5].
Proof.
  split; try (split; reflexivity).
  - repeat (split; [apply UE; lia|]). intros n Hn. discriminate.
  - repeat (split; [first [reflexivity|discriminate]|]). intros n Hn. discriminate.
  - intros n Hn. discriminate.
Qed.
Definition layersE : list layer := [emb_layer reqE ixE ivE 1 0 0 0; add_slice_layer reqE 1 2 3 1 1; ln_layer reqE 3 6 4 5 0 (/ 100)%R 2;
  linear_layer reqE SideR NoTrans 6 9 7 1 (Some 8%nat) 3 [3] [4] [6]; act_layer reqE Gelu 9 10 4; linear_layer reqE SideR NoTrans 10 12 11 1 None 5 [3] [6] [4];
  add_layer reqE 6 12 13 6; linear_layer reqE SideR NoTrans 13 15 14 1 None 7 [3] [4] [5]].
Definition leavesE : list nat := [0; 2; 4; 5; 7; 8; 11; 14]%nat.
Lemma modelE : model_ok reqE layersE leavesE 15 9.
Proof.
  split.
  - unfold layersE.
    apply Forall_cons; [split; [eapply emb_layer_ok, embE|eapply emb_vjp, embE]|].
    apply Forall_cons; [split; [eapply add_slice_layer_ok, sliceE|eapply add_slice_vjp, sliceE]|].
    apply Forall_cons; [split; [eapply ln_layer_ok, lnE|eapply ln_vjp, lnE]|].
    apply Forall_cons; [split; [eapply linear_layer_ok, linE1|eapply linear_vjp, linE1]|].
    apply Forall_cons; [split; [eapply act_layer_ok, actE|eapply act_vjp, actE]|].
    apply Forall_cons; [split; [eapply linear_layer_ok, linE2|eapply linear_vjp, linE2]|].
    apply Forall_cons; [split; [eapply add_layer_ok, addE|eapply add_vjp, addE]|].
    apply Forall_cons; [split; [eapply linear_layer_ok, linE3|eapply linear_vjp, linE3]|].
    apply Forall_nil.
  - cbn. repeat (constructor; [cbn; intuition discriminate|]). constructor.
  - cbn [map layersE ly_m ordered]. cbn. repeat split; try (intuition discriminate);
      intros j Hj; do 3 (destruct j as [|j]; [cbn; tauto|]); lia.
  - repeat (constructor; [cbn; intuition discriminate|]). constructor.
  - cbn. tauto.
  - intros n Hn. apply UE. cbn in Hn. repeat (destruct Hn as [<-|Hn]; [lia|]). destruct Hn.
Qed.

(** Everything holds some real. *)
Definition vE (x : gvar) (idx : list Z) : R := match x with Val n => (INR n / 10 + IZR (zn idx 0) / 7)%R | Grad n => (INR n + 1)%R | Tmp _ _ => 3%R end.
Definition sE : store XR := cstore shE baE lE kE vE.
Lemma sE_ok : kept kE sE /\ forall x, In x lE -> stored KF sE (ctensor shE baE x) /\ xval sE (ctensor shE baE x) (fin (vE x)).
Proof. apply (cstore_ok shE baE lE kE fitsE vE ndE). Qed.
Lemma sE_alloc : allocated sE.
Proof. destruct sE_ok as [H1 H2]. split; [exact H1|]. intros x Hx. apply H2. exact Hx. Qed.
Definition eE (n : nat) : arr := vE (Val n).
Definition gE (n : nat) : arr := vE (Grad n).
Lemma sE_val n : (n < 16)%nat -> value sE n (eE n).
Proof. intros Hn. apply sE_ok. apply (proj1 (UE n Hn)). Qed.
Lemma U16 n : U (Grad n) -> (n < 16)%nat.
Proof.
  intros H. cbn [U EE cenv] in H. unfold lE in H. apply in_app_or in H as [H|H]; [apply in_map_iff in H as (k & H & _); discriminate|].
  apply in_app_or in H as [H|H]; [apply in_map_iff in H as (k & H1 & H2); inversion H1; subst; apply in_seq in H2; lia|].
  repeat (destruct H as [H|H]; [discriminate|]). destruct H.
Qed.
Lemma sE_knows ns : (forall n, In n ns -> (n < 16)%nat) -> knows_state reqE ns eE gE sE.
Proof.
  intros Hns. split.
  - exact sE_alloc.
  - intros n Hn. apply sE_val. apply Hns. assumption.
  - intros n Hu _. apply sE_ok. exact Hu.
Qed.

Ltac lt16 := let n := fresh in let H := fresh in intros n H; cbn in H; repeat (destruct H as [<-|H]; [lia|]); destruct H.
Ltac nodup := repeat (constructor; [cbn; intuition discriminate|]); constructor.
Ltac differ th := eapply th; [apply incl_refl|nodup|cbn; intuition discriminate|
  let n := fresh in let H := fresh in intros n H; apply (UE n); revert n H; lt16|try exact I|apply sE_knows; lt16].

(** C46: W is 6x4, x 4x3, the bias of length 6; tiles 3x2, 2x2 and 3. *)
Example C46_example : exists F : (nat -> arr) -> arr,
  (forall vs, linear_spec SideR NoTrans [3] [4] [6] (Some (vs 2%nat)) (vs 0%nat) (vs 1%nat) (F vs)) /\
  runs_nd (pyseq [linear_forward SideR NoTrans (node reqE 6) (node reqE 9) (node reqE 7) 1 (Some (node reqE 8)); linear_backward SideR NoTrans (node reqE 6) (node reqE 9) (node reqE 7) 1 (Some (node reqE 8))]) sE
    (fun s' => value s' 9 (F (fun j => eE (nth j [6; 7; 8] 0)%nat))).
Proof.
  destruct (C46_linear _ _ _ _ _ _ _ _ _ _ _ _ _ _ linE1) as (F & H1 & H2). exists F. split; [exact H1|].
  eapply nd_weaken; [differ H2|]. intros s' _ [H _]. exact H.
Qed.
Example C47_example : exists F : (nat -> arr) -> arr,
  (forall vs, layer_norm_spec [4; 3] 0 (/ 100)%R (vs 0%nat) (vs 1%nat) (vs 2%nat) (F vs)) /\
  runs_nd (pyseq [pl_forward (ly_py (ln_layer reqE 3 6 4 5 0 (/ 100)%R 2)); pl_backward (ly_py (ln_layer reqE 3 6 4 5 0 (/ 100)%R 2))]) sE
    (fun s' => value s' 6 (F (fun j => eE (nth j [3; 4; 5] 0)%nat))).
Proof.
  destruct (C47_layer_norm _ _ _ _ _ _ _ _ lnE) as (F & H1 & H2). exists F. split; [exact H1|].
  eapply nd_weaken; [differ H2|]. intros s' _ [H _]. exact H.
Qed.
Example C48_act_example : runs_nd (pyseq [act_forward Relu (node reqE 9) (node reqE 10); act_backward Relu (node reqE 9) (node reqE 10)]) sE
  (fun s' => value s' 10 (fun idx => Rmax (9 / 10 + IZR (zn idx 0) / 7) 0)).
Proof.
  eapply nd_weaken; [differ (C48_act reqE Relu 9 10 actE)|].
  - intros _ idx Hi. cbn [nth]. unfold eE, vE. destruct idx as [|k idx']; [inversion Hi|]. assert (Hk : 0 <= k) by (change (inb [6; 3] (k :: idx')) in Hi; inversion Hi; subst; lia). change (zn (k :: idx') 0) with k.
    assert (0 <= IZR k)%R by (apply IZR_le; lia). replace (INR 9) with 9%R by (cbn; ring). intros C. lra.
  - intros s' _ [H _]. intros idx Hi. rewrite (H idx Hi). unfold fin, eE, vE. cbn [nth]. replace (INR 9) with 9%R by (cbn; ring). reflexivity.
Qed.
Example C48_add_example : runs_nd (pyseq [add_forward (node reqE 6) (node reqE 12) (node reqE 13); add_backward (node reqE 6) (node reqE 12) (node reqE 13)]) sE
  (fun s' => value s' 13 (fun idx => eE 6 idx + eE 12 idx)%R).
Proof. eapply nd_weaken; [differ (C48_add reqE 6 12 13 addE)|]. intros s' _ [H _]. exact H. Qed.
Example C48_add_slice_example : runs_nd (pyseq [add_slice_forward (node reqE 1) (node reqE 2) (node reqE 3) 1; add_slice_backward (node reqE 1) (node reqE 2) (node reqE 3) 1]) sE
  (fun s' => value s' 3 (fun idx => eE 1 idx + eE 2 (del 1 idx))%R).
Proof. eapply nd_weaken; [differ (C48_add_slice reqE 1 2 3 1 sliceE)|]. intros s' _ [H _]. exact H. Qed.
Example C48_embedding_example : runs_nd (pyseq [embedding_forward ixE (node reqE 1) (node reqE 0) 0; embedding_backward ixE (node reqE 1) (node reqE 0) 0]) sE
  (fun s' => value s' 1 (fun idx => eE 0 [zn idx 0; 4 - 2 * zn (del 0 idx) 0])).
Proof. eapply nd_weaken; [differ (C48_embedding reqE ixE ivE 1 0 0 embE)|]. intros s' _ [H _]. exact H. Qed.

(** C50 *)
Lemma ceE : ce_ok reqE 15 9 labE lbE 5 [3].
Proof.
  split; try (apply UE; lia); try reflexivity.
  - intros i Hi. do 3 (destruct i as [|i]; [cbn [U EE cenv]; inl|]). lia.
  - exact wf_lab.
  - intros x Hx. apply (neg_disj x); [exact Hx|exact neg_lab].
  - split; try (split; reflexivity); reflexivity.
  - exact kE_lab.
  - intros idx Hi. apply inb1 in Hi as (k & -> & Hk). change (0 <= 1 + k < 5). lia.
Qed.
Definition actsE : list nat := [1; 3; 6; 9; 10; 12; 13; 15]%nat.
Example C50_example :
  runs_any (pyseq [clear_grads (map (node reqE) actsE); model_forward (map ly_py layersE);
      crossentropy_calc (Fin 1) (A (Val 15)) labE (A (Tmp 9 1)) (A (Tmp 9 2)) (A (Tmp 9 0)) (A (Grad 15)); model_backward (map ly_py layersE)]) sE
    (after reqE layersE actsE leavesE 15 9 (fun v => 3 + 1 * Rsuml (all_idx [3%Z]) (fun idx => ln (Rsum 5 (fun k => exp (v (k :: idx)))) - v (lbE idx :: idx)))%R eE gE).
Proof.
  apply (C50_backprop_crossentropy reqE layersE actsE leavesE 15 9 labE lbE 5 [3] 1 3 eE gE sE modelE).
  - intros n Hn. exact Hn.
  - intros n Hn _. apply (proj2 (UE n ltac:(revert n Hn; lt16))). reflexivity.
  - exact ceE.
  - cbn [map layersE ly_m dom]. cbn. tauto.
  - split.
    + exact sE_alloc.
    + intros n Hn. apply sE_val. revert n Hn. lt16.
    + intros n Hu _ _. apply sE_ok. exact Hu.
    + intros k i f Hu Hf. unfold upd in Hf. destruct (gvar_dec (Tmp k i) (Tmp 9 0)) as [Eq|]; [|discriminate]. inversion Hf; subst. inversion Eq; subst. apply sE_ok. exact Hu.
Qed.
