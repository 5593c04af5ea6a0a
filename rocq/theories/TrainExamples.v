(** * Concrete cases for C49 and C51-C55 *)
From Coq Require Import Reals Lra.
From Coquelicot Require Import Coquelicot.
From Verif Require Import Base Spec Geometry Traits TraitsProofs Runtime Ops RealOps TensorSem ElemGeneric OneOut Concrete ElemOps Formulas PropDeriv Axis SliceOps SliceGeo FiberOps FiberGeo MatOps Nrm2Proofs PropElem PropElemR Sequence XReals NdRuns AnyRuns RSum XTriples HasRuns TapeMath VjpMath Tape PyLayers PyLinear PySimple PyNorm Backprop Frob PropLayers PropModel PyTrain PropTrain PyAdam PropAdam ConcreteEnv.
Local Close Scope R_scope.
Local Open Scope Z_scope.

(** x (node 0, 4x3 in tiles 2x2), W (node 1, 2x4), b (node 2), Linear to node 3, GELU to node 4;
    loss 9; data in the tensors of 7: inputs 0, 1 and targets 10, 11; momentum buffers 8;
    first and second moments 4 and 5, running maxima 6 *)
Definition shT (x : gvar) : list Z := match x with
  | Val 0 | Grad 0 => [4; 3] | Val 1 | Grad 1 => [2; 4] | Val 2 | Grad 2 => [2] | Val 3 | Grad 3 => [2; 3] | Val 4 | Grad 4 => [2; 3]
  | Tmp 9 0 => [] | Tmp 9 1 => [2; 3] | Tmp 9 2 => [] | Tmp 9 3 => [2; 2]
  | Tmp 7 0 | Tmp 7 1 => [4; 3] | Tmp 7 10 | Tmp 7 11 => [2; 3] | Tmp 8 1 | Tmp 4 1 | Tmp 5 1 | Tmp 6 1 => [2; 4] | Tmp 8 2 | Tmp 4 2 | Tmp 5 2 | Tmp 6 2 => [2]
  | _ => [] end.
Definition baT (x : gvar) : list Z := match x with
  | Val 0 | Grad 0 => [2; 2] | Val 1 | Grad 1 => [1; 2] | Val 2 | Grad 2 => [1] | Val 3 | Grad 3 => [1; 2] | Val 4 | Grad 4 => [1; 2]
  | Tmp 9 0 => [] | Tmp 9 1 => [1; 2] | Tmp 9 2 => [] | Tmp 9 3 => [1; 1]
  | Tmp 7 0 | Tmp 7 1 => [2; 2] | Tmp 7 10 | Tmp 7 11 => [1; 2] | Tmp 8 1 | Tmp 4 1 | Tmp 5 1 | Tmp 6 1 => [1; 2] | Tmp 8 2 | Tmp 4 2 | Tmp 5 2 | Tmp 6 2 => [1]
  | _ => [] end.
Definition nodesT : list nat := seq 0 5.
Definition lT : list gvar := map Val nodesT ++ map Grad nodesT ++
  [Tmp 9 0; Tmp 9 1; Tmp 9 2; Tmp 9 3; Tmp 7 0; Tmp 7 1; Tmp 7 10; Tmp 7 11; Tmp 8 1; Tmp 8 2; Tmp 4 1; Tmp 4 2; Tmp 5 1; Tmp 5 2; Tmp 6 1; Tmp 6 2].
Definition kT : store XR := fun _ => BF [].
Lemma fitsT : Forall (cfits shT baT) lT.
Proof.
  cbv [lT nodesT seq map app].
  repeat (apply Forall_cons; [unfold cfits; (split; [cbn; try exact I; lia|]); (split; [reflexivity|]); (split; [unfold pos; cbn [shT]; repeat constructor|]);
    (split; [unfold pos; cbn [baT]; repeat constructor|]); vm_compute; discriminate|]).
  apply Forall_nil.
Qed.
Definition ET : env := cenv shT baT lT kT fitsT.
#[local] Existing Instance ET.
Definition reqT (n : nat) : bool := true.
Ltac nodup := repeat (constructor; [cbn; intuition discriminate|]); constructor.
Lemma ndT : NoDup lT.
Proof. cbv [lT nodesT seq map app]. nodup. Qed.
Ltac inl := cbn [U ET cenv]; cbv [lT nodesT seq map app]; repeat first [left; reflexivity|right].
Lemma UT n : (n < 5)%nat -> node_ok reqT n.
Proof.
  intros Hn. unfold node_ok. cbn [U A ET cenv].
  assert (In n nodesT) by (apply in_seq; lia).
  split; [apply in_or_app; left; apply in_map; assumption|]. intros _.
  split; [apply in_or_app; right; apply in_or_app; left; apply in_map; assumption|].
  unfold same_tiling, ctensor. rewrite !std_shape, !std_base.
  do 5 (destruct n as [|n]; [split; reflexivity|]). lia.
Qed.
Lemma linT : linear_ok reqT SideR NoTrans 0 3 1 1 (Some 2%nat) [3] [4] [2] [2] [2] [1].
Proof.
  split; try (split; reflexivity).
  - repeat (split; [apply UT; lia|]). intros n Hn. inversion Hn; subst. apply UT; lia.
  - repeat (split; [first [reflexivity|discriminate]|]). intros n Hn. inversion Hn. discriminate.
  - intros n Hn. inversion Hn; subst. repeat split.
Qed.
Lemma actT : act_ok reqT 3 4.
Proof. split; try (apply UT; lia); try reflexivity; try discriminate. split; reflexivity. Qed.
Definition layersT : list layer := [linear_layer reqT SideR NoTrans 0 3 1 1 (Some 2%nat) 1 [3] [4] [2]; act_layer reqT Gelu 3 4 2].
Lemma modelT : model_ok reqT layersT [0; 1; 2]%nat 4 9.
Proof.
  split.
  - unfold layersT. apply Forall_cons; [split; [eapply linear_layer_ok, linT|eapply linear_vjp, linT]|].
    apply Forall_cons; [split; [eapply act_layer_ok, actT|eapply act_vjp, actT]|]. apply Forall_nil.
  - nodup.
  - cbn [map layersT ly_m ordered]. cbn. repeat split; try (intuition discriminate);
      intros j Hj; do 3 (destruct j as [|j]; [cbn; tauto|]); lia.
  - nodup.
  - cbn. tauto.
  - intros n Hn. apply UT. cbn in Hn. repeat (destruct Hn as [<-|Hn]; [lia|]). destruct Hn.
Qed.
Lemma frobT : frob_ok reqT 4 9.
Proof.
  split; try (apply UT; lia); try reflexivity.
  - intros i Hi. do 4 (destruct i as [|i]; [inl|]). lia.
  - split; reflexivity.
  - split; [reflexivity|]. split; [reflexivity|]. cbn. repeat constructor.
Qed.
Definition actsT : list nat := [0; 3; 4]%nat.
Definition vT (x : gvar) (idx : list Z) : R := match x with Val n => (INR n / 10 + IZR (zn idx 0) / 7)%R | Grad n => (INR n + 1)%R | Tmp k i => (INR i * IZR (zn idx 1))%R end.
Definition sT : store XR := cstore shT baT lT kT vT.
Lemma sT_ok : kept kT sT /\ forall x, In x lT -> stored KF sT (ctensor shT baT x) /\ xval sT (ctensor shT baT x) (fin (vT x)).
Proof. apply (cstore_ok shT baT lT kT fitsT vT ndT). Qed.
Lemma sT_alloc : allocated sT.
Proof. destruct sT_ok as [H1 H2]. split; [exact H1|]. intros x Hx. apply H2. exact Hx. Qed.
Definition eT (n : nat) : arr := vT (Val n).
Definition gT (n : nat) : arr := vT (Grad n).

Ltac lt5 := let n := fresh in let H := fresh in intros n H; cbn in H; repeat (destruct H as [<-|H]; [lia|]); destruct H.
Example C49_example :
  runs_nd (pyseq [clear_grads (map (node reqT) actsT); model_forward (map ly_py layersT);
      frob_calc (node reqT 4) (A (Tmp 9 1)) (A (Tmp 9 0)) (A (Tmp 9 2)) (A (Tmp 9 3)); model_backward (map ly_py layersT)]) sT
    (after reqT layersT actsT [0; 1; 2]%nat 4 9 (fun v => / 2 * Rsuml (all_idx [2; 3]%Z) (fun idx => (v idx - vT (Tmp 9 1) idx) * (v idx - vT (Tmp 9 1) idx)))%R eT gT).
Proof.
  apply (C49_backprop_frob reqT layersT actsT [0; 1; 2]%nat 4 9 (vT (Tmp 9 1)) eT gT sT modelT).
  - intros n Hn. right. exact Hn.
  - intros n Hn _. apply (proj2 (UT n ltac:(revert n Hn; lt5))). reflexivity.
  - exact frobT.
  - cbn [map layersT ly_m dom]. cbn. tauto.
  - split.
    + exact sT_alloc.
    + intros n Hn. apply sT_ok. apply (proj1 (UT n ltac:(revert n Hn; lt5))).
    + intros n Hu _ _. apply sT_ok. exact Hu.
    + intros k i f Hu Hf. unfold upd in Hf. destruct (gvar_dec (Tmp k i) (Tmp 9 1)) as [Eq|]; [|discriminate]. inversion Hf; subst. inversion Eq; subst. apply sT_ok. exact Hu.
Qed.

Lemma paramT p : In p [1; 2]%nat -> param_ok reqT 8 p (1 / 2)%R.
Proof.
  intros H. split; [apply UT; revert p H; lt5|reflexivity|]. intros _.
  cbn in H. destruct H as [<-|[<-|[]]]; (split; [inl|split; reflexivity]).
Qed.
Example C51_example :
  runs_nd (sgd_step (Fin (1 / 10)) (Fin (1 / 2)) (Fin (1 / 100)) (Fin 0) true 3 (map (fun p => (node reqT p, A (Tmp 8 p))) [1; 2]%nat)) sT (fun s' =>
    forall p, In p [1; 2]%nat -> value s' p (fun i => let g := (gT p i + 1 / 100 * eT p i)%R in
      (eT p i - 1 / 10 * (g + 1 / 2 * (1 / 2 * vT (Tmp 8 p) i + (1 - 0) * g)))%R)).
Proof.
  eapply nd_weaken; [apply (C51_sgd_step reqT (1 / 10) (1 / 2) (1 / 100) 0 true 3 8 [1; 2]%nat [] eT gT (fun p => vT (Tmp 8 p)) sT)|].
  - nodup.
  - apply Forall_forall. exact paramT.
  - exact sT_alloc.
  - intros p Hp. destruct (paramT p Hp) as [Hn _ Hst]. split; [|split].
    + apply sT_ok. apply Hn.
    + apply sT_ok. apply (proj2 Hn eq_refl).
    + intros _ _. apply sT_ok. apply (Hst ltac:(lra)).
  - intros n [].
  - intros s' _ [H _] p Hp. destruct (H p Hp) as [Hv _]. intros idx Hi. rewrite (Hv idx Hi). unfold fin, sgd_new, sgd_dir, sgd_buf, sgd_g.
    destruct (Rltb 0 (1 / 2)) eqn:Er; [reflexivity|]. apply Rltb_false in Er. lra.
Qed.

(** two batches: one of two minibatches, one of one *)
Definition dataT : list (nat * nat) := [(0, 10); (1, 11)]%nat.
Lemma setupT sids : incl sids [4; 5; 6; 8]%nat -> setup_ok reqT layersT actsT [0; 1; 2]%nat [1; 2]%nat 4 9 0 7 sids dataT.
Proof.
  intros Hs. split.
  - exact modelT.
  - intros n Hn. right. exact Hn.
  - intros n Hn _. apply (proj2 (UT n ltac:(revert n Hn; lt5))). reflexivity.
  - exact frobT.
  - cbn. tauto.
  - intros n Hn. right. exact Hn.
  - nodup.
  - cbn. intuition discriminate.
  - intros p Hp. cbn in *. intuition lia.
  - intros p Hp. split; [apply UT; revert p Hp; lt5|reflexivity].
  - split; [discriminate|]. split; [cbn; intuition discriminate|]. intros C. apply Hs in C. cbn in C. intuition discriminate.
  - intros k Hk. apply Hs in Hk. cbn in *. intuition congruence.
  - intros i j H. cbn in H. destruct H as [H|[H|[]]]; inversion H; subst; (split; [inl|]); (split; [inl|]); (split; split; reflexivity).
Qed.
Lemma trainT : train_ok reqT layersT actsT [0; 1; 2]%nat [1; 2]%nat 4 9 0 7 8 (1 / 2)%R dataT.
Proof. split; [apply setupT; intros n [<-|[]]; cbn; tauto|apply Forall_forall; exact paramT]. Qed.
Definition datT (i : nat) : arr := vT (Tmp 7 i).
Lemma readyT it B : (it = 0 \/ (forall p, B p = vT (Tmp 8 p))) -> ready reqT (1 / 2) actsT [0; 1; 2]%nat [1; 2]%nat 0 7 8 dataT datT it eT B sT.
Proof.
  intros HB. split.
  - exact sT_alloc.
  - intros n Hn _. apply sT_ok. apply (proj1 (UT n ltac:(revert n Hn; lt5))).
  - intros Hm Hit p Hp. destruct HB as [->|HB]; [congruence|]. rewrite HB. apply sT_ok. apply (paramT p Hp). lra.
  - intros i j H. destruct (su_data _ _ _ _ _ _ _ _ _ _ _ (proj1 trainT) i j H) as (D1 & D2 & _). split; apply sT_ok; assumption.
  - exists gT. intros n Hu _ _ _. apply sT_ok. exact Hu.
Qed.
Example C52_example :
  runs_nd (batch_tasks reqT (1 / 10) (1 / 2) (1 / 100) 0 false layersT actsT [1; 2]%nat 4 9 0 7 8 0 dataT) sT (fun s' => exists e' B',
    sgd_update (1 / 10) (1 / 2) (1 / 100) 0 false [1; 2]%nat 0 (batch_loss layersT 4 0 datT dataT) eT (fun _ _ => 0%R) e' B' /\
    value s' 1 (e' 1%nat) /\ value s' 2 (e' 2%nat)).
Proof.
  eapply nd_weaken; [apply (C52_train_batch reqT (1 / 10) (1 / 2) (1 / 100) 0 false layersT actsT [0; 1; 2]%nat [1; 2]%nat 4 9 0 7 8 dataT datT 0 dataT eT (fun _ _ => 0%R) sT trainT)|].
  - apply incl_refl.
  - intros i j _. cbn [map layersT ly_m dom]. cbn. tauto.
  - apply readyT. left. reflexivity.
  - intros s' _ (e' & B' & H1 & H2 & _). exists e', B'. split; [exact H1|]. split; apply (rd_val _ _ _ _ _ _ _ _ _ _ _ _ _ _ H2); cbn; try tauto; discriminate.
Qed.
Example C53_example :
  runs_nd (run_tasks reqT (1 / 10) (1 / 2) (1 / 100) 0 false layersT actsT [1; 2]%nat 4 9 0 7 8 0 [dataT; [(0, 10)%nat]]) sT (fun s' => exists e' B',
    sgd_run (1 / 10) (1 / 2) (1 / 100) 0 false layersT [1; 2]%nat 4 0 datT 0 [dataT; [(0, 10)%nat]] eT (fun _ _ => 0%R) e' B' /\
    value s' 1 (e' 1%nat) /\ value s' 2 (e' 2%nat)).
Proof.
  eapply nd_weaken; [apply (C53_training reqT (1 / 10) (1 / 2) (1 / 100) 0 false layersT actsT [0; 1; 2]%nat [1; 2]%nat 4 9 0 7 8 dataT datT _ 0 eT (fun _ _ => 0%R) sT trainT)|].
  - intros mbs [<-|[<-|[]]]; [apply incl_refl|]. intros q [<-|[]]. left. reflexivity.
  - intros done mbs rest e1 B1 i j _ _ _. cbn [map layersT ly_m dom]. cbn. tauto.
  - apply readyT. left. reflexivity.
  - intros s' _ (e' & B' & H1 & H2 & _). exists e', B'. split; [exact H1|]. split; apply H2; cbn; try tauto; discriminate.
Qed.

(** ** Adam: moments in the tensors of 4 and 5, maxima in those of 6 *)
Lemma adamT ams p : In p [1; 2]%nat -> adam_param_ok reqT 4 5 6 ams p.
Proof.
  intros H. split; [apply UT; revert p H; lt5|reflexivity| | |intros _];
  cbn in H; destruct H as [<-|[<-|[]]]; (split; [inl|split; reflexivity]).
Qed.
Lemma hyperT : hyper (9 / 10) (999 / 1000) (1 / 1000).
Proof. unfold hyper. lra. Qed.
(** the second moments: the tensors hold their square roots, here nonnegative numbers *)
Definition v2T (p : nat) : arr := fun i => (vT (Tmp 5 p) i * vT (Tmp 5 p) i)%R.
Definition vT2 (x : gvar) : arr := match x with Tmp 5 p => fun i => sqrt (v2T p i) | _ => vT x end.
Definition sT2 : store XR := cstore shT baT lT kT vT2.
Lemma sT2_ok : kept kT sT2 /\ forall x, In x lT -> stored KF sT2 (ctensor shT baT x) /\ xval sT2 (ctensor shT baT x) (fin (vT2 x)).
Proof. apply (cstore_ok shT baT lT kT fitsT vT2 ndT). Qed.
Lemma sT2_alloc : allocated sT2.
Proof. destruct sT2_ok as [H1 H2]. split; [exact H1|]. intros x Hx. apply H2. exact Hx. Qed.
Lemma v2_pos p i : (0 <= v2T p i)%R. Proof. apply Rle_0_sqr. Qed.
Lemma nd3 : NoDup [4; 5; 6]%nat. Proof. nodup. Qed.
(** the third step of AdamW with warm-up to the fifth step *)
Example C54_example :
  runs_nd (adam_tasks (FusedAdamW (Some ((1 / 100)%R, 5))) (1 / 10) (9 / 10) (999 / 1000) (1 / 100) (1 / 1000) 3 (adam_params reqT 4 5 6 [1; 2]%nat)) sT2 (fun s' =>
    forall p, In p [1; 2]%nat -> value s' p (fun i =>
      let lr := (1 / 100 + (1 / 10 - 1 / 100) * 2 / 4)%R in
      let m := (9 / 10 * vT (Tmp 4 p) i + (1 - 9 / 10) * gT p i)%R in let v := (999 / 1000 * v2T p i + (1 - 999 / 1000) * (gT p i * gT p i))%R in
      (eT p i - lr * (1 / 100) * eT p i - lr * (m / (1 - (9 / 10) ^ 3)) / (sqrt (v / (1 - (999 / 1000) ^ 3)) + 1 / 1000))%R)).
Proof.
  change 3 with (Z.of_nat 3) at 1.
  eapply nd_weaken; [apply (C54_adam_step reqT (FusedAdamW (Some ((1 / 100)%R, 5))) (1 / 10) (9 / 10) (999 / 1000) (1 / 100) (1 / 1000) 3 4 5 6 [1; 2]%nat [] eT gT (fun p => vT (Tmp 4 p)) v2T sT2)|].
  - exact hyperT.
  - lia.
  - exact nd3.
  - nodup.
  - apply Forall_forall. exact (adamT false).
  - exact sT2_alloc.
  - intros p Hp. destruct (adamT false p Hp) as [Hn _ _ _ _]. split; [|split].
    + apply sT2_ok. apply Hn.
    + apply sT2_ok. apply (proj2 Hn eq_refl).
    + apply v2_pos.
  - discriminate.
  - intros _ p Hp. destruct (adamT false p Hp) as [_ _ [Um _] [Us _] _]. split; apply sT2_ok; assumption.
  - intros n [].
  - intros s' _ [H _] p Hp. destruct (H p Hp) as [Hv _]. intros idx Hi. rewrite (Hv idx Hi). reflexivity.
Qed.
Lemma adam_readyT : adam_ready reqT actsT [0; 1; 2]%nat [1; 2]%nat 0 7 4 5 dataT datT 1 (fun _ _ => 0%R) (fun _ _ => 0%R) eT sT.
Proof.
  split.
  - exact sT_alloc.
  - intros n Hn _. apply sT_ok. apply (proj1 (UT n ltac:(revert n Hn; lt5))).
  - congruence.
  - intros. lra.
  - intros _ p i _. split; reflexivity.
  - intros i j H. destruct (su_data _ _ _ _ _ _ _ _ _ _ _ (proj1 trainT) i j H) as (D1 & D2 & _). split; apply sT_ok; assumption.
  - exists gT. intros n Hu _ _ _. apply sT_ok. exact Hu.
Qed.
Example C55_example :
  runs_nd (adam_run_tasks reqT Adam (1 / 10) (9 / 10) (999 / 1000) (1 / 100) (1 / 1000) layersT actsT [1; 2]%nat 4 9 0 7 4 5 6 1 [dataT; [(0, 10)%nat]]) sT (fun s' => exists m' v' e',
    adam_run Adam (1 / 10) (9 / 10) (999 / 1000) (1 / 100) (1 / 1000) layersT [1; 2]%nat 4 0 datT 1 [dataT; [(0, 10)%nat]] (fun _ _ => 0%R) (fun _ _ => 0%R) eT m' v' e' /\
    value s' 1 (e' 1%nat) /\ value s' 2 (e' 2%nat)).
Proof.
  eapply nd_weaken; [apply (C55_adam_training reqT Adam (1 / 10) (9 / 10) (999 / 1000) (1 / 100) (1 / 1000) layersT actsT [0; 1; 2]%nat [1; 2]%nat 4 9 0 7 4 5 6 dataT datT _ 1 (fun _ _ => 0%R) (fun _ _ => 0%R) eT sT)|].
  - exact hyperT.
  - lia.
  - exact nd3.
  - apply Forall_forall. exact (adamT false).
  - apply setupT. intros n Hn. cbn in *. tauto.
  - intros mbs [<-|[<-|[]]]; [apply incl_refl|]. intros q [<-|[]]. left. reflexivity.
  - intros done mbs rest m1 v1 e1 i j _ _ _. cbn [map layersT ly_m dom]. cbn. tauto.
  - exact adam_readyT.
  - intros s' _ (m' & v' & e' & H1 & H2 & _). exists m', v', e'. split; [exact H1|]. split; apply H2; cbn; try tauto; discriminate.
Qed.
(** Adam(amsgrad=True), first step, weight 1 *)
Example C56_amsgrad_example :
  runs_nd (adam_all (Fin (1 / 10)) (Fin (9 / 10)) (Fin (999 / 1000)) (Fin 0) (Fin (1 / 1000)) true 1 (adam_params reqT 4 5 6 [1]%nat)) sT (fun s' =>
    value s' 1 (fun i => ad_new (1 / 10 / (1 - 999 / 1000)) (9 / 10) (999 / 1000) (1 / 1000) 1 (eT 1 i) ((1 - 9 / 10) * gT 1 i) ((1 - 999 / 1000) * (gT 1 i * gT 1 i)))%R).
Proof.
  change 1 with (Z.of_nat 1) at 1.
  eapply nd_weaken; [apply (C56_amsgrad_as_coded reqT (1 / 10) (9 / 10) (999 / 1000) 0 (1 / 1000) 1 4 5 6 1 (eT 1) (gT 1) (fun _ => 0%R) (fun _ => 0%R) (fun _ => 0%R) sT)|].
  - exact hyperT.
  - lia.
  - exact nd3.
  - apply adamT. cbn. tauto.
  - exact sT_alloc.
  - apply sT_ok. inl.
  - apply sT_ok. inl.
  - intros i. split; lra.
  - intros _ i. repeat split; reflexivity.
  - congruence.
  - intros s' _ (Hv & _) idx Hi. rewrite (Hv idx Hi). unfold fin. f_equal. unfold ad_m, ad_v.
    match goal with |- ad_new ?a _ _ _ _ _ ?b ?c = ad_new ?a' _ _ _ _ _ ?b' ?c' => replace a with a' by (cbn [pow]; f_equal; lra); replace b with b' by ring; replace c with c' end; [reflexivity|].
    pose proof (Rle_0_sqr (gT 1 idx)) as Hs. unfold Rsqr in Hs.
    rewrite Rmax_right; [ring|]. ring_simplify. replace (gT 1 idx ^ 2)%R with (gT 1 idx * gT 1 idx)%R by ring. nra.
Qed.
