(** * C75: DeepLinear, what its constructor makes and refuses *)
From Coq Require Import Reals Lra.
From Verif Require Import Base Spec Geometry Traits TraitsProofs Runtime Ops RealOps TensorSem ElemGeneric Concrete Axis SliceGeo XReals MatOps XTriples HasRuns PyLayers PyModels BuildEnv GptBuild ReluSpec ReluBuild.
Local Close Scope R_scope.
Local Open Scope list_scope.
Local Open Scope Z_scope.

Section Lin.
(** samples [sI] in tiles [bI]; features [d] in tiles of [db]; [n]+1 layers *)
Variables (sd : side) (sI bI : list Z) (d db add addb : Z) (n : nat).
Notation K := (features [d] add).
Notation bK := (features [db] addb).
Definition wid (k : nat) : Z := if (k =? n)%nat then d else add.
Definition widb (k : nat) : Z := if (k =? n)%nat then db else addb.
(** what layer [k] makes: objects 3k+1 (weights), 3k+2 (bias), 3k+3 (output); its input is 3k *)
Definition dl_nodes (k : nat) : list dims := lin_nodes sd sI bI [d] [db] add addb true k (wid k) (widb k).
Definition dl_desc (k : nat) : ldesc := LLinear sd NoTrans (3 * k) (3 * k + 3) (3 * k + 1) 1 (Some (3 * k + 2)%nat).
Definition dl_out (k : nat) : nat := (3 * k + 3)%nat.
Hypothesis G : rdims sI bI [d] [db] add addb d.
Hypothesis Hdb : 0 < db.

Record lmade (x : tensor) (lo : Z) (k : nat) (b : build) : Prop := {
  lm_inv : binv lo b;
  lm_n : b_n b = (3 * k + 1)%nat;
  lm_layers : b_layers b = map dl_desc (seq 0 k);
  lm_acts : b_acts b = O :: map dl_out (seq 0 k);
  lm_free : (k <= n)%nat -> tfree (lid b) b;
  lm_x : b_mem b (Val 0) = Some x;
  lm_blk : forall j i tr, (j < k)%nat -> nth_error (dl_nodes j) i = Some tr -> hasn b (3 * j + 1 + i) tr
}.
Lemma seq_map {X} (f : nat -> X) k : map f (seq 0 (S k)) = map f (seq 0 k) ++ [f k].
Proof. rewrite seq_S, map_app. reflexivity. Qed.
Lemma lm_in x lo k b : (k <= n)%nat -> wf_tensor x -> tens x (lin_x sd sI [d]) (lin_x sd bI [db]) -> lmade x lo k b -> hast b (Val (3 * k)) (lin_x sd sI (K k)) (lin_x sd bI (bK k)).
Proof.
  intros Hk Wx Tx [_ _ _ _ _ H1 H2]. destruct k as [|k].
  - exists x. split; [exact H1|exact Tx].
  - replace (3 * S k)%nat with (3 * k + 1 + 2)%nat by lia.
    assert (Q : nth_error (dl_nodes k) 2 = Some (lin_y sd sI [add], lin_y sd bI [addb])).
    { unfold dl_nodes, wid, widb, lin_nodes. destruct (Nat.eqb_spec k n); [lia|]. reflexivity. }
    destruct (H2 k _ _ ltac:(lia) Q) as [H3 _]. cbn [fst snd] in H3. cbn [features]. destruct sd; exact H3.
Qed.
Lemma zK k : zlen (K k) = 1. Proof. destruct k; reflexivity. Qed.
Lemma lm_step x lo k b : (k <= n)%nat -> wf_tensor x -> tens x (lin_x sd sI [d]) (lin_x sd bI [db]) -> lmade x lo k b ->
  okp (push (gen_linear (3 * k) sd NoTrans 1 [wid k] [widb k] true b)) (fun b' => lmade x lo (S k) b' /\ tfree (lid b') b').
Proof.
  intros Hk Wx Tx Hg. assert (Hh := lm_in x lo k b Hk Wx Tx Hg). destruct Hg as [g1 g2 g3 g4 g5 g6 g7]. specialize (g5 Hk).
  assert (R0 : row lo b (b_acts b) [] [] [] [] b) by (apply row_start; [assumption|assumption|rewrite app_nil_r; reflexivity]).
  destruct G as [G1 G2 G3 [G4 G5] G6].
  assert (W1 : 0 < wid k) by (unfold wid; destruct (k =? n)%nat; assumption).
  assert (W2 : 0 < widb k) by (unfold widb; destruct (k =? n)%nat; assumption).
  pose proof (step_linear sd sI bI [d] [db] add addb d true G lo b _ _ _ _ _ b _ k (wid k) (widb k) R0 Hh W1 W2) as S1. rewrite zK in S1.
  eapply okp_weaken; [exact S1|]. intros b3 [r1 r2 r3 r4 r5 r6 r7 _]. rewrite g2 in *. cbn [app] in *. split; [|exact r6]. split; auto.
  - rewrite r3. match goal with |- (_ + ?l)%nat = _ => change l with 3%nat end. lia.
  - rewrite r4, g3, seq_map. unfold dl_desc. replace (3 * k + 1 + 1 + 1)%nat with (3 * k + 3)%nat by lia. replace (3 * k + 1 + 1)%nat with (3 * k + 2)%nat by lia. reflexivity.
  - rewrite r5, g4, seq_map. cbn [app]. unfold dl_out. replace (3 * k + 1 + 1 + 1)%nat with (3 * k + 3)%nat by lia. reflexivity.
  - intros j i tr Hj Hi. destruct (Nat.eq_dec j k) as [->|]; [apply r7; exact Hi|eapply hasn_ext; [exact r2|apply g7; [lia|assumption]]].
Qed.
Lemma lm_act x lo k b : lmade x lo k b -> act b 1 = (3 * k)%nat.
Proof.
  intros H. unfold act. rewrite (lm_acts _ _ _ _ H). destruct k as [|k]; [reflexivity|]. rewrite seq_map, app_comm_cons.
  rewrite app_length. cbn [List.length]. rewrite app_nth2 by (cbn [List.length]; lia).
  match goal with |- nth ?m _ _ = _ => replace m with 0%nat by (cbn [List.length]; lia) end. cbn [nth]. unfold dl_out. lia.
Qed.
Lemma lm_loop x lo m : wf_tensor x -> tens x (lin_x sd sI [d]) (lin_x sd bI [db]) -> forall k b, (k + m <= n)%nat -> lmade x lo k b ->
  okp (repeat_build m (fun b => push (gen_linear (act b 1) sd NoTrans 1 [add] [addb] true b)) b) (lmade x lo (k + m)).
Proof.
  intros Wx Tx. induction m as [|m IH]; intros k b Hk Hb; cbn [repeat_build]; [rewrite Nat.add_0_r; exact Hb|].
  rewrite (lm_act x lo k b Hb). pose proof (lm_step x lo k b ltac:(lia) Wx Tx Hb) as Hs.
  assert (E : wid k = add /\ widb k = addb) by (unfold wid, widb; destruct (Nat.eqb_spec k n); [lia|auto]). destruct E as [E1 E2]. rewrite E1, E2 in Hs.
  eapply okp_bind; [exact Hs|]. intros b1 [H1 _]. replace (k + S m)%nat with (S k + m)%nat by lia. apply IH; [lia|exact H1].
Qed.
Lemma deep_linear_ok x lo next : (0 < n)%nat -> wf_tensor x -> tens x (lin_x sd sI [d]) (lin_x sd bI [db]) -> lo <= next -> (forall h, In h (tile_handles x) -> lo <= h < next) ->
  okp (deep_linear sd 1 add addb (S n) (input_build x None next)) (fun b' => lmade x lo (S n) b' /\ tfree (lid b') b').
Proof.
  intros Hn Wx Tx Hlo Hx. unfold deep_linear.
  destruct (Z.ltb_spec (Z.of_nat (S n)) 2); [lia|]. cbn [throw_if Z.leb Z.compare]. set (b0 := input_build x None next).
  assert (B0 : binv lo b0).
  { split; cbn [b_mem b_next b_n b0 input_build].
    - assumption.
    - intros [[|m]|[|m]|l m] t Ht; try discriminate. congruence.
    - intros [[|m]|[|m]|l m] t h Ht Hh; try discriminate. apply Hx. congruence.
    - intros [[|m]|[|m]|l m] [[|m']|[|m']|l' m'] t u Ht Hu Hne; try discriminate. congruence.
    - intros m Hm. destruct m; [lia|]. split; reflexivity. }
  assert (M0 : lmade x lo 0 b0) by (split; try reflexivity; try exact B0; [intros _ k i _; reflexivity|intros; lia]).
  assert (EB : match sd with SideL => (sl_last 1 (bshape b0 0), sl_last 1 (bbase b0 0)) | SideR => (sl_to 1 (bshape b0 0), sl_to 1 (bbase b0 0)) end = ([d], [db])).
  { destruct Tx as (T1 & T2 & _). unfold bshape, bbase, PyModels.bt, b0, input_build. cbn [b_mem]. rewrite T1, T2. destruct sd; cbn [lin_x].
    - unfold sl_last. rewrite !app_length. cbn [List.length]. change (Z.to_nat 1) with 1%nat. rewrite !Nat.add_sub, !skipn_app, !Nat.sub_diag, !skipn_all. reflexivity.
    - reflexivity. }
  rewrite EB. cbv zeta.
  pose proof (lm_step x lo 0 b0 ltac:(lia) Wx Tx M0) as S1. assert (E : wid 0 = add /\ widb 0 = addb) by (unfold wid, widb; destruct (Nat.eqb_spec 0 n); [lia|auto]). destruct E as [E1 E2]. rewrite E1, E2 in S1.
  eapply okp_bind; [exact S1|]. intros b1 [H1 _]. cbn [Nat.sub].
  replace (S n - 2)%nat with (n - 1)%nat by lia. eapply okp_bind; [apply (lm_loop x lo (n - 1) Wx Tx 1 b1 ltac:(lia) H1)|]. replace (1 + (n - 1))%nat with n by lia. intros b2 H2.
  rewrite (lm_act x lo n b2 H2). pose proof (lm_step x lo n b2 ltac:(lia) Wx Tx H2) as S3.
  unfold wid, widb in S3. rewrite Nat.eqb_refl in S3. exact S3.
Qed.
End Lin.
