(** * What the constructor of DeepReLU makes *)
From Coq Require Import Reals Lra.
From Verif Require Import Base Spec Geometry Traits TraitsProofs Runtime Ops RealOps TensorSem ElemGeneric Concrete Axis SliceGeo XReals MatOps XTriples HasRuns PyLayers PyModels BuildEnv GptBuild ReluSpec.
Local Close Scope R_scope.
Local Open Scope list_scope.
Local Open Scope Z_scope.

Section Relu.
(** samples [sI] in tiles [bI]; features of the input [din] in tiles [dinb] *)
Variables (sd : side) (sI bI din dinb : list Z) (add addb V : Z) (bias : bool).
Notation K := (features din add).
Notation bK := (features dinb addb).
Notation bb := (if bias then 1 else 0)%nat.
(** [rfirst k]: first object made by layer [k]; its input is the object before *)
Definition rfirst (k : nat) : nat := (1 + (if bias then 4 else 3) * k)%nat.
Definition lin_nodes (k : nat) (o ob : Z) : list dims :=
  (lin_w sd (K k) [o], lin_w sd (bK k) [ob]) :: (if bias then [([o], [ob])] else []) ++ [(lin_y sd sI [o], lin_y sd bI [ob])].
Definition relu_nodes (k : nat) : list dims := lin_nodes k add addb ++ [(lin_y sd sI [add], lin_y sd bI [addb])].
Definition lin_desc (k : nat) : ldesc := LLinear sd NoTrans (rfirst k - 1) (rfirst k + 1 + bb) (rfirst k) (zlen (K k)) (if bias then Some (rfirst k + 1)%nat else None).
Definition relu_layers (k : nat) : list ldesc := [lin_desc k; LAct Relu (rfirst k + 1 + bb) (rfirst k + 2 + bb)].
Definition relu_outs (k : nat) : list nat := [rfirst k + 1 + bb; rfirst k + 2 + bb]%nat.

Record rdims : Prop := {
  rd_I : fit sI bI; rd_K : fit din dinb; rd_nd : 0 < zlen din;
  rd_add : 0 < add /\ 0 < addb; rd_V : 0 < V
}.
Hypothesis G : rdims.
Lemma K_fit k : fit (K k) (bK k) /\ 0 < zlen (K k).
Proof. destruct G as [g1 g2 g3 [g4 g5] g6]. destruct k; cbn [features]; [auto|]. split; [apply fit1; assumption|reflexivity]. Qed.

Lemma step_linear lo b0 A trs ds acs ts b x k o ob : row lo b0 A trs ds acs ts b -> hast b (Val x) (lin_x sd sI (K k)) (lin_x sd bI (bK k)) -> 0 < o -> 0 < ob ->
  okp (push (gen_linear x sd NoTrans (zlen (K k)) [o] [ob] bias b)) (row lo b0 A (trs ++ lin_nodes k o ob)
    (ds ++ [LLinear sd NoTrans x (b_n b + 1 + bb) (b_n b) (zlen (K k)) (if bias then Some (b_n b + 1)%nat else None)]) (acs ++ [(b_n b + 1 + bb)%nat]) ts).
Proof.
  intros R Hx H1 H2. destruct (K_fit k) as [F1 F2].
  pose proof (row_push lo b0 A trs ds acs ts b (gen_linear x sd NoTrans (zlen (K k)) [o] [ob] bias b)
    (LLinear sd NoTrans x (b_n b + 1 + bb) (b_n b) (zlen (K k)) (if bias then Some (b_n b + 1)%nat else None)) (lin_nodes k o ob) [] R) as HK.
  cbn [map] in HK. rewrite app_nil_r in HK. apply HK.
  eapply okp_weaken; [apply (gen_linear_ok lo (lid b) x sd sI bI (K k) (bK k) [o] [ob] bias b); [apply (rw_inv _ _ _ _ _ _ _ _ R)|exact Hx|apply G|exact F1|apply fit1; assumption|exact F2|reflexivity]|].
  intros [d b'] (-> & M & T). split; [|split; [exact M|intros ? ? []]]. destruct bias; rewrite <- Nat.add_assoc; reflexivity.
Qed.
Lemma step_relu lo b0 A trs ds acs ts b x sh ba : row lo b0 A trs ds acs ts b -> hast b (Val x) sh ba -> fit sh ba ->
  okp (push (gen_act x Relu b)) (row lo b0 A (trs ++ [(sh, ba)]) (ds ++ [LAct Relu x (b_n b)]) (acs ++ [b_n b]) ts).
Proof.
  intros R Hx Hf. pose proof (row_push lo b0 A trs ds acs ts b (gen_act x Relu b) (LAct Relu x (b_n b)) [(sh, ba)] [] R) as HK. cbn [map] in HK. rewrite app_nil_r in HK. apply HK.
  eapply okp_weaken; [apply (gen_act_ok lo (lid b) x Relu sh ba b); [apply (rw_inv _ _ _ _ _ _ _ _ R)|exact Hx|exact Hf]|].
  intros [d b'] (-> & M & T). split; [reflexivity|]. split; [exact M|intros ? ? []].
Qed.

(** ** The loop *)
Record rmade (x : tensor) (lo : Z) (k : nat) (b : build) : Prop := {
  rm_inv : binv lo b;
  rm_n : b_n b = rfirst k;
  rm_layers : b_layers b = flat_map relu_layers (seq 0 k);
  rm_acts : b_acts b = O :: flat_map relu_outs (seq 0 k);
  rm_free : tfree (lid b) b;
  rm_x : b_mem b (Val 0) = Some x;
  rm_blk : forall j i tr, (j < k)%nat -> nth_error (relu_nodes j) i = Some tr -> hasn b (rfirst j + i) tr
}.
Lemma seq_flat {X} (f : nat -> list X) k : flat_map f (seq 0 (S k)) = flat_map f (seq 0 k) ++ f k.
Proof. rewrite seq_S, flat_map_app. cbn [flat_map Nat.add]. rewrite app_nil_r. reflexivity. Qed.
Lemma fit_y o ob : 0 < o -> 0 < ob -> fit (lin_y sd sI [o]) (lin_y sd bI [ob]).
Proof.
  intros H1 H2. destruct G as [(g1 & g2 & g3) _ _ _ _]. destruct sd; cbn [lin_y app]; (split; [rewrite ?zlen_app, ?zlen_cons; unfold zlen in *; cbn [List.length]; lia|]);
    unfold pos in *; split; rewrite ?Forall_app; try split; repeat (apply Forall_cons || apply Forall_nil); assumption.
Qed.
Lemma rm_in x lo k b : wf_tensor x -> tens x (lin_x sd sI din) (lin_x sd bI dinb) -> rmade x lo k b -> hast b (Val (rfirst k - 1)) (lin_x sd sI (K k)) (lin_x sd bI (bK k)).
Proof.
  intros Wx Tx [_ _ _ _ _ H1 H2]. destruct k as [|k].
  - replace (rfirst 0 - 1)%nat with 0%nat by (unfold rfirst; destruct bias; lia). exists x. split; [exact H1|exact Tx].
  - assert (Hb : exists i, (rfirst (S k) - 1)%nat = (rfirst k + i)%nat /\ nth_error (relu_nodes k) i = Some (lin_y sd sI [add], lin_y sd bI [addb])).
    { unfold rfirst, relu_nodes, lin_nodes. destruct bias; [exists 3%nat|exists 2%nat]; (split; [lia|reflexivity]). }
    destruct Hb as (i & -> & Hi). destruct (H2 k i _ ltac:(lia) Hi) as [H3 _]. cbn [fst snd] in H3. cbn [features]. destruct sd; exact H3.
Qed.
Lemma rm_step x lo k b : wf_tensor x -> tens x (lin_x sd sI din) (lin_x sd bI dinb) -> rmade x lo k b ->
  okp (b1 <- push (gen_linear (rfirst k - 1) sd NoTrans (zlen (K k)) [add] [addb] bias b) ;; push (gen_act (act b1 1) Relu b1)) (rmade x lo (S k)).
Proof.
  intros Wx Tx Hg. assert (Hh := rm_in x lo k b Wx Tx Hg). destruct Hg as [g1 g2 g3 g4 g5 g6 g7]. destruct G as [G1 G2 G3 [G4 G5] G6].
  assert (R0 : row lo b (b_acts b) [] [] [] [] b) by (apply row_start; [assumption|assumption|rewrite app_nil_r; reflexivity]).
  eapply okp_bind; [apply (step_linear lo b _ _ _ _ _ b _ k add addb R0 Hh G4 G5)|]. intros b1 R1. cbn [app] in R1. rewrite g2 in R1.
  assert (A1 : act b1 1 = (rfirst k + 1 + bb)%nat) by (rewrite (act_row b1 _ _ 1 (rw_acts _ _ _ _ _ _ _ _ R1)) by (cbn; lia); reflexivity). rewrite A1.
  assert (Hy : hast b1 (Val (rfirst k + 1 + bb)) (lin_y sd sI [add]) (lin_y sd bI [addb])).
  { assert (Q : nth_error (lin_nodes k add addb) (1 + bb) = Some (lin_y sd sI [add], lin_y sd bI [addb])) by (unfold lin_nodes; destruct bias; reflexivity).
    destruct (rw_nodes _ _ _ _ _ _ _ _ R1 _ _ Q) as [Q1 _]. rewrite g2 in Q1. replace (rfirst k + 1 + bb)%nat with (rfirst k + (1 + bb))%nat by lia. exact Q1. }
  assert (N1 : b_n b1 = (rfirst k + 2 + bb)%nat) by (rewrite (rw_n _ _ _ _ _ _ _ _ R1), g2; unfold lin_nodes; destruct bias; cbn [List.length app]; lia).
  eapply okp_weaken; [apply (step_relu lo b _ _ _ _ _ b1 _ _ _ R1 Hy (fit_y add addb G4 G5))|]. intros b2 [r1 r2 r3 r4 r5 r6 r7 _]. rewrite N1 in *. cbn [app] in *.
  split; auto.
  - rewrite r3, g2. unfold rfirst, lin_nodes. destruct bias; cbn [List.length app]; lia.
  - rewrite r4, g3, seq_flat. reflexivity.
  - rewrite r5, g4, seq_flat. reflexivity.
  - intros j i tr Hj Hi. destruct (Nat.eq_dec j k) as [->|]; [|eapply hasn_ext; [exact r2|apply g7; [lia|assumption]]].
    rewrite g2 in r7. apply r7. exact Hi.
Qed.
Lemma nth_last2 {X} (l : list X) a c d : nth (List.length (l ++ [a; c]) - 1) (l ++ [a; c]) d = c.
Proof. rewrite app_length. cbn [List.length]. rewrite app_nth2 by lia. replace (List.length l + 2 - 1 - List.length l)%nat with 1%nat by lia. reflexivity. Qed.
Lemma rm_loop x lo m : wf_tensor x -> tens x (lin_x sd sI din) (lin_x sd bI dinb) -> forall k b, (0 < k)%nat -> rmade x lo k b ->
  okp (repeat_build m (fun b => b <- push (gen_linear (act b 1) sd NoTrans 1 [add] [addb] bias b) ;; push (gen_act (act b 1) Relu b)) b) (rmade x lo (k + m)).
Proof.
  intros Wx Tx. induction m as [|m IH]; intros k b Hk Hb; cbn [repeat_build]; [rewrite Nat.add_0_r; exact Hb|].
  assert (Ea : act b 1 = (rfirst k - 1)%nat).
  { unfold act. rewrite (rm_acts _ _ _ _ Hb). destruct k as [|k]; [lia|]. rewrite seq_flat. rewrite app_comm_cons. unfold relu_outs at 2 4. rewrite nth_last2. unfold rfirst. destruct bias; lia. }
  rewrite Ea. pose proof (rm_step x lo k b Wx Tx Hb) as Hs. destruct k as [|k]; [lia|]. change (zlen (K (S k))) with 1 in Hs.
  eapply okp_bind; [exact Hs|]. intros b1 H1. replace (S k + S m)%nat with (S (S k) + m)%nat by lia. apply IH; [lia|exact H1].
Qed.

(** ** The whole constructor: [n] rectified layers and the head *)
Record rbuilt (x : tensor) (n : nat) (lo : Z) (b : build) : Prop := {
  rb_inv : binv lo b;
  rb_n : b_n b = (rfirst n + 2 + bb)%nat;
  rb_layers : b_layers b = flat_map relu_layers (seq 0 n) ++ [lin_desc n];
  rb_acts : b_acts b = O :: flat_map relu_outs (seq 0 n) ++ [(rfirst n + 1 + bb)%nat];
  rb_x : b_mem b (Val 0) = Some x;
  rb_blk : forall j i tr, (j < n)%nat -> nth_error (relu_nodes j) i = Some tr -> hasn b (rfirst j + i) tr;
  rb_head : forall i tr, nth_error (lin_nodes n V V) i = Some tr -> hasn b (rfirst n + i) tr
}.
Lemma deep_relu_ok x n lo next : (0 < n)%nat -> wf_tensor x -> tens x (lin_x sd sI din) (lin_x sd bI dinb) -> lo <= next -> (forall h, In h (tile_handles x) -> lo <= h < next) ->
  okp (deep_relu sd (zlen din) add addb (S n) V bias (input_build x None next)) (fun b => rbuilt x n lo b /\ tfree (lid b) b).
Proof.
  intros Hn Wx Tx Hlo Hx. assert (G' := G). destruct G' as [G1 G2 G3 [G4 G5] G6]. unfold deep_relu.
  destruct (Z.ltb_spec (Z.of_nat (S n)) 2); [lia|]. destruct (Z.leb_spec (zlen din) 0); [lia|]. cbn [throw_if]. set (b0 := input_build x None next).
  assert (B0 : binv lo b0).
  { split; cbn [b_mem b_next b_n b0 input_build].
    - assumption.
    - intros [[|m]|[|m]|l m] t Ht; try discriminate. congruence.
    - intros [[|m]|[|m]|l m] t h Ht Hh; try discriminate. apply Hx. congruence.
    - intros [[|m]|[|m]|l m] [[|m']|[|m']|l' m'] t u Ht Hu Hne; try discriminate. congruence.
    - intros m Hm. destruct m; [lia|]. split; reflexivity. }
  assert (M0 : rmade x lo 0 b0).
  { split; try reflexivity; try exact B0; [unfold rfirst; destruct bias; reflexivity|intros k i _; reflexivity|intros; lia]. }
  pose proof (rm_step x lo 0 b0 Wx Tx M0) as S1. replace (rfirst 0 - 1)%nat with 0%nat in S1 by (unfold rfirst; destruct bias; lia). cbn [features] in S1.
  assert (Bind3 : forall (X Y W : Type) (a : res X) (f : X -> res Y) (g : Y -> res W), bind a (fun v => bind (f v) g) = bind (bind a f) g) by (intros X Y W [?|?|] f g; reflexivity).
  rewrite Bind3. eapply okp_bind; [exact S1|]. intros b1 H1. cbn [Nat.sub].
  replace (S n - 2)%nat with (n - 1)%nat by lia. eapply okp_bind; [apply (rm_loop x lo (n - 1) Wx Tx 1 b1 ltac:(lia) H1)|]. replace (1 + (n - 1))%nat with n by lia. intros b2 H2.
  assert (Hh := rm_in x lo n b2 Wx Tx H2). assert (Ea : act b2 1 = (rfirst n - 1)%nat).
  { unfold act. rewrite (rm_acts _ _ _ _ H2). destruct n as [|k]; [lia|]. rewrite seq_flat. rewrite app_comm_cons. unfold relu_outs at 2 4. rewrite nth_last2. unfold rfirst. destruct bias; lia. }
  rewrite Ea. destruct H2 as [g1 g2 g3 g4 g5 g6 g7].
  assert (R0 : row lo b2 (b_acts b2) [] [] [] [] b2) by (apply row_start; [assumption|assumption|rewrite app_nil_r; reflexivity]).
  assert (EK : zlen (K n) = 1) by (destruct n; [lia|reflexivity]).
  pose proof (step_linear lo b2 _ _ _ _ _ b2 _ n V V R0 Hh G6 G6) as S3. rewrite EK in S3.
  eapply okp_weaken; [exact S3|]. intros b3 [r1 r2 r3 r4 r5 r6 r7 _]. rewrite g2 in *. cbn [app] in *. split; [|assumption].
  split; auto.
  - rewrite r3. unfold lin_nodes. destruct bias; cbn [List.length app]; lia.
  - rewrite r4, g3. unfold lin_desc. rewrite EK. reflexivity.
  - rewrite r5, g4. reflexivity.
  - intros j i tr Hj Hi. eapply hasn_ext; [exact r2|]. auto.
Qed.
End Relu.
