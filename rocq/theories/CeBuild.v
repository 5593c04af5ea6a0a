(** * C76: which arguments the constructors of CrossEntropy and GPT2 refuse *)
From Coq Require Import Reals Lra FunctionalExtensionality Sorted.
From Verif Require Import Base Spec Geometry Traits TraitsProofs Runtime Ops RealOps TensorSem ElemGeneric Concrete Axis SliceGeo Sequence XReals MatOps CrossEntropy XTriples HasRuns TapeMath Tape PyLayers PyModels BuildEnv BuildModel.
Local Close Scope R_scope.
Local Open Scope list_scope.
Local Open Scope Z_scope.

Lemma gen_ce_ok' lo o V Vb sh ba b : V <= Vb -> binv lo b -> tfree (lid b) b -> hast b (Val o) (V :: sh) (Vb :: ba) -> fit (V :: sh) (Vb :: ba) ->
  okp (gen_cross_entropy o b) (fun '(labels, b') => binv lo b' /\ ext b b' /\ b_n b' = b_n b /\ b_layers b' = b_layers b /\ b_acts b' = b_acts b /\
    wf_tensor labels /\ tens labels sh ba /\ (forall k, In k (tile_handles labels) -> lo <= k < b_next b') /\ (forall x t, b_mem b' x = Some t -> disj labels t) /\
    hast b' (Tmp (lid b) 0) [] [] /\ hast b' (Tmp (lid b) 1) (2 :: sh) (2 :: ba) /\ hast b' (Tmp (lid b) 2) sh ba /\ tfree (S (lid b)) b').
Proof.
  intros HV [i1 i2 i3 i4 i5] Ht Ho Hf. destruct (hast_shape _ _ _ _ Ho) as (E1 & E2 & E3). unfold gen_cross_entropy. rewrite E1, E2.
  change (sl_from 1 (V :: sh)) with sh. change (sl_from 1 (Vb :: ba)) with ba. cbv zeta.
  assert (Hf' := Hf). destruct Hf' as (F1 & F2 & F3). inversion F2 as [|? ? P1 P2]; subst. inversion F3 as [|? ? Q1 Q2]; subst. rewrite !zlen_cons in F1.
  assert (FS : fit sh ba) by (split; [lia|split; assumption]).
  assert (FM : fit (2 :: sh) (2 :: ba)) by (split; [rewrite !zlen_cons; lia|split; constructor; (lia || assumption)]).
  assert (F0 : fit [] []) by (split; [reflexivity|split; constructor]).
  assert (G1 : prodZ (gridZ (V :: sh) (Vb :: ba)) = prodZ (gridZ sh ba)).
  { change (gridZ (V :: sh) (Vb :: ba)) with ((V + Vb - 1) / Vb :: gridZ sh ba). cbn [prodZ].
    replace ((V + Vb - 1) / Vb) with 1; [lia|]. apply Z.div_unique with (r := V - 1); lia. }
  assert (G2 : prodZ (gridZ (2 :: sh) (2 :: ba)) = prodZ (gridZ sh ba)).
  { change (gridZ (2 :: sh) (2 :: ba)) with (1 :: gridZ sh ba). cbn [prodZ]. lia. }
  eapply okp_bind; [apply (mk_ok lo sh ba (fun _ => bdistr b o) b); [exact FS|rewrite E3; exact G1|assumption]|].
  intros [labels b1] (Wl & Tl & Rl & M1 & N1 & n1 & l1 & a1).
  assert (L1 : lid b1 = lid b) by (unfold lid; rewrite l1; reflexivity). rewrite L1.
  eapply okp_bind.
  { apply (alloc_ok lo (Tmp (lid b) 1) (2 :: sh) (2 :: ba) (fun _ => bdistr b o) b1); rewrite ?M1.
    - lia. - assumption. - intros x t h Hx Hh. specialize (i3 x t h Hx Hh). lia. - assumption.
    - apply Ht. reflexivity. - assumption. - rewrite E3, G1. symmetry. exact G2. }
  intros b2 ([a2 w2 r2 d2 e2 o2 n2 l2 c2 nw2 m2] & T2). assert (L2 : lid b2 = lid b) by (unfold lid in *; rewrite l2; assumption). rewrite L2.
  eapply okp_bind.
  { apply (alloc_ok lo (Tmp (lid b) 0) [] [] (fun _ => [0]) b2); try assumption; [|reflexivity].
    rewrite o2 by congruence. rewrite M1. apply Ht. reflexivity. }
  intros b3 ([a3 w3 r3 d3 e3 o3 n3 l3 c3 nw3 m3] & T3). assert (L3 : lid b3 = lid b) by (unfold lid in *; rewrite l3; assumption). rewrite L3.
  eapply okp_bind.
  { apply (alloc_ok lo (Tmp (lid b) 2) sh ba (fun _ => bdistr b o) b3); try assumption; [|rewrite E3; exact G1].
    rewrite o3, o2 by congruence. rewrite M1. apply Ht. reflexivity. }
  intros b4 ([a4 w4 r4 d4 e4 o4 n4 l4 c4 nw4 m4] & T4). cbn [okp].
  split; [|split; [|split; [|split; [|split; [|split; [|split; [|split; [|split; [|split; [|split]]]]]]]]]].
  - split; try assumption. intros k Hk. rewrite !o4, !o3, !o2, M1 by congruence. apply i5. rewrite <- n1, <- n2, <- n3, <- n4. assumption.
  - intros x t Hx. apply e4, e3, e2. rewrite M1. assumption.
  - rewrite n4, n3, n2. assumption.
  - rewrite l4, l3, l2. assumption.
  - rewrite c4, c3, c2. assumption.
  - assumption.
  - assumption.
  - intros k Hk. specialize (Rl k Hk). lia.
  - intros x t Hx h H1 H2. specialize (Rl h H1). destruct (gvar_dec x (Tmp (lid b) 2)) as [->|Q4].
    { specialize (nw4 t h Hx H2). lia. }
    rewrite o4 in Hx by assumption. destruct (gvar_dec x (Tmp (lid b) 0)) as [->|Q3].
    { specialize (nw3 t h Hx H2). lia. }
    rewrite o3 in Hx by assumption. destruct (gvar_dec x (Tmp (lid b) 1)) as [->|Q2'].
    { specialize (nw2 t h Hx H2). lia. }
    rewrite o2, M1 in Hx by assumption. specialize (i3 x t h Hx H2). lia.
  - eapply hast_ext; [exact e4|exact T3].
  - eapply hast_ext; [exact e4|]. eapply hast_ext; [exact e3|exact T2].
  - split; [exact T4|].
    intros k i Hk. rewrite o4, o3, o2, M1 by (intros C; inversion C; lia). apply Ht. lia.
Qed.
(** ** C76: the logits of [V] classes, in tiles of [Vb] classes: the loss is constructed exactly when
    all classes are in one tile; otherwise the constructor raises *)
Theorem C76_cross_entropy_accepts lo o V Vb sh ba b : binv lo b -> tfree (lid b) b -> hast b (Val o) (V :: sh) (Vb :: ba) -> fit (V :: sh) (Vb :: ba) ->
  (V <= Vb -> exists labels b', gen_cross_entropy o b = Ok (labels, b') /\ t_shape labels = sh /\ t_base labels = ba) /\
  (Vb < V -> gen_cross_entropy o b = Throw "Wrong distribution").
Proof.
  intros HI Ht Ho Hf. split; intros HV.
  - pose proof (gen_ce_ok' lo o V Vb sh ba b HV HI Ht Ho Hf) as H. unfold okp in H. destruct (gen_cross_entropy o b) as [[labels b']| |]; try contradiction.
    destruct H as (_ & _ & _ & _ & _ & _ & (T1 & T2 & _) & _). exists labels, b'. auto.
  - destruct (hast_shape _ _ _ _ Ho) as (E1 & E2 & E3). destruct Hf as (F1 & F2 & F3). inversion F2 as [|? ? P1 P2]; subst. inversion F3 as [|? ? Q1 Q2]; subst. rewrite !zlen_cons in F1.
    unfold gen_cross_entropy. rewrite E1, E2. change (sl_from 1 (V :: sh)) with sh. change (sl_from 1 (Vb :: ba)) with ba. cbv zeta. unfold mk_tensor.
    rewrite TensorTraits_new_ok by (assumption || lia). cbn [bind]. rewrite Tensor_new_throw; [reflexivity|]. rewrite E3.
    change (gridZ (V :: sh) (Vb :: ba)) with ((V + Vb - 1) / Vb :: gridZ sh ba). cbn [prodZ tn_of tn_grid tt_of tt_nelems].
    assert (G1 : 2 <= (V + Vb - 1) / Vb) by (apply Z.div_le_lower_bound; lia).
    assert (F1' : List.length sh = List.length ba) by (unfold zlen in F1; lia). assert (G2 : 0 < prodZ (gridZ sh ba)) by (apply prodZ_pos, gridZ_pos; assumption).
    change ((V + Vb - 1) / Vb * prodZ (gridZ sh ba) <> prodZ (gridZ sh ba)). revert G1 G2. generalize ((V + Vb - 1) / Vb), (prodZ (gridZ sh ba)). clear. intros u v H1 H2. nia.
Qed.

(** GPT2Model refuses tiles of the embeddings that the tiles of the vocabulary's embeddings do not
    divide, and, with flash attention, tiles of heads that do not divide their number *)
Theorem C76_gpt2_refuses c ids pos next :
  c_embed_tile c mod c_vocab_tile c <> 0 \/ ((0 < c_layers c)%nat /\ c_flash c = true /\ c_head c mod c_head_tile c <> 0) ->
  forall r, gpt2 c ids pos next <> Ok r.
Proof.
  intros H [mask b] E. unfold gpt2 in E. cbv zeta in E.
  destruct (mk_tensor _ _ _ _) as [[mk b0]| |]; cbn [bind] in E; try discriminate E.
  destruct H as [H|(H1 & H2 & H3)].
  - unfold push at 1, gen_embedding at 1 in E. destruct (Z.eqb_spec (c_embed_tile c mod c_vocab_tile c) 0); [contradiction|]. discriminate E.
  - destruct (push (gen_embedding ids _ _ _ _ _ _)) as [b1| |]; cbn [bind] in E; try discriminate E.
    destruct (push (gen_embedding pos _ _ _ _ _ _)) as [b2| |]; cbn [bind] in E; try discriminate E.
    destruct (push (gen_add_slice _ _ _ _)) as [b3| |]; cbn [bind] in E; try discriminate E.
    destruct (c_layers c) as [|l]; [lia|]. cbn [repeat_build] in E. unfold gpt2_block at 1 in E.
    destruct (push (gen_layer_norm _ _ _ b3)) as [b4| |]; cbn [bind] in E; try discriminate E.
    unfold push at 1, gen_attention at 1 in E. rewrite H2 in E.
    destruct (bshape b4 (act b4 1)) as [|? [|? [|? [|? ?]]]]; try discriminate E. destruct (bbase b4 (act b4 1)) as [|? [|? [|? [|? ?]]]]; try discriminate E.
    destruct (negb (_ =? _)%Z); [discriminate E|]. destruct (Z.eqb_spec (c_head c mod c_head_tile c) 0); [contradiction|]. discriminate E.
Qed.
