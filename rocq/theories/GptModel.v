(** * The layers of GPT2 are right, in order, and those the constructor makes *)
From Coq Require Import Reals Lra FunctionalExtensionality Sorted.
From Verif Require Import Base Spec Geometry Traits TraitsProofs Runtime Ops RealOps TensorSem ElemGeneric Concrete Axis SliceGeo PropElem FiberGeo EmbedRuns XReals MatOps RSum AttnSpec CrossEntropy XTriples HasRuns TapeMath VjpMath Tape PyLayers PyLinear PySimple PyNorm AttMath PyAttn PyFlash Backprop PropModel PyModels BuildEnv GptBuild BuildModel GptSpec.
Local Close Scope R_scope.
Local Open Scope list_scope.
Local Open Scope Z_scope.

Section Gpt.
Variables (c : gpt2_config) (mask ids pos : tensor) (n nb nt bt h lo : Z) (b : build) (cs : list const).
Variables (idv posv : list Z -> Z).
Hypothesis G : gdims c n nb nt bt h.
Hypothesis HB : gbuilt c mask ids pos n nb nt bt h lo b.
Hypothesis HE : benv_ok b cs.
Hypothesis Heps : (0 < c_eps c)%R.
Hypothesis Hcs : In (CInt ids idv) cs /\ In (CInt pos posv) cs /\ In (CBool mask causal) cs.
Hypothesis Hids : t_shape ids = [n; nb] /\ t_base ids = [nt; bt].
Hypothesis Hpos : t_shape pos = [n] /\ t_base pos = [nt].
Hypothesis Hmask : t_shape mask = [n; n] /\ t_base mask = [nt; nt].
Hypothesis Hidv : forall idx, inb [n; nb] idx -> 0 <= idv idx < c_vocab c.
Hypothesis Hposv : forall idx, inb [n] idx -> 0 <= posv idx < c_maxpos c.
Hypothesis Hflash : c_flash c = true -> (nt | n) /\ (bt | nb).
Notation e := (c_embed c). Notation et := (c_embed_tile c). Notation I := (c_inner c). Notation It := (c_inner_tile c). Notation V := (c_vocab c). Notation L := (c_layers c).
Instance Env : env := benv b cs HE.
Definition req (_ : nat) : bool := true.

(** ** The layers *)
Definition gS : adims := {| d_e := e; d_ek := e; d_ev := e; d_h := h; d_n := n; d_b := nb; d_nh := c_head c |}.
Definition gB : adims := {| d_e := et; d_ek := et; d_ev := et; d_h := h; d_n := nt; d_b := bt; d_nh := c_head_tile c |}.
Definition AT (N id : nat) : attn := {| an_xq := N; an_xk := N; an_xv := N; an_y := N + 11; an_wq := N + 3; an_wk := N + 5; an_wv := N + 7; an_w := N + 9;
  an_bias := Some (N + 4, N + 6, N + 8, N + 10)%nat; an_mask := Some mask; an_id := id |}.
Definition g_attn (N id : nat) : layer := if c_flash c then flash_layer req (AT N id) mask gS causal else attn_layer req (AT N id) gS causal.
Definition g_pre : list layer := [emb_layer req ids idv 1 0 0 0; emb_layer req pos posv 3 2 0 1; add_slice_layer req 1 3 4 2 2].
Definition g_block (k : nat) : list layer :=
  let N := first k in let i := (3 + 8 * k)%nat in
  [ln_layer req (N - 1) N (N + 1) (N + 2) 0 (sqrt (c_eps c)) i; g_attn N (S i); add_layer req (N - 1) (N + 11) (N + 12) (S (S i));
   ln_layer req (N + 12) (N + 13) (N + 14) (N + 15) 0 (sqrt (c_eps c)) (S (S (S i)));
   linear_layer req SideR NoTrans (N + 13) (N + 18) (N + 16) 1 (Some (N + 17)%nat) (S (S (S (S i)))) [n; nb] [e] [I];
   act_layer req (c_act c) (N + 18) (N + 19) (S (S (S (S (S i)))));
   linear_layer req SideR NoTrans (N + 19) (N + 22) (N + 20) 1 (Some (N + 21)%nat) (S (S (S (S (S (S i)))))) [n; nb] [I] [e];
   add_layer req (N + 12) (N + 22) (N + 23) (S (S (S (S (S (S (S i)))))))].
Definition g_post : list layer :=
  let N := first L in let i := (3 + 8 * L)%nat in
  [ln_layer req (N - 1) N (N + 1) (N + 2) 0 (sqrt (c_eps c)) i; linear_layer req SideR NoTrans N (N + 4) (N + 3) 1 None (S i) [n; nb] [e] [V]].
Definition g_layers : list layer := g_pre ++ flat_map g_block (seq 0 L) ++ g_post.

(** ** Dimensions *)
Lemma hasn_isn k tr : hasn b k tr -> isn req k (fst tr) (snd tr).
Proof.
  intros [H1 H2]. apply hast_U in H1 as (U1 & S1 & B1). apply hast_U in H2 as (U2 & S2 & B2).
  split; [|split; assumption]. split; [assumption|]. intros _. split; [assumption|]. split; [exact (eq_trans S2 (eq_sym S1))|exact (eq_trans B2 (eq_sym B1))].
Qed.
Lemma pre_isn i tr : nth_error (pre_nodes c n nb nt bt) i = Some tr -> isn req i (fst tr) (snd tr).
Proof. intros H. apply hasn_isn, (gb_pre _ _ _ _ _ _ _ _ _ _ _ HB). assumption. Qed.
Lemma blk_isn j i tr : (j < L)%nat -> nth_error (block_nodes c n nb nt bt h) i = Some tr -> isn req (first j + i) (fst tr) (snd tr).
Proof. intros Hj H. apply hasn_isn, (gb_blk _ _ _ _ _ _ _ _ _ _ _ HB); assumption. Qed.
Lemma post_isn i tr : nth_error (post_nodes c n nb nt bt) i = Some tr -> isn req (first L + i) (fst tr) (snd tr).
Proof. intros H. apply hasn_isn, (gb_post _ _ _ _ _ _ _ _ _ _ _ HB). assumption. Qed.
(** the input of block [j], or of the last norm *)
Lemma inp_isn j : (j <= L)%nat -> isn req (first j - 1) [e; n; nb] [et; nt; bt].
Proof.
  intros Hj. destruct j as [|j]; [apply (pre_isn 4 _ eq_refl)|].
  replace (first (S j) - 1)%nat with (first j + 23)%nat by (unfold first; lia). apply (blk_isn j 23 _ ltac:(lia) eq_refl).
Qed.
Lemma blk_is j l i tr : (j < L)%nat -> In (l, i, tr) (block_tmps c n nb nt bt h) -> is (Tmp (3 + 8 * j + l) i) (fst tr) (snd tr).
Proof. intros Hj H. apply (gb_tmp _ _ _ _ _ _ _ _ _ _ _ HB) with (j := j) in H; [|assumption]. apply hast_U in H. exact H. Qed.

(** ** Every layer is right *)
Ltac nd H := first [exact (proj1 H)].
Lemma seps : (0 < sqrt (c_eps c))%R.
Proof. apply sqrt_lt_R0. assumption. Qed.
Lemma ln_good' x y g be id r rb : isn req x (e :: r) (et :: rb) -> isn req y (e :: r) (et :: rb) -> isn req g [e] [et] -> isn req be [e] [et] ->
  x <> y -> g <> y -> be <> y ->
  is (Tmp id 0) (e :: r) (et :: rb) -> is (Tmp id 1) (e :: r) (et :: rb) -> is (Tmp id 2) r rb -> is (Tmp id 3) r rb ->
  layer_good req (ln_layer req x y g be 0 (sqrt (c_eps c)) id).
Proof.
  intros (X1 & X2 & X3) (Y1 & Y2 & Y3) (G1 & G2 & G3) (B1 & B2 & B3) N1 N2 N3 (T01 & T02 & T03) (T11 & T12 & T13) (T21 & T22 & T23) (T31 & T32 & T33).
  unfold vshape, vbase in *.
  assert (O : ln_ok req x y g be 0 (sqrt (c_eps c)) id).
  { split; try assumption; try reflexivity; try apply seps.
    - split; congruence.
    - unfold fiber_match. rewrite Y2, Y3, G2, G3, zlen_cons. pose proof (zlen_nonneg r). repeat split; try lia; rewrite fib_R; reflexivity.
    - unfold fiber_match. rewrite Y2, Y3, B2, B3, zlen_cons. pose proof (zlen_nonneg r). repeat split; try lia; rewrite fib_R; reflexivity.
    - intros i Hi. destruct i as [|[|[|[|i]]]]; try assumption. lia.
    - split; congruence. - split; congruence.
    - unfold slice_match. rewrite Y2, Y3, T22, T23, zlen_cons. pose proof (zlen_nonneg r). repeat split; try lia.
    - unfold slice_match. rewrite Y2, Y3, T32, T33, zlen_cons. pose proof (zlen_nonneg r). repeat split; try lia. }
  split; [apply ln_layer_ok; exact O|apply ln_vjp; exact O].
Qed.

Lemma lin_good' x y w o id (K J Kt Jt : Z) : isn req x [K; n; nb] [Kt; nt; bt] -> isn req y [J; n; nb] [Jt; nt; bt] -> isn req w [J; K] [Jt; Kt] ->
  (forall k, o = Some k -> isn req k [J] [Jt]) -> x <> y -> w <> y -> (forall k, o = Some k -> k <> y) ->
  layer_good req (linear_layer req SideR NoTrans x y w 1 o id [n; nb] [K] [J]).
Proof.
  intros (X1 & X2 & X3) (Y1 & Y2 & Y3) (W1 & W2 & W3) Ho N1 N2 N3.
  assert (O : linear_ok req SideR NoTrans x y w 1 o [n; nb] [K] [J] [nt; bt] [Kt] [Jt]).
  { split.
    - split; [exact X1|split; [exact Y1|split; [exact W1|]]]. intros k Hk. apply (Ho k Hk).
    - split; [reflexivity|auto].
    - split; reflexivity. - split; assumption. - split; assumption. - split; assumption. - split; reflexivity.
    - intros k Hk. destruct (Ho k Hk) as (_ & B2 & B3). split; [reflexivity|split; assumption]. }
  split; [eapply linear_layer_ok; exact O|eapply linear_vjp; exact O].
Qed.
Lemma act_good' x y id sh ba : isn req x sh ba -> isn req y sh ba -> x <> y -> layer_good req (act_layer req (c_act c) x y id).
Proof.
  intros (X1 & X2 & X3) (Y1 & Y2 & Y3) N1. unfold vshape, vbase in *.
  assert (O : act_ok req x y) by (split; try assumption; [reflexivity|split; congruence]).
  split; [apply act_layer_ok; exact O|apply act_vjp; exact O].
Qed.
Lemma add_good' x y r id sh ba : isn req x sh ba -> isn req y sh ba -> isn req r sh ba -> x <> r -> y <> r -> layer_good req (add_layer req x y r id).
Proof.
  intros (X1 & X2 & X3) (Y1 & Y2 & Y3) (R1 & R2 & R3) N1 N2. unfold vshape, vbase in *.
  assert (O : add_ok req x y r) by (split; try assumption; try reflexivity; split; congruence).
  split; [apply add_layer_ok; exact O|apply add_vjp; exact O].
Qed.
Lemma cst_disj t f x sh ba : In (CInt t f) cs -> is x sh ba -> disj t (A x).
Proof. intros Hc (Hx & _ & _). destruct (bU_inv b x Hx) as (u & E & Eu). change (A x) with (PyModels.bt b x). rewrite Eu. apply (be_cdisj _ _ HE _ x u Hc E). Qed.
Lemma cst_disjb t f x sh ba : In (CBool t f) cs -> is x sh ba -> disj t (A x).
Proof. intros Hc (Hx & _ & _). destruct (bU_inv b x Hx) as (u & E & Eu). change (A x) with (PyModels.bt b x). rewrite Eu. apply (be_cdisj _ _ HE _ x u Hc E). Qed.
Lemma emb_good' ix iv y w id (sh ba : list Z) (vt v : Z) : In (CInt ix iv) cs -> t_shape ix = sh -> t_base ix = ba ->
  isn req w [e; v] [vt; v] -> isn req y (e :: sh) (et :: ba) -> w <> y -> (vt | et) -> (forall idx, inb sh idx -> 0 <= iv idx < v) ->
  layer_good req (emb_layer req ix iv y w 0 id).
Proof.
  intros Hc Hs Hb Hw Hy N1 Hd Hr. pose proof (cst_disj _ _ _ _ _ Hc (isn_val _ _ _ _ Hy)) as D1. pose proof (cst_disj _ _ _ _ _ Hc (isn_grad _ _ _ _ Hw eq_refl)) as D2.
  destruct Hw as (W1 & W2 & W3), Hy as (Y1 & Y2 & Y3).
  assert (O : emb_ok req ix iv y w 0).
  { split; try assumption; try reflexivity.
    - apply (be_cwf _ _ HE _ Hc).
    - intros s HK. assert (HK' : Forall (c_holds s) cs) by exact HK. rewrite Forall_forall in HK'. exact (HK' _ Hc).
    - unfold emb_match, slice_match. unfold vshape, vbase in *. rewrite W2, W3, Y2, Y3, Hs, Hb, zlen_cons. pose proof (zlen_nonneg sh). repeat split; try lia. exact Hd.
    - rewrite Hs, W2, W3. intros idx Hi. specialize (Hr idx Hi). change (zn [vt; v] 1) with v. change (zn [e; v] 1) with v. lia. }
  split; [apply emb_layer_ok; exact O|apply emb_vjp; exact O].
Qed.
Lemma pre_good : Forall (layer_good req) g_pre.
Proof.
  destruct Hcs as (C1 & C2 & C3). destruct Hids as [I1 I2], Hpos as [P1 P2]. assert (Hd := g_div _ _ _ _ _ _ G).
  constructor; [|constructor; [|constructor; [|constructor]]].
  - apply (emb_good' ids idv 1 0 0 [n; nb] [nt; bt] (c_vocab_tile c) V); try assumption; [apply (pre_isn 0 _ eq_refl)|apply (pre_isn 1 _ eq_refl)|lia].
  - apply (emb_good' pos posv 3 2 1 [n] [nt] (c_vocab_tile c) (c_maxpos c)); try assumption; [apply (pre_isn 2 _ eq_refl)|apply (pre_isn 3 _ eq_refl)|lia].
  - destruct (pre_isn 1 _ eq_refl) as (X1 & X2 & X3), (pre_isn 3 _ eq_refl) as (Y1 & Y2 & Y3), (pre_isn 4 _ eq_refl) as (U1 & U2 & U3). unfold vshape, vbase in *. cbn [fst snd hid] in *.
    assert (O : add_slice_ok req 1 3 4 2) by (split; try assumption; try reflexivity; try lia; [split; congruence|unfold slice_match; rewrite U2, U3, Y2, Y3; repeat split; lia]).
    split; [apply add_slice_layer_ok; exact O|apply add_slice_vjp; exact O].
Qed.
Lemma attn_good k : (k < L)%nat -> layer_good req (g_attn (first k) (S (3 + 8 * k))).
Proof.
  intros Hk. set (N := first k). destruct Hcs as (_ & _ & C3). destruct Hmask as [M1 M2].
  assert (T : forall i tr, In (i, tr) (attn_tmps n nb (c_head c) h nt bt (c_head_tile c)) -> is (Tmp (S (3 + 8 * k)) i) (fst tr) (snd tr)).
  { intros i tr Hi. replace (S (3 + 8 * k)) with (3 + 8 * k + 1)%nat by lia. apply blk_is; [assumption|]. unfold block_tmps. apply in_or_app; right. apply in_or_app; left.
    apply in_map_iff. exists (i, tr). split; [reflexivity|assumption]. }
  assert (Ee := g_e _ _ _ _ _ _ G).
  assert (B : forall i tr, nth_error (block_nodes c n nb nt bt h) i = Some tr -> isn req (N + i) (fst tr) (snd tr)) by (intros i tr Hi; apply blk_isn; assumption).
  unfold block_nodes in B. rewrite <- Ee in B.
  assert (B0 := B 0%nat _ eq_refl). rewrite Nat.add_0_r in B0.
  assert (O : attn_ok req (AT N (S (3 + 8 * k))) gS gB causal).
  { split; try exact B0; try reflexivity; cbn [AT an_y an_wq an_wk an_wv an_w an_id an_mask an_bq an_bk an_bv an_bo an_bias option_map fst snd an_ins].
    - exact (B 11%nat _ eq_refl). - exact (B 3%nat _ eq_refl). - exact (B 5%nat _ eq_refl). - exact (B 7%nat _ eq_refl). - exact (B 9%nat _ eq_refl).
    - intros x Hx; inversion Hx; subst x. exact (B 4%nat _ eq_refl).
    - intros x Hx; inversion Hx; subst x. exact (B 6%nat _ eq_refl).
    - intros x Hx; inversion Hx; subst x. exact (B 8%nat _ eq_refl).
    - intros x Hx; inversion Hx; subst x. exact (B 10%nat _ eq_refl).
    - cbn [app In an_ins AT an_xq an_xk an_xv an_wq an_wk an_wv an_w an_bias]. lia.
    - exact Ee.
    - intros i Hi. apply (T i ([c_head c; h; n; nb], [c_head_tile c; h; nt; bt])). unfold attn_tmps. repeat rewrite in_app_iff. left. apply in_map_iff. exists i. split; [reflexivity|assumption].
    - intros i Hi. apply (T i ([h; n; nb; c_head c], [h; nt; bt; c_head_tile c])). unfold attn_tmps. repeat rewrite in_app_iff. right; left. apply in_map_iff. exists i. split; [reflexivity|assumption].
    - intros i Hi. apply (T i ([n; n; nb; c_head c], [nt; nt; bt; c_head_tile c])). unfold attn_tmps. repeat rewrite in_app_iff. right; right; left. apply in_map_iff. exists i. split; [reflexivity|assumption].
    - apply (T 7%nat ([2; n; nb; c_head c], [2; nt; bt; c_head_tile c])). unfold attn_tmps. repeat rewrite in_app_iff. right; right; right. left. reflexivity.
    - apply (T 17%nat ([n; nb; c_head c], [nt; bt; c_head_tile c])). unfold attn_tmps. repeat rewrite in_app_iff. right; right; right. right; left. reflexivity.
    - split; [apply (be_cwf _ _ HE _ C3)|]. split; [exact M1|]. split; [exact M2|].
      split; [|split].
      + eapply cst_disjb; [exact C3|]. apply (T 6%nat ([n; n; nb; c_head c], [nt; nt; bt; c_head_tile c])). unfold attn_tmps. repeat rewrite in_app_iff. right; right; left. left. reflexivity.
      + eapply cst_disjb; [exact C3|]. apply (T 16%nat ([n; n; nb; c_head c], [nt; nt; bt; c_head_tile c])). unfold attn_tmps. repeat rewrite in_app_iff. right; right; left. right; left. reflexivity.
      + intros s HK. assert (HK' : Forall (c_holds s) cs) by exact HK. rewrite Forall_forall in HK'. exact (HK' _ C3). }
  unfold g_attn. destruct (c_flash c) eqn:Ef.
  - assert (O' : flash_ok req (AT N (S (3 + 8 * k))) mask gS gB causal).
    { split; try assumption; try reflexivity.
      - intros i Hi. assert (exists tr, In (i, tr) (attn_tmps n nb (c_head c) h nt bt (c_head_tile c))) as (tr & Htr).
        { unfold attn_tmps. cbn in Hi. destruct Hi as [<-|[<-|[<-|[<-|[<-|[<-|[]]]]]]]; eexists; repeat rewrite in_app_iff.
          - right; right; right. left. reflexivity.
          - right; left. cbn. do 3 right. left. reflexivity.
          - right; left. cbn. do 4 right. left. reflexivity.
          - right; left. cbn. do 5 right. left. reflexivity.
          - right; left. cbn. do 6 right. left. reflexivity.
          - right; right; right. right; left. reflexivity. }
        eapply cst_disjb; [exact C3|]. apply (T i tr Htr).
      - apply (Hflash eq_refl). - apply (Hflash eq_refl). - apply (g_fl _ _ _ _ _ _ G Ef). }
    split; [eapply flash_layer_ok; exact O'|eapply flash_vjp; exact O'].
  - split; [eapply attn_layer_ok; exact O|eapply attn_vjp; exact O].
Qed.
Lemma norm_is k l : (k < L)%nat -> l = 0%nat \/ l = 3%nat -> forall i tr, In (i, tr) (norm_tmps c n nb nt bt) -> is (Tmp (3 + 8 * k + l) i) (fst tr) (snd tr).
Proof.
  intros Hk Hl i tr Hi. apply blk_is; [assumption|]. unfold block_tmps. repeat rewrite in_app_iff. destruct Hl as [-> | ->]; [left|right; right]; apply in_map_iff; exists (i, tr); auto.
Qed.
Lemma block_good k : (k < L)%nat -> Forall (layer_good req) (g_block k).
Proof.
  intros Hk. assert (B : forall i tr, nth_error (block_nodes c n nb nt bt h) i = Some tr -> isn req (first k + i) (fst tr) (snd tr)) by (intros i tr Hi; apply blk_isn; assumption).
  assert (B0 := B 0%nat _ eq_refl). rewrite Nat.add_0_r in B0. assert (Bi := inp_isn k ltac:(lia)). assert (Ha := attn_good k Hk).
  assert (NK := norm_is k). assert (P : (0 < first k)%nat) by (unfold first; lia).
  assert (B11 := B 11%nat _ eq_refl). rewrite <- (g_e _ _ _ _ _ _ G) in B11. unfold g_block. cbv zeta. set (N := first k) in *.
  constructor; [|constructor; [exact Ha|constructor; [|constructor; [|constructor; [|constructor; [|constructor; [|constructor; [|constructor]]]]]]]].
  - replace (3 + 8 * k)%nat with (3 + 8 * k + 0)%nat by lia.
    eapply (ln_good' (N - 1) N (N + 1) (N + 2)); [exact Bi|exact B0|exact (B 1%nat _ eq_refl)|exact (B 2%nat _ eq_refl)|lia|lia|lia| | | |].
    + apply (NK 0%nat Hk (or_introl eq_refl) 0%nat (hid c n nb nt bt)); left; reflexivity.
    + apply (NK 0%nat Hk (or_introl eq_refl) 1%nat (hid c n nb nt bt)); right; left; reflexivity.
    + apply (NK 0%nat Hk (or_introl eq_refl) 2%nat ([n; nb], [nt; bt])); right; right; left; reflexivity.
    + apply (NK 0%nat Hk (or_introl eq_refl) 3%nat ([n; nb], [nt; bt])); right; right; right; left; reflexivity.
  - eapply add_good'; [exact Bi|exact B11|exact (B 12%nat _ eq_refl)|lia|lia].
  - replace (S (S (S (3 + 8 * k)))) with (3 + 8 * k + 3)%nat by lia.
    eapply ln_good'; [exact (B 12%nat _ eq_refl)|exact (B 13%nat _ eq_refl)|exact (B 14%nat _ eq_refl)|exact (B 15%nat _ eq_refl)|lia|lia|lia| | | |].
    + apply (NK 3%nat Hk (or_intror eq_refl) 0%nat (hid c n nb nt bt)); left; reflexivity.
    + apply (NK 3%nat Hk (or_intror eq_refl) 1%nat (hid c n nb nt bt)); right; left; reflexivity.
    + apply (NK 3%nat Hk (or_intror eq_refl) 2%nat ([n; nb], [nt; bt])); right; right; left; reflexivity.
    + apply (NK 3%nat Hk (or_intror eq_refl) 3%nat ([n; nb], [nt; bt])); right; right; right; left; reflexivity.
  - eapply lin_good'; [exact (B 13%nat _ eq_refl)|exact (B 18%nat _ eq_refl)|exact (B 16%nat _ eq_refl)| |lia|lia|].
    + intros x Hx; inversion Hx; subst x. exact (B 17%nat _ eq_refl). + intros x Hx C; subst x; inversion Hx; lia.
  - eapply act_good'; [exact (B 18%nat _ eq_refl)|exact (B 19%nat _ eq_refl)|lia].
  - eapply lin_good'; [exact (B 19%nat _ eq_refl)|exact (B 22%nat _ eq_refl)|exact (B 20%nat _ eq_refl)| |lia|lia|].
    + intros x Hx; inversion Hx; subst x. exact (B 21%nat _ eq_refl). + intros x Hx C; subst x; inversion Hx; lia.
  - eapply add_good'; [exact (B 12%nat _ eq_refl)|exact (B 22%nat _ eq_refl)|exact (B 23%nat _ eq_refl)|lia|lia].
Qed.
Lemma post_good : Forall (layer_good req) g_post.
Proof.
  assert (Bi := inp_isn L ltac:(lia)). assert (P : (0 < first L)%nat) by (unfold first; lia). assert (B0 := post_isn 0 _ eq_refl). rewrite Nat.add_0_r in B0.
  assert (NK : forall i tr, In (i, tr) (norm_tmps c n nb nt bt) -> is (Tmp (3 + 8 * L) i) (fst tr) (snd tr)).
  { intros i tr Hi. apply (gb_ptmp _ _ _ _ _ _ _ _ _ _ _ HB) in Hi. apply hast_U in Hi. exact Hi. }
  unfold g_post. cbv zeta. constructor; [|constructor; [|constructor]].
  - eapply ln_good'; [exact Bi|exact B0|exact (post_isn 1 _ eq_refl)|exact (post_isn 2 _ eq_refl)|lia|lia|lia| | | |].
    + apply (NK 0%nat (hid c n nb nt bt)); left; reflexivity.
    + apply (NK 1%nat (hid c n nb nt bt)); right; left; reflexivity.
    + apply (NK 2%nat ([n; nb], [nt; bt])); right; right; left; reflexivity.
    + apply (NK 3%nat ([n; nb], [nt; bt])); right; right; right; left; reflexivity.
  - eapply lin_good'; [exact B0|exact (post_isn 4 _ eq_refl)|exact (post_isn 3 _ eq_refl)|intros x Hx; discriminate|lia|lia|intros x Hx; discriminate].
Qed.
Lemma layers_good : Forall (layer_good req) g_layers.
Proof.
  unfold g_layers. apply Forall_app; split; [apply pre_good|]. apply Forall_app; split; [|apply post_good].
  apply Forall_flat_map. apply Forall_forall. intros k Hk. apply in_seq in Hk. apply block_good. lia.
Qed.

(** ** They are the layers that were made *)
Lemma number_app k l1 l2 : number req b k (l1 ++ l2) = number req b k l1 ++ number req b (k + List.length l1) l2.
Proof.
  revert k. induction l1 as [|d l1 IH]; intros k; cbn [app number List.length]; [rewrite Nat.add_0_r; reflexivity|]. rewrite IH. do 3 f_equal. lia.
Qed.
Lemma number_block k : number req b (3 + 8 * k) (block_layers c mask (first k)) = map ly_py (g_block k).
Proof. unfold g_block, g_attn, block_layers. cbv zeta. cbn [number map]. unfold ld_py at 2. destruct (c_flash c); reflexivity. Qed.
Lemma g_layers_py : map ly_py g_layers = bm_layers req b.
Proof.
  unfold bm_layers, g_layers. rewrite (gb_layers _ _ _ _ _ _ _ _ _ _ _ HB), !number_app, !map_app. f_equal. f_equal.
  - unfold blocks. change (0 + List.length (pre_layers ids pos))%nat with 3%nat. generalize L as k. induction k as [|k IH]; [reflexivity|].
    rewrite !seq_last, number_app, map_app, <- IH. f_equal. fold (blocks c mask k). rewrite blocks_len. rewrite <- number_block. reflexivity.
  - rewrite blocks_len. reflexivity.
Qed.
Lemma g_block_outs k : map ml_out (map ly_m (g_block k)) = block_acts (first k).
Proof. unfold g_block, g_attn. cbv zeta. destruct (c_flash c); reflexivity. Qed.
Lemma g_outs : outs (map ly_m g_layers) = b_acts b.
Proof.
  unfold outs, g_layers. rewrite (gb_acts _ _ _ _ _ _ _ _ _ _ _ HB), !map_app. f_equal. f_equal.
  unfold blocks_acts. generalize L as k. induction k as [|k IH]; [reflexivity|]. rewrite !seq_last, !map_app, IH. f_equal. apply g_block_outs.
Qed.
Lemma g_block_ids k : map ly_id (g_block k) = seq (3 + 8 * k) 8.
Proof. unfold g_block, g_attn. cbv zeta. destruct (c_flash c); reflexivity. Qed.
Lemma g_ids : map ly_id g_layers = seq 0 (5 + 8 * L).
Proof.
  unfold g_layers. rewrite !map_app. assert (E : map ly_id (flat_map g_block (seq 0 L)) = seq 3 (8 * L)).
  { generalize L as k. induction k as [|k IH]; [reflexivity|]. rewrite seq_last, map_app, IH, g_block_ids. replace (8 * S k)%nat with (8 * k + 8)%nat by lia. rewrite seq_app. reflexivity. }
  rewrite E. replace (5 + 8 * L)%nat with (3 + (8 * L + 2))%nat by lia. rewrite seq_app, seq_app. reflexivity.
Qed.
Definition block_params (N : nat) : list nat := [N + 1; N + 2; N + 3; N + 5; N + 7; N + 4; N + 6; N + 8; N + 9; N + 10; N + 14; N + 15; N + 16; N + 17; N + 20; N + 21]%nat.
Definition g_params : list nat := [0; 2]%nat ++ flat_map (fun k => block_params (first k)) (seq 0 L) ++ [first L + 1; first L + 2; first L + 3]%nat.
Lemma bm_params_eq : bm_params b = g_params.
Proof.
  unfold bm_params, g_params. rewrite (gb_layers _ _ _ _ _ _ _ _ _ _ _ HB), !flat_map_app. f_equal. f_equal.
  unfold blocks. generalize L as k. induction k as [|k IH]; [reflexivity|]. rewrite !seq_last, flat_map_app, IH. reflexivity.
Qed.

(** ** The order *)
Lemma in_blocks (f : nat -> list nat) m : In m (flat_map f (seq 0 L)) <-> exists k, (k < L)%nat /\ In m (f k).
Proof. rewrite in_flat_map. split; intros (k & H1 & H2); exists k; [apply in_seq in H1|split; [apply in_seq|assumption]]; (split; [lia|assumption]) || lia. Qed.
Lemma in_params m : In m g_params <-> m = 0%nat \/ m = 2%nat \/ (exists k, (k < L)%nat /\ In m (block_params (first k))) \/ (first L + 1 <= m <= first L + 3)%nat.
Proof. unfold g_params. rewrite !in_app_iff, in_blocks. cbn [In]. intuition lia. Qed.
Lemma in_outs m : In m (b_acts b) <-> m = 1%nat \/ m = 3%nat \/ m = 4%nat \/ (exists k, (k < L)%nat /\ In m (block_acts (first k))) \/ m = first L \/ m = (first L + 4)%nat.
Proof. rewrite (gb_acts _ _ _ _ _ _ _ _ _ _ _ HB), !in_app_iff. unfold blocks_acts. rewrite in_blocks. cbn [In]. intuition lia. Qed.
Lemma params_range k m : In m (block_params (first k)) -> (first k <= m < first (S k))%nat.
Proof. unfold block_params, first. cbn [In]. lia. Qed.
Lemma acts_range k m : In m (block_acts (first k)) -> (first k <= m < first (S k))%nat.
Proof. unfold block_acts, first. cbn [In]. lia. Qed.
Lemma first_le j k : (j <= k)%nat -> (first j <= first k)%nat.
Proof. unfold first. lia. Qed.
Lemma params_outs m : In m g_params -> ~ In m (b_acts b).
Proof.
  rewrite in_params, in_outs. intros HP HO.
  assert (F0 : (5 <= first L)%nat) by (unfold first; lia).
  assert (HP' : m = 0%nat \/ m = 2%nat \/ (exists k, (k < L)%nat /\ In m (block_params (first k)) /\ (first k <= m < first (S k))%nat) \/ (first L + 1 <= m <= first L + 3)%nat).
  { destruct HP as [?|[?|[(k & H1 & H2)|?]]]; [lia|lia| |lia]. right; right; left. exists k. split; [assumption|split; [assumption|apply params_range; assumption]]. }
  assert (HO' : m = 1%nat \/ m = 3%nat \/ m = 4%nat \/ (exists k, (k < L)%nat /\ In m (block_acts (first k)) /\ (first k <= m < first (S k))%nat) \/ m = first L \/ m = (first L + 4)%nat).
  { destruct HO as [?|[?|[?|[(k & H1 & H2)|?]]]]; [lia|lia|lia| |lia]. right; right; right; left. exists k. split; [assumption|split; [assumption|apply acts_range; assumption]]. }
  clear HP HO. unfold first in *. destruct HP' as [?|[?|[(k & H1 & H2 & H3)|?]]]; destruct HO' as [?|[?|[?|[(j & J1 & J2 & J3)|?]]]]; try lia.
  assert (j = k) by lia. subst j. unfold block_params, block_acts in *. cbn [In] in *. clear - H2 J2. lia.
Qed.
Lemma app_sorted l1 l2 : StronglySorted lt l1 -> StronglySorted lt l2 -> (forall x y, In x l1 -> In y l2 -> (x < y)%nat) -> StronglySorted lt (l1 ++ l2).
Proof.
  intros H1 H2 H. induction H1 as [|x l1 H1 IH F]; [assumption|]. cbn [app]. constructor.
  - apply IH. intros; apply H; [right; assumption|assumption].
  - apply Forall_app; split; [assumption|]. apply Forall_forall. intros y Hy. apply H; [left; reflexivity|assumption].
Qed.
Lemma blocks_range (f : nat -> list nat) m k : (forall j m, In m (f j) -> (first j <= m < first (S j))%nat) -> In m (flat_map f (seq 0 k)) -> (5 <= m < first k)%nat.
Proof.
  intros Hf Hm. apply in_flat_map in Hm as (j & Hj & Hm). apply in_seq in Hj. apply Hf in Hm. unfold first in *. lia.
Qed.
Ltac ss := repeat (first [apply SSorted_cons|apply SSorted_nil|apply Forall_cons|apply Forall_nil]); lia.
Lemma acts_sorted : StronglySorted lt (b_acts b).
Proof.
  rewrite (gb_acts _ _ _ _ _ _ _ _ _ _ _ HB). apply app_sorted; [ss| |].
  - apply app_sorted; [|ss|].
    + unfold blocks_acts. generalize L as k. induction k as [|k IH]; [constructor|]. rewrite seq_last. apply app_sorted; [assumption| |].
      * unfold block_acts. ss.
      * intros x y Hx Hy. apply (blocks_range (fun i => block_acts (first i)) x k (fun j m => acts_range j m)) in Hx. apply acts_range in Hy. lia.
    + intros x y Hx Hy. apply (blocks_range (fun i => block_acts (first i)) x L (fun j m => acts_range j m)) in Hx. cbn [In] in Hy. lia.
  - intros x y Hx Hy. apply in_app_or in Hy. cbn [In] in Hx. assert (F0 : (5 <= first L)%nat) by (unfold first; lia).
    destruct Hy as [Hy|Hy]; [apply (blocks_range (fun i => block_acts (first i)) y L (fun j m => acts_range j m)) in Hy|cbn [In] in Hy]; lia.
Qed.
Lemma app_nodup {X} (l1 l2 : list X) : NoDup l1 -> NoDup l2 -> (forall x, In x l1 -> ~ In x l2) -> NoDup (l1 ++ l2).
Proof.
  intros H1 H2 H. induction H1 as [|x l1 Hx H1 IH]; [assumption|]. cbn [app]. constructor.
  - intros C. apply in_app_or in C as [C|C]; [contradiction|]. apply (H x); [left; reflexivity|assumption].
  - apply IH. intros; apply H; right; assumption.
Qed.
Ltac nn := repeat (first [apply NoDup_cons|apply NoDup_nil]); cbn [In]; lia.
Lemma params_nodup : NoDup g_params.
Proof.
  assert (F0 : (5 <= first L)%nat) by (unfold first; lia).
  unfold g_params. apply app_nodup; [nn| |].
  - apply app_nodup; [|nn|].
    + generalize L as k. induction k as [|k IH]; [constructor|]. rewrite seq_last. apply app_nodup; [assumption| |].
      * unfold block_params. nn.
      * intros x Hx Hy. apply (blocks_range (fun i => block_params (first i)) x k (fun j m => params_range j m)) in Hx. apply params_range in Hy. lia.
    + intros x Hx Hy. apply (blocks_range (fun i => block_params (first i)) x L (fun j m => params_range j m)) in Hx. cbn [In] in Hy. lia.
  - intros x Hx Hy. apply in_app_or in Hy. cbn [In] in Hx.
    destruct Hy as [Hy|Hy]; [apply (blocks_range (fun i => block_params (first i)) x L (fun j m => params_range j m)) in Hy|cbn [In] in Hy]; lia.
Qed.
Lemma g_inputs l i : In l (map ly_m g_layers) -> In i (ml_ins l) -> In i g_params \/ (In i (b_acts b) /\ (i < ml_out l)%nat).
Proof.
  assert (F0 : (5 <= first L)%nat) by (unfold first; lia).
  assert (PI : forall k i, (k < L)%nat -> In i (block_params (first k)) -> In i g_params) by (intros k i0 H1 H2; apply in_params; right; right; left; exists k; auto).
  assert (OI : forall k i, (k < L)%nat -> In i (block_acts (first k)) -> In i (b_acts b)) by (intros k i0 H1 H2; apply in_outs; right; right; right; left; exists k; auto).
  assert (NI : forall k, (k <= L)%nat -> In (first k - 1)%nat (b_acts b)).
  { intros k Hk. destruct k as [|k]; [apply in_outs; cbn; tauto|]. apply (OI k); [lia|]. unfold block_acts, first. cbn [In]. lia. }
  unfold g_layers. rewrite !map_app, !in_app_iff. intros [Hl|[Hl|Hl]] Hi.
  - cbn in Hl. destruct Hl as [<-|[<-|[<-|[]]]]; cbn in Hi.
    + left. destruct Hi as [<-|[]]. apply in_params; tauto.
    + left. destruct Hi as [<-|[]]. apply in_params; tauto.
    + right. cbn [ml_out ly_m add_slice_layer]. destruct Hi as [<-|[<-|[]]]; (split; [apply in_outs; tauto|lia]).
  - rewrite in_map_iff in Hl. destruct Hl as (ll & <- & Hl). apply in_flat_map in Hl as (k & Hk & Hl). apply in_seq in Hk.
    assert (Hk' : (k < L)%nat) by lia. specialize (PI k). specialize (OI k). specialize (NI k ltac:(lia)).
    assert (F1 : (5 <= first k)%nat) by (unfold first; lia).
    assert (Ea : ly_m (g_attn (first k) (S (3 + 8 * k))) = ly_m (attn_layer req (AT (first k) (S (3 + 8 * k))) gS causal)) by (unfold g_attn; destruct (c_flash c); reflexivity).
    assert (Q : forall m q, (q < 24)%nat -> (i = first k + q)%nat -> In q [1;2;3;4;5;6;7;8;9;10;14;15;16;17;20;21]%nat \/ (In q [0;11;12;13;18;19;22;23]%nat /\ (i < m)%nat) -> In i g_params \/ (In i (b_acts b) /\ (i < m)%nat)).
    { intros m q _ Ei [Hq|[Hq Hm]]; rewrite Ei in *; [left; apply PI|right; split; [apply OI|]]; try assumption.
      - unfold block_params. cbn [In] in Hq |- *. clear - Hq. lia.
      - unfold block_acts. cbn [In] in Hq |- *. clear - Hq. lia. }
    unfold g_block in Hl. cbv zeta in Hl. cbn [In] in Hl.
    destruct Hl as [<-|[<-|[<-|[<-|[<-|[<-|[<-|[<-|[]]]]]]]]]; rewrite ?Ea in *; cbn [ly_m ml_ins ln_layer attn_layer add_layer linear_layer act_layer AT an_ins an_xq an_xk an_xv an_wq an_wk an_wv an_w an_bias app opt_list In] in Hi; cbn [ly_m ml_out ln_layer attn_layer add_layer linear_layer act_layer AT an_y].
    + destruct Hi as [<-|[Hi|[Hi|[]]]]; [right; split; [exact NI|lia]| |]; eapply (Q _ (i - first k)%nat); subst i; cbn [In]; try lia.
    + repeat (destruct Hi as [Hi|Hi]; [eapply (Q _ (i - first k)%nat); subst i; cbn [In]; lia|]). destruct Hi.
    + destruct Hi as [<-|[Hi|[]]]; [right; split; [exact NI|lia]|]. eapply (Q _ (i - first k)%nat); subst i; cbn [In]; lia.
    + repeat (destruct Hi as [Hi|Hi]; [eapply (Q _ (i - first k)%nat); subst i; cbn [In]; lia|]). destruct Hi.
    + repeat (destruct Hi as [Hi|Hi]; [eapply (Q _ (i - first k)%nat); subst i; cbn [In]; lia|]). destruct Hi.
    + repeat (destruct Hi as [Hi|Hi]; [eapply (Q _ (i - first k)%nat); subst i; cbn [In]; lia|]). destruct Hi.
    + repeat (destruct Hi as [Hi|Hi]; [eapply (Q _ (i - first k)%nat); subst i; cbn [In]; lia|]). destruct Hi.
    + repeat (destruct Hi as [Hi|Hi]; [eapply (Q _ (i - first k)%nat); subst i; cbn [In]; lia|]). destruct Hi.
  - unfold g_post in Hl. cbv zeta in Hl. cbn [map In] in Hl. destruct Hl as [<-|[<-|[]]]; cbn [ly_m ml_ins ln_layer linear_layer opt_list In] in Hi; cbn [ly_m ml_out ln_layer linear_layer].
    + destruct Hi as [<-|[<-|[<-|[]]]]; [right; split; [apply NI; lia|lia]|left; apply in_params; lia|left; apply in_params; lia].
    + destruct Hi as [<-|[<-|[]]]; [right; split; [apply in_outs; tauto|lia]|left; apply in_params; lia].
Qed.
Lemma g_ordered : ordered (map ly_m g_layers) g_params.
Proof.
  apply ordered_sorted; rewrite ?g_outs; [apply acts_sorted| |exact params_outs]. intros l i Hl Hi. eapply g_inputs; eassumption.
Qed.
Lemma g_node_ok m : In m (b_acts b) \/ In m g_params -> node_ok req m.
Proof.
  assert (P5 : (m < 5)%nat -> node_ok req m).
  { intros H. destruct (nth_error (pre_nodes c n nb nt bt) m) as [tr|] eqn:Em; [apply (pre_isn m tr Em)|]. apply nth_error_None in Em. cbn in Em. lia. }
  assert (PB : forall k, (k < L)%nat -> (first k <= m < first (S k))%nat -> node_ok req m).
  { intros k Hk Hm. replace m with (first k + (m - first k))%nat by lia. destruct (nth_error (block_nodes c n nb nt bt h) (m - first k)) as [tr|] eqn:Em; [apply (blk_isn k _ tr Hk Em)|].
    apply nth_error_None in Em. cbn [List.length block_nodes app attn_nodes] in Em. unfold first in *. lia. }
  assert (PP : (first L <= m <= first L + 4)%nat -> node_ok req m).
  { intros Hm. replace m with (first L + (m - first L))%nat by lia. destruct (nth_error (post_nodes c n nb nt bt) (m - first L)) as [tr|] eqn:Em; [apply (post_isn _ tr Em)|].
    apply nth_error_None in Em. cbn [List.length post_nodes] in Em. lia. }
  rewrite in_params, in_outs. intros [[?|[?|[?|[(k & H1 & H2)|?]]]]|[?|[?|[(k & H1 & H2)|?]]]]; try (apply P5; lia); try (apply PP; lia).
  - apply (PB k H1). apply acts_range. assumption.
  - apply (PB k H1). apply params_range. assumption.
Qed.
Lemma g_model_ok : model_ok req g_layers g_params (first L + 4) (5 + 8 * L).
Proof.
  split.
  - apply layers_good. - rewrite g_ids. constructor; [rewrite in_seq; lia|apply seq_NoDup].
  - apply g_ordered. - apply params_nodup. - rewrite g_outs. apply in_outs. lia.
  - intros m Hm. rewrite g_outs in Hm. apply in_app_or in Hm. apply g_node_ok. assumption.
Qed.
End Gpt.
