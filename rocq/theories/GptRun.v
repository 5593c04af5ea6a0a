(** * GPT2: values of the nodes *)
From Coq Require Import Reals Lra FunctionalExtensionality Sorted.
From Verif Require Import Base Spec Geometry Traits TraitsProofs Runtime Ops RealOps TensorSem ElemGeneric Concrete Axis SliceGeo PropElem FiberGeo EmbedRuns XReals MatOps RSum AttnSpec CrossEntropy XTriples HasRuns TapeMath VjpMath Tape PyLayers PyLinear PySimple PyNorm AttMath PyAttn PyFlash Backprop PropModel PyModels BuildEnv GptBuild BuildModel GptSpec GptModel GptEval.
Local Close Scope Z_scope.
Local Open Scope R_scope.

(** ** Parameters by number *)
Fixpoint index (m : nat) (l : list nat) : nat := match l with [] => O | x :: l => if Nat.eq_dec x m then O else S (index m l) end.
Definition penv (l : list nat) (P : nat -> arr) : nat -> arr := fun m => P (index m l).
Lemma index_nth l j : NoDup l -> (j < List.length l)%nat -> index (nth j l O) l = j.
Proof.
  intros H. revert j. induction H as [|x l Hx Hl IH]; intros [|j] Hj; cbn in *; try lia.
  - destruct (Nat.eq_dec x x); congruence.
  - destruct (Nat.eq_dec x (nth j l O)) as [E|_]; [exfalso; apply Hx; rewrite E; apply nth_In; lia|]. f_equal. apply IH. lia.
Qed.
Lemma nth_index l m : In m l -> nth (index m l) l O = m /\ (index m l < List.length l)%nat.
Proof.
  induction l as [|x l IH]; intros H; [destruct H|]. cbn. destruct (Nat.eq_dec x m) as [E|N]; [split; [assumption|lia]|].
  destruct H as [H|H]; [congruence|]. destruct (IH H). split; [assumption|lia].
Qed.
Lemma index_out l m : ~ In m l -> index m l = List.length l.
Proof.
  induction l as [|x l IH]; intros H; [reflexivity|]. cbn. destruct (Nat.eq_dec x m) as [E|N]; [exfalso; apply H; left; assumption|].
  f_equal. apply IH. intros C; apply H; right; assumption.
Qed.
Lemma penv_vary l P j idx t : NoDup l -> (j < List.length l)%nat -> vary (penv l P) (nth j l O) idx t = penv l (vary P j idx t).
Proof.
  intros Hl Hj. apply functional_extensionality. intros m. unfold vary, penv. destruct (Nat.eq_dec m (nth j l O)) as [->|N].
  - rewrite index_nth by assumption. destruct (Nat.eq_dec j j); [reflexivity|congruence].
  - destruct (Nat.eq_dec (index m l) j) as [E|]; [|reflexivity]. exfalso. apply N. destruct (in_dec Nat.eq_dec m l) as [Hi|Ho].
    + rewrite <- E. symmetry. apply nth_index. assumption.
    + rewrite (index_out l m Ho) in E. lia.
Qed.
Lemma nth_blocks (f : nat -> list nat) w : (forall k, List.length (f k) = w) -> forall L, List.length (flat_map f (seq 0 L)) = (w * L)%nat /\
  (forall k r, (k < L)%nat -> (r < w)%nat -> nth (w * k + r) (flat_map f (seq 0 L)) O = nth r (f k) O).
Proof.
  intros Hf. induction L as [|L [IH1 IH2]]; [split; [cbn; lia|intros; lia]|]. rewrite seq_last. split; [rewrite app_length, IH1, Hf; lia|].
  intros k r Hk Hr. destruct (Nat.eq_dec k L) as [->|].
  - rewrite app_nth2 by lia. rewrite IH1. f_equal. lia.
  - rewrite app_nth1; [apply IH2; lia|]. rewrite IH1. assert (w * k + w <= w * L)%nat by nia. lia.
Qed.

(** ** Layers depend only on their inputs *)
Section Reads.
Context {E : env} (req : nat -> bool).
Lemma ln_reads x y g b a e i : reads_inputs (ly_m (ln_layer req x y g b a e i)).
Proof. intros vs vs' H. split; [|auto]. cbn [ly_m ln_layer ml_F]. unfold ln_F. rewrite (H 0%nat), (H 1%nat), (H 2%nat) by (cbn; lia). reflexivity. Qed.
Lemma add_reads x y r i : reads_inputs (ly_m (add_layer req x y r i)).
Proof. intros vs vs' H. split; [|auto]. cbn [ly_m add_layer ml_F]. rewrite (H 0%nat), (H 1%nat) by (cbn; lia). reflexivity. Qed.
Lemma add_slice_reads x y r a i : reads_inputs (ly_m (add_slice_layer req x y r a i)).
Proof. intros vs vs' H. split; [|auto]. cbn [ly_m add_slice_layer ml_F]. rewrite (H 0%nat), (H 1%nat) by (cbn; lia). reflexivity. Qed.
Lemma emb_reads ix iv y w a i : reads_inputs (ly_m (emb_layer req ix iv y w a i)).
Proof. intros vs vs' H. split; [|auto]. cbn [ly_m emb_layer ml_F]. rewrite (H 0%nat) by (cbn; lia). reflexivity. Qed.
Lemma act_reads f x y i : reads_inputs (ly_m (act_layer req f x y i)).
Proof. intros vs vs' H. cbn [ly_m act_layer ml_F ml_D]. rewrite (H 0%nat) by (cbn; lia). split; auto. Qed.
Lemma linear_reads sd tx x y w nd o i sI sK sJ : reads_inputs (ly_m (linear_layer req sd tx x y w nd o i sI sK sJ)).
Proof.
  intros vs vs' H. split; [|auto]. cbn [ly_m linear_layer ml_F]. unfold lin_F. rewrite (H 0%nat), (H 1%nat) by (cbn; lia).
  destruct o as [o|]; [rewrite (H 2%nat) by (cbn; lia)|]; reflexivity.
Qed.
Lemma attn_reads L S m : an_bias L <> None -> reads_inputs (ly_m (attn_layer req L S m)).
Proof.
  intros Hb vs vs' H. split; [|auto]. cbn [ly_m attn_layer ml_F ml_ins] in *. unfold arity, an_ins in H. cbn [ml_ins] in H.
  destruct (an_bias L) as [[[[q k] v] o]|] eqn:Eb; [|congruence]. cbn [app List.length] in H.
  unfold att_F, outp, att_b, att_q, att_k, att_v, ob, option_map, an_hasb. rewrite Eb.
  rewrite (H 0%nat), (H 1%nat), (H 2%nat), (H 3%nat), (H 4%nat), (H 5%nat), (H 6%nat), (H 7%nat), (H 8%nat), (H 9%nat), (H 10%nat) by lia. reflexivity.
Qed.
End Reads.

Section Gpt.
Variables (c : gpt2_config) (mask ids pos : tensor) (n nb nt bt h lo : Z) (b : build) (cs : list const).
Variables (idv posv : list Z -> Z).
Hypothesis G : gdims c n nb nt bt h.
Hypothesis HB : gbuilt c mask ids pos n nb nt bt h lo b.
Hypothesis HE : benv_ok b cs.
Hypothesis Heps : (0 < c_eps c)%R.
Hypothesis Hcs : In (CInt ids idv) cs /\ In (CInt pos posv) cs /\ In (CBool mask causal) cs.
Hypothesis Hids : t_shape ids = [n; nb] /\ t_base ids = [nt; bt].
Hypothesis Hpos : t_shape pos = [n] /\ t_base pos = [nt].
Hypothesis Hmask : t_shape mask = [n; n] /\ t_base mask = [nt; nt].
Hypothesis Hidv : forall idx, inb [n; nb] idx -> (0 <= idv idx < c_vocab c)%Z.
Hypothesis Hposv : forall idx, inb [n] idx -> (0 <= posv idx < c_maxpos c)%Z.
Hypothesis Hflash : c_flash c = true -> (nt | n)%Z /\ (bt | nb)%Z.
Notation e := (c_embed c). Notation L := (c_layers c).
Notation gl := (g_layers c mask ids pos n nb h b cs idv posv HE).
Notation blk := (g_block c mask n nb h b cs HE).
Notation ord := (g_ordered c mask ids pos n nb nt bt h lo b cs idv posv HB HE Hcs Hids Hpos Hmask Hflash).
#[local] Instance EnvR : env := benv b cs HE.

Lemma gl_reads : Forall reads_inputs (map ly_m gl).
Proof.
  rewrite Forall_forall. intros l Hl. apply in_map_iff in Hl as (ll & <- & Hl). unfold g_layers in Hl. rewrite !in_app_iff in Hl. destruct Hl as [Hl|[Hl|Hl]].
  - cbn [In g_pre] in Hl. destruct Hl as [<-|[<-|[<-|[]]]]; [apply emb_reads|apply emb_reads|apply add_slice_reads].
  - apply in_flat_map in Hl as (k & _ & Hl). unfold g_block in Hl. cbv zeta in Hl. cbn [In] in Hl.
    destruct Hl as [<-|[<-|[<-|[<-|[<-|[<-|[<-|[<-|[]]]]]]]]]; try apply ln_reads; try apply add_reads; try apply linear_reads; try apply act_reads.
    unfold g_attn. destruct (c_flash c); apply attn_reads; discriminate.
  - unfold g_post in Hl. cbv zeta in Hl. cbn [In] in Hl. destruct Hl as [<-|[<-|[]]]; [apply ln_reads|apply linear_reads].
Qed.

Ltac withargs tac := match goal with |- context [args ?l ?g] => tac (args l g) end.
Section Values.
Variable P : nat -> arr.
Notation e0 := (penv (g_params c) P).
Definition gval : nat -> arr := eval (map ly_m gl) e0.
Lemma gval_fix l : In l gl -> gval (ml_out (ly_m l)) = ml_F (ly_m l) (args (ly_m l) gval).
Proof. intros Hl. apply (eval_fix _ _ e0 ord gl_reads). apply in_map. assumption. Qed.
Lemma gval_param j : (j < List.length (g_params c))%nat -> gval (nth j (g_params c) O) = P j.
Proof.
  intros Hj. unfold gval. rewrite eval_other by (eapply ordered_fresh; [apply ord|apply nth_In; assumption]).
  unfold penv. rewrite index_nth by (assumption || apply params_nodup). reflexivity.
Qed.
Lemma params_len : List.length (g_params c) = (5 + 16 * L)%nat.
Proof. unfold g_params. rewrite !app_length. rewrite (proj1 (nth_blocks (fun k => block_params (first k)) 16 (fun _ => eq_refl) L)). cbn [List.length]. lia. Qed.
Lemma gval_block k r m : (k < L)%nat -> (r < 16)%nat -> nth r (block_params (first k)) O = m -> gval m = P (2 + 16 * k + r)%nat.
Proof.
  intros Hk Hr <-. rewrite <- gval_param by (rewrite params_len; lia). f_equal. unfold g_params.
  change (2 + 16 * k + r)%nat with (S (S (16 * k + r))). cbn [app nth].
  destruct (nth_blocks (fun k => block_params (first k)) 16 (fun _ => eq_refl) L) as [E1 E2]. rewrite app_nth1 by lia. symmetry. apply E2; assumption.
Qed.
Lemma gval_post r : (r < 3)%nat -> gval (first L + 1 + r)%nat = P (2 + 16 * L + r)%nat.
Proof.
  intros Hr. rewrite <- gval_param by (rewrite params_len; lia). f_equal. unfold g_params.
  change (2 + 16 * L + r)%nat with (S (S (16 * L + r))). cbn [app nth].
  destruct (nth_blocks (fun k => block_params (first k)) 16 (fun _ => eq_refl) L) as [E1 E2]. rewrite app_nth2 by lia. rewrite E1.
  replace (16 * L + r - 16 * L)%nat with r by lia. destruct r as [|[|[|r]]]; cbn [nth]; lia.
Qed.
Lemma gpost r m q : (r < 3)%nat -> m = (first L + 1 + r)%nat -> q = (2 + 16 * L + r)%nat -> P q = gval m.
Proof. intros Hr -> ->. symmetry. apply gval_post. assumption. Qed.
Lemma in_blk k l : (k < L)%nat -> In l (blk k) -> In l gl.
Proof. intros Hk Hl. unfold g_layers. apply in_or_app; right. apply in_or_app; left. apply in_flat_map. exists k. split; [apply in_seq; lia|assumption]. Qed.

Notation tokens := (fun s t => idv [s; t]). Notation positions := (fun s => posv [s]).
Notation St k := (states e (c_head c) h n (c_inner c) (c_eps c) (act_fun (c_act c)) tokens positions P k).
Notation rep := (repr n nb).
Lemma e_posR : (0 < e)%Z. Proof. exact (e_pos _ _ _ _ _ _ G). Qed.
Lemma n_pos : (0 < n)%Z. Proof. apply G. Qed.
Lemma nb_pos : (0 < nb)%Z. Proof. apply G. Qed.

(** the parameters of block [k] *)
Section Block.
Variables (k : nat) (x : hidden).
Hypothesis Hk : (k < L)%nat.
Notation N := (first k). Notation p := (2 + 16 * k)%nat.
Hypothesis Hx : rep e (gval (N - 1)) x.
Notation i := (3 + 8 * k)%nat.
Ltac gp r m := rewrite <- (gval_block k r m Hk ltac:(lia) eq_refl).
Lemma par r m q : (r < 16)%nat -> nth r (block_params N) O = m -> q = (p + r)%nat -> P q = gval m.
Proof. intros Hr Hm ->. symmetry. apply (gval_block k r m Hk Hr Hm). Qed.
Lemma norm_dims m : (exists q, In q [0; 13]%nat /\ m = (N + q)%nat) -> vshape m = [e; n; nb].
Proof. intros (q & Hq & ->). destruct Hq as [<-|[<-|[]]]; [exact (proj1 (proj2 (blk_isn c mask ids pos n nb nt bt h lo b cs HB HE k 0 _ Hk eq_refl)))|exact (proj1 (proj2 (blk_isn c mask ids pos n nb nt bt h lo b cs HB HE k 13 _ Hk eq_refl)))]. Qed.
Lemma v_norm1 : rep e (gval N) (normalized e (c_eps c) (P p) (P (p + 1)%nat) x).
Proof.
  assert (HI : In (ln_layer req (N - 1) N (N + 1) (N + 2) 0 (sqrt (c_eps c)) i) gl) by (apply (in_blk k); [assumption|]; unfold g_block; cbv zeta; left; reflexivity).
  assert (Ev := gval_fix _ HI). cbn [ly_m ln_layer ml_out ml_F] in Ev. rewrite Ev. rewrite (norm_dims N) by (exists 0%nat; split; [cbn; tauto|lia]).
  rewrite (par 0 (N + 1)%nat p), (par 1 (N + 2)%nat (p + 1)%nat) by (reflexivity || lia).
  withargs ltac:(fun vs => exact (norm_repr n nb e (c_eps c) vs x e_posR Heps Hx)).
Qed.
Lemma v_attended : rep e (gval (N + 12)%nat) (attended e (c_head c) h n (c_eps c) P p x).
Proof.
  assert (HA : rep e (gval (N + 11)%nat) (self_attention e (c_head c) h n (P (p + 2)%nat) (P (p + 3)%nat) (P (p + 4)%nat) (P (p + 5)%nat) (P (p + 6)%nat) (P (p + 7)%nat) (P (p + 8)%nat) (P (p + 9)%nat)
    (normalized e (c_eps c) (P p) (P (p + 1)%nat) x))).
  { assert (HI : In (g_attn c mask n nb h b cs HE N (S i)) gl) by (apply (in_blk k); [assumption|]; unfold g_block; cbv zeta; right; left; reflexivity).
    assert (Ea : ly_m (g_attn c mask n nb h b cs HE N (S i)) = ly_m (attn_layer req (AT mask N (S i)) (gS c n nb h) causal)) by (unfold g_attn; destruct (c_flash c); reflexivity).
    assert (Ev := gval_fix _ HI). rewrite Ea in Ev. cbn [ly_m attn_layer ml_out ml_F AT an_y] in Ev. rewrite Ev.
    rewrite (par 2 (N + 3)%nat (p + 2)%nat), (par 3 (N + 5)%nat (p + 3)%nat), (par 4 (N + 7)%nat (p + 4)%nat), (par 5 (N + 4)%nat (p + 5)%nat), (par 6 (N + 6)%nat (p + 6)%nat), (par 7 (N + 8)%nat (p + 7)%nat),
      (par 8 (N + 9)%nat (p + 8)%nat), (par 9 (N + 10)%nat (p + 9)%nat) by (reflexivity || lia).
    withargs ltac:(fun vs => apply (attention_repr n nb e (c_head c) h vs (normalized e (c_eps c) (P p) (P (p + 1)%nat) x) e_posR)); [|reflexivity|reflexivity]. exact v_norm1. }
  assert (HI : In (add_layer req (N - 1) (N + 11) (N + 12) (S (S i))) gl) by (apply (in_blk k); [assumption|]; unfold g_block; cbv zeta; do 2 right; left; reflexivity).
  assert (Ev := gval_fix _ HI). cbn [ly_m add_layer ml_out ml_F] in Ev. rewrite Ev. intros f s t Hf Hs Ht. unfold attended. rewrite <- (HA f s t), <- (Hx f s t) by assumption. reflexivity.
Qed.
Lemma v_preact : rep (c_inner c) (gval (N + 18)%nat) (preactivation e (c_head c) h n (c_eps c) P p x).
Proof.
  assert (H2 : rep e (gval (N + 13)%nat) (normalized e (c_eps c) (P (p + 10)%nat) (P (p + 11)%nat) (attended e (c_head c) h n (c_eps c) P p x))).
  { assert (HI : In (ln_layer req (N + 12) (N + 13) (N + 14) (N + 15) 0 (sqrt (c_eps c)) (S (S (S i)))) gl) by (apply (in_blk k); [assumption|]; unfold g_block; cbv zeta; do 3 right; left; reflexivity).
    assert (Ev := gval_fix _ HI). cbn [ly_m ln_layer ml_out ml_F] in Ev. rewrite Ev. rewrite (norm_dims (N + 13)) by (exists 13%nat; split; [cbn; tauto|lia]).
    rewrite (par 10 (N + 14)%nat (p + 10)%nat), (par 11 (N + 15)%nat (p + 11)%nat) by (reflexivity || lia).
    withargs ltac:(fun vs => exact (norm_repr n nb e (c_eps c) vs _ e_posR Heps v_attended)). }
  assert (HI : In (linear_layer req SideR NoTrans (N + 13) (N + 18) (N + 16) 1 (Some (N + 17)%nat) (S (S (S (S i)))) [n; nb] [e] [c_inner c]) gl) by (apply (in_blk k); [assumption|]; unfold g_block; cbv zeta; do 4 right; left; reflexivity).
  assert (Ev := gval_fix _ HI). cbn [ly_m linear_layer ml_out ml_F] in Ev. rewrite Ev. unfold preactivation.
  rewrite (par 12 (N + 16)%nat (p + 12)%nat), (par 13 (N + 17)%nat (p + 13)%nat) by (reflexivity || lia).
  withargs ltac:(fun vs => exact (affine_repr n nb e (c_inner c) vs _ e_posR H2)).
Qed.
Lemma v_block : rep e (gval (N + 23)%nat) (block e (c_head c) h n (c_inner c) (c_eps c) (act_fun (c_act c)) P p x).
Proof.
  assert (H1 : rep (c_inner c) (gval (N + 19)%nat) (fun j s t => act_fun (c_act c) (preactivation e (c_head c) h n (c_eps c) P p x j s t))).
  { assert (HI : In (act_layer req (c_act c) (N + 18) (N + 19) (S (S (S (S (S i)))))) gl) by (apply (in_blk k); [assumption|]; unfold g_block; cbv zeta; do 5 right; left; reflexivity).
    assert (Ev := gval_fix _ HI). cbn [ly_m act_layer ml_out ml_F] in Ev. rewrite Ev. intros f s t Hf Hs Ht. rewrite <- (v_preact f s t) by assumption. reflexivity. }
  assert (H2 : rep e (gval (N + 22)%nat) (affine (c_inner c) (P (p + 14)%nat) (P (p + 15)%nat) (fun j s t => act_fun (c_act c) (preactivation e (c_head c) h n (c_eps c) P p x j s t)))).
  { assert (HI : In (linear_layer req SideR NoTrans (N + 19) (N + 22) (N + 20) 1 (Some (N + 21)%nat) (S (S (S (S (S (S i)))))) [n; nb] [c_inner c] [e]) gl) by (apply (in_blk k); [assumption|]; unfold g_block; cbv zeta; do 6 right; left; reflexivity).
    assert (Ev := gval_fix _ HI). cbn [ly_m linear_layer ml_out ml_F] in Ev. rewrite Ev.
    rewrite (par 14 (N + 20)%nat (p + 14)%nat), (par 15 (N + 21)%nat (p + 15)%nat) by (reflexivity || lia).
    withargs ltac:(fun vs => exact (affine_repr n nb (c_inner c) e vs _ (g_I _ _ _ _ _ _ G) H1)). }
  assert (HI : In (add_layer req (N + 12) (N + 22) (N + 23) (S (S (S (S (S (S (S i)))))))) gl) by (apply (in_blk k); [assumption|]; unfold g_block; cbv zeta; do 7 right; left; reflexivity).
  assert (Ev := gval_fix _ HI). cbn [ly_m add_layer ml_out ml_F] in Ev. rewrite Ev. intros f s t Hf Hs Ht. unfold block. rewrite <- (H2 f s t), <- (v_attended f s t) by assumption. reflexivity.
Qed.
End Block.
Lemma v_embedded : rep e (gval 4%nat) (embedded tokens positions P).
Proof.
  assert (PN := params_len).
  assert (H0 : gval 0%nat = P 0%nat) by (rewrite <- gval_param by lia; reflexivity).
  assert (H2 : gval 2%nat = P 1%nat) by (rewrite <- gval_param by lia; reflexivity).
  assert (I0 : In (emb_layer req ids idv 1 0 0 0) gl) by (unfold g_layers; apply in_or_app; left; left; reflexivity).
  assert (I1 : In (emb_layer req pos posv 3 2 0 1) gl) by (unfold g_layers; apply in_or_app; left; right; left; reflexivity).
  assert (I2 : In (add_slice_layer req 1 3 4 2 2) gl) by (unfold g_layers; apply in_or_app; left; right; right; left; reflexivity).
  assert (E0 := gval_fix _ I0). assert (E1 := gval_fix _ I1). assert (E2 := gval_fix _ I2). cbn [ly_m emb_layer add_slice_layer ml_out ml_F] in E0, E1, E2.
  rewrite E2. intros f s t Hf Hs Ht. unfold args, inp. cbn [ly_m add_slice_layer ml_ins nth]. rewrite E0, E1. unfold args, inp. cbn [ly_m emb_layer ml_ins nth]. rewrite H0, H2. reflexivity.
Qed.
Lemma v_states k : (k <= L)%nat -> rep e (gval (first k - 1)) (St k).
Proof.
  induction k as [|k IH]; intros Hk; [exact v_embedded|]. cbn [states]. replace (first (S k) - 1)%nat with (first k + 23)%nat by (unfold first; lia).
  apply v_block; [lia|]. apply IH. lia.
Qed.
Lemma v_logits : rep (c_vocab c) (gval (first L + 4)%nat) (logits e (c_head c) h n (c_inner c) (c_eps c) (act_fun (c_act c)) tokens positions P L).
Proof.
  assert (H1 : rep e (gval (first L)) (normalized e (c_eps c) (P (2 + 16 * L)%nat) (P (2 + 16 * L + 1)%nat) (St L))).
  { assert (HI : In (ln_layer req (first L - 1) (first L) (first L + 1) (first L + 2) 0 (sqrt (c_eps c)) (3 + 8 * L)) gl) by (unfold g_layers; apply in_or_app; right; apply in_or_app; right; left; reflexivity).
    assert (Ev := gval_fix _ HI). cbn [ly_m ln_layer ml_out ml_F] in Ev. rewrite Ev.
    assert (D : vshape (first L) = [e; n; nb]).
    { pose proof (proj1 (proj2 (post_isn c mask ids pos n nb nt bt h lo b cs HB HE 0 _ eq_refl))) as D. rewrite Nat.add_0_r in D. exact D. }
    rewrite D.
    rewrite (gpost 0 (first L + 1)%nat (2 + 16 * L)%nat), (gpost 1 (first L + 2)%nat (2 + 16 * L + 1)%nat) by lia.
    withargs ltac:(fun vs => exact (norm_repr n nb e (c_eps c) vs _ e_posR Heps (v_states L (le_n _)))). }
  assert (HI : In (linear_layer req SideR NoTrans (first L) (first L + 4) (first L + 3) 1 None (S (3 + 8 * L)) [n; nb] [e] [c_vocab c]) gl) by (unfold g_layers; apply in_or_app; right; apply in_or_app; right; right; left; reflexivity).
  assert (Ev := gval_fix _ HI). cbn [ly_m linear_layer ml_out ml_F] in Ev. rewrite Ev.
  unfold logits. cbv zeta. rewrite (gpost 2 (first L + 3)%nat (2 + 16 * L + 2)%nat) by lia.
  withargs ltac:(fun vs => exact (head_repr n nb e (c_vocab c) vs _ e_posR H1)).
Qed.
(** where the model is differentiable *)
Lemma v_dom : (c_act c = Relu -> forall k i s t, (k < L)%nat -> (0 <= i < c_inner c)%Z -> (0 <= s < n)%Z -> (0 <= t < nb)%Z ->
    preactivation e (c_head c) h n (c_eps c) P (2 + 16 * k)%nat (St k) i s t <> 0) -> dom (map ly_m gl) e0.
Proof.
  intros HR. apply (dom_fix _ _ _ ord gl_reads). fold gval. intros l Hl. apply in_map_iff in Hl as (ll & <- & Hl). unfold g_layers in Hl. rewrite !in_app_iff in Hl. destruct Hl as [Hl|[Hl|Hl]].
  - cbn [In g_pre] in Hl. destruct Hl as [<-|[<-|[<-|[]]]]; exact Logic.I.
  - apply in_flat_map in Hl as (k & Hk & Hl). apply in_seq in Hk. unfold g_block in Hl. cbv zeta in Hl. cbn [In] in Hl.
    destruct Hl as [<-|[<-|[<-|[<-|[<-|[<-|[<-|[<-|[]]]]]]]]]; try exact Logic.I.
    + unfold g_attn. destruct (c_flash c); exact Logic.I.
    + cbn [ly_m act_layer ml_D]. unfold act_smooth. destruct (c_act c) eqn:Ec; try (intros; exact Logic.I).
      intros idx Hi. pose proof (proj1 (proj2 (blk_isn c mask ids pos n nb nt bt h lo b cs HB HE k 19 _ ltac:(lia) eq_refl))) as D. cbn [fst inn] in D. rewrite D in Hi.
      apply inb3_inv in Hi as (i & s & t & -> & Hi & Hs & Ht). unfold args, inp. cbn [ml_ins nth].
      rewrite (v_preact k (St k) ltac:(lia) (v_states k ltac:(lia)) i s t) by assumption. rewrite Ec. apply (HR eq_refl); [lia|assumption|assumption|assumption].
  - unfold g_post in Hl. cbv zeta in Hl. cbn [In] in Hl. destruct Hl as [<-|[<-|[]]]; exact Logic.I.
Qed.
End Values.
End Gpt.
