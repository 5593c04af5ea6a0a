(** * C59: a training step of GPT2, from the constructor to the gradients *)
From Coq Require Import Reals Lra FunctionalExtensionality Sorted.
From Coquelicot Require Import Coquelicot.
From Verif Require Import Base Spec Geometry Traits TraitsProofs Runtime Ops RealOps TensorSem ElemGeneric Concrete Axis SliceGeo XReals NdRuns AnyRuns RSum AttnSpec MatOps CrossEntropy XTriples HasRuns TapeMath VjpMath Tape PyLayers PyLinear PySimple PyNorm AttMath PyAttn PyFlash Backprop CeLoss PropModel PyModels BuildEnv GptBuild BuildModel GptSpec GptModel GptEval GptRun.
Local Close Scope Z_scope.
Local Open Scope R_scope.

Lemma gbuilt_ext c mask ids pos n nb nt bt h lo b b' : gbuilt c mask ids pos n nb nt bt h lo b ->
  binv lo b' -> ext b b' -> b_n b' = b_n b -> b_layers b' = b_layers b -> b_acts b' = b_acts b -> gbuilt c mask ids pos n nb nt bt h lo b'.
Proof.
  intros [q1 q2 q3 q4 q5 q6 q7 q8 q9] B' X N L A.
  assert (Hn : forall m tr, hasn b m tr -> hasn b' m tr) by (intros m tr [H1 H2]; split; eapply hast_ext; eassumption).
  split; try congruence; auto.
  - intros j l i tr Hj Hi. eapply hast_ext; [exact X|]. eapply q8; eassumption.
  - intros i tr Hi. eapply hast_ext; [exact X|]. eapply q9; eassumption.
Qed.

(** ** The state of the data in which a step starts *)
(** the parameter number [j] of the model: value and gradient; the output of the model; the value
    of the loss *)
Definition pval (b : build) (j : nat) : tensor := bt b (Val (nth j (bm_params b) O)).
Definition pgrad (b : build) (j : nat) : tensor := bt b (Grad (nth j (bm_params b) O)).
Definition out_node (b : build) : nat := last (b_acts b) O.
Definition loss_val (b : build) : tensor := bt b (Tmp (lid b) 0).

Record gpt2_state (ids pos mask labels : tensor) (b : build) (n nb : Z) (tokens : Z -> Z -> Z) (positions : Z -> Z) (lab : Z -> Z -> Z)
  (np : nat) (P G : nat -> arr) (L0 : R) (s : store XR) : Prop := {
  gs_alloc : forall x t, b_mem b x = Some t -> stored KF s t;
  gs_ids : stored KI s ids /\ forall i t, (0 <= i < n)%Z -> (0 <= t < nb)%Z -> ielem s ids [i; t] = tokens i t;
  gs_pos : stored KI s pos /\ forall i, (0 <= i < n)%Z -> ielem s pos [i] = positions i;
  gs_mask : stored KB s mask /\ forall i j, (0 <= i < n)%Z -> (0 <= j < n)%Z -> belem s mask [i; j] = (i <=? j)%Z;
  gs_labels : stored KI s labels /\ forall i t, (0 <= i < n)%Z -> (0 <= t < nb)%Z -> ielem s labels [i; t] = lab i t;
  gs_params : forall j idx, (j < np)%nat -> inb (t_shape (pval b j)) idx -> elem s (pval b j) idx = Fin (P j idx);
  gs_grads : forall j idx, (j < np)%nat -> inb (t_shape (pgrad b j)) idx -> elem s (pgrad b j) idx = Fin (G j idx);
  gs_loss : elem s (loss_val b) [] = Fin L0
}.

Definition idx1 (f : Z -> Z) : list Z -> Z := fun l => match l with [i] => f i | _ => 0%Z end.
Definition idx2 (f : Z -> Z -> Z) : list Z -> Z := fun l => match l with [i; j] => f i j | _ => 0%Z end.

(** training step: gradients of the activations are cleared, forward pass, loss, backward pass *)
Definition training_step (a : R) (labels : tensor) (b : build) : res (list (task XR)) :=
  pyseq [bm_clear_activations req b; bm_forward req b;
         crossentropy_calc (Fin a) (bt b (Val (out_node b))) labels (bt b (Tmp (lid b) 1)) (bt b (Tmp (lid b) 2)) (loss_val b) (bt b (Grad (out_node b)));
         bm_backward req b].

Lemma last_acts l x : last (l ++ [x]) O = x.
Proof. induction l as [|y l IH]; [reflexivity|]. cbn [app last]. destruct (l ++ [x]) eqn:E; [destruct l; discriminate|exact IH]. Qed.

Section Step.
Variables (c : gpt2_config) (mask ids pos labels : tensor) (n nb nt bt h lo : Z) (b : build).
Hypothesis G : gdims c n nb nt bt h.
Hypothesis HB : gbuilt c mask ids pos n nb nt bt h lo b.
Hypothesis Heps : 0 < c_eps c.
Hypothesis Hids : t_shape ids = [n; nb] /\ t_base ids = [nt; bt].
Hypothesis Hpos : t_shape pos = [n] /\ t_base pos = [nt].
Hypothesis Hmask : t_shape mask = [n; n] /\ t_base mask = [nt; nt].
Hypothesis Hlabels : t_shape labels = [n; nb] /\ t_base labels = [nt; bt].
Hypothesis Hwf : wf_tensor ids /\ wf_tensor pos /\ wf_tensor mask /\ wf_tensor labels.
Hypothesis Hdisj : forall x t, b_mem b x = Some t -> disj ids t /\ disj pos t /\ disj mask t /\ disj labels t.
Hypothesis Hflash : c_flash c = true -> (nt | n)%Z /\ (bt | nb)%Z.
Notation L := (c_layers c). Notation e := (c_embed c).
Hypothesis Hce : hast b (Tmp (5 + 8 * L) 0) [] [] /\ hast b (Tmp (5 + 8 * L) 1) [2; n; nb]%Z [2; nt; bt]%Z /\ hast b (Tmp (5 + 8 * L) 2) [n; nb] [nt; bt].

Lemma lid_eq : lid b = (5 + 8 * L)%nat.
Proof.
  unfold lid. rewrite (gb_layers _ _ _ _ _ _ _ _ _ _ _ HB), !app_length, blocks_len. cbn [List.length pre_layers post_layers]. lia.
Qed.
Lemma out_eq : out_node b = (first L + 4)%nat.
Proof.
  unfold out_node. rewrite (gb_acts _ _ _ _ _ _ _ _ _ _ _ HB).
  change [first L; (first L + 4)%nat] with ([first L] ++ [(first L + 4)%nat]). rewrite !app_assoc. apply last_acts.
Qed.

Lemma shapes_eq : map (fun m => t_shape (PyModels.bt b (Val m))) (bm_params b) = param_shapes e (c_head c) h (c_inner c) (c_vocab c) (c_maxpos c) L.
Proof.
  rewrite (bm_params_eq c mask ids pos n nb nt bt h lo b HB). unfold g_params, param_shapes. rewrite !map_app. f_equal; [|f_equal].
  - cbn [map]. destruct (gb_pre _ _ _ _ _ _ _ _ _ _ _ HB 0%nat _ eq_refl) as [N0 _], (gb_pre _ _ _ _ _ _ _ _ _ _ _ HB 2%nat _ eq_refl) as [N2 _].
    destruct (hast_U b _ _ _ N0) as (_ & S0 & _), (hast_U b _ _ _ N2) as (_ & S2 & _). rewrite S0, S2. reflexivity.
  - assert (HK : forall k, (k <= L)%nat -> map (fun m => t_shape (PyModels.bt b (Val m))) (flat_map (fun k => block_params (first k)) (seq 0 k)) = List.concat (repeat (block_shapes e (c_head c) h (c_inner c)) k)).
    { induction k as [|k IH]; intros Hk; [reflexivity|]. rewrite seq_last, map_app, IH by lia.
      replace (repeat (block_shapes e (c_head c) h (c_inner c)) (S k)) with (repeat (block_shapes e (c_head c) h (c_inner c)) k ++ [block_shapes e (c_head c) h (c_inner c)])
        by (cbn [repeat]; rewrite <- repeat_cons; reflexivity).
      rewrite concat_app. f_equal. cbn [List.concat]. rewrite app_nil_r.
      assert (HS : forall i tr, nth_error (block_nodes c n nb nt bt h) i = Some tr -> t_shape (PyModels.bt b (Val (first k + i))) = fst tr).
      { intros i tr Hi. destruct (gb_blk _ _ _ _ _ _ _ _ _ _ _ HB k i tr ltac:(lia) Hi) as [N0 _]. apply (hast_U b _ _ _ N0). }
      assert (Ee := g_e _ _ _ _ _ _ G). unfold block_params, block_shapes. cbn [map].
      rewrite (HS 1%nat _ eq_refl), (HS 2%nat _ eq_refl), (HS 3%nat _ eq_refl), (HS 4%nat _ eq_refl), (HS 5%nat _ eq_refl), (HS 6%nat _ eq_refl), (HS 7%nat _ eq_refl), (HS 8%nat _ eq_refl), (HS 9%nat _ eq_refl), (HS 10%nat _ eq_refl),
        (HS 14%nat _ eq_refl), (HS 15%nat _ eq_refl), (HS 16%nat _ eq_refl), (HS 17%nat _ eq_refl), (HS 20%nat _ eq_refl), (HS 21%nat _ eq_refl).
      cbn [fst]. rewrite <- Ee. reflexivity. }
    apply HK. lia.
  - assert (HS : forall i tr, nth_error (post_nodes c n nb nt bt) i = Some tr -> t_shape (PyModels.bt b (Val (first L + i))) = fst tr).
    { intros i tr Hi. destruct (gb_post _ _ _ _ _ _ _ _ _ _ _ HB i tr Hi) as [N0 _]. apply (hast_U b _ _ _ N0). }
    cbn [map]. rewrite (HS 1%nat _ eq_refl), (HS 2%nat _ eq_refl), (HS 3%nat _ eq_refl). reflexivity.
Qed.

Variables (tokens : Z -> Z -> Z) (positions : Z -> Z) (lab : Z -> Z -> Z) (P Gr : nat -> arr) (a L0 : R) (s : store XR).
Hypothesis Htok : forall i t, (0 <= i < n)%Z -> (0 <= t < nb)%Z -> (0 <= tokens i t < c_vocab c)%Z.
Hypothesis Hposn : forall i, (0 <= i < n)%Z -> (0 <= positions i < c_maxpos c)%Z.
Hypothesis Hlab : forall i t, (0 <= i < n)%Z -> (0 <= t < nb)%Z -> (0 <= lab i t < c_vocab c)%Z.
Hypothesis Hsmooth : c_act c = Relu -> forall k i x t, (k < L)%nat -> (0 <= i < c_inner c)%Z -> (0 <= x < n)%Z -> (0 <= t < nb)%Z ->
  preactivation e (c_head c) h n (c_eps c) P (2 + 16 * k) (states e (c_head c) h n (c_inner c) (c_eps c) (act_fun (c_act c)) tokens positions P k) i x t <> 0.
Hypothesis Hs : gpt2_state ids pos mask labels b n nb tokens positions lab (5 + 16 * L) P Gr L0 s.
Notation model P := (logits e (c_head c) h n (c_inner c) (c_eps c) (act_fun (c_act c)) tokens positions P L).
Notation loss P := (L0 + a * cross_entropy n nb (c_vocab c) lab (model P)).
Let cs := [CInt ids (idx2 tokens); CInt pos (idx1 positions); CBool mask causal; CInt labels (idx2 lab)].
Lemma step_env : benv_ok b cs.
Proof.
  destruct Hwf as (w1 & w2 & w3 & w4). destruct (gb_inv _ _ _ _ _ _ _ _ _ _ _ HB) as [i1 i2 i3 i4 i5].
  split; [exact i2|exact i4| |].
  - intros k [<-|[<-|[<-|[<-|[]]]]]; assumption.
  - intros k x t Hk Hx. destruct (Hdisj x t Hx) as (d1 & d2 & d3 & d4). destruct Hk as [<-|[<-|[<-|[<-|[]]]]]; assumption.
Qed.
Lemma step_K : Forall (c_holds s) cs.
Proof.
  destruct Hs as [_ [a1 b1] [a2 b2] [a3 b3] [a4 b4] _ _ _].
  repeat apply Forall_cons; try apply Forall_nil; (split; [assumption|]).
  - rewrite (proj1 Hids). intros idx Hi. apply inb2_inv in Hi as (i & t & -> & Hi & Ht). apply b1; assumption.
  - rewrite (proj1 Hpos). intros idx Hi. apply inb1_inv in Hi as (i & -> & Hi). apply b2; assumption.
  - rewrite (proj1 Hmask). intros idx Hi. apply inb2_inv in Hi as (i & t & -> & Hi & Ht). apply b3; assumption.
  - rewrite (proj1 Hlabels). intros idx Hi. apply inb2_inv in Hi as (i & t & -> & Hi & Ht). apply b4; assumption.
Qed.
Instance senv : env := benv b cs step_env.
Notation gl := (g_layers c mask ids pos n nb h b cs (idx2 tokens) (idx1 positions) step_env).
Lemma Hcs' : In (CInt ids (idx2 tokens)) cs /\ In (CInt pos (idx1 positions)) cs /\ In (CBool mask causal) cs.
Proof. unfold cs. cbn [In]. tauto. Qed.
Lemma Hidv' : forall idx, inb [n; nb] idx -> (0 <= idx2 tokens idx < c_vocab c)%Z.
Proof. intros idx Hi. apply inb2_inv in Hi as (i & t & -> & Hi & Ht). apply Htok; assumption. Qed.
Lemma Hposv' : forall idx, inb [n] idx -> (0 <= idx1 positions idx < c_maxpos c)%Z.
Proof. intros idx Hi. apply inb1_inv in Hi as (i & -> & Hi). apply Hposn; assumption. Qed.
Lemma step_model : model_ok req gl (g_params c) (first L + 4) (5 + 8 * L).
Proof. exact (g_model_ok c mask ids pos n nb nt bt h lo b cs (idx2 tokens) (idx1 positions) G HB step_env Heps Hcs' Hids Hpos Hmask Hidv' Hposv' Hflash). Qed.
Lemma step_ce : ce_ok req (first L + 4) (5 + 8 * L) labels (idx2 lab) (c_vocab c) [n; nb].
Proof.
  destruct Hce as (C0 & C1 & C2). destruct (gb_post _ _ _ _ _ _ _ _ _ _ _ HB 4%nat _ eq_refl) as [N1 N2]. cbn [fst snd] in N1, N2.
  destruct (hast_U b _ _ _ C0) as (U0 & S0 & B0), (hast_U b _ _ _ C1) as (U1 & S1 & B1), (hast_U b _ _ _ C2) as (U2 & S2 & B2),
    (hast_U b _ _ _ N1) as (U3 & S3 & B3), (hast_U b _ _ _ N2) as (U4 & S4 & B4).
  destruct Hlabels as [El1 El2].
  split.
  - apply (mo_nodes _ _ _ _ _ step_model). apply in_or_app. left. apply (mo_o _ _ _ _ _ step_model).
  - reflexivity.
  - intros i Hi. destruct i as [|[|[|i]]]; [exact U0|exact U1|exact U2|lia].
  - apply Hwf.
  - intros x Hx. destruct (bU_inv b x Hx) as (t & Et & Eb). change (A x) with (PyModels.bt b x). rewrite Eb. apply (Hdisj x t Et).
  - split; cbn [A senv benv]; rewrite ?El2; try (split; assumption); try assumption. split; congruence.
  - intros s0 HK. assert (In (CInt labels (idx2 lab)) cs) as Hin by (unfold cs; cbn [In]; tauto).
    cbn [K senv benv] in HK. unfold bK in HK. rewrite Forall_forall in HK. specialize (HK _ Hin). cbn [c_holds] in HK. rewrite El1 in HK. exact HK.
  - intros idx Hi. apply inb2_inv in Hi as (i & t & -> & Hi & Ht). apply Hlab; assumption.
Qed.
Notation e0 P := (penv (g_params c) P).
Lemma step_eval P' : forall v i t, (0 <= v < c_vocab c)%Z -> (0 <= i < n)%Z -> (0 <= t < nb)%Z ->
  eval (map ly_m gl) (e0 P') (first L + 4) [v; i; t] = model P' v i t.
Proof.
  intros v i t Hv Hi Ht.
  exact (v_logits c mask ids pos n nb nt bt h lo b cs (idx2 tokens) (idx1 positions) G HB step_env Heps Hcs' Hids Hpos Hmask Hflash P' v i t Hv Hi Ht).
Qed.
Lemma step_loss P' : L0 + a * Rsuml (all_idx [n; nb]) (fun idx => ln (Rsum (c_vocab c) (fun k => exp (eval (map ly_m gl) (e0 P') (first L + 4) (k :: idx)))) - eval (map ly_m gl) (e0 P') (first L + 4) (idx2 lab idx :: idx)) = loss P'.
Proof.
  rewrite sum2 by apply G. unfold cross_entropy. rewrite Rsum_swap. f_equal. f_equal. apply Rsum_ext. intros i Hi. apply Rsum_ext. intros t Ht. cbn [idx2].
  rewrite step_eval by (assumption || apply Hlab; assumption). f_equal. f_equal. apply Rsum_ext. intros v Hv. rewrite step_eval by assumption. reflexivity.
Qed.

Ltac inn := first [left; lia|right; inn].
Lemma node_cases m : bU b (Grad m) -> ~ In m (b_acts b) -> In m (g_params c).
Proof.
  intros HU Ho. assert (Hm : (m < first L + 5)%nat).
  { destruct (Nat.lt_ge_cases m (first L + 5)) as [|Hge]; [assumption|]. exfalso. apply HU.
    apply (bi_fresh _ _ (gb_inv _ _ _ _ _ _ _ _ _ _ _ HB)). rewrite (gb_n _ _ _ _ _ _ _ _ _ _ _ HB). assumption. }
  rewrite (gb_acts _ _ _ _ _ _ _ _ _ _ _ HB) in Ho. unfold blocks_acts, g_params in *. rewrite !in_app_iff, in_flat_map in *. cbn [In] in *.
  destruct (Nat.lt_ge_cases m 5) as [H5|H5]; [left; lia|]. right. destruct (Nat.lt_ge_cases m (first L)) as [HL|HL]; [left|right; lia].
  pose (k := ((m - 5) / 24)%nat). assert (Ek : m = (first k + (m - 5) mod 24)%nat) by (unfold first, k; pose proof (Nat.div_mod (m - 5) 24); lia).
  assert (Hr : ((m - 5) mod 24 < 24)%nat) by (apply Nat.mod_upper_bound; lia). assert (Hk : In k (seq 0 L)) by (apply in_seq; unfold first in *; lia).
  exists k. split; [assumption|]. assert (Nb : ~ In m (block_acts (first k))) by (intros C; apply Ho; right; left; exists k; split; assumption).
  clearbody k. clear - Ek Hr Nb. revert Ek Hr. generalize ((m - 5) mod 24)%nat as r. intros r Ek Hr. subst m. unfold block_acts, block_params in *.
  do 24 (destruct r as [|r]; [first [solve [inn]|exfalso; apply Nb; solve [inn]]|]). lia.
Qed.
Lemma gpt2_step : runs_any (training_step a labels b) s (fun s' =>
    (forall v i t, (0 <= v < c_vocab c)%Z -> (0 <= i < n)%Z -> (0 <= t < nb)%Z -> elem s' (PyModels.bt b (Val (out_node b))) [v; i; t] = Fin (model P v i t)) /\
    elem s' (loss_val b) [] = Fin (loss P) /\
    exists G' : nat -> arr, forall j idx, (j < 5 + 16 * L)%nat -> inb (t_shape (pval b j)) idx ->
      elem s' (pval b j) idx = Fin (P j idx) /\ elem s' (pgrad b j) idx = Fin (G' j idx) /\
      is_derive (fun t => loss (vary P j idx t)) (P j idx) (G' j idx - Gr j idx)).
Proof.
  assert (Eb : forall j, (j < 5 + 16 * L)%nat -> nth j (bm_params b) O = nth j (g_params c) O)
    by (intros; rewrite (bm_params_eq c mask ids pos n nb nt bt h lo b HB); reflexivity).
  assert (PL := params_len c). assert (PD := params_nodup c).
  assert (OG := g_outs c mask ids pos n nb nt bt h lo b cs (idx2 tokens) (idx1 positions) HB step_env Hflash).
  assert (HP := g_layers_py c mask ids pos n nb nt bt h lo b cs (idx2 tokens) (idx1 positions) HB step_env Hflash).
  assert (NO : forall m, In m (b_acts b) -> ~ In m (g_params c)).
  { intros m Hm Hp. rewrite <- OG in Hm. exact (ordered_fresh _ _ _ (mo_ordered _ _ _ _ _ step_model) Hp Hm). }
  destruct Hs as [z1 z2 z3 z4 z5 z6 z7 z8].
  pose proof (C50_backprop_crossentropy req gl (b_acts b) (g_params c) (first L + 4) (5 + 8 * L) labels (idx2 lab) (c_vocab c) [n; nb] a L0 (e0 P) (e0 Gr) s) as T.
  assert (HR : runs_any (training_step a labels b) s (after req gl (b_acts b) (g_params c) (first L + 4) (5 + 8 * L) (fun v => L0 + a * Rsuml (all_idx [n; nb]) (fun idx => ln (Rsum (c_vocab c) (fun k => exp (v (k :: idx)))) - v (idx2 lab idx :: idx))) (e0 P) (e0 Gr))).
  { unfold training_step, bm_clear_activations, bm_forward, bm_backward, loss_val. rewrite <- HP, out_eq, lid_eq. apply T; clear T.
    - exact step_model.
    - rewrite OG. apply incl_refl.
    - intros m Hm _. exact (proj1 (proj2 (mo_nodes _ _ _ _ _ step_model m ltac:(apply in_or_app; left; rewrite OG; exact Hm)) eq_refl)).
    - exact step_ce.
    - exact (v_dom c mask ids pos n nb nt bt h lo b cs (idx2 tokens) (idx1 positions) G HB step_env Heps Hcs' Hids Hpos Hmask Hflash P Hsmooth).
    - split.
      + split; [exact step_K|]. intros x Hx. destruct (bU_inv b x Hx) as (t & Et & Ebt). cbn [A senv benv]. rewrite Ebt. eapply z1; exact Et.
      + intros m Hm idx Hi. destruct (nth_index _ _ Hm) as [E1 E2]. cbn [A senv benv] in *. specialize (z6 (index m (g_params c)) idx). unfold pval in z6. rewrite PL in E2.
        rewrite Eb, E1 in z6 by assumption. apply z6; assumption.
      + intros m HU _ Hm idx Hi. pose proof (node_cases m HU Hm) as Hp. destruct (nth_index _ _ Hp) as [E1 E2]. cbn [A senv benv] in *. specialize (z7 (index m (g_params c)) idx). unfold pgrad in z7. rewrite PL in E2.
        rewrite Eb, E1 in z7 by assumption. apply z7; assumption.
      + intros k i f Hk Hf. unfold upd in Hf. destruct (gvar_dec (Tmp k i) (Tmp (5 + 8 * L) 0)) as [E|]; [|discriminate]. assert (Ek : k = (5 + 8 * L)%nat /\ i = O) by (split; congruence). destruct Ek as [-> ->]. injection Hf as <-.
        intros idx Hi. destruct Hce as [C0 _]. destruct (hast_U b _ _ _ C0) as (_ & S0 & _). cbn [A senv benv] in *. rewrite S0 in Hi. apply inb_nil in Hi as ->.
        unfold loss_val in z8. rewrite lid_eq in z8. exact z8. }
  eapply any_weaken; [exact HR|]. clear T HR. intros s' _ (A1 & A2 & A3 & G' & A4 & A5 & A6).
  destruct (gb_post _ _ _ _ _ _ _ _ _ _ _ HB 4%nat _ eq_refl) as [N1 _]. cbn [fst snd] in N1. destruct (hast_U b _ _ _ N1) as (_ & S3 & _).
  destruct Hce as [C0 _]. destruct (hast_U b _ _ _ C0) as (U0 & S0 & _).
  split; [|split].
  - intros v i t Hv Hi Ht. rewrite out_eq. specialize (A1 (first L + 4)%nat). unfold value in A1. cbn [A senv benv] in A1. rewrite <- (step_eval P v i t Hv Hi Ht).
    apply (A1 ltac:(apply in_or_app; left; apply (mo_o _ _ _ _ _ step_model))). rewrite S3. repeat apply Forall2_cons; try assumption. apply Forall2_nil.
  - unfold loss_val. rewrite lid_eq, <- step_loss. exact (A2 U0 [] ltac:(cbn [A senv benv]; rewrite S0; constructor)).
  - exists (fun j => G' (nth j (g_params c) O)). intros j idx Hj Hi. unfold pval, pgrad in *. rewrite Eb in * by assumption.
    assert (Hin : In (nth j (g_params c) O) (g_params c)) by (apply nth_In; rewrite PL; assumption).
    split; [|split].
    + etransitivity; [exact (A3 _ Hin idx Hi)|]. unfold fin, penv. rewrite index_nth by (assumption || rewrite PL; assumption). reflexivity.
    + destruct (mo_nodes _ _ _ _ _ step_model (nth j (g_params c) O) ltac:(apply in_or_app; right; assumption)) as [_ Hg]. destruct (Hg eq_refl) as [Ug Sg].
      apply (A4 _ Ug eq_refl). destruct Sg as [Sg _]. cbn [A senv benv] in *. rewrite Sg. exact Hi.
    + specialize (A5 _ idx Hin Hi). destruct (in_dec Nat.eq_dec (nth j (g_params c) O) (b_acts b)) as [Hc|_]; [exfalso; exact (NO _ Hc Hin)|].
      unfold penv in A5 at 3 4. rewrite index_nth in A5 by (assumption || rewrite PL; assumption).
      eapply is_derive_ext; [|exact A5]. intros t. cbn beta. rewrite penv_vary by (assumption || rewrite PL; assumption). apply step_loss.
Qed.
End Step.

(** ** C59 *)
(** [ids] and [pos]: token and position numbers, in tensors of [n] x [nb] and [n] elements.  Both
    constructors succeed; and whenever all tensors made are allocated, [ids], [pos], [labels] hold
    numbers in range, [mask] is upper triangular, the parameters hold [P], their gradients [G] and
    the value of the loss is L0, then after every execution of a training step (every order of
    tasks allowed by the declared accesses) the output holds the logits, the loss has grown by the
    scaled cross-entropy, the parameters are as before, and the gradient of each parameter has
    grown by the derivative of the loss in it, entry by entry.  For relu all preactivations must
    be nonzero (where it has a derivative). *)
Theorem C59_gpt2_training_step c ids pos n nb nt bt h next :
  gdims c n nb nt bt h -> 0 < c_eps c -> (c_flash c = true -> (nt | n)%Z /\ (bt | nb)%Z) ->
  wf_tensor ids -> t_shape ids = [n; nb] -> t_base ids = [nt; bt] -> (forall k, In k (tile_handles ids) -> (k < next)%Z) ->
  wf_tensor pos -> t_shape pos = [n] -> t_base pos = [nt] -> (forall k, In k (tile_handles pos) -> (k < next)%Z) ->
  exists mask b0 labels b,
    gpt2 c ids pos next = Ok (mask, b0) /\ gen_cross_entropy (out_node b0) b0 = Ok (labels, b) /\
    wf_tensor mask /\ t_shape mask = [n; n] /\ wf_tensor labels /\ t_shape labels = [n; nb] /\
    map (fun m => t_shape (PyModels.bt b (Val m))) (bm_params b) = param_shapes (c_embed c) (c_head c) h (c_inner c) (c_vocab c) (c_maxpos c) (c_layers c) /\
    forall tokens positions lab P G a L0 s,
      let np := (5 + 16 * c_layers c)%nat in
      let state := states (c_embed c) (c_head c) h n (c_inner c) (c_eps c) (act_fun (c_act c)) tokens positions in
      let model := fun P => logits (c_embed c) (c_head c) h n (c_inner c) (c_eps c) (act_fun (c_act c)) tokens positions P (c_layers c) in
      let loss := fun P => L0 + a * cross_entropy n nb (c_vocab c) lab (model P) in
      (forall i t, (0 <= i < n)%Z -> (0 <= t < nb)%Z -> (0 <= tokens i t < c_vocab c)%Z /\ (0 <= lab i t < c_vocab c)%Z) ->
      (forall i, (0 <= i < n)%Z -> (0 <= positions i < c_maxpos c)%Z) ->
      (c_act c = Relu -> forall k i x t, (k < c_layers c)%nat -> (0 <= i < c_inner c)%Z -> (0 <= x < n)%Z -> (0 <= t < nb)%Z ->
        preactivation (c_embed c) (c_head c) h n (c_eps c) P (2 + 16 * k) (state P k) i x t <> 0) ->
      gpt2_state ids pos mask labels b n nb tokens positions lab np P G L0 s ->
      runs_any (training_step a labels b) s (fun s' =>
        (forall v i t, (0 <= v < c_vocab c)%Z -> (0 <= i < n)%Z -> (0 <= t < nb)%Z -> elem s' (PyModels.bt b (Val (out_node b))) [v; i; t] = Fin (model P v i t)) /\
        elem s' (loss_val b) [] = Fin (loss P) /\
        exists G' : nat -> arr, forall j idx, (j < np)%nat -> inb (t_shape (pval b j)) idx ->
          elem s' (pval b j) idx = Fin (P j idx) /\ elem s' (pgrad b j) idx = Fin (G' j idx) /\
          is_derive (fun t => loss (vary P j idx t)) (P j idx) (G' j idx - G j idx)).
Proof.
  intros HG Heps Hfl Wi Si Bi Hi Wp Sp Bp Hp.
  pose proof (gpt2_ok c ids pos n nb nt bt h next HG Si Bi Sp Bp) as H1. unfold okp in H1. destruct (gpt2 c ids pos next) as [[mask b0]| |] eqn:E1; try contradiction.
  destruct H1 as (lo & Hlo & Wm & (Sm & Bm & _) & Hm & HB & Ht).
  assert (El : lid b0 = (5 + 8 * c_layers c)%nat) by (apply (lid_eq c mask ids pos n nb nt bt h lo b0 HB)).
  assert (Eo : out_node b0 = (first (c_layers c) + 4)%nat) by (apply (out_eq c mask ids pos n nb nt bt h lo b0 HB)).
  destruct (gb_post _ _ _ _ _ _ _ _ _ _ _ HB 4%nat _ eq_refl) as [N1 _]. cbn [fst snd] in N1.
  assert (HF : fit [c_vocab c; n; nb] [c_vocab c; nt; bt]) by (destruct HG; repeat split; repeat constructor; assumption).
  pose proof (gen_ce_ok lo (first (c_layers c) + 4) (c_vocab c) [n; nb] [nt; bt] b0 (gb_inv _ _ _ _ _ _ _ _ _ _ _ HB) Ht N1 HF) as H2.
  unfold okp in H2. rewrite <- Eo in H2. destruct (gen_cross_entropy (out_node b0) b0) as [[labels b]| |] eqn:E2; try contradiction.
  destruct H2 as (HI & HX & Hn & HL & HA & Wl & (Sl & Bl & _) & _ & Dl & C0 & C1 & C2 & _). rewrite El in C0, C1, C2.
  assert (HB' := gbuilt_ext _ _ _ _ _ _ _ _ _ _ _ _ HB HI HX Hn HL HA).
  exists mask, b0, labels, b. repeat (split; [first [reflexivity|assumption]|]). split; [apply (shapes_eq c mask ids pos n nb nt bt h lo b HG HB')|].
  intros tokens positions lab P G a L0 s np state model loss Htl Hps Hsm Hs.
  assert (HD : forall x t, b_mem b x = Some t -> disj ids t /\ disj pos t /\ disj mask t /\ disj labels t).
  { intros x t Hx. assert (R := bi_rng _ _ HI x t). repeat split; [| | |apply (Dl x t Hx)]; intros k K1 K2; specialize (R k Hx K2).
    - specialize (Hi k K1). lia. - specialize (Hp k K1). lia. - specialize (Hm k K1). lia. }
  apply (gpt2_step c mask ids pos labels n nb nt bt h lo b HG HB' Heps (conj Si Bi) (conj Sp Bp) (conj Sm Bm) (conj Sl Bl) (conj Wi (conj Wp (conj Wm Wl))) HD Hfl (conj C0 (conj C1 C2))
    tokens positions lab P G a L0 s); try assumption; intros; apply Htl; assumption.
Qed.
