(** * C70: a pretrained GPT2, from torch's parameters to the output of NNTile's model *)
From Coq Require Import String Reals Lra.
From Verif Require Import Base Spec Geometry Traits TraitsProofs Runtime Ops RealOps TensorSem ElemGeneric Concrete Axis SliceGeo Sequence XReals NdRuns AnyRuns RSum AttnSpec MatOps CrossEntropy XTriples HasRuns TapeMath Tape PyLayers PyLinear PySimple AttMath PyModels BuildEnv GptBuild BuildModel GptSpec GptModel PropGpt GptExamples NumpyIO PropNumpy Checkpoint PropCheckpoint GptTorchSpec TorchMath GptTorch PropTorch.
Import ListNotations.
Local Close Scope string_scope.
Local Close Scope Z_scope.
Local Open Scope list_scope.
Local Open Scope R_scope.

(** Before the parameters are loaded: the state of C59 but for the values of the parameters, which may
    be anything *)
Record gpt2_unloaded (ids pos mask labels : tensor) (b : build) (n nb : Z) (tokens : Z -> Z -> Z) (positions : Z -> Z) (lab : Z -> Z -> Z)
  (np : nat) (G : nat -> arr) (L0 : R) (s : store XR) : Prop := {
  gu_alloc : forall x t, b_mem b x = Some t -> stored KF s t;
  gu_ids : stored KI s ids /\ forall i t, (0 <= i < n)%Z -> (0 <= t < nb)%Z -> ielem s ids [i; t] = tokens i t;
  gu_pos : stored KI s pos /\ forall i, (0 <= i < n)%Z -> ielem s pos [i] = positions i;
  gu_mask : stored KB s mask /\ forall i j, (0 <= i < n)%Z -> (0 <= j < n)%Z -> belem s mask [i; j] = (i <=? j)%Z;
  gu_labels : stored KI s labels /\ forall i t, (0 <= i < n)%Z -> (0 <= t < nb)%Z -> ielem s labels [i; t] = lab i t;
  gu_grads : forall j idx, (j < np)%nat -> inb (t_shape (pgrad b j)) idx -> elem s (pgrad b j) idx = Fin (G j idx);
  gu_loss : elem s (loss_val b) [] = Fin L0
}.
(** the tensors of the parameters of the model, in order *)
Definition params_of (b : build) : list tensor := map (fun m => PyModels.bt b (Val m)) (bm_params b).

Lemma elem_ext (s s' : store XR) t idx : wf_tensor t -> inb (t_shape t) idx -> (forall h, In h (tile_handles t) -> s' h = s h) -> elem s' t idx = elem s t idx.
Proof. intros W Hi H. unfold elem. rewrite H; [reflexivity|]. apply th_In; [apply wf_wft; assumption|apply etile_bound; [apply wf_wft; assumption|assumption]]. Qed.
Lemma param_nodes c mask ids pos n nb nt bt h lo b : gbuilt c mask ids pos n nb nt bt h lo b ->
  forall j, (j < 5 + 16 * c_layers c)%nat -> exists tr, hasn b (nth j (bm_params b) O) tr.
Proof.
  intros HB' j Hj. assert (PL := GptRun.params_len c). assert (EP := bm_params_eq c mask ids pos n nb nt bt h lo b HB').
  rewrite EP. assert (Hin : In (nth j (g_params c) O) (g_params c)) by (apply nth_In; rewrite PL; assumption). revert Hin. generalize (nth j (g_params c) O) as m. intros m Hin.
  unfold g_params in Hin. rewrite !in_app_iff, in_flat_map in Hin. destruct Hin as [Hin|[(k & Hk & Hin)|Hin]].
  - cbn [In] in Hin. assert (exists tr, nth_error (pre_nodes c n nb nt bt) m = Some tr) as [tr Etr] by (destruct Hin as [<-|[<-|[]]]; eexists; reflexivity).
    exists tr. eapply (gb_pre _ _ _ _ _ _ _ _ _ _ _ HB'); eassumption.
  - apply in_seq in Hk. apply params_range in Hin. assert (exists tr, nth_error (block_nodes c n nb nt bt h) (m - first k) = Some tr) as [tr Etr].
    { destruct (nth_error (block_nodes c n nb nt bt h) (m - first k)) eqn:En; [eauto|]. apply nth_error_None in En. cbn [List.length block_nodes app attn_nodes] in En. unfold first in *. lia. }
    exists tr. replace m with (first k + (m - first k))%nat by lia. eapply (gb_blk _ _ _ _ _ _ _ _ _ _ _ HB'); [lia|exact Etr].
  - cbn [In] in Hin. assert (exists i, (i < 5)%nat /\ m = (first (c_layers c) + i)%nat) as (i & Hi5 & ->) by (destruct Hin as [<-|[<-|[<-|[]]]]; eexists; (split; [|reflexivity]); lia).
    destruct (nth_error (post_nodes c n nb nt bt) i) as [tr|] eqn:En; [|apply nth_error_None in En; cbn in En; lia]. exists tr. eapply (gb_post _ _ _ _ _ _ _ _ _ _ _ HB'); exact En.
Qed.

Theorem C70_pretrained_gpt2 c ids pos n nb nt bt h next num :
  gdims c n nb nt bt h -> 0 < c_eps c -> (c_flash c = true -> (nt | n)%Z /\ (bt | nb)%Z) -> c_act c <> Relu ->
  wf_tensor ids -> t_shape ids = [n; nb] -> t_base ids = [nt; bt] -> (forall k, In k (tile_handles ids) -> (k < next)%Z) ->
  wf_tensor pos -> t_shape pos = [n] -> t_base pos = [nt] -> (forall k, In k (tile_handles pos) -> (k < next)%Z) ->
  exists mask b0 labels b,
    gpt2 c ids pos next = Ok (mask, b0) /\ gen_cross_entropy (out_node b0) b0 = Ok (labels, b) /\
    forall Q : nat -> list Z -> R,
    let np := (5 + 16 * c_layers c)%nat in
    let torch := named_parameters (c_embed c) (c_inner c) (c_vocab c) (c_maxpos c) num Q (c_layers c) in
    exists l, torch_arrays (c_embed c) (c_head c) torch = Ok l /\ map n_shape l = map t_shape (params_of b) /\
    forall tokens positions lab G a L0 mem q s,
      let model := torch_logits (c_embed c) h n (c_inner c) (c_eps c) (act_fun (c_act c)) tokens positions Q (c_layers c) in
      (forall i t, (0 <= i < n)%Z -> (0 <= t < nb)%Z -> (0 <= tokens i t < c_vocab c)%Z /\ (0 <= lab i t < c_vocab c)%Z) ->
      (forall i, (0 <= i < n)%Z -> (0 <= positions i < c_maxpos c)%Z) ->
      room s mem q (params_of b) -> holds_arrays s mem l ->
      (forall j t, (j < np)%nat -> In t [ids; pos; mask; labels] \/ (exists x, b_mem b x = Some t) -> ~ In (sl_next (q j)) (tile_handles t)) ->
      gpt2_unloaded ids pos mask labels b n nb tokens positions lab np G L0 s ->
      runs_any (then_ (from_torch (c_embed c) (c_head c) torch mem q (params_of b)) (training_step a labels b)) s (fun s' =>
        (forall v i t, (0 <= v < c_vocab c)%Z -> (0 <= i < n)%Z -> (0 <= t < nb)%Z -> elem s' (PyModels.bt b (Val (out_node b))) [v; i; t] = Fin (model v i t)) /\
        elem s' (loss_val b) [] = Fin (L0 + a * cross_entropy n nb (c_vocab c) lab model)).
Proof.
  intros HG Heps Hfl Hact Wi Si Bi Hi Wp Sp Bp Hp.
  pose proof (gpt2_ok c ids pos n nb nt bt h next HG Si Bi Sp Bp) as H1. unfold okp in H1. destruct (gpt2 c ids pos next) as [[mask b0]| |] eqn:E1; try contradiction.
  destruct H1 as (lo & Hlo & Wm & (Sm & Bm & _) & Hm & HB & Ht).
  assert (El : lid b0 = (5 + 8 * c_layers c)%nat) by (apply (lid_eq c mask ids pos n nb nt bt h lo b0 HB)).
  assert (Eo : out_node b0 = (first (c_layers c) + 4)%nat) by (apply (out_eq c mask ids pos n nb nt bt h lo b0 HB)).
  destruct (gb_post _ _ _ _ _ _ _ _ _ _ _ HB 4%nat _ eq_refl) as [N1 _]. cbn [fst snd] in N1.
  assert (HF : fit [c_vocab c; n; nb] [c_vocab c; nt; bt]) by (destruct HG; repeat split; repeat constructor; assumption).
  pose proof (gen_ce_ok lo (first (c_layers c) + 4) (c_vocab c) [n; nb] [nt; bt] b0 (gb_inv _ _ _ _ _ _ _ _ _ _ _ HB) Ht N1 HF) as H2.
  unfold okp in H2. rewrite <- Eo in H2. destruct (gen_cross_entropy (out_node b0) b0) as [[labels b]| |] eqn:E2; try contradiction.
  destruct H2 as (HI & HX & Hn & HL & HA & Wl & (Sl & Bl & _) & _ & Dl & C0 & C1 & C2 & _). rewrite El in C0, C1, C2.
  assert (HB' := gbuilt_ext _ _ _ _ _ _ _ _ _ _ _ _ HB HI HX Hn HL HA).
  exists mask, b0, labels, b. split; [reflexivity|]. split; [assumption|]. intros Q np torch.
  assert (Hh : (0 < h)%Z) by (apply HG). assert (Hnh : (0 < c_head c)%Z) by (apply HG).
  assert (He : c_embed c = (c_head c * h)%Z) by (rewrite Z.mul_comm; apply HG).
  destruct (from_torch_arrays (c_embed c) (c_head c) h (c_inner c) (c_vocab c) (c_maxpos c) Hh Hnh He num Q (c_layers c)) as (l & Ea & Sa & Ma).
  assert (EP : map t_shape (params_of b) = param_shapes (c_embed c) (c_head c) h (c_inner c) (c_vocab c) (c_maxpos c) (c_layers c)).
  { unfold params_of. rewrite map_map. apply (shapes_eq c mask ids pos n nb nt bt h lo b HG HB'). }
  exists l. split; [exact Ea|]. split; [congruence|].
  intros tokens positions lab G a L0 mem q s model Htl Hps HR HA' Hsep Hu.
  assert (HD : forall x t, b_mem b x = Some t -> disj ids t /\ disj pos t /\ disj mask t /\ disj labels t).
  { intros x t Hx. assert (R := bi_rng _ _ HI x t). repeat split; [| | |apply (Dl x t Hx)]; intros k K1 K2; specialize (R k Hx K2).
    - specialize (Hi k K1). lia. - specialize (Hp k K1). lia. - specialize (Hm k K1). lia. }
  assert (PL : List.length (bm_params b) = np) by (rewrite (bm_params_eq c mask ids pos n nb nt bt h lo b HB'); apply GptRun.params_len).
  assert (PN : forall j, (j < np)%nat -> nth_error (params_of b) j = Some (pval b j)).
  { intros j Hj. unfold params_of, pval. apply (map_nth_error (fun m => PyModels.bt b (Val m))). apply nth_error_nth'. lia. }
  assert (HN : forall j, (j < np)%nat -> exists x y, b_mem b (Val (nth j (bm_params b) O)) = Some x /\ b_mem b (Grad (nth j (bm_params b) O)) = Some y /\ pval b j = x /\ pgrad b j = y).
  { intros j Hj. destruct (param_nodes c mask ids pos n nb nt bt h lo b HB' j Hj) as (tr & (x & X1 & _) & (y & Y1 & _)).
    exists x, y. unfold pval, pgrad, PyModels.bt. rewrite X1, Y1. tauto. }
  assert (PI : forall t, In t (params_of b) -> exists m, b_mem b (Val m) = Some t).
  { intros t Ht'. apply In_nth_error in Ht' as (j & Hj). assert (j < np)%nat by (rewrite <- PL, <- (map_length (fun m => PyModels.bt b (Val m))); apply nth_error_Some; unfold params_of in Hj; congruence).
    rewrite (PN j H) in Hj. injection Hj as <-. destruct (HN j H) as (x & y & X1 & _ & -> & _). eauto. }
  assert (PLn : List.length (params_of b) = np) by (unfold params_of; rewrite map_length; exact PL).
  eapply any_then_l; [apply (from_torch_runs (c_embed c) (c_head c) h (c_inner c) (c_vocab c) (c_maxpos c) num Q (c_layers c) l mem q (params_of b) s Ea); try assumption; congruence|].
  intros s1 I1 [V1 F1].
  assert (FR : forall t, In t [ids; pos; mask; labels] \/ (exists x, b_mem b x = Some t /\ forall m, x <> Val m) -> forall k, In k (tile_handles t) -> s1 k = s k).
  { intros t Ht' k Hk. apply F1.
    - intros j Hj -> . rewrite PLn in Hj. apply (Hsep j t Hj); [|exact Hk]. destruct Ht' as [|(x & Hx & _)]; [left; assumption|right; exists x; exact Hx].
    - intros u Hu' Ku. destruct (PI u Hu') as (m & Hm'). destruct Ht' as [H|(x & Hx & Nx)].
      + destruct (HD _ _ Hm') as (d1 & d2 & d3 & d4). cbn [In] in H. destruct H as [<-|[<-|[<-|[<-|[]]]]]; [exact (d1 k Hk Ku)|exact (d2 k Hk Ku)|exact (d3 k Hk Ku)|exact (d4 k Hk Ku)].
      + exact (bi_disj _ _ HI _ _ _ _ Hx Hm' (Nx m) k Hk Ku). }
  set (P := values l).
  assert (HS : gpt2_state ids pos mask labels b n nb tokens positions lab np P G L0 s1).
  { destruct Hu as [u1 [u2 u2'] [u3 u3'] [u4 u4'] [u5 u5'] u6 u7]. split.
    - intros x t Hx. eapply tinv_stored; [exact I1|]. apply (u1 x t Hx).
    - split; [eapply tinv_stored; [exact I1|exact u2]|]. intros i t H3 H4. rewrite <- (u2' i t H3 H4). apply ielem_ext; [exact Wi|rewrite Si; repeat constructor; lia|]. apply FR. left. cbn [In]. tauto.
    - split; [eapply tinv_stored; [exact I1|exact u3]|]. intros i H3. rewrite <- (u3' i H3). apply ielem_ext; [exact Wp|rewrite Sp; repeat constructor; lia|]. apply FR. left. cbn [In]. tauto.
    - split; [eapply tinv_stored; [exact I1|exact u4]|]. intros i t H3 H4. rewrite <- (u4' i t H3 H4). apply belem_ext; [exact Wm|rewrite Sm; repeat constructor; lia|]. apply FR. left. cbn [In]. tauto.
    - split; [eapply tinv_stored; [exact I1|exact u5]|]. intros i t H3 H4. rewrite <- (u5' i t H3 H4). apply ielem_ext; [exact Wl|rewrite Sl; repeat constructor; lia|]. apply FR. left. cbn [In]. tauto.
    - intros j idx Hj Hx. apply (V1 j (pval b j) idx); [apply PN; exact Hj|exact Hx].
    - intros j idx Hj Hx. rewrite <- (u6 j idx Hj Hx). destruct (HN j Hj) as (x & y & _ & X2 & _ & X4). rewrite X4 in *.
      apply elem_ext; [apply (bi_wf _ _ HI _ _ X2)|exact Hx|]. apply FR. right. eexists. split; [exact X2|]. discriminate.
    - rewrite <- u7. destruct (hast_U b _ _ _ C0) as (U0 & S0 & B0). destruct (bU_inv b _ U0) as (t & Et & Eb).
      assert (Elv : loss_val b = PyModels.bt b (Tmp (5 + 8 * c_layers c) 0)) by (unfold loss_val; rewrite (lid_eq c mask ids pos n nb nt bt h lo b HB'); reflexivity).
      rewrite Elv. rewrite Eb in *. apply elem_ext; [apply (bi_wf _ _ HI _ _ Et)|rewrite S0; constructor|]. apply FR. right. eexists. split; [exact Et|]. discriminate. }
  eapply any_weaken; [apply (gpt2_step c mask ids pos labels n nb nt bt h lo b HG HB' Heps (conj Si Bi) (conj Sp Bp) (conj Sm Bm) (conj Sl Bl) (conj Wi (conj Wp (conj Wm Wl))) HD Hfl (conj C0 (conj C1 C2))
    tokens positions lab P G a L0 s1); try assumption; [intros; apply Htl; assumption|intros; apply Htl; assumption|intros HRelu; contradiction]|].
  intros s2 _ (O1 & O2 & _).
  assert (EM : forall v i t, logits (c_embed c) (c_head c) h n (c_inner c) (c_eps c) (act_fun (c_act c)) tokens positions P (c_layers c) v i t = model v i t).
  { intros. apply mconv_logits; assumption. }
  split.
  - intros v i t Hv Hi' Ht'. rewrite O1 by assumption. rewrite EM. reflexivity.
  - rewrite O2. do 2 f_equal. f_equal. unfold cross_entropy. apply Rsum_ext. intros i _. apply Rsum_ext. intros t _. rewrite EM. f_equal. f_equal. apply Rsum_ext. intros v _. rewrite EM. reflexivity.
Qed.
