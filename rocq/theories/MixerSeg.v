(** * Mixer as a piece of a model; models made of pieces *)
From Coq Require Import Reals Lra FunctionalExtensionality.
From Coquelicot Require Import Coquelicot.
From Verif Require Import Base Spec Geometry Traits TraitsProofs Runtime Ops RealOps TensorSem OneOut ElemOps Axis SliceOps SliceGeo PropElem MatOps MatProofs AttMath XReals RSum Sequence NdRuns AnyRuns PropDeriv AttnSpec PropMat XTriples HasRuns HasRuns2 TapeMath VjpMath Tape PyLayers PyLinear PySimple PyNorm Backprop PropLayers PropModel BuildModel Segments PyMixer MixerRuns GptSpec MixSpec.
Local Close Scope Z_scope.
Local Open Scope R_scope.
Notation lms ls := (map ly_m ls).
Notation ids ls := (map ly_id ls).

Section Mix.
Context {E : env} (req : nat -> bool).
Notation st := (st req).
Notation node_ok := (node_ok req).

Definition mixer_segment (h1 h2 : half) : segment := {|
  sg_layers := h_layers req h1 ++ h_layers req h2; sg_zero := [];
  sg_py := mixer (ly_py (h_norm req h1)) (h_mlp req h1) (ly_py (h_norm req h2)) (h_mlp req h2) (node req (h_x h1)) (node req (h_y h1)) (node req (h_y h2)) |}.

Lemma half_saved h : half_ok req h -> Forall saved_local (h_layers req h) /\ Forall (fun l => vjp vshape (ly_m l)) (h_layers req h).
Proof.
  intros H. destruct (ln_layer_ok req _ _ _ _ _ _ _ (ho_norm _ h H)) as (N1 & _). destruct (linear_layer_ok req _ _ _ _ _ _ _ (S (h_id h)) _ _ _ _ _ _ (ho_lin1 _ h H)) as (L1 & _).
  destruct (act_layer_ok req Gelu _ _ (S (S (h_id h))) (ho_act _ h H)) as (A1 & _).
  split; repeat (apply Forall_cons || apply Forall_nil); try assumption.
  - intros ? ? ? _ _. exact I.
  - apply (ln_vjp req). apply (ho_norm _ h H).
  - eapply linear_vjp. apply (ho_lin1 _ h H).
  - apply act_vjp. apply (ho_act _ h H).
  - apply res_vjp. assumption.
Qed.
Lemma mixer_good h1 h2 ns : half_ok req h1 -> half_ok req h2 -> h_x h2 = h_y h1 -> NoDup (ids (h_layers req h1 ++ h_layers req h2)) ->
  ordered (lms (h_layers req h1 ++ h_layers req h2)) ns -> segment_good req (mixer_segment h1 h2).
Proof.
  intros H1 H2 Ex Hid HO. destruct (half_saved h1 H1) as [S1 V1], (half_saved h2 H2) as [S2 V2].
  split; [apply Forall_app; split; assumption|]. split; [apply Forall_app; split; assumption|]. split.
  - pose proof (fwd_app req _ _ _ _ S1 Hid (half_fwd req h1 H1) (half_fwd req h2 H2)) as Hf.
    cbn [sg_layers sg_py mixer_segment mixer pl_forward node m_val]. rewrite Ex in Hf. rewrite <- pyseq_app in Hf. exact Hf.
  - pose proof HO as HO0. rewrite map_app in HO0. apply ordered_app in HO0 as [O1 O2].
    pose proof (bwd_app req [] [] _ _ _ _ ns S1 Hid HO ltac:(intros ? []) (half_bwd req h1 H1 ns O1) (half_bwd req h2 H2 _ O2)) as Hb.
    cbn [sg_layers sg_py mixer_segment mixer pl_backward node m_grad]. rewrite Ex in Hb. rewrite <- pyseq_app in Hb. exact Hb.
Qed.

(** ** What the halves compute *)
Section Value.
Variables (C B F : Z).
Hypothesis (HC : (0 < C)%Z) (HB : (0 < B)%Z) (HF : (0 < F)%Z).
Definition rep3 (f : arr) (x : hidden) : Prop := forall c t p, (0 <= c < C)%Z -> (0 <= t < B)%Z -> (0 <= p < F)%Z -> f [c; t; p] = x c t p.
Definition fixes (v : nat -> arr) (l : layer) : Prop := v (ml_out (ly_m l)) = ml_F (ly_m l) (args (ly_m l) v).

Lemma norm_rep v h x : fixes v (h_norm req h) -> vshape (h_n h) = [C; B; F] -> h_axis h = 2%Z -> 0 < h_eps h -> rep3 (v (h_x h)) x ->
  rep3 (v (h_n h)) (feature_norm F (h_eps h * h_eps h) (v (h_g h)) (v (h_be h)) x).
Proof.
  intros Hf Es Ea He Hx c t p Hc Ht Hp. red in Hf. cbn [h_norm ln_layer ly_m ml_out ml_F] in Hf. rewrite Hf, Es, Ea. unfold args, inp. cbn [ml_ins].
  unfold ln_F, ln_norm, rinv, rvar, rmean, row. change (zn [c; t; p] 2) with p. change (zn [C; B; F] 2) with F. change (del 2 [c; t; p]) with [c; t]. cbn [nth]. unfold feature_norm.
  assert (E1 : Rsum F (fun k => v (h_x h) (ins 2 k [c; t])) = Rsum F (fun k => x c t k)) by (apply Rsum_ext; intros k Hk; apply Hx; assumption).
  rewrite E1, (Hx c t p) by assumption.
  assert (E2 : forall mu, Rsum F (fun k => (v (h_x h) (ins 2 k [c; t]) - mu) * (v (h_x h) (ins 2 k [c; t]) - mu)) = Rsum F (fun k => (x c t k - mu) * (x c t k - mu))).
  { intros mu. apply Rsum_ext. intros k Hk. change (ins 2 k [c; t]) with [c; t; k]. rewrite (Hx c t k) by assumption. reflexivity. }
  rewrite E2. unfold Rdiv. rewrite !Rmult_1_l, !(Rmult_comm (/ IZR F)). reflexivity.
Qed.
(** side R: over the channels *)
Lemma half_R v h x J : Forall (fixes v) (h_layers req h) -> h_sd h = SideR -> h_sI h = [B; F] -> h_sK h = [C] -> h_sJ h = [J] -> (0 < J)%Z ->
  vshape (h_n h) = [C; B; F] -> h_axis h = 2%Z -> 0 < h_eps h -> rep3 (v (h_x h)) x ->
  rep3 (v (h_y h)) (mixed1 C F J (h_eps h * h_eps h) (v (h_g h)) (v (h_be h)) (v (h_w1 h)) (v (h_w2 h)) x).
Proof.
  intros Hf Esd EI EK EJ HJ Es Ea He Hx. unfold h_layers in Hf. repeat (apply Forall_cons_iff in Hf as [? Hf]). rename H into F1, H0 into F2, H1 into F3, H2 into F4.
  pose proof (norm_rep v h x F1 Es Ea He Hx) as Hn. intros c t p Hc Ht Hp. red in F2, F3, F4. cbn [h_lin1 h_act h_res linear_layer act_layer ly_m ml_out ml_F opt_list] in F2, F3, F4.
  rewrite F4. unfold args at 2, inp at 1. cbn [ml_ins nth]. unfold mixed1. rewrite (Hx c t p), Rplus_comm by assumption. f_equal.
  rewrite Esd, EI, EK, EJ. unfold lin_F. change [c; t; p] with ([c] ++ [t; p]). rewrite matmul_0 by (inbl; assumption). rewrite Rplus_0_r, sum1 by assumption. unfold channel_mlp. apply Rsum_ext. intros j Hj.
  app_norm. unfold args, inp. cbn [nth ml_ins]. f_equal. rewrite F3. cbn [act_fun]. unfold args, inp. cbn [ml_ins nth]. rewrite F2. f_equal.
  rewrite Esd, EI, EK, EJ. unfold lin_F. change ([j] ++ [t; p]) with ([j] ++ [t; p]). rewrite matmul_0 by (inbl; assumption). rewrite Rplus_0_r, sum1 by assumption. apply Rsum_ext. intros k Hk.
  app_norm. unfold args, inp. cbn [nth ml_ins]. f_equal. apply Hn; assumption.
Qed.
(** side L: over the features *)
Lemma half_L v h x J : Forall (fixes v) (h_layers req h) -> h_sd h = SideL -> h_sI h = [C; B] -> h_sK h = [F] -> h_sJ h = [J] -> (0 < J)%Z ->
  vshape (h_n h) = [C; B; F] -> h_axis h = 2%Z -> 0 < h_eps h -> rep3 (v (h_x h)) x ->
  rep3 (v (h_y h)) (mixed2 F J (h_eps h * h_eps h) (v (h_g h)) (v (h_be h)) (v (h_w1 h)) (v (h_w2 h)) x).
Proof.
  intros Hf Esd EI EK EJ HJ Es Ea He Hx. unfold h_layers in Hf. repeat (apply Forall_cons_iff in Hf as [? Hf]). rename H into F1, H0 into F2, H1 into F3, H2 into F4.
  pose proof (norm_rep v h x F1 Es Ea He Hx) as Hn. intros c t p Hc Ht Hp. red in F2, F3, F4. cbn [h_lin1 h_act h_res linear_layer act_layer ly_m ml_out ml_F opt_list] in F2, F3, F4.
  rewrite F4. unfold args at 2, inp at 1. cbn [ml_ins nth]. unfold mixed2. rewrite (Hx c t p), Rplus_comm by assumption. f_equal.
  rewrite Esd, EI, EK, EJ. unfold lin_F. change [c; t; p] with ([c; t] ++ [p]). rewrite matmul_0 by (inbl; assumption). rewrite Rplus_0_r, sum1 by assumption. unfold feature_mlp. apply Rsum_ext. intros j Hj.
  app_norm. unfold args, inp. cbn [nth ml_ins]. f_equal. rewrite F3. cbn [act_fun]. unfold args, inp. cbn [ml_ins nth]. rewrite F2. f_equal.
  rewrite Esd, EI, EK, EJ. unfold lin_F. rewrite matmul_0 by (inbl; assumption). rewrite Rplus_0_r, sum1 by assumption. apply Rsum_ext. intros k Hk.
  app_norm. unfold args, inp. cbn [nth ml_ins]. f_equal. apply Hn; assumption.
Qed.
End Value.
End Mix.
