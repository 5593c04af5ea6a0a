(** * C60: GPT2 is causal

    The logits at a position depend on the tokens at this and earlier positions of the same
    sequence only: not on later tokens, on the other sequences of the batch, nor on the length. *)
From Coq Require Import Reals Lra.
From Verif Require Import Base Spec Geometry Traits TraitsProofs Runtime Ops RealOps TensorSem Concrete XReals NdRuns AnyRuns RSum AttnSpec TapeMath HasRuns PyLayers PySimple PyModels GptBuild GptSpec PropGpt.
Local Close Scope Z_scope.
Local Open Scope R_scope.

Lemma Rsum_cut m n f : (0 <= m <= n)%Z -> (forall j, (m <= j < n)%Z -> f j = 0) -> Rsum n f = Rsum m f.
Proof.
  intros Hm H. replace n with (m + Z.of_nat (Z.to_nat (n - m)))%Z by lia.
  assert (Hk : (Z.of_nat (Z.to_nat (n - m)) <= n - m)%Z) by lia. revert Hk. generalize (Z.to_nat (n - m)) as k. induction k as [|k IH]; intros Hk; [f_equal; lia|].
  replace (m + Z.of_nat (S k))%Z with (m + Z.of_nat k + 1)%Z by lia. rewrite Rsum_succ by lia. rewrite IH by lia. rewrite H by lia. ring.
Qed.

Section Causal.
Variables (e nh h inner : Z) (eps : R) (act : R -> R) (P : nat -> arr).
(** two runs of the model, on sequences of lengths [n] and [n']; sequence [t] of the first and
    [t'] of the second agree up to position [i] *)
Variables (n n' i t t' : Z).
Hypothesis Hi : (0 <= i < n)%Z. Hypothesis Hi' : (i < n')%Z.
Definition same (x x' : hidden) : Prop := forall k j, (0 <= j <= i)%Z -> x k j t = x' k j t'.
Lemma norm_same g b x x' : same x x' -> same (normalized e eps g b x) (normalized e eps g b x').
Proof.
  intros H k j Hj. unfold normalized.
  assert (E1 : Rsum e (fun k => x k j t) = Rsum e (fun k => x' k j t')) by (apply Rsum_ext; intros; apply H; assumption). rewrite E1, (H k j Hj).
  assert (E2 : Rsum e (fun k => (x k j t - Rsum e (fun k => x' k j t') / IZR e) * (x k j t - Rsum e (fun k => x' k j t') / IZR e)) =
    Rsum e (fun k => (x' k j t' - Rsum e (fun k => x' k j t') / IZR e) * (x' k j t' - Rsum e (fun k => x' k j t') / IZR e))) by (apply Rsum_ext; intros k0 _; rewrite (H k0 j Hj); reflexivity).
  rewrite E2. reflexivity.
Qed.
Lemma affine_same K w b x x' : same x x' -> same (affine K w b x) (affine K w b x').
Proof. intros H k j Hj. unfold affine. f_equal. apply Rsum_ext. intros l _. rewrite (H l j Hj). reflexivity. Qed.
Lemma projected_same w b x x' d j y : same x x' -> (0 <= j <= i)%Z -> projected e w b x [d; j; t; y] = projected e w b x' [d; j; t'; y].
Proof. intros H Hj. unfold projected. f_equal. apply Rsum_ext. intros l _. rewrite (H l j Hj). reflexivity. Qed.
Lemma attention_same wq wk wv bq bk bv w bo x x' : same x x' -> same (self_attention e nh h n wq wk wv bq bk bv w bo x) (self_attention e nh h n' wq wk wv bq bk bv w bo x').
Proof.
  intros H o q Hq. unfold self_attention. f_equal. apply Rsum_ext. intros y _. apply Rsum_ext. intros d _. f_equal.
  assert (ES : forall j, (0 <= j <= i)%Z -> ascore h (projected e wk bk x) (projected e wq bq x) j q t y = ascore h (projected e wk bk x') (projected e wq bq x') j q t' y).
  { intros j Hj. unfold ascore. f_equal. apply Rsum_ext. intros d' _. rewrite (projected_same wk bk x x' d' j y H Hj), (projected_same wq bq x x' d' q y H Hq). reflexivity. }
  assert (EC : forall j, causal [j; q] = (j <=? q)%Z) by reflexivity.
  assert (ED : adenom h n causal (projected e wk bk x) (projected e wq bq x) q t y = adenom h n' causal (projected e wk bk x') (projected e wq bq x') q t' y).
  { unfold adenom. rewrite (Rsum_cut (q + 1) n), (Rsum_cut (q + 1) n'); try lia.
    - apply Rsum_ext. intros j Hj. rewrite ES by lia. reflexivity.
    - intros j Hj. rewrite EC. destruct (Z.leb_spec j q); [lia|reflexivity].
    - intros j Hj. rewrite EC. destruct (Z.leb_spec j q); [lia|reflexivity]. }
  unfold attention. rewrite (Rsum_cut (q + 1) n), (Rsum_cut (q + 1) n'); try lia.
  - apply Rsum_ext. intros j Hj. unfold aweight. rewrite ED, ES by lia. rewrite (projected_same wv bv x x' d j y H) by lia. reflexivity.
  - intros j Hj. unfold aweight. rewrite EC. destruct (Z.leb_spec j q); [lia|ring].
  - intros j Hj. unfold aweight. rewrite EC. destruct (Z.leb_spec j q); [lia|ring].
Qed.
Lemma block_same p x x' : same x x' -> same (block e nh h n inner eps act P p x) (block e nh h n' inner eps act P p x').
Proof.
  intros H. assert (HA : same (attended e nh h n eps P p x) (attended e nh h n' eps P p x')).
  { intros k j Hj. unfold attended. rewrite (H k j Hj). f_equal. apply attention_same; [|assumption]. apply norm_same. assumption. }
  intros k j Hj. unfold block. rewrite (HA k j Hj). f_equal. apply affine_same; [|assumption]. intros l q Hq. f_equal. unfold preactivation. apply affine_same; [|assumption].
  apply norm_same. exact HA.
Qed.
Variables (tokens tokens' : Z -> Z -> Z) (positions positions' : Z -> Z).
Hypothesis Ht : forall j, (0 <= j <= i)%Z -> tokens j t = tokens' j t' /\ positions j = positions' j.
Lemma states_same k : same (states e nh h n inner eps act tokens positions P k) (states e nh h n' inner eps act tokens' positions' P k).
Proof.
  induction k as [|k IH]; [|cbn [states]; apply block_same; exact IH]. intros f j Hj. cbn [states]. unfold embedded. destruct (Ht j Hj) as [-> ->]. reflexivity.
Qed.
(** C60, of the function the model computes *)
Theorem C60_logits_causal layers v : logits e nh h n inner eps act tokens positions P layers v i t = logits e nh h n' inner eps act tokens' positions' P layers v i t'.
Proof. unfold logits. cbv zeta. apply Rsum_ext. intros k _. rewrite (norm_same _ _ _ _ (states_same layers) k i ltac:(lia)). reflexivity. Qed.
End Causal.

(** ** Of two runs *)
(** what C59 asks of a model and its inputs, and of the state it is run from *)
Record setup (c : gpt2_config) (n nb nt bt h next : Z) (ids pos mask labels : tensor) (b0 b : build) : Prop := {
  su_dims : gdims c n nb nt bt h;
  su_eps : 0 < c_eps c;
  su_flash : c_flash c = true -> (nt | n)%Z /\ (bt | nb)%Z;
  su_ids : wf_tensor ids /\ t_shape ids = [n; nb] /\ t_base ids = [nt; bt] /\ (forall k, In k (tile_handles ids) -> (k < next)%Z);
  su_pos : wf_tensor pos /\ t_shape pos = [n] /\ t_base pos = [nt] /\ (forall k, In k (tile_handles pos) -> (k < next)%Z);
  su_model : gpt2 c ids pos next = Ok (mask, b0);
  su_loss : gen_cross_entropy (out_node b0) b0 = Ok (labels, b)
}.
Record ready (c : gpt2_config) (n nb h : Z) (ids pos mask labels : tensor) (b : build) tokens positions lab P G L0 (s : store XR) : Prop := {
  rd_range : forall i t, (0 <= i < n)%Z -> (0 <= t < nb)%Z -> (0 <= tokens i t < c_vocab c)%Z /\ (0 <= lab i t < c_vocab c)%Z;
  rd_pos : forall i, (0 <= i < n)%Z -> (0 <= positions i < c_maxpos c)%Z;
  rd_smooth : c_act c = Relu -> forall k i x t, (k < c_layers c)%nat -> (0 <= i < c_inner c)%Z -> (0 <= x < n)%Z -> (0 <= t < nb)%Z ->
    preactivation (c_embed c) (c_head c) h n (c_eps c) P (2 + 16 * k) (states (c_embed c) (c_head c) h n (c_inner c) (c_eps c) (act_fun (c_act c)) tokens positions P k) i x t <> 0;
  rd_state : gpt2_state ids pos mask labels b n nb tokens positions lab (5 + 16 * c_layers c) P G L0 s
}.
(** Two models of the same configuration and parameters, run on sequences that agree up to
    position [i], possibly of different lengths, batches, tilings and schedules, give the same
    logits there. *)
Theorem C60_gpt2_causal c h n1 nb1 nt1 bt1 next1 ids1 pos1 mask1 labels1 b01 b1 n2 nb2 nt2 bt2 next2 ids2 pos2 mask2 labels2 b02 b2
  tokens1 tokens2 positions1 positions2 lab1 lab2 P G1 G2 L1 L2 s1 s2 a v i t1 t2 :
  setup c n1 nb1 nt1 bt1 h next1 ids1 pos1 mask1 labels1 b01 b1 -> ready c n1 nb1 h ids1 pos1 mask1 labels1 b1 tokens1 positions1 lab1 P G1 L1 s1 ->
  setup c n2 nb2 nt2 bt2 h next2 ids2 pos2 mask2 labels2 b02 b2 -> ready c n2 nb2 h ids2 pos2 mask2 labels2 b2 tokens2 positions2 lab2 P G2 L2 s2 ->
  (0 <= v < c_vocab c)%Z -> (0 <= i < n1)%Z -> (i < n2)%Z -> (0 <= t1 < nb1)%Z -> (0 <= t2 < nb2)%Z ->
  (forall j, (0 <= j <= i)%Z -> tokens1 j t1 = tokens2 j t2 /\ positions1 j = positions2 j) ->
  runs_any (training_step a labels1 b1) s1 (fun s1' => runs_any (training_step a labels2 b2) s2 (fun s2' =>
    elem s1' (PyModels.bt b1 (Val (out_node b1))) [v; i; t1] = elem s2' (PyModels.bt b2 (Val (out_node b2))) [v; i; t2])).
Proof.
  intros [d1 e1 f1 (i11 & i12 & i13 & i14) (p11 & p12 & p13 & p14) m1 l1] [r1 r2 r3 r4] [d2 e2 f2 (i21 & i22 & i23 & i24) (p21 & p22 & p23 & p24) m2 l2] [q1 q2 q3 q4] Hv Hi1 Hi2 Ht1 Ht2 Hsame.
  destruct (C59_gpt2_training_step c ids1 pos1 n1 nb1 nt1 bt1 h next1 d1 e1 f1 i11 i12 i13 i14 p11 p12 p13 p14) as (m & b & lb & b' & A1 & A2 & _ & _ & _ & _ & _ & A).
  rewrite m1 in A1. injection A1 as <- <-. rewrite l1 in A2. injection A2 as <- <-.
  destruct (C59_gpt2_training_step c ids2 pos2 n2 nb2 nt2 bt2 h next2 d2 e2 f2 i21 i22 i23 i24 p21 p22 p23 p24) as (m' & b' & lb' & b'' & B1 & B2 & _ & _ & _ & _ & _ & B).
  rewrite m2 in B1. injection B1 as <- <-. rewrite l2 in B2. injection B2 as <- <-.
  eapply any_weaken; [exact (A tokens1 positions1 lab1 P G1 a L1 s1 r1 r2 r3 r4)|]. intros s1' _ (O1 & _).
  eapply any_weaken; [exact (B tokens2 positions2 lab2 P G2 a L2 s2 q1 q2 q3 q4)|]. intros s2' _ (O2 & _).
  rewrite O1, O2 by (assumption || lia). f_equal. apply C60_logits_causal; assumption.
Qed.
