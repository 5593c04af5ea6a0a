(** * When two sets of parameters describe the same GPT2 *)
From Coq Require Import Reals Lra.
From Verif Require Import Base RSum AttnSpec PropFlash GptSpec GptTorchSpec.
Local Close Scope Z_scope.
Local Open Scope R_scope.

Section Math.
Variables (e nh h n inner V : Z) (eps : R) (act : R -> R).
Hypothesis Hh : (0 < h)%Z.
Hypothesis Hnh : (0 < nh)%Z.
Hypothesis He : e = (nh * h)%Z.

(** parameters of a block, numbered from 0; feature y*h+d of the merged heads *)
Record bconv (P Q : nat -> arr) : Prop := {
  bc_1w : forall i, P 0%nat [i] = Q 0%nat [i];
  bc_1b : forall i, P 1%nat [i] = Q 1%nat [i];
  bc_qkv : forall m y d k, (m < 3)%nat -> (0 <= y < nh)%Z -> (0 <= d < h)%Z -> (0 <= k < e)%Z -> P (2 + m)%nat [y; d; k] = Q 2%nat [k; (Z.of_nat m * e + (y * h + d))%Z];
  bc_qkvb : forall m y d, (m < 3)%nat -> (0 <= y < nh)%Z -> (0 <= d < h)%Z -> P (5 + m)%nat [d; y] = Q 3%nat [(Z.of_nat m * e + (y * h + d))%Z];
  bc_o : forall o y d, (0 <= o < e)%Z -> (0 <= y < nh)%Z -> (0 <= d < h)%Z -> P 8%nat [o; y; d] = Q 4%nat [(y * h + d)%Z; o];
  bc_ob : forall i, P 9%nat [i] = Q 5%nat [i];
  bc_2w : forall i, P 10%nat [i] = Q 6%nat [i];
  bc_2b : forall i, P 11%nat [i] = Q 7%nat [i];
  bc_f : forall j k, P 12%nat [j; k] = Q 8%nat [k; j];
  bc_fb : forall j, P 13%nat [j] = Q 9%nat [j];
  bc_p : forall j k, P 14%nat [j; k] = Q 10%nat [k; j];
  bc_pb : forall j, P 15%nat [j] = Q 11%nat [j]
}.
Record mconv (L : nat) (P Q : nat -> arr) : Prop := {
  mc_t : forall i v, P 0%nat [i; v] = Q 0%nat [v; i];
  mc_p : forall i v, P 1%nat [i; v] = Q 1%nat [v; i];
  mc_b : forall k, (k < L)%nat -> bconv (fun i => P (2 + 16 * k + i)%nat) (fun i => Q (2 + 12 * k + i)%nat);
  mc_fw : forall i, P (2 + 16 * L)%nat [i] = Q (2 + 12 * L)%nat [i];
  mc_fb : forall i, P (2 + 16 * L + 1)%nat [i] = Q (2 + 12 * L + 1)%nat [i];
  mc_h : forall v k, P (2 + 16 * L + 2)%nat [v; k] = Q (2 + 12 * L + 2)%nat [v; k]
}.
(** equal on the features that exist *)
Definition feq (a : Z) (x y : hidden) : Prop := forall i s t, (0 <= i < a)%Z -> x i s t = y i s t.

Lemma norm_eq g b w u x y : feq e x y -> (forall i, g [i] = w [i]) -> (forall i, b [i] = u [i]) ->
  feq e (normalized e eps g b x) (layer_norm e eps w u y).
Proof.
  intros Hx Hg Hb i s t Hi. unfold normalized, layer_norm. cbv zeta. rewrite Hg, Hb, (Hx i s t Hi).
  rewrite (Rsum_ext e _ (fun k => y k s t)) by (intros k Hk; apply Hx, Hk).
  rewrite (Rsum_ext e (fun k => (x k s t - _) * _) (fun k => (y k s t - Rsum e (fun k => y k s t) / IZR e) * (y k s t - Rsum e (fun k => y k s t) / IZR e))) by (intros k Hk; rewrite (Hx k s t Hk); reflexivity).
  ring.
Qed.
Lemma affine_eq K w b w' b' x y j s t : feq K x y -> (forall k, w [j; k] = w' [k; j]) -> b [j] = b' [j] ->
  affine K w b x j s t = conv1d K w' b' y j s t.
Proof.
  intros Hx Hw Hb. unfold affine, conv1d. rewrite Hb. f_equal. apply Rsum_ext. intros k Hk. rewrite Hw, (Hx k s t Hk). ring.
Qed.
Lemma proj_eq (m : Z) w b w' b' x y : feq e x y ->
  (forall u d k, (0 <= u < nh)%Z -> (0 <= d < h)%Z -> (0 <= k < e)%Z -> w [u; d; k] = w' [k; (m + (u * h + d))%Z]) ->
  (forall u d, (0 <= u < nh)%Z -> (0 <= d < h)%Z -> b [d; u] = b' [(m + (u * h + d))%Z]) ->
  forall d s t u, (0 <= u < nh)%Z -> (0 <= d < h)%Z -> projected e w b x [d; s; t; u] = conv1d e w' b' y (m + (u * h + d))%Z s t.
Proof.
  intros Hx Hw Hb d s t u Hu Hd. cbn [projected]. unfold conv1d. rewrite Hb by assumption. f_equal. apply Rsum_ext.
  intros k Hk. rewrite Hw, (Hx k s t Hk) by assumption. ring.
Qed.
Lemma attn_eq P Q x y : bconv P Q -> feq e x y ->
  feq e (self_attention e nh h n (P 2%nat) (P 3%nat) (P 4%nat) (P 5%nat) (P 6%nat) (P 7%nat) (P 8%nat) (P 9%nat) x)
        (attn e h n (Q 2%nat) (Q 3%nat) (Q 4%nat) (Q 5%nat) y).
Proof.
  intros [_ _ Bw Bb Bo Bob _ _ _ _ _ _] Hx o s t Ho. unfold self_attention, attn. unfold conv1d at 1. rewrite Bob. f_equal.
  transitivity (Rsum (nh * h)%Z (fun k => heads e h n (conv1d e (Q 2%nat) (Q 3%nat) y) k s t * Q 4%nat [k; o])); [|rewrite <- He; reflexivity].
  rewrite <- (Rsum_blocks nh h) by lia. apply Rsum_ext. intros u Hu. apply Rsum_ext. intros d Hd.
  rewrite Bo by assumption. rewrite Rmult_comm. f_equal.
  unfold heads, attention. apply Rsum_ext. intros j Hj.
  assert (Hq : ((u * h + d) / h = u)%Z) by (rewrite Z.div_add_l, Z.div_small by lia; lia). rewrite Hq.
  assert (E : forall (m : nat) d s t, (m < 3)%nat -> (0 <= d < h)%Z -> projected e (P (2 + m)%nat) (P (5 + m)%nat) x [d; s; t; u] = conv1d e (Q 2%nat) (Q 3%nat) y (Z.of_nat m * e + (u * h + d))%Z s t).
  { intros m d' s' t' Hm Hd'. apply proj_eq; auto. }
  rewrite (E 2%nat d j t ltac:(lia) Hd : projected e (P 4%nat) (P 7%nat) x _ = _), Rmult_comm. change (Z.of_nat 2) with 2%Z. f_equal.
  unfold aweight, weight. change (causal [j; s]) with (j <=? s)%Z.
  assert (ES : forall j, ascore h (projected e (P 3%nat) (P 6%nat) x) (projected e (P 2%nat) (P 5%nat) x) j s t u = score e h (conv1d e (Q 2%nat) (Q 3%nat) y) u s j t).
  { intros j'. unfold ascore, score. f_equal. apply Rsum_ext. intros d' Hd'.
    rewrite (E 1%nat d' j' t ltac:(lia) Hd' : projected e (P 3%nat) (P 6%nat) x _ = _), (E 0%nat d' s t ltac:(lia) Hd' : projected e (P 2%nat) (P 5%nat) x _ = _), Rmult_comm.
    change (Z.of_nat 1) with 1%Z. change (Z.of_nat 0) with 0%Z. rewrite Z.mul_1_l, Z.mul_0_l, Z.add_0_l. reflexivity. }
  rewrite ES. destruct (j <=? s)%Z; [|reflexivity]. f_equal. unfold adenom. apply Rsum_ext. intros j' _. rewrite ES. reflexivity.
Qed.
Lemma block_eq P Q p q x y : bconv (fun i => P (p + i)%nat) (fun i => Q (q + i)%nat) -> feq e x y ->
  feq e (block e nh h n inner eps act P p x) (torch_block e h n inner eps act Q q y).
Proof.
  intros B Hx. pose proof B as B0. destruct B as [b1 b2 _ _ _ _ b7 b8 b9 b10 b11 b12]. rewrite !Nat.add_0_r in *. unfold torch_block. cbv zeta.
  set (x1 := fun i s t => y i s t + attn _ _ _ _ _ _ _ _ i s t).
  assert (H1 : feq e (attended e nh h n eps P p x) x1).
  { intros i s t Hi. unfold attended, x1. cbv zeta. rewrite (Hx i s t Hi). f_equal.
    apply (attn_eq _ _ _ _ B0); [|exact Hi]. apply norm_eq; assumption. }
  intros i s t Hi. unfold block. rewrite (H1 i s t Hi). f_equal. unfold mlp. apply affine_eq; [|intros; apply b11|apply b12].
  intros j s' t' Hj. f_equal. unfold preactivation. apply affine_eq; [|intros; apply b9|apply b10]. apply norm_eq; assumption.
Qed.
Theorem mconv_logits (L : nat) P Q tokens positions : mconv L P Q ->
  forall v s t, logits e nh h n inner eps act tokens positions P L v s t = torch_logits e h n inner eps act tokens positions Q L v s t.
Proof.
  intros [m1 m2 m3 m4 m5 m6] v s t.
  assert (HS : forall k, (k <= L)%nat -> feq e (states e nh h n inner eps act tokens positions P k) (torch_states e h n inner eps act tokens positions Q k)).
  { induction k as [|k IH]; intros Hk.
    - intros i s' t' Hi. cbn [states torch_states]. unfold embedded. rewrite m1, m2. reflexivity.
    - cbn [states torch_states]. apply block_eq; [|apply IH; lia]. apply m3. lia. }
  unfold logits, torch_logits. cbv zeta. apply Rsum_ext. intros k Hk. rewrite m6, Rmult_comm. f_equal.
  apply norm_eq; [apply HS; lia|exact m4|exact m5|exact Hk].
Qed.
End Math.
