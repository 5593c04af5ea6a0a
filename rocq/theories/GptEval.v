(** * The layers of GPT2 compute the function of GptSpec *)
From Coq Require Import Reals Lra FunctionalExtensionality.
From Verif Require Import Base Spec Geometry Runtime Ops RealOps Axis SliceGeo XReals MatOps RSum AttnSpec XTriples HasRuns TapeMath VjpMath Tape PyLayers PyLinear PySimple PyNorm AttMath PyAttn PyFlash PropLayers PropAttn GptSpec.
Local Close Scope Z_scope.
Local Open Scope R_scope.

Section Eval.
Variables (n nb : Z).
Hypothesis Hn : (0 < n)%Z. Hypothesis Hnb : (0 < nb)%Z.
(** [f] is [x] on [d] features *)
Definition repr (d : Z) (f : arr) (x : hidden) : Prop := forall i s t, (0 <= i < d)%Z -> (0 <= s < n)%Z -> (0 <= t < nb)%Z -> f [i; s; t] = x i s t.

Lemma norm_repr e eps vs x : (0 < e)%Z -> 0 < eps -> repr e (vs 0%nat) x -> repr e (ln_F [e; n; nb] 0 (sqrt eps) vs) (normalized e eps (vs 1%nat) (vs 2%nat) x).
Proof.
  intros He Hp H i s t Hi Hs Ht. unfold ln_F, ln_norm, rinv, rvar, rmean, row. change (zn [i; s; t] 0) with i. change (zn [e; n; nb] 0) with e.
  change (del 0 [i; s; t]) with [s; t]. unfold normalized.
  assert (E1 : Rsum e (fun k => vs 0%nat (ins 0 k [s; t])) = Rsum e (fun k => x k s t)) by (apply Rsum_ext; intros k Hk; apply H; assumption).
  rewrite E1, (H i s t) by assumption. rewrite sqrt_sqrt by lra.
  assert (E2 : forall mu, Rsum e (fun k => (vs 0%nat (ins 0 k [s; t]) - mu) * (vs 0%nat (ins 0 k [s; t]) - mu)) = Rsum e (fun k => (x k s t - mu) * (x k s t - mu))).
  { intros mu. apply Rsum_ext. intros k Hk. change (ins 0 k [s; t]) with [k; s; t]. rewrite (H k s t) by assumption. reflexivity. }
  rewrite E2. unfold Rdiv. rewrite !Rmult_1_l, !(Rmult_comm (/ IZR e)). reflexivity.
Qed.
Lemma affine_repr K J vs x : (0 < K)%Z -> repr K (vs 0%nat) x -> repr J (lin_F SideR NoTrans [n; nb] [K] [J] true vs) (affine K (vs 1%nat) (vs 2%nat) x).
Proof.
  intros HK H j s t Hj Hs Ht. unfold lin_F. change [j; s; t] with ([j] ++ [s; t]).
  rewrite matmul_0 by (inbl; assumption). unfold affine. f_equal.
  rewrite sum1 by assumption. apply Rsum_ext. intros k Hk. app_norm. rewrite <- (H k s t) by assumption. reflexivity.
Qed.
Lemma head_repr K J vs x : (0 < K)%Z -> repr K (vs 0%nat) x -> repr J (lin_F SideR NoTrans [n; nb] [K] [J] false vs) (fun j s t => Rsum K (fun k => vs 1%nat [j; k] * x k s t)).
Proof.
  intros HK H j s t Hj Hs Ht. unfold lin_F. change [j; s; t] with ([j] ++ [s; t]).
  rewrite matmul_0 by (inbl; assumption). rewrite Rplus_0_r.
  rewrite sum1 by assumption. apply Rsum_ext. intros k Hk. app_norm. rewrite <- (H k s t) by assumption. reflexivity.
Qed.
Lemma attention_ext h m K Q V K' Q' V' d i x y : (0 <= d < h)%Z -> (0 <= i < n)%Z ->
  (forall d j, (0 <= d < h)%Z -> (0 <= j < n)%Z -> K [d; j; x; y] = K' [d; j; x; y] /\ Q [d; j; x; y] = Q' [d; j; x; y] /\ V [d; j; x; y] = V' [d; j; x; y]) ->
  attention h n m K Q V d i x y = attention h n m K' Q' V' d i x y.
Proof.
  intros Hd Hi H. assert (ES : forall j, (0 <= j < n)%Z -> ascore h K Q j i x y = ascore h K' Q' j i x y).
  { intros j Hj. unfold ascore. f_equal. apply Rsum_ext. intros d' Hd'. destruct (H d' j Hd' Hj) as (-> & _ & _), (H d' i Hd' Hi) as (_ & -> & _). reflexivity. }
  assert (ED : adenom h n m K Q i x y = adenom h n m K' Q' i x y).
  { unfold adenom. apply Rsum_ext. intros j Hj. rewrite ES by assumption. reflexivity. }
  unfold attention. apply Rsum_ext. intros j Hj. destruct (H d j Hd Hj) as (_ & _ & ->). unfold aweight. rewrite ES, ED by assumption. reflexivity.
Qed.
Lemma attention_repr e nh h vs x : (0 < e)%Z -> repr e (vs 0%nat) x -> vs 1%nat = vs 0%nat -> vs 2%nat = vs 0%nat ->
  repr e (att_F e e e h n nh causal true vs) (self_attention e nh h n (vs 3%nat) (vs 4%nat) (vs 5%nat) (vs 7%nat) (vs 8%nat) (vs 9%nat) (vs 6%nat) (vs 10%nat) x).
Proof.
  intros He H E1 E2 o s t Ho Hs Ht.
  assert (E := att_F_spec {| d_e := e; d_ek := e; d_ev := e; d_h := h; d_n := n; d_b := nb; d_nh := nh |} causal true vs). unfold attention_spec in E. cbv zeta in E.
  specialize (E o s t Ho Hs Ht). cbn [d_e d_ek d_ev d_h d_n d_nh] in E. etransitivity; [exact E|]. clear E.
  unfold self_attention. f_equal. apply Rsum_ext. intros y Hy. apply Rsum_ext. intros d Hd. f_equal.
  apply attention_ext; [assumption|assumption|]. intros d' j Hd' Hj.
  assert (EP : forall w bb, Rsum e (fun k => w [y; d'; k] * vs 0%nat [k; j; t]) + bb [d'; y] = projected e w bb x [d'; j; t; y]).
  { intros w bb. unfold projected. f_equal. apply Rsum_ext. intros k Hk. f_equal. apply H; assumption. }
  rewrite E1, E2. change (zn [d'; j; t; y] 0) with d'. change (zn [d'; j; t; y] 1) with j. change (zn [d'; j; t; y] 2) with t. change (zn [d'; j; t; y] 3) with y.
  rewrite !EP. repeat split; reflexivity.
Qed.
End Eval.
