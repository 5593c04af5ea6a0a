(** * C42 fused attention, forward; C43 fused attention, backward

    Over the extended reals of XReals.v (exact arithmetic; a masked score is -inf).  The specification is
    AttnSpec.v.  All tiles must be full: [even h st bt nt gs gb gn Q ...] says that the sequence, the batch and the heads
    are cut into gs, gb, gn equal tiles of st, bt, nt, that the head size is not cut, and that the auxiliary tensors are
    tiled accordingly.  The functions check none of this (see C44). *)
From Coq Require Import Reals Lra Lia.
From Coquelicot Require Import Coquelicot.
From Verif Require Import Base Spec Geometry Traits TraitsProofs Runtime Ops TensorSem ElemGeneric OneOut
  KernelsElem ElemOps Axis AccRuns Loops SliceOps SliceGeo SliceProofs SliceReduce RealOps RSum Concrete PropElem PropElemR
  PropSlice SoftmaxOps PairGeo SoftmaxProofs SoftmaxRuns Sequence XReals SoftmaxScalar PropSoftmax
  GemmProofs GemmRuns LossProofs FlashOps FlashGeo FlashProofs FlashRuns FlashBwd AttnSpec.
Local Open Scope R_scope.

(** ** Scalar facts over the extended reals *)
Lemma x_ninf : (o_ninf : XR) = NInf.
Proof.
  unfold o_ninf. cbn. destruct (Reqb 0 0) eqn:E1; [|apply Reqb_false in E1; congruence].
  destruct (Reqb 1 0) eqn:E2; [apply Reqb_true in E2; lra|].
  unfold x_sinf. destruct (Rltb 1 0) eqn:E3; [apply Rltb_true in E3; lra|]. reflexivity.
Qed.
Lemma x_scale h : (0 < h)%Z -> (flash_scale h : XR) = Fin (1 / sqrt (IZR h)).
Proof.
  intros H. unfold flash_scale. cbn [o_div o_one o_sqrt o_ofZ Xops]. assert (0 < IZR h) by (apply IZR_lt; assumption).
  rewrite x_sqrt_fin by lra. apply x_div_fin. assert (0 < sqrt (IZR h)) by (apply sqrt_lt_R0; assumption). lra.
Qed.
Lemma x_dot n (f g : Z -> XR) (a b : Z -> R) : (0 <= n)%Z -> (forall l, (0 <= l < n)%Z -> f l = Fin (a l)) -> (forall l, (0 <= l < n)%Z -> g l = Fin (b l)) ->
  dot n f g = Fin (Rsum n (fun l => a l * b l)).
Proof.
  intros Hn. pattern n. apply natlike_ind; [| |assumption].
  - intros _ _. reflexivity.
  - intros k Hk IH Hf Hg. unfold Z.succ, dot in *. rewrite zrange_succ, fold_left_app by assumption. rewrite IH by (intros; (apply Hf || apply Hg); lia).
    cbn [fold_left]. rewrite Hf, Hg by lia. cbn [o_add o_mul Xops x_mul x_add]. rewrite Rsum_succ by assumption. reflexivity.
Qed.
Lemma x_ksum n (f : Z -> XR) (a : Z -> R) : (0 <= n)%Z -> (forall l, (0 <= l < n)%Z -> f l = Fin (a l)) -> ksum n f = (Fin (Rsum n a), Fin 0).
Proof.
  intros Hn. pattern n. apply natlike_ind; [intros _; reflexivity| |assumption]. intros k Hk IH Hf. unfold Z.succ, ksum in *.
  rewrite zrange_succ by assumption. rewrite fold_left_app. rewrite IH by (intros; apply Hf; lia). cbn [fold_left]. rewrite Hf by lia.
  rewrite Rsum_succ by assumption. unfold kahan. cbn. f_equal; f_equal; lra.
Qed.
Lemma x_gm1 (a b : R) : gm o_one (Fin a) (Fin b) = Fin (b + a).
Proof. unfold gm. cbn. destruct (Reqb 1 0) eqn:E2; [apply Reqb_true in E2; lra|]. f_equal. lra. Qed.
Lemma x_kres1 (a b : R) : kres o_one o_one (Fin a, Fin 0) (Fin b) = Fin (b + a).
Proof. unfold kres. cbn. destruct (Reqb 1 0) eqn:E2; [apply Reqb_true in E2; lra|]. f_equal. ring. Qed.
Lemma x_fold_add g (F : Z -> XR -> XR) (a : Z -> R) v : (0 <= g)%Z ->
  (forall j b, (0 <= j < g)%Z -> F j (Fin b) = Fin (b + a j)) ->
  fold_left (fun v j => F j v) (zrange g) (Fin v) = Fin (v + Rsum g a).
Proof.
  intros Hg. pattern g. apply natlike_ind; [| |assumption].
  - intros _. rewrite (Rsum_neg 0), Rplus_0_r by lia. reflexivity.
  - intros k Hk IH HF. unfold Z.succ in *. rewrite zrange_succ, fold_left_app by assumption. rewrite IH by (intros; apply HF; lia).
    cbn [fold_left]. rewrite HF by lia. rewrite Rsum_succ by assumption. f_equal. lra.
Qed.
Lemma zrange_blocks g b : (0 <= g)%Z -> (0 <= b)%Z -> zrange (g * b) = flat_map (fun j => map (fun l => (j * b + l)%Z) (zrange b)) (zrange g).
Proof.
  intros Hg Hb. rewrite (Z.mul_comm g b), zrange_mul by assumption. apply flat_map_ext. intros j. apply map_ext. intros l. lia.
Qed.
Lemma Rsum_blocks g b f : (0 <= g)%Z -> (0 <= b)%Z -> Rsum g (fun j => Rsum b (fun l => f (j * b + l)%Z)) = Rsum (g * b) f.
Proof.
  intros Hg Hb. unfold Rsum at 3. rewrite zrange_blocks by assumption. rewrite Rsuml_flat. apply Rsuml_ext. intros j _.
  unfold Rsum. rewrite Rsuml_map. reflexivity.
Qed.
Lemma Xzz : o_eqb (o_zero : XR) o_zero = true.
Proof. cbn. destruct (Reqb 0 0) eqn:E; [reflexivity|]. apply Reqb_false in E. congruence. Qed.
Lemma Xoz : o_eqb (o_one : XR) o_zero = false.
Proof. cbn. destruct (Reqb 1 0) eqn:E; [apply Reqb_true in E; lra|reflexivity]. Qed.

Section F.
Variables (h st bt nt gs gb gn : Z).
Hypothesis He : even h st bt nt gs gb gn.
Let n := (gs * st)%Z.
Let nb := (gb * bt)%Z.
Let nh := (gn * nt)%Z.
Local Notation seqt := (seq_tensor h st bt nt gs gb gn).
Local Notation pairt' := (seq_tensor 2 st bt nt gs gb gn).
Local Notation maskt := (mask_tensor st gs).
Local Notation scoret := (score_tensor st bt nt gs gb gn).
Local Notation rowt := (row_tensor st bt nt gs gb gn).

Lemma inb4 X d i x y : seqt X -> (0 <= d < h)%Z -> (0 <= i < n)%Z -> (0 <= x < nb)%Z -> (0 <= y < nh)%Z -> inb (t_shape X) [d; i; x; y].
Proof. intros (_ & -> & _) ? ? ? ?. inbt. Qed.
Lemma inb2 X i x y : pairt' X -> (0 <= i < n)%Z -> (0 <= x < nb)%Z -> (0 <= y < nh)%Z -> forall a, (0 <= a < 2)%Z -> inb (t_shape X) (a :: [i; x; y]).
Proof. intros (_ & -> & _) ? ? ? ? ?. inbt. Qed.
Lemma inb3 X i x y : rowt X -> (0 <= i < n)%Z -> (0 <= x < nb)%Z -> (0 <= y < nh)%Z -> inb (t_shape X) [i; x; y].
Proof. intros (_ & -> & _) ? ? ?. inbt. Qed.

Variables (Q K V mask ms : tensor) (qv kv vv gv : arr).
Hypotheses (TQ : seqt Q) (TK : seqt K) (TV : seqt V) (TM : maskt mask) (TS : pairt' ms).

Section Vals.
Variable s : store XR.
Hypotheses (VQ : holds s Q qv) (VK : holds s K kv).
Let m := belem s mask.
Local Notation asc := (ascore h kv qv).
Local Notation aw := (aweight h n m kv qv).

Lemma xsc_val k i x y : (0 <= k < n)%Z -> (0 <= i < n)%Z -> (0 <= x < nb)%Z -> (0 <= y < nh)%Z ->
  xsc h s Q K mask k i x y = if m [k; i] then Fin (asc k i x y) else NInf.
Proof.
  intros Hk Hi Hx Hy. destruct He as (H1 & _). unfold xsc, m. destruct (belem s mask [k; i]); [|apply x_ninf]. rewrite x_scale by assumption.
  rewrite (x_dot h _ _ (fun d => kv [d; k; x; y]) (fun d => qv [d; i; x; y])).
  - cbn. f_equal. unfold ascore, Rdiv. ring.
  - lia.
  - intros d Hd. apply VK. apply inb4; assumption.
  - intros d Hd. apply VQ. apply inb4; assumption.
Qed.
(** the row of scores of a query *)
Definition row (i x y : Z) : list XR := map (fun k => xsc h s Q K mask k i x y) (zrange n).
Lemma row_sum i x y : (0 <= i < n)%Z -> (0 <= x < nb)%Z -> (0 <= y < nh)%Z -> sumexp (row i x y) = adenom h n m kv qv i x y.
Proof.
  intros Hi Hx Hy. unfold sumexp, row, adenom. rewrite Rsuml_map. apply Rsum_ext. intros k Hk. rewrite xsc_val by assumption.
  destruct (m [k; i]); cbn; [f_equal; lra|reflexivity].
Qed.
Lemma xpr_val k i x y : rep (pelem s ms [i; x; y]) (row i x y) ->
  (0 <= k < n)%Z -> (0 <= i < n)%Z -> (0 <= x < nb)%Z -> (0 <= y < nh)%Z -> xpr h s Q K mask ms k i x y = Fin (aw k i x y).
Proof.
  intros Hr Hk Hi Hx Hy. unfold xpr. change o_one with (Fin 1). rewrite (smax_val 1 _ (row i x y)).
  - rewrite xsc_val by assumption. unfold softmax_val, aweight. destruct (m [k; i]); [|reflexivity]. rewrite row_sum by assumption. f_equal. lra.
  - assumption.
  - apply in_map_iff. exists k. split; [reflexivity|]. apply zrange_In. assumption.
  - rewrite xsc_val by assumption. destruct (m [k; i]); exact I.
Qed.
End Vals.

(** the pair (maximum, sum of exponents) of every query, from a cleared tensor *)
Lemma clear_flash_maxsumexp tmp redux s : scoret tmp -> disj Q ms -> disj K ms -> disj mask ms -> disj tmp ms ->
  stored KF s Q -> stored KF s K -> stored KB s mask -> stored KF s ms -> stored KF s tmp -> holds s Q qv -> holds s K kv ->
  runs (then_ (clear_async ms) (flash_maxsumexp_async Q K mask ms tmp redux)) s (fun s' =>
    (forall i x y, (0 <= i < n)%Z -> (0 <= x < nb)%Z -> (0 <= y < nh)%Z ->
       rep (pelem s' ms [i; x; y]) (row s i x y) /\ (masked (row s i x y) -> pelem s' ms [i; x; y] = (Fin 0, Fin 0))) /\
    frame [ms] s s').
Proof.
  intros TT D1 D2 D3 D4 S1 S2 S3 S4 S5 VQ VK. pose proof He as (H1 & H2 & H3 & H4 & H5 & H6 & H7).
  destruct TQ as (WQ & SQ), TK as (WK & SK), TM as (WM & SM), TS as (WS & SS), TT as (WT & ST).
  apply wf_wft in WQ, WK, WM, WS, WT.
  eapply runs_then; [apply C12_clear; [destruct TS; assumption|assumption]|]. intros s1 I1 [C1 F1]. cbn beta in C1.
  assert (Fr : forall X idx, wft X -> disj X ms -> inb (t_shape X) idx -> elem s1 X idx = elem s X idx).
  { intros X idx WX DX Hi. apply (frame_elem [ms]); [assumption|assumption|intros t [<-|[]]; assumption|assumption]. }
  assert (Fb : forall k i, (0 <= k < n)%Z -> (0 <= i < n)%Z -> belem s1 mask [k; i] = belem s mask [k; i]).
  { intros k i Hk Hi. assert (Hin : inb (t_shape mask) [k; i]) by (rewrite (proj1 SM); inbt). unfold belem. rewrite F1; [reflexivity|].
    intros t [<-|[]] Hin'. apply (D3 (th mask (etile mask [k; i]))); [apply th_In; [assumption|apply etile_bound; assumption]|assumption]. }
  assert (Vx : forall k i x y, (0 <= k < n)%Z -> (0 <= i < n)%Z -> (0 <= x < nb)%Z -> (0 <= y < nh)%Z ->
    xsc h s1 Q K mask k i x y = xsc h s Q K mask k i x y).
  { intros k i x y Hk Hi Hx Hy. unfold xsc. rewrite Fb by assumption. destruct (belem s mask [k; i]); [|reflexivity]. f_equal.
    apply dot_ext; intros d Hd; apply Fr; try assumption; apply inb4; assumption. }
  eapply runs_weaken; [apply (flash_maxsumexp_runs h st bt nt gs gb gn); try assumption; try (eapply tinv_stored; eassumption); apply Xzz|].
  intros s' _ [E F2]. split.
  - intros i x y Hi Hx Hy. rewrite E by assumption.
    assert (Z0 : pelem s1 ms [i; x; y] = (Fin 0, Fin 0)).
    { unfold pelem. rewrite !C1 by (apply inb2; (assumption || lia)). reflexivity. }
    rewrite Z0.
    destruct (fold_rep gs (fun _ => st) (fun j l => xsc h s1 Q K mask (j * st + l) i x y) (Fin 0, Fin 0) []) as [R1 R2].
    + intros j Hj. split; [assumption|]. intros l Hl. assert (0 <= j * st + l < n)%Z by (unfold n; nia). rewrite Vx by assumption.
      rewrite xsc_val by assumption. destruct (belem s mask [(j * st + l)%Z; i]); exact I.
    + left. split; [intros r []|reflexivity].
    + assert (El : flat_map (fun j => map (fun l => xsc h s1 Q K mask (j * st + l) i x y) (zrange st)) (zrange gs) = row s i x y).
      { unfold row, n. rewrite zrange_blocks by lia. rewrite !flat_map_concat_map, concat_map, map_map. f_equal. apply map_ext_in. intros j Hj. apply zrange_In in Hj. rewrite map_map. apply map_ext_in.
        intros l Hl. apply zrange_In in Hl. apply Vx; try assumption. unfold n. nia. }
      rewrite app_nil_l in R1. rewrite El in R1, R2. split; assumption.
  - eapply frame_weaken; [|eapply frame_trans; eassumption]. intros t [<-|[<-|[]]]; left; reflexivity.
Qed.
(** flash_softmax_gemm when [ms] holds the pair of every query *)
Lemma flash_softmax_gemm_vals (m : list Z -> bool) dst tmp redux s1 : seqt dst -> scoret tmp -> disj Q dst -> disj K dst -> disj V dst -> disj mask dst -> disj ms dst -> disj tmp dst ->
  stored KF s1 Q -> stored KF s1 K -> stored KF s1 V -> stored KB s1 mask -> stored KF s1 ms -> stored KF s1 dst -> stored KF s1 tmp ->
  holds s1 Q qv -> holds s1 K kv -> holds s1 V vv -> (forall k i, (0 <= k < n)%Z -> (0 <= i < n)%Z -> belem s1 mask [k; i] = m [k; i]) ->
  (forall i x y, (0 <= i < n)%Z -> (0 <= x < nb)%Z -> (0 <= y < nh)%Z -> rep (pelem s1 ms [i; x; y]) (row s1 i x y)) ->
  runs (flash_softmax_gemm_async Q K V mask ms dst tmp redux) s1 (fun s' =>
    (forall d i x y, (0 <= d < h)%Z -> (0 <= i < n)%Z -> (0 <= x < nb)%Z -> (0 <= y < nh)%Z ->
       elem s' dst [d; i; x; y] = Fin (attention h n m kv qv vv d i x y)) /\
    frame [dst] s1 s').
Proof.
  intros TD TT D6 D7 D8 D9 D10 D11 S1 S2 S3 S4 S5 S6 S7 VQ1 VK1 VV1 Fb R1. pose proof He as (H1 & H2 & H3 & H4 & H5 & H6 & H7).
  destruct TQ as (WQ & SQ), TK as (WK & SK), TM as (WM & SM), TS as (WS & SS), TT as (WT & ST), TV as (WV & SV), TD as (WD & SD).
  apply wf_wft in WQ, WK, WM, WS, WT, WV, WD.
  eapply runs_weaken; [apply (flash_softmax_gemm_runs h st bt nt gs gb gn); try assumption; first [apply Xzz|apply Xoz]|].
  intros s' _ [E F2]. split; [|exact F2].
  intros d i x y Hd Hi Hx Hy. rewrite E by assumption.
  assert (Aw : forall k, (0 <= k < n)%Z -> aweight h n (belem s1 mask) kv qv k i x y = aweight h n m kv qv k i x y).
  { intros k Hk. unfold aweight, adenom. rewrite Fb by assumption. destruct (m [k; i]); [|reflexivity]. f_equal.
    apply Rsum_ext. intros k' Hk'. rewrite Fb by assumption. reflexivity. }
  change (o_zero : XR) with (Fin 0).
  rewrite (x_fold_add gs (fun j v => gm o_one (o_mul o_one (dot st (fun l => elem s1 V [d; j * st + l; x; y]%Z)
    (fun l => xpr h s1 Q K mask ms (j * st + l) i x y))) v)
    (fun j => Rsum st (fun l => vv [d; j * st + l; x; y]%Z * aweight h n m kv qv (j * st + l) i x y))); [|lia|].
  - rewrite (Rsum_blocks gs st (fun k => vv [d; k; x; y] * aweight h n m kv qv k i x y)) by lia. f_equal. unfold attention, n. lra.
  - intros j b Hj. rewrite (x_dot st _ _ (fun l => vv [d; j * st + l; x; y]%Z) (fun l => aweight h n m kv qv (j * st + l) i x y)).
    + cbn [o_mul o_one Xops x_mul]. rewrite x_gm1. f_equal. lra.
    + lia.
    + intros l Hl. assert (0 <= j * st + l < n)%Z by (unfold n; nia). apply VV1. apply inb4; assumption.
    + intros l Hl. assert (0 <= j * st + l < n)%Z by (unfold n; nia). rewrite xpr_val; try assumption; [rewrite Aw by assumption; reflexivity|].
      apply R1; assumption.
Qed.
(** ** C42: clear; flash_maxsumexp; flash_softmax_gemm is masked scaled-dot-product attention *)
Theorem C42_flash_attention dst tmp redux1 redux2 s : seqt dst -> scoret tmp ->
  disj Q ms -> disj K ms -> disj V ms -> disj mask ms -> disj tmp ms ->
  disj Q dst -> disj K dst -> disj V dst -> disj mask dst -> disj ms dst -> disj tmp dst ->
  stored KF s Q -> stored KF s K -> stored KF s V -> stored KB s mask -> stored KF s ms -> stored KF s dst -> stored KF s tmp ->
  holds s Q qv -> holds s K kv -> holds s V vv ->
  runs (then_ (then_ (clear_async ms) (flash_maxsumexp_async Q K mask ms tmp redux1)) (flash_softmax_gemm_async Q K V mask ms dst tmp redux2)) s (fun s' =>
    (forall d i x y, (0 <= d < h)%Z -> (0 <= i < n)%Z -> (0 <= x < nb)%Z -> (0 <= y < nh)%Z ->
       elem s' dst [d; i; x; y] = Fin (attention h n (belem s mask) kv qv vv d i x y)) /\
    frame [ms; dst] s s').
Proof.
  intros TD TT D1 D2 D3 D4 D5 D6 D7 D8 D9 D10 D11 S1 S2 S3 S4 S5 S6 S7 VQ VK VV. pose proof He as (H1 & H2 & H3 & H4 & H5 & H6 & H7).
  eapply runs_then; [apply clear_flash_maxsumexp; assumption|]. intros s1 I1 [R1 F1].
  assert (TD' := TD). assert (TT' := TT).
  destruct TQ as (WQ & SQ), TK as (WK & SK), TM as (WM & SM), TS as (WS & SS), TT as (WT & ST), TV as (WV & SV), TD as (WD & SD).
  apply wf_wft in WQ, WK, WM, WS, WT, WV, WD.
  assert (Fr : forall X idx, wft X -> disj X ms -> inb (t_shape X) idx -> elem s1 X idx = elem s X idx).
  { intros X idx WX DX Hi. apply (frame_elem [ms]); [assumption|assumption|intros t [<-|[]]; assumption|assumption]. }
  assert (Fb : forall k i, (0 <= k < n)%Z -> (0 <= i < n)%Z -> belem s1 mask [k; i] = belem s mask [k; i]).
  { intros k i Hk Hi. assert (Hin : inb (t_shape mask) [k; i]) by (rewrite (proj1 SM); inbt). unfold belem. rewrite F1; [reflexivity|].
    intros t [<-|[]] Hin'. apply (D4 (th mask (etile mask [k; i]))); [apply th_In; [assumption|apply etile_bound; assumption]|assumption]. }
  assert (VQ1 : holds s1 Q qv) by (intros idx Hi; rewrite Fr by assumption; apply VQ; assumption).
  assert (VK1 : holds s1 K kv) by (intros idx Hi; rewrite Fr by assumption; apply VK; assumption).
  assert (VV1 : holds s1 V vv) by (intros idx Hi; rewrite Fr by assumption; apply VV; assumption).
  eapply runs_weaken; [apply (flash_softmax_gemm_vals (belem s mask)); try assumption; try (eapply tinv_stored; eassumption)|].
  - intros i x y Hi Hx Hy. replace (row s1 i x y) with (row s i x y); [apply R1; assumption|].
    unfold row. apply map_ext_in. intros k Hk. apply zrange_In in Hk. rewrite !xsc_val by assumption. rewrite Fb by assumption. reflexivity.
  - intros s' _ [E F2]. split; [exact E|eapply frame_trans in F2; [|exact F1]; exact F2].
Qed.

(** ** C43: the backward pass stores the partial derivatives of <G, attention> *)
Lemma Rsum_mul_r k (f : Z -> R) c : Rsum k (fun l => f l * c) = Rsum k f * c.
Proof. apply Rsum_scal_r. Qed.
(** flash_softmax_gemm_backward when [ms] holds the pair of every query and [sp] zeros *)
Lemma flash_backward_vals (m : list Z -> bool) dQ dK dV dA tmp grad sp redux s2 :
  seqt dQ -> seqt dK -> seqt dV -> seqt dA -> scoret tmp -> scoret grad -> rowt sp ->
  disj dQ dK -> disj dQ dV -> disj dK dV ->
  (forall X, In X [Q; K; V; mask; dA] -> disj X dQ /\ disj X dK /\ disj X dV /\ disj X sp) ->
  (forall X, In X [dQ; dK; dV] -> disj X sp /\ disj X ms) -> disj ms sp ->
  (forall X, In X [Q; K; V; dA; dQ; dK; dV; ms; sp; tmp; grad] -> stored KF s2 X) -> stored KB s2 mask ->
  holds s2 Q qv -> holds s2 K kv -> holds s2 V vv -> holds s2 dA gv ->
  (forall k i, (0 <= k < n)%Z -> (0 <= i < n)%Z -> belem s2 mask [k; i] = m [k; i]) ->
  (forall i x y, (0 <= i < n)%Z -> (0 <= x < nb)%Z -> (0 <= y < nh)%Z -> rep (pelem s2 ms [i; x; y]) (row s2 i x y)) ->
  (forall idx, inb (t_shape sp) idx -> elem s2 sp idx = o_zero) ->
  runs (flash_softmax_gemm_backward_async Q dQ K dK V dV mask ms dA tmp grad sp redux) s2 (fun s' =>
    (forall d i x y, (0 <= d < h)%Z -> (0 <= i < n)%Z -> (0 <= x < nb)%Z -> (0 <= y < nh)%Z ->
       elem s' dQ [d; i; x; y] = Fin (a_dq h n m kv qv vv gv d i x y) /\
       elem s' dK [d; i; x; y] = Fin (a_dk h n m kv qv vv gv d i x y) /\
       elem s' dV [d; i; x; y] = Fin (a_dv h n m kv qv gv d i x y)) /\
    frame [dQ; dK; dV; sp] s2 s').
Proof.
  intros TdQ TdK TdV TA TT TG TP D1 D2 D3 DI DO DS HS SM' VQ2 VK2 VV2 VA2 Fb Rr Z2. pose proof He as (H1 & H2 & H3 & H4 & H5 & H6 & H7).
  assert (S1 := HS Q ltac:(cbn; tauto)). assert (S2 := HS K ltac:(cbn; tauto)). assert (S3 := HS V ltac:(cbn; tauto)).
  assert (S4 := HS dA ltac:(cbn; tauto)). assert (S5 := HS dQ ltac:(cbn; tauto)). assert (S6 := HS dK ltac:(cbn; tauto)).
  assert (S7 := HS dV ltac:(cbn; tauto)). assert (S8 := HS ms ltac:(cbn; tauto)). assert (S9 := HS sp ltac:(cbn; tauto)).
  assert (S10 := HS tmp ltac:(cbn; tauto)). assert (S11 := HS grad ltac:(cbn; tauto)).
  destruct (DI Q ltac:(cbn; tauto)) as (A1 & A2 & A3 & A4). destruct (DI K ltac:(cbn; tauto)) as (B1 & B2 & B3 & B4).
  destruct (DI V ltac:(cbn; tauto)) as (C1 & C2 & C3 & C4). destruct (DI mask ltac:(cbn; tauto)) as (M1 & M2 & M3 & M4).
  destruct (DI dA ltac:(cbn; tauto)) as (G1 & G2 & G3 & G4).
  destruct (DO dQ ltac:(cbn; tauto)) as (O1 & O2). destruct (DO dK ltac:(cbn; tauto)) as (O3 & O4). destruct (DO dV ltac:(cbn; tauto)) as (O5 & O6).
  assert (TA' := TA). assert (TP' := TP). assert (TT' := TT). assert (TG' := TG). assert (TdQ' := TdQ). assert (TdK' := TdK). assert (TdV' := TdV).
  destruct TQ as (WQ & SQ), TK as (WK & SK), TM as (WM & SM), TS as (WS & SS), TT as (WT & ST), TV as (WV & SV), TdQ as (WdQ & SdQ),
    TdK as (WdK & SdK), TdV as (WdV & SdV), TA as (WA & SA), TG as (WG & SG), TP as (WP & SP).
  apply wf_wft in WQ, WK, WM, WS, WT, WV, WdQ, WdK, WdV, WA, WG, WP.
  eapply runs_weaken; [apply (flash_backward_runs h st bt nt gs gb gn); try assumption;
    first [apply Xzz|apply Xoz|unfold sep; auto 10 using disj_sym]|].
  intros s' _ (E1 & E2 & E3).
  set (aw := aweight h n m kv qv).
  assert (Aw : forall k i x y, (0 <= k < n)%Z -> (0 <= i < n)%Z -> aweight h n (belem s2 mask) kv qv k i x y = aw k i x y).
  { intros k i x y Hk Hi. unfold aw, aweight, adenom. rewrite Fb by assumption. destruct (m [k; i]); [|reflexivity]. f_equal.
    apply Rsum_ext. intros k' Hk'. rewrite Fb by assumption. reflexivity. }
  assert (Pr : forall k i x y, (0 <= k < n)%Z -> (0 <= i < n)%Z -> (0 <= x < nb)%Z -> (0 <= y < nh)%Z ->
    xpr h s2 Q K mask ms k i x y = Fin (aw k i x y)).
  { intros k i x y Hk Hi Hx Hy. rewrite xpr_val by auto. rewrite Aw by assumption. reflexivity. }
  assert (Dp : forall k i x y, (0 <= k < n)%Z -> (0 <= i < n)%Z -> (0 <= x < nb)%Z -> (0 <= y < nh)%Z ->
    xdp h s2 V dA k i x y = Fin (a_dp h vv gv k i x y)).
  { intros k i x y Hk Hi Hx Hy. unfold xdp. rewrite (x_dot h _ _ (fun d => vv [d; k; x; y]) (fun d => gv [d; i; x; y])).
    - cbn. f_equal. unfold a_dp. ring.
    - lia.
    - intros d Hd. apply VV2. apply inb4; assumption.
    - intros d Hd. apply VA2. apply inb4; assumption. }
  assert (Xs : forall i x y, (0 <= i < n)%Z -> (0 <= x < nb)%Z -> (0 <= y < nh)%Z ->
    xsum h st gs Q K V mask ms dA sp s2 i x y = Fin (a_sum h n m kv qv vv gv i x y)).
  { intros i x y Hi Hx Hy. unfold xsum. rewrite Z2 by (apply inb3; assumption). change (o_zero : XR) with (Fin 0).
    rewrite (x_fold_add gs (fun j v => kres o_one o_one (ksum st (fun l => o_mul (xdp h s2 V dA (j * st + l) i x y) (xpr h s2 Q K mask ms (j * st + l) i x y))) v)
      (fun j => Rsum st (fun l => a_dp h vv gv (j * st + l) i x y * aw (j * st + l)%Z i x y))); [|lia|].
    - rewrite (Rsum_blocks gs st (fun k => a_dp h vv gv k i x y * aw k i x y)) by lia. f_equal. unfold a_sum, aw, n. lra.
    - intros j b Hj. rewrite (x_ksum st _ (fun l => a_dp h vv gv (j * st + l) i x y * aw (j * st + l)%Z i x y)); [apply x_kres1|lia|].
      intros l Hl. assert (0 <= j * st + l < n)%Z by (unfold n; nia). rewrite Dp, Pr by assumption. reflexivity. }
  assert (Ds : forall k i x y, (0 <= k < n)%Z -> (0 <= i < n)%Z -> (0 <= x < nb)%Z -> (0 <= y < nh)%Z ->
    xds_of h s2 Q K V mask ms dA (xsum h st gs Q K V mask ms dA sp s2 i x y) k i x y = Fin (a_ds h n m kv qv vv gv k i x y)).
  { intros k i x y Hk Hi Hx Hy. unfold xds_of. rewrite Fb, Xs, Dp, Pr by assumption. unfold a_ds. fold aw.
    destruct (m [k; i]) eqn:Em.
    - unfold bc. rewrite Xoz. cbn. f_equal. ring.
    - unfold aw, aweight. rewrite Em. cbn. f_equal. ring. }
  assert (Sh : (flash_scale h : XR) = Fin (1 / sqrt (IZR h))) by (apply x_scale; assumption).
  split.
  - intros d i x y Hd Hi Hx Hy. destruct (E1 d i x y Hd Hi Hx Hy) as (P1 & P2 & P3). split; [|split].
    + rewrite P1. change (o_zero : XR) with (Fin 0). rewrite Sh.
      rewrite (x_fold_add gs (fun j v => gm o_one (o_mul (Fin (1 / sqrt (IZR h))) (dot st (fun l => elem s2 K [d; j * st + l; x; y]%Z)
        (fun l => xds_of h s2 Q K V mask ms dA (xsum h st gs Q K V mask ms dA sp s2 i x y) (j * st + l) i x y))) v)
        (fun j => Rsum st (fun l => kv [d; j * st + l; x; y]%Z * a_ds h n m kv qv vv gv (j * st + l) i x y) * (1 / sqrt (IZR h)))); [|lia|].
      * rewrite Rsum_mul_r. rewrite (Rsum_blocks gs st (fun k => kv [d; k; x; y] * a_ds h n m kv qv vv gv k i x y)) by lia.
        f_equal. unfold a_dq, n, Rdiv. lra.
      * intros j b Hj. rewrite (x_dot st _ _ (fun l => kv [d; j * st + l; x; y]%Z) (fun l => a_ds h n m kv qv vv gv (j * st + l) i x y)).
        -- cbn [o_mul Xops x_mul]. rewrite x_gm1. f_equal. ring.
        -- lia.
        -- intros l Hl. assert (0 <= j * st + l < n)%Z by (unfold n; nia). apply VK2. apply inb4; assumption.
        -- intros l Hl. assert (0 <= j * st + l < n)%Z by (unfold n; nia). apply Ds; assumption.
    + rewrite P2. change (o_zero : XR) with (Fin 0). rewrite Sh.
      rewrite (x_fold_add gs (fun j v => gm o_one (o_mul (Fin (1 / sqrt (IZR h))) (dot st (fun l => elem s2 Q [d; j * st + l; x; y]%Z)
        (fun l => xds_of h s2 Q K V mask ms dA (xsum h st gs Q K V mask ms dA sp s2 (j * st + l) x y) i (j * st + l) x y))) v)
        (fun j => Rsum st (fun l => qv [d; j * st + l; x; y]%Z * a_ds h n m kv qv vv gv i (j * st + l) x y) * (1 / sqrt (IZR h)))); [|lia|].
      * rewrite Rsum_mul_r. rewrite (Rsum_blocks gs st (fun k => qv [d; k; x; y] * a_ds h n m kv qv vv gv i k x y)) by lia.
        f_equal. unfold a_dk, n, Rdiv. lra.
      * intros j b Hj. rewrite (x_dot st _ _ (fun l => qv [d; j * st + l; x; y]%Z) (fun l => a_ds h n m kv qv vv gv i (j * st + l) x y)).
        -- cbn [o_mul Xops x_mul]. rewrite x_gm1. f_equal. ring.
        -- lia.
        -- intros l Hl. assert (0 <= j * st + l < n)%Z by (unfold n; nia). apply VQ2. apply inb4; assumption.
        -- intros l Hl. assert (0 <= j * st + l < n)%Z by (unfold n; nia). apply Ds; assumption.
    + rewrite P3. change (o_zero : XR) with (Fin 0).
      rewrite (x_fold_add gs (fun j v => gm o_one (o_mul o_one (dot st (fun l => elem s2 dA [d; j * st + l; x; y]%Z)
        (fun l => xpr h s2 Q K mask ms i (j * st + l) x y))) v)
        (fun j => Rsum st (fun l => gv [d; j * st + l; x; y]%Z * aw i (j * st + l)%Z x y))); [|lia|].
      * rewrite (Rsum_blocks gs st (fun k => gv [d; k; x; y] * aw i k x y)) by lia. f_equal. unfold a_dv, aw, n. lra.
      * intros j b Hj. rewrite (x_dot st _ _ (fun l => gv [d; j * st + l; x; y]%Z) (fun l => aw i (j * st + l)%Z x y)).
        -- cbn [o_mul o_one Xops x_mul]. rewrite x_gm1. f_equal. ring.
        -- lia.
        -- intros l Hl. assert (0 <= j * st + l < n)%Z by (unfold n; nia). apply VA2. apply inb4; assumption.
        -- intros l Hl. assert (0 <= j * st + l < n)%Z by (unfold n; nia). apply Pr; assumption.
  - exact E3.
Qed.
Theorem C43_flash_backward dQ dK dV dA tmp grad sp redux1 redux2 s :
  seqt dQ -> seqt dK -> seqt dV -> seqt dA -> scoret tmp -> scoret grad -> rowt sp ->
  (** the outputs dQ, dK, dV and the work tensors ms, sp share no tile with each other or with an input *)
  disj dQ dK -> disj dQ dV -> disj dK dV ->
  (forall X, In X [Q; K; V; mask; dA] -> disj X dQ /\ disj X dK /\ disj X dV /\ disj X sp /\ disj X ms) ->
  (forall X, In X [dQ; dK; dV] -> disj X sp /\ disj X ms) -> disj ms sp -> disj tmp ms ->
  (forall X, In X [Q; K; V; dA; dQ; dK; dV; ms; sp; tmp; grad] -> stored KF s X) -> stored KB s mask ->
  holds s Q qv -> holds s K kv -> holds s V vv -> holds s dA gv ->
  runs (then_ (then_ (clear_async ms) (flash_maxsumexp_async Q K mask ms tmp redux1))
          (then_ (clear_async sp) (flash_softmax_gemm_backward_async Q dQ K dK V dV mask ms dA tmp grad sp redux2))) s (fun s' =>
    (forall d i x y, (0 <= d < h)%Z -> (0 <= i < n)%Z -> (0 <= x < nb)%Z -> (0 <= y < nh)%Z ->
       (exists g, elem s' dQ [d; i; x; y] = Fin g /\
          is_derive (fun t => aloss h n nb nh (belem s mask) kv (upd qv [d; i; x; y] t) vv gv) (qv [d; i; x; y]) g) /\
       (exists g, elem s' dK [d; i; x; y] = Fin g /\
          is_derive (fun t => aloss h n nb nh (belem s mask) (upd kv [d; i; x; y] t) qv vv gv) (kv [d; i; x; y]) g) /\
       (exists g, elem s' dV [d; i; x; y] = Fin g /\
          is_derive (fun t => aloss h n nb nh (belem s mask) kv qv (upd vv [d; i; x; y] t) gv) (vv [d; i; x; y]) g)) /\
    frame [ms; sp; dQ; dK; dV] s s').
Proof.
  intros TdQ TdK TdV TA TT TG TP D1 D2 D3 DI DO DS DT HS SM' VQ VK VV VA. pose proof He as (H1 & H2 & H3 & H4 & H5 & H6 & H7).
  assert (S1 := HS Q ltac:(cbn; tauto)). assert (S2 := HS K ltac:(cbn; tauto)). assert (S3 := HS V ltac:(cbn; tauto)).
  assert (S4 := HS dA ltac:(cbn; tauto)). assert (S5 := HS dQ ltac:(cbn; tauto)). assert (S6 := HS dK ltac:(cbn; tauto)).
  assert (S7 := HS dV ltac:(cbn; tauto)). assert (S8 := HS ms ltac:(cbn; tauto)). assert (S9 := HS sp ltac:(cbn; tauto)).
  assert (S10 := HS tmp ltac:(cbn; tauto)). assert (S11 := HS grad ltac:(cbn; tauto)).
  destruct (DI Q ltac:(cbn; tauto)) as (A1 & A2 & A3 & A4 & A5). destruct (DI K ltac:(cbn; tauto)) as (B1 & B2 & B3 & B4 & B5).
  destruct (DI V ltac:(cbn; tauto)) as (C1 & C2 & C3 & C4 & C5). destruct (DI mask ltac:(cbn; tauto)) as (M1 & M2 & M3 & M4 & M5).
  destruct (DI dA ltac:(cbn; tauto)) as (G1 & G2 & G3 & G4 & G5).
  destruct (DO dQ ltac:(cbn; tauto)) as (O1 & O2). destruct (DO dK ltac:(cbn; tauto)) as (O3 & O4). destruct (DO dV ltac:(cbn; tauto)) as (O5 & O6).
  eapply runs_then; [apply clear_flash_maxsumexp; assumption|]. intros s1 I1 [R1 F1].
  eapply runs_then; [apply C12_clear; [apply TP|eapply tinv_stored; eassumption]|]. intros s2 I2 [Z2 F2]. cbn beta in Z2.
  assert (TA' := TA). assert (TP' := TP). assert (TT' := TT). assert (TG' := TG). assert (TdQ' := TdQ). assert (TdK' := TdK). assert (TdV' := TdV).
  destruct TQ as (WQ & SQ), TK as (WK & SK), TM as (WM & SM), TS as (WS & SS), TT as (WT & ST), TV as (WV & SV), TdQ as (WdQ & SdQ),
    TdK as (WdK & SdK), TdV as (WdV & SdV), TA as (WA & SA), TG as (WG & SG), TP as (WP & SP).
  apply wf_wft in WQ, WK, WM, WS, WT, WV, WdQ, WdK, WdV, WA, WG, WP.
  assert (F12 : frame [ms; sp] s s2) by (eapply frame_trans in F2; [|exact F1]; exact F2).
  assert (I12 : tinv s s2) by (intros g; rewrite I2; apply I1).
  assert (Fr : forall X idx, wft X -> disj X ms -> disj X sp -> inb (t_shape X) idx -> elem s2 X idx = elem s X idx).
  { intros X idx WX DX DX' Hi. apply (frame_elem [ms; sp]); [assumption|assumption|intros t [<-|[<-|[]]]; assumption|assumption]. }
  assert (Fb : forall k i, (0 <= k < n)%Z -> (0 <= i < n)%Z -> belem s2 mask [k; i] = belem s mask [k; i]).
  { intros k i Hk Hi. assert (Hin : inb (t_shape mask) [k; i]) by (rewrite (proj1 SM); inbt). unfold belem. rewrite F12; [reflexivity|].
    assert (Hm : In (th mask (etile mask [k; i])) (tile_handles mask)) by (apply th_In; [assumption|apply etile_bound; assumption]).
    intros t [<-|[<-|[]]] Hin'; [apply (M5 _ Hm Hin')|apply (M4 _ Hm Hin')]. }
  assert (VQ2 : holds s2 Q qv) by (intros idx Hi; rewrite Fr by assumption; apply VQ; assumption).
  assert (VK2 : holds s2 K kv) by (intros idx Hi; rewrite Fr by assumption; apply VK; assumption).
  assert (VV2 : holds s2 V vv) by (intros idx Hi; rewrite Fr by assumption; apply VV; assumption).
  assert (VA2 : holds s2 dA gv) by (intros idx Hi; rewrite Fr by assumption; apply VA; assumption).
  eapply runs_weaken; [apply (flash_backward_vals (belem s mask)); try assumption; try (split; assumption); try (eapply tinv_stored; eassumption)|].
  - intros X HX. destruct (DI X HX) as (? & ? & ? & ? & ?). auto.
  - intros X HX. eapply tinv_stored; [exact I12|]. apply HS. exact HX.
  - intros i x y Hi Hx Hy.
    replace (row s2 i x y) with (row s i x y).
    + replace (pelem s2 ms [i; x; y]) with (pelem s1 ms [i; x; y]); [apply R1; assumption|].
      unfold pelem. f_equal; symmetry; (apply (frame_elem [sp]); [assumption|apply inb2; (assumption || lia)|intros t [<-|[]]; assumption|assumption]).
    + unfold row. apply map_ext_in. intros k Hk. apply zrange_In in Hk. rewrite !xsc_val by assumption. rewrite Fb by assumption. reflexivity.
  - intros s' _ [E F3]. split.
    + intros d i x y Hd Hi Hx Hy. destruct (E d i x y Hd Hi Hx Hy) as (P1 & P2 & P3). split; [|split].
      * eexists. split; [exact P1|apply dq_derive; assumption].
      * eexists. split; [exact P2|apply dk_derive; assumption].
      * eexists. split; [exact P3|apply dv_derive; assumption].
    + eapply frame_weaken; [|eapply frame_trans; [exact F12|exact F3]]. cbn. intros t Ht. tauto.
Qed.
End F.
