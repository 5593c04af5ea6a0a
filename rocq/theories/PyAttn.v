(** * The Attention layer *)
From Coq Require Import Reals Lra FunctionalExtensionality.
From Coquelicot Require Import Coquelicot.
From Verif Require Import Base Spec Geometry Traits TraitsProofs Runtime Ops RealOps TensorSem ElemGeneric OneOut ElemOps Axis AccRuns SliceOps FiberOps FiberGeo SliceGeo RSum AttnSpec PropElem PropSlice PropFiber MatOps MatProofs GemmProofs GemmRuns PropMat SoftmaxOps PairGeo SoftmaxScalar SoftmaxProofs SoftmaxRuns PropSoftmax LossOps LossRuns PropLoss XReals Sequence NdRuns XTriples HasRuns TapeMath VjpMath Tape PyLayers PyLinear HasRuns2 PySimple PyNorm HasRuns3 AttMath.
Local Open Scope R_scope.
Local Close Scope Z_scope.
Local Open Scope R_scope.

Lemma pre_fiber_b sh axis b gy k : pre sh (fib axis b) gy k = fiber_sum sh axis b k gy.
Proof.
  unfold pre, fiber_sum. rewrite Rsuml_filter. apply Rsuml_ext. intros i _. cbv beta.
  destruct (list_eq_dec Z.eq_dec (fib axis b i) k) as [El|Hn]; destruct (list_eqb Z.eqb (fib axis b i) k) eqn:Eb; try reflexivity; exfalso.
  - rewrite El in Eb. clear - Eb. induction k as [|z k IH]; [discriminate|]. cbn in Eb. rewrite Z.eqb_refl in Eb. auto.
  - apply Hn. clear Hn. revert Eb. generalize (fib axis b i). induction k as [|z k IH]; intros [|y l] Eb; try discriminate; [reflexivity|].
    cbn in Eb. apply andb_prop in Eb as [E1 E2]. apply Z.eqb_eq in E1. subst. f_equal. apply IH. assumption.
Qed.
Lemma pre_ext sh p p' g k : pos sh -> (forall i, inb sh i -> p i = p' i) -> pre sh p g k = pre sh p' g k.
Proof. intros Hp H. unfold pre. apply Rsuml_ext. intros i Hi. apply all_idx_In in Hi; [|assumption]. rewrite H by assumption. reflexivity. Qed.
Lemma fiber_first_last h n nb nh (g : arr) d y : (0 < h)%Z -> (0 < n)%Z -> (0 < nb)%Z -> (0 < nh)%Z -> (0 <= d < h)%Z -> (0 <= y < nh)%Z ->
  fiber_sum [h; n; nb; nh] 0 1 [d; y] g = proj_db n nb g [d; y].
Proof.
  intros. rewrite <- pre_fiber_b, <- (pre_first_last h n nb nh) by assumption. apply pre_ext; [posl|].
  intros i Hi. apply inb4_inv in Hi as (a & b & c & e & -> & _). reflexivity.
Qed.
Lemma fiber_first ne n nb (g : arr) e : (0 < ne)%Z -> (0 < n)%Z -> (0 < nb)%Z -> (0 <= e < ne)%Z ->
  fiber_sum [ne; n; nb] 0 0 [e] g = outp_dbo n nb g [e].
Proof.
  intros. rewrite <- pre_fiber_b, <- (pre_first ne n nb) by assumption. apply pre_ext; [posl|].
  intros i Hi. apply inb3_inv in Hi as (a & b & c & -> & _). reflexivity.
Qed.

Lemma tv_ish n ish ish' osh D F dl : (forall j, (j < n)%nat -> ish' j = ish j) -> tv n ish osh D F dl -> tv n ish' osh D F dl.
Proof.
  intros He H c c' t0 HD Hc. destruct (H c c' t0 HD) as (y' & H1 & H2).
  - intros j idx Hj Hi. apply Hc; [assumption|]. rewrite He by assumption. assumption.
  - exists y'. split; [assumption|]. intros gy. rewrite H2. apply Nsum_ext. intros j Hj. rewrite He by assumption. reflexivity.
Qed.

Section Layer.
Context {E : env} (req : nat -> bool).
Notation node_ok := (node_ok req).
Notation node := (node req).
Notation st := (st req).
Notation ov := (ov req).

(** The moments of a temporary of layer [id]: attention.py:250-380, grad_required=True. *)
Definition tm (id i : nat) : moments := {| m_val := A (Tmp id i); m_grad := A (Tmp id (10 + i)); m_req := true |}.
Definition is (x : gvar) (sh ba : list Z) : Prop := U x /\ t_shape (A x) = sh /\ t_base (A x) = ba.
Definition isn (x : nat) (sh ba : list Z) : Prop := node_ok x /\ vshape x = sh /\ vbase x = ba.
Lemma isn_val x sh ba : isn x sh ba -> is (Val x) sh ba.
Proof. intros ([H _] & H1 & H2). repeat split; assumption. Qed.
Lemma isn_grad x sh ba : isn x sh ba -> req x = true -> is (Grad x) sh ba.
Proof. intros ([_ H] & H1 & H2) Hr. destruct (H Hr) as [Hu [E1 E2]]. split; [assumption|]. unfold vshape, vbase in *. split; congruence. Qed.
Lemma is_pos x sh ba : is x sh ba -> pos sh.
Proof. intros (H & <- & _). apply wf_ps, wf_wft, UW. assumption. Qed.
Lemma nd_keep M G M' G' (r : res (list (task XR))) s : runs_nd r s (st M G) -> (forall s', st M G s' -> st M' G' s') -> runs_nd r s (st M' G').
Proof. intros H1 H2. eapply nd_weaken; [exact H1|]. intros s' _. apply H2. Qed.

Definition oval (b : option nat) (fb : arr) : option arr := option_map (fun _ => fb) b.

(** one projection: attention.py:401-455 *)
Lemma proj_fwd x w b id it iq M G s ne h n nb nh be bh bn bnb bnh fx fw fb :
  st M G s -> isn x [ne; n; nb] [be; bn; bnb] -> isn w [nh; h; ne] [bnh; bh; be] ->
  is (Tmp id it) [nh; h; n; nb] [bnh; bh; bn; bnb] -> is (Tmp id iq) [h; n; nb; nh] [bh; bn; bnb; bnh] -> it <> iq ->
  (forall b', b = Some b' -> isn b' [h; nh] [bh; bnh] /\ M (Val b') = Some (fin fb)) ->
  M (Val x) = Some (fin fx) -> M (Val w) = Some (fin fw) ->
  runs_nd (att_project (node x) (node w) (option_map node b) (tm id it) (tm id iq)) s
    (st (upd (Tmp id iq) (Some (fin (proj ne fw fx (oval b fb)))) (upd (Tmp id it) None M)) G).
Proof.
  intros Hs Hx Hw Ht Hq Hn Hb Mx Mw. destruct (isn_val _ _ _ Hx) as (Ux & Sx & Bx). destruct (isn_val _ _ _ Hw) as (Uw & Sw & Bw).
  assert (P3 := is_pos _ _ _ (isn_val _ _ _ Hx)). assert (P4 := is_pos _ _ _ Hq).
  destruct Ht as (Ut & S_t & Bt). destruct Hq as (Uq & Sq & Bq).
  inversion P3 as [|? ? Pe P3']; subst. clear P3'.
  unfold att_project. cbn [node tm m_val m_grad].
  change (@o_one XR _) with (Fin 1). change (@o_zero XR _) with (Fin 0).
  set (ft := fun idx : list Z => Rsum ne (fun e => fw [zn idx 0; zn idx 1; e] * fx [e; zn idx 2; zn idx 3])).
  eapply py_tmp; [apply (h_gemm 1 0 NoTrans NoTrans (ov G M) s (Val w) (Val x) (Tmp id it) 1 0 fw fx (fun _ => 0) ft [nh; h] [ne] [n; nb] [] [bnh; bh] [be] [bn; bnb] [])|];
    try assumption; try congruence; try reflexivity; try (left; reflexivity).
  { intros mi ni bi Hm Hn' Hb'. apply inb2_inv in Hm as (y & d & -> & _). apply inb2_inv in Hn' as (i & z & -> & _). apply inb_nil in Hb' as ->.
    rewrite sum1 by assumption. unfold ft. cbn [app op_dims]. change (zn [y; d; i; z] 0) with y. change (zn [y; d; i; z] 1) with d. change (zn [y; d; i; z] 2) with i. change (zn [y; d; i; z] 3) with z. ring. }
  intros s1 H1. set (fq0 := proj ne fw fx None).
  eapply py_tmp; [apply (h_transpose _ s1 (Tmp id it) (Tmp id iq) 1 ft fq0 H1 Ut Uq)|].
  { congruence. }
  { unfold transpose_match. rewrite S_t, Bt, Sq, Bq. split; [unfold zlen; cbn; lia|]. split; reflexivity. }
  { apply upd_eq. }
  { intros idx Hi. rewrite S_t in Hi. apply inb4_inv in Hi as (y & d & i & z & -> & _). unfold fq0, proj, ft. change (rot 1 [y; d; i; z]) with [d; i; z; y].
    change (zn [y; d; i; z] 0) with y. change (zn [y; d; i; z] 1) with d. change (zn [y; d; i; z] 2) with i. change (zn [y; d; i; z] 3) with z.
    change (zn [d; i; z; y] 0) with d. change (zn [d; i; z; y] 1) with i. change (zn [d; i; z; y] 2) with z. change (zn [d; i; z; y] 3) with y. ring. }
  intros s2 H2.
  assert (Hfin : forall s', st (upd (Tmp id iq) (Some (fin (proj ne fw fx (oval b fb)))) (upd (Tmp id iq) (Some (fin fq0)) (upd (Tmp id it) (Some (fin ft)) M))) G s' ->
    st (upd (Tmp id iq) (Some (fin (proj ne fw fx (oval b fb)))) (upd (Tmp id it) None M)) G s').
  { intros s' H'. eapply has_sub; [exact H'|]. intros [m|m|k i] f _; cbn [Tape.ov]; auto.
    unfold upd. destruct (gvar_dec (Tmp k i) (Tmp id iq)); [auto|]. destruct (gvar_dec (Tmp k i) (Tmp id it)); [intros C; discriminate C|auto]. }
  destruct b as [b|]; cbn [option_map py_opt].
  - destruct (Hb b eq_refl) as (Hb1 & Mb). destruct (isn_val _ _ _ Hb1) as (Ub & Sb & Bb). cbn [node m_val].
    eapply py_tmp; [apply (h_add_fiber 1 1 _ s2 (Val b) (Tmp id iq) 0 1 fb fq0 (proj ne fw fx (Some fb)) ltac:(lra) H2 Ub Uq)|].
    { congruence. } { unfold fiber_match. rewrite Sq, Bq, Sb, Bb. split; [lia|]. split; [unfold zlen; cbn; lia|]. split; reflexivity. }
    { cbn [Tape.ov]. rewrite !upd_ne by congruence. exact Mb. } { apply upd_eq. }
    { intros idx Hi. rewrite Sq in Hi. apply inb4_inv in Hi as (d & i & z & y & -> & _). unfold fq0, proj. change (fib 0 1 [d; i; z; y]) with [d; y].
      change (zn [d; i; z; y] 0) with d. change (zn [d; i; z; y] 3) with y. ring. }
    intros s3 H3. apply py_nil. apply Hfin. exact H3.
  - apply py_skip, py_nil. apply Hfin. eapply has_sub; [exact H2|]. intros [m|m|k i] f _; cbn [Tape.ov]; auto.
    unfold upd. destruct (gvar_dec (Tmp k i) (Tmp id iq)); auto.
Qed.

Definition addgo (b : option nat) (d : arr) (G : nat -> arr) : nat -> arr := match b with Some b => addg b d G | None => G end.

(** one backward projection: attention.py:690-802 *)
Lemma proj_bwd x w b id it iq M G s ne h n nb nh be bh bn bnb bnh fx fw gq :
  st M G s -> isn x [ne; n; nb] [be; bn; bnb] -> isn w [nh; h; ne] [bnh; bh; be] ->
  is (Tmp id (10 + it)) [nh; h; n; nb] [bnh; bh; bn; bnb] -> is (Tmp id (10 + iq)) [h; n; nb; nh] [bh; bn; bnb; bnh] -> it <> iq ->
  (forall b', b = Some b' -> isn b' [h; nh] [bh; bnh]) ->
  M (Val x) = Some (fin fx) -> M (Val w) = Some (fin fw) -> M (Tmp id (10 + iq)) = Some (fin gq) ->
  runs_nd (att_project_backward (node x) (node w) (option_map node b) (tm id it) (tm id iq)) s
    (st (upd (Tmp id (10 + it)) None M) (addg w (proj_dw n nb fx gq) (addg x (proj_dx h nh fw gq) (addgo b (proj_db n nb gq) G)))).
Proof.
  intros Hs Hx Hw Ht Hq Hn Hb Mx Mw Mq. destruct (isn_val _ _ _ Hx) as (Ux & Sx & Bx). destruct (isn_val _ _ _ Hw) as (Uw & Sw & Bw).
  assert (P3 := is_pos _ _ _ (isn_val _ _ _ Hx)). assert (P4 := is_pos _ _ _ Hq).
  destruct Ht as (Ut & S_t & Bt). destruct Hq as (Uq & Sq & Bq).
  assert (Pe : (0 < ne)%Z) by (inversion P3; assumption). clear P3.
  inversion P4 as [|? ? Ph P4']; subst. inversion P4' as [|? ? Pn P4'']; subst. inversion P4'' as [|? ? Pb P5]; subst. inversion P5 as [|? ? Pnh _]; subst. clear P4 P4' P4'' P5.
  unfold att_project_backward. cbn [node tm m_val m_grad m_req]. unfold py_if at 2.
  change (@o_one XR _) with (Fin 1). change (@o_zero XR _) with (Fin 0).
  assert (K1 : forall l Q, (forall s1, st M (addgo b (proj_db n nb gq) G) s1 -> runs_nd (pyseq l) s1 Q) ->
    runs_nd (pyseq (py_opt (option_map node b) (fun b0 => py_if (m_req b0) (sum_fiber_async (Fin 1) (A (Tmp id (10 + iq))) (Fin 1) (m_grad b0) 0 1 false)) :: l)) s Q).
  { intros l Q HQ. destruct b as [b|]; cbn [option_map py_opt addgo node m_req m_grad] in *.
    - assert (Hb1 := Hb b eq_refl). eapply py_grad; [exact Hs| |exact HQ]. intros Rb. destruct (isn_grad _ _ _ Hb1 Rb) as (Ub & Sb & Bb).
      apply (h_sum_fiber 1 1 (ov G M) s (Tmp id (10 + iq)) (Grad b) 0 1 gq (G b)); try assumption.
      + congruence. + unfold fiber_match. rewrite Sq, Bq, Sb, Bb. split; [lia|]. split; [unfold zlen; cbn; lia|]. split; reflexivity.
      + apply ov_grad; assumption.
      + intros d Hd. rewrite Sb in Hd. apply inb2_inv in Hd as (a & y & -> & Ha & Hy). rewrite Sq, fiber_first_last by assumption. ring.
    - apply py_skip. apply HQ. exact Hs. }
  apply K1. clear K1. intros s1 H1. set (G1 := addgo b (proj_db n nb gq) G) in *.
  set (gt := fun idx : list Z => gq [zn idx 1; zn idx 2; zn idx 3; zn idx 0]).
  eapply py_tmp; [apply (h_transpose _ s1 (Tmp id (10 + iq)) (Tmp id (10 + it)) 3 gq gt H1 Uq Ut)|].
  { intros C. inversion C. lia. }
  { unfold transpose_match. rewrite S_t, Bt, Sq, Bq. split; [unfold zlen; cbn; lia|]. split; reflexivity. }
  { exact Mq. }
  { intros idx Hi. rewrite Sq in Hi. apply inb4_inv in Hi as (d & i & z & y & -> & _). reflexivity. }
  intros s2 H2. set (M2 := upd (Tmp id (10 + it)) (Some (fin gt)) M) in *.
  set (G2 := addg x (proj_dx h nh fw gq) G1).
  eapply (py_grad req M2 G1 s2 x (proj_dx h nh fw gq)); [exact H2| |].
  { intros Rx. destruct (isn_grad _ _ _ Hx Rx) as (Ugx & Sgx & Bgx).
    apply (h_gemm 1 1 Trans NoTrans (ov G1 M2) s2 (Val w) (Tmp id (10 + it)) (Grad x) 2 0 fw gt (G1 x) _ [ne] [nh; h] [n; nb] [] [be] [bnh; bh] [bn; bnb] []);
      try assumption; try congruence; try reflexivity.
    - apply upd_eq. - right. apply ov_grad. assumption.
    - intros mi ni bi Hm Hn' Hb'. apply inb1_inv in Hm as (e & -> & _). apply inb2_inv in Hn' as (i & z & -> & _). apply inb_nil in Hb' as ->.
      rewrite sum2 by assumption. unfold proj_dx. cbn [app op_dims]. rewrite Rsum_swap.
      change (zn [e; i; z] 0) with e. change (zn [e; i; z] 1) with i. change (zn [e; i; z] 2) with z.
      rewrite Rmult_1_l. f_equal. rewrite Rmult_1_l. rewrite Rsum_swap.
      rewrite Rsum_swap. reflexivity. }
  intros s3 H3. fold G2 in H3. set (G3 := addg w (proj_dw n nb fx gq) G2).
  eapply (py_grad req M2 G2 s3 w (proj_dw n nb fx gq)); [exact H3| |].
  { intros Rw. destruct (isn_grad _ _ _ Hw Rw) as (Ugw & Sgw & Bgw).
    apply (h_gemm 1 1 NoTrans Trans (ov G2 M2) s3 (Tmp id (10 + it)) (Val x) (Grad w) 2 0 gt fx (G2 w) _ [nh; h] [n; nb] [ne] [] [bnh; bh] [bn; bnb] [be] []);
      try assumption; try congruence; try reflexivity.
    - apply upd_eq. - right. apply ov_grad. assumption.
    - intros mi ni bi Hm Hn' Hb'. apply inb2_inv in Hm as (y & d & -> & _). apply inb1_inv in Hn' as (e & -> & _). apply inb_nil in Hb' as ->.
      rewrite sum2 by assumption. unfold proj_dw. cbn [app op_dims].
      change (zn [y; d; e] 0) with y. change (zn [y; d; e] 1) with d. change (zn [y; d; e] 2) with e.
      rewrite !Rmult_1_l. reflexivity. }
  intros s4 H4. fold G3 in H4. apply py_nil. eapply has_sub; [exact H4|]. intros [m|m|k i] f _; cbn [Tape.ov]; auto.
  unfold M2, upd. destruct (gvar_dec (Tmp k i) (Tmp id (10 + it))); [intros C; discriminate C|auto].
Qed.

(** The tensors of an Attention layer (attention.py:56-145): the inputs, the output, the weights,
    the biases of the three projections and of the output if there are any, the mask if there is
    one, and the number naming the temporaries
    0 q_transposed, 1 q, 2 k_transposed, 3 k, 4 v_transposed, 5 v, 6 a, 7 a_maxsumexp, 8 b,
    9 b_transposed; their gradients 10 .. 16, 18, 19; 17 a_sumprod_slice. *)
Record attn := { an_xq : nat; an_xk : nat; an_xv : nat; an_y : nat; an_wq : nat; an_wk : nat; an_wv : nat; an_w : nat;
                 an_bias : option (nat * nat * nat * nat); an_mask : option tensor; an_id : nat }.
Definition an_bq L := option_map (fun p : nat * nat * nat * nat => fst (fst (fst p))) (an_bias L).
Definition an_bk L := option_map (fun p : nat * nat * nat * nat => snd (fst (fst p))) (an_bias L).
Definition an_bv L := option_map (fun p : nat * nat * nat * nat => snd (fst p)) (an_bias L).
Definition an_bo L := option_map (fun p : nat * nat * nat * nat => snd p) (an_bias L).
Definition an_hasb L : bool := match an_bias L with Some _ => true | None => false end.
Definition an_ins L : list nat := [an_xq L; an_xk L; an_xv L; an_wq L; an_wk L; an_wv L; an_w L] ++
  match an_bias L with Some (bq, bk, bv, bo) => [bq; bk; bv; bo] | None => [] end.
(** Dimensions: features of x_q (and y), x_k, x_v; head size; sequence; batch; heads. *)
Record adims := { d_e : Z; d_ek : Z; d_ev : Z; d_h : Z; d_n : Z; d_b : Z; d_nh : Z }.
Definition sx e (D : adims) : list Z := [e; d_n D; d_b D].
Definition sw e (D : adims) : list Z := [d_nh D; d_h D; e].
Definition swo (D : adims) : list Z := [d_e D; d_nh D; d_h D].
Definition sb4 (D : adims) : list Z := [d_h D; d_nh D].
Definition sq4 (D : adims) : list Z := [d_h D; d_n D; d_b D; d_nh D].
Definition sqt (D : adims) : list Z := [d_nh D; d_h D; d_n D; d_b D].
Definition sa4 (D : adims) : list Z := [d_n D; d_n D; d_b D; d_nh D].
Definition srow (D : adims) : list Z := [d_n D; d_b D; d_nh D].

(** What the constructor and generate_simple (attention.py:56-145, 147-395) set up: shapes and
    base tiles, the size of a head, temporaries.  [m] is the mask: [m [key; query]]. *)
Record attn_ok (L : attn) (S B : adims) (m : list Z -> bool) : Prop := {
  ao_xq : isn (an_xq L) (sx (d_e S) S) (sx (d_e B) B); ao_xk : isn (an_xk L) (sx (d_ek S) S) (sx (d_ek B) B); ao_xv : isn (an_xv L) (sx (d_ev S) S) (sx (d_ev B) B);
  ao_y : isn (an_y L) (sx (d_e S) S) (sx (d_e B) B);
  ao_wq : isn (an_wq L) (sw (d_e S) S) (sw (d_e B) B); ao_wk : isn (an_wk L) (sw (d_ek S) S) (sw (d_ek B) B); ao_wv : isn (an_wv L) (sw (d_ev S) S) (sw (d_ev B) B);
  ao_w : isn (an_w L) (swo S) (swo B);
  ao_bq : forall b, an_bq L = Some b -> isn b (sb4 S) (sb4 B); ao_bk : forall b, an_bk L = Some b -> isn b (sb4 S) (sb4 B); ao_bv : forall b, an_bv L = Some b -> isn b (sb4 S) (sb4 B);
  ao_bo : forall b, an_bo L = Some b -> isn b [d_e S] [d_e B];
  ao_ry : req (an_y L) = true; ao_out : ~ In (an_y L) (an_ins L);
  ao_head : d_e S = (d_h S * d_nh S)%Z;
  ao_t : forall i, In i [0; 2; 4; 9; 10; 12; 14; 19]%nat -> is (Tmp (an_id L) i) (sqt S) (sqt B);
  ao_q : forall i, In i [1; 3; 5; 8; 11; 13; 15; 18]%nat -> is (Tmp (an_id L) i) (sq4 S) (sq4 B);
  ao_a : forall i, In i [6; 16]%nat -> is (Tmp (an_id L) i) (sa4 S) (sa4 B);
  ao_ms : is (Tmp (an_id L) 7) (2%Z :: srow S) (2%Z :: srow B); ao_sp : is (Tmp (an_id L) 17) (srow S) (srow B);
  ao_mask : match an_mask L with
            | Some mt => wf_tensor mt /\ t_shape mt = [d_n S; d_n S] /\ t_base mt = [d_n B; d_n B] /\
                         disj mt (A (Tmp (an_id L) 6)) /\ disj mt (A (Tmp (an_id L) 16)) /\
                         (forall s, K s -> stored KB s mt /\ forall idx, inb (t_shape mt) idx -> belem s mt idx = m idx)
            | None => forall idx, m idx = true
            end
}.
(** 1.0/head_size**0.5, head_size = x_q.shape[0] // w_q.shape[0]: attention.py:131-137, 463 *)
Definition att_scale (L : attn) : XR := o_div o_one (o_sqrt (o_ofZ (zn (vshape (an_xq L)) 0 / zn (vshape (an_wq L)) 0)%Z)).

Definition att_fwd (L : attn) : res (list (task XR)) :=
  let t := tm (an_id L) in
  attention_forward (node (an_xq L)) (node (an_xk L)) (node (an_xv L)) (node (an_y L)) (node (an_wq L)) (node (an_wk L)) (node (an_wv L)) (node (an_w L))
    (option_map node (an_bq L)) (option_map node (an_bk L)) (option_map node (an_bv L)) (option_map node (an_bo L))
    (t 0%nat) (t 1%nat) (t 2%nat) (t 3%nat) (t 4%nat) (t 5%nat) (t 6%nat) (A (Tmp (an_id L) 7)) (t 8%nat) (t 9%nat) (an_mask L) (att_scale L) NInf.
Definition att_bwd (L : attn) : res (list (task XR)) :=
  let t := tm (an_id L) in
  attention_backward (node (an_xq L)) (node (an_xk L)) (node (an_xv L)) (node (an_y L)) (node (an_wq L)) (node (an_wk L)) (node (an_wv L)) (node (an_w L))
    (option_map node (an_bq L)) (option_map node (an_bk L)) (option_map node (an_bv L)) (option_map node (an_bo L))
    (t 0%nat) (t 1%nat) (t 2%nat) (t 3%nat) (t 4%nat) (t 5%nat) (t 6%nat) (A (Tmp (an_id L) 17)) (t 8%nat) (t 9%nat) (an_mask L) (att_scale L).
Definition attn_layer (L : attn) (S : adims) (m : list Z -> bool) : layer :=
  let q := att_q (d_e S) (an_hasb L) in let k := att_k (d_ek S) (an_hasb L) in let v := att_v (d_ev S) (an_hasb L) in
  let b := att_b (d_e S) (d_ek S) (d_ev S) (d_h S) (d_n S) m (an_hasb L) in {|
  ly_m := {| ml_ins := an_ins L; ml_out := an_y L;
             ml_F := att_F (d_e S) (d_ek S) (d_ev S) (d_h S) (d_n S) (d_nh S) m (an_hasb L); ml_D := fun _ => True;
             ml_dl := att_dl (d_e S) (d_ek S) (d_ev S) (d_h S) (d_n S) (d_b S) (d_nh S) m (an_hasb L) |};
  ly_id := an_id L;
  ly_py := {| pl_forward := att_fwd L; pl_backward := att_bwd L |};
  ly_saved := fun vs M =>
    M (Tmp (an_id L) 1) = Some (fin (q vs)) /\ M (Tmp (an_id L) 3) = Some (fin (k vs)) /\ M (Tmp (an_id L) 5) = Some (fin (v vs)) /\
    M (Tmp (an_id L) 6) = Some (fin (fun idx => aweight (d_h S) (d_n S) m (k vs) (q vs) (zn idx 0) (zn idx 1) (zn idx 2) (zn idx 3))) /\
    M (Tmp (an_id L) 9) = Some (fin (fun idx => b vs [zn idx 1; zn idx 2; zn idx 3; zn idx 0])) |}.

Section Ok.
Variables (L : attn) (S B : adims) (m : list Z -> bool).
Hypothesis OK : attn_ok L S B m.
Notation id := (an_id L).
Notation e := (d_e S). Notation ek := (d_ek S). Notation ev := (d_ev S). Notation h := (d_h S). Notation n := (d_n S). Notation nb := (d_b S). Notation nh := (d_nh S).
Notation bh := (d_h B). Notation bn := (d_n B). Notation bb := (d_b B). Notation bnh := (d_nh B).

Lemma att_pos : (0 < e /\ 0 < ek /\ 0 < ev /\ 0 < h /\ 0 < n /\ 0 < nb /\ 0 < nh)%Z.
Proof.
  assert (P1 := is_pos _ _ _ (isn_val _ _ _ (ao_xq _ _ _ _ OK))). assert (P2 := is_pos _ _ _ (isn_val _ _ _ (ao_xk _ _ _ _ OK))).
  assert (P3 := is_pos _ _ _ (isn_val _ _ _ (ao_xv _ _ _ _ OK))). assert (P4 := is_pos _ _ _ (ao_q _ _ _ _ OK 1%nat ltac:(cbn; tauto))).
  unfold pos, sx, sq4 in *. rewrite !Forall_cons_iff in *. tauto.
Qed.
Lemma att_scale_val : att_scale L = Fin (1 / sqrt (IZR h)).
Proof.
  destruct att_pos as (_ & _ & _ & Ph & _ & _ & Pnh). unfold att_scale.
  destruct (ao_xq _ _ _ _ OK) as (_ & -> & _). destruct (ao_wq _ _ _ _ OK) as (_ & -> & _). unfold sx, sw.
  change (zn [e; n; nb] 0) with e. change (zn [nh; h; e] 0) with nh. rewrite (ao_head _ _ _ _ OK). rewrite Z.div_mul by lia.
  assert (0 < IZR h) by (apply (IZR_lt 0); assumption). assert (0 < sqrt (IZR h)) by (apply sqrt_lt_R0; assumption).
  cbn [o_ofZ o_sqrt Xops]. rewrite x_sqrt_fin by lra. apply x_div_fin. lra.
Qed.

Notation py := (attn_layer L S m).
Notation Lq vs := (att_q e (an_hasb L) vs). Notation Lk vs := (att_k ek (an_hasb L) vs). Notation Lv vs := (att_v ev (an_hasb L) vs).
Notation Lb vs := (att_b e ek ev h n m (an_hasb L) vs).
Notation Lw vs := (fun idx => aweight h n m (Lk vs) (Lq vs) (zn idx 0) (zn idx 1) (zn idx 2) (zn idx 3)).
Notation LF vs := (att_F e ek ev h n nh m (an_hasb L) vs).

Lemma st_tmp2 M G s i j u v : has (upd (Tmp id i) u (upd (Tmp id j) v (ov G M))) s -> st (upd (Tmp id i) u (upd (Tmp id j) v M)) G s.
Proof.
  intros H. eapply has_sub; [exact H|]. intros x f _. destruct x as [a|a|k l]; cbn [Tape.ov].
  - rewrite !upd_ne by discriminate. auto.
  - rewrite !upd_ne by discriminate. auto.
  - unfold upd. destruct (gvar_dec (Tmp k l) (Tmp id i)); [auto|]. destruct (gvar_dec (Tmp k l) (Tmp id j)); auto.
Qed.
Lemma oval_q vs : oval (an_bq L) (vs 7%nat) = option_map vs (ob (an_hasb L) 7).
Proof. unfold an_bq, an_hasb, ob. destruct (an_bias L) as [[[[? ?] ?] ?]|]; reflexivity. Qed.
Lemma oval_k vs : oval (an_bk L) (vs 8%nat) = option_map vs (ob (an_hasb L) 8).
Proof. unfold an_bk, an_hasb, ob. destruct (an_bias L) as [[[[? ?] ?] ?]|]; reflexivity. Qed.
Lemma oval_v vs : oval (an_bv L) (vs 9%nat) = option_map vs (ob (an_hasb L) 9).
Proof. unfold an_bv, an_hasb, ob. destruct (an_bias L) as [[[[? ?] ?] ?]|]; reflexivity. Qed.
Lemma att_arity : arity (ly_m py) = att_n (an_hasb L).
Proof. unfold arity, an_hasb, att_n. cbn [ly_m attn_layer ml_ins]. unfold an_ins. destruct (an_bias L) as [[[[? ?] ?] ?]|]; reflexivity. Qed.
Lemma att_in vs M : inputs (ly_m py) vs M ->
  M (Val (an_xq L)) = Some (fin (vs 0%nat)) /\ M (Val (an_xk L)) = Some (fin (vs 1%nat)) /\ M (Val (an_xv L)) = Some (fin (vs 2%nat)) /\
  M (Val (an_wq L)) = Some (fin (vs 3%nat)) /\ M (Val (an_wk L)) = Some (fin (vs 4%nat)) /\ M (Val (an_wv L)) = Some (fin (vs 5%nat)) /\
  M (Val (an_w L)) = Some (fin (vs 6%nat)) /\
  (forall b, an_bq L = Some b -> M (Val b) = Some (fin (vs 7%nat))) /\ (forall b, an_bk L = Some b -> M (Val b) = Some (fin (vs 8%nat))) /\
  (forall b, an_bv L = Some b -> M (Val b) = Some (fin (vs 9%nat))) /\ (forall b, an_bo L = Some b -> M (Val b) = Some (fin (vs 10%nat))).
Proof.
  intros H. unfold inputs, arity, inp in H. cbn [ly_m attn_layer ml_ins] in H. unfold an_ins in H. unfold an_bq, an_bk, an_bv, an_bo.
  assert (H7 : forall j, (j < 7)%nat -> M (Val (nth j [an_xq L; an_xk L; an_xv L; an_wq L; an_wk L; an_wv L; an_w L] 0%nat)) = Some (fin (vs j))).
  { intros j Hj. specialize (H j). rewrite app_length in H. rewrite app_nth1 in H by (cbn; lia). apply H. cbn [List.length]. lia. }
  split; [exact (H7 0%nat ltac:(lia))|]. split; [exact (H7 1%nat ltac:(lia))|]. split; [exact (H7 2%nat ltac:(lia))|]. split; [exact (H7 3%nat ltac:(lia))|].
  split; [exact (H7 4%nat ltac:(lia))|]. split; [exact (H7 5%nat ltac:(lia))|]. split; [exact (H7 6%nat ltac:(lia))|]. clear H7.
  destruct (an_bias L) as [[[[bq bk] bv] bo]|]; cbn [option_map fst snd app List.length] in *.
  - split; [intros b Hb; inversion Hb; subst; exact (H 7%nat ltac:(lia))|]. split; [intros b Hb; inversion Hb; subst; exact (H 8%nat ltac:(lia))|].
    split; [intros b Hb; inversion Hb; subst; exact (H 9%nat ltac:(lia))|intros b Hb; inversion Hb; subst; exact (H 10%nat ltac:(lia))].
  - split; [|split; [|split]]; intros; discriminate.
Qed.
Lemma att_not_out : an_xq L <> an_y L /\ an_xk L <> an_y L /\ an_xv L <> an_y L /\ an_wq L <> an_y L /\ an_wk L <> an_y L /\ an_wv L <> an_y L /\ an_w L <> an_y L /\
  (forall b, an_bq L = Some b \/ an_bk L = Some b \/ an_bv L = Some b \/ an_bo L = Some b -> b <> an_y L).
Proof.
  assert (H := ao_out _ _ _ _ OK). unfold an_ins in H. unfold an_bq, an_bk, an_bv, an_bo. rewrite in_app_iff in H. cbn [In] in H.
  split; [intros C; rewrite C in H; tauto|]. split; [intros C; rewrite C in H; tauto|]. split; [intros C; rewrite C in H; tauto|]. split; [intros C; rewrite C in H; tauto|].
  split; [intros C; rewrite C in H; tauto|]. split; [intros C; rewrite C in H; tauto|]. split; [intros C; rewrite C in H; tauto|].
  destruct (an_bias L) as [[[[bq bk] bv] bo]|]; cbn [option_map fst snd In] in *.
  - intros b Hb C. subst b. destruct Hb as [Hb|[Hb|[Hb|Hb]]]; inversion Hb as [Hc]; rewrite Hc in H; tauto.
  - intros b Hb. destruct Hb as [Hb|[Hb|[Hb|Hb]]]; discriminate.
Qed.

Lemma attn_fwd_ok : fwd_ok req py.
Proof.
  intros vs M G s Hs _ Hin. apply att_in in Hin as (I0 & I1 & I2 & I3 & I4 & I5 & I6 & I7 & I8 & I9 & I10).
  destruct att_not_out as (N0 & N1 & N2 & N3 & N4 & N5 & N6 & Nb).
  destruct att_pos as (Pe & Pek & Pev & Ph & Pn & Pb & Pnh).
  assert (Hh : 0 < IZR h) by (apply (IZR_lt 0); assumption). assert (Hsq : 0 < sqrt (IZR h)) by (apply sqrt_lt_R0; assumption).
  cbn [ly_py pl_forward attn_layer ly_m ml_out ml_F ly_saved ly_id]. unfold att_fwd, attention_forward. rewrite att_scale_val.
  destruct (isn_val _ _ _ (ao_y _ _ _ _ OK)) as (Uy & Sy & By). destruct (isn_val _ _ _ (ao_w _ _ _ _ OK)) as (Uw & Sw & Bw).
  assert (T9 := ao_t _ _ _ _ OK 9%nat ltac:(cbn; tauto)). destruct T9 as (U9 & S9 & B9).
  assert (T1 := ao_q _ _ _ _ OK 1%nat ltac:(cbn; tauto)). assert (T3 := ao_q _ _ _ _ OK 3%nat ltac:(cbn; tauto)). assert (T5 := ao_q _ _ _ _ OK 5%nat ltac:(cbn; tauto)).
  assert (T8 := ao_q _ _ _ _ OK 8%nat ltac:(cbn; tauto)). destruct T8 as (U8 & S8 & B8).
  destruct (ao_a _ _ _ _ OK 6%nat ltac:(cbn; tauto)) as (U6 & S6 & B6). destruct (ao_ms _ _ _ _ OK) as (U7 & S7 & B7).
  set (M1 := upd (Tmp id 1) (Some (fin (Lq vs))) (upd (Tmp id 0) None M)).
  set (M2 := upd (Tmp id 3) (Some (fin (Lk vs))) (upd (Tmp id 2) None M1)).
  set (M3 := upd (Tmp id 5) (Some (fin (Lv vs))) (upd (Tmp id 4) None M2)).
  eapply (py_cons _ _ _ (st M1 G)).
  { unfold M1, att_q. rewrite <- oval_q.
    eapply (proj_fwd (an_xq L) (an_wq L) (an_bq L) id 0 1 M G s e h n nb nh (d_e B) bh bn bb bnh); try assumption.
    - apply (ao_xq _ _ _ _ OK). - apply (ao_wq _ _ _ _ OK). - apply (ao_t _ _ _ _ OK). cbn; tauto. - lia.
    - intros b Hb. split; [apply (ao_bq _ _ _ _ OK); assumption|auto]. }
  intros s1 H1. eapply (py_cons _ _ _ (st M2 G)).
  { unfold M2, att_k. rewrite <- oval_k.
    eapply (proj_fwd (an_xk L) (an_wk L) (an_bk L) id 2 3 M1 G s1 ek h n nb nh (d_ek B) bh bn bb bnh); try assumption.
    - apply (ao_xk _ _ _ _ OK). - apply (ao_wk _ _ _ _ OK). - apply (ao_t _ _ _ _ OK). cbn; tauto. - lia.
    - intros b Hb. split; [apply (ao_bk _ _ _ _ OK); assumption|]. unfold M1. rewrite !upd_ne by congruence. auto. }
  intros s2 H2. eapply (py_cons _ _ _ (st M3 G)).
  { unfold M3, att_v. rewrite <- oval_v.
    eapply (proj_fwd (an_xv L) (an_wv L) (an_bv L) id 4 5 M2 G s2 ev h n nb nh (d_ev B) bh bn bb bnh); try assumption.
    - apply (ao_xv _ _ _ _ OK). - apply (ao_wv _ _ _ _ OK). - apply (ao_t _ _ _ _ OK). cbn; tauto. - lia.
    - intros b Hb. split; [apply (ao_bv _ _ _ _ OK); assumption|]. unfold M2, M1. rewrite !upd_ne by congruence. auto. }
  intros s3 H3. cbn [tm node m_val].
  change (@o_one XR _) with (Fin 1). change (@o_zero XR _) with (Fin 0).
  set (q := Lq vs) in *. set (k := Lk vs) in *. set (v := Lv vs) in *.
  assert (Q1 : M3 (Tmp id 1) = Some (fin q)) by (unfold M3, M2, M1; rewrite !upd_ne by congruence; apply upd_eq).
  assert (Q3 : M3 (Tmp id 3) = Some (fin k)) by (unfold M3, M2; rewrite !upd_ne by congruence; apply upd_eq).
  assert (Q5 : M3 (Tmp id 5) = Some (fin v)) by (unfold M3; apply upd_eq).
  destruct T1 as (U1 & S1 & B1). destruct T3 as (U3 & S3 & B3). destruct T5 as (U5 & S5 & B5).
  set (fs := fun idx : list Z => ascore h k q (zn idx 0) (zn idx 1) (zn idx 2) (zn idx 3)).
  eapply py_tmp; [apply (h_gemm (1 / sqrt (IZR h)) 0 Trans NoTrans (ov G M3) s3 (Tmp id 3) (Tmp id 1) (Tmp id 6) 1 2 k q (fun _ => 0) fs [n] [h] [n] [nb; nh] [bn] [bh] [bn] [bb; bnh])|];
    try assumption; try congruence; try reflexivity; try (left; reflexivity).
  { intros mi ni bi Hm Hn' Hb'. apply inb1_inv in Hm as (j & -> & _). apply inb1_inv in Hn' as (i & -> & _). apply inb2_inv in Hb' as (x & y & -> & _).
    rewrite sum1 by assumption. unfold fs, ascore. cbn [app op_dims]. change (zn [j; i; x; y] 0) with j. change (zn [j; i; x; y] 1) with i. change (zn [j; i; x; y] 2) with x. change (zn [j; i; x; y] 3) with y.
    field. lra. }
  intros s4 H4. set (M4 := upd (Tmp id 6) (Some (fin fs)) M3) in *.
  eapply py_tmp; [apply (h_clear _ s4 (Tmp id 7) (fun _ => 0) H4 U7); reflexivity|].
  intros s5 H5. set (M5 := upd (Tmp id 7) (Some (fin (fun _ => 0))) M4) in *.
  set (xs := fun idx : list Z => if m [zn idx 0; zn idx 1] then Fin (fs idx) else NInf).
  set (M6 := upd (Tmp id 6) (Some xs) M5).
  assert (K2 : forall l Q, (forall s6, st M6 G s6 -> runs_nd (pyseq l) s6 Q) ->
    runs_nd (pyseq (py_opt (an_mask L) (fun mask => mask_scalar_async mask NInf (A (Tmp id 6)) 2) :: l)) s5 Q).
  { intros l Q HQ. assert (Hm := ao_mask _ _ _ _ OK). destruct (an_mask L) as [mt|]; cbn [py_opt].
    - destruct Hm as (W & Sm & Bm & D1 & _ & HK). destruct (HK s5 (has_K _ _ H5)) as [SK VK].
      eapply py_tmp; [apply (h_mask mt m NInf 2 _ s5 (Tmp id 6) fs xs W D1 SK VK)|exact HQ]; try assumption.
      + unfold mask_match. rewrite S6, B6, Sm, Bm. split; [unfold zlen; cbn; lia|]. split; reflexivity.
      + cbn [Tape.ov]. unfold M5. rewrite upd_ne by congruence. apply upd_eq.
      + intros idx Hi. rewrite S6 in *. apply inb4_inv in Hi as (j & i & x & y & -> & _). reflexivity.
    - apply py_skip. apply HQ. eapply has_sub; [exact H5|]. intros [a|a|kk l'] f _; cbn [Tape.ov]; auto.
      unfold M6. unfold upd at 1. destruct (gvar_dec (Tmp kk l') (Tmp id 6)) as [Ek|]; [|auto]. intros Ef. inversion Ef; subst f.
      rewrite Ek. unfold M5, M4. rewrite upd_ne by congruence. rewrite upd_eq. f_equal. apply functional_extensionality. intros idx. unfold xs. rewrite Hm. reflexivity. }
  apply K2. clear K2. intros s6 H6.
  set (wt := Lw vs). fold q k in wt.
  set (M7 := upd (Tmp id 6) (Some (fin wt)) (upd (Tmp id 7) None M6)).
  rewrite pyseq_cons, (pyseq_cons (softmax_inplace_async _ _ _ _)), <- then_assoc.
  eapply nd_then.
  { apply (h_softmax 0 (ov G M6) s6 (Tmp id 7) (Tmp id 6) xs (fin wt) H6 U7 U6).
    - congruence.
    - unfold pair_match. rewrite S6, B6, S7, B7. split; [unfold zlen; cbn; lia|]. split; reflexivity.
    - cbn [Tape.ov]. unfold M6. rewrite upd_ne by congruence. apply upd_eq.
    - apply upd_eq.
    - intros idx _. unfold xs. destruct (m _); exact I.
    - intros idx Hi. rewrite S6 in *. apply inb4_inv in Hi as (j & i & x & y & -> & Hj & Hi & Hx & Hy).
      change (zn (sa4 S) 0) with n. unfold fin, wt. change (zn [j; i; x; y] 0) with j. change (zn [j; i; x; y] 1) with i. change (zn [j; i; x; y] 2) with x. change (zn [j; i; x; y] 3) with y.
      assert (Ex : xs [j; i; x; y] = if m [j; i] then Fin (ascore h k q j i x y) else NInf) by reflexivity. rewrite Ex. clear Ex.
      unfold softmax_val, aweight. destruct (m [j; i]); [|reflexivity]. f_equal. rewrite Rmult_1_l.
      f_equal. unfold sumexp, adenom. rewrite Rsuml_map. apply Rsum_ext. intros j' _. change (ins 0 j' (del 0 [j; i; x; y])) with [j'; i; x; y].
      unfold xs. change (zn [j'; i; x; y] 0) with j'. change (zn [j'; i; x; y] 1) with i. destruct (m [j'; i]); cbn [expm]; [|reflexivity].
      rewrite Rminus_0_r. reflexivity. }
  intros s7 _ H7. apply st_tmp2 in H7. fold M7 in H7. fold (@pyseq XR).
  set (b := Lb vs).
  eapply py_tmp; [apply (h_gemm 1 0 NoTrans NoTrans (ov G M7) s7 (Tmp id 5) (Tmp id 6) (Tmp id 8) 1 2 v wt (fun _ => 0) b [h] [n] [n] [nb; nh] [bh] [bn] [bn] [bb; bnh])|];
    try assumption; try congruence; try reflexivity; try (left; reflexivity).
  { cbn [Tape.ov]. unfold M7, M6, M5, M4. rewrite !upd_ne by congruence. exact Q5. }
  { apply upd_eq. }
  { intros mi ni bi Hm Hn' Hb'. apply inb1_inv in Hm as (d & -> & _). apply inb1_inv in Hn' as (i & -> & _). apply inb2_inv in Hb' as (x & y & -> & _).
    rewrite sum1 by assumption. unfold b, att_b, sdpa, attention, wt. cbn [app op_dims]. change (zn [d; i; x; y] 0) with d. change (zn [d; i; x; y] 1) with i. change (zn [d; i; x; y] 2) with x. change (zn [d; i; x; y] 3) with y.
    fold q k v. rewrite Rmult_0_l, Rplus_0_l, Rmult_1_l. reflexivity. }
  intros s8 H8. set (bt := fun idx : list Z => b [zn idx 1; zn idx 2; zn idx 3; zn idx 0]).
  eapply py_tmp; [apply (h_transpose _ s8 (Tmp id 8) (Tmp id 9) 3 b bt H8 U8 U9)|].
  { congruence. } { unfold transpose_match. rewrite S8, B8, S9, B9. split; [unfold zlen; cbn; lia|]. split; reflexivity. }
  { apply upd_eq. } { intros idx Hi. rewrite S8 in Hi. apply inb4_inv in Hi as (d & i & x & y & -> & _). reflexivity. }
  intros s9 H9. set (y0 := outp h nh false b (vs 6%nat) (fun _ => 0)).
  match type of H9 with Tape.st _ ?MM _ _ => set (M9 := MM) in * end.
  assert (Hk9 : forall x : nat, M9 (Val x) = M (Val x)) by (intros; unfold M9, M7, M6, M5, M4, M3, M2, M1; rewrite !upd_ne by congruence; reflexivity).
  assert (Hk9' : forall kk i, kk <> id -> M9 (Tmp kk i) = M (Tmp kk i)) by (intros; unfold M9, M7, M6, M5, M4, M3, M2, M1; rewrite !upd_ne by congruence; reflexivity).
  eapply py_val; [apply (h_gemm 1 0 NoTrans NoTrans (ov G M9) s9 (Val (an_w L)) (Tmp id 9) (Val (an_y L)) 2 0 (vs 6%nat) bt (fun _ => 0) y0 [e] [nh; h] [n; nb] [] [d_e B] [bnh; bh] [bn; bb] [])|];
    try assumption; try congruence; try reflexivity; try (left; reflexivity).
  { apply upd_eq. }
  { intros mi ni bi Hm Hn' Hb'. apply inb1_inv in Hm as (o & -> & _). apply inb2_inv in Hn' as (i & x & -> & _). apply inb_nil in Hb' as ->.
    rewrite sum2 by assumption. unfold y0, outp, bt. cbn [app op_dims]. change (zn [o; i; x] 0) with o. change (zn [o; i; x] 1) with i. change (zn [o; i; x] 2) with x.
    rewrite Rmult_0_l, Rplus_0_l, Rplus_0_r, Rmult_1_l. rewrite Rsum_swap. reflexivity. }
  intros s10 H10. set (M10 := upd (Val (an_y L)) (Some (fin y0)) M9) in *.
  assert (Fin_ : forall s' M', st M' G s' -> M' (Val (an_y L)) = Some (fin (LF vs)) -> (forall x, x <> Val (an_y L) -> M' x = M9 x) ->
    exists M', st M' G s' /\ M' (Val (an_y L)) = Some (fin (LF vs)) /\
    (M' (Tmp id 1) = Some (fin q) /\ M' (Tmp id 3) = Some (fin k) /\ M' (Tmp id 5) = Some (fin v) /\ M' (Tmp id 6) = Some (fin wt) /\ M' (Tmp id 9) = Some (fin bt)) /\
    (forall x, x <> an_y L -> M' (Val x) = M (Val x)) /\ (forall kk i, kk <> id -> M' (Tmp kk i) = M (Tmp kk i))).
  { intros s' M' H' Hy Hx. exists M'. split; [assumption|]. split; [assumption|]. split; [|split].
    - rewrite !Hx by congruence. unfold M9, M7, M6, M5, M4. split; [rewrite !upd_ne by congruence; exact Q1|]. split; [rewrite !upd_ne by congruence; exact Q3|].
      split; [rewrite !upd_ne by congruence; exact Q5|]. split; [rewrite !(upd_ne _ (Tmp id 9)), !(upd_ne _ (Tmp id 8)) by congruence; apply upd_eq|apply upd_eq].
    - intros x Hx'. rewrite Hx by congruence. apply Hk9.
    - intros kk i Hk'. rewrite Hx by congruence. apply Hk9'. assumption. }
  destruct (an_bo L) as [bo|] eqn:Ebo; cbn [option_map py_opt node m_val].
  - assert (Hbo := ao_bo _ _ _ _ OK bo Ebo). destruct (isn_val _ _ _ Hbo) as (Ubo & Sbo & Bbo).
    assert (bo <> an_y L) by (apply Nb; tauto).
    eapply py_val; [apply (h_add_fiber 1 1 _ s10 (Val bo) (Val (an_y L)) 0 0 (vs 10%nat) y0 (LF vs) ltac:(lra) H10 Ubo Uy)|].
    { congruence. } { unfold fiber_match. rewrite Sy, By, Sbo, Bbo. split; [lia|]. split; [unfold zlen; cbn; lia|]. split; reflexivity. }
    { cbn [Tape.ov]. unfold M10. rewrite upd_ne by congruence. rewrite Hk9. apply I10. reflexivity. } { apply upd_eq. }
    { intros idx Hi. rewrite Sy in Hi. apply inb3_inv in Hi as (o & i & x & -> & _). unfold att_F, y0, outp. fold b. change (fib 0 0 [o; i; x]) with [o].
      change (zn [o; i; x] 0) with o. unfold an_bo in Ebo. unfold an_hasb. destruct (an_bias L); [ring|discriminate]. }
    intros s11 H11. apply py_nil. eapply Fin_; [exact H11|apply upd_eq|]. intros x Hx. unfold M10. rewrite !upd_ne by congruence. reflexivity.
  - apply py_skip, py_nil. eapply Fin_; [exact H10| |intros x Hx; unfold M10; rewrite upd_ne by congruence; reflexivity].
    unfold M10. rewrite upd_eq. f_equal. f_equal. unfold att_F, y0. fold b. unfold an_bo in Ebo. unfold an_hasb. destruct (an_bias L); [discriminate|reflexivity].
Qed.

Lemma attn_bwd_ok : bwd_ok req py.
Proof.
  intros vs M G s Hs _ Hin Hsv. apply att_in in Hin as (I0 & I1 & I2 & I3 & I4 & I5 & I6 & I7 & I8 & I9 & I10).
  destruct att_not_out as (N0 & N1 & N2 & N3 & N4 & N5 & N6 & Nb).
  destruct att_pos as (Pe & Pek & Pev & Ph & Pn & Pb & Pnh).
  assert (Hh : 0 < IZR h) by (apply (IZR_lt 0); assumption). assert (Hsq : 0 < sqrt (IZR h)) by (apply sqrt_lt_R0; assumption).
  cbn [ly_py pl_backward attn_layer ly_m ml_out ml_F ly_saved ly_id] in *. destruct Hsv as (Q1 & Q3 & Q5 & Q6 & Q9).
  unfold att_bwd, attention_backward. rewrite att_scale_val.
  assert (Ry := ao_ry _ _ _ _ OK). destruct (isn_grad _ _ _ (ao_y _ _ _ _ OK) Ry) as (Uy & Sy & By). destruct (isn_val _ _ _ (ao_w _ _ _ _ OK)) as (Uw & Sw & Bw).
  destruct (ao_t _ _ _ _ OK 9%nat ltac:(cbn; tauto)) as (U9 & S9 & B9). destruct (ao_t _ _ _ _ OK 19%nat ltac:(cbn; tauto)) as (U19 & S19 & B19).
  destruct (ao_q _ _ _ _ OK 1%nat ltac:(cbn; tauto)) as (U1 & S1 & B1). destruct (ao_q _ _ _ _ OK 3%nat ltac:(cbn; tauto)) as (U3 & S3 & B3).
  destruct (ao_q _ _ _ _ OK 5%nat ltac:(cbn; tauto)) as (U5 & S5 & B5). destruct (ao_q _ _ _ _ OK 18%nat ltac:(cbn; tauto)) as (U18 & S18 & B18).
  assert (T11 := ao_q _ _ _ _ OK 11%nat ltac:(cbn; tauto)). assert (T13 := ao_q _ _ _ _ OK 13%nat ltac:(cbn; tauto)). assert (T15 := ao_q _ _ _ _ OK 15%nat ltac:(cbn; tauto)).
  destruct (ao_a _ _ _ _ OK 6%nat ltac:(cbn; tauto)) as (U6 & S6 & B6). destruct (ao_a _ _ _ _ OK 16%nat ltac:(cbn; tauto)) as (U16 & S16 & B16).
  destruct (ao_sp _ _ _ _ OK) as (U17 & S17 & B17).
  cbn [tm node m_val m_grad m_req]. change (10 + 0)%nat with 10%nat. change (10 + 1)%nat with 11%nat. change (10 + 2)%nat with 12%nat. change (10 + 3)%nat with 13%nat. change (10 + 4)%nat with 14%nat. change (10 + 5)%nat with 15%nat. change (10 + 6)%nat with 16%nat. change (10 + 8)%nat with 18%nat. change (10 + 9)%nat with 19%nat.
  change (@minus1 XR _) with (Fin (- (1))). change (@o_one XR _) with (Fin 1). change (@o_zero XR _) with (Fin 0).
  set (q := Lq vs) in *. set (k := Lk vs) in *. set (v := Lv vs) in *. set (b := Lb vs) in *. set (gy := G (an_y L)).
  set (wt := fun idx : list Z => aweight h n m k q (zn idx 0) (zn idx 1) (zn idx 2) (zn idx 3)) in *.
  set (bt := fun idx : list Z => b [zn idx 1; zn idx 2; zn idx 3; zn idx 0]) in *.
  set (gb := outp_db e (vs 6%nat) gy).
  set (Gq := att_g e ek ev h n m (an_hasb L) vs gy).
  (* output bias *)
  set (G1 := addgo (an_bo L) (outp_dbo n nb gy) G).
  assert (K1 : forall l Q, (forall s1, st M G1 s1 -> runs_nd (pyseq l) s1 Q) ->
    runs_nd (pyseq (py_opt (option_map node (an_bo L)) (fun b0 => py_if (m_req b0) (sum_fiber_async (Fin 1) (A (Grad (an_y L))) (Fin 1) (m_grad b0) 0 0 false)) :: l)) s Q).
  { intros l Q HQ. unfold G1 in HQ. destruct (an_bo L) as [bo|] eqn:Ebo; cbn [option_map py_opt addgo node m_req m_grad] in *.
    - assert (Hbo := ao_bo _ _ _ _ OK bo Ebo). assert (bo <> an_y L) by (apply Nb; tauto).
      eapply py_grad; [exact Hs| |exact HQ]. intros Rb. destruct (isn_grad _ _ _ Hbo Rb) as (Ub & Sb & Bb).
      apply (h_sum_fiber 1 1 (ov G M) s (Grad (an_y L)) (Grad bo) 0 0 gy (G bo)); try assumption.
      + congruence. + unfold fiber_match. rewrite Sy, By, Sb, Bb. split; [lia|]. split; [unfold zlen; cbn; lia|]. split; reflexivity.
      + apply ov_grad; assumption. + apply ov_grad; assumption.
      + intros d Hd. rewrite Sb in Hd. apply inb1_inv in Hd as (o & -> & Ho). unfold sx in Sy. rewrite Sy, fiber_first by assumption. ring.
    - apply py_skip. apply HQ. exact Hs. }
  apply K1. clear K1. intros s1 H1.
  assert (Gy1 : G1 (an_y L) = gy).
  { unfold G1. destruct (an_bo L) as [bo|] eqn:Ebo; cbn [addgo]; [|reflexivity]. apply addg_ne. apply Nb. tauto. }
  (* output weight *)
  set (G2 := addg (an_w L) (outp_dw n nb b gy) G1).
  eapply (py_grad req M G1 s1 (an_w L) (outp_dw n nb b gy)); [exact H1| |].
  { intros Rw. destruct (isn_grad _ _ _ (ao_w _ _ _ _ OK) Rw) as (Ugw & Sgw & Bgw).
    apply (h_gemm 1 1 NoTrans Trans (ov G1 M) s1 (Grad (an_y L)) (Tmp id 9) (Grad (an_w L)) 2 0 gy bt (G1 (an_w L)) _ [e] [n; nb] [nh; h] [] [d_e B] [bn; bb] [bnh; bh] []);
      try assumption; try congruence; try reflexivity.
    - rewrite ov_grad by assumption. rewrite Gy1. reflexivity. - right. apply ov_grad. assumption.
    - intros mi ni bi Hm Hn' Hb'. apply inb1_inv in Hm as (o & -> & _). apply inb2_inv in Hn' as (y & d & -> & _). apply inb_nil in Hb' as ->.
      rewrite sum2 by assumption. unfold outp_dw, bt. cbn [app op_dims]. change (zn [o; y; d] 0) with o. change (zn [o; y; d] 1) with y. change (zn [o; y; d] 2) with d.
      rewrite !Rmult_1_l. reflexivity. }
  intros s2 H2. fold G2 in H2. assert (Gy2 : G2 (an_y L) = gy) by (unfold G2; rewrite addg_ne; assumption).
  unfold py_if at 1.
  set (gbt := fun idx : list Z => gb [zn idx 1; zn idx 2; zn idx 3; zn idx 0]).
  eapply py_tmp; [apply (h_gemm 1 0 Trans NoTrans (ov G2 M) s2 (Val (an_w L)) (Grad (an_y L)) (Tmp id 19) 1 0 (vs 6%nat) gy (fun _ => 0) gbt [nh; h] [e] [n; nb] [] [bnh; bh] [d_e B] [bn; bb] [])|];
    try assumption; try congruence; try reflexivity; try (left; reflexivity).
  { rewrite ov_grad by assumption. rewrite Gy2. reflexivity. }
  { intros mi ni bi Hm Hn' Hb'. apply inb2_inv in Hm as (y & d & -> & _). apply inb2_inv in Hn' as (i & x & -> & _). apply inb_nil in Hb' as ->.
    rewrite sum1 by assumption. unfold gbt, gb, outp_db. cbn [app op_dims]. change (zn [y; d; i; x] 0) with y. change (zn [y; d; i; x] 1) with d. change (zn [y; d; i; x] 2) with i. change (zn [y; d; i; x] 3) with x.
    change (zn [d; i; x; y] 0) with d. change (zn [d; i; x; y] 1) with i. change (zn [d; i; x; y] 2) with x. change (zn [d; i; x; y] 3) with y.
    rewrite Rmult_0_l, Rplus_0_l, Rmult_1_l. reflexivity. }
  intros s3 H3. unfold py_if at 1.
  eapply py_tmp; [apply (h_transpose _ s3 (Tmp id 19) (Tmp id 18) 1 gbt gb H3 U19 U18)|].
  { congruence. } { unfold transpose_match. rewrite S18, B18, S19, B19. split; [unfold zlen; cbn; lia|]. split; reflexivity. }
  { apply upd_eq. } { intros idx Hi. rewrite S19 in Hi. apply inb4_inv in Hi as (y & d & i & x & -> & _). reflexivity. }
  intros s4 H4. set (M4 := upd (Tmp id 18) (Some (fin gb)) (upd (Tmp id 19) (Some (fin gbt)) M)) in *. unfold py_if at 1.
  set (dp := fun idx : list Z => a_dp h v gb (zn idx 0) (zn idx 1) (zn idx 2) (zn idx 3)).
  eapply py_tmp; [apply (h_gemm 1 0 Trans NoTrans (ov G2 M4) s4 (Tmp id 5) (Tmp id 18) (Tmp id 16) 1 2 v gb (fun _ => 0) dp [n] [h] [n] [nb; nh] [bn] [bh] [bn] [bb; bnh])|];
    try assumption; try congruence; try reflexivity; try (left; reflexivity).
  { cbn [Tape.ov]. unfold M4. rewrite !upd_ne by congruence. exact Q5. } { apply upd_eq. }
  { intros mi ni bi Hm Hn' Hb'. apply inb1_inv in Hm as (j & -> & _). apply inb1_inv in Hn' as (i & -> & _). apply inb2_inv in Hb' as (x & y & -> & _).
    rewrite sum1 by assumption. unfold dp, a_dp. cbn [app op_dims]. change (zn [j; i; x; y] 0) with j. change (zn [j; i; x; y] 1) with i. change (zn [j; i; x; y] 2) with x. change (zn [j; i; x; y] 3) with y.
    rewrite Rmult_0_l, Rplus_0_l, Rmult_1_l. reflexivity. }
  intros s5 H5. set (M5 := upd (Tmp id 16) (Some (fin dp)) M4) in *. unfold py_if at 1.
  destruct T15 as (U15 & S15 & B15).
  eapply py_tmp; [apply (h_gemm 1 0 NoTrans Trans (ov G2 M5) s5 (Tmp id 18) (Tmp id 6) (Tmp id 15) 1 2 gb wt (fun _ => 0) (Gq 2%nat) [h] [n] [n] [nb; nh] [bh] [bn] [bn] [bb; bnh])|];
    try assumption; try congruence; try reflexivity; try (left; reflexivity).
  { cbn [Tape.ov]. unfold M5, M4. rewrite !(upd_ne _ (Tmp id 16)) by congruence. apply upd_eq. }
  { cbn [Tape.ov]. unfold M5, M4. rewrite !upd_ne by congruence. exact Q6. }
  { intros mi ni bi Hm Hn' Hb'. apply inb1_inv in Hm as (d & -> & _). apply inb1_inv in Hn' as (j & -> & _). apply inb2_inv in Hb' as (x & y & -> & _).
    rewrite sum1 by assumption. unfold Gq, att_g, sdpa_dl, a_dv, wt. cbn [app op_dims]. change (zn [d; j; x; y] 0) with d. change (zn [d; j; x; y] 1) with j. change (zn [d; j; x; y] 2) with x. change (zn [d; j; x; y] 3) with y.
    fold q k v gb. rewrite Rmult_0_l, Rplus_0_l, Rmult_1_l. reflexivity. }
  intros s6 H6. set (M6 := upd (Tmp id 15) (Some (fin (Gq 2%nat))) M5) in *. unfold py_if at 1.
  (* soft-max *)
  set (sm := fun idx : list Z => a_sum h n m k q v gb (zn idx 0) (zn idx 1) (zn idx 2)).
  set (ds := fun idx : list Z => a_ds h n m k q v gb (zn idx 0) (zn idx 1) (zn idx 2) (zn idx 3)).
  set (M9 := upd (Tmp id 16) (Some (fin ds)) (upd (Tmp id 17) None M6)).
  eapply (py_cons _ _ _ (st M9 G2)).
  { eapply py_tmp; [apply (h_sumprod_slice 1 0 _ s6 (Tmp id 6) (Tmp id 16) (Tmp id 17) 0 wt dp (fun _ => 0) sm H6 U6 U16 U17)|].
    { congruence. } { congruence. } { unfold slice_match. rewrite S6, B6, S17, B17. split; [unfold zlen; cbn; lia|]. split; reflexivity. }
    { split; congruence. } { cbn [Tape.ov]. unfold M6, M5, M4. rewrite !upd_ne by congruence. exact Q6. } { cbn [Tape.ov]. unfold M6, M5. rewrite upd_ne by congruence. apply upd_eq. } { left; reflexivity. }
    { intros idx Hi. rewrite S17 in Hi. apply inb3_inv in Hi as (i & x & y & -> & _). rewrite S6. unfold sm, a_sum. change (zn (sa4 S) 0) with n.
      change (zn [i; x; y] 0) with i. change (zn [i; x; y] 1) with x. change (zn [i; x; y] 2) with y. rewrite Rmult_0_l, Rplus_0_l, Rmult_1_l.
      apply Rsum_ext. intros j _. change (ins 0 j [i; x; y]) with [j; i; x; y]. unfold wt, dp. change (zn [j; i; x; y] 0) with j. change (zn [j; i; x; y] 1) with i. change (zn [j; i; x; y] 2) with x. change (zn [j; i; x; y] 3) with y. ring. }
    intros s7 H7. set (df := fun idx : list Z => dp idx - sm (del 0 idx)).
    eapply py_tmp; [apply (h_add_slice (- (1)) 1 _ s7 (Tmp id 17) (Tmp id 16) 0 sm dp df H7 U17 U16)|].
    { congruence. } { unfold slice_match. rewrite S16, B16, S17, B17. split; [unfold zlen; cbn; lia|]. split; reflexivity. }
    { apply upd_eq. } { cbn [Tape.ov]. unfold M6, M5. rewrite !(upd_ne _ (Tmp id 17)), !(upd_ne _ (Tmp id 15)) by congruence. apply upd_eq. } { intros idx _. unfold df. ring. }
    intros s8 H8. eapply py_tmp; [apply (h_prod _ s8 (Tmp id 6) (Tmp id 16) wt df ds H8 U6 U16)|].
    { congruence. } { split; congruence. } { cbn [Tape.ov]. unfold M6, M5, M4. rewrite !upd_ne by congruence. exact Q6. } { apply upd_eq. }
    { intros idx Hi. rewrite S16 in Hi. apply inb4_inv in Hi as (j & i & x & y & -> & _). unfold df, ds, wt, dp, sm, a_ds. change (del 0 [j; i; x; y]) with [i; x; y].
      change (zn [j; i; x; y] 0) with j. change (zn [j; i; x; y] 1) with i. change (zn [j; i; x; y] 2) with x. change (zn [j; i; x; y] 3) with y.
      change (zn [i; x; y] 0) with i. change (zn [i; x; y] 1) with x. change (zn [i; x; y] 2) with y. ring. }
    intros s9 H9. apply py_nil. eapply has_sub; [exact H9|]. intros [a|a|kk l'] f _; cbn [Tape.ov]; auto.
    unfold M9, upd. destruct (gvar_dec (Tmp kk l') (Tmp id 16)); [auto|]. destruct (gvar_dec (Tmp kk l') (Tmp id 17)); [intros C; discriminate C|auto]. }
  intros s9 H9.
  assert (K2 : forall l Q, (forall s6, st M9 G2 s6 -> runs_nd (pyseq l) s6 Q) ->
    runs_nd (pyseq (py_opt (an_mask L) (fun mask => mask_scalar_async mask (Fin 0) (A (Tmp id 16)) 2) :: l)) s9 Q).
  { intros l Q HQ. assert (Hm := ao_mask _ _ _ _ OK). destruct (an_mask L) as [mt|]; cbn [py_opt].
    - destruct Hm as (W & Sm & Bm & _ & D1 & HK). destruct (HK s9 (has_K _ _ H9)) as [SK VK].
      eapply py_tmp; [apply (h_mask mt m (Fin 0) 2 (ov G2 M9) s9 (Tmp id 16) ds (fin ds) W D1 SK VK)|]; try assumption.
      + unfold mask_match. rewrite S16, B16, Sm, Bm. split; [unfold zlen; cbn; lia|]. split; reflexivity.
      + apply upd_eq.
      + intros idx Hi. rewrite S16 in *. apply inb4_inv in Hi as (j & i & x & y & -> & _).
        change (firstn (Z.to_nat (zlen (sa4 S) - 2)) [j; i; x; y]) with [j; i]. unfold fin, ds, a_ds, aweight. change (zn [j; i; x; y] 0) with j. change (zn [j; i; x; y] 1) with i.
        destruct (m [j; i]); [reflexivity|]. f_equal. ring.
      + intros s10 H10. apply HQ. eapply has_sub; [exact H10|]. intros [a|a|kk l'] f _; cbn [Tape.ov]; auto. unfold M9, upd. destruct (gvar_dec (Tmp kk l') (Tmp id 16)); auto.
    - apply py_skip. apply HQ. exact H9. }
  apply K2. clear K2. intros s10 H10. unfold py_if at 1.
  assert (R1 : M9 (Tmp id 1) = Some (fin q)) by (unfold M9, M6, M5, M4; rewrite !upd_ne by congruence; exact Q1).
  assert (R3 : M9 (Tmp id 3) = Some (fin k)) by (unfold M9, M6, M5, M4; rewrite !upd_ne by congruence; exact Q3).
  assert (R16 : M9 (Tmp id 16) = Some (fin ds)) by apply upd_eq.
  assert (R15 : M9 (Tmp id 15) = Some (fin (Gq 2%nat))) by (unfold M9, M6; rewrite !(upd_ne _ (Tmp id 16)), !(upd_ne _ (Tmp id 17)) by congruence; apply upd_eq).
  assert (RV : forall x : nat, M9 (Val x) = M (Val x)) by (intros; unfold M9, M6, M5, M4; rewrite !upd_ne by congruence; reflexivity).
  assert (RT : forall kk i, kk <> id -> M9 (Tmp kk i) = M (Tmp kk i)) by (intros; unfold M9, M6, M5, M4; rewrite !upd_ne by congruence; reflexivity).
  clearbody M9. clear M4 M5 M6 H3 H4 H5 H6 H9.
  eapply py_tmp; [apply (h_gemm (1 / sqrt (IZR h)) 0 NoTrans Trans (ov G2 M9) s10 (Tmp id 1) (Tmp id 16) (Tmp id 13) 1 2 q ds (fun _ => 0) (Gq 1%nat) [h] [n] [n] [nb; nh] [bh] [bn] [bn] [bb; bnh])|];
    try assumption; try congruence; try reflexivity; try (left; reflexivity); try apply T13.
  { intros mi ni bi Hm Hn' Hb'. apply inb1_inv in Hm as (d & -> & _). apply inb1_inv in Hn' as (j & -> & _). apply inb2_inv in Hb' as (x & y & -> & _).
    rewrite sum1 by assumption. unfold Gq, att_g, sdpa_dl, a_dk, ds. cbn [app op_dims]. change (zn [d; j; x; y] 0) with d. change (zn [d; j; x; y] 1) with j. change (zn [d; j; x; y] 2) with x. change (zn [d; j; x; y] 3) with y.
    fold q k v gb. rewrite Rmult_0_l, Rplus_0_l. unfold Rdiv. rewrite Rmult_1_l, Rmult_comm. reflexivity. }
  intros s11 H11. set (M11 := upd (Tmp id 13) (Some (fin (Gq 1%nat))) M9) in *. unfold py_if at 1.
  eapply py_tmp; [apply (h_gemm (1 / sqrt (IZR h)) 0 NoTrans NoTrans (ov G2 M11) s11 (Tmp id 3) (Tmp id 16) (Tmp id 11) 1 2 k ds (fun _ => 0) (Gq 0%nat) [h] [n] [n] [nb; nh] [bh] [bn] [bn] [bb; bnh])|];
    try assumption; try congruence; try reflexivity; try (left; reflexivity); try apply T11.
  { cbn [Tape.ov]. unfold M11. rewrite upd_ne by congruence. exact R3. } { cbn [Tape.ov]. unfold M11. rewrite upd_ne by congruence. exact R16. }
  { intros mi ni bi Hm Hn' Hb'. apply inb1_inv in Hm as (d & -> & _). apply inb1_inv in Hn' as (i & -> & _). apply inb2_inv in Hb' as (x & y & -> & _).
    rewrite sum1 by assumption. unfold Gq, att_g, sdpa_dl, a_dq, ds. cbn [app op_dims]. change (zn [d; i; x; y] 0) with d. change (zn [d; i; x; y] 1) with i. change (zn [d; i; x; y] 2) with x. change (zn [d; i; x; y] 3) with y.
    fold q k v gb. rewrite Rmult_0_l, Rplus_0_l. unfold Rdiv. rewrite Rmult_1_l, Rmult_comm. reflexivity. }
  intros s12 H12. set (M12 := upd (Tmp id 11) (Some (fin (Gq 0%nat))) M11) in *.
  (* projections *)
  assert (V12 : forall x : nat, M12 (Val x) = M (Val x)) by (intros; unfold M12, M11; rewrite !upd_ne by congruence; apply RV).
  set (M13 := upd (Tmp id 14) None M12).
  set (G3 := addg (an_wv L) (proj_dw n nb (vs 2%nat) (Gq 2%nat)) (addg (an_xv L) (proj_dx h nh (vs 5%nat) (Gq 2%nat)) (addgo (an_bv L) (proj_db n nb (Gq 2%nat)) G2))).
  eapply (py_cons _ _ _ (st M13 G3)).
  { eapply (proj_bwd (an_xv L) (an_wv L) (an_bv L) id 4 5 M12 G2 s12 ev h n nb nh (d_ev B) bh bn bb bnh); try assumption.
    - apply (ao_xv _ _ _ _ OK). - apply (ao_wv _ _ _ _ OK). - apply (ao_t _ _ _ _ OK). cbn; tauto. - split; [|split]; assumption. - lia. - apply (ao_bv _ _ _ _ OK).
    - rewrite V12. assumption. - rewrite V12. assumption. - change (10 + 5)%nat with 15%nat. unfold M12, M11. rewrite !upd_ne by congruence. exact R15. }
  intros s13 H13. set (M14 := upd (Tmp id 12) None M13).
  set (G4 := addg (an_wk L) (proj_dw n nb (vs 1%nat) (Gq 1%nat)) (addg (an_xk L) (proj_dx h nh (vs 4%nat) (Gq 1%nat)) (addgo (an_bk L) (proj_db n nb (Gq 1%nat)) G3))).
  eapply (py_cons _ _ _ (st M14 G4)).
  { eapply (proj_bwd (an_xk L) (an_wk L) (an_bk L) id 2 3 M13 G3 s13 ek h n nb nh (d_ek B) bh bn bb bnh); try assumption.
    - apply (ao_xk _ _ _ _ OK). - apply (ao_wk _ _ _ _ OK). - apply (ao_t _ _ _ _ OK). cbn; tauto. - lia. - apply (ao_bk _ _ _ _ OK).
    - unfold M13. rewrite upd_ne by congruence. rewrite V12. assumption. - unfold M13. rewrite upd_ne by congruence. rewrite V12. assumption.
    - change (10 + 3)%nat with 13%nat. unfold M13, M12, M11. rewrite !(upd_ne _ (Tmp id 14)), !(upd_ne _ (Tmp id 11)) by congruence. apply upd_eq. }
  intros s14 H14. set (M15 := upd (Tmp id 10) None M14).
  set (G5 := addg (an_wq L) (proj_dw n nb (vs 0%nat) (Gq 0%nat)) (addg (an_xq L) (proj_dx h nh (vs 3%nat) (Gq 0%nat)) (addgo (an_bq L) (proj_db n nb (Gq 0%nat)) G4))).
  eapply (py_cons _ _ _ (st M15 G5)).
  { eapply (proj_bwd (an_xq L) (an_wq L) (an_bq L) id 0 1 M14 G4 s14 e h n nb nh (d_e B) bh bn bb bnh); try assumption.
    - apply (ao_xq _ _ _ _ OK). - apply (ao_wq _ _ _ _ OK). - apply (ao_t _ _ _ _ OK). cbn; tauto. - lia. - apply (ao_bq _ _ _ _ OK).
    - unfold M14, M13. rewrite !upd_ne by congruence. rewrite V12. assumption. - unfold M14, M13. rewrite !upd_ne by congruence. rewrite V12. assumption.
    - change (10 + 1)%nat with 11%nat. unfold M14, M13, M12. rewrite !(upd_ne _ (Tmp id 12)), !(upd_ne _ (Tmp id 14)) by congruence. apply upd_eq. }
  intros s15 H15. apply py_nil. exists M15, G5. split; [exact H15|]. split; [|split].
  - intros x idx Hx. unfold acc, contrib, arity, inp. cbn [ml_ins ml_dl ml_out]. fold gy. unfold G5, G4, G3, G2, G1.
    unfold an_ins, an_bq, an_bk, an_bv, an_bo. destruct (an_bias L) as [[[[bq bk] bv] bo]|]; cbn [option_map fst snd addgo app List.length].
    + unfold Nsum. cbn [seq nth]. rewrite !Rsuml_cons, Rsuml_nil. unfold addg. cbn [att_dl]. fold Gq b. ring.
    + unfold Nsum. cbn [seq nth]. rewrite !Rsuml_cons, Rsuml_nil. unfold addg. cbn [att_dl]. fold Gq b. ring.
  - intros x. unfold M15, M14, M13. rewrite !upd_ne by congruence. apply V12.
  - intros kk i Hk. unfold M15, M14, M13, M12, M11. rewrite !upd_ne by congruence. apply RT. assumption.
Qed.

Lemma attn_layer_ok : layer_ok req py.
Proof.
  split; [|split; [exact attn_fwd_ok|exact attn_bwd_ok]].
  intros vs M M' HM H. cbn [ly_id attn_layer ly_saved] in *. rewrite !HM. exact H.
Qed.
Lemma attn_vjp : vjp vshape (ly_m py).
Proof.
  apply tv_vjp. destruct att_pos as (Pe & Pek & Pev & Ph & Pn & Pb & Pnh).
  rewrite att_arity. cbn [ly_m attn_layer ml_out ml_D ml_F ml_dl].
  destruct (ao_y _ _ _ _ OK) as (_ & Sy & _). rewrite Sy.
  eapply tv_ish; [|apply att_tv; assumption].
  intros j Hj. unfold att_n in Hj. cbn [ly_m attn_layer]. unfold inp. cbn [ml_ins]. unfold an_ins.
  assert (Hq := fun b Hb => proj1 (proj2 (ao_bq _ _ _ _ OK b Hb))). assert (Hk := fun b Hb => proj1 (proj2 (ao_bk _ _ _ _ OK b Hb))).
  assert (Hv := fun b Hb => proj1 (proj2 (ao_bv _ _ _ _ OK b Hb))). assert (Ho := fun b Hb => proj1 (proj2 (ao_bo _ _ _ _ OK b Hb))).
  unfold an_hasb in Hj. unfold an_bq, an_bk, an_bv, an_bo in *.
  destruct j as [|j]; [apply (ao_xq _ _ _ _ OK)|]. destruct j as [|j]; [apply (ao_xk _ _ _ _ OK)|]. destruct j as [|j]; [apply (ao_xv _ _ _ _ OK)|].
  destruct j as [|j]; [apply (ao_wq _ _ _ _ OK)|]. destruct j as [|j]; [apply (ao_wk _ _ _ _ OK)|]. destruct j as [|j]; [apply (ao_wv _ _ _ _ OK)|].
  destruct j as [|j]; [apply (ao_w _ _ _ _ OK)|].
  destruct (an_bias L) as [[[[bq bk] bv] bo]|]; [|lia]. cbn [option_map fst snd] in *.
  destruct j as [|j]; [exact (Hq bq eq_refl)|]. destruct j as [|j]; [exact (Hk bk eq_refl)|]. destruct j as [|j]; [exact (Hv bv eq_refl)|].
  destruct j as [|j]; [exact (Ho bo eq_refl)|lia].
Qed.
End Ok.
End Layer.
