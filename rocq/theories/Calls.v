(** * The API calls as data, when a call is well-formed, and soundness of the tasks it submits

    [call_ok s c] collects the documented requirements of the call (operand shapes and tilings match,
    outputs are not inputs, every operand is registered in s with its size).  It constrains the sizes of the
    buffers of s, never their contents. *)
From Coq Require Import FunctionalExtensionality.
From Verif Require Import Base Spec Geometry Traits TraitsProofs Runtime Ops TensorSem ElemGeneric OneOut
  KernelsElem ElemOps ElemProofs Formulas PropElem PropElem2 Axis AccRuns Loops SliceOps SliceGeo SliceProofs SliceReduce
  FiberOps FiberGeo FiberProofs FiberReduce SoftmaxOps PairGeo SoftmaxProofs SoftmaxRuns Sequence SplitGeo MatOps MatProofs
  GemmProofs GemmRuns Nrm2Proofs PropMat Serial NdRuns SubcopyOps SubcopyRuns ScatterRuns PropCopy KeepRuns LossOps LossProofs LossRuns
  EmbedRuns CommRuns TotalSum AnyRuns Psound RandnOps PropRandn FlashOps FlashGeo FlashRuns FlashBwd.

Section Calls.
Context {T : Type} {O : Ops T}.

(** Every asynchronous tensor operation of the model except total_sum_accum (which declares commuting accesses), with
    reductions not in redux mode. *)
Inductive call : Type :=
| CClear (A : tensor) | CFill (val : T) (A : tensor) | CRelu (A : tensor) | CDrelu (A : tensor) | CGelu (A : tensor)
| CDgelu (A : tensor) | CGelutanhInplace (A : tensor) | CDgelutanh (A : tensor) | CSqrtInplace (A : tensor)
| CPow (alpha exp : T) (A : tensor) | CScalInplace (alpha : T) (A : tensor) | CHypotScalarInverse (eps alpha : T) (A : tensor)
| CAddScalar (alpha beta : T) (A : tensor)
| CReluForward (src dst : tensor) | CSqrt (src dst : tensor) | CGelutanh (src dst : tensor) | CProd (src dst : tensor)
| CMaximum (src dst : tensor) | CCopy (src dst : tensor) | CAxpy (alpha : T) (src dst : tensor)
| CScal (alpha : T) (src dst : tensor) | CAdd (alpha : T) (src : tensor) (beta : T) (dst : tensor)
| CHypot (alpha : T) (src : tensor) (beta : T) (dst : tensor)
| CReluBackward (x dy dx : tensor) | CGeluBackward (x dy dx : tensor) | CGelutanhBackward (x dy dx : tensor)
| CAddcdiv (val eps : T) (nom denom src : tensor) | CAxpyTensor (alpha src dst : tensor)
| CAdam (t : Z) (b1 b2 eps lr wd : T) (grad m v p : tensor) | CAdamw (t : Z) (b1 b2 eps lr wd : T) (grad m v p : tensor)
| CAddSlice (alpha : T) (src : tensor) (beta : T) (dst : tensor) (axis : Z)
| CAddSlice3 (alpha : T) (src1 : tensor) (beta : T) (src2 dst : tensor) (axis : Z)
| CProdSlice (src : tensor) (alpha : T) (dst : tensor) (axis : Z)
| CSumSlice (alpha : T) (src : tensor) (beta : T) (dst : tensor) (axis : Z)
| CNormSlice (alpha : T) (src : tensor) (beta : T) (dst : tensor) (axis : Z)
| CSumprodSlice (alpha : T) (src1 src2 : tensor) (beta : T) (dst : tensor) (axis : Z)
| CAddFiber (alpha : T) (src : tensor) (beta : T) (dst : tensor) (axis b : Z)
| CProdFiber (src : tensor) (alpha : T) (dst : tensor) (axis : Z)
| CProdFiber3 (src1 : tensor) (alpha : T) (src2 dst : tensor) (axis : Z)
| CSumFiber (alpha : T) (src : tensor) (beta : T) (dst : tensor) (axis b : Z)
| CSumprodFiber (alpha : T) (src1 src2 : tensor) (beta : T) (dst : tensor) (axis : Z)
| CMaxsumexp (src dst : tensor) (axis : Z) | CSumnorm (src dst : tensor) (axis : Z)
| CSoftmax (ms src : tensor) (alpha : T) (dst : tensor) (axis : Z) | CSoftmaxInplace (ms : tensor) (alpha : T) (dst : tensor) (axis : Z)
| CLogsumexp (src dst : tensor) | CNormalize (gb ms dst : tensor) (l : Z) (eps : T) (axis : Z)
| CTranspose (alpha : T) (src dst : tensor) (ndim : Z)
| CGemm (alpha : T) (tA : transop) (A : tensor) (tB : transop) (B : tensor) (beta : T) (C : tensor) (ndim batch : Z)
| CNrm2 (alpha : T) (src : tensor) (beta : T) (dst tmp : tensor)
| CScatter (src dst : tensor) (scratch : handle) | CGather (src dst : tensor) (scratch : handle)
| CCopyIntersection (src : tensor) (so : list Z) (dst : tensor) (do_ : list Z) (scratch : handle)
| CMaskScalar (mask : tensor) (val : T) (A : tensor) (b : Z)
| CEmbedding (index vocab embed : tensor) (axis : Z) | CEmbeddingBackward (index embed vocab : tensor) (axis : Z)
| CSubtract (val : T) (labels dst : tensor)
| CRandn (o_cos : T -> T) (dst : tensor) (start underlying_shape : list Z) (seed : Z) (mean stddev : T) (scratch : handle)
| CFlashMaxsumexp (Q K mask ms tmp : tensor) | CFlashSoftmaxGemm (Q K V mask ms dst tmp : tensor)
| CFlashBackward (Q dQ K dK V dV mask ms dst_grad tmp tmp_grad sumprod : tensor).

Definition submit (c : call) : res (list (task T)) :=
  match c with
  | CClear A => clear_async A | CFill val A => fill_async val A | CRelu A => relu_async A | CDrelu A => drelu_async A
  | CGelu A => gelu_async A | CDgelu A => dgelu_async A | CGelutanhInplace A => gelutanh_inplace_async A
  | CDgelutanh A => dgelutanh_async A | CSqrtInplace A => sqrt_inplace_async A | CPow alpha exp A => pow_async alpha exp A
  | CScalInplace alpha A => scal_inplace_async alpha A | CHypotScalarInverse eps alpha A => hypot_scalar_inverse_async eps alpha A
  | CAddScalar alpha beta A => add_scalar_async alpha beta A
  | CReluForward src dst => relu_forward_async src dst | CSqrt src dst => sqrt_async src dst
  | CGelutanh src dst => gelutanh_async src dst | CProd src dst => prod_async src dst | CMaximum src dst => maximum_async src dst
  | CCopy src dst => copy_async src dst | CAxpy alpha src dst => axpy_async alpha src dst | CScal alpha src dst => scal_async alpha src dst
  | CAdd alpha src beta dst => add_async alpha src beta dst | CHypot alpha src beta dst => hypot_async alpha src beta dst
  | CReluBackward x dy dx => relu_backward_async x dy dx | CGeluBackward x dy dx => gelu_backward_async x dy dx
  | CGelutanhBackward x dy dx => gelutanh_backward_async x dy dx
  | CAddcdiv val eps nom denom src => addcdiv_async val eps nom denom src | CAxpyTensor alpha src dst => axpy_tensor_async alpha src dst
  | CAdam t b1 b2 eps lr wd grad m v p => adam_step_async t b1 b2 eps lr wd grad m v p
  | CAdamw t b1 b2 eps lr wd grad m v p => adamw_step_async t b1 b2 eps lr wd grad m v p
  | CAddSlice alpha src beta dst axis => add_slice_async alpha src beta dst axis
  | CAddSlice3 alpha src1 beta src2 dst axis => add_slice3_async alpha src1 beta src2 dst axis
  | CProdSlice src alpha dst axis => prod_slice_async src alpha dst axis
  | CSumSlice alpha src beta dst axis => sum_slice_async alpha src beta dst axis false
  | CNormSlice alpha src beta dst axis => norm_slice_async alpha src beta dst axis false
  | CSumprodSlice alpha src1 src2 beta dst axis => sumprod_slice_async alpha src1 src2 beta dst axis false
  | CAddFiber alpha src beta dst axis b => add_fiber_async alpha src beta dst axis b
  | CProdFiber src alpha dst axis => prod_fiber_async src alpha dst axis
  | CProdFiber3 src1 alpha src2 dst axis => prod_fiber3_async src1 alpha src2 dst axis
  | CSumFiber alpha src beta dst axis b => sum_fiber_async alpha src beta dst axis b false
  | CSumprodFiber alpha src1 src2 beta dst axis => sumprod_fiber_async alpha src1 src2 beta dst axis false
  | CMaxsumexp src dst axis => maxsumexp_async src dst axis false | CSumnorm src dst axis => sumnorm_async src dst axis
  | CSoftmax ms src alpha dst axis => softmax_async ms src alpha dst axis
  | CSoftmaxInplace ms alpha dst axis => softmax_inplace_async ms alpha dst axis
  | CLogsumexp src dst => logsumexp_async src dst | CNormalize gb ms dst l eps axis => normalize_async gb ms dst l eps axis
  | CTranspose alpha src dst ndim => transpose_async alpha src dst ndim
  | CGemm alpha tA A tB B beta C ndim batch => gemm_async alpha tA A tB B beta C ndim batch false
  | CNrm2 alpha src beta dst tmp => nrm2_async alpha src beta dst tmp
  | CScatter src dst scratch => scatter_async ScOwn src dst scratch | CGather src dst scratch => gather_async ScOwn src dst scratch
  | CCopyIntersection src so dst do_ scratch => copy_intersection_async ScOwn src so dst do_ scratch
  | CMaskScalar mask val A b => mask_scalar_async mask val A b
  | CEmbedding index vocab embed axis => embedding_async index vocab embed axis
  | CEmbeddingBackward index embed vocab axis => embedding_backward_async index embed vocab axis false
  | CSubtract val labels dst => subtract_indexed_outputs_async val labels dst
  | CRandn o_cos dst start us seed mean stddev scratch => randn_async o_cos dst start us seed mean stddev scratch
  | CFlashMaxsumexp Q K mask ms tmp => flash_maxsumexp_async Q K mask ms tmp false
  | CFlashSoftmaxGemm Q K V mask ms dst tmp => flash_softmax_gemm_async Q K V mask ms dst tmp false
  | CFlashBackward Q dQ K dK V dV mask ms dA tmp grad sp => flash_softmax_gemm_backward_async Q dQ K dK V dV mask ms dA tmp grad sp false
  end.

(** The tensor is well-formed and each of its tiles has a buffer of the right kind and size. *)
Definition held (k : kind) (s : store T) (t : tensor) : Prop := wf_tensor t /\ stored k s t.
Notation fl1 s A := (held KF s A).
Definition inout (s : store T) (ins : list tensor) (out : tensor) : Prop :=
  fl1 s out /\ Forall (fun x => fl1 s x /\ disj x out) ins.

(** 0 compares equal to 0, and 1 does not *)
Definition usual01 : Prop := o_eqb (o_zero : T) o_zero = true /\ o_eqb (o_one : T) o_zero = false.

Definition call_ok (s : store T) (c : call) : Prop :=
  match c with
  | CClear A | CFill _ A | CRelu A | CDrelu A | CGelu A | CDgelu A | CGelutanhInplace A | CDgelutanh A | CSqrtInplace A
  | CPow _ _ A | CScalInplace _ A | CHypotScalarInverse _ _ A | CAddScalar _ _ A => held KF s A
  | CReluForward src dst | CSqrt src dst | CGelutanh src dst | CProd src dst | CMaximum src dst | CCopy src dst | CAxpy _ src dst
  | CScal _ src dst | CAdd _ src _ dst | CHypot _ src _ dst => inout s [src] dst /\ same_tiling src dst
  | CReluBackward x dy dx | CGeluBackward x dy dx | CGelutanhBackward x dy dx | CAddcdiv _ _ x dy dx =>
      inout s [x; dy] dx /\ same_tiling x dx /\ same_tiling dy dx
  | CAxpyTensor alpha src dst => inout s [alpha; src] dst /\ t_shape alpha = [] /\ same_tiling src dst
  | CAdam _ _ _ _ _ _ grad m v p | CAdamw _ _ _ _ _ _ grad m v p =>
      inout s [grad; m; v] p /\ inout s [grad; m] v /\ inout s [grad] m /\ same_tiling grad p /\ same_tiling m p /\ same_tiling v p
  | CAddSlice _ src _ dst axis | CProdSlice src _ dst axis => inout s [src] dst /\ slice_match dst src axis
  | CAddSlice3 _ src1 _ src2 dst axis => inout s [src1; src2] dst /\ slice_match dst src1 axis /\ same_tiling dst src2
  | CSumSlice _ src _ dst axis | CNormSlice _ src _ dst axis => inout s [src] dst /\ slice_match src dst axis
  | CSumprodSlice _ src1 src2 _ dst axis => inout s [src1; src2] dst /\ slice_match src1 dst axis /\ same_tiling src2 src1
  | CAddFiber _ src _ dst axis b => inout s [src] dst /\ fiber_match dst src axis b
  | CProdFiber src _ dst axis => inout s [src] dst /\ fiber_match dst src axis 0
  | CProdFiber3 src1 _ src2 dst axis => inout s [src1; src2] dst /\ fiber_match dst src1 axis 0 /\ same_tiling src2 dst
  | CSumFiber _ src _ dst axis b => inout s [src] dst /\ fiber_match src dst axis b
  | CSumprodFiber _ src1 src2 _ dst axis => inout s [src1; src2] dst /\ fiber_match src1 dst axis 0 /\ same_tiling src2 src1
  | CMaxsumexp src dst axis | CSumnorm src dst axis => inout s [src] dst /\ pair_match src dst axis
  | CSoftmax ms src _ dst axis => inout s [ms; src] dst /\ pair_match dst ms axis /\ same_tiling src dst
  | CSoftmaxInplace ms _ dst axis => inout s [ms] dst /\ pair_match dst ms axis
  | CLogsumexp src dst => inout s [src] dst /\ lse_match src dst
  | CNormalize gb ms dst l eps axis => inout s [gb; ms] dst /\ t_shape gb = [2%Z] /\ ntiles gb = 1%Z /\ (0 < l)%Z /\
      o_geb o_zero eps = false /\ pair_match dst ms axis
  | CTranspose _ src dst ndim => inout s [src] dst /\ transpose_match src dst ndim
  | CGemm _ tA A tB B _ C ndim batch => inout s [A; B] C /\ gemm_match tA tB A B C ndim batch
  | CNrm2 _ src _ dst tmp => inout s [src; tmp] dst /\ disj src tmp /\ nrm2_match src dst tmp
  | CScatter src dst scratch => inout s [src] dst /\ ntiles src = 1%Z /\ t_shape src = t_shape dst /\ ~ In scratch (tile_handles dst) /\
      ty (s scratch) = (KI, (2 * zlen (t_shape dst))%Z)
  | CGather src dst scratch => inout s [src] dst /\ ntiles dst = 1%Z /\ t_shape src = t_shape dst /\ ~ In scratch (tile_handles dst) /\
      ty (s scratch) = (KI, (2 * zlen (t_shape src))%Z)
  | CCopyIntersection src so dst do_ scratch => inout s [src] dst /\ zlen so = zlen (t_shape src) /\
      zlen (t_shape dst) = zlen (t_shape src) /\ zlen do_ = zlen (t_shape dst) /\ ~ In scratch (tile_handles dst) /\
      ty (s scratch) = (KI, (2 * zlen (t_shape src))%Z)
  | CMaskScalar mask _ A b => held KB s mask /\ held KF s A /\ disj mask A /\ mask_match mask A b
  | CEmbedding index vocab embed axis => held KI s index /\ inout s [vocab] embed /\ disj index embed /\ emb_match index vocab embed axis
  | CEmbeddingBackward index embed vocab axis => held KI s index /\ inout s [embed] vocab /\ disj index vocab /\ emb_match index vocab embed axis
  | CSubtract _ labels dst => held KI s labels /\ held KF s dst /\ disj labels dst /\ labels_match labels dst
  | CRandn _ dst start us seed _ _ scratch => held KF s dst /\ (0 <= seed < 2 ^ 64)%Z /\ randn_ok (t_shape dst) start us /\
      ~ In scratch (tile_handles dst) /\ ty (s scratch) = (KI, (2 * zlen (t_shape dst))%Z)
  | CFlashMaxsumexp Q K mask ms tmp => usual01 /\ exists h st bt nt gs gb gn, even h st bt nt gs gb gn /\
      seq_tensor h st bt nt gs gb gn Q /\ seq_tensor h st bt nt gs gb gn K /\ mask_tensor st gs mask /\ seq_tensor 2 st bt nt gs gb gn ms /\
      score_tensor st bt nt gs gb gn tmp /\ inout s [Q; K; tmp] ms /\ held KB s mask /\ disj mask ms
  | CFlashSoftmaxGemm Q K V mask ms dst tmp => usual01 /\ exists h st bt nt gs gb gn, even h st bt nt gs gb gn /\
      seq_tensor h st bt nt gs gb gn Q /\ seq_tensor h st bt nt gs gb gn K /\ seq_tensor h st bt nt gs gb gn V /\ mask_tensor st gs mask /\
      seq_tensor 2 st bt nt gs gb gn ms /\ seq_tensor h st bt nt gs gb gn dst /\ score_tensor st bt nt gs gb gn tmp /\
      inout s [Q; K; V; ms; tmp] dst /\ held KB s mask /\ disj mask dst
  | CFlashBackward Q dQ K dK V dV mask ms dA tmp grad sp => usual01 /\ exists h st bt nt gs gb gn, even h st bt nt gs gb gn /\
      Forall (seq_tensor h st bt nt gs gb gn) [Q; dQ; K; dK; V; dV; dA] /\ mask_tensor st gs mask /\ seq_tensor 2 st bt nt gs gb gn ms /\
      score_tensor st bt nt gs gb gn tmp /\ score_tensor st bt nt gs gb gn grad /\ row_tensor st bt nt gs gb gn sp /\
      (disj dQ dK /\ disj dQ dV /\ disj dQ sp /\ disj dK dV /\ disj dK sp /\ disj dV sp) /\
      Forall (fun X => disj X dQ /\ disj X dK /\ disj X dV /\ disj X sp) [Q; K; V; mask; ms; dA] /\
      Forall (stored KF s) [Q; dQ; K; dK; V; dV; ms; dA; tmp; grad; sp] /\ stored KB s mask
  end.

(** 0 and 1 are different: needed because the modes are chosen by comparing coefficients with 0 and 1. *)
Hypothesis H01 : forall x : T, o_eqb x o_zero = true -> o_eqb x o_one = false.

Definition op_sound (s : store T) (r : res (list (task T))) : Prop :=
  exists ts, r = Ok ts /\ Forall (psound s) ts /\ Forall ordered_task ts.

Lemma runs_sound s r P : runs r s P -> op_sound s r.
Proof.
  intros (ts & E & H1 & H2 & _). exists ts. split; [assumption|]. split; [|assumption].
  eapply Forall_impl; [|exact H1]. intros. apply sound_psound. assumption.
Qed.
Lemma nop_sound s : op_sound s (Ok []).
Proof. exists []. split; [reflexivity|]. split; constructor. Qed.

Lemma wrap1_okt s0 h (k : list T -> res (list T)) : (forall l l', k l = Ok l' -> zlen l' = zlen l) -> ok_task s0 (mkTask [(h, MRW)] (wrap1 k)).
Proof.
  intros Hk. apply ok_body. cbn [t_body t_acc]. intros ins out E. unfold wrap1 in E.
  destruct ins as [|[l| |] [|? ?]]; try discriminate. destruct (k l) as [l'| |] eqn:Ek; try discriminate. rewrite bind_Ok in E. inversion E; subst.
  intros [|[|]] h' m b N1 N2; cbn [nth_error] in *; inversion N1; inversion N2; subst. eexists. split; [reflexivity|]. split; [|discriminate].
  cbn [ty]. f_equal. apply Hk. assumption.
Qed.

Lemma clear_psound s0 h : psound s0 (clear_submit (T:=T) h).
Proof.
  assert (G : forall b (d : buf T), ty b = ty d -> clear_cpu [b] = clear_cpu [d]).
  { intros [l|l|l] [k|k|k] E; cbn [ty] in E; inversion E as [E']; cbn [clear_cpu]; rewrite E'; reflexivity. }
  assert (G2 : forall b : buf T, exists d, clear_cpu [b] = Ok [d] /\ ty d = ty b).
  { intros [l|l|l]; eexists; (split; [reflexivity|]); cbn [ty]; rewrite zlen_zrep; [reflexivity|apply zlen_nonneg|reflexivity|apply zlen_nonneg|reflexivity|apply zlen_nonneg]. }
  split.
  - intros s hv s' Hi Hv E. unfold exec_task in E. cbn [t_body t_acc clear_submit map in_buf reads fst snd] in E.
    destruct (G2 (hv h)) as (d & E1 & E2). unfold in_buf in E. cbn [reads fst snd] in E. rewrite E1, bind_Ok in E. cbn [write_back] in E. inversion E; subst. split.
    + intros h'. unfold upd_store. destruct (Z.eqb_spec h' h) as [->|]; [|apply Hi]. rewrite E2, (Hv h). apply Hi.
    + intros h' Hw. unfold upd_store. destruct (Z.eqb_spec h' h) as [->|]; [|reflexivity]. specialize (Hw MW (or_introl eq_refl)). discriminate.
  - intros s1 hv1 s1' s2 hv2 I1 I2 V1 V2 _ E. unfold exec_task in *. cbn [t_body t_acc clear_submit map] in *. unfold in_buf in *. cbn [reads fst snd] in *.
    destruct (G2 (hv1 h)) as (d & E1 & E2). rewrite E1, bind_Ok in E. cbn [write_back] in E. inversion E; subst.
    rewrite (G (hv2 h) (hv1 h)) by (rewrite V1, V2, I1, I2; reflexivity). rewrite E1. bnd. cbn [write_back]. eexists. split; [reflexivity|].
    intros h' m [E'|[]] _. inversion E'; subst. unfold upd_store. rewrite Z.eqb_refl. reflexivity.
Qed.

Lemma unary_sound op f s A : unary_elementwise op f -> held KF s A -> op_sound s (op A).
Proof. intros H [W S]. eapply runs_sound. apply H; assumption. Qed.
Lemma binary_sound op f s A B : binary_elementwise op f -> inout s [A] B -> same_tiling A B -> op_sound s (op A B).
Proof.
  intros H [[W2 S2] F] Ht. inversion F as [|? ? [[W1 S1] D] _]; subst. eapply runs_sound. apply (H A B s W1 W2); assumption.
Qed.
Lemma ternary_sound op f s A B C : ternary_elementwise op f -> inout s [A; B] C -> same_tiling A C -> same_tiling B C -> op_sound s (op A B C).
Proof.
  intros H [[W3 S3] F] H1 H2. inversion F as [|? ? [[W1 S1] D1] F']; subst. inversion F' as [|? ? [[W2 S2] D2] _]; subst.
  eapply runs_sound. apply (H A B C s W1 W2 W3); assumption.
Qed.

Lemma add_sound s alpha src beta dst : inout s [src] dst -> same_tiling src dst -> op_sound s (add_async alpha src beta dst).
Proof.
  intros Hi Ht. destruct (o_eqb beta o_zero) eqn:Eb.
  - rewrite add_beta0 by auto. apply (binary_sound (scal_async alpha) _ s src dst (C14_scal_generic alpha)); assumption.
  - destruct (o_eqb alpha o_zero) eqn:Ea.
    + destruct Hi as [[W2 S2] F]. inversion F as [|? ? [[W1 S1] D] _]; subst. destruct Ht as [E1 E2]. apply wf_wft in W1, W2.
      unfold add_async. rewrite check_loop_ok by congruence. rewrite Ea. cbn [andb]. destruct (o_eqb beta o_one) eqn:Eb1; [apply nop_sound|].
      rewrite tiles2_ok by auto. eexists. split; [reflexivity|]. split; apply Forall_forall; intros t Ht; apply in_map_iff in Ht as (i & <- & Hi);
        unfold add_submit; rewrite Eb, Ea.
      * apply rw_psound; [|intros h m [E|[]]; inversion E; reflexivity]. apply wrap1_okt. unfold blas_scal. apply lenk_for.
        intros j l l' E. destruct (rd l j); try discriminate. rewrite bind_Ok in E. apply lenk_wr in E. assumption.
      * intros h m [E|[]]; inversion E; split; discriminate.
    + apply (binary_sound (fun a b => add_async alpha a beta b) _ s src dst (C13_add_generic alpha beta Ea Eb)); assumption.
Qed.

(** copy_intersection and gather declare their first copy into a tile as write-only although it does not overwrite the
    whole tile. *)
Definition partial_write (c : call) : Prop :=
  match c with CGather _ _ _ | CCopyIntersection _ _ _ _ _ => True | _ => False end.

Ltac inv1 H := let W := fresh "W" in let S := fresh "S" in let F := fresh "F" in
  destruct H as [[W S] F];
  repeat match goal with F : Forall (fun x => held KF _ x /\ disj x _) (_ :: _) |- _ =>
    let W := fresh "W" in let S := fresh "S" in let D := fresh "D" in let F' := fresh "F" in inversion F as [|? ? [[W S] D] F']; subst; clear F end.
Ltac wfs := repeat match goal with W : wf_tensor _ |- _ => apply wf_wft in W end.

Theorem call_sound (s : store T) (c : call) : call_ok s c -> ~ partial_write c -> op_sound s (submit c).
Proof.
  intros Hc Hp. destruct c; cbn [call_ok submit partial_write] in *; try solve [exfalso; apply Hp; exact I].
  - eapply unary_sound; [apply C12_clear|assumption].
  - eapply (unary_sound (fill_async val)); [apply C12_fill|assumption].
  - eapply unary_sound; [apply C12_relu|assumption].
  - eapply unary_sound; [apply C12_drelu|assumption].
  - eapply unary_sound; [apply C12_gelu|assumption].
  - eapply unary_sound; [apply C12_dgelu|assumption].
  - eapply unary_sound; [apply C12_gelutanh_inplace|assumption].
  - eapply unary_sound; [apply C12_dgelutanh|assumption].
  - eapply unary_sound; [apply C12_sqrt_inplace|assumption].
  - eapply (unary_sound (pow_async alpha exp)); [apply C12_pow|assumption].
  - eapply (unary_sound (scal_inplace_async alpha)); [apply C12_scal_inplace|assumption].
  - eapply (unary_sound (hypot_scalar_inverse_async eps alpha)); [apply C12_hypot_scalar_inverse|assumption].
  - destruct (andb (o_eqb alpha o_zero) (o_eqb beta o_one)) eqn:E.
    + unfold add_scalar_async. rewrite E. apply nop_sound.
    + eapply (unary_sound (add_scalar_async alpha beta)); [|assumption]. apply C12_add_scalar. intros x E1 E2. rewrite E1, E2 in E. discriminate.
  - destruct Hc. eapply binary_sound; [apply C12_relu_forward|assumption..].
  - destruct Hc. eapply binary_sound; [apply C12_sqrt|assumption..].
  - destruct Hc. eapply binary_sound; [apply C12_gelutanh|assumption..].
  - destruct Hc. eapply binary_sound; [apply C12_prod|assumption..].
  - destruct Hc. eapply binary_sound; [apply C12_maximum|assumption..].
  - destruct Hc. eapply binary_sound; [apply C12_copy|assumption..].
  - destruct Hc. eapply (binary_sound (axpy_async alpha)); [apply C14_axpy|assumption..].
  - destruct Hc. eapply (binary_sound (scal_async alpha)); [apply C14_scal_generic|assumption..].
  - destruct Hc. apply add_sound; assumption.
  - destruct Hc as [Hi Ht]. destruct (andb (o_eqb alpha o_zero) (o_eqb beta o_one)) eqn:E.
    + inv1 Hi. wfs. destruct Ht. unfold hypot_async. rewrite check_loop_ok by congruence. rewrite E. apply nop_sound.
    + eapply (binary_sound (fun a b => hypot_async alpha a beta b)); [apply C15_hypot_generic; [apply H01|assumption]|assumption..].
  - destruct Hc as (? & ? & ?). eapply ternary_sound; [apply C12_relu_backward|assumption..].
  - destruct Hc as (? & ? & ?). eapply ternary_sound; [apply C12_gelu_backward|assumption..].
  - destruct Hc as (? & ? & ?). eapply ternary_sound; [apply C12_gelutanh_backward|assumption..].
  - destruct Hc as (Hi & ? & ?). inv1 Hi. eapply runs_sound. eapply C12_addcdiv; assumption.
  - destruct Hc as (Hi & ? & ?). inv1 Hi. eapply runs_sound. eapply C14_axpy_tensor; assumption.
  - destruct Hc as (Hi & Hj & Hk & ? & ? & ?). inv1 Hi. inv1 Hj. inv1 Hk. eapply runs_sound. apply (C29_adam_step t b1 b2 eps lr wd); assumption.
  - destruct Hc as (Hi & Hj & Hk & ? & ? & ?). inv1 Hi. inv1 Hj. inv1 Hk. eapply runs_sound. apply (C29_adamw_step t b1 b2 eps lr wd); assumption.
  - destruct Hc as (Hi & ?). inv1 Hi. wfs. eapply runs_sound. apply add_slice_runs; assumption.
  - destruct Hc as (Hi & ? & [? ?]). inv1 Hi. wfs. eapply runs_sound. apply add_slice3_runs; assumption.
  - destruct Hc as (Hi & ?). inv1 Hi. wfs. eapply runs_sound. apply prod_slice_runs; assumption.
  - destruct Hc as (Hi & ?). inv1 Hi. wfs. eapply runs_sound. apply sum_slice_runs; assumption.
  - destruct Hc as (Hi & ?). inv1 Hi. wfs. eapply runs_sound. apply norm_slice_runs; assumption.
  - destruct Hc as (Hi & ? & [? ?]). inv1 Hi. wfs. eapply runs_sound. apply sumprod_slice_runs; assumption.
  - destruct Hc as (Hi & Hm). inv1 Hi. wfs. destruct (o_eqb alpha o_zero) eqn:E.
    + unfold add_fiber_async. rewrite (checks_true _ _ (fiber_check_checks dst src axis b W W0 (proj1 Hm))) by assumption. bnd. rewrite E. apply nop_sound.
    + eapply runs_sound. apply add_fiber_runs; assumption.
  - destruct Hc as (Hi & ?). inv1 Hi. wfs. eapply runs_sound. apply prod_fiber_runs; assumption.
  - destruct Hc as (Hi & ? & [? ?]). inv1 Hi. wfs. eapply runs_sound. apply prod_fiber3_runs; assumption.
  - destruct Hc as (Hi & ?). inv1 Hi. wfs. eapply runs_sound. apply sum_fiber_runs; assumption.
  - destruct Hc as (Hi & ? & [? ?]). inv1 Hi. wfs. eapply runs_sound. apply sumprod_fiber_runs; assumption.
  - destruct Hc as (Hi & ?). inv1 Hi. wfs. eapply runs_sound. apply maxsumexp_runs; assumption.
  - destruct Hc as (Hi & ?). inv1 Hi. wfs. eapply runs_sound. apply sumnorm_runs; assumption.
  - destruct Hc as (Hi & ? & [? ?]). inv1 Hi. wfs. eapply runs_sound. apply softmax_runs; assumption.
  - destruct Hc as (Hi & ?). inv1 Hi. wfs. eapply runs_sound. apply softmax_inplace_runs; assumption.
  - destruct Hc as (Hi & ?). inv1 Hi. wfs. eapply runs_sound. apply logsumexp_runs; assumption.
  - destruct Hc as (Hi & ? & ? & ? & ? & ?). inv1 Hi. wfs. eapply runs_sound. apply normalize_runs; assumption.
  - destruct Hc as (Hi & ?). inv1 Hi. eapply runs_sound. eapply C26_transpose; assumption.
  - destruct Hc as (Hi & ?). inv1 Hi. eapply runs_sound. eapply (C27_gemm_checks alpha beta tA tB A B C ndim batch s); assumption.
  - destruct Hc as (Hi & ? & ?). inv1 Hi. wfs. eapply runs_sound. apply nrm2_runs; assumption.
  - destruct Hc as (Hi & ? & ? & ? & ?). inv1 Hi. eapply runs_sound. apply (C09_scatter src dst scratch s); try assumption. split; assumption.
  - destruct Hc as ([W1 S1] & [W2 S2] & ? & ?). wfs. eapply runs_sound. apply mask_scalar_runs; assumption.
  - destruct Hc as ([W1 S1] & Hi & ? & ?). inv1 Hi. wfs. eexists. split; [apply embedding_submits; assumption|].
    split; apply Forall_forall; intros t Ht; apply in_map_iff in Ht as ([i [j|]] & <- & Hin); unfold em_task; cbn [fst snd].
    + apply rw_psound; [apply embedding_okt|]. intros h m [E|[E|[E|[]]]]; inversion E; reflexivity.
    + apply clear_psound.
    + intros h m [E|[E|[E|[]]]]; inversion E; split; discriminate.
    + intros h m [E|[]]; inversion E; split; discriminate.
  - destruct Hc as ([W1 S1] & Hi & ? & ?). inv1 Hi. wfs. eexists. split; [apply embedding_backward_submits; assumption|].
    split; apply Forall_forall; intros t Ht; apply in_map_iff in Ht as ([i j] & <- & Hin); unfold eb_task; cbn [fst snd].
    + apply rw_psound; [apply embedding_backward_okt|]. intros h m [E|[E|[E|[]]]]; inversion E; reflexivity.
    + intros h m [E|[E|[E|[]]]]; inversion E; split; discriminate.
  - destruct Hc as ([W1 S1] & [W2 S2] & ? & ?). wfs. eexists. split; [apply subtract_submits; assumption|].
    split; apply Forall_forall; intros t Ht; apply in_map_iff in Ht as (i & <- & Hin).
    + apply rw_psound; [apply subtract_okt|]. intros h m [E|[E|[]]]; inversion E; reflexivity.
    + intros h m [E|[E|[]]]; inversion E; split; discriminate.
  - destruct Hc as ([W S] & Hs & Hr & Hn & Ht). eapply runs_sound. apply (C10_randn o_cos dst start underlying_shape seed mean stddev scratch s); assumption.
  - destruct Hc as ([z0 z1] & h & st & bt & nt & gs & gb & gn & (E1 & E2 & E3 & E4 & E5 & E6 & E7) & [W1 ?] & [W2 ?] & [W3 ?] & [W4 ?] & [W5 ?] & Hi & [? ?] & ?).
    inv1 Hi. wfs. eapply runs_sound. apply (flash_maxsumexp_runs h st bt nt gs gb gn); assumption.
  - destruct Hc as ([z0 z1] & h & st & bt & nt & gs & gb & gn & (E1 & E2 & E3 & E4 & E5 & E6 & E7) & [W1 ?] & [W2 ?] & [W3 ?] & [W4 ?] & [W5 ?] & [W6 ?] & [W7 ?] & Hi & [? ?] & ?).
    inv1 Hi. wfs. eapply runs_sound. apply (flash_softmax_gemm_runs h st bt nt gs gb gn); assumption.
  - destruct Hc as ([z0 z1] & h & st & bt & nt & gs & gb & gn & (E1 & E2 & E3 & E4 & E5 & E6 & E7) & HX & [W1 ?] & [W2 ?] & [W3 ?] & [W4 ?] & [W5 ?] &
      (? & ? & ? & ? & ? & ?) & HS & HT & ?).
    repeat match goal with F : Forall (seq_tensor _ _ _ _ _ _ _) (_ :: _) |- _ =>
      let W := fresh "W" in let S := fresh "S" in let F' := fresh "F" in inversion F as [|? ? [W S] F']; subst; clear F end.
    repeat match goal with F : Forall _ (_ :: _) |- _ => let S := fresh "S" in let F' := fresh "F" in inversion F as [|? ? S F']; subst; clear F end.
    wfs. eapply runs_sound. apply (flash_backward_runs h st bt nt gs gb gn); assumption.
Qed.

(** The contents of a tensor determine its buffers. *)
Lemma same_tensor (s s1 s2 : store T) D : wft D -> stored KF s D -> tinv s s1 -> tinv s s2 ->
  (forall idx, inb (t_shape D) idx -> elem s1 D idx = elem s2 D idx) -> frame [D] s s1 -> frame [D] s s2 -> s1 = s2.
Proof.
  intros W S I1 I2 He F1 F2. apply functional_extensionality. intros h.
  destruct (in_dec Z.eq_dec h (tile_handles D)) as [Hin|Hn].
  - apply In_th in Hin as (i & Hi & ->); [|assumption]. pose proof (S i Hi) as Hs.
    pose proof (I1 (th D i)) as T1. rewrite Hs in T1. pose proof (I2 (th D i)) as T2. rewrite Hs in T2.
    destruct (ty_BF _ _ T1) as (l1 & B1 & L1). destruct (ty_BF _ _ T2) as (l2 & B2 & L2). rewrite B1, B2. f_equal.
    apply (list_ext (H:=@o_zero T O)); [congruence|]. intros o Ho. rewrite L1 in Ho. destruct (eidx_spec D i o W Hi Ho) as (Hx & Ex & Eo).
    specialize (He _ Hx). unfold elem in He. rewrite Ex, Eo, B1, B2 in He. exact He.
  - rewrite F1, F2; [reflexivity| |]; intros t [<-|[]]; assumption.
Qed.

Lemma sequential_steps ts (s s' : store T) : sequential ts s = Ok s' -> steps (ts, s) ([], s').
Proof.
  revert s. induction ts as [|t ts IH]; intros s E; cbn [sequential] in E; [inversion E; apply steps_refl|].
  destruct (exec_task t s s) as [s1| |] eqn:E1; try discriminate. rewrite bind_Ok in E. eapply steps_cons; [|apply IH; exact E].
  apply (step_run [] t ts s s s1); [intros t' []|apply typed_refl|exact E1].
Qed.

Lemma always_sequential ts (s : store T) (P : store T -> Prop) : always ts s P -> exists s', sequential ts s = Ok s' /\ P s'.
Proof.
  revert s. induction ts as [|t ts IH]; intros s Ha.
  - exists s. split; [reflexivity|]. apply (Ha _ _ (steps_refl _)). reflexivity.
  - destruct (Ha _ _ (steps_refl _)) as [Hs _]. destruct (Hs [] t ts s eq_refl) as (s1 & E1); [intros t' []|apply typed_refl|]. cbn [snd] in E1.
    destruct (IH s1) as (s' & E & HP).
    { apply (always_here (t :: ts) s P); [assumption|]. eapply steps_cons; [|apply steps_refl].
      apply (step_run [] t ts s s s1); [intros t' []|apply typed_refl|exact E1]. }
    exists s'. cbn [sequential]. rewrite E1, bind_Ok. split; assumption.
Qed.

Lemma nd_op s0 r (P : store T -> store T -> Prop) :
  (forall s, tinv s0 s -> runs_nd r s (P s)) ->
  (forall s s1 s2, tinv s0 s -> tinv s s1 -> tinv s s2 -> P s s1 -> P s s2 -> s1 = s2) -> op_det s0 r.
Proof.
  intros H HP. destruct (H s0 (tinv_refl s0)) as (ts & E & H1 & H2 & _). exists ts. split; [assumption|]. split; [assumption|]. split; [assumption|].
  split.
  2:{ intros s s' hvs Hi Hl Hh Hs. destruct (H s Hi) as (ts' & E' & _ & _ & Ha). assert (ts' = ts) by congruence. subst ts'.
      assert (Hst : steps (ts, s) ([], s')).
      { clear - Hl Hh Hs Hi H1. revert s hvs Hl Hh Hs Hi. induction H1 as [|t ts Ht H1 IH]; intros s hvs Hl Hh Hs Hi.
        - destruct hvs; [|discriminate]. cbn in Hs. inversion Hs. apply steps_refl.
        - destruct hvs as [|hv hvs]; [discriminate|]. cbn [combine run_seq] in Hs. inversion Hh; subst.
          destruct (exec_task t s hv) as [s1| |] eqn:E1; try discriminate. rewrite bind_Ok in Hs.
          assert (Hv : typed hv s) by (apply (tinv_typed s0 s hv Hi); assumption).
          eapply steps_cons; [apply (step_run [] t ts s hv s1); [intros t' []|assumption|exact E1]|].
          cbn [app]. eapply IH; try eassumption; [cbn in Hl; lia|]. apply (Ht s hv s1 Hi Hv E1). }
      destruct (always_sequential _ _ _ Ha) as (s2 & E2 & I2 & P2).
      destruct (Ha _ _ Hst) as [_ H']. destruct (H' eq_refl) as [I1 P1].
      rewrite E2. f_equal. eapply HP; eassumption. }
  intros s s' Hi Hs. destruct (H s Hi) as (ts' & E' & _ & _ & Ha). assert (ts' = ts) by congruence. subst ts'.
  destruct (Ha _ _ (sequential_steps _ _ _ Hs)) as [_ H']. destruct (H' eq_refl) as [I1 P1].
  eapply always_weaken; [exact Ha|]. intros s2 [I2 P2]. eapply HP; eassumption.
Qed.

Lemma inout_tinv s0 s l d : tinv s0 s -> inout s0 l d -> inout s l d.
Proof.
  intros Hi [[W S] F]. split; [split; [assumption|eapply tinv_stored; eassumption]|]. eapply Forall_impl; [|exact F].
  intros x [[Wx Sx] D]. split; [split; [assumption|eapply tinv_stored; eassumption]|assumption].
Qed.

Theorem call_det (s : store T) (c : call) : call_ok s c -> op_det s (submit c).
Proof.
  intros Hc. assert (partial_write c \/ ~ partial_write c) as [Hp|Hp] by (destruct c; cbn [partial_write]; tauto).
  2:{ destruct (call_sound s c Hc Hp) as (ts & E & H1 & H2). eapply psound_op; eassumption. }
  destruct c; try contradiction; cbn [call_ok submit] in *.
  - destruct Hc as (Hi & A1 & A2 & A3 & A4).
    apply (nd_op s _ (fun s s' => (forall idx, inb (t_shape dst) idx -> elem s' dst idx = elem s src idx) /\ frame [dst] s s')).
    + intros s1 I1. assert (E4 : ty (s1 scratch) = (KI, (2 * zlen (t_shape src))%Z)) by (rewrite I1; assumption).
      apply (inout_tinv _ _ _ _ I1) in Hi. inv1 Hi. apply (C09_gather src dst scratch s1); try assumption. split; assumption.
    + intros s1 s2 s3 I1 I2 I3 [P1 Q1] [P2 Q2]. apply (inout_tinv _ _ _ _ I1) in Hi. inv1 Hi. wfs.
      eapply (same_tensor s1 s2 s3 dst); try eassumption. intros idx Hx. rewrite P1, P2 by assumption. reflexivity.
  - destruct Hc as (Hi & A1 & A2 & A3 & A4 & A5).
    apply (nd_op s _ (fun s s' =>
     (forall idx, inb (t_shape dst) idx -> inb (t_shape src) (map2 Z.sub (map2 Z.add idx do_) so) ->
        elem s' dst idx = elem s src (map2 Z.sub (map2 Z.add idx do_) so)) /\
     (forall idx, inb (t_shape dst) idx -> ~ inb (t_shape src) (map2 Z.sub (map2 Z.add idx do_) so) ->
        elem s' dst idx = elem s dst idx) /\
     frame [dst] s s')).
    + intros s1 I1. assert (E4 : ty (s1 scratch) = (KI, (2 * zlen (t_shape src))%Z)) by (rewrite I1; assumption).
      apply (inout_tinv _ _ _ _ I1) in Hi. inv1 Hi. apply (C08_copy_intersection src dst so do_ scratch s1); try assumption. split; [assumption|split; assumption].
    + intros s1 s2 s3 I1 I2 I3 (P1 & P1' & Q1) (P2 & P2' & Q2). apply (inout_tinv _ _ _ _ I1) in Hi. inv1 Hi. wfs.
      eapply (same_tensor s1 s2 s3 dst); try eassumption. intros idx Hx.
      destruct (inb_dec (t_shape src) (map2 Z.sub (map2 Z.add idx do_) so)); [rewrite P1, P2 by assumption|rewrite P1', P2' by assumption]; reflexivity.
Qed.
End Calls.
