(** * Model of the fused attention operations: codelets, StarPU submission, tensor level
    (flash_maxsumexp, flash_softmax_gemm, flash_softmax_gemm_backward).

    As in MatOps.v: cblas_sgemm/cblas_dgemm is the reference loop [blas_gemm], the CBLAS_INT
    conversions of the sizes are not modelled, MPI is dropped.  The argument fp32_fast_tf32 only selects a
    CUDA-only codelet and is dropped.  The argument redux is overwritten with 0 by the tensor
    level ("redux=0" in the call of submit), so it has no effect.  The factor 1.0/std::sqrt(T(head)), computed in
    double precision in the code, is computed in T. *)
From Verif Require Import Base Spec Traits Runtime Ops KernelsElem ElemOps SliceOps SoftmaxOps MatOps LossOps.
Local Open Scope ops_scope.

Section F.
Context {T : Type} {O : Ops T}.
Local Notation vec := (list T).
Local Notation bufs := (list (buf T)).

(** -std::numeric_limits<T>::infinity(), the IEEE value of -(1/0) *)
Definition o_ninf : T := - (o_one / o_zero).
(** 1.0/std::sqrt(T(args->head)): src/starpu/flash_maxsumexp.cc.in:93 *)
Definition flash_scale (head : Z) : T := o_one / o_sqrt (o_ofZ head).

(** A loop of cblas calls over the batch with pointers advanced by a constant:
    src/starpu/flash_maxsumexp.cc.in:90-98 and the similar loops of the other codelets *)
Definition gemm_batch (transA transB : transop) (M N K : Z) (alpha : T) (A : vec) (ldA A_offset : Z) (B : vec) (ldB B_offset : Z)
    (beta : T) (C : vec) (ldC C_offset : Z) (batch : Z) : res vec :=
  '(oA, oB, oC, C) <- for_ 0 batch (fun _ '(oA, oB, oC, C) =>
    C <- blas_gemm transA transB M N K alpha A oA ldA B oB ldB beta C oC ldC ;;
    Ok (oA +z A_offset, oB +z B_offset, oC +z C_offset, C)) (0%Z, 0%Z, 0%Z, C) ;;
  Ok C.

(** tmp = mask(K^T Q / sqrt(head)): src/starpu/flash_maxsumexp.cc.in:84-100,
    flash_softmax_gemm.cc.in:86-102, flash_softmax_gemm_backward_sumprod_slice.cc.in:90-106,
    flash_softmax_gemm_backward_dq_dk.cc.in:92-108 *)
Definition flash_scores (seq head batch : Z) (K Q : vec) (mask : list bool) (tmp : vec) : res vec :=
  let K_offset := head *z seq in
  let Q_offset := K_offset in
  let tmp_offset := seq *z seq in
  tmp <- gemm_batch Trans NoTrans seq seq head (flash_scale head) K head K_offset Q head Q_offset o_zero tmp seq tmp_offset batch ;;
  k_mask_scalar (seq *z seq) batch mask o_ninf tmp.

(** tmp = softmax of the scores: flash_softmax_gemm.cc.in:86-104 and the same lines of the backward codelets *)
Definition flash_probs (seq head batch : Z) (K Q : vec) (mask : list bool) (mse tmp : vec) : res vec :=
  tmp <- flash_scores seq head batch K Q mask tmp ;;
  k_softmax_inplace 1 (seq *z batch) seq mse o_one tmp.

(** src/starpu/flash_maxsumexp.cc.in:66-103 *)
Definition flash_maxsumexp_cpu (seq head batch : Z) (b : bufs) : res bufs :=
  match b with
  | [BF K; BF Q; BB mask; BF maxsumexp; BF tmp] =>
      tmp <- flash_scores seq head batch K Q mask tmp ;;
      maxsumexp <- k_maxsumexp 1 (seq *z batch) seq tmp maxsumexp ;;
      Ok [BF K; BF Q; BB mask; BF maxsumexp; BF tmp]
  | _ => UB
  end.
(** src/starpu/flash_maxsumexp.cc.in:284-331 with redux = 0 (Config::STARPU_RW_COMMUTE is STARPU_RW) *)
Definition flash_maxsumexp_submit (seq head batch : Z) (K Q mask maxsumexp tmp : handle) : task T :=
  mkTask [(K, MR); (Q, MR); (mask, MR); (maxsumexp, MRW); (tmp, MSCRATCH)] (flash_maxsumexp_cpu seq head batch).

(** src/starpu/flash_softmax_gemm.cc.in:66-120 *)
Definition flash_softmax_gemm_cpu (seq head batch : Z) (b : bufs) : res bufs :=
  match b with
  | [BF K; BF Q; BB mask; BF maxsumexp; BF V; BF A; BF tmp] =>
      tmp <- flash_probs seq head batch K Q mask maxsumexp tmp ;;
      let K_offset := head *z seq in
      let tmp_offset := seq *z seq in
      A <- gemm_batch NoTrans NoTrans head seq seq o_one V head K_offset tmp seq tmp_offset o_one A head K_offset batch ;;
      Ok [BF K; BF Q; BB mask; BF maxsumexp; BF V; BF A; BF tmp]
  | _ => UB
  end.
(** src/starpu/flash_softmax_gemm.cc.in:315-364 with redux = 0 *)
Definition flash_softmax_gemm_submit (seq head batch : Z) (K Q mask maxsumexp V A tmp : handle) : task T :=
  mkTask [(K, MR); (Q, MR); (mask, MR); (maxsumexp, MR); (V, MR); (A, MRW); (tmp, MSCRATCH)] (flash_softmax_gemm_cpu seq head batch).

(** src/starpu/flash_softmax_gemm_backward_sumprod_slice.cc.in:67-137 (here the factor is
    1.0/std::sqrt(args->head): the square root of an integer is taken in double precision) *)
Definition flash_bwd_sumprod_cpu (seq head batch : Z) (b : bufs) : res bufs :=
  match b with
  | [BF K; BF Q; BB mask; BF maxsumexp; BF dA; BF V; BF dV; BF sumprod_slice; BF tmp; BF tmp_grad] =>
      tmp <- flash_probs seq head batch K Q mask maxsumexp tmp ;;
      let K_offset := head *z seq in
      let tmp_offset := seq *z seq in
      dV <- gemm_batch NoTrans Trans head seq seq o_one dA head K_offset tmp seq tmp_offset o_one dV head K_offset batch ;;
      tmp_grad <- gemm_batch Trans NoTrans seq seq head o_one V head K_offset dA head K_offset o_zero tmp_grad seq tmp_offset batch ;;
      sumprod_slice <- k_sumprod_slice 1 (seq *z batch) seq o_one tmp_grad tmp o_one sumprod_slice ;;
      Ok [BF K; BF Q; BB mask; BF maxsumexp; BF dA; BF V; BF dV; BF sumprod_slice; BF tmp; BF tmp_grad]
  | _ => UB
  end.
(** src/starpu/flash_softmax_gemm_backward_sumprod_slice.cc.in:357-411 with redux = 0 *)
Definition flash_bwd_sumprod_submit (seq head batch : Z) (K Q mask maxsumexp dA V dV sumprod_slice tmp tmp_grad : handle) : task T :=
  mkTask [(K, MR); (Q, MR); (mask, MR); (maxsumexp, MR); (dA, MR); (V, MR); (dV, MRW); (sumprod_slice, MRW);
          (tmp, MSCRATCH); (tmp_grad, MSCRATCH)] (flash_bwd_sumprod_cpu seq head batch).

(** src/starpu/flash_softmax_gemm_backward_dq_dk.cc.in:68-148; the two cblas calls of the last loop work on different outputs
    and are written as two loops *)
Definition flash_bwd_dq_dk_cpu (seq head batch : Z) (b : bufs) : res bufs :=
  match b with
  | [BF K; BF Q; BB mask; BF maxsumexp; BF dA; BF V; BF sumprod_slice; BF dQ; BF dK; BF tmp; BF tmp_grad] =>
      tmp <- flash_probs seq head batch K Q mask maxsumexp tmp ;;
      let K_offset := head *z seq in
      let tmp_offset := seq *z seq in
      tmp_grad <- gemm_batch Trans NoTrans seq seq head o_one V head K_offset dA head K_offset o_zero tmp_grad seq tmp_offset batch ;;
      tmp_grad <- k_add_slice 1 (seq *z batch) seq (- o_one) sumprod_slice o_one tmp_grad ;;
      tmp_grad <- k_prod (seq *z seq *z batch) tmp tmp_grad ;;
      tmp_grad <- k_mask_scalar (seq *z seq) batch mask o_zero tmp_grad ;;
      dQ <- gemm_batch NoTrans NoTrans head seq seq (flash_scale head) K head K_offset tmp_grad seq tmp_offset o_one dQ head K_offset batch ;;
      dK <- gemm_batch NoTrans Trans head seq seq (flash_scale head) Q head K_offset tmp_grad seq tmp_offset o_one dK head K_offset batch ;;
      Ok [BF K; BF Q; BB mask; BF maxsumexp; BF dA; BF V; BF sumprod_slice; BF dQ; BF dK; BF tmp; BF tmp_grad]
  | _ => UB
  end.
(** src/starpu/flash_softmax_gemm_backward_dq_dk.cc.in:386-441 with redux = 0 *)
Definition flash_bwd_dq_dk_submit (seq head batch : Z) (K Q mask maxsumexp dA V sumprod_slice dQ dK tmp tmp_grad : handle) : task T :=
  mkTask [(K, MR); (Q, MR); (mask, MR); (maxsumexp, MR); (dA, MR); (V, MR); (sumprod_slice, MR); (dQ, MRW); (dK, MRW);
          (tmp, MSCRATCH); (tmp_grad, MSCRATCH)] (flash_bwd_dq_dk_cpu seq head batch).

(* ------------------------------------------------------------------ *)
(** ** Tensor level: no argument is checked *)

(** head_size, n_seq_tile, n_batch_tile*n_head_tile: src/tensor/flash_maxsumexp.cc:85-88 *)
Definition flash_dims (Q : tensor) : res (Z * Z * Z) :=
  head_size <- rd (t_shape Q) 0 ;;
  n_seq_tile <- rd (t_base Q) 1 ;;
  n_batch_tile <- rd (t_base Q) 2 ;;
  n_head_tile <- rd (t_base Q) 3 ;;
  Ok (head_size, n_seq_tile, n_batch_tile *z n_head_tile).

(** src/tensor/flash_maxsumexp.cc:26-120 *)
Definition flash_maxsumexp_async (Q K mask maxsumexp tmp : tensor) (redux : bool) : res (list (task T)) :=
  '(head_size, n_seq_tile, batch) <- flash_dims Q ;;
  for_ 0 (t_ntiles maxsumexp) (fun i ts =>
    maxsumexp_tile_handle <- get_tile_handle maxsumexp i ;;
    maxsumexp_tile_index <- linear_to_index (t_grid maxsumexp) i ;;
    q_tile_handle <- get_tile_handle_idx Q maxsumexp_tile_index ;;
    x <- rd maxsumexp_tile_index 1 ;;
    mask_tile_index <- wr (zrep 2 0%Z) 1 x ;;
    g <- rd (tt_shape (t_grid K)) 1 ;;
    '(_, _, _, ts) <- for_ 0 g (fun j '(tmp_tile_index, k_tile_index, mask_tile_index, ts) =>
      tmp_tile_index <- wr tmp_tile_index 0 j ;;
      k_tile_index <- wr k_tile_index 1 j ;;
      mask_tile_index <- wr mask_tile_index 0 j ;;
      tmp_tile_handle <- get_tile_handle_idx tmp tmp_tile_index ;;
      k_tile_handle <- get_tile_handle_idx K k_tile_index ;;
      mask_tile_handle <- get_tile_handle_idx mask mask_tile_index ;;
      Ok (tmp_tile_index, k_tile_index, mask_tile_index,
          ts ++ [flash_maxsumexp_submit n_seq_tile head_size batch k_tile_handle q_tile_handle mask_tile_handle
                   maxsumexp_tile_handle tmp_tile_handle]))
      (maxsumexp_tile_index, maxsumexp_tile_index, mask_tile_index, ts) ;;
    Ok ts) [].

(** src/tensor/flash_softmax_gemm.cc:28-131 *)
Definition flash_softmax_gemm_async (Q K V mask maxsumexp dst tmp : tensor) (redux : bool) : res (list (task T)) :=
  '(head_size, n_seq_tile, batch) <- flash_dims Q ;;
  for_ 0 (t_ntiles maxsumexp) (fun i ts =>
    maxsumexp_tile_handle <- get_tile_handle maxsumexp i ;;
    maxsumexp_tile_index <- linear_to_index (t_grid maxsumexp) i ;;
    q_tile_handle <- get_tile_handle_idx Q maxsumexp_tile_index ;;
    dst_tile_handle <- get_tile_handle_idx dst maxsumexp_tile_index ;;
    x <- rd maxsumexp_tile_index 1 ;;
    mask_tile_index <- wr (zrep 2 0%Z) 1 x ;;
    let ts := ts ++ [clear_submit dst_tile_handle] in
    g <- rd (tt_shape (t_grid K)) 1 ;;
    '(_, _, _, _, ts) <- for_ 0 g (fun j '(tmp_tile_index, k_tile_index, v_tile_index, mask_tile_index, ts) =>
      tmp_tile_index <- wr tmp_tile_index 0 j ;;
      k_tile_index <- wr k_tile_index 1 j ;;
      v_tile_index <- wr v_tile_index 1 j ;;
      mask_tile_index <- wr mask_tile_index 0 j ;;
      tmp_tile_handle <- get_tile_handle_idx tmp tmp_tile_index ;;
      k_tile_handle <- get_tile_handle_idx K k_tile_index ;;
      v_tile_handle <- get_tile_handle_idx V v_tile_index ;;
      mask_tile_handle <- get_tile_handle_idx mask mask_tile_index ;;
      Ok (tmp_tile_index, k_tile_index, v_tile_index, mask_tile_index,
          ts ++ [flash_softmax_gemm_submit n_seq_tile head_size batch k_tile_handle q_tile_handle mask_tile_handle
                   maxsumexp_tile_handle v_tile_handle dst_tile_handle tmp_tile_handle]))
      (maxsumexp_tile_index, maxsumexp_tile_index, maxsumexp_tile_index, mask_tile_index, ts) ;;
    Ok ts) [].

(** Handles of the tiles used by one task of the backward operation, in the order tmp, tmp_grad, sumprod_slice, q, dst_grad,
    mask, maxsumexp: src/tensor/flash_softmax_gemm_backward.cc:98-137 and 154-193.  The code keeps the index vectors from one
    iteration to the next and overwrites the same entries; here they are built anew. *)
Definition flash_bwd_handles (Q mask maxsumexp dst_grad tmp tmp_grad sumprod_slice : tensor) (dV_tile_index : list Z) (j : Z)
    : res (handle * handle * handle * handle * handle * handle * handle) :=
  x1 <- rd dV_tile_index 1 ;;
  x2 <- rd dV_tile_index 2 ;;
  x3 <- rd dV_tile_index 3 ;;
  tmp_tile_index <- wr dV_tile_index 0 x1 ;;
  tmp_tile_index <- wr tmp_tile_index 1 j ;;
  q_tile_index <- wr dV_tile_index 1 j ;;
  tmp_tile_handle <- get_tile_handle_idx tmp tmp_tile_index ;;
  tmp_grad_tile_handle <- get_tile_handle_idx tmp_grad tmp_tile_index ;;
  tmp_sumprod_slice_tile_handle <- get_tile_handle_idx sumprod_slice [j; x2; x3] ;;
  q_tile_handle <- get_tile_handle_idx Q q_tile_index ;;
  dst_grad_tile_handle <- get_tile_handle_idx dst_grad q_tile_index ;;
  mask_tile_handle <- get_tile_handle_idx mask [x1; j] ;;
  maxsumexp_tile_handle <- get_tile_handle_idx maxsumexp q_tile_index ;;
  Ok (tmp_tile_handle, tmp_grad_tile_handle, tmp_sumprod_slice_tile_handle, q_tile_handle, dst_grad_tile_handle,
      mask_tile_handle, maxsumexp_tile_handle).

(** src/tensor/flash_softmax_gemm_backward.cc:86-149: the first cycle *)
Definition flash_bwd_first (Q dQ K dK V dV mask maxsumexp dst_grad tmp tmp_grad sumprod_slice : tensor) : res (list (task T)) :=
  '(head_size, n_seq_tile, batch) <- flash_dims Q ;;
  for_ 0 (t_ntiles dV) (fun i ts =>
    dQ_tile_handle <- get_tile_handle dQ i ;;
    dK_tile_handle <- get_tile_handle dK i ;;
    dV_tile_handle <- get_tile_handle dV i ;;
    dV_tile_index <- linear_to_index (t_grid dV) i ;;
    k_tile_handle <- get_tile_handle_idx K dV_tile_index ;;
    v_tile_handle <- get_tile_handle_idx V dV_tile_index ;;
    let ts := ts ++ [clear_submit dQ_tile_handle; clear_submit dK_tile_handle; clear_submit dV_tile_handle] in
    g <- rd (tt_shape (t_grid Q)) 1 ;;
    for_ 0 g (fun j ts =>
      '(htmp, hgrad, hsum, hq, hdst, hmask, hmse) <-
        flash_bwd_handles Q mask maxsumexp dst_grad tmp tmp_grad sumprod_slice dV_tile_index j ;;
      Ok (ts ++ [flash_bwd_sumprod_submit n_seq_tile head_size batch k_tile_handle hq hmask hmse hdst v_tile_handle
                   dV_tile_handle hsum htmp hgrad])) ts) [].

(** src/tensor/flash_softmax_gemm_backward.cc:150-207: the second cycle *)
Definition flash_bwd_second (Q dQ K dK V dV mask maxsumexp dst_grad tmp tmp_grad sumprod_slice : tensor) : res (list (task T)) :=
  '(head_size, n_seq_tile, batch) <- flash_dims Q ;;
  for_ 0 (t_ntiles dV) (fun i ts =>
    dK_tile_handle <- get_tile_handle dK i ;;
    dV_tile_index <- linear_to_index (t_grid dV) i ;;
    k_tile_handle <- get_tile_handle_idx K dV_tile_index ;;
    v_tile_handle <- get_tile_handle_idx V dV_tile_index ;;
    g <- rd (tt_shape (t_grid dQ)) 1 ;;
    for_ 0 g (fun j ts =>
      '(htmp, hgrad, hsum, hq, hdst, hmask, hmse) <-
        flash_bwd_handles Q mask maxsumexp dst_grad tmp tmp_grad sumprod_slice dV_tile_index j ;;
      dq_tile_index <- wr dV_tile_index 1 j ;;
      dQ_tile_handle <- get_tile_handle_idx dQ dq_tile_index ;;
      Ok (ts ++ [flash_bwd_dq_dk_submit n_seq_tile head_size batch k_tile_handle hq hmask hmse hdst v_tile_handle
                   hsum dQ_tile_handle dK_tile_handle htmp hgrad])) ts) [].

(** src/tensor/flash_softmax_gemm_backward.cc:25-208 *)
Definition flash_softmax_gemm_backward_async (Q dQ K dK V dV mask maxsumexp dst_grad tmp tmp_grad sumprod_slice : tensor)
    (redux : bool) : res (list (task T)) :=
  ts1 <- flash_bwd_first Q dQ K dK V dV mask maxsumexp dst_grad tmp tmp_grad sumprod_slice ;;
  ts2 <- flash_bwd_second Q dQ K dK V dV mask maxsumexp dst_grad tmp tmp_grad sumprod_slice ;;
  Ok (ts1 ++ ts2).

End F.
