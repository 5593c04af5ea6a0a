(** * Model of transpose, gemm and nrm2: kernels, StarPU submission, tensor level.

    As in ElemOps.v: MPI rank tests, transfers and flushes are dropped (one node); the CBLAS
    kernels (gemm, nrm2) are replaced by reference loops and the CBLAS_INT range checks of
    the arguments are not modelled. *)
From Verif Require Import Base Spec Traits Runtime Ops KernelsElem ElemOps SliceOps.
Local Open Scope ops_scope.

(** include/nntile/constants.hh:23-52 (the constructor accepts no other value) *)
Inductive transop := NoTrans | Trans.

Section M.
Context {T : Type} {O : Ops T}.
Local Notation vec := (list T).

(** src/kernel/transpose/cpu.cc:24-46 *)
Definition k_transpose (m n : Z) (alpha : T) (src dst : vec) : res vec :=
  for_ 0 m (fun i => for_ 0 n (fun j dst =>
    x <- rd src (i +z j *z m) ;;
    wr dst (i *z n +z j) (alpha * x))) dst.

(** cblas_sgemm/cblas_dgemm, column major, as called in src/starpu/gemm.cc.in:38-61 (reference
    loop: C(i,j) = alpha * sum_l opA(i,l)*opB(l,j) + beta*C(i,j), C not read if beta = 0);
    oA, oB, oC are the current values of the pointers A, B, C relative to the buffers. *)
Definition blas_gemm (transA transB : transop) (M N K : Z) (alpha : T) (A : vec) (oA ldA : Z)
    (B : vec) (oB ldB : Z) (beta : T) (C : vec) (oC ldC : Z) : res vec :=
  for_ 0 N (fun j => for_ 0 M (fun i C =>
    temp <- for_ 0 K (fun l temp =>
      a <- rd A (oA +z match transA with NoTrans => i +z l *z ldA | Trans => l +z i *z ldA end) ;;
      b <- rd B (oB +z match transB with NoTrans => l +z j *z ldB | Trans => j +z l *z ldB end) ;;
      Ok (temp + a * b)) o_zero ;;
    if beta ==? o_zero then wr C (oC +z (i +z j *z ldC)) (alpha * temp)
    else c <- rd C (oC +z (i +z j *z ldC)) ;; wr C (oC +z (i +z j *z ldC)) (alpha * temp + beta * c))) C.

(** src/starpu/gemm.cc.in:63-112: the codelet function *)
Definition k_gemm (transA transB : transop) (m n k batch : Z) (alpha : T) (A B : vec) (beta : T) (C : vec) : res vec :=
  let ldA := match transA with NoTrans => m | Trans => k end in
  let ldB := match transB with NoTrans => k | Trans => n end in
  let ldC := m in
  let A_offset := m *z k in
  let B_offset := n *z k in
  let C_offset := m *z n in
  '(oA, oB, oC, C) <- for_ 0 batch (fun _ '(oA, oB, oC, C) =>
    C <- blas_gemm transA transB m n k alpha A oA ldA B oB ldB beta C oC ldC ;;
    Ok (oA +z A_offset, oB +z B_offset, oC +z C_offset, C)) (0%Z, 0%Z, 0%Z, C) ;;
  Ok C.

(** cblas_snrm2/cblas_dnrm2 as called in src/starpu/nrm2.cc.in:38-66 (reference loop) *)
Definition k_nrm2 (nelems : Z) (src dst : vec) : res vec :=
  ssq <- for_ 0 nelems (fun i acc => x <- rd src i ;; Ok (acc + x * x)) o_zero ;;
  wr dst 0 (o_sqrt ssq).

(* ------------------------------------------------------------------ *)
(** ** StarPU level *)

(** src/starpu/transpose.cc:27-40, 111-136 *)
Definition transpose_submit (m n : Z) (alpha : T) (src dst : handle) : task T :=
  mkTask [(src, MR); (dst, MW)] (wrap2 (k_transpose m n alpha)).
(** src/starpu/gemm.cc.in:467-552 *)
Definition gemm_submit (transA transB : transop) (m n k batch : Z) (alpha : T) (A B : handle) (beta : T)
    (C : handle) (redux : bool) : task T :=
  let C_mode := if beta ==? o_zero then MW
    else if beta ==? o_one then (if redux then MREDUX else MRW)
    else MRW in
  mkTask [(A, MR); (B, MR); (C, C_mode)]
    (wrap3 (fun A B C => k_gemm transA transB m n k batch alpha A B beta C)).
(** src/starpu/nrm2.cc.in:53-66, 152-183 *)
Definition nrm2_submit (nelems : Z) (src dst : handle) : task T :=
  mkTask [(src, MR); (dst, MW)] (wrap2 (k_nrm2 nelems)).

(* ------------------------------------------------------------------ *)
(** ** Tensor level *)

(** src/tensor/transpose.cc:29-50: checks *)
Definition transpose_check (src dst : tensor) (ndim : Z) : res unit :=
  throw_if ((ndim <=? 0) || (ndim >=? t_ndim src))%Z "ndim <= 0 or ndim >= src.ndim" (
  throw_if (negb (t_ndim dst =? t_ndim src))%Z "dst.ndim != src.ndim" (
  for_ 0 (t_ndim dst) (fun i _ => check_dim src ((i +z ndim) mod t_ndim dst) dst i) tt)).

(** src/tensor/transpose.cc:24-78 *)
Definition transpose_async (alpha : T) (src dst : tensor) (ndim : Z) : res (list (task T)) :=
  _ <- transpose_check src dst ndim ;;
  '(grid_m, grid_n) <- rd (tt_ms (t_grid src)) ndim ;;
  for_ 0 grid_m (fun i => for_ 0 grid_n (fun j ts =>
    src_tile_handle <- get_tile_handle src (i +z j *z grid_m) ;;
    dst_tile_handle <- get_tile_handle dst (i *z grid_n +z j) ;;
    traits <- get_tile_traits src (i +z j *z grid_m) ;;
    '(m, n) <- rd (tt_ms traits) ndim ;;
    Ok (ts ++ [transpose_submit m n alpha src_tile_handle dst_tile_handle]))) [].

(** src/tensor/gemm.cc:23-50 *)
Definition gemm_check_ndim (A B C : tensor) (ndim batch_ndim : Z) (k : res unit) : res unit :=
  throw_if (ndim <? 0)%Z "ndim < 0" (
  throw_if (batch_ndim <? 0)%Z "batch_ndim < 0" (
  throw_if (t_ndim A <? batch_ndim +z ndim)%Z "A.ndim < batch_ndim+ndim" (
  throw_if (t_ndim B <? batch_ndim +z ndim)%Z "B.ndim < batch_ndim+ndim" (
  throw_if (negb (t_ndim A +z t_ndim B =? t_ndim C +z 2 *z ndim +z batch_ndim))%Z
    "A.ndim + B.ndim != C.ndim + 2*ndim + batch_ndim" k)))).
(** src/tensor/gemm.cc:52-79 *)
Definition gemm_check_batch (A B C : tensor) (batch_ndim : Z) : res unit :=
  for_ 0 batch_ndim (fun i _ =>
    _ <- check_dim A (t_ndim A -z i -z 1) B (t_ndim B -z i -z 1) ;;
    check_dim A (t_ndim A -z i -z 1) C (t_ndim C -z i -z 1)) tt.
(** src/tensor/gemm.cc:81-196 *)
Definition gemm_check_opA_opB (transA : transop) (A : tensor) (transB : transop) (B : tensor) (ndim batch_ndim : Z) : res unit :=
  match transB, transA with
  | NoTrans, NoTrans => for_ 0 ndim (fun i _ => check_dim A (t_ndim A -z batch_ndim -z ndim +z i) B i) tt
  | NoTrans, Trans => for_ 0 ndim (fun i _ => check_dim A i B i) tt
  | Trans, NoTrans => for_ 0 ndim (fun i _ =>
      check_dim A (t_ndim A -z batch_ndim -z ndim +z i) B (t_ndim B -z batch_ndim -z ndim +z i)) tt
  | Trans, Trans => for_ 0 ndim (fun i _ => check_dim A i B (t_ndim B -z batch_ndim -z ndim +z i)) tt
  end.
(** src/tensor/gemm.cc:198-253 *)
Definition gemm_check_opA_C (transA : transop) (A C : tensor) (ndim batch_ndim : Z) : res unit :=
  match transA with
  | NoTrans => for_ 0 (t_ndim A -z batch_ndim -z ndim) (fun i _ => check_dim A i C i) tt
  | Trans => for_ ndim (t_ndim A -z batch_ndim) (fun i _ => check_dim A i C (i -z ndim)) tt
  end.
(** src/tensor/gemm.cc:255-311 *)
Definition gemm_check_opB_C (transB : transop) (B C : tensor) (ndim batch_ndim : Z) : res unit :=
  match transB with
  | NoTrans => for_ ndim (t_ndim B -z batch_ndim) (fun i _ => check_dim B i C (t_ndim C -z t_ndim B +z i)) tt
  | Trans => for_ 0 (t_ndim B -z batch_ndim -z ndim) (fun i _ => check_dim B i C (t_ndim C -z t_ndim B +z ndim +z i)) tt
  end.
(** src/tensor/gemm.cc:313-328 *)
Definition gemm_check (transA : transop) (A : tensor) (transB : transop) (B C : tensor) (ndim batch_ndim : Z) : res unit :=
  gemm_check_ndim A B C ndim batch_ndim (
  _ <- gemm_check_batch A B C batch_ndim ;;
  _ <- gemm_check_opA_opB transA A transB B ndim batch_ndim ;;
  _ <- gemm_check_opA_C transA A C ndim batch_ndim ;;
  gemm_check_opB_C transB B C ndim batch_ndim).

(** Integer division of the code; the divisor is never 0 here. *)
Definition div_ (a b : Z) : res Z := if (b =? 0)%Z then UB else Ok (Z.quot a b).

(** tile_k: src/tensor/gemm.cc:405-419 and 444-457 *)
Definition gemm_tile_k (transA : transop) (A : tensor) (tt : TileTraits) (ndim batch_ndim tile_batch : Z) : res Z :=
  match transA with
  | NoTrans => '(_, x) <- rd (tt_ms tt) (t_ndim A -z batch_ndim -z ndim) ;; div_ x tile_batch
  | Trans => '(x, _) <- rd (tt_ms tt) ndim ;; Ok x
  end.

(** src/tensor/gemm.cc:344-473 *)
Definition gemm_async (alpha : T) (transA : transop) (A : tensor) (transB : transop) (B : tensor) (beta : T)
    (C : tensor) (ndim batch_ndim : Z) (redux : bool) : res (list (task T)) :=
  _ <- gemm_check transA A transB B C ndim batch_ndim ;;
  '(m, c1) <- rd (tt_ms (t_grid C)) (t_ndim A -z batch_ndim -z ndim) ;;
  '(_, batch) <- rd (tt_ms (t_grid C)) (t_ndim C -z batch_ndim) ;;
  n <- div_ c1 batch ;;
  '(k, sA0, sA1) <- match transA with
    | NoTrans => '(_, x) <- rd (tt_ms (t_grid A)) (t_ndim A -z batch_ndim -z ndim) ;;
                 k <- div_ x batch ;; Ok (k, 1%Z, m)
    | Trans => '(k, _) <- rd (tt_ms (t_grid A)) ndim ;; Ok (k, k, 1%Z)
    end ;;
  let '(sB0, sB1) := match transB with NoTrans => (1%Z, k) | Trans => (n, 1%Z) end in
  for_ 0 batch (fun b => for_ 0 n (fun j => for_ 0 m (fun i ts =>
    let C_tile_offset := (b *z n +z j) *z m +z i in
    C_tile_handle <- get_tile_handle C C_tile_offset ;;
    C_tile_traits <- get_tile_traits C C_tile_offset ;;
    '(tile_m, c1) <- rd (tt_ms C_tile_traits) (t_ndim A -z batch_ndim -z ndim) ;;
    '(_, tile_batch) <- rd (tt_ms C_tile_traits) (t_ndim C -z batch_ndim) ;;
    tile_n <- div_ c1 tile_batch ;;
    let A_tile_offset := sA0 *z i +z b *z m *z k in
    let B_tile_offset := sB1 *z j +z b *z n *z k in
    A_first_tile_handle <- get_tile_handle A A_tile_offset ;;
    B_first_tile_handle <- get_tile_handle B B_tile_offset ;;
    A_first_tile_traits <- get_tile_traits A A_tile_offset ;;
    tile_k <- gemm_tile_k transA A A_first_tile_traits ndim batch_ndim tile_batch ;;
    let t0 := gemm_submit transA transB tile_m tile_n tile_k tile_batch alpha A_first_tile_handle
                B_first_tile_handle beta C_tile_handle redux in
    '(_, _, ts) <- for_ 1 k (fun _ '(A_tile_offset, B_tile_offset, ts) =>
      let A_tile_offset := A_tile_offset +z sA1 in
      let B_tile_offset := B_tile_offset +z sB0 in
      A_tile_handle <- get_tile_handle A A_tile_offset ;;
      B_tile_handle <- get_tile_handle B B_tile_offset ;;
      A_tile_traits <- get_tile_traits A A_tile_offset ;;
      tile_k <- gemm_tile_k transA A A_tile_traits ndim batch_ndim tile_batch ;;
      Ok (A_tile_offset, B_tile_offset,
          ts ++ [gemm_submit transA transB tile_m tile_n tile_k tile_batch alpha A_tile_handle
                   B_tile_handle o_one C_tile_handle redux]))
      (A_tile_offset, B_tile_offset, ts ++ [t0]) ;;
    Ok ts))) [].

(** src/tensor/nrm2.cc:30-49: checks *)
Definition nrm2_check (src dst tmp : tensor) : res unit :=
  throw_if (negb (t_ndim dst =? 0))%Z "dst.ndim != 0" (
  throw_if (negb (t_ndim src =? t_ndim tmp))%Z "src.ndim != tmp.ndim" (
  throw_if (negb (list_eqb Z.eqb (t_shape tmp) (tt_shape (t_grid src)))) "tmp.shape != src.grid.shape" (
  for_ 0 (t_ndim src) (fun i _ =>
    x <- rd (t_base tmp) i ;;
    throw_if (negb (x =? 1))%Z "tmp.basetile_shape[i] != 1" (Ok tt)) tt))).

(** src/tensor/nrm2.cc:26-115 *)
Definition nrm2_async (alpha : T) (src : tensor) (beta : T) (dst tmp : tensor) : res (list (task T)) :=
  _ <- nrm2_check src dst tmp ;;
  dst_tile_handle <- get_tile_handle dst 0 ;;
  for_ 0 (t_ntiles src) (fun i ts =>
    src_tile_handle <- get_tile_handle src i ;;
    src_tile_traits <- get_tile_traits src i ;;
    tmp_tile_handle <- get_tile_handle tmp i ;;
    Ok (ts ++ [nrm2_submit (tt_nelems src_tile_traits) src_tile_handle tmp_tile_handle;
               hypot_submit 1 alpha tmp_tile_handle (if (i =? 0)%Z then beta else o_one) dst_tile_handle])) [].
End M.
