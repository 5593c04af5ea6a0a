(** * Model of the soft-max and normalisation family: kernels, StarPU submission, tensor level
    (maxsumexp, softmax, softmax_inplace, logsumexp, accumulate_maxsumexp, sumnorm, normalize).

    As in ElemOps.v: MPI rank tests, transfers and flushes are dropped (one node). *)
From Verif Require Import Base Spec Traits Runtime Ops KernelsElem ElemOps SliceOps.
Local Open Scope ops_scope.

Section S.
Context {T : Type} {O : Ops T}.
Local Notation vec := (list T).

(** src/kernel/maxsumexp/cpu.cc:65-92: one value of the slice; state (max, sum, c) *)
Definition mse_step (val : T) (st : T * T * T) : T * T * T :=
  let '(max, sum, c) := st in
  if o_isinf val then st
  else if max <? val then
    let tmp := o_exp (max - val) in
    let y := o_one - c * tmp in
    let sum := sum * tmp in
    let t := sum + y in
    (val, t, (t - sum) - y)
  else
    let y := o_exp (val - max) - c in
    let t := sum + y in
    (max, t, (t - sum) - y).

(** src/kernel/maxsumexp/cpu.cc:25-130.  The running dst_offset of iteration (i2,i1) is
    2*(i2*m+i1).  The two dead stores at lines 110 and 117 (overwritten before anybody reads
    them) are dropped. *)
Definition k_maxsumexp (m n k : Z) (src dst : vec) : res vec :=
  let mk := m *z k in
  for_ 0 n (fun i2 => for_ 0 m (fun i1 dst =>
    let dst_offset := 2 *z (i2 *z m +z i1) in
    v0 <- rd src (i2 *z mk +z i1) ;;
    '(max, sum, c) <- for_ 1 k (fun i0 st =>
        v <- rd src (i2 *z mk +z i1 +z i0 *z m) ;;
        Ok (mse_step v st)) (v0, o_one, o_zero) ;;
    if o_isinf max then Ok dst
    else
      sum_old <- rd dst (dst_offset +z 1) ;;
      if sum_old ==? o_zero then
        dst <- wr dst dst_offset max ;;
        wr dst (dst_offset +z 1) sum
      else
        max_old <- rd dst dst_offset ;;
        if max_old <? max then
          dst <- wr dst dst_offset max ;;
          let y := sum_old * o_exp (max_old - max) - c in
          wr dst (dst_offset +z 1) (sum + y)
        else
          let tmp := o_exp (max - max_old) in
          let y := sum_old - c * tmp in
          let sum := sum * tmp in
          wr dst (dst_offset +z 1) (sum + y))) dst.

(** src/kernel/softmax/cpu.cc:25-78.  Running src_dst_offset of iteration (i2,i1,i0) is
    i0 + m*(i1 + k*i2); running maxsumexp_offset is 2*(m*i2+i0). *)
Definition k_softmax (m n k : Z) (maxsumexp src : vec) (alpha : T) (dst : vec) : res vec :=
  for_ 0 n (fun i2 => for_ 0 k (fun i1 => for_ 0 m (fun i0 dst =>
    let src_dst_offset := i0 +z m *z (i1 +z k *z i2) in
    let maxsumexp_offset := 2 *z m *z i2 +z 2 *z i0 in
    val <- rd src src_dst_offset ;;
    max <- rd maxsumexp maxsumexp_offset ;;
    sum <- rd maxsumexp (maxsumexp_offset +z 1) ;;
    if negb (o_isinf val) then wr dst src_dst_offset (alpha * o_exp (val - max) / sum)
    else wr dst src_dst_offset o_zero))) dst.

(** src/kernel/softmax_inplace/cpu.cc:25-72 *)
Definition k_softmax_inplace (m n k : Z) (maxsumexp : vec) (alpha : T) (dst : vec) : res vec :=
  for_ 0 n (fun i2 => for_ 0 k (fun i1 => for_ 0 m (fun i0 dst =>
    let dst_offset := i0 +z m *z (i1 +z k *z i2) in
    let src_offset := 2 *z m *z i2 +z 2 *z i0 in
    val <- rd dst dst_offset ;;
    max <- rd maxsumexp src_offset ;;
    sum <- rd maxsumexp (src_offset +z 1) ;;
    if negb (o_isinf val) then wr dst dst_offset (alpha * o_exp (val - max) / sum)
    else wr dst dst_offset o_zero))) dst.

(** src/kernel/logsumexp/cpu.cc:26-35 *)
Definition k_logsumexp (nelems : Z) (maxsumexp logsumexp : vec) : res vec :=
  for_ 0 nelems (fun i dst =>
    a <- rd maxsumexp (2 *z i) ;; b <- rd maxsumexp (2 *z i +z 1) ;;
    wr dst i (a + o_log b)) logsumexp.

(** src/kernel/accumulate_maxsumexp/cpu.cc:25-62 *)
Definition k_accumulate_maxsumexp (nelems : Z) (src dst : vec) : res vec :=
  for_ 0 nelems (fun i dst =>
    let src_offset := 2 *z i in
    s1 <- rd src (src_offset +z 1) ;;
    if s1 ==? o_zero then Ok dst
    else
      d1 <- rd dst (src_offset +z 1) ;;
      s0 <- rd src src_offset ;;
      if d1 ==? o_zero then
        dst <- wr dst src_offset s0 ;;
        wr dst (src_offset +z 1) s1
      else
        d0 <- rd dst src_offset ;;
        if d0 <? s0 then
          dst <- wr dst (src_offset +z 1) (s1 + d1 * o_exp (d0 - s0)) ;;
          wr dst src_offset s0
        else wr dst (src_offset +z 1) (d1 + s1 * o_exp (s0 - d0))) dst.

(** src/kernel/sumnorm/cpu.cc:72-94: one value of the slice; state (sum, scale, ssq) *)
Definition sn_step (val : T) (st : T * T * T) : T * T * T :=
  let '(sum, scale, ssq) := st in
  if val ==? o_zero then st
  else
    let sum := sum + val in
    let absval := o_abs val in
    if scale <? absval then
      let tmp := scale / absval in
      (sum, absval, ssq * tmp * tmp + o_one)
    else
      let tmp := absval / scale in
      (sum, scale, ssq + tmp * tmp).

(** src/kernel/sumnorm/cpu.cc:25-104; running dst_offset as in k_maxsumexp *)
Definition k_sumnorm (m n k : Z) (src sumnorm : vec) : res vec :=
  let mk := m *z k in
  for_ 0 n (fun i2 => for_ 0 m (fun i1 dst =>
    let dst_offset := 2 *z (i2 *z m +z i1) in
    sum <- rd dst dst_offset ;;
    scale <- rd dst (dst_offset +z 1) ;;
    '(sum, scale, ssq) <- for_ 0 k (fun i0 st =>
        v <- rd src (i2 *z mk +z i1 +z i0 *z m) ;;
        Ok (sn_step v st)) (sum, scale, o_one) ;;
    dst <- wr dst dst_offset sum ;;
    wr dst (dst_offset +z 1) (scale * o_sqrt ssq))) sumnorm.

(** a >= b, false for unordered arguments *)
Definition o_geb (a b : T) : bool := (b <? a) || (b ==? a).

(** src/kernel/normalize/cpu.cc:66-95: deviation from sum and norm *)
Definition norm_dev (invl rinvl reps sum norm : T) : T :=
  let mean := sum * invl in
  let rms := norm * rinvl in
  let tmp := o_abs mean / rms in
  if o_geb tmp o_one then reps
  else if reps <? rms then
    let ssq := o_one - tmp * tmp in
    let tmp2 := reps / rms in
    let ssq := ssq + tmp2 * tmp2 in
    rms * o_sqrt ssq
  else
    let ssq := o_one - tmp * tmp in
    let tmp2 := rms / reps in
    let ssq := ssq * (tmp2 * tmp2) in
    let ssq := ssq + o_one in
    reps * o_sqrt ssq.

(** src/kernel/normalize/cpu.cc:25-107; running offsets as in k_softmax.  gamma_beta: the
    codelet passes gamma = &gamma_beta[0], beta = &gamma_beta[1]
    (src/starpu/normalize.cc:27-42) *)
Definition k_normalize (m n k l : Z) (eps : T) (gamma_beta sumnorm dst : vec) : res vec :=
  let invl := o_one / o_ofZ l in
  let rinvl := o_sqrt invl in
  let reps := o_sqrt eps in
  for_ 0 n (fun i2 => for_ 0 k (fun i1 => for_ 0 m (fun i0 dst =>
    let dst_offset := i0 +z m *z (i1 +z k *z i2) in
    let src_offset := 2 *z m *z i2 +z 2 *z i0 in
    val <- rd dst dst_offset ;;
    sum <- rd sumnorm src_offset ;;
    norm <- rd sumnorm (src_offset +z 1) ;;
    let mean := sum * invl in
    let dev := norm_dev invl rinvl reps sum norm in
    gamma <- rd gamma_beta 0 ;;
    beta <- rd gamma_beta 1 ;;
    let val := (val - mean) / dev in
    wr dst dst_offset (val * gamma + beta)))) dst.

(* ------------------------------------------------------------------ *)
(** ** StarPU submission *)

(** src/starpu/maxsumexp.cc:112-147 *)
Definition maxsumexp_submit (m n k : Z) (src dst : handle) (redux : bool) : task T :=
  mkTask [(src, MR); (dst, if redux then MREDUX else MRW)] (wrap2 (k_maxsumexp m n k)).
(** src/starpu/softmax.cc:113-145 *)
Definition softmax_submit (m n k : Z) (maxsumexp src : handle) (alpha : T) (dst : handle) : task T :=
  mkTask [(maxsumexp, MR); (src, MR); (dst, MW)] (wrap3 (fun ms src dst => k_softmax m n k ms src alpha dst)).
(** src/starpu/softmax_inplace.cc:110-141 *)
Definition softmax_inplace_submit (m n k : Z) (maxsumexp : handle) (alpha : T) (dst : handle) : task T :=
  mkTask [(maxsumexp, MR); (dst, MRW)] (wrap2 (fun ms dst => k_softmax_inplace m n k ms alpha dst)).
(** src/starpu/logsumexp.cc:95-118 *)
Definition logsumexp_submit (nelems : Z) (maxsumexp logsumexp : handle) : task T :=
  mkTask [(maxsumexp, MR); (logsumexp, MW)] (wrap2 (k_logsumexp nelems)).
(** src/starpu/accumulate_maxsumexp.cc:28-40: dst is the first buffer; nelems is half the
    number of elements of the buffer *)
Definition accumulate_maxsumexp_cpu (b : list (buf T)) : res (list (buf T)) :=
  match b with
  | [BF dst; BF src] =>
      nelems <- cdiv (zlen dst) 2 ;;
      r <- k_accumulate_maxsumexp nelems src dst ;; Ok [BF r; BF src]
  | _ => UB end.
(** src/starpu/accumulate_maxsumexp.cc:104-125 *)
Definition accumulate_maxsumexp_submit (src dst : handle) : task T :=
  mkTask [(dst, MRW); (src, MR)] accumulate_maxsumexp_cpu.
(** src/starpu/sumnorm.cc:112-140 (Config::STARPU_RW_COMMUTE is STARPU_RW, config.hh:118-121) *)
Definition sumnorm_submit (m n k : Z) (src dst : handle) : task T :=
  mkTask [(src, MR); (dst, MRW)] (wrap2 (k_sumnorm m n k)).
(** src/starpu/normalize.cc:118-150 *)
Definition normalize_submit (m n k l : Z) (eps : T) (gamma_beta sumnorm dst : handle) : task T :=
  mkTask [(gamma_beta, MR); (sumnorm, MR); (dst, MRW)] (wrap3 (k_normalize m n k l eps)).

(* ------------------------------------------------------------------ *)
(** ** Tensor level *)

(** Common checks of src/tensor/{maxsumexp.cc:29-76, sumnorm.cc:29-76, softmax_inplace.cc:28-74}:
    the first dimension of [pair] is 2, the others are those of [big] without [axis]. *)
Definition pair_check (big pair : tensor) (axis : Z) : res unit :=
  throw_if (negb (t_ndim big =? t_ndim pair)%Z) "src.ndim != dst.ndim" (
  throw_if (t_ndim pair =? 0)%Z "Scalar input makes no sense" (
  throw_if (axis <? 0)%Z "axis < 0" (
  throw_if (axis >=? t_ndim big)%Z "axis >= src.ndim" (
  s0 <- rd (t_shape pair) 0 ;;
  throw_if (negb (s0 =? 2)%Z) "dst.shape[0] != 2" (
  b0 <- rd (t_base pair) 0 ;;
  throw_if (negb (b0 =? 2)%Z) "dst.basetile_shape[0] != 2" (
  _ <- for_ 0 axis (fun i _ => check_dim big i pair (i +z 1)) tt ;;
  _ <- for_ (axis +z 1) (t_ndim big) (fun i _ => check_dim big i pair i) tt ;;
  Ok tt)))))).

(** src/tensor/maxsumexp.cc:89-100: tile index in [big] from the tile index in [pair]; in
    softmax.cc:107-115 the write of zero at [axis] is missing, but the vector is created with
    zeros *)
Definition pair_index (big : tensor) (axis : Z) (pair_index : list Z) : res (list Z) :=
  v <- for_ 0 axis (fun j v => x <- rd pair_index (j +z 1) ;; wr v j x) (zrep (t_ndim big) 0%Z) ;;
  for_ (axis +z 1) (t_ndim big) (fun j v => x <- rd pair_index j ;; wr v j x) v.

(** src/tensor/maxsumexp.cc:25-128 *)
Definition maxsumexp_async (src dst : tensor) (axis : Z) (redux : bool) : res (list (task T)) :=
  _ <- pair_check src dst axis ;;
  for_ 0 (t_ntiles dst) (fun i ts =>
    dst_tile_handle <- get_tile_handle dst i ;;
    dst_tile_index <- linear_to_index (t_grid dst) i ;;
    src_tile_index <- pair_index src axis dst_tile_index ;;
    src_tile_index <- wr src_tile_index axis 0%Z ;;
    _ <- get_tile_traits dst i ;;
    g <- rd (tt_shape (t_grid src)) axis ;;
    for_ 0 g (fun j ts =>
      src_tile_index <- wr src_tile_index axis j ;;
      o <- index_to_linear (t_grid src) src_tile_index ;;
      src_tile_handle <- get_tile_handle src o ;;
      tt <- get_tile_traits src o ;;
      '(m, n, k) <- tile_mnk tt axis ;;
      Ok (ts ++ [maxsumexp_submit m n k src_tile_handle dst_tile_handle redux])) ts) [].

(** src/tensor/sumnorm.cc:26-132 *)
Definition sumnorm_async (src dst : tensor) (axis : Z) : res (list (task T)) :=
  _ <- pair_check src dst axis ;;
  for_ 0 (t_ntiles dst) (fun i ts =>
    dst_tile_handle <- get_tile_handle dst i ;;
    let ts := ts ++ [clear_submit dst_tile_handle] in
    dst_tile_index <- linear_to_index (t_grid dst) i ;;
    src_tile_index <- pair_index src axis dst_tile_index ;;
    src_tile_index <- wr src_tile_index axis 0%Z ;;
    _ <- get_tile_traits dst i ;;
    g <- rd (tt_shape (t_grid src)) axis ;;
    for_ 0 g (fun j ts =>
      src_tile_index <- wr src_tile_index axis j ;;
      o <- index_to_linear (t_grid src) src_tile_index ;;
      src_tile_handle <- get_tile_handle src o ;;
      tt <- get_tile_traits src o ;;
      '(m, n, k) <- tile_mnk tt axis ;;
      Ok (ts ++ [sumnorm_submit m n k src_tile_handle dst_tile_handle])) ts) [].

(** src/tensor/softmax.cc:136-157: sizes of the reshaped tiles *)
Definition softmax_mnk (ms dst : TileTraits) (ndim axis : Z) : res (Z * Z * Z) :=
  if (axis =? 0)%Z then
    k <- rd (tt_shape dst) 0 ;;
    n <- cdiv (tt_nelems ms) 2 ;; Ok (1%Z, n, k)
  else if (axis =? ndim -z 1)%Z then
    m <- cdiv (tt_nelems ms) 2 ;;
    k <- rd (tt_shape dst) axis ;; Ok (m, 1%Z, k)
  else tile_mnk dst axis.

(** src/tensor/softmax.cc:28-91: checks (the order of the tests ms.ndim = dst.ndim,
    src.ndim = dst.ndim is that of the code; the rest is pair_check and two vector
    comparisons) *)
Definition softmax_check (ms src dst : tensor) (axis : Z) : res unit :=
  throw_if (negb (t_ndim ms =? t_ndim dst)%Z) "maxsumexp.ndim != dst.ndim" (
  throw_if (negb (t_ndim src =? t_ndim dst)%Z) "src.ndim != dst.ndim" (
  _ <- pair_check dst ms axis ;;
  throw_if (negb (list_eqb Z.eqb (t_shape src) (t_shape dst))) "src.shape != dst.shape" (
  throw_if (negb (list_eqb Z.eqb (t_base src) (t_base dst))) "src.basetile_shape != dst.basetile_shape" (Ok tt)))).

(** src/tensor/softmax.cc:24-166 *)
Definition softmax_async (ms src : tensor) (alpha : T) (dst : tensor) (axis : Z) : res (list (task T)) :=
  _ <- softmax_check ms src dst axis ;;
  for_ 0 (t_ntiles ms) (fun i ts =>
    ms_tile_index <- linear_to_index (t_grid ms) i ;;
    ms_tile_traits <- get_tile_traits ms i ;;
    ms_tile_handle <- get_tile_handle ms i ;;
    dst_tile_index <- pair_index dst axis ms_tile_index ;;
    g <- rd (tt_shape (t_grid dst)) axis ;;
    for_ 0 g (fun j ts =>
      dst_tile_index <- wr dst_tile_index axis j ;;
      o <- index_to_linear (t_grid dst) dst_tile_index ;;
      dst_tile_handle <- get_tile_handle dst o ;;
      src_tile_handle <- get_tile_handle src o ;;
      tt <- get_tile_traits dst o ;;
      '(m, n, k) <- softmax_mnk ms_tile_traits tt (t_ndim dst) axis ;;
      Ok (ts ++ [softmax_submit m n k ms_tile_handle src_tile_handle alpha dst_tile_handle])) ts) [].

(** src/tensor/softmax_inplace.cc:24-151 *)
Definition softmax_inplace_async (ms : tensor) (alpha : T) (dst : tensor) (axis : Z) : res (list (task T)) :=
  _ <- pair_check dst ms axis ;;
  for_ 0 (t_ntiles ms) (fun i ts =>
    ms_tile_index <- linear_to_index (t_grid ms) i ;;
    ms_tile_traits <- get_tile_traits ms i ;;
    ms_tile_handle <- get_tile_handle ms i ;;
    dst_tile_index <- pair_index dst axis ms_tile_index ;;
    g <- rd (tt_shape (t_grid dst)) axis ;;
    for_ 0 g (fun j ts =>
      dst_tile_index <- wr dst_tile_index axis j ;;
      o <- index_to_linear (t_grid dst) dst_tile_index ;;
      dst_tile_handle <- get_tile_handle dst o ;;
      tt <- get_tile_traits dst o ;;
      '(m, n, k) <- softmax_mnk ms_tile_traits tt (t_ndim dst) axis ;;
      Ok (ts ++ [softmax_inplace_submit m n k ms_tile_handle alpha dst_tile_handle])) ts) [].

(** src/tensor/logsumexp.cc:26-81 *)
Definition logsumexp_check (src dst : tensor) : res unit :=
  throw_if (negb (t_ndim src -z 1 =? t_ndim dst)%Z) "src.ndim - 1 != dst.ndim" (
  throw_if (t_ndim src =? 0)%Z "Scalar input makes no sense" (
  s0 <- rd (t_shape src) 0 ;;
  throw_if (negb (s0 =? 2)%Z) "src.shape[0] != 2" (
  b0 <- rd (t_base src) 0 ;;
  throw_if (negb (b0 =? 2)%Z) "src.basetile_shape[0] != 2" (
  for_ 0 (t_ndim src -z 1) (fun i _ => check_dim src (i +z 1) dst i) tt)))).
Definition logsumexp_async (src dst : tensor) : res (list (task T)) :=
  _ <- logsumexp_check src dst ;;
  for_ 0 (t_ntiles dst) (fun i ts =>
    dst_tile_handle <- get_tile_handle dst i ;;
    tt <- get_tile_traits dst i ;;
    src_tile_handle <- get_tile_handle src i ;;
    Ok (ts ++ [logsumexp_submit (tt_nelems tt) src_tile_handle dst_tile_handle])) [].

(** src/tensor/normalize.cc:25-178 *)
Definition normalize_check (gamma_beta src dst : tensor) (l : Z) (eps : T) (axis : Z) : res unit :=
  throw_if (negb (zlen (t_shape gamma_beta) =? 1)%Z) "gamma_beta.shape.size() != 1" (
  g0 <- rd (t_shape gamma_beta) 0 ;;
  throw_if (negb (g0 =? 2)%Z) "gamma_beta.shape[0] != 2" (
  throw_if (negb (t_ntiles gamma_beta =? 1)%Z) "gamma_beta.grid.nelems != 1" (
  throw_if (negb (t_ndim src =? t_ndim dst)%Z) "src.ndim != dst.ndim" (
  throw_if (t_ndim src =? 0)%Z "src.ndim == 0" (
  throw_if (l <=? 0)%Z "l <= 0" (
  throw_if (o_geb o_zero eps) "eps <= 0" (
  pair_check dst src axis))))))).
Definition normalize_async (gamma_beta src dst : tensor) (l : Z) (eps : T) (axis : Z) : res (list (task T)) :=
  _ <- normalize_check gamma_beta src dst l eps axis ;;
  gamma_beta_handle <- get_tile_handle gamma_beta 0 ;;
  for_ 0 (t_ntiles src) (fun i ts =>
    src_tile_index <- linear_to_index (t_grid src) i ;;
    _ <- get_tile_traits src i ;;
    src_tile_handle <- get_tile_handle src i ;;
    dst_tile_index <- pair_index dst axis src_tile_index ;;
    g <- rd (tt_shape (t_grid dst)) axis ;;
    for_ 0 g (fun j ts =>
      dst_tile_index <- wr dst_tile_index axis j ;;
      o <- index_to_linear (t_grid dst) dst_tile_index ;;
      dst_tile_handle <- get_tile_handle dst o ;;
      tt <- get_tile_traits dst o ;;
      '(m, n, k) <- tile_mnk tt axis ;;
      Ok (ts ++ [normalize_submit m n k l eps gamma_beta_handle src_tile_handle dst_tile_handle])) ts) [].
End S.
