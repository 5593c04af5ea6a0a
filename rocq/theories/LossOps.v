(** * Model of the operations driven by index or mask tensors: kernels, StarPU submission,
      tensor level (embedding, embedding_backward, mask_scalar, subtract_indexed_outputs, total_sum_accum)

    As in ElemOps.v: MPI rank tests, transfers and flushes are dropped (one node). *)
From Verif Require Import Base Spec Traits Runtime Ops KernelsElem ElemOps SliceOps.
Local Open Scope ops_scope.

Section L.
Context {T : Type} {O : Ops T}.
Local Notation vec := (list T).
Local Notation bufs := (list (buf T)).

(** src/kernel/embedding/cpu.cc:25-60 *)
Definition k_embedding (m n k k_start k_size : Z) (index : list Z) (vocab embed : vec) : res vec :=
  for_ 0 n (fun i2 => for_ 0 m (fun i1 embed =>
    v <- rd index (i2 *z m +z i1) ;;
    for_ 0 k_size (fun i0 embed =>
      x <- rd vocab (k_size *z v +z i0) ;;
      wr embed ((i2 *z k +z k_start) *z m +z i1 +z i0 *z m) x) embed)) embed.

(** src/kernel/embedding_backward/cpu.cc:25-60 *)
Definition k_embedding_backward (m n k k_start k_size : Z) (index : list Z) (embed vocab : vec) : res vec :=
  for_ 0 n (fun i2 => for_ 0 m (fun i1 vocab =>
    v <- rd index (i2 *z m +z i1) ;;
    for_ 0 k_size (fun i0 vocab =>
      x <- rd embed ((i2 *z k +z k_start) *z m +z i1 +z i0 *z m) ;;
      y <- rd vocab (k_size *z v +z i0) ;;
      wr vocab (k_size *z v +z i0) (y + x)) vocab)) vocab.

(** src/kernel/mask_scalar/cpu.cc:26-49 *)
Definition k_mask_scalar (nrows ncols : Z) (mask : list bool) (val : T) (data : vec) : res vec :=
  for_ 0 nrows (fun i data =>
    b <- rd mask i ;;
    if negb b then for_ 0 ncols (fun j data => wr data (j *z nrows +z i) val) data
    else Ok data) data.

(** src/kernel/subtract_indexed_outputs/cpu.cc:27-46 *)
Definition k_subtract_indexed_outputs (n_labels n_outputs : Z) (val : T) (labels : list Z) (dst : vec) : res vec :=
  for_ 0 n_outputs (fun i dst =>
    l <- rd labels i ;;
    x <- rd dst (l +z i *z n_labels) ;;
    wr dst (l +z i *z n_labels) (x - val)) dst.

(** src/kernel/total_sum_accum/cpu.cc:28-62 *)
Definition k_total_sum_accum (alpha : T) (n_labels n_outputs : Z) (logsumexp src : vec) (labels : list Z) (val : vec) : res vec :=
  '(sum, c) <- for_ 0 n_outputs (fun i st =>
      x <- rd logsumexp i ;;
      let st := kahan x st in
      l <- rd labels i ;;
      y <- rd src (l +z i *z n_labels) ;;
      Ok (kahan (- y) st)) (o_zero, o_zero) ;;
  v <- rd val 0%Z ;;
  wr val 0%Z ((v - alpha * c) + alpha * sum).

(** src/starpu/embedding.cc:27-40, 115-145 *)
Definition embedding_cpu (m n k k_start k_size : Z) (b : bufs) : res bufs :=
  match b with
  | [BI index; BF vocab; BF embed] =>
      e <- k_embedding m n k k_start k_size index vocab embed ;; Ok [BI index; BF vocab; BF e]
  | _ => UB
  end.
Definition embedding_submit (m n k k_start k_size : Z) (index vocab embed : handle) : task T :=
  mkTask [(index, MR); (vocab, MR); (embed, MRW)] (embedding_cpu m n k k_start k_size).

(** src/starpu/embedding_backward.cc:27-40, 115-156; Config::STARPU_RW_COMMUTE is STARPU_RW
    (include/nntile/starpu/config.hh:118-121) *)
Definition embedding_backward_cpu (m n k k_start k_size : Z) (b : bufs) : res bufs :=
  match b with
  | [BI index; BF embed; BF vocab] =>
      v <- k_embedding_backward m n k k_start k_size index embed vocab ;; Ok [BI index; BF embed; BF v]
  | _ => UB
  end.
Definition embedding_backward_submit (m n k k_start k_size : Z) (index embed vocab : handle) (redux : bool) : task T :=
  mkTask [(index, MR); (embed, MR); (vocab, if redux then MREDUX else MRW)]
    (embedding_backward_cpu m n k k_start k_size).

(** src/starpu/mask_scalar.cc:28-40, 113-136 (data first, mask second) *)
Definition mask_scalar_cpu (nrows ncols : Z) (val : T) (b : bufs) : res bufs :=
  match b with
  | [BF data; BB mask] => d <- k_mask_scalar nrows ncols mask val data ;; Ok [BF d; BB mask]
  | _ => UB
  end.
Definition mask_scalar_submit (nrows ncols : Z) (mask : handle) (val : T) (data : handle) : task T :=
  mkTask [(data, MRW); (mask, MR)] (mask_scalar_cpu nrows ncols val).

(** src/starpu/subtract_indexed_outputs.cc:27-42, 120-141 *)
Definition subtract_indexed_outputs_cpu (n_labels n_outputs : Z) (val : T) (b : bufs) : res bufs :=
  match b with
  | [BI labels; BF dst] =>
      d <- k_subtract_indexed_outputs n_labels n_outputs val labels dst ;; Ok [BI labels; BF d]
  | _ => UB
  end.
Definition subtract_indexed_outputs_submit (n_labels n_outputs : Z) (val : T) (labels dst : handle) : task T :=
  mkTask [(labels, MR); (dst, MRW)] (subtract_indexed_outputs_cpu n_labels n_outputs val).

(** src/starpu/total_sum_accum.cc:28-45, 124-145 (STARPU_RW | STARPU_COMMUTE) *)
Definition total_sum_accum_cpu (alpha : T) (n_labels n_outputs : Z) (b : bufs) : res bufs :=
  match b with
  | [BF logsumexp; BF src; BI labels; BF val] =>
      v <- k_total_sum_accum alpha n_labels n_outputs logsumexp src labels val ;;
      Ok [BF logsumexp; BF src; BI labels; BF v]
  | _ => UB
  end.
Definition total_sum_accum_submit (alpha : T) (n_labels n_outputs : Z) (logsumexp src labels val : handle) : task T :=
  mkTask [(logsumexp, MR); (src, MR); (labels, MR); (val, MCOMMUTE)] (total_sum_accum_cpu alpha n_labels n_outputs).

(* ------------------------------------------------------------------ *)
(** ** Tensor level *)

(** src/tensor/embedding.cc:29-70 (same code: embedding_backward.cc:28-69).  The first loop runs to
    axis-1, and axis itself is not checked. *)
Definition embedding_check (index vocab embed : tensor) (axis : Z) : res unit :=
  throw_if (negb (t_ndim index +z 1 =? t_ndim embed)%Z) "index.ndim+1 != embed.ndim" (
  throw_if (negb (t_ndim vocab =? 2)%Z) "vocab.ndim != 2" (
  _ <- for_ 0 (axis -z 1) (fun i _ => check_dim index i embed i) tt ;;
  _ <- for_ axis (t_ndim index) (fun i _ => check_dim index i embed (i +z 1)) tt ;;
  e <- rd (t_shape embed) axis ;;
  v <- rd (t_shape vocab) 0%Z ;;
  throw_if (negb (e =? v)%Z) "embed.shape[axis] != vocab.shape[0]" (
  e <- rd (t_base embed) axis ;;
  v <- rd (t_base vocab) 0%Z ;;
  r <- crem e v ;;
  throw_if (negb (r =? 0)%Z) "embed.basetile_shape[axis] % vocab.basetile_shape[0] != 0" (Ok tt)))).

(** src/tensor/embedding.cc:85-93 (same code: embedding_backward.cc:80-88): index_tile_index *)
Definition index_index (index : tensor) (axis : Z) (embed_tile_index : list Z) : res (list Z) :=
  v <- for_ 0 axis (fun j v => x <- rd embed_tile_index j ;; wr v j x) (zrep (t_ndim index) 0%Z) ;;
  for_ axis (t_ndim index) (fun j v => x <- rd embed_tile_index (j +z 1) ;; wr v j x) v.

(** src/tensor/embedding.cc:97-102 (same code: embedding_backward.cc:92-97): first vocab tile and number
    of vocab tiles of an embed tile *)
Definition vocab_range (embed vocab : tensor) (axis : Z) (tt : TileTraits) (embed_tile_index : list Z) : res (Z * Z) :=
  k <- rd (tt_shape tt) axis ;;
  vb <- rd (t_base vocab) 0%Z ;;
  p <- cdiv (k -z 1) vb ;;
  i <- rd embed_tile_index axis ;;
  eb <- rd (t_base embed) axis ;;
  start <- cdiv (i *z eb) vb ;;
  Ok (start, p +z 1).

(** src/tensor/embedding.cc:105-112 (same code: embedding_backward.cc:100-107): sizes passed to the task of
    vocab tile [j] (a linear tile number) *)
Definition vocab_sizes (vocab : tensor) (axis : Z) (tt : TileTraits) (start j : Z) : res (handle * (Z * Z * Z * Z * Z)) :=
  vocab_tile_handle <- get_tile_handle vocab j ;;
  vocab_tile_traits <- get_tile_traits vocab j ;;
  '(m, n, k) <- tile_mnk tt axis ;;
  vb <- rd (t_base vocab) 0%Z ;;
  k_size <- rd (tt_shape vocab_tile_traits) 0%Z ;;
  Ok (vocab_tile_handle, (m, n, k, (j -z start) *z vb, k_size)).

(** src/tensor/embedding.cc:25-119 *)
Definition embedding_async (index vocab embed : tensor) (axis : Z) : res (list (task T)) :=
  _ <- embedding_check index vocab embed axis ;;
  for_ 0 (t_ntiles embed) (fun i ts =>
    embed_tile_handle <- get_tile_handle embed i ;;
    embed_tile_traits <- get_tile_traits embed i ;;
    embed_tile_index <- linear_to_index (t_grid embed) i ;;
    let ts := ts ++ [clear_submit embed_tile_handle] in
    index_tile_index <- index_index index axis embed_tile_index ;;
    index_tile_handle <- get_tile_handle_idx index index_tile_index ;;
    '(start, per) <- vocab_range embed vocab axis embed_tile_traits embed_tile_index ;;
    for_ start (start +z per) (fun j ts =>
      '(vocab_tile_handle, (m, n, k, k_start, k_size)) <- vocab_sizes vocab axis embed_tile_traits start j ;;
      Ok (ts ++ [embedding_submit m n k k_start k_size index_tile_handle vocab_tile_handle embed_tile_handle])) ts) [].

(** src/tensor/embedding_backward.cc:24-118 *)
Definition embedding_backward_async (index embed vocab : tensor) (axis : Z) (redux : bool) : res (list (task T)) :=
  _ <- embedding_check index vocab embed axis ;;
  for_ 0 (t_ntiles embed) (fun i ts =>
    embed_tile_handle <- get_tile_handle embed i ;;
    embed_tile_traits <- get_tile_traits embed i ;;
    embed_tile_index <- linear_to_index (t_grid embed) i ;;
    index_tile_index <- index_index index axis embed_tile_index ;;
    index_tile_handle <- get_tile_handle_idx index index_tile_index ;;
    '(start, per) <- vocab_range embed vocab axis embed_tile_traits embed_tile_index ;;
    for_ start (start +z per) (fun j ts =>
      '(vocab_tile_handle, (m, n, k, k_start, k_size)) <- vocab_sizes vocab axis embed_tile_traits start j ;;
      Ok (ts ++ [embedding_backward_submit m n k k_start k_size index_tile_handle embed_tile_handle vocab_tile_handle redux])) ts) [].

(** src/tensor/mask_scalar.cc:28-75 *)
Definition mask_check (mask A : tensor) (batch_ndim : Z) : res unit :=
  throw_if (negb (t_ndim mask =? t_ndim A -z batch_ndim)%Z) "mask.ndim != A.ndim-batch_ndim" (
  for_ 0 (t_ndim A -z batch_ndim) (fun i _ => check_dim A i mask i) tt).
Definition mask_scalar_async (mask : tensor) (val : T) (A : tensor) (batch_ndim : Z) : res (list (task T)) :=
  _ <- mask_check mask A batch_ndim ;;
  for_ 0 (t_ntiles A) (fun i ts =>
    A_tile_handle <- get_tile_handle A i ;;
    A_tile_index <- linear_to_index (t_grid A) i ;;
    mask_tile_index <- for_ 0 (t_ndim mask) (fun j v => x <- rd A_tile_index j ;; wr v j x) (zrep (t_ndim mask) 0%Z) ;;
    mask_tile_handle <- get_tile_handle_idx mask mask_tile_index ;;
    tile_traits <- get_tile_traits A i ;;
    '(r, c) <- rd (tt_ms tile_traits) (t_ndim A -z batch_ndim) ;;
    Ok (ts ++ [mask_scalar_submit r c mask_tile_handle val A_tile_handle])) [].

(** src/tensor/subtract_indexed_outputs.cc:25-68 *)
Definition labels_check (labels dst : tensor) : res unit :=
  throw_if (negb (t_ndim labels =? t_ndim dst -z 1)%Z) "labels.ndim != dst.ndim-1" (
  _ <- for_ 0 (t_ndim labels) (fun i _ => check_dim labels i dst (i +z 1)) tt ;;
  x <- rd (t_shape dst) 0%Z ;; y <- rd (t_base dst) 0%Z ;;
  throw_if (negb (x =? y)%Z) "dst.shape[0] != dst.basetile_shape[0]" (Ok tt)).
Definition subtract_indexed_outputs_async (val : T) (labels dst : tensor) : res (list (task T)) :=
  _ <- labels_check labels dst ;;
  for_ 0 (t_ntiles dst) (fun i ts =>
    labels_tile_handle <- get_tile_handle labels i ;;
    labels_traits <- get_tile_traits labels i ;;
    dst_tile_handle <- get_tile_handle dst i ;;
    n <- rd (t_shape dst) 0%Z ;;
    Ok (ts ++ [subtract_indexed_outputs_submit n (tt_nelems labels_traits) val labels_tile_handle dst_tile_handle])) [].

(** src/tensor/total_sum_accum.cc:27-94 *)
Definition total_sum_check (logsumexp src labels val : tensor) : res unit :=
  throw_if (negb (t_ndim logsumexp =? t_ndim labels)%Z) "logsumexp.ndim != labels.ndim" (
  throw_if (negb (t_ndim logsumexp =? t_ndim src -z 1)%Z) "logsumexp.ndim != src.ndim-1" (
  throw_if (negb (t_ndim val =? 0)%Z) "val.ndim != 0" (
  _ <- for_ 0 (t_ndim labels) (fun i _ =>
         _ <- check_dim logsumexp i labels i ;; check_dim labels i src (i +z 1)) tt ;;
  y <- rd (t_base src) 0%Z ;; x <- rd (t_shape src) 0%Z ;;
  throw_if (negb (y =? x)%Z) "src.basetile_shape[0] != src.shape[0]" (Ok tt)))).
Definition total_sum_accum_async (alpha : T) (logsumexp src labels val : tensor) : res (list (task T)) :=
  _ <- total_sum_check logsumexp src labels val ;;
  val_tile_handle <- get_tile_handle val 0 ;;
  for_ 0 (t_ntiles labels) (fun i ts =>
    logsumexp_tile_handle <- get_tile_handle logsumexp i ;;
    logsumexp_tile_traits <- get_tile_traits logsumexp i ;;
    labels_tile_handle <- get_tile_handle labels i ;;
    src_tile_handle <- get_tile_handle src i ;;
    n <- rd (t_shape src) 0%Z ;;
    Ok (ts ++ [total_sum_accum_submit alpha n (tt_nelems logsumexp_tile_traits) logsumexp_tile_handle
                 src_tile_handle labels_tile_handle val_tile_handle])) [].
End L.
