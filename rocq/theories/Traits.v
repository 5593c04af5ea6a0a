(** * Model of TileTraits, TensorTraits and Tensor
    (include/nntile/tile/traits.hh, include/nntile/tensor/traits.hh,
     include/nntile/tensor/tensor.hh) *)

From Verif Require Import Base.

(** include/nntile/tile/traits.hh:58-74 (data members) *)
Record TileTraits := mkTT {
  tt_ndim : Z;
  tt_shape : list Z;
  tt_stride : list Z;
  tt_nelems : Z;
  tt_ms : list (Z * Z)           (* matrix_shape *)
}.

#[global] Instance DfltTT : Dflt TileTraits := mkTT 0 [] [] 0 [].

(** matrix_shape[i][0] = v and matrix_shape[i][1] = v *)
Definition wr_fst (l : list (Z * Z)) (i v : Z) : res (list (Z * Z)) :=
  x <- rd l i ;; wr l i (v, snd x).
Definition wr_snd (l : list (Z * Z)) (i v : Z) : res (list (Z * Z)) :=
  x <- rd l i ;; wr l i (fst x, v).

(** include/nntile/tile/traits.hh:44-56  TileTraits::_check_shape *)
Definition TileTraits_check_shape (shape : list Z) : res unit :=
  for_ 0 (zlen shape) (fun i _ =>
    x <- rd shape i ;; throw_if (x <=? 0) "shape[i] <= 0" (Ok tt)) tt.

(** include/nntile/tile/traits.hh:78-110  constructor.  [_check_ndim] (lines
    32-42) only checks that the vector length fits int64 and is not modelled. *)
Definition TileTraits_new (shape : list Z) : res TileTraits :=
  let ndim := zlen shape in
  _ <- TileTraits_check_shape shape ;;
  ms <- wr_fst (zrep (ndim + 1) (0, 0)) 0 1 ;;
  '(tmp, ms) <- for_ 1 (ndim + 1) (fun i '(tmp, ms) =>
      x <- rd shape (i - 1) ;;
      let tmp := tmp * x in
      ms <- wr_fst ms i tmp ;;
      Ok (tmp, ms)) (1, ms) ;;
  let nelems := tmp in
  ms <- wr_snd ms ndim 1 ;;
  '(tmp, ms) <- for_down ndim 1 (fun i '(tmp, ms) =>
      x <- rd shape (i - 1) ;;
      let tmp := tmp * x in
      ms <- wr_snd ms (i - 1) tmp ;;
      Ok (tmp, ms)) (1, ms) ;;
  stride <- for_ 0 ndim (fun i st => r <- rd ms i ;; wr st i (fst r)) (zrep ndim 0) ;;
  Ok (mkTT ndim shape stride nelems ms).

(** include/nntile/tile/traits.hh:119-148  index_to_linear *)
Definition index_to_linear (t : TileTraits) (index : list Z) : res Z :=
  throw_if (negb (zlen index =? tt_ndim t)) "Wrong dimensionality" (
  if tt_ndim t =? 0 then Ok 0 else
  i0 <- rd index 0 ;;
  s0 <- rd (tt_shape t) 0 ;;
  throw_if ((i0 <? 0) || (i0 >=? s0)) "Index out of bounds" (
  for_ 1 (tt_ndim t) (fun i lin =>
    x <- rd index i ;;
    s <- rd (tt_shape t) i ;;
    throw_if ((x <? 0) || (x >=? s)) "Index out of bounds" (
    st <- rd (tt_stride t) i ;;
    Ok (lin + x * st))) i0)).

(** include/nntile/tile/traits.hh:155-177  linear_to_index *)
Definition linear_to_index (t : TileTraits) (lin : Z) : res (list Z) :=
  throw_if ((lin <? 0) || (lin >=? tt_nelems t)) "Index out of bounds" (
  if tt_ndim t =? 0 then Ok [] else
  '(lin, index) <- for_down (tt_ndim t - 1) 1 (fun i '(lin, index) =>
      st <- rd (tt_stride t) i ;;
      d <- cdiv lin st ;;
      index <- wr index i d ;;
      Ok (lin - d * st, index)) (lin, zrep (tt_ndim t) 0) ;;
  wr index 0 lin).

(** include/nntile/tile/traits.hh:179-193  contains_index.  The early
    [return false] is the [None]-like [false] that later iterations keep. *)
Definition contains_index (t : TileTraits) (index : list Z) : res bool :=
  throw_if (negb (zlen index =? tt_ndim t)) "Invalid dimensionality" (
  for_ 0 (tt_ndim t) (fun i (b : bool) =>
    if b then
      x <- rd index i ;;
      s <- rd (tt_shape t) i ;;
      Ok (negb ((x <? 0) || (x >=? s)))
    else Ok false) true).

(** include/nntile/tensor/traits.hh:72-77 (data members) *)
Record TensorTraits := mkTNT {
  tn_tile : TileTraits;            (* base class: the tensor seen as a tile *)
  tn_base : list Z;                (* basetile_shape *)
  tn_grid : TileTraits;            (* grid of tiles *)
  tn_leftover : list Z             (* leftover_shape *)
}.
Definition tn_ndim t := tt_ndim (tn_tile t).
Definition tn_shape t := tt_shape (tn_tile t).
Definition tn_nelems t := tt_nelems (tn_tile t).

(** include/nntile/tensor/traits.hh:27-44  _get_basetile_shape *)
Definition get_basetile_shape (ndim : Z) (base : list Z) : res (list Z) :=
  throw_if (negb (zlen base =? ndim)) "basetile_shape.size() != ndim" (
  _ <- for_ 0 ndim (fun i _ =>
         x <- rd base i ;; throw_if (x <=? 0) "basetile_shape[i] <= 0" (Ok tt)) tt ;;
  Ok base).

(** include/nntile/tensor/traits.hh:45-57  _get_grid_shape *)
Definition get_grid_shape (ndim : Z) (shape base : list Z) : res (list Z) :=
  for_ 0 ndim (fun i g =>
    s <- rd shape i ;; b <- rd base i ;;
    d <- cdiv (s - 1) b ;;
    wr g i (d + 1)) (zrep ndim 0).

(** include/nntile/tensor/traits.hh:58-71  _get_leftover_shape *)
Definition get_leftover_shape (ndim : Z) (shape base grid : list Z) : res (list Z) :=
  for_ 0 ndim (fun i l =>
    s <- rd shape i ;; b <- rd base i ;; g <- rd grid i ;;
    wr l i (s - (g - 1) * b)) (zrep ndim 0).

(** include/nntile/tensor/traits.hh:80-88  constructor *)
Definition TensorTraits_new (shape base : list Z) : res TensorTraits :=
  t <- TileTraits_new shape ;;
  b <- get_basetile_shape (tt_ndim t) base ;;
  g <- get_grid_shape (tt_ndim t) (tt_shape t) base ;;
  grid <- TileTraits_new g ;;
  l <- get_leftover_shape (tt_ndim t) (tt_shape t) b (tt_shape grid) ;;
  Ok (mkTNT t b grid l).

(** include/nntile/tensor/traits.hh:90-116  get_tile_shape *)
Definition get_tile_shape (t : TensorTraits) (tile_index : list Z) : res (list Z) :=
  throw_if (negb (zlen tile_index =? tn_ndim t)) "Wrong dimensionality" (
  for_ 0 (tn_ndim t) (fun i tile_shape =>
    ti <- rd tile_index i ;;
    g <- rd (tt_shape (tn_grid t)) i ;;
    throw_if ((ti <? 0) || (ti >=? g)) "Index out of bounds" (
    if g - ti =? 1 then
      l <- rd (tn_leftover t) i ;;
      wr tile_shape i l
    else Ok tile_shape)) (tn_base t)).

(** StarPU data handles are opaque identifiers. *)
Definition handle := Z.

(** include/nntile/tensor/tensor.hh:47-57 (data members); MPI tags are not modelled. *)
Record tensor := mkTensor {
  tr : TensorTraits;
  tile_traits : list TileTraits;
  tile_handles : list handle;
  tile_distr : list Z
}.

(** include/nntile/tensor/tensor.hh:58-91  constructor.  [next] is the next
    unused handle identifier: registration of tile i yields a fresh handle of
    [nelems] elements (the returned list of sizes).  VariableHandle's zero-size
    exception (config.hh:361-382) is kept. *)
Definition Tensor_new (traits : TensorTraits) (distribution : list Z) (next : handle)
  : res (tensor * list (handle * Z)) :=
  let grid := tn_grid traits in
  throw_if (negb (zlen distribution =? tt_nelems grid)) "Wrong distribution" (
  '(tts, hs, sizes) <- for_ 0 (tt_nelems grid) (fun i '(tts, hs, sizes) =>
      tile_index <- linear_to_index grid i ;;
      tile_shape <- get_tile_shape traits tile_index ;;
      tt <- TileTraits_new tile_shape ;;
      throw_if (tt_nelems tt =? 0) "Zero size is not supported" (
      Ok (tts ++ [tt], hs ++ [next + i], sizes ++ [(next + i, tt_nelems tt)]))) ([], [], []) ;;
  Ok (mkTensor traits tts hs distribution, sizes)).

(** include/nntile/tensor/tensor.hh:107-126  get_tile_traits / get_tile_handle
    (unchecked vector indexing: out of range is UB) *)
Definition get_tile_traits (t : tensor) (i : Z) : res TileTraits := rd (tile_traits t) i.
Definition get_tile_handle (t : tensor) (i : Z) : res handle := rd (tile_handles t) i.
Definition get_tile_traits_idx (t : tensor) (index : list Z) : res TileTraits :=
  o <- index_to_linear (tn_grid (tr t)) index ;; rd (tile_traits t) o.
Definition get_tile_handle_idx (t : tensor) (index : list Z) : res handle :=
  o <- index_to_linear (tn_grid (tr t)) index ;; rd (tile_handles t) o.

(** include/nntile/tensor/tensor.hh:92-106  get_tile by offset and by index *)
Definition get_tile (t : tensor) (i : Z) : res (TileTraits * handle) :=
  throw_if ((i <? 0) || (i >=? tt_nelems (tn_grid (tr t)))) "Tile offset is out of bounds" (
  a <- rd (tile_traits t) i ;; b <- rd (tile_handles t) i ;; Ok (a, b)).
Definition get_tile_idx (t : tensor) (index : list Z) : res (TileTraits * handle) :=
  o <- index_to_linear (tn_grid (tr t)) index ;;
  a <- rd (tile_traits t) o ;; b <- rd (tile_handles t) o ;; Ok (a, b).

(** Shorthands for fields used by the tensor-level operations. *)
Definition t_ndim (t : tensor) := tn_ndim (tr t).
Definition t_shape (t : tensor) := tn_shape (tr t).
Definition t_base (t : tensor) := tn_base (tr t).
Definition t_grid (t : tensor) := tn_grid (tr t).
Definition t_ntiles (t : tensor) := tt_nelems (t_grid t).
