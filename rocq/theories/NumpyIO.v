(** * numpy arrays and tensors: wrappers/python/nntile/nntile_core.cc:76-160, 205-325 *)
From Verif Require Import Base Spec Geometry Traits Runtime Ops ElemOps SubcopyOps TileOps.
Local Open Scope Z_scope.

(** A numpy array as the C++ functions receive it: py::array_t<T, f_style | forcecast>, i.e. its
    shape and the column-major memory behind data()/mutable_data().  Simplification: the host memory
    is a handle of the store, so that tile.acquire(..), memcpy, tile_local.release() is one task that
    reads one buffer and writes the other; the real code blocks until the tile is available, which
    the order of the tasks on that handle expresses. *)
Record ndarray := { a_shape : list Z; a_mem : handle }.

Section IO.
Context {T : Type} {DT : Dflt T}.

(** std::memcpy of [n] elements: undefined when a buffer is shorter *)
Definition memcpy_n {A} (n : Z) (src dst : list A) : res (list A) :=
  if (0 <=? n) && (n <=? zlen src) && (n <=? zlen dst)
  then Ok (firstn (Z.to_nat n) src ++ skipn (Z.to_nat n) dst) else UB.
Definition host_cpu (n : Z) (b : list (buf T)) : res (list (buf T)) :=
  match b with [BF x; BF d] => d' <- memcpy_n n x d ;; Ok [BF x; BF d'] | _ => UB end.
(** tile.acquire(STARPU_W); std::memcpy(tile_local.get_ptr(), array.data(), n*sizeof(T)); release *)
Definition host_write (n : Z) (a : ndarray) (h : handle) : task T := mkTask [(a_mem a, MR); (h, MW)] (host_cpu n).
(** tile.acquire(STARPU_R); std::memcpy(array.mutable_data(), tile_local.get_ptr(), ..); release.
    The array is not a StarPU buffer: memcpy leaves what lies beyond [n] unchanged (MRW). *)
Definition host_read (n : Z) (h : handle) (a : ndarray) : task T := mkTask [(h, MR); (a_mem a, MRW)] (host_cpu n).

(** nntile_core.cc:83-116 and 211-243: the checks on the array *)
Definition check_0d (a : ndarray) : res unit :=
  throw_if (negb (zlen (a_shape a) =? 1)) "array.ndim() != 1" (
  s <- rd (a_shape a) 0 ;; throw_if (negb (s =? 1)) "array.shape()[0] != 1" (Ok tt)).
Definition check_nd (ndim : Z) (shape : list Z) (a : ndarray) : res unit :=
  throw_if (negb (ndim =? zlen (a_shape a))) "ndim != array.ndim()" (
  for_ 0 ndim (fun i _ => x <- rd (a_shape a) i ;; y <- rd shape i ;;
    throw_if (negb (x =? y)) "array.shape()[i] != shape[i]" (Ok tt)) tt).

(** nntile_core.cc:76-117 *)
Definition tile_from_array (x : tile) (a : ndarray) : res (list (task T)) :=
  if ti_ndim x =? 0 then _ <- check_0d a ;; Ok [host_write 1 a (ti_h x)]
  else _ <- check_nd (ti_ndim x) (ti_shape x) a ;; Ok [host_write (ti_nelems x) a (ti_h x)].
(** nntile_core.cc:119-158 *)
Definition tile_to_array (x : tile) (a : ndarray) : res (list (task T)) :=
  if ti_ndim x =? 0 then _ <- check_0d a ;; Ok [host_read 1 (ti_h x) a]
  else _ <- check_nd (ti_ndim x) (ti_shape x) a ;; Ok [host_read (ti_nelems x) (ti_h x) a].

(** nntile_core.cc:205-266; [next]: the handle of the temporary single-tile tensor,
    [scratch]: the scratch buffer of scatter.  MPI: one rank. *)
Definition from_array (t : tensor) (a : ndarray) (next scratch : handle) : res (list (task T)) :=
  if t_ndim t =? 0 then
    _ <- check_0d a ;;
    '(_, h) <- get_tile t 0 ;;
    Ok [host_write 1 a h]
  else
    _ <- check_nd (t_ndim t) (t_shape t) a ;;
    tmp_traits <- TensorTraits_new (t_shape t) (t_shape t) ;;
    '(tmp, _) <- Tensor_new tmp_traits [0] next ;;
    '(ttr, h) <- get_tile tmp 0 ;;
    ts <- scatter_async ScOwn tmp t scratch ;;
    Ok (host_write (tt_nelems ttr) a h :: ts).
(** nntile_core.cc:268-325 *)
Definition to_array (t : tensor) (a : ndarray) (next scratch : handle) : res (list (task T)) :=
  if t_ndim t =? 0 then
    _ <- check_0d a ;;
    '(_, h) <- get_tile t 0 ;;
    Ok [host_read 1 h a]
  else
    _ <- check_nd (t_ndim t) (t_shape t) a ;;
    tmp_traits <- TensorTraits_new (t_shape t) (t_shape t) ;;
    '(tmp, _) <- Tensor_new tmp_traits [0] next ;;
    ts <- gather_async ScOwn t tmp scratch ;;
    '(ttr, h) <- get_tile tmp 0 ;;
    Ok (ts ++ [host_read (tt_nelems ttr) h a]).
End IO.
