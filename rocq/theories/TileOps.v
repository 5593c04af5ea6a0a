(** * Model of the tile-level operations (src/tile/X.cc).

    A Tile is a TileTraits with a data handle (include/nntile/tile/tile.hh:26-111).  Each
    operation checks the shapes of its operands and submits one task (nrm2: up to two); the
    blocking variant then waits for all tasks.  StarPU submission as in ElemOps.v, SliceOps.v,
    FiberOps.v, MatOps.v, SoftmaxOps.v and LossOps.v.  Tile-level randn and copy_intersection
    are in RandnOps.v and SubcopyOps.v; fp16_to_fp32, fp32_to_fp16 and gemm_ex only exist for
    CUDA devices and are not modelled.  The argument [redux] of the submit functions has the
    default value 0 (include/nntile/starpu/X.hh). *)
From Verif Require Import Base Spec Traits Runtime Ops KernelsElem ElemOps SliceOps FiberOps MatOps SoftmaxOps LossOps.
Local Open Scope ops_scope.

(** include/nntile/tile/tile.hh:26-30: Tile<T> is a TileTraits and a VariableHandle *)
Definition tile := (TileTraits * handle)%type.
Definition ti_tt (x : tile) : TileTraits := fst x.
Definition ti_h (x : tile) : handle := snd x.
Definition ti_shape (x : tile) : list Z := tt_shape (ti_tt x).
Definition ti_ndim (x : tile) : Z := tt_ndim (ti_tt x).
Definition ti_nelems (x : tile) : Z := tt_nelems (ti_tt x).

Section T.
Context {T : Type} {O : Ops T}.
Local Notation tasks := (res (list (task T))).

(** if(a.shape != b.shape) throw (src/tile/prod.cc:31-34 and others) *)
Definition same_shape {A} (a b : tile) (k : res A) : res A :=
  throw_if (negb (list_eqb Z.eqb (ti_shape a) (ti_shape b))) "shape" k.
(** if(a.shape[i] != b.shape[j]) throw *)
Definition same_dim (a : tile) (i : Z) (b : tile) (j : Z) : res unit :=
  x <- rd (ti_shape a) i ;; y <- rd (ti_shape b) j ;;
  throw_if (negb (x =? y)%Z) "shape" (Ok tt).
(** ndim test and loop over dimensions (src/tile/add.cc:29-40, scal.cc:28-39, hypot.cc:28-39) *)
Definition same_loop {A} (dst src : tile) (k : res A) : res A :=
  throw_if (negb (ti_ndim dst =? ti_ndim src)%Z) "dst.ndim != src.ndim" (
  _ <- for_ 0 (ti_ndim dst) (fun i _ => same_dim dst i src i) tt ;;
  k).

(** ** Element-wise operations *)
(** src/tile/relu.cc:27-31 *)
Definition tile_relu (A : tile) : tasks := Ok [relu_submit (ti_nelems A) (ti_h A)].
(** src/tile/relu_forward.cc:24-33 *)
Definition tile_relu_forward (src dst : tile) : tasks :=
  same_shape src dst (Ok [relu_forward_submit (ti_nelems src) (ti_h src) (ti_h dst)]).
(** src/tile/relu_backward.cc:27-41 *)
Definition tile_relu_backward (x dy dx : tile) : tasks :=
  same_shape x dy (same_shape x dx (Ok [relu_backward_submit (ti_nelems x) (ti_h x) (ti_h dy) (ti_h dx)])).
(** src/tile/drelu.cc:27-31 *)
Definition tile_drelu (A : tile) : tasks := Ok [drelu_submit (ti_nelems A) (ti_h A)].
(** src/tile/fill.cc:27-31 *)
Definition tile_fill (val : T) (A : tile) : tasks := Ok [fill_submit (ti_nelems A) val (ti_h A)].
(** src/tile/clear.cc:25-28 *)
Definition tile_clear (A : tile) : tasks := Ok [clear_submit (ti_h A)].
(** src/tile/copy.cc:31-46: starpu_data_cpy copies the whole source buffer *)
Definition tile_copy (src dst : tile) : tasks := same_shape src dst (Ok [copy_submit (ti_h src) (ti_h dst)]).
(** src/tile/gelu.cc:27-31 *)
Definition tile_gelu (A : tile) : tasks := Ok [gelu_submit (ti_nelems A) (ti_h A)].
(** src/tile/gelutanh.cc:27-31: no check of the shapes *)
Definition tile_gelutanh (src dst : tile) : tasks :=
  Ok [gelutanh_submit (ti_nelems src) (ti_h src) (ti_h dst)].
(** src/tile/gelutanh_inplace.cc:27-31 *)
Definition tile_gelutanh_inplace (A : tile) : tasks := Ok [gelutanh_inplace_submit (ti_nelems A) (ti_h A)].
(** src/tile/dgelu.cc:27-31 *)
Definition tile_dgelu (A : tile) : tasks := Ok [dgelu_submit (ti_nelems A) (ti_h A)].
(** src/tile/dgelutanh.cc:27-31 *)
Definition tile_dgelutanh (A : tile) : tasks := Ok [dgelutanh_submit (ti_nelems A) (ti_h A)].
(** src/tile/gelu_backward.cc:28-42 *)
Definition tile_gelu_backward (x dy dx : tile) : tasks :=
  same_shape x dy (same_shape x dx (Ok [gelu_backward_submit (ti_nelems x) (ti_h x) (ti_h dy) (ti_h dx)])).
(** src/tile/gelutanh_backward.cc:28-42 *)
Definition tile_gelutanh_backward (x dy dx : tile) : tasks :=
  same_shape x dy (same_shape x dx (Ok [gelutanh_backward_submit (ti_nelems x) (ti_h x) (ti_h dy) (ti_h dx)])).
(** src/tile/sqrt.cc:28-32: no check of the shapes *)
Definition tile_sqrt (src dst : tile) : tasks := Ok [sqrt_submit (ti_nelems src) (ti_h src) (ti_h dst)].
(** src/tile/sqrt_inplace.cc:28-32 *)
Definition tile_sqrt_inplace (A : tile) : tasks := Ok [sqrt_inplace_submit (ti_nelems A) (ti_h A)].
(** src/tile/pow.cc:27-31 *)
Definition tile_pow (alpha exp : T) (A : tile) : tasks := Ok [pow_submit (ti_nelems A) alpha exp (ti_h A)].
(** src/tile/scal.cc:25-42 *)
Definition tile_scal (alpha : T) (src dst : tile) : tasks :=
  same_loop dst src (Ok [scal_submit (ti_nelems src) alpha (ti_h src) (ti_h dst)]).
(** src/tile/scal_inplace.cc:25-29 *)
Definition tile_scal_inplace (alpha : T) (data : tile) : tasks :=
  Ok [scal_inplace_submit alpha (ti_nelems data) (ti_h data)].
(** src/tile/hypot.cc:25-47 *)
Definition tile_hypot (alpha : T) (src : tile) (beta : T) (dst : tile) : tasks :=
  same_loop dst src (
  if (alpha ==? o_zero) && (beta ==? o_one) then Ok [] else
  Ok [hypot_submit (ti_nelems src) alpha (ti_h src) beta (ti_h dst)]).
(** src/tile/add.cc:26-48 *)
Definition tile_add (alpha : T) (src : tile) (beta : T) (dst : tile) : tasks :=
  same_loop dst src (
  if (alpha ==? o_zero) && (beta ==? o_one) then Ok [] else
  Ok [add_submit (ti_nelems src) alpha (ti_h src) beta (ti_h dst)]).
(** src/tile/add_scalar.cc:26-35 *)
Definition tile_add_scalar (alpha beta : T) (dst : tile) : tasks :=
  if (alpha ==? o_zero) && (beta ==? o_one) then Ok [] else
  Ok [add_scalar_submit (ti_nelems dst) alpha beta (ti_h dst)].
(** src/tile/prod.cc:28-37 *)
Definition tile_prod (src dst : tile) : tasks :=
  same_shape src dst (Ok [prod_submit (ti_nelems src) (ti_h src) (ti_h dst)]).
(** src/tile/maximum.cc:28-37 *)
Definition tile_maximum (src dst : tile) : tasks :=
  same_shape src dst (Ok [maximum_submit (ti_nelems src) (ti_h src) (ti_h dst)]).
(** src/tile/addcdiv.cc:31-44 *)
Definition tile_addcdiv (val eps : T) (nom denom src : tile) : tasks :=
  same_shape nom denom (same_shape nom src (
  Ok [addcdiv_submit val eps (ti_nelems src) (ti_h nom) (ti_h denom) (ti_h src)])).
(** src/tile/adam_step.cc:35-55 *)
Definition tile_adam_step (num_iter : Z) (beta_1 beta_2 eps lr weight_decay : T)
    (grad first_moment second_moment p : tile) : tasks :=
  same_shape grad p (same_shape first_moment p (same_shape second_moment p (
  Ok [adam_step_submit num_iter (ti_nelems p) beta_1 beta_2 eps lr weight_decay
        (ti_h grad) (ti_h first_moment) (ti_h second_moment) (ti_h p)]))).
(** src/tile/adamw_step.cc:36-56 *)
Definition tile_adamw_step (num_iter : Z) (beta_1 beta_2 eps lr weight_decay : T)
    (grad first_moment second_moment p : tile) : tasks :=
  same_shape grad p (same_shape first_moment p (same_shape second_moment p (
  Ok [adamw_step_submit num_iter (ti_nelems p) beta_1 beta_2 eps lr weight_decay
        (ti_h grad) (ti_h first_moment) (ti_h second_moment) (ti_h p)]))).
(** src/tile/axpy.cc:28-41 *)
Definition tile_axpy_tensor (alpha src dst : tile) : tasks :=
  throw_if (negb (zlen (ti_shape alpha) =? 0)%Z) "alpha.shape.size() != 0" (
  same_shape src dst (Ok [axpy_tensor_submit (ti_h alpha) (ti_nelems src) (ti_h src) (ti_h dst)])).
(** src/tile/axpy.cc:77-86 *)
Definition tile_axpy (alpha : T) (src dst : tile) : tasks :=
  same_shape src dst (Ok [axpy_submit alpha (ti_nelems src) (ti_h src) (ti_h dst)]).

(** ** Slices *)
(** src/tile/add_slice.cc:37-65 (same lines: prod_slice.cc:36-64) *)
Definition tile_slice_check (big small : tile) (axis : Z) (k : res unit) : res unit :=
  throw_if (negb (ti_ndim big =? ti_ndim small +z 1)%Z) "dst.ndim != src.ndim+1" (
  throw_if (axis <? 0)%Z "axis < 0" (
  throw_if (axis >=? ti_ndim big)%Z "axis >= dst.ndim" (
  _ <- for_ 0 axis (fun i _ => same_dim big i small i) tt ;;
  _ <- for_ (axis +z 1) (ti_ndim big) (fun i _ => same_dim big i small (i -z 1)) tt ;;
  k))).
(** m = x.stride[axis], n = x.matrix_shape[axis+1][1], k = x.shape[axis] (add_slice.cc:67-70) *)
Definition ti_mnk (x : tile) (axis : Z) : res (Z * Z * Z) := tile_mnk (ti_tt x) axis.
(** src/tile/add_slice.cc:24-73 *)
Definition tile_add_slice (alpha : T) (src : tile) (beta : T) (dst : tile) (axis : Z) : tasks :=
  _ <- tile_slice_check dst src axis (Ok tt) ;;
  '(m, n, k) <- ti_mnk dst axis ;;
  Ok [add_slice_submit m n k alpha (ti_h src) beta (ti_h dst)].
(** src/tile/add_slice3.cc:24-82 *)
Definition tile_add_slice3 (alpha : T) (src1 : tile) (beta : T) (src2 dst : tile) (axis : Z) : tasks :=
  _ <- throw_if (negb (ti_ndim dst =? ti_ndim src1 +z 1)%Z) "dst.ndim != src1.ndim+1" (
       throw_if (negb (ti_ndim dst =? ti_ndim src2)%Z) "dst.ndim != src2.ndim" (
       tile_slice_check dst src1 axis (same_shape dst src2 (Ok tt)))) ;;
  '(m, n, k) <- ti_mnk dst axis ;;
  Ok [add_slice3_submit m n k alpha (ti_h src1) beta (ti_h src2) (ti_h dst)].
(** src/tile/prod_slice.cc:24-72 *)
Definition tile_prod_slice (src : tile) (alpha : T) (dst : tile) (axis : Z) : tasks :=
  _ <- tile_slice_check dst src axis (Ok tt) ;;
  '(m, n, k) <- ti_mnk dst axis ;;
  Ok [prod_slice_submit m n k alpha (ti_h src) (ti_h dst)].
(** src/tile/sum_slice.cc:26-69 (the loop of lines 51-61 has two counters) *)
Definition tile_sum_slice (alpha : T) (src : tile) (beta : T) (dst : tile) (axis : Z) : tasks :=
  _ <- throw_if (negb (ti_ndim src -z 1 =? ti_ndim dst)%Z) "src.ndim -1 != dst.ndim" (
       throw_if (ti_ndim src =? 0)%Z "Scalar input makes no sense" (
       throw_if (axis <? 0)%Z "axis < 0" (
       throw_if (axis >=? ti_ndim src)%Z "axis >= ndim" (
       _ <- for_ 0 (ti_ndim src) (fun i j =>
              if (i =? axis)%Z then Ok j else
              _ <- same_dim src i dst j ;; Ok (j +z 1)) 0%Z ;;
       Ok tt)))) ;;
  '(m, n, k) <- ti_mnk src axis ;;
  Ok [sum_slice_submit m n k alpha (ti_h src) beta (ti_h dst) false].
(** src/tile/norm_slice.cc:24-69 *)
Definition tile_norm_slice (alpha : T) (src : tile) (beta : T) (dst : tile) (axis : Z) : tasks :=
  _ <- throw_if (negb (ti_ndim src -z 1 =? ti_ndim dst)%Z) "src.ndim-1 != dst.ndim" (
       throw_if (ti_ndim src =? 0)%Z "Scalar input makes no sense" (
       throw_if (axis <? 0)%Z "axis < 0" (
       throw_if (axis >=? ti_ndim src)%Z "axis >= ndim" (
       _ <- for_ 0 axis (fun i _ => same_dim src i dst i) tt ;;
       _ <- for_ (axis +z 1) (ti_ndim src) (fun i _ => same_dim src i dst (i -z 1)) tt ;;
       Ok tt)))) ;;
  '(m, n, k) <- ti_mnk src axis ;;
  Ok [norm_slice_submit m n k alpha (ti_h src) beta (ti_h dst) false].
(** src/tile/sumprod_slice.cc:24-74 *)
Definition tile_sumprod_slice (alpha : T) (src1 src2 : tile) (beta : T) (dst : tile) (axis : Z) : tasks :=
  _ <- same_shape src1 src2 (
       throw_if (negb (ti_ndim src1 =? ti_ndim dst +z 1)%Z) "src1.ndim != dst.ndim+1" (
       throw_if (ti_ndim src1 =? 0)%Z "Scalar input makes no sense" (
       tile_slice_check src1 dst axis (Ok tt)))) ;;
  '(m, n, k) <- ti_mnk src1 axis ;;
  Ok [sumprod_slice_submit m n k alpha (ti_h src1) (ti_h src2) beta (ti_h dst) false].

(** ** Fibers *)
(** src/tile/add_fiber.cc:42-63 (same: sum_fiber.cc:38-59) *)
Definition tile_fiber_check (big small : tile) (axis batch_ndim : Z) : res unit :=
  throw_if (axis <? 0)%Z "axis < 0" (
  throw_if (axis >=? ti_ndim big -z batch_ndim)%Z "axis >= dst.ndim-batch_ndim" (
  _ <- same_dim small 0 big axis ;;
  for_ 0 batch_ndim (fun i _ => same_dim small (i +z 1) big (ti_ndim big -z batch_ndim +z i)) tt)).
(** src/tile/add_fiber.cc:24-77 *)
Definition tile_add_fiber (alpha : T) (src : tile) (beta : T) (dst : tile) (axis batch_ndim : Z) : tasks :=
  _ <- throw_if (negb (ti_ndim src =? batch_ndim +z 1)%Z) "src.ndim != batch_ndim+1" (
       tile_fiber_check dst src axis batch_ndim) ;;
  if alpha ==? o_zero then Ok [] else
  '(_, batch) <- rd (tt_ms (ti_tt src)) 1 ;;
  '(m, n, k) <- ti_mnk dst axis ;;
  Ok [add_fiber_submit m (n / batch)%Z k batch alpha (ti_h src) beta (ti_h dst)].
(** src/tile/prod_fiber.cc:41-54 (same: prod_fiber3.cc:45-58, sumprod_fiber.cc:43-56) *)
Definition tile_fiber1_check (big small : tile) (axis : Z) (k : res unit) : res unit :=
  throw_if (axis <? 0)%Z "axis < 0" (
  throw_if (axis >=? ti_ndim big)%Z "axis >= dst.ndim" (
  _ <- same_dim small 0 big axis ;; k)).
(** src/tile/prod_fiber.cc:24-62 *)
Definition tile_prod_fiber (src : tile) (alpha : T) (dst : tile) (axis : Z) : tasks :=
  _ <- throw_if (negb (ti_ndim src =? 1)%Z) "src.ndim != 1" (tile_fiber1_check dst src axis (Ok tt)) ;;
  '(m, n, k) <- ti_mnk dst axis ;;
  Ok [prod_fiber_submit m n k alpha (ti_h src) (ti_h dst)].
(** src/tile/prod_fiber3.cc:24-70 *)
Definition tile_prod_fiber3 (src1 : tile) (alpha : T) (src2 dst : tile) (axis : Z) : tasks :=
  _ <- throw_if (negb (ti_ndim src1 =? 1)%Z) "src1.ndim != 1" (
       throw_if (negb (ti_ndim src2 =? ti_ndim dst)%Z) "src2.ndim != dst.ndim" (
       tile_fiber1_check dst src1 axis (same_shape src2 dst (Ok tt)))) ;;
  '(m, n, k) <- ti_mnk dst axis ;;
  Ok [prod_fiber3_submit m n k alpha (ti_h src1) (ti_h src2) (ti_h dst)].
(** src/tile/sum_fiber.cc:24-68 *)
Definition tile_sum_fiber (alpha : T) (src : tile) (beta : T) (dst : tile) (axis batch_ndim : Z) : tasks :=
  _ <- throw_if (negb (ti_ndim dst =? batch_ndim +z 1)%Z) "dst.ndim != batch_ndim+1" (
       throw_if (ti_ndim src =? 0)%Z "Scalar input makes no sense" (
       tile_fiber_check src dst axis batch_ndim)) ;;
  '(_, batch) <- rd (tt_ms (ti_tt dst)) 1 ;;
  '(m, n, k) <- ti_mnk src axis ;;
  Ok [sum_fiber_submit m (n / batch)%Z k batch alpha (ti_h src) beta (ti_h dst) false].
(** src/tile/sumprod_fiber.cc:24-64 *)
Definition tile_sumprod_fiber (alpha : T) (src1 src2 : tile) (beta : T) (dst : tile) (axis : Z) : tasks :=
  _ <- same_shape src1 src2 (
       throw_if (negb (ti_ndim dst =? 1)%Z) "dst.ndim != 1" (
       throw_if (ti_ndim src1 =? 0)%Z "Scalar input makes no sense" (
       tile_fiber1_check src1 dst axis (Ok tt)))) ;;
  '(m, n, k) <- ti_mnk src1 axis ;;
  Ok [sumprod_fiber_submit m n k alpha (ti_h src1) (ti_h src2) beta (ti_h dst) false].

(** ** Softmax and layer normalisation *)
(** src/tile/maxsumexp.cc:27-65 (same lines: sumnorm.cc:27-65, softmax_inplace.cc:27-64) *)
Definition tile_pair_check (big pair : tile) (axis : Z) : res unit :=
  throw_if (negb (ti_ndim big =? ti_ndim pair)%Z) "src.ndim != dst.ndim" (
  throw_if (ti_ndim pair =? 0)%Z "Scalar input makes no sense" (
  throw_if (axis <? 0)%Z "axis < 0" (
  throw_if (axis >=? ti_ndim big)%Z "axis >= ndim" (
  s0 <- rd (ti_shape pair) 0 ;;
  throw_if (negb (s0 =? 2)%Z) "dst.shape[0] != 2" (
  _ <- for_ 0 axis (fun i _ => same_dim big i pair (i +z 1)) tt ;;
  _ <- for_ (axis +z 1) (ti_ndim big) (fun i _ => same_dim big i pair i) tt ;;
  Ok tt))))).
(** src/tile/maxsumexp.cc:25-73 *)
Definition tile_maxsumexp (src dst : tile) (axis : Z) : tasks :=
  _ <- tile_pair_check src dst axis ;;
  '(m, n, k) <- ti_mnk src axis ;;
  Ok [maxsumexp_submit m n k (ti_h src) (ti_h dst) false].
(** src/tile/sumnorm.cc:25-73: unlike the tensor operation, dst is not cleared *)
Definition tile_sumnorm (src dst : tile) (axis : Z) : tasks :=
  _ <- tile_pair_check src dst axis ;;
  '(m, n, k) <- ti_mnk src axis ;;
  Ok [sumnorm_submit m n k (ti_h src) (ti_h dst)].
(** src/tile/softmax.cc:24-81 *)
Definition tile_softmax (ms src : tile) (alpha : T) (dst : tile) (axis : Z) : tasks :=
  _ <- throw_if (negb (ti_ndim ms =? ti_ndim dst)%Z) "maxsumexp.ndim != dst.ndim" (
       throw_if (negb (ti_ndim src =? ti_ndim dst)%Z) "src.ndim != dst.ndim" (
       _ <- tile_pair_check dst ms axis ;;
       same_shape src dst (Ok tt))) ;;
  '(m, n, k) <- ti_mnk dst axis ;;
  Ok [softmax_submit m n k (ti_h ms) (ti_h src) alpha (ti_h dst)].
(** src/tile/softmax_inplace.cc:24-73 *)
Definition tile_softmax_inplace (ms : tile) (alpha : T) (dst : tile) (axis : Z) : tasks :=
  _ <- tile_pair_check dst ms axis ;;
  '(m, n, k) <- ti_mnk dst axis ;;
  Ok [softmax_inplace_submit m n k (ti_h ms) alpha (ti_h dst)].
(** src/tile/logsumexp.cc:24-51 *)
Definition tile_logsumexp (src dst : tile) : tasks :=
  _ <- throw_if (negb (ti_ndim src -z 1 =? ti_ndim dst)%Z) "src.ndim - 1 != dst.ndim" (
       throw_if (ti_ndim src =? 0)%Z "Scalar input makes no sense" (
       s0 <- rd (ti_shape src) 0 ;;
       throw_if (negb (s0 =? 2)%Z) "src.shape[0] != 2" (
       for_ 0 (ti_ndim src -z 1) (fun i _ => same_dim src (i +z 1) dst i) tt))) ;;
  Ok [logsumexp_submit (ti_nelems dst) (ti_h src) (ti_h dst)].
(** src/tile/normalize.cc:25-93 *)
Definition tile_normalize (gamma_beta sumnorm dst : tile) (l : Z) (eps : T) (axis : Z) : tasks :=
  _ <- throw_if (negb (zlen (ti_shape gamma_beta) =? 1)%Z) "gamma_beta.shape.size() != 1" (
       g0 <- rd (ti_shape gamma_beta) 0 ;;
       throw_if (negb (g0 =? 2)%Z) "gamma_beta.shape[0] != 2" (
       throw_if (negb (ti_ndim sumnorm =? ti_ndim dst)%Z) "sumnorm.ndim != dst.ndim" (
       throw_if (ti_ndim sumnorm =? 0)%Z "sumnorm.ndim == 0" (
       throw_if (l <=? 0)%Z "l <= 0" (
       throw_if (o_geb o_zero eps) "eps <= 0" (
       tile_pair_check dst sumnorm axis)))))) ;;
  '(m, n, k) <- ti_mnk dst axis ;;
  Ok [normalize_submit m n k l eps (ti_h gamma_beta) (ti_h sumnorm) (ti_h dst)].

(** ** Masks, labels *)
(** src/tile/mask_scalar.cc:28-33: no check at all *)
Definition tile_mask_scalar (mask : tile) (val : T) (A : tile) : tasks :=
  '(nrows, _) <- rd (tt_ms (ti_tt A)) (ti_ndim A -z 1) ;;
  ncols <- rd (ti_shape A) (ti_ndim A -z 1) ;;
  Ok [mask_scalar_submit nrows ncols (ti_h mask) val (ti_h A)].
(** src/tile/subtract_indexed_outputs.cc:24-42 *)
Definition tile_subtract_indexed_outputs (val : T) (labels dst : tile) : tasks :=
  _ <- throw_if (negb (ti_ndim labels =? ti_ndim dst -z 1)%Z) "labels.ndim != dst.ndim-1" (
       for_ 0 (ti_ndim labels) (fun i _ => same_dim labels i dst (i +z 1)) tt) ;;
  n <- rd (ti_shape dst) 0%Z ;;
  Ok [subtract_indexed_outputs_submit n (ti_nelems labels) val (ti_h labels) (ti_h dst)].
(** src/tile/total_sum_accum.cc:25-57 *)
Definition tile_total_sum_accum (alpha : T) (logsumexp src labels val : tile) : tasks :=
  _ <- throw_if (negb (ti_ndim logsumexp =? ti_ndim labels)%Z) "logsumexp.ndim != labels.ndim" (
       throw_if (negb (ti_ndim logsumexp =? ti_ndim src -z 1)%Z) "logsumexp.ndim != src.ndim-1" (
       throw_if (negb (ti_ndim val =? 0)%Z) "val.ndim != 0" (
       for_ 0 (ti_ndim labels) (fun i _ =>
         _ <- same_dim logsumexp i labels i ;; same_dim labels i src (i +z 1)) tt))) ;;
  n <- rd (ti_shape src) 0%Z ;;
  Ok [total_sum_accum_submit alpha n (ti_nelems logsumexp) (ti_h logsumexp) (ti_h src) (ti_h labels) (ti_h val)].

(** ** gemm and nrm2 *)
(** src/tile/gemm.cc:23-48: unlike the tensor operation, ndim = 0 is rejected *)
Definition tile_gemm_check_ndim (A B C : tile) (ndim batch_ndim : Z) (k : res unit) : res unit :=
  throw_if (ndim <=? 0)%Z "ndim <= 0" (
  throw_if (batch_ndim <? 0)%Z "batch_ndim < 0" (
  throw_if (ti_ndim A <? batch_ndim +z ndim)%Z "A.ndim < batch_ndim+ndim" (
  throw_if (ti_ndim B <? batch_ndim +z ndim)%Z "B.ndim < batch_ndim+ndim" (
  throw_if (negb (ti_ndim A +z ti_ndim B =? ti_ndim C +z 2 *z ndim +z batch_ndim))%Z
    "A.ndim + B.ndim != C.ndim + 2*ndim + batch_ndim" k)))).
(** src/tile/gemm.cc:50-69 *)
Definition tile_gemm_check_batch (A B C : tile) (batch_ndim : Z) : res unit :=
  for_ 0 batch_ndim (fun i _ =>
    _ <- same_dim A (ti_ndim A -z i -z 1) B (ti_ndim B -z i -z 1) ;;
    same_dim A (ti_ndim A -z i -z 1) C (ti_ndim C -z i -z 1)) tt.
(** src/tile/gemm.cc:71-167 *)
Definition tile_gemm_check_opA_opB (transA : transop) (A : tile) (transB : transop) (B : tile) (ndim batch_ndim : Z) : res unit :=
  match transB, transA with
  | NoTrans, NoTrans => for_ 0 ndim (fun i _ => same_dim A (ti_ndim A -z batch_ndim -z ndim +z i) B i) tt
  | NoTrans, Trans => for_ 0 ndim (fun i _ => same_dim A i B i) tt
  | Trans, NoTrans => for_ 0 ndim (fun i _ =>
      same_dim A (ti_ndim A -z batch_ndim -z ndim +z i) B (ti_ndim B -z batch_ndim -z ndim +z i)) tt
  | Trans, Trans => for_ 0 ndim (fun i _ => same_dim A i B (ti_ndim B -z batch_ndim -z ndim +z i)) tt
  end.
(** src/tile/gemm.cc:169-212 *)
Definition tile_gemm_check_opA_C (transA : transop) (A C : tile) (ndim batch_ndim : Z) : res unit :=
  match transA with
  | NoTrans => for_ 0 (ti_ndim A -z batch_ndim -z ndim) (fun i _ => same_dim A i C i) tt
  | Trans => for_ ndim (ti_ndim A -z batch_ndim) (fun i _ => same_dim A i C (i -z ndim)) tt
  end.
(** src/tile/gemm.cc:214-252 *)
Definition tile_gemm_check_opB_C (transB : transop) (B C : tile) (ndim batch_ndim : Z) : res unit :=
  match transB with
  | NoTrans => for_ ndim (ti_ndim B -z batch_ndim) (fun i _ => same_dim B i C (ti_ndim C -z ti_ndim B +z i)) tt
  | Trans => for_ 0 (ti_ndim B -z batch_ndim -z ndim) (fun i _ => same_dim B i C (ti_ndim C -z ti_ndim B +z ndim +z i)) tt
  end.
(** src/tile/gemm.cc:254-268 *)
Definition tile_gemm_check (transA : transop) (A : tile) (transB : transop) (B C : tile) (ndim batch_ndim : Z) : res unit :=
  tile_gemm_check_ndim A B C ndim batch_ndim (
  _ <- tile_gemm_check_batch A B C batch_ndim ;;
  _ <- tile_gemm_check_opA_opB transA A transB B ndim batch_ndim ;;
  _ <- tile_gemm_check_opA_C transA A C ndim batch_ndim ;;
  tile_gemm_check_opB_C transB B C ndim batch_ndim).
(** src/tile/gemm.cc:281-307 *)
Definition tile_gemm (alpha : T) (transA : transop) (A : tile) (transB : transop) (B : tile) (beta : T)
    (C : tile) (ndim batch_ndim : Z) : tasks :=
  _ <- tile_gemm_check transA A transB B C ndim batch_ndim ;;
  '(m, c1) <- rd (tt_ms (ti_tt C)) (ti_ndim A -z batch_ndim -z ndim) ;;
  '(_, batch) <- rd (tt_ms (ti_tt C)) (ti_ndim C -z batch_ndim) ;;
  n <- div_ c1 batch ;;
  k <- match transA with
       | NoTrans => '(_, x) <- rd (tt_ms (ti_tt A)) (ti_ndim A -z batch_ndim -z ndim) ;; div_ x batch
       | Trans => '(x, _) <- rd (tt_ms (ti_tt A)) ndim ;; Ok x
       end ;;
  Ok [gemm_submit transA transB m n k batch alpha (ti_h A) (ti_h B) beta (ti_h C) false].
(** src/tile/nrm2.cc:28-62 *)
Definition tile_nrm2 (alpha : T) (src : tile) (beta : T) (dst tmp : tile) : tasks :=
  throw_if (negb (ti_ndim dst =? 0)%Z) "dst.ndim != 0" (
  throw_if (negb (ti_ndim tmp =? 0)%Z) "tmp.ndim != 0" (
  if beta ==? o_zero then
    if alpha ==? o_zero then Ok [clear_submit (ti_h dst)]
    else Ok (nrm2_submit (ti_nelems src) (ti_h src) (ti_h dst) ::
             (if alpha ==? o_one then [] else [scal_inplace_submit (o_abs alpha) (ti_nelems dst) (ti_h dst)]))
  else Ok [nrm2_submit (ti_nelems src) (ti_h src) (ti_h tmp);
           hypot_submit 1 alpha (ti_h tmp) beta (ti_h dst)])).
End T.
