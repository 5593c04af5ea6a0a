(** * Model of the fiber operations: add_fiber, prod_fiber, prod_fiber3, sum_fiber, sumprod_fiber
    (kernels, StarPU submission, tensor level); MPI dropped as in ElemOps.v *)
From Verif Require Import Base Spec Traits Runtime Ops KernelsElem ElemOps SliceOps.
Local Open Scope ops_scope.

Section S.
Context {T : Type} {O : Ops T}.
Local Notation vec := (list T).

(** src/kernel/add_fiber/cpu.cc:25-81 *)
Definition k_add_fiber (m n k batch : Z) (alpha : T) (src : vec) (beta : T) (dst : vec) : res vec :=
  for_ 0 batch (fun b => for_ 0 k (fun i2 dst =>
    x <- rd src (i2 +z b *z k) ;;
    let src_val := alpha * x in
    for_ 0 n (fun i1 dst =>
      let p := ((i1 +z b *z n) *z k +z i2) *z m in
      if beta ==? o_zero then for_ 0 m (fun i0 dst => wr dst (p +z i0) src_val) dst
      else for_ 0 m (fun i0 dst => d <- rd dst (p +z i0) ;; wr dst (p +z i0) (beta * d + src_val)) dst) dst)) dst.

(** src/kernel/prod_fiber/cpu.cc:25-57 *)
Definition k_prod_fiber (m n k : Z) (alpha : T) (src dst : vec) : res vec :=
  for_ 0 k (fun i2 dst =>
    x <- rd src i2 ;;
    let src_val := alpha * x in
    for_ 0 n (fun i1 dst =>
      let p := (i1 *z k +z i2) *z m in
      for_ 0 m (fun i0 dst => d <- rd dst (p +z i0) ;; wr dst (p +z i0) (d * src_val)) dst) dst) dst.

(** src/kernel/prod_fiber3/cpu.cc:25-61 *)
Definition k_prod_fiber3 (m n k : Z) (alpha : T) (src1 src2 dst : vec) : res vec :=
  for_ 0 k (fun i2 dst =>
    x <- rd src1 i2 ;;
    let src1_val := alpha * x in
    for_ 0 n (fun i1 dst =>
      let p := (i1 *z k +z i2) *z m in
      for_ 0 m (fun i0 dst => d <- rd src2 (p +z i0) ;; wr dst (p +z i0) (src1_val * d)) dst) dst) dst.

(** src/kernel/sum_fiber/cpu.cc:26-87 *)
Definition k_sum_fiber (m n k batch : Z) (alpha : T) (src : vec) (beta : T) (dst : vec) : res vec :=
  for_ 0 batch (fun b => for_ 0 k (fun i2 dst =>
    '(sum, c) <- for_ 0 n (fun i1 st =>
        let p := ((i1 +z b *z n) *z k +z i2) *z m in
        for_ 0 m (fun i0 st => v <- rd src (p +z i0) ;; Ok (kahan v st)) st) (o_zero, o_zero) ;;
    if beta ==? o_zero then wr dst (i2 +z b *z k) (sum * alpha)
    else
      r <- rd dst (i2 +z b *z k) ;;
      wr dst (i2 +z b *z k) ((beta * r - alpha * c) + alpha * sum))) dst.

(** src/kernel/sumprod_fiber/cpu.cc:25-84 (c stays zero, the compensation is commented out) *)
Definition k_sumprod_fiber (m n k : Z) (alpha : T) (src1 src2 : vec) (beta : T) (dst : vec) : res vec :=
  for_ 0 k (fun i2 dst =>
    let c := o_zero in
    sum <- for_ 0 n (fun i1 sum =>
        let p := (i1 *z k +z i2) *z m in
        for_ 0 m (fun i0 sum =>
          v1 <- rd src1 (p +z i0) ;; v2 <- rd src2 (p +z i0) ;; Ok (sum + v1 * v2)) sum) o_zero ;;
    if beta ==? o_zero then wr dst i2 (alpha * sum)
    else
      r <- rd dst i2 ;;
      wr dst i2 ((beta * r - alpha * c) + alpha * sum)) dst.

(* ------------------------------------------------------------------ *)
(** ** StarPU submission *)
(** src/starpu/add_fiber.cc:29-41, 116-160 *)
Definition add_fiber_submit (m n k batch : Z) (alpha : T) (src : handle) (beta : T) (dst : handle) : task T :=
  mkTask [(src, MR); (dst, bmode beta)] (wrap2 (fun s d => k_add_fiber m n k batch alpha s beta d)).
(** src/starpu/prod_fiber.cc:29-41, 115-141 *)
Definition prod_fiber_submit (m n k : Z) (alpha : T) (src dst : handle) : task T :=
  mkTask [(src, MR); (dst, MRW)] (wrap2 (k_prod_fiber m n k alpha)).
(** src/starpu/prod_fiber3.cc:29-42, 117-145 *)
Definition prod_fiber3_submit (m n k : Z) (alpha : T) (src1 src2 dst : handle) : task T :=
  mkTask [(src1, MR); (src2, MR); (dst, MW)] (wrap3 (k_prod_fiber3 m n k alpha)).
(** src/starpu/sum_fiber.cc:28-40, 115-165 *)
Definition sum_fiber_submit (m n k batch : Z) (alpha : T) (src : handle) (beta : T) (dst : handle) (redux : bool) : task T :=
  mkTask [(src, MR); (dst, rmode redux beta)] (wrap2 (fun s d => k_sum_fiber m n k batch alpha s beta d)).
(** src/starpu/sumprod_fiber.cc:28-41, 117-169 *)
Definition sumprod_fiber_submit (m n k : Z) (alpha : T) (src1 src2 : handle) (beta : T) (dst : handle) (redux : bool) : task T :=
  mkTask [(src1, MR); (src2, MR); (dst, rmode redux beta)]
    (wrap3 (fun a b d => k_sumprod_fiber m n k alpha a b beta d)).

(* ------------------------------------------------------------------ *)
(** ** Tensor level *)

(** src/tensor/add_fiber.cc:38-73 ([small] is the fiber; sum_fiber.cc:29-69 has the same
    checks with one more on the number of dimensions) *)
Definition fiber_check_tail (big small : tensor) (axis batch_ndim : Z) : res unit :=
  throw_if (axis <? 0)%Z "axis < 0" (
  throw_if (axis >=? t_ndim big -z batch_ndim)%Z "axis >= dst.ndim-batch_ndim" (
  _ <- check_dim small 0 big axis ;;
  for_ 0 batch_ndim (fun i _ => check_dim small (i +z 1) big (t_ndim big -z batch_ndim +z i)) tt)).
Definition fiber_check (big small : tensor) (axis batch_ndim : Z) : res unit :=
  throw_if (negb (t_ndim small =? batch_ndim +z 1)%Z) "src.ndim != batch_ndim+1" (
  fiber_check_tail big small axis batch_ndim).

(** src/tensor/add_fiber.cc:89-94 (sum_fiber.cc:83-88): index of the fiber tile *)
Definition fiber_index (big small : tensor) (axis batch_ndim : Z) (big_index : list Z) : res (list Z) :=
  x <- rd big_index axis ;;
  v <- wr (zrep (t_ndim small) 0%Z) 0 x ;;
  for_ 0 batch_ndim (fun j v =>
    x <- rd big_index (t_ndim big -z batch_ndim +z j) ;; wr v (j +z 1) x) v.

(** src/tensor/add_fiber.cc:24-116.  n is the exact quotient matrix_shape[axis+1][1] / batch. *)
Definition add_fiber_async (alpha : T) (src : tensor) (beta : T) (dst : tensor) (axis batch_ndim : Z)
  : res (list (task T)) :=
  _ <- fiber_check dst src axis batch_ndim ;;
  if alpha ==? o_zero then Ok [] else
  for_ 0 (t_ntiles dst) (fun i ts =>
    dst_tile_index <- linear_to_index (t_grid dst) i ;;
    dst_tile_traits <- get_tile_traits dst i ;;
    dst_tile_handle <- get_tile_handle dst i ;;
    src_tile_index <- fiber_index dst src axis batch_ndim dst_tile_index ;;
    src_tile_handle <- get_tile_handle_idx src src_tile_index ;;
    src_tile_traits <- get_tile_traits_idx src src_tile_index ;;
    b <- rd (tt_ms src_tile_traits) 1 ;;
    let batch := snd b in
    '(m, n, k) <- tile_mnk dst_tile_traits axis ;;
    Ok (ts ++ [add_fiber_submit m (n / batch)%Z k batch alpha src_tile_handle beta dst_tile_handle])) [].

(** src/tensor/prod_fiber.cc:36-59 *)
Definition fiber1_check (big small : tensor) (axis : Z) (k : res unit) : res unit :=
  throw_if (axis <? 0)%Z "axis < 0" (
  throw_if (axis >=? t_ndim big)%Z "axis >= dst.ndim" (
  _ <- check_dim small 0 big axis ;; k)).

(** src/tensor/prod_fiber.cc:24-90 *)
Definition prod_fiber_async (src : tensor) (alpha : T) (dst : tensor) (axis : Z) : res (list (task T)) :=
  _ <- throw_if (negb (t_ndim src =? 1)%Z) "src.ndim != 1" (fiber1_check dst src axis (Ok tt)) ;;
  for_ 0 (t_ntiles dst) (fun i ts =>
    dst_tile_index <- linear_to_index (t_grid dst) i ;;
    dst_tile_traits <- get_tile_traits dst i ;;
    dst_tile_handle <- get_tile_handle dst i ;;
    j <- rd dst_tile_index axis ;;
    src_tile_handle <- get_tile_handle src j ;;
    '(m, n, k) <- tile_mnk dst_tile_traits axis ;;
    Ok (ts ++ [prod_fiber_submit m n k alpha src_tile_handle dst_tile_handle])) [].

(** src/tensor/prod_fiber3.cc:37-75 *)
Definition prod_fiber3_check (src1 src2 dst : tensor) (axis : Z) : res unit :=
  throw_if (negb (t_ndim src1 =? 1)%Z) "src1.ndim != 1" (
  throw_if (negb (t_ndim src2 =? t_ndim dst)%Z) "src2.ndim != dst.ndim" (
  fiber1_check dst src1 axis (
  throw_if (negb (list_eqb Z.eqb (t_shape src2) (t_shape dst))) "src2.shape != dst.shape" (
  throw_if (negb (list_eqb Z.eqb (t_base src2) (t_base dst))) "src2.basetile_shape != dst.basetile_shape" (Ok tt))))).
(** src/tensor/prod_fiber3.cc:24-103 *)
Definition prod_fiber3_async (src1 : tensor) (alpha : T) (src2 dst : tensor) (axis : Z) : res (list (task T)) :=
  _ <- prod_fiber3_check src1 src2 dst axis ;;
  for_ 0 (t_ntiles dst) (fun i ts =>
    dst_tile_index <- linear_to_index (t_grid dst) i ;;
    dst_tile_traits <- get_tile_traits dst i ;;
    dst_tile_handle <- get_tile_handle dst i ;;
    j <- rd dst_tile_index axis ;;
    src1_tile_handle <- get_tile_handle src1 j ;;
    src2_tile_handle <- get_tile_handle src2 i ;;
    '(m, n, k) <- tile_mnk dst_tile_traits axis ;;
    Ok (ts ++ [prod_fiber3_submit m n k alpha src1_tile_handle src2_tile_handle dst_tile_handle])) [].

(** src/tensor/sum_fiber.cc:101-111: is this the first tile contributing to its output tile?
    (the break of the loop is dropped: further iterations cannot set the flag back) *)
Definition init_first (hi axis : Z) (src_tile_index : list Z) : res bool :=
  for_ 0 hi (fun j f => x <- rd src_tile_index j ;;
    Ok (if negb (j =? axis)%Z && negb (x =? 0)%Z then false else f)) true.

(** src/tensor/sum_fiber.cc:25-130 *)
Definition sum_fiber_check (src dst : tensor) (axis batch_ndim : Z) : res unit :=
  throw_if (negb (t_ndim dst =? batch_ndim +z 1)%Z) "dst.ndim != batch_ndim+1" (
  throw_if (t_ndim src =? 0)%Z "Scalar input makes no sense" (
  fiber_check_tail src dst axis batch_ndim)).
Definition sum_fiber_async (alpha : T) (src : tensor) (beta : T) (dst : tensor) (axis batch_ndim : Z) (redux : bool)
  : res (list (task T)) :=
  _ <- sum_fiber_check src dst axis batch_ndim ;;
  for_ 0 (t_ntiles src) (fun i ts =>
    src_tile_handle <- get_tile_handle src i ;;
    src_tile_traits <- get_tile_traits src i ;;
    src_tile_index <- linear_to_index (t_grid src) i ;;
    dst_tile_index <- fiber_index src dst axis batch_ndim src_tile_index ;;
    dst_tile_handle <- get_tile_handle_idx dst dst_tile_index ;;
    dst_tile_traits <- get_tile_traits_idx dst dst_tile_index ;;
    b <- rd (tt_ms dst_tile_traits) 1 ;;
    let batch := snd b in
    '(m, n, k) <- tile_mnk src_tile_traits axis ;;
    first <- init_first (t_ndim src -z batch_ndim) axis src_tile_index ;;
    Ok (ts ++ [if first : bool
               then sum_fiber_submit m (n / batch)%Z k batch alpha src_tile_handle beta dst_tile_handle false
               else sum_fiber_submit m (n / batch)%Z k batch alpha src_tile_handle o_one dst_tile_handle redux])) [].

(** src/tensor/sumprod_fiber.cc:28-62 *)
Definition sumprod_fiber_check (src1 src2 dst : tensor) (axis : Z) : res unit :=
  throw_if (negb (list_eqb Z.eqb (t_shape src1) (t_shape src2))) "src1.shape != src2.shape" (
  throw_if (negb (t_ndim dst =? 1)%Z) "dst.ndim != 1" (
  throw_if (t_ndim src1 =? 0)%Z "Scalar input makes no sense" (
  fiber1_check src1 dst axis (Ok tt)))).
(** src/tensor/sumprod_fiber.cc:24-122 *)
Definition sumprod_fiber_async (alpha : T) (src1 src2 : tensor) (beta : T) (dst : tensor) (axis : Z) (redux : bool)
  : res (list (task T)) :=
  _ <- sumprod_fiber_check src1 src2 dst axis ;;
  for_ 0 (t_ntiles src1) (fun i ts =>
    src1_tile_handle <- get_tile_handle src1 i ;;
    src2_tile_handle <- get_tile_handle src2 i ;;
    src_tile_traits <- get_tile_traits src1 i ;;
    src_tile_index <- linear_to_index (t_grid src1) i ;;
    j <- rd src_tile_index axis ;;
    dst_tile_handle <- get_tile_handle dst j ;;
    _ <- get_tile_traits dst j ;;
    '(m, n, k) <- tile_mnk src_tile_traits axis ;;
    first <- init_first (t_ndim src1) axis src_tile_index ;;
    Ok (ts ++ [if first : bool
               then sumprod_fiber_submit m n k alpha src1_tile_handle src2_tile_handle beta dst_tile_handle false
               else sumprod_fiber_submit m n k alpha src1_tile_handle src2_tile_handle o_one dst_tile_handle redux])) [].
End S.
