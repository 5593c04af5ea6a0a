(** * Model of the slice operations: kernels, StarPU submission, tensor level
    (add_slice, add_slice3, prod_slice, sum_slice, sumprod_slice, norm_slice).

    As in ElemOps.v: MPI rank tests, transfers and flushes are dropped (one node). *)
From Verif Require Import Base Spec Traits Runtime Ops KernelsElem ElemOps.
Local Open Scope ops_scope.
Notation "a *z b" := (Z.mul a b) (at level 40, left associativity, only parsing).
Notation "a +z b" := (Z.add a b) (at level 50, left associativity, only parsing).
Notation "a -z b" := (Z.sub a b) (at level 50, left associativity, only parsing).

Section S.
Context {T : Type} {O : Ops T}.
Local Notation vec := (list T).

(** src/kernel/add_slice/cpu.cc:25-75 *)
Definition k_add_slice (m n k : Z) (alpha : T) (src : vec) (beta : T) (dst : vec) : res vec :=
  let mk := m *z k in
  for_ 0 n (fun i2 => for_ 0 m (fun i1 dst =>
    x <- rd src (i2 *z m +z i1) ;;
    let src_val := alpha * x in
    if beta ==? o_zero then
      for_ 0 k (fun i0 dst => wr dst (i2 *z mk +z i1 +z i0 *z m) src_val) dst
    else
      for_ 0 k (fun i0 dst =>
        d <- rd dst (i2 *z mk +z i1 +z i0 *z m) ;;
        wr dst (i2 *z mk +z i1 +z i0 *z m) (beta * d + src_val)) dst)) dst.

(** src/kernel/add_slice3/cpu.cc:25-77 *)
Definition k_add_slice3 (m n k : Z) (alpha : T) (src1 : vec) (beta : T) (src2 dst : vec) : res vec :=
  let mk := m *z k in
  for_ 0 n (fun i2 => for_ 0 m (fun i1 dst =>
    x <- rd src1 (i2 *z m +z i1) ;;
    let src1_val := alpha * x in
    if beta ==? o_zero then
      for_ 0 k (fun i0 dst => wr dst (i2 *z mk +z i1 +z i0 *z m) src1_val) dst
    else
      for_ 0 k (fun i0 dst =>
        d <- rd src2 (i2 *z mk +z i1 +z i0 *z m) ;;
        wr dst (i2 *z mk +z i1 +z i0 *z m) (beta * d + src1_val)) dst)) dst.

(** src/kernel/prod_slice/cpu.cc:25-58 *)
Definition k_prod_slice (m n k : Z) (alpha : T) (src dst : vec) : res vec :=
  let mk := m *z k in
  for_ 0 n (fun i2 => for_ 0 m (fun i1 dst =>
    x <- rd src (i2 *z m +z i1) ;;
    let src_val := alpha * x in
    for_ 0 k (fun i0 dst =>
      d <- rd dst (i2 *z mk +z i1 +z i0 *z m) ;;
      wr dst (i2 *z mk +z i1 +z i0 *z m) (d * src_val)) dst)) dst.

(** One step of the compensated (Kahan) summation: y = val - c; t = sum + y;
    c = (t-sum) - y; sum = t (src/kernel/sum_slice/cpu.cc:61-65). *)
Definition kahan (val : T) (st : T * T) : T * T :=
  let '(sum, c) := st in
  let y := val - c in
  let t := sum + y in
  (t, (t - sum) - y).

(** src/kernel/sum_slice/cpu.cc:27-79 *)
Definition k_sum_slice (m n k : Z) (alpha : T) (src : vec) (beta : T) (dst : vec) : res vec :=
  let mk := m *z k in
  for_ 0 n (fun i2 => for_ 0 m (fun i1 dst =>
    '(sum, c) <- for_ 0 k (fun i0 st =>
        v <- rd src (i2 *z mk +z i1 +z i0 *z m) ;;
        Ok (kahan v st)) (o_zero, o_zero) ;;
    if beta ==? o_zero then wr dst (i2 *z m +z i1) (alpha * sum)
    else
      r <- rd dst (i2 *z m +z i1) ;;
      wr dst (i2 *z m +z i1) ((beta * r - alpha * c) + alpha * sum))) dst.

(** src/kernel/sumprod_slice/cpu.cc:25-82 *)
Definition k_sumprod_slice (m n k : Z) (alpha : T) (src1 src2 : vec) (beta : T) (dst : vec) : res vec :=
  let mk := m *z k in
  for_ 0 n (fun i2 => for_ 0 m (fun i1 dst =>
    '(sum, c) <- for_ 0 k (fun i0 st =>
        v1 <- rd src1 (i2 *z mk +z i1 +z i0 *z m) ;;
        v2 <- rd src2 (i2 *z mk +z i1 +z i0 *z m) ;;
        Ok (kahan (v1 * v2) st)) (o_zero, o_zero) ;;
    if beta ==? o_zero then wr dst (i2 *z m +z i1) (alpha * sum)
    else
      r <- rd dst (i2 *z m +z i1) ;;
      wr dst (i2 *z m +z i1) ((beta * r - alpha * c) + alpha * sum))) dst.

(** src/kernel/norm_slice/cpu.cc:62-91: update of (norm_max, norm_ssq, c) by one value *)
Definition ssq_step (x : T) (st : T * T * T) : T * T * T :=
  let '(norm_max, norm_ssq, c) := st in
  let val := o_abs x in
  if o_zero <? val then
    if negb (norm_max <? val) then
      let tmp1 := val / norm_max in
      let y := tmp1 * tmp1 - c in
      let t := norm_ssq + y in
      (norm_max, t, (t - norm_ssq) - y)
    else
      let tmp1 := norm_max / val in
      let tmp2 := tmp1 * tmp1 in
      let y := o_one - c * tmp2 in
      let norm_ssq := norm_ssq * tmp2 in
      let t := norm_ssq + y in
      (val, t, (t - norm_ssq) - y)
  else st.

(** src/kernel/norm_slice/cpu.cc:93-121: combination with the old value *)
Definition norm_result (beta result : T) (norm_max norm_ssq c : T) : T :=
  if beta ==? o_zero then norm_max * o_sqrt norm_ssq
  else if o_zero <? norm_max then
    let tmp_res := o_abs (beta * result) in
    if negb (norm_max <? tmp_res) then
      let tmp1 := tmp_res / norm_max in
      norm_max * o_sqrt ((tmp1 * tmp1 - c) + norm_ssq)
    else
      let tmp1 := norm_max / tmp_res in
      let tmp2 := tmp1 * tmp1 in
      tmp_res * o_sqrt ((o_one - c * tmp2) + norm_ssq * tmp2)
  else o_abs (beta * result).

(** src/kernel/norm_slice/cpu.cc:26-124 *)
Definition k_norm_slice (m n k : Z) (alpha : T) (src : vec) (beta : T) (dst : vec) : res vec :=
  let mk := m *z k in
  let alpha := o_abs alpha in
  for_ 0 n (fun i2 => for_ 0 m (fun i1 dst =>
    '(norm_max, norm_ssq, c) <- for_ 0 k (fun i0 st =>
        v <- rd src (i2 *z mk +z i1 +z i0 *z m) ;;
        Ok (ssq_step v st)) (o_zero, o_zero, o_zero) ;;
    r <- rd dst (i2 *z m +z i1) ;;
    wr dst (i2 *z m +z i1) (norm_result beta r (norm_max * alpha) norm_ssq c))) dst.

(* ------------------------------------------------------------------ *)
(** ** StarPU submission *)

(** Access mode of an output scaled by beta: src/starpu/add_slice.cc:123-133 *)
Definition bmode (beta : T) : mode := if beta ==? o_zero then MW else MRW.
(** ... with optional reduction: src/starpu/sum_slice.cc:123-145;
    STARPU_RW_COMMUTE is STARPU_RW (include/nntile/starpu/config.hh:118-121) *)
Definition rmode (redux : bool) (beta : T) : mode :=
  if beta ==? o_zero then MW else if beta ==? o_one then (if redux then MREDUX else MRW) else MRW.

(** src/starpu/add_slice.cc:29-41, 115-157 *)
Definition add_slice_submit (m n k : Z) (alpha : T) (src : handle) (beta : T) (dst : handle) : task T :=
  mkTask [(src, MR); (dst, bmode beta)] (wrap2 (fun s d => k_add_slice m n k alpha s beta d)).
(** src/starpu/add_slice3.cc:29-42, 117-146 *)
Definition add_slice3_submit (m n k : Z) (alpha : T) (src1 : handle) (beta : T) (src2 dst : handle) : task T :=
  mkTask [(src1, MR); (src2, MR); (dst, MW)] (wrap3 (fun a b d => k_add_slice3 m n k alpha a beta b d)).
(** src/starpu/prod_slice.cc:29-41, 115-141 *)
Definition prod_slice_submit (m n k : Z) (alpha : T) (src dst : handle) : task T :=
  mkTask [(src, MR); (dst, MRW)] (wrap2 (k_prod_slice m n k alpha)).
(** src/starpu/sum_slice.cc:29-41, 115-166 *)
Definition sum_slice_submit (m n k : Z) (alpha : T) (src : handle) (beta : T) (dst : handle) (redux : bool) : task T :=
  mkTask [(src, MR); (dst, rmode redux beta)] (wrap2 (fun s d => k_sum_slice m n k alpha s beta d)).
(** src/starpu/sumprod_slice.cc:28-41, 116-168 *)
Definition sumprod_slice_submit (m n k : Z) (alpha : T) (src1 src2 : handle) (beta : T) (dst : handle) (redux : bool) : task T :=
  mkTask [(src1, MR); (src2, MR); (dst, rmode redux beta)]
    (wrap3 (fun a b d => k_sumprod_slice m n k alpha a b beta d)).
(** src/starpu/norm_slice.cc:29-41, 115-164 *)
Definition norm_slice_submit (m n k : Z) (alpha : T) (src : handle) (beta : T) (dst : handle) (redux : bool) : task T :=
  mkTask [(src, MR); (dst, rmode redux beta)] (wrap2 (fun s d => k_norm_slice m n k alpha s beta d)).

(* ------------------------------------------------------------------ *)
(** ** Tensor level *)

(** The loop of size checks on one dimension: shape and basetile. *)
Definition check_dim (a : tensor) (i : Z) (b : tensor) (j : Z) : res unit :=
  x <- rd (t_shape a) i ;; y <- rd (t_shape b) j ;;
  throw_if (negb (x =? y)%Z) "shape" (
  x <- rd (t_base a) i ;; y <- rd (t_base b) j ;;
  throw_if (negb (x =? y)%Z) "basetile_shape" (Ok tt)).

(** src/tensor/add_slice.cc:37-75: checks of [big] against the slice [small]
    (same lines: prod_slice.cc:37-75, sumprod_slice.cc:34-75) *)
Definition slice_check (big small : tensor) (axis : Z) (k : res unit) : res unit :=
  throw_if (negb (t_ndim big =? t_ndim small +z 1)%Z) "dst.ndim != src.ndim+1" (
  throw_if (axis <? 0)%Z "axis < 0" (
  throw_if (axis >=? t_ndim big)%Z "axis >= dst.ndim" (
  _ <- for_ 0 axis (fun i _ => check_dim big i small i) tt ;;
  _ <- for_ (axis +z 1) (t_ndim big) (fun i _ => check_dim big i small (i -z 1)) tt ;;
  k))).

(** src/tensor/add_slice.cc:85-94: dst_tile_index (vector initialised with zeros) *)
Definition slice_index (big : tensor) (axis : Z) (small_index : list Z) : res (list Z) :=
  v <- for_ 0 axis (fun j v => x <- rd small_index j ;; wr v j x) (zrep (t_ndim big) 0%Z) ;;
  for_ (axis +z 1) (t_ndim big) (fun j v => x <- rd small_index (j -z 1) ;; wr v j x) v.

(** sizes of a tile around an axis: src/tensor/add_slice.cc:111-114 *)
Definition tile_mnk (tt : TileTraits) (axis : Z) : res (Z * Z * Z) :=
  m <- rd (tt_stride tt) axis ;;
  n <- rd (tt_ms tt) (axis +z 1) ;;
  k <- rd (tt_shape tt) axis ;;
  Ok (m, snd n, k).

(** src/tensor/add_slice.cc:24-128 *)
Definition add_slice_async (alpha : T) (src : tensor) (beta : T) (dst : tensor) (axis : Z) : res (list (task T)) :=
  _ <- slice_check dst src axis (Ok tt) ;;
  for_ 0 (t_ntiles src) (fun i ts =>
    src_tile_index <- linear_to_index (t_grid src) i ;;
    _ <- get_tile_traits src i ;;
    src_tile_handle <- get_tile_handle src i ;;
    dst_tile_index <- slice_index dst axis src_tile_index ;;
    g <- rd (tt_shape (t_grid dst)) axis ;;
    for_ 0 g (fun j ts =>
      dst_tile_index <- wr dst_tile_index axis j ;;
      o <- index_to_linear (t_grid dst) dst_tile_index ;;
      dst_tile_handle <- get_tile_handle dst o ;;
      tt <- get_tile_traits dst o ;;
      '(m, n, k) <- tile_mnk tt axis ;;
      Ok (ts ++ [add_slice_submit m n k alpha src_tile_handle beta dst_tile_handle])) ts) [].

(** src/tensor/add_slice3.cc:24-144 *)
Definition add_slice3_check (src1 src2 dst : tensor) (axis : Z) : res unit :=
  throw_if (negb (t_ndim dst =? t_ndim src1 +z 1)%Z) "dst.ndim != src1.ndim+1" (
  throw_if (negb (t_ndim dst =? t_ndim src2)%Z) "dst.ndim != src2.ndim" (
  slice_check dst src1 axis (
  throw_if (negb (list_eqb Z.eqb (t_shape dst) (t_shape src2))) "dst.shape != src2.shape" (
  throw_if (negb (list_eqb Z.eqb (t_base dst) (t_base src2))) "dst.basetile_shape != src2.basetile_shape" (Ok tt))))).
Definition add_slice3_async (alpha : T) (src1 : tensor) (beta : T) (src2 dst : tensor) (axis : Z) : res (list (task T)) :=
  _ <- add_slice3_check src1 src2 dst axis ;;
  for_ 0 (t_ntiles src1) (fun i ts =>
    src1_tile_index <- linear_to_index (t_grid src1) i ;;
    _ <- get_tile_traits src1 i ;;
    src1_tile_handle <- get_tile_handle src1 i ;;
    dst_tile_index <- slice_index dst axis src1_tile_index ;;
    g <- rd (tt_shape (t_grid dst)) axis ;;
    for_ 0 g (fun j ts =>
      dst_tile_index <- wr dst_tile_index axis j ;;
      o <- index_to_linear (t_grid dst) dst_tile_index ;;
      src2_tile_handle <- get_tile_handle src2 o ;;
      dst_tile_handle <- get_tile_handle dst o ;;
      tt <- get_tile_traits dst o ;;
      '(m, n, k) <- tile_mnk tt axis ;;
      Ok (ts ++ [add_slice3_submit m n k alpha src1_tile_handle beta src2_tile_handle dst_tile_handle])) ts) [].

(** src/tensor/prod_slice.cc:24-127 *)
Definition prod_slice_async (src : tensor) (alpha : T) (dst : tensor) (axis : Z) : res (list (task T)) :=
  _ <- slice_check dst src axis (Ok tt) ;;
  for_ 0 (t_ntiles src) (fun i ts =>
    src_tile_index <- linear_to_index (t_grid src) i ;;
    _ <- get_tile_traits src i ;;
    src_tile_handle <- get_tile_handle src i ;;
    dst_tile_index <- slice_index dst axis src_tile_index ;;
    g <- rd (tt_shape (t_grid dst)) axis ;;
    for_ 0 g (fun j ts =>
      dst_tile_index <- wr dst_tile_index axis j ;;
      o <- index_to_linear (t_grid dst) dst_tile_index ;;
      dst_tile_handle <- get_tile_handle dst o ;;
      tt <- get_tile_traits dst o ;;
      '(m, n, k) <- tile_mnk tt axis ;;
      Ok (ts ++ [prod_slice_submit m n k alpha src_tile_handle dst_tile_handle])) ts) [].

(** src/tensor/sum_slice.cc:52-66: two-pointer check loop *)
Definition slice_check2 (src dst : tensor) (axis : Z) : res unit :=
  throw_if (negb (t_ndim src -z 1 =? t_ndim dst)%Z) "src.ndim - 1 != dst.ndim" (
  throw_if (t_ndim src =? 0)%Z "Scalar input makes no sense" (
  throw_if (axis <? 0)%Z "axis < 0" (
  throw_if (axis >=? t_ndim src)%Z "axis >= src.ndim" (
  _ <- for_ 0 (t_ndim src) (fun i j =>
         if (i =? axis)%Z then Ok j else
         _ <- check_dim src i dst j ;; Ok (j +z 1)) 0%Z ;;
  Ok tt)))).
(** src/tensor/sum_slice.cc:76-88: two-pointer construction of src_tile_index
    (same lines: norm_slice.cc:81-93) *)
Definition slice_index2 (src : tensor) (axis : Z) (dst_tile_index : list Z) : res (list Z) :=
  '(v, _) <- for_ 0 (t_ndim src) (fun j '(v, k) =>
      if (j =? axis)%Z then v <- wr v axis 0%Z ;; Ok (v, k) else
      x <- rd dst_tile_index k ;; v <- wr v j x ;; Ok (v, k +z 1)) (zrep (t_ndim src) 0%Z, 0%Z) ;;
  Ok v.

(** One submission of sum_slice.cc:92-111 / 115-135 (source tile j along the axis) *)
Definition sum_slice_tile (alpha : T) (src : tensor) (beta : T) (axis : Z) (redux : bool)
    (src_tile_index : list Z) (j : Z) (dst_tile_handle : handle) : res (task T) :=
  src_tile_index <- wr src_tile_index axis j ;;
  o <- index_to_linear (t_grid src) src_tile_index ;;
  src_tile_handle <- get_tile_handle src o ;;
  tt <- get_tile_traits src o ;;
  '(m, n, k) <- tile_mnk tt axis ;;
  Ok (sum_slice_submit m n k alpha src_tile_handle beta dst_tile_handle redux).

(** src/tensor/sum_slice.cc:27-138 *)
Definition sum_slice_async (alpha : T) (src : tensor) (beta : T) (dst : tensor) (axis : Z) (redux : bool)
  : res (list (task T)) :=
  _ <- slice_check2 src dst axis ;;
  for_ 0 (t_ntiles dst) (fun i ts =>
    dst_tile_handle <- get_tile_handle dst i ;;
    dst_tile_index <- linear_to_index (t_grid dst) i ;;
    src_tile_index <- slice_index2 src axis dst_tile_index ;;
    _ <- get_tile_traits dst i ;;
    t <- sum_slice_tile alpha src beta axis redux src_tile_index 0 dst_tile_handle ;;
    g <- rd (tt_shape (t_grid src)) axis ;;
    for_ 1 g (fun j ts =>
      t <- sum_slice_tile alpha src o_one axis redux src_tile_index j dst_tile_handle ;;
      Ok (ts ++ [t])) (ts ++ [t])) [].

(** src/tensor/norm_slice.cc:28-70: checks *)
Definition norm_slice_check (src dst : tensor) (axis : Z) : res unit :=
  throw_if (negb (t_ndim src -z 1 =? t_ndim dst)%Z) "src.ndim-1 != dst.ndim" (
  throw_if (t_ndim src =? 0)%Z "Scalar input makes no sense" (
  throw_if (axis <? 0)%Z "axis < 0" (
  throw_if (axis >=? t_ndim src)%Z "axis >= src.ndim" (
  _ <- for_ 0 axis (fun i _ => check_dim src i dst i) tt ;;
  _ <- for_ (axis +z 1) (t_ndim src) (fun i _ => check_dim src i dst (i -z 1)) tt ;;
  Ok tt)))).

(** src/tensor/norm_slice.cc:24-129 *)
Definition norm_slice_async (alpha : T) (src : tensor) (beta : T) (dst : tensor) (axis : Z) (redux : bool)
  : res (list (task T)) :=
  _ <- norm_slice_check src dst axis ;;
  for_ 0 (t_ntiles dst) (fun i ts =>
    dst_tile_handle <- get_tile_handle dst i ;;
    dst_tile_index <- linear_to_index (t_grid dst) i ;;
    src_tile_index <- slice_index2 src axis dst_tile_index ;;
    _ <- get_tile_traits dst i ;;
    g <- rd (tt_shape (t_grid src)) axis ;;
    for_ 0 g (fun j ts =>
      src_tile_index <- wr src_tile_index axis j ;;
      o <- index_to_linear (t_grid src) src_tile_index ;;
      src_tile_handle <- get_tile_handle src o ;;
      tt <- get_tile_traits src o ;;
      '(m, n, k) <- tile_mnk tt axis ;;
      Ok (ts ++ [if (j =? 0)%Z then norm_slice_submit m n k alpha src_tile_handle beta dst_tile_handle redux
                 else norm_slice_submit m n k alpha src_tile_handle o_one dst_tile_handle redux])) ts) [].

(** src/tensor/sumprod_slice.cc:28-75: checks *)
Definition sumprod_slice_check (src1 src2 dst : tensor) (axis : Z) : res unit :=
  throw_if (negb (list_eqb Z.eqb (t_shape src1) (t_shape src2))) "src1.shape != src2.shape" (
  throw_if (negb (t_ndim src1 =? t_ndim dst +z 1)%Z) "src1.ndim != dst.ndim+1" (
  throw_if (t_ndim src1 =? 0)%Z "Scalar input makes no sense" (
  slice_check src1 dst axis (Ok tt)))).

(** One submission of sumprod_slice.cc:94-118 / 122-145.  The tile of src2 is the one with
    the same linear number as the tile of src1; src2's tiling is not looked at. *)
Definition sumprod_slice_tile (alpha : T) (src1 src2 : tensor) (beta : T) (axis : Z) (redux : bool)
    (src_tile_index : list Z) (dst_tile_handle : handle) : res (task T) :=
  o <- index_to_linear (t_grid src1) src_tile_index ;;
  src1_tile_handle <- get_tile_handle src1 o ;;
  src2_tile_handle <- get_tile_handle src2 o ;;
  tt <- get_tile_traits src1 o ;;
  '(m, n, k) <- tile_mnk tt axis ;;
  Ok (sumprod_slice_submit m n k alpha src1_tile_handle src2_tile_handle beta dst_tile_handle redux).

(** src/tensor/sumprod_slice.cc:25-151 *)
Definition sumprod_slice_async (alpha : T) (src1 src2 : tensor) (beta : T) (dst : tensor) (axis : Z) (redux : bool)
  : res (list (task T)) :=
  _ <- sumprod_slice_check src1 src2 dst axis ;;
  for_ 0 (t_ntiles dst) (fun i ts =>
    dst_tile_handle <- get_tile_handle dst i ;;
    dst_tile_index <- linear_to_index (t_grid dst) i ;;
    v <- for_ 0 axis (fun j v => x <- rd dst_tile_index j ;; wr v j x) (zrep (t_ndim src1) 0%Z) ;;
    v <- wr v axis 0%Z ;;
    src_tile_index <- for_ (axis +z 1) (t_ndim src1) (fun j v => x <- rd dst_tile_index (j -z 1) ;; wr v j x) v ;;
    t <- sumprod_slice_tile alpha src1 src2 beta axis redux src_tile_index dst_tile_handle ;;
    _ <- get_tile_traits dst i ;;
    g <- rd (tt_shape (t_grid src1)) axis ;;
    for_ 1 g (fun j ts =>
      src_tile_index <- wr src_tile_index axis j ;;
      t <- sumprod_slice_tile alpha src1 src2 o_one axis redux src_tile_index dst_tile_handle ;;
      Ok (ts ++ [t])) (ts ++ [t])) [].
End S.
