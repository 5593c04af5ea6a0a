(** * Model of subcopy, copy_intersection, scatter and gather

    As in ElemOps.v: MPI rank tests, transfers and flushes are dropped (one node).
    [std::vector<Index> v(n)] is [zrep n 0]; a loop that leaves the function with
    [return] carries a flag. *)
From Verif Require Import Base Spec Traits Runtime Ops KernelsElem ElemOps.

(** ** Kernel *)

(** src/kernel/subcopy/cpu.cc:82-89 and 91-98: the [while] loop that carries the odometer
    stored at tmp_index + base.  [fuel] bounds the number of iterations; an iteration with
    j = ndim reads outside of start[] and is UB anyway. *)
Fixpoint sc_carry (fuel : nat) (base j : Z) (start shape stride tmp : list Z) (offset : Z) : res (list Z * Z) :=
  match fuel with
  | O => UB
  | S fuel =>
      x <- rd tmp (base + j) ;; st <- rd start j ;; sh <- rd shape j ;;
      if x =? st + sh then
        tmp <- wr tmp (base + j) st ;;
        let j := j + 1 in
        y <- rd tmp (base + j) ;;
        tmp <- wr tmp (base + j) (y + 1) ;;
        s1 <- rd stride j ;; sh0 <- rd shape (j - 1) ;; s0 <- rd stride (j - 1) ;;
        sc_carry fuel base j start shape stride tmp (offset + (s1 - sh0 * s0))
      else Ok (tmp, offset)
  end.

(** src/kernel/subcopy/cpu.cc:26-107.  [get] and [set] access one element of type T of the
    memory blocks src and dst. *)
Definition k_subcopy {A B} (get : list A -> Z -> res B) (set : list A -> Z -> B -> res (list A))
    (ndim : Z) (src_start src_stride copy_shape : list Z) (src : list A)
    (dst_start dst_stride : list Z) (dst : list A) (tmp_index : list Z) : res (list A * list Z) :=
  '(nelems, tmp) <- for_ 0 ndim (fun i '(nelems, tmp) =>
      c <- rd copy_shape i ;;
      s <- rd src_start i ;; tmp <- wr tmp i s ;;
      d <- rd dst_start i ;; tmp <- wr tmp (ndim + i) d ;;
      Ok (nelems * c, tmp)) (1, tmp_index) ;;
  src_offset <- rd src_start 0 ;;
  dst_offset <- rd dst_start 0 ;;
  '(src_offset, dst_offset) <- for_ 1 ndim (fun i '(so, dof) =>
      a <- rd src_start i ;; b <- rd src_stride i ;;
      c <- rd dst_start i ;; d <- rd dst_stride i ;;
      Ok (so + a * b, dof + c * d)) (src_offset, dst_offset) ;;
  x <- get src src_offset ;;
  dst <- set dst dst_offset x ;;
  '(tmp, _, _, dst) <- for_ 1 nelems (fun i '(tmp, src_offset, dst_offset, dst) =>
      x <- rd tmp 0 ;; tmp <- wr tmp 0 (x + 1) ;;
      y <- rd tmp ndim ;; tmp <- wr tmp ndim (y + 1) ;;
      '(tmp, src_offset) <- sc_carry (S (Z.to_nat ndim)) 0 0 src_start copy_shape src_stride tmp src_offset ;;
      '(tmp, dst_offset) <- sc_carry (S (Z.to_nat ndim)) ndim 0 dst_start copy_shape dst_stride tmp dst_offset ;;
      x <- get src src_offset ;;
      dst <- set dst dst_offset x ;;
      Ok (tmp, src_offset + 1, dst_offset + 1, dst)) (tmp, src_offset + 1, dst_offset + 1, dst) ;;
  Ok (dst, tmp).

(** Access to 4-byte elements in a block of 2-byte elements. *)
Definition get32 {A} (l : list A) (i : Z) : res (A * A) :=
  a <- rd l (2 * i) ;; b <- rd l (2 * i + 1) ;; Ok (a, b).
Definition set32 {A} (l : list A) (i : Z) (x : A * A) : res (list A) :=
  l <- wr l (2 * i) (fst x) ;; wr l (2 * i + 1) (snd x).

(** Which CPU function the codelet of element type T runs (src/starpu/subcopy.cc:65-93):
    codelets fp32, fp64, int64 and bool run cpu<T>; codelet fp16 runs cpu<fp32_t>. *)
Inductive sc_codelet := ScOwn | ScFp16.

Section Sc.
Context {T : Type}.
Local Notation vec := (list T).
Local Notation tasks := (res (list (task T))).

(** src/starpu/subcopy.cc:27-46 *)
Definition subcopy_cpu (cl : sc_codelet) (ndim : Z) (src_start src_stride copy_shape dst_start dst_stride : list Z)
    (b : list (buf T)) : res (list (buf T)) :=
  match cl, b with
  | ScOwn, [BF src; BF dst; BI tmp] =>
      '(dst, tmp) <- k_subcopy rd wr ndim src_start src_stride copy_shape src dst_start dst_stride dst tmp ;;
      Ok [BF src; BF dst; BI tmp]
  | ScFp16, [BF src; BF dst; BI tmp] =>
      '(dst, tmp) <- k_subcopy get32 set32 ndim src_start src_stride copy_shape src dst_start dst_stride dst tmp ;;
      Ok [BF src; BF dst; BI tmp]
  | _, _ => UB
  end.

(** src/starpu/subcopy.cc:111-137.  The vectors are packed by value. *)
Definition subcopy_submit (cl : sc_codelet) (ndim : Z) (src_start src_stride dst_start dst_stride copy_shape : list Z)
    (src dst tmp_index : handle) (m : mode) : task T :=
  mkTask [(src, MR); (dst, m); (tmp_index, MSCRATCH)]
    (subcopy_cpu cl ndim src_start src_stride copy_shape dst_start dst_stride).

(** ** Odometer over a grid of tiles: [++index[0]; k = 0; while(index[k] == end[k])
    {index[k] = begin[k]; ++k; ++index[k];}]
    (src/tensor/copy_intersection.cc:299-306, 391-398; src/tensor/scatter.cc:132-139;
    src/tensor/gather.cc:89-96) *)
Fixpoint odo_carry (fuel : nat) (k : Z) (begin end_ index : list Z) : res (list Z) :=
  match fuel with
  | O => UB
  | S fuel =>
      x <- rd index k ;; e <- rd end_ k ;;
      if x =? e then
        b <- rd begin k ;;
        index <- wr index k b ;;
        y <- rd index (k + 1) ;;
        index <- wr index (k + 1) (y + 1) ;;
        odo_carry fuel (k + 1) begin end_ index
      else Ok index
  end.
Definition odo_next (begin end_ index : list Z) : res (list Z) :=
  x <- rd index 0 ;;
  index <- wr index 0 (x + 1) ;;
  odo_carry (S (List.length index)) 0 begin end_ index.

(** ** Tensor level *)

(** src/tensor/copy_intersection.cc:117-153: intersection of the two boxes.  The result of
    the loop is None if the function returned. *)
Definition ci_box (src dst : tensor) (src_offset dst_offset : list Z) : res (option (list Z * list Z * list Z * list Z * list Z * Z)) :=
  let ndim := t_ndim src in
  for_ 0 ndim (fun i st =>
    match st with
    | None => Ok None
    | Some (src_start, dst_start, copy_shape, tb, te, dst_ntiles) =>
        so <- rd src_offset i ;; ss <- rd (t_shape src) i ;;
        do <- rd dst_offset i ;; ds <- rd (t_shape dst) i ;;
        if (so + ss <=? do) || (do + ds <=? so) then Ok None else
        '(src_start, dst_start, copy_shape) <-
          (if so <? do then
             src_start <- wr src_start i (do - so) ;;
             dst_start <- wr dst_start i 0 ;;
             a <- rd src_start i ;;
             copy_shape <- wr copy_shape i (Z.min (ss - a) ds) ;;
             Ok (src_start, dst_start, copy_shape)
           else
             src_start <- wr src_start i 0 ;;
             dst_start <- wr dst_start i (so - do) ;;
             a <- rd dst_start i ;;
             copy_shape <- wr copy_shape i (Z.min (ds - a) ss) ;;
             Ok (src_start, dst_start, copy_shape)) ;;
        d <- rd dst_start i ;; b <- rd (t_base dst) i ;; c <- rd copy_shape i ;;
        q <- cdiv d b ;; tb <- wr tb i q ;;
        q2 <- cdiv (d + c - 1) b ;; te <- wr te i (q2 + 1) ;;
        x <- rd te i ;; y <- rd tb i ;;
        Ok (Some (src_start, dst_start, copy_shape, tb, te, dst_ntiles * (x - y)))
    end) (Some (zrep ndim 0, zrep ndim 0, zrep ndim 0, zrep ndim 0, zrep ndim 0, 1)).

(** src/tensor/copy_intersection.cc:169-218: source tiles contributing to a destination tile
    and the access mode of the destination tile *)
Definition ci_range (src dst : tensor) (src_start dst_start copy_shape tb te dti dt_shape : list Z)
    : res (list Z * list Z * mode * Z) :=
  let ndim := t_ndim src in
  for_ 0 ndim (fun j '(sb, se, md, src_ntiles) =>
    t <- rd dti j ;; b <- rd tb j ;; e <- rd te j ;;
    ss <- rd src_start j ;; ds <- rd dst_start j ;; cs <- rd copy_shape j ;;
    sbase <- rd (t_base src) j ;; dbase <- rd (t_base dst) j ;;
    '(sb, md) <- (if t =? b then
        q <- cdiv ss sbase ;; sb <- wr sb j q ;;
        Ok (sb, if negb (t * dbase =? ds) then MRW else md)
      else
        q <- cdiv (t * dbase - ds + ss) sbase ;; sb <- wr sb j q ;;
        Ok (sb, md)) ;;
    '(se, md) <- (if t + 1 =? e then
        q <- cdiv (ss + cs - 1) sbase ;; se <- wr se j (q + 1) ;;
        x <- rd dt_shape j ;;
        Ok (se, if negb (t * dbase + x =? ds + cs) then MRW else md)
      else
        q <- cdiv ((t + 1) * dbase - 1 - ds + ss) sbase ;; se <- wr se j (q + 1) ;;
        Ok (se, md)) ;;
    x <- rd se j ;; y <- rd sb j ;;
    Ok (sb, se, md, src_ntiles * (x - y))) (zrep ndim 0, zrep ndim 0, MW, 1).

(** src/tensor/copy_intersection.cc:219-261: box copied from the first source tile *)
Definition ci_first (src dst : tensor) (src_start dst_start copy_shape tb te dti sb se : list Z)
    : res (list Z * list Z * list Z) :=
  let ndim := t_ndim src in
  for_ 0 ndim (fun k '(sts, dts, cts) =>
    t <- rd dti k ;; b <- rd tb k ;; e <- rd te k ;;
    ss <- rd src_start k ;; ds <- rd dst_start k ;; cs <- rd copy_shape k ;;
    sbase <- rd (t_base src) k ;; dbase <- rd (t_base dst) k ;;
    ub <- rd sb k ;; ue <- rd se k ;;
    '(sts, dts) <- (if t =? b then
        sts <- wr sts k (ss - ub * sbase) ;;
        dts <- wr dts k (ds - t * dbase) ;;
        Ok (sts, dts)
      else
        sts <- wr sts k (ss - ds + t * dbase - ub * sbase) ;;
        dts <- wr dts k 0 ;;
        Ok (sts, dts)) ;;
    a <- rd sts k ;; d <- rd dts k ;;
    cts <- (if ub + 1 =? ue then
        if t + 1 =? e then wr cts k (ss + cs - ub * sbase - a)
        else wr cts k (dbase - d)
      else wr cts k (sbase - a)) ;;
    Ok (sts, dts, cts)) (zrep ndim 0, zrep ndim 0, zrep ndim 0).

(** src/tensor/copy_intersection.cc:307-363: box copied from a further source tile; the
    vectors keep their previous values before each entry is overwritten *)
Definition ci_next (src dst : tensor) (src_start dst_start copy_shape tb te dti sb se sti : list Z)
    (v : list Z * list Z * list Z) : res (list Z * list Z * list Z) :=
  let ndim := t_ndim src in
  for_ 0 ndim (fun k '(sts, dts, cts) =>
    t <- rd dti k ;; b <- rd tb k ;; e <- rd te k ;;
    ss <- rd src_start k ;; ds <- rd dst_start k ;; cs <- rd copy_shape k ;;
    sbase <- rd (t_base src) k ;; dbase <- rd (t_base dst) k ;;
    ub <- rd sb k ;; ue <- rd se k ;; u <- rd sti k ;;
    '(sts, dts) <- (if u =? ub then
        if t =? b then
          sts <- wr sts k (ss - u * sbase) ;;
          dts <- wr dts k (ds - t * dbase) ;;
          Ok (sts, dts)
        else
          sts <- wr sts k (ss - ds + t * dbase - u * sbase) ;;
          dts <- wr dts k 0 ;;
          Ok (sts, dts)
      else
        sts <- wr sts k 0 ;;
        dts <- wr dts k (ds - ss + u * sbase - t * dbase) ;;
        Ok (sts, dts)) ;;
    a <- rd sts k ;; d <- rd dts k ;;
    cts <- (if u + 1 =? ue then
        if t + 1 =? e then wr cts k (ss + cs - u * sbase - a)
        else wr cts k (dbase - d)
      else wr cts k (sbase - a)) ;;
    Ok (sts, dts, cts)) v.

Definition is_W (m : mode) : bool := match m with MW => true | _ => false end.

(** src/tensor/copy_intersection.cc:37-401.  [scratch] is the handle registered at line
    107; starpu_data_cpy(dst, src) is the task [copy_submit src dst]. *)
Definition copy_intersection_async (cl : sc_codelet) (src : tensor) (src_offset : list Z) (dst : tensor)
    (dst_offset : list Z) (scratch : handle) : tasks :=
  throw_if (negb (t_ndim src =? zlen src_offset)) "src.ndim != src_offset.size()" (
  throw_if (negb (t_ndim src =? t_ndim dst)) "src.ndim != dst.ndim" (
  throw_if (negb (t_ndim dst =? zlen dst_offset)) "dst.ndim != dst_offset.size()" (
  if t_ndim src =? 0 then
    hs <- get_tile_handle src 0 ;; hd <- get_tile_handle dst 0 ;;
    Ok [copy_submit hs hd]
  else if list_eqb Z.eqb src_offset dst_offset && list_eqb Z.eqb (t_shape src) (t_shape dst)
          && list_eqb Z.eqb (t_base src) (t_base dst) then
    for_ 0 (t_ntiles src) (fun i ts =>
      hs <- get_tile_handle src i ;; hd <- get_tile_handle dst i ;;
      Ok (ts ++ [copy_submit hs hd])) []
  else
    let ndim := t_ndim src in
    box <- ci_box src dst src_offset dst_offset ;;
    match box with
    | None => Ok []
    | Some (src_start, dst_start, copy_shape, tb, te, dst_ntiles) =>
      '(_, ts) <- for_ 0 dst_ntiles (fun i '(dti, ts) =>
        dto <- index_to_linear (t_grid dst) dti ;;
        dtt <- get_tile_traits dst dto ;;
        dth <- get_tile_handle dst dto ;;
        '(sb, se, md, src_ntiles) <- ci_range src dst src_start dst_start copy_shape tb te dti (tt_shape dtt) ;;
        '(sts, dts, cts) <- ci_first src dst src_start dst_start copy_shape tb te dti sb se ;;
        sfo <- index_to_linear (t_grid src) sb ;;
        sft <- get_tile_traits src sfo ;;
        sfh <- get_tile_handle src sfo ;;
        ts <- (if (src_ntiles =? 1) && is_W md && list_eqb Z.eqb cts (tt_shape sft) then
            Ok (ts ++ [copy_submit sfh dth])
          else
            let ts := ts ++ [subcopy_submit cl ndim sts (tt_stride sft) dts (tt_stride dtt) cts sfh dth scratch md] in
            '(_, _, ts) <- for_ 1 src_ntiles (fun j '(sti, v, ts) =>
              sti <- odo_next sb se sti ;;
              '(sts, dts, cts) <- ci_next src dst src_start dst_start copy_shape tb te dti sb se sti v ;;
              sto <- index_to_linear (t_grid src) sti ;;
              sth <- get_tile_handle src sto ;;
              stt <- get_tile_traits src sto ;;
              Ok (sti, (sts, dts, cts),
                  ts ++ [subcopy_submit cl ndim sts (tt_stride stt) dts (tt_stride dtt) cts sth dth scratch MRW]))
              (sb, (sts, dts, cts), ts) ;;
            Ok ts) ;;
        dti <- (if i =? dst_ntiles - 1 then Ok dti else odo_next tb te dti) ;;
        Ok (dti, ts)) (tb, []) ;;
      Ok ts
    end))).

(** src/tensor/scatter.cc:33-141 *)
Definition scatter_async (cl : sc_codelet) (src dst : tensor) (scratch : handle) : tasks :=
  throw_if (negb (t_ntiles src =? 1)) "Source must be a single-tiled tensor" (
  throw_if (negb (list_eqb Z.eqb (t_shape src) (t_shape dst))) "src.shape != dst.shape" (
  sh <- get_tile_handle src 0 ;;
  stt <- get_tile_traits src 0 ;;
  if t_ntiles dst =? 1 then
    dh <- get_tile_handle dst 0 ;;
    Ok [copy_submit sh dh]
  else
    let ndim := t_ndim src in
    '(_, _, ts) <- for_ 0 (t_ntiles dst) (fun i '(dti, sts, ts) =>
      dh <- get_tile_handle dst i ;;
      dtt <- get_tile_traits dst i ;;
      sts <- for_ 0 ndim (fun k sts =>
        t <- rd dti k ;; b <- rd (t_base dst) k ;; wr sts k (t * b)) sts ;;
      let ts := ts ++ [subcopy_submit cl ndim sts (tt_stride stt) (zrep ndim 0) (tt_stride dtt) (tt_shape dtt)
                         sh dh scratch MW] in
      dti <- (if i =? t_ntiles dst - 1 then Ok dti
              else odo_next (zrep ndim 0) (tt_shape (t_grid dst)) dti) ;;
      Ok (dti, sts, ts)) (zrep ndim 0, zrep ndim 0, []) ;;
    Ok ts)).

(** src/tensor/gather.cc:32-117 *)
Definition gather_async (cl : sc_codelet) (src dst : tensor) (scratch : handle) : tasks :=
  throw_if (negb (t_ntiles dst =? 1)) "Destination must be a single-tiled tensor" (
  throw_if (negb (list_eqb Z.eqb (t_shape src) (t_shape dst))) "src.shape != dst.shape" (
  dh <- get_tile_handle dst 0 ;;
  dtt <- get_tile_traits dst 0 ;;
  if t_ntiles src =? 1 then
    sh <- get_tile_handle src 0 ;;
    Ok [copy_submit sh dh]
  else
    let ndim := t_ndim src in
    sh0 <- get_tile_handle src 0 ;;
    st0 <- get_tile_traits src 0 ;;
    '(_, _, ts) <- for_ 1 (t_ntiles src) (fun i '(sti, dts, ts) =>
      sti <- odo_next (zrep ndim 0) (tt_shape (t_grid src)) sti ;;
      sh <- get_tile_handle src i ;;
      stt <- get_tile_traits src i ;;
      dts <- for_ 0 ndim (fun k dts =>
        t <- rd sti k ;; b <- rd (t_base src) k ;; wr dts k (t * b)) dts ;;
      Ok (sti, dts, ts ++ [subcopy_submit cl ndim (zrep ndim 0) (tt_stride stt) dts (tt_stride dtt) (tt_shape stt)
                             sh dh scratch MRW]))
      (zrep ndim 0, zrep ndim 0,
       [subcopy_submit cl ndim (zrep ndim 0) (tt_stride st0) (zrep ndim 0) (tt_stride dtt) (tt_shape st0) sh0 dh scratch MW]) ;;
    Ok ts)).

(** ** Tile level *)
(** A Tile<T>: its traits and its handle (include/nntile/tile/tile.hh). *)
Definition tile_t := (TileTraits * handle)%type.

(** src/tile/copy_intersection.cc:36-117 *)
Definition tile_copy_intersection_async (cl : sc_codelet) (src : tile_t) (src_offset : list Z) (dst : tile_t)
    (dst_offset : list Z) (scratch : tile_t) : tasks :=
  let '(st, sh) := src in
  let '(dt, dh) := dst in
  throw_if (negb (tt_ndim st =? zlen src_offset)) "src.ndim != src_offset.size()" (
  throw_if (negb (tt_ndim st =? tt_ndim dt)) "src.ndim != dst.ndim" (
  throw_if (negb (tt_ndim dt =? zlen dst_offset)) "dst.ndim != dst_offset.size()" (
  throw_if (negb (tt_ndim (fst scratch) =? 1)) "scratch.ndim != 1" (
  s0 <- rd (tt_shape (fst scratch)) 0 ;;
  throw_if (s0 <? 2 * tt_ndim st) "scratch.shape[0] < 2*src.ndim" (
  let ndim := tt_ndim st in
  if ndim =? 0 then Ok [copy_submit sh dh] else
  if list_eqb Z.eqb src_offset dst_offset && list_eqb Z.eqb (tt_shape st) (tt_shape dt) then Ok [copy_submit sh dh] else
  box <- for_ 0 ndim (fun i st' =>
    match st' with
    | None => Ok None
    | Some (src_start, dst_start, copy_shape, md) =>
        so <- rd src_offset i ;; ss <- rd (tt_shape st) i ;;
        do <- rd dst_offset i ;; ds <- rd (tt_shape dt) i ;;
        if (so + ss <=? do) || (do + ds <=? so) then Ok None else
        '(src_start, dst_start, copy_shape) <-
          (if so <? do then
             dst_start <- wr dst_start i 0 ;;
             src_start <- wr src_start i (do - so) ;;
             a <- rd src_start i ;;
             copy_shape <- wr copy_shape i (Z.min (ss - a) ds) ;;
             Ok (src_start, dst_start, copy_shape)
           else
             dst_start <- wr dst_start i (so - do) ;;
             src_start <- wr src_start i 0 ;;
             a <- rd dst_start i ;;
             copy_shape <- wr copy_shape i (Z.min (ds - a) ss) ;;
             Ok (src_start, dst_start, copy_shape)) ;;
        c <- rd copy_shape i ;;
        Ok (Some (src_start, dst_start, copy_shape, if negb (c =? ds) then MRW else md))
    end) (Some (zrep ndim 0, zrep ndim 0, zrep ndim 0, MW)) ;;
  match box with
  | None => Ok []
  | Some (src_start, dst_start, copy_shape, md) =>
      Ok [subcopy_submit cl ndim src_start (tt_stride st) dst_start (tt_stride dt) copy_shape sh dh (snd scratch) md]
  end))))).
End Sc.
