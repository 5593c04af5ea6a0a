(** * Model of randn and of the generator of external/random.h

    unsigned long long is Z with explicit reduction modulo 2^64; Index is Z (as everywhere). *)
From Verif Require Import Base Spec Traits Runtime Ops KernelsElem ElemOps.

(** ** external/random.h *)
Definition u64 (x : Z) : Z := x mod 2 ^ 64.
(** external/random.h:32-33 *)
Definition Rnd64_A : Z := 6364136223846793005.
Definition Rnd64_C : Z := 1.

(** external/random.h:49-55: the loop of CORE_rnd64_jump (the counter i is not used).  [fuel] bounds the number of iterations. *)
Fixpoint rnd64_loop (fuel : nat) (n a_k c_k ran : Z) : res Z :=
  match fuel with
  | O => UB
  | S fuel =>
      if n =? 0 then Ok ran
      else
        let ran := if Z.land n 1 =? 0 then ran else u64 (u64 (a_k * ran) + c_k) in
        let c_k := u64 (c_k * u64 (a_k + 1)) in
        let a_k := u64 (a_k * a_k) in
        rnd64_loop fuel (Z.shiftr n 1) a_k c_k ran
  end.
(** external/random.h:37-58.  The argument is converted to unsigned long long. *)
Definition CORE_rnd64_jump (n seed : Z) : res Z :=
  let n := u64 n in
  let n := u64 (Z.shiftl n 1) in
  rnd64_loop 65 n Rnd64_A Rnd64_C seed.

Section Gen.
Context {T : Type} {OT : Ops T} (o_cos : T -> T).
Local Open Scope ops_scope.
(** external/random.h:60-78: CORE_slaran and CORE_dlaran, the uniform number and the next state *)
Definition CORE_laran (ran : Z) : T * Z :=
  ((o_ofZ ran * o_lit 54210108624275222 (10 ^ 36))%ops, u64 (u64 (Rnd64_A * ran) + Rnd64_C)).
(** src/kernel/randn/cpu.cc:27-45 (both overloads) *)
Definition chameleon_randn (seed : Z) (mean stddev : T) : T * Z :=
  let two := o_lit 2 1 in
  let twopi := o_lit 62831853071795864769252867663 (10 ^ 28) in
  let '(t1, seed) := CORE_laran seed in
  let '(u, seed) := CORE_laran seed in
  let t2 := (u * twopi)%ops in
  let t3 := (o_sqrt (o_neg two * o_log t1) * o_cos t2)%ops in
  ((stddev * t3 + mean)%ops, seed).
End Gen.

Section Randn.
Context {T : Type} {OT : Ops T} (o_cos : T -> T).
Local Notation vec := (list T).
Local Notation tasks := (res (list (task T))).

(** src/kernel/randn/cpu.cc:93-97 and 136-140: one column; [p] is the position of the pointer [data] *)
Definition randn_column (nrows : Z) (mean stddev : T) (stride : list Z) (data : vec) (p seed : Z) : res (vec * Z * Z) :=
  for_ 0 nrows (fun _ '(data, p, seed) =>
    let '(v, seed) := chameleon_randn o_cos seed mean stddev in
    data <- wr data p v ;;
    s0 <- rd stride 0 ;;
    Ok (data, p + s0, seed)) (data, p, seed).

(** src/kernel/randn/cpu.cc:118-131: the while loop.  [fuel] bounds the number of iterations. *)
Fixpoint rn_carry (fuel : nat) (k : Z) (shape underlying_shape stride tmp : list Z) (shift underlying_stride p : Z)
    : res (list Z * Z * Z) :=
  match fuel with
  | O => UB
  | S fuel =>
      x <- rd tmp k ;; sh <- rd shape k ;;
      if x =? sh then
        tmp <- wr tmp k 0 ;;
        let k := k + 1 in
        y <- rd tmp k ;;
        tmp <- wr tmp k (y + 1) ;;
        u <- rd underlying_shape (k - 1) ;; s <- rd shape (k - 1) ;;
        let shift := shift + underlying_stride * (u - s) in
        let underlying_stride := underlying_stride * u in
        s1 <- rd stride k ;; s0 <- rd stride (k - 1) ;;
        rn_carry fuel k shape underlying_shape stride tmp shift underlying_stride (p + (s1 - s0 * s))
      else Ok (tmp, shift, p)
  end.

(** src/kernel/randn/cpu.cc:47-142 *)
Definition k_randn (ndim nelems seed : Z) (mean stddev : T) (start shape underlying_shape : list Z) (data : vec)
    (stride tmp_index : list Z) : res (vec * list Z) :=
  shift <- rd start (ndim - 1) ;;
  shift <- for_down (ndim - 2) 0 (fun i shift =>
      s <- rd start i ;; u <- rd underlying_shape i ;; Ok (s + shift * u)) shift ;;
  seed <- CORE_rnd64_jump shift seed ;;
  nrows <- rd shape 0 ;;
  ncols <- cdiv nelems nrows ;;
  '(data, p, seed) <- randn_column nrows mean stddev stride data 0 seed ;;
  tmp <- for_ 0 ndim (fun i tmp => wr tmp i 0) tmp_index ;;
  '(data, p, seed, tmp) <- for_ 1 ncols (fun j '(data, p, seed, tmp) =>
      x <- rd tmp 1 ;; tmp <- wr tmp 1 (x + 1) ;;
      u0 <- rd underlying_shape 0 ;;
      let shift := u0 - nrows in
      let underlying_stride := u0 in
      s1 <- rd stride 1 ;; s0 <- rd stride 0 ;;
      let p := p + (s1 - s0 * nrows) in
      '(tmp, shift, p) <- rn_carry (S (Z.to_nat ndim)) 1 shape underlying_shape stride tmp shift underlying_stride p ;;
      seed <- CORE_rnd64_jump shift seed ;;
      '(data, p, seed) <- randn_column nrows mean stddev stride data p seed ;;
      Ok (data, p, seed, tmp)) (data, p, seed, tmp) ;;
  Ok (data, tmp).

(** src/kernel/randn/cpu.cc:159-165 *)
Definition k_randn_ndim0 (seed : Z) (mean stddev : T) (data : vec) : res vec :=
  let '(v, _) := chameleon_randn o_cos seed mean stddev in wr data 0 v.

(** src/starpu/randn.cc:25-62, 119-162: the task inserted by submit and its CPU function *)
Definition randn_submit (ndim nelems seed : Z) (mean stddev : T) (start shape stride underlying_shape : list Z)
    (data tmp_index : handle) : task T :=
  if 0 <? ndim then
    mkTask [(data, MW); (tmp_index, MSCRATCH)] (fun b =>
      match b with
      | [BF d; BI tmp] =>
          '(d, tmp) <- k_randn ndim nelems seed mean stddev start shape underlying_shape d stride tmp ;; Ok [BF d; BI tmp]
      | _ => UB
      end)
  else mkTask [(data, MW)] (wrap1 (k_randn_ndim0 seed mean stddev)).

(** src/tensor/randn.cc:109-116: the while loop that computes the next tile and its start *)
Fixpoint rs_carry (fuel : nat) (j : Z) (start base grid tile_index tile_start : list Z) : res (list Z * list Z) :=
  match fuel with
  | O => UB
  | S fuel =>
      x <- rd tile_index j ;; g <- rd grid j ;;
      if x =? g then
        tile_index <- wr tile_index j 0 ;;
        s <- rd start j ;;
        tile_start <- wr tile_start j s ;;
        let j := j + 1 in
        y <- rd tile_index j ;;
        tile_index <- wr tile_index j (y + 1) ;;
        z <- rd tile_start j ;; b <- rd base j ;;
        tile_start <- wr tile_start j (z + b) ;;
        rs_carry fuel j start base grid tile_index tile_start
      else Ok (tile_index, tile_start)
  end.

(** src/tensor/randn.cc:37-118.  [tmp_index] is the handle of the scratch vector registered at line 83. *)
Definition randn_async (dst : tensor) (start underlying_shape : list Z) (seed : Z) (mean stddev : T) (tmp_index : handle) : tasks :=
  throw_if (negb (t_ndim dst =? zlen start)) "dst.ndim != start.size()" (
  throw_if (negb (t_ndim dst =? zlen underlying_shape)) "dst.ndim != underlying_shape.size()" (
  let ndim := t_ndim dst in
  _ <- for_ 0 ndim (fun i _ =>
    s <- rd start i ;;
    throw_if (s <? 0) "start[i] < 0" (
    d <- rd (t_shape dst) i ;; u <- rd underlying_shape i ;;
    throw_if (u <? s + d) "start[i]+dst.shape[i] > underlying_shape[i]" (Ok tt))) tt ;;
  if ndim =? 0 then
    h <- get_tile_handle dst 0 ;;
    Ok [randn_submit 0 1 seed mean stddev start (t_shape dst) (tt_stride (tn_tile (tr dst))) underlying_shape h tmp_index]
  else
    '(_, _, ts) <- for_ 0 (t_ntiles dst) (fun i '(tile_start, tile_index, ts) =>
      h <- get_tile_handle dst i ;;
      tt <- get_tile_traits dst i ;;
      let ts := ts ++ [randn_submit ndim (tt_nelems tt) seed mean stddev tile_start (tt_shape tt) (tt_stride tt)
                         underlying_shape h tmp_index] in
      if i =? t_ntiles dst - 1 then Ok (tile_start, tile_index, ts)
      else
        x <- rd tile_index 0 ;; tile_index <- wr tile_index 0 (x + 1) ;;
        y <- rd tile_start 0 ;; b <- rd (t_base dst) 0 ;; tile_start <- wr tile_start 0 (y + b) ;;
        '(tile_index, tile_start) <- rs_carry (S (Z.to_nat ndim)) 0 start (t_base dst) (tt_shape (t_grid dst)) tile_index tile_start ;;
        Ok (tile_start, tile_index, ts)) (start, zrep ndim 0, []) ;;
    Ok ts)).

(** src/tile/randn.cc:37-79 *)
Definition tile_randn_async (dst : TileTraits * handle) (start underlying_shape : list Z) (seed : Z) (mean stddev : T) (tmp_index : handle) : tasks :=
  let '(d, h) := dst in
  throw_if (negb (tt_ndim d =? zlen start)) "dst.ndim != start.size()" (
  throw_if (negb (tt_ndim d =? zlen underlying_shape)) "dst.ndim != underlying_shape.size()" (
  let ndim := tt_ndim d in
  _ <- for_ 0 ndim (fun i _ =>
    s <- rd start i ;;
    throw_if (s <? 0) "start[i] < 0" (
    sh <- rd (tt_shape d) i ;; u <- rd underlying_shape i ;;
    throw_if (u <? s + sh) "start[i]+dst.shape[i] > underlying_shape[i]" (Ok tt))) tt ;;
  if negb (ndim =? 0) then
    Ok [randn_submit ndim (tt_nelems d) seed mean stddev start (tt_shape d) (tt_stride d) underlying_shape h tmp_index]
  else
    Ok [randn_submit 0 1 seed mean stddev start (tt_shape d) (tt_stride d) underlying_shape h tmp_index])).
End Randn.
