(** * Model of the element-wise operations: StarPU codelets/submission and tensor level

    src/starpu/X.cc: the codelet function [cpu] unpacks the buffers in submission order and
    calls the kernel; [submit] inserts one task with the listed access modes.  Not modelled:
    allocation of argument structs, FLOPS hints, CUDA variants, footprints,
    the CBLAS_INT range checks and errors of starpu_task_insert itself.
    src/tensor/X.cc: MPI rank tests and transfers are dropped (one node).  Each X_async
    returns the list of tasks it submits, in order; the blocking X waits for all of them. *)
From Verif Require Import Base Spec Traits Runtime Ops KernelsElem.
Local Open Scope ops_scope.

Section E.
Context {T : Type} {O : Ops T}.
Local Notation vec := (list T).
Local Notation bufs := (list (buf T)).

(** Codelet functions with 1, 2, 3 buffers, the last one written
    (interfaces[k]->get_ptr<T>(), e.g. src/starpu/add.cc:33-45). *)
Definition wrap1 (k : vec -> res vec) (b : bufs) : res bufs :=
  match b with [BF d] => d' <- k d ;; Ok [BF d'] | _ => UB end.
Definition wrap2 (k : vec -> vec -> res vec) (b : bufs) : res bufs :=
  match b with [BF x; BF d] => d' <- k x d ;; Ok [BF x; BF d'] | _ => UB end.
Definition wrap3 (k : vec -> vec -> vec -> res vec) (b : bufs) : res bufs :=
  match b with [BF x; BF y; BF d] => d' <- k x y d ;; Ok [BF x; BF y; BF d'] | _ => UB end.

(** src/starpu/relu.cc:27-38, 94-108 *)
Definition relu_submit (nelems : Z) (data : handle) : task T :=
  mkTask [(data, MRW)] (wrap1 (k_relu nelems)).
(** src/starpu/relu_forward.cc:27-39, 96-111 *)
Definition relu_forward_submit (nelems : Z) (src dst : handle) : task T :=
  mkTask [(src, MR); (dst, MW)] (wrap2 (k_relu_forward nelems)).
(** src/starpu/relu_backward.cc:28-41, 99-157 (submit_mpi on one node) *)
Definition relu_backward_submit (nelems : Z) (x dy dx : handle) : task T :=
  mkTask [(x, MR); (dy, MR); (dx, MRW)] (wrap3 (k_relu_backward nelems)).
(** src/starpu/drelu.cc:28-39, 95-109 *)
Definition drelu_submit (nelems : Z) (data : handle) : task T :=
  mkTask [(data, MRW)] (wrap1 (k_drelu nelems)).
(** src/starpu/fill.cc:27-38, 94-115 *)
Definition fill_submit (nelems : Z) (val : T) (data : handle) : task T :=
  mkTask [(data, MW)] (wrap1 (k_fill nelems val)).
(** src/starpu/clear.cc:31-41, 88-99: memset of the whole buffer *)
Definition clear_cpu (b : bufs) : res bufs :=
  match b with
  | [BF d] => Ok [BF (zrep (zlen d) o_zero)]
  | [BI d] => Ok [BI (zrep (zlen d) 0%Z)]
  | [BB d] => Ok [BB (zrep (zlen d) false)]
  | _ => UB
  end.
Definition clear_submit (data : handle) : task T := mkTask [(data, MW)] clear_cpu.
(** src/starpu/copy.cc:27-38, 83-100: memcpy of the size of the source buffer *)
Definition memcpy {A} (src dst : list A) : res (list A) :=
  if Z.leb (zlen src) (zlen dst) then Ok (src ++ skipn (List.length src) dst) else UB.
Definition copy_cpu (b : bufs) : res bufs :=
  match b with
  | [BF x; BF d] => d' <- memcpy x d ;; Ok [BF x; BF d']
  | [BI x; BI d] => d' <- memcpy x d ;; Ok [BI x; BI d']
  | [BB x; BB d] => d' <- memcpy x d ;; Ok [BB x; BB d']
  | _ => UB
  end.
Definition copy_submit (src dst : handle) : task T := mkTask [(src, MR); (dst, MW)] copy_cpu.
(** src/starpu/gelu.cc:28-39, 95-109 *)
Definition gelu_submit (nelems : Z) (data : handle) : task T :=
  mkTask [(data, MRW)] (wrap1 (k_gelu nelems)).
(** src/starpu/gelutanh.cc:28-40, 97-114 *)
Definition gelutanh_submit (nelems : Z) (src dst : handle) : task T :=
  mkTask [(src, MR); (dst, MW)] (wrap2 (k_gelutanh nelems)).
(** src/starpu/gelutanh_inplace.cc:27-38, 94-108 *)
Definition gelutanh_inplace_submit (nelems : Z) (data : handle) : task T :=
  mkTask [(data, MRW)] (wrap1 (k_gelutanh_inplace nelems)).
(** src/starpu/dgelu.cc:28-39, 95-109 *)
Definition dgelu_submit (nelems : Z) (data : handle) : task T :=
  mkTask [(data, MRW)] (wrap1 (k_dgelu nelems)).
(** src/starpu/dgelutanh.cc:28-39, 95-109 *)
Definition dgelutanh_submit (nelems : Z) (data : handle) : task T :=
  mkTask [(data, MRW)] (wrap1 (k_dgelutanh nelems)).
(** src/starpu/gelu_backward.cc:29-42, 100-151 *)
Definition gelu_backward_submit (nelems : Z) (x dy dx : handle) : task T :=
  mkTask [(x, MR); (dy, MR); (dx, MRW)] (wrap3 (k_gelu_backward nelems)).
(** src/starpu/gelutanh_backward.cc:29-42, 100-151 *)
Definition gelutanh_backward_submit (nelems : Z) (x dy dx : handle) : task T :=
  mkTask [(x, MR); (dy, MR); (dx, MRW)] (wrap3 (k_gelutanh_backward nelems)).
(** src/starpu/sqrt.cc:29-41, 98-116 *)
Definition sqrt_submit (nelems : Z) (src dst : handle) : task T :=
  mkTask [(src, MR); (dst, MW)] (wrap2 (k_sqrt nelems)).
(** src/starpu/sqrt_inplace.cc:29-40, 96-113 *)
Definition sqrt_inplace_submit (nelems : Z) (data : handle) : task T :=
  mkTask [(data, MRW)] (wrap1 (k_sqrt_inplace nelems)).
(** src/starpu/pow.cc:28-39, 95-117 *)
Definition pow_submit (nelems : Z) (alpha exp : T) (data : handle) : task T :=
  mkTask [(data, MRW)] (wrap1 (k_pow nelems alpha exp)).
(** src/starpu/scal.cc:30-42, 98-129: alpha = 0 reduces to clear *)
Definition scal_submit (nelems : Z) (alpha : T) (src dst : handle) : task T :=
  if alpha ==? o_zero then clear_submit dst
  else mkTask [(src, MR); (dst, MW)] (wrap2 (k_scal nelems alpha)).
(** src/starpu/scal_inplace.cc.in:55-66, 151-183 *)
Definition scal_inplace_submit (alpha : T) (nelems : Z) (data : handle) : task T :=
  mkTask [(data, MRW)] (wrap1 (blas_scal nelems alpha)).
(** src/starpu/hypot_scalar_inverse.cc:29-41, 98-120 *)
Definition hypot_scalar_inverse_submit (nelems : Z) (eps alpha : T) (dst : handle) : task T :=
  mkTask [(dst, MRW)] (wrap1 (k_hypot_scalar_inverse nelems eps alpha)).
(** src/starpu/hypot.cc:32-44, 101-155; Config::STARPU_RW_COMMUTE is STARPU_RW
    (include/nntile/starpu/config.hh:118-121) *)
Definition hypot_submit (nelems : Z) (alpha : T) (src : handle) (beta : T) (dst : handle) : task T :=
  let dst_mode := if beta ==? o_one then MRW else if beta ==? o_zero then MW else MRW in
  mkTask [(src, MR); (dst, dst_mode)] (wrap2 (fun s d => k_hypot nelems alpha s beta d)).
(** src/starpu/add.cc:33-45, 115-162.  Line 133 calls
    scal_inplace::submit<T>(nelems, beta, dst), whose parameters are (T alpha, Index nelems,
    Handle data): the implicit conversions Index -> T and T -> Index are kept. *)
Definition add_submit (nelems : Z) (alpha : T) (src : handle) (beta : T) (dst : handle) : task T :=
  if beta ==? o_zero then scal_submit nelems alpha src dst
  else if alpha ==? o_zero then scal_inplace_submit (o_ofZ nelems) (o_toZ beta) dst
  else
    let dst_mode := if beta ==? o_one then MRW else MRW in
    mkTask [(src, MR); (dst, dst_mode)] (wrap2 (fun s d => k_add nelems alpha s beta d)).
(** src/starpu/add_scalar.cc:30-41, 110-133 *)
Definition add_scalar_submit (num_elements : Z) (alpha beta : T) (dst : handle) : task T :=
  mkTask [(dst, MRW)] (wrap1 (k_add_scalar num_elements alpha beta)).
(** src/starpu/prod.cc:28-40, 97-112 *)
Definition prod_submit (nelems : Z) (src dst : handle) : task T :=
  mkTask [(src, MR); (dst, MRW)] (wrap2 (k_prod nelems)).
(** src/starpu/maximum.cc:28-40, 97-112 *)
Definition maximum_submit (nelems : Z) (src dst : handle) : task T :=
  mkTask [(src, MR); (dst, MRW)] (wrap2 (k_maximum nelems)).
(** src/starpu/addcdiv.cc:30-43, 103-124 *)
Definition addcdiv_submit (val eps : T) (nelems : Z) (nom denom src : handle) : task T :=
  mkTask [(nom, MR); (denom, MR); (src, MRW)] (wrap3 (k_addcdiv val eps nelems)).
(** src/starpu/adam_step.cc:30-44, 105-140 *)
Definition adam_cpu (k : vec -> vec -> vec -> vec -> res (vec * vec * vec)) (b : bufs) : res bufs :=
  match b with
  | [BF grad; BF fm; BF sm; BF p] =>
      '(fm', sm', p') <- k grad fm sm p ;; Ok [BF grad; BF fm'; BF sm'; BF p']
  | _ => UB
  end.
Definition adam_step_submit (num_iter num_elems : Z) (beta_1 beta_2 eps lr weight_decay : T)
    (grad first_moment second_moment p : handle) : task T :=
  let moments_mode := if Z.eqb num_iter 1 then MW else MRW in
  mkTask [(grad, MR); (first_moment, moments_mode); (second_moment, moments_mode); (p, MRW)]
    (adam_cpu (k_adam_step num_iter num_elems beta_1 beta_2 eps lr weight_decay)).
(** src/starpu/adamw_step.cc:30-44, 107-142 *)
Definition adamw_step_submit (num_iter num_elems : Z) (beta_1 beta_2 eps lr weight_decay : T)
    (grad first_moment second_moment p : handle) : task T :=
  let moments_mode := if Z.eqb num_iter 1 then MW else MRW in
  mkTask [(grad, MR); (first_moment, moments_mode); (second_moment, moments_mode); (p, MRW)]
    (adam_cpu (k_adamw_step num_iter num_elems beta_1 beta_2 eps lr weight_decay)).
(** src/starpu/axpy.cc.in:57-70, 224-256 (alpha in a buffer) *)
Definition axpy_tensor_submit (alpha : handle) (nelems : Z) (src dst : handle) : task T :=
  mkTask [(alpha, MR); (src, MR); (dst, MRW)]
    (wrap3 (fun a x y => a0 <- rd a 0%Z ;; blas_axpy nelems a0 x y)).
(** src/starpu/axpy.cc.in:73-84, 265-296 (alpha on the host) *)
Definition axpy_submit (alpha : T) (nelems : Z) (src dst : handle) : task T :=
  mkTask [(src, MR); (dst, MRW)] (wrap2 (blas_axpy nelems alpha)).

(* ------------------------------------------------------------------ *)
(** ** Tensor level *)

Local Notation tasks := (res (list (task T))).

(** for(i < G.grid.nelems) over one, two, three tensors: handles of tile i,
    nelems from the traits of tile i of tensor [G]. *)
Definition tiles1 (A : tensor) (sub : Z -> handle -> task T) : tasks :=
  for_ 0 (t_ntiles A) (fun i ts =>
    h <- get_tile_handle A i ;;
    tr <- get_tile_traits A i ;;
    Ok (ts ++ [sub (tt_nelems tr) h])) [].
Definition tiles2 (G A B : tensor) (sub : Z -> handle -> handle -> task T) : tasks :=
  for_ 0 (t_ntiles A) (fun i ts =>
    ha <- get_tile_handle A i ;;
    hb <- get_tile_handle B i ;;
    tr <- get_tile_traits G i ;;
    Ok (ts ++ [sub (tt_nelems tr) ha hb])) [].
Definition tiles3 (G A B C : tensor) (sub : Z -> handle -> handle -> handle -> task T) : tasks :=
  for_ 0 (t_ntiles G) (fun i ts =>
    ha <- get_tile_handle A i ;;
    hb <- get_tile_handle B i ;;
    hc <- get_tile_handle C i ;;
    tr <- get_tile_traits G i ;;
    Ok (ts ++ [sub (tt_nelems tr) ha hb hc])) [].

(** if(a.shape != b.shape) throw; if(a.basetile_shape != b.basetile_shape) throw *)
Definition check_same {A} (a b : tensor) (k : res A) : res A :=
  throw_if (negb (list_eqb Z.eqb (t_shape a) (t_shape b))) "shape" (
  throw_if (negb (list_eqb Z.eqb (t_base a) (t_base b))) "basetile_shape" k).

(** the same as ndim test and loop over dimensions (e.g. src/tensor/add.cc:28-46) *)
Definition check_loop {A} (dst src : tensor) (k : res A) : res A :=
  throw_if (negb (Z.eqb (t_ndim dst) (t_ndim src))) "dst.ndim != src.ndim" (
  _ <- for_ 0 (t_ndim dst) (fun i _ =>
    a <- rd (t_shape dst) i ;; b <- rd (t_shape src) i ;;
    throw_if (negb (Z.eqb a b)) "dst.shape[i] != src.shape[i]" (
    a <- rd (t_base dst) i ;; b <- rd (t_base src) i ;;
    throw_if (negb (Z.eqb a b)) "dst.basetile_shape[i] != src.basetile_shape[i]" (
    Ok tt))) tt ;;
  k).

(** src/tensor/relu.cc:27-43 *)
Definition relu_async (A : tensor) : tasks := tiles1 A relu_submit.
(** src/tensor/relu_forward.cc:24-54 *)
Definition relu_forward_async (src dst : tensor) : tasks :=
  check_same src dst (tiles2 dst src dst relu_forward_submit).
(** src/tensor/relu_backward.cc:27-74 *)
Definition relu_backward_async (x dy dx : tensor) : tasks :=
  check_same x dy (check_same x dx (tiles3 x x dy dx relu_backward_submit)).
(** src/tensor/drelu.cc:27-43 *)
Definition drelu_async (A : tensor) : tasks := tiles1 A drelu_submit.
(** src/tensor/fill.cc:27-43 *)
Definition fill_async (val : T) (A : tensor) : tasks := tiles1 A (fun n => fill_submit n val).
(** src/tensor/clear.cc:24-38 *)
Definition clear_async (dst : tensor) : tasks :=
  for_ 0 (t_ntiles dst) (fun i ts => h <- get_tile_handle dst i ;; Ok (ts ++ [clear_submit h])) [].
(** src/tensor/copy.cc:31-60 *)
Definition copy_async (src dst : tensor) : tasks :=
  check_same src dst (
  for_ 0 (t_ntiles src) (fun i ts =>
    hs <- get_tile_handle src i ;; hd <- get_tile_handle dst i ;;
    Ok (ts ++ [copy_submit hs hd])) []).
(** src/tensor/gelu.cc:27-43 *)
Definition gelu_async (A : tensor) : tasks := tiles1 A gelu_submit.
(** src/tensor/gelutanh.cc:27-68 *)
Definition gelutanh_async (src dst : tensor) : tasks :=
  check_loop dst src (tiles2 src src dst gelutanh_submit).
(** src/tensor/gelutanh_inplace.cc:27-43 *)
Definition gelutanh_inplace_async (A : tensor) : tasks := tiles1 A gelutanh_inplace_submit.
(** src/tensor/dgelu.cc:27-43 *)
Definition dgelu_async (A : tensor) : tasks := tiles1 A dgelu_submit.
(** src/tensor/dgelutanh.cc:27-43 *)
Definition dgelutanh_async (A : tensor) : tasks := tiles1 A dgelutanh_submit.
(** src/tensor/gelu_backward.cc:28-75 *)
Definition gelu_backward_async (x dy dx : tensor) : tasks :=
  check_same x dy (check_same x dx (tiles3 x x dy dx gelu_backward_submit)).
(** src/tensor/gelutanh_backward.cc:28-75 *)
Definition gelutanh_backward_async (x dy dx : tensor) : tasks :=
  check_same x dy (check_same x dx (tiles3 x x dy dx gelutanh_backward_submit)).
(** src/tensor/sqrt.cc:28-69 *)
Definition sqrt_async (src dst : tensor) : tasks :=
  check_loop dst src (tiles2 src src dst sqrt_submit).
(** src/tensor/sqrt_inplace.cc:28-44 *)
Definition sqrt_inplace_async (A : tensor) : tasks := tiles1 A sqrt_inplace_submit.
(** src/tensor/pow.cc:27-44 *)
Definition pow_async (alpha exp : T) (A : tensor) : tasks := tiles1 A (fun n => pow_submit n alpha exp).
(** src/tensor/scal.cc:25-66 *)
Definition scal_async (alpha : T) (src dst : tensor) : tasks :=
  check_loop dst src (tiles2 src src dst (fun n => scal_submit n alpha)).
(** src/tensor/scal_inplace.cc:25-43 *)
Definition scal_inplace_async (alpha : T) (data : tensor) : tasks :=
  tiles1 data (fun n => scal_inplace_submit alpha n).
(** src/tensor/hypot_scalar_inverse.cc:24-43 *)
Definition hypot_scalar_inverse_async (eps alpha : T) (dst : tensor) : tasks :=
  tiles1 dst (fun n => hypot_scalar_inverse_submit n eps alpha).
(** src/tensor/hypot.cc:25-71 *)
Definition hypot_async (alpha : T) (src : tensor) (beta : T) (dst : tensor) : tasks :=
  check_loop dst src (
  if (alpha ==? o_zero) && (beta ==? o_one) then Ok [] else
  tiles2 src src dst (fun n hs hd => hypot_submit n alpha hs beta hd)).
(** src/tensor/add.cc:26-72 *)
Definition add_async (alpha : T) (src : tensor) (beta : T) (dst : tensor) : tasks :=
  check_loop dst src (
  if (alpha ==? o_zero) && (beta ==? o_one) then Ok [] else
  tiles2 src src dst (fun n hs hd => add_submit n alpha hs beta hd)).
(** src/tensor/add_scalar.cc:26-51 *)
Definition add_scalar_async (alpha beta : T) (dst : tensor) : tasks :=
  if (alpha ==? o_zero) && (beta ==? o_one) then Ok [] else
  tiles1 dst (fun n => add_scalar_submit n alpha beta).
(** src/tensor/prod.cc:28-60 *)
Definition prod_async (src dst : tensor) : tasks :=
  check_same src dst (tiles2 src src dst prod_submit).
(** src/tensor/maximum.cc:28-60 *)
Definition maximum_async (src dst : tensor) : tasks :=
  check_same src dst (tiles2 src src dst maximum_submit).

(** matrix_shape of two tensors compared (std::vector of std::array<Index,2>) *)
Definition ms_eqb (a b : tensor) : bool :=
  list_eqb (fun x y => Z.eqb (fst x) (fst y) && Z.eqb (snd x) (snd y))
    (tt_ms (tn_tile (tr a))) (tt_ms (tn_tile (tr b))).

(** src/tensor/addcdiv.cc:25-62 *)
Definition addcdiv_async (val eps : T) (nom denom src : tensor) : tasks :=
  throw_if (negb (ms_eqb nom denom)) "Nominator shape is not equal to denominator shape" (
  throw_if (negb (ms_eqb src nom)) "Nominator shape is not equal to source shape" (
  for_ 0 (t_ntiles src) (fun i ts =>
    hs <- get_tile_handle src i ;;
    hn <- get_tile_handle nom i ;;
    hd <- get_tile_handle denom i ;;
    tr <- get_tile_traits src i ;;
    Ok (ts ++ [addcdiv_submit val eps (tt_nelems tr) hn hd hs])) [])).

Definition adam_loop (p grad fm sm : tensor) (sub : Z -> handle -> handle -> handle -> handle -> task T) : tasks :=
  throw_if (negb (ms_eqb p grad)) "Parameter shape is not equal to gradient shape" (
  throw_if (negb (ms_eqb p fm)) "Parameter shape is not equal to first_moment shape" (
  throw_if (negb (ms_eqb p sm)) "Parameter shape is not equal to second_moment shape" (
  for_ 0 (t_ntiles p) (fun i ts =>
    hp <- get_tile_handle p i ;;
    hg <- get_tile_handle grad i ;;
    hf <- get_tile_handle fm i ;;
    hs <- get_tile_handle sm i ;;
    tr <- get_tile_traits p i ;;
    Ok (ts ++ [sub (tt_nelems tr) hg hf hs hp])) []))).
(** src/tensor/adam_step.cc:25-74 *)
Definition adam_step_async (num_iter : Z) (beta_1 beta_2 eps lr weight_decay : T)
    (grad first_moment second_moment p : tensor) : tasks :=
  adam_loop p grad first_moment second_moment
    (fun n => adam_step_submit num_iter n beta_1 beta_2 eps lr weight_decay).
(** src/tensor/adamw_step.cc:26-75 *)
Definition adamw_step_async (num_iter : Z) (beta_1 beta_2 eps lr weight_decay : T)
    (grad first_moment second_moment p : tensor) : tasks :=
  adam_loop p grad first_moment second_moment
    (fun n => adamw_step_submit num_iter n beta_1 beta_2 eps lr weight_decay).

(** src/tensor/axpy.cc:29-86 *)
Definition axpy_tensor_async (alpha src dst : tensor) : tasks :=
  throw_if (negb (Z.eqb (zlen (t_shape alpha)) 0)) "alpha.shape.size() != 0" (
  check_same src dst (
  ha <- get_tile_handle alpha 0 ;;
  tiles2 src src dst (fun n hs hd => axpy_tensor_submit ha n hs hd))).
(** src/tensor/axpy.cc:123-158 *)
Definition axpy_async (alpha : T) (src dst : tensor) : tasks :=
  check_same src dst (tiles2 src src dst (fun n hs hd => axpy_submit alpha n hs hd)).

End E.
