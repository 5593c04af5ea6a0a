(** * Model of the element-wise kernels (src/kernel/*/cpu.cc)

    Each kernel is the loop of the source; reads and writes are bounds-checked. *)
From Verif Require Import Base Spec Ops.
Local Open Scope ops_scope.

Section K.
Context {T : Type} {O : Ops T}.
Notation "'I' z" := (o_ofZ z%Z) (at level 0, z at level 0).
Local Notation vec := (list T).

(** 0.5, 0.044715 *)
Definition c_pt5 : T := o_lit 1 2.
Definition c_f1 : T := o_lit 44715 1000000.

(** src/kernel/fill/cpu.cc:25-38 *)
Definition k_fill (nelems : Z) (val : T) (data : vec) : res vec :=
  for_ 0 nelems (fun i data => wr data i val) data.

(** src/kernel/add/cpu.cc:26-44 *)
Definition k_add (nelems : Z) (alpha : T) (src : vec) (beta : T) (dst : vec) : res vec :=
  for_ 0 nelems (fun i dst =>
    s <- rd src i ;; d <- rd dst i ;;
    wr dst i (alpha * s + beta * d)) dst.

(** src/kernel/add_scalar/cpu.cc:26-41 *)
Definition k_add_scalar (num_elements : Z) (alpha beta : T) (dst : vec) : res vec :=
  for_ 0 num_elements (fun i dst => d <- rd dst i ;; wr dst i (alpha + beta * d)) dst.

(** src/kernel/scal/cpu.cc:25-42 *)
Definition k_scal (nelems : Z) (alpha : T) (src dst : vec) : res vec :=
  for_ 0 nelems (fun i dst => s <- rd src i ;; wr dst i (alpha * s)) dst.

(** cblas_?scal with unit stride, called by src/starpu/scal_inplace.cc.in:32-66
    (BLAS itself is trusted to be the reference loop) *)
Definition blas_scal (nelems : Z) (alpha : T) (x : vec) : res vec :=
  for_ 0 nelems (fun i x => v <- rd x i ;; wr x i (alpha * v)) x.

(** cblas_?axpy with unit strides, called by src/starpu/axpy.cc.in:58-85 *)
Definition blas_axpy (nelems : Z) (alpha : T) (x y : vec) : res vec :=
  for_ 0 nelems (fun i y => a <- rd x i ;; b <- rd y i ;; wr y i (alpha * a + b)) y.

(** src/kernel/relu/cpu.cc:26-42 *)
Definition k_relu (nelems : Z) (data : vec) : res vec :=
  for_ 0 nelems (fun i data => z <- rd data i ;; wr data i (o_fmax z o_zero)) data.

(** src/kernel/relu_forward/cpu.cc:26-42 *)
Definition k_relu_forward (nelems : Z) (src dst : vec) : res vec :=
  for_ 0 nelems (fun i dst => s <- rd src i ;; wr dst i (o_fmax s o_zero)) dst.

(** src/kernel/relu_backward/cpu.cc:26-46 *)
Definition k_relu_backward (nelems : Z) (x dy dx : vec) : res vec :=
  for_ 0 nelems (fun i dx =>
    a <- rd x i ;;
    if o_zero <? a then
      b <- rd dy i ;; c <- rd dx i ;; wr dx i (c + b)
    else Ok dx) dx.

(** src/kernel/drelu/cpu.cc:26-46 *)
Definition k_drelu (nelems : Z) (data : vec) : res vec :=
  for_ 0 nelems (fun i data =>
    z <- rd data i ;;
    if o_zero <? z then wr data i o_one else wr data i o_zero) data.

(** src/kernel/prod/cpu.cc:25-40 *)
Definition k_prod (nelems : Z) (src dst : vec) : res vec :=
  for_ 0 nelems (fun i dst => s <- rd src i ;; d <- rd dst i ;; wr dst i (d * s)) dst.

(** src/kernel/maximum/cpu.cc:27-42 *)
Definition k_maximum (nelems : Z) (src dst : vec) : res vec :=
  for_ 0 nelems (fun i dst => s <- rd src i ;; d <- rd dst i ;; wr dst i (o_fmax s d)) dst.

(** src/kernel/addcdiv/cpu.cc:25-43 *)
Definition k_addcdiv (val eps : T) (nelems : Z) (nom denom res_ : vec) : res vec :=
  for_ 0 nelems (fun i r =>
    a <- rd nom i ;; b <- rd denom i ;; c <- rd r i ;;
    wr r i (c + val * a / (b + eps))) res_.

(** src/kernel/hypot/cpu.cc:26-75 *)
Definition k_hypot (nelems : Z) (alpha : T) (src : vec) (beta : T) (dst : vec) : res vec :=
  if alpha ==? o_zero then
    if beta ==? o_zero then
      for_ 0 nelems (fun i dst => wr dst i o_zero) dst
    else
      for_ 0 nelems (fun i dst => d <- rd dst i ;; wr dst i (o_abs (beta * d))) dst
  else
    if beta ==? o_zero then
      for_ 0 nelems (fun i dst => s <- rd src i ;; wr dst i (o_abs (alpha * s))) dst
    else
      for_ 0 nelems (fun i dst => s <- rd src i ;; d <- rd dst i ;;
        wr dst i (o_hypot (alpha * s) (beta * d))) dst.

(** src/kernel/hypot_scalar_inverse/cpu.cc:26-43 *)
Definition k_hypot_scalar_inverse (nelems : Z) (eps alpha : T) (dst : vec) : res vec :=
  for_ 0 nelems (fun i dst => d <- rd dst i ;; wr dst i (o_one / o_hypot (alpha * d) eps)) dst.

(** src/kernel/pow/cpu.cc:26-48 *)
Definition k_pow (nelems : Z) (alpha exp : T) (data : vec) : res vec :=
  for_ 0 nelems (fun i data =>
    z <- rd data i ;;
    if exp ==? o_ofZ (-1) then wr data i (alpha / z)
    else wr data i (alpha * o_pow z exp)) data.

(** src/kernel/sqrt/cpu.cc:27-40 *)
Definition k_sqrt (nelems : Z) (src dst : vec) : res vec :=
  for_ 0 nelems (fun i dst => s <- rd src i ;; wr dst i (o_sqrt s)) dst.

(** src/kernel/sqrt_inplace/cpu.cc:27-39 *)
Definition k_sqrt_inplace (nelems : Z) (data : vec) : res vec :=
  for_ 0 nelems (fun i data => d <- rd data i ;; wr data i (o_sqrt d)) data.

(** src/kernel/gelu/cpu.cc:26-45 *)
Definition k_gelu (nelems : Z) (data : vec) : res vec :=
  let f1 := o_ofZ (-1) / o_sqrt (o_ofZ 2) in
  for_ 0 nelems (fun i data =>
    z <- rd data i ;;
    let y := o_erfc (f1 * z) in
    wr data i ((c_pt5 * z) * y)) data.

(** constants of the gelutanh kernels: src/kernel/gelutanh/cpu.cc:42-46 *)
Definition c_f2 : T := o_sqrt (o_ofZ 2) / o_sqrt o_pi.
Definition c_f3 : T := (- o_ofZ 2) * c_f2.
Definition c_f4 : T := c_f3 * c_f1.
Definition c_f5 : T := o_ofZ 3 * c_f4.

(** src/kernel/gelutanh/cpu.cc:26-60 *)
Definition k_gelutanh (nelems : Z) (src dst : vec) : res vec :=
  for_ 0 nelems (fun i dst =>
    z <- rd src i ;;
    let y1 := c_f4 * z * z in
    let y2 := c_f3 + y1 in
    let c := y1 - (y2 - c_f3) in
    let y2 := y2 * z in
    let c := c * z in
    let y3 := o_one + o_exp c * o_exp y2 in
    wr dst i (z / y3)) dst.

(** src/kernel/gelutanh_inplace/cpu.cc:26-52 *)
Definition k_gelutanh_inplace (nelems : Z) (data : vec) : res vec :=
  for_ 0 nelems (fun i data =>
    z <- rd data i ;;
    let y := z * (c_f3 + c_f4 * z * z) in
    wr data i (z / (o_one + o_exp y))) data.

(** src/kernel/dgelu/cpu.cc:26-49 *)
Definition k_dgelu (nelems : Z) (data : vec) : res vec :=
  let f1 := o_ofZ (-1) / o_sqrt (o_ofZ 2) in
  let f2 := o_one / o_sqrt (o_ofZ 2 * o_pi) in
  for_ 0 nelems (fun i data =>
    z <- rd data i ;;
    let x := o_exp ((- c_pt5) * z * z) in
    let y := o_erfc (f1 * z) in
    wr data i (z * f2 * x + c_pt5 * y)) data.

(** src/kernel/dgelutanh/cpu.cc:26-64 *)
Definition k_dgelutanh (nelems : Z) (data : vec) : res vec :=
  for_ 0 nelems (fun i data =>
    z <- rd data i ;;
    let z2 := z * z in
    let y1 := z * (c_f3 + c_f4 * z2) in
    let y2 := z * (c_f3 + c_f5 * z2) in
    let expy1 := o_exp y1 in
    if o_isinf expy1 then wr data i o_zero
    else
      let inv_expy1p1 := o_one / (expy1 + o_one) in
      wr data i ((o_one - y2 * (o_one - inv_expy1p1)) * inv_expy1p1)) data.

(** src/kernel/gelu_backward/cpu.cc:27-49 *)
Definition k_gelu_backward (nelems : Z) (x dy dx : vec) : res vec :=
  let f1 := o_ofZ (-1) / o_sqrt (o_ofZ 2) in
  let f2 := o_one / o_sqrt (o_ofZ 2 * o_pi) in
  for_ 0 nelems (fun i dx =>
    a <- rd x i ;;
    let exp_x := o_exp ((- c_pt5) * a * a) in
    let y := o_erfc (f1 * a) in
    b <- rd dy i ;;
    c <- rd dx i ;;
    wr dx i (c + (a * f2 * exp_x + c_pt5 * y) * b)) dx.

(** src/kernel/gelutanh_backward/cpu.cc:27-59 *)
Definition k_gelutanh_backward (nelems : Z) (x dy dx : vec) : res vec :=
  for_ 0 nelems (fun i dx =>
    a <- rd x i ;;
    let z2 := a * a in
    let y1 := a * (c_f3 + c_f4 * z2) in
    let y2 := a * (c_f3 + c_f5 * z2) in
    let expy1 := o_exp y1 in
    if negb (o_isinf expy1) then
      let inv_expy1p1 := o_one / (expy1 + o_one) in
      b <- rd dy i ;;
      c <- rd dx i ;;
      wr dx i (c + (o_one - y2 * (o_one - inv_expy1p1)) * inv_expy1p1 * b)
    else Ok dx) dx.

(** src/kernel/adam_step/cpu.cc:27-82; state: (first_moment, second_moment, p) *)
Definition k_adam_step (num_iter num_elems : Z) (beta_1 beta_2 eps lr weight_decay : T)
    (grad first_moment second_moment p : vec) : res (vec * vec * vec) :=
  let alpha := lr / (o_one - o_pow beta_1 (o_ofZ num_iter)) in
  let beta := o_one / o_sqrt (o_one - o_pow beta_2 (o_ofZ num_iter)) in
  for_ 0 num_elems (fun i '(fm, sm, p) =>
    p_val <- rd p i ;;
    grad_val <- rd grad i ;;
    let grad_val := if negb (weight_decay ==? o_zero) then grad_val + weight_decay * p_val else grad_val in
    '(f_val, s_val, fm, sm) <-
      (if Z.eqb num_iter 1 then
        let f_val := (o_one - beta_1) * grad_val in
        fm <- wr fm i f_val ;;
        let s_val := o_sqrt (o_one - beta_2) * o_abs grad_val in
        sm <- wr sm i s_val ;;
        Ok (f_val, s_val, fm, sm)
      else
        f_val <- rd fm i ;;
        s_val <- rd sm i ;;
        let f_val := beta_1 * f_val + (o_one - beta_1) * grad_val in
        fm <- wr fm i f_val ;;
        let s_val := o_hypot (o_sqrt beta_2 * s_val) (o_sqrt (o_one - beta_2) * grad_val) in
        sm <- wr sm i s_val ;;
        Ok (f_val, s_val, fm, sm)) ;;
    let denom := s_val * beta + eps in
    p <- wr p i (p_val - alpha * f_val / denom) ;;
    Ok (fm, sm, p)) (first_moment, second_moment, p).

(** src/kernel/adamw_step/cpu.cc:27-82 *)
Definition k_adamw_step (num_iter num_elems : Z) (beta_1 beta_2 eps lr weight_decay : T)
    (grad first_moment second_moment p : vec) : res (vec * vec * vec) :=
  let alpha := lr / (o_one - o_pow beta_1 (o_ofZ num_iter)) in
  let beta := o_one / o_sqrt (o_one - o_pow beta_2 (o_ofZ num_iter)) in
  for_ 0 num_elems (fun i '(fm, sm, p) =>
    p_val <- rd p i ;;
    grad_val <- rd grad i ;;
    let p_val := if negb (weight_decay ==? o_zero) then p_val * (o_one - lr * weight_decay) else p_val in
    '(f_val, s_val, fm, sm) <-
      (if Z.eqb num_iter 1 then
        let f_val := (o_one - beta_1) * grad_val in
        fm <- wr fm i f_val ;;
        let s_val := o_sqrt (o_one - beta_2) * o_abs grad_val in
        sm <- wr sm i s_val ;;
        Ok (f_val, s_val, fm, sm)
      else
        f_val <- rd fm i ;;
        s_val <- rd sm i ;;
        let f_val := beta_1 * f_val + (o_one - beta_1) * grad_val in
        fm <- wr fm i f_val ;;
        let s_val := o_hypot (o_sqrt beta_2 * s_val) (o_sqrt (o_one - beta_2) * grad_val) in
        sm <- wr sm i s_val ;;
        Ok (f_val, s_val, fm, sm)) ;;
    let denom := s_val * beta + eps in
    p <- wr p i (p_val - alpha * f_val / denom) ;;
    Ok (fm, sm, p)) (first_moment, second_moment, p).

End K.
