(** * Model of the Python layers, losses and models (wrappers/python/nntile)

    A layer is an object holding tensors; forward_async and backward_async call tensor
    operations one after another.  Tensors with gradients are TensorMoments objects.  The calls
    wont_use and invalidate_submit do nothing (tensor.hh:136-154: the calls to the runtime are
    commented out) and do not appear.  Modelled for redux=False (no use of reduction buffers) and without the fp16 and
    fast-tf32 variants (fp32_convert_fp16 = fp32_fast_tf32 = False).  Scalars such as 1.0/l are
    computed by Python in double precision; here they are computed in the scalar type. *)
From Verif Require Import Base Spec Traits Runtime Ops TensorSem ElemOps SliceOps FiberOps MatOps SoftmaxOps LossOps FlashOps Sequence.
From Verif Require Import CrossEntropy.

(** tensor.py:30-48 (class TensorMoments): value, grad, grad_required. *)
Record moments := { m_val : tensor; m_grad : tensor; m_req : bool }.

Section Py.
Context {T : Type} {O : Ops T}.
Implicit Types (x y w b : moments).

(** Python statements in sequence: the tasks of one call after those of another; an exception
    ends the sequence. *)
Definition pyseq (l : list (res (list (task T)))) : res (list (task T)) := fold_right then_ (Ok []) l.
(** if cond: call *)
Definition py_if (c : bool) (r : res (list (task T))) : res (list (task T)) := if c then r else Ok [].
(** if x is not None: call with x *)
Definition py_opt {X} (o : option X) (f : X -> res (list (task T))) : res (list (task T)) :=
  match o with Some a => f a | None => Ok [] end.

Definition ndim (t : tensor) : Z := zlen (t_shape t).
Definition minus1 : T := o_neg o_one.

(** ** Linear: linear.py *)
Inductive side := SideL | SideR.
(** linear.py:189-248 *)
Definition linear_forward (sd : side) (tx : transop) x y w (nd : Z) (b : option moments) : res (list (task T)) :=
  match sd with
  | SideL => pyseq [gemm_async o_one tx (m_val x) NoTrans (m_val w) o_zero (m_val y) nd 0 false;
                    py_opt b (fun b => add_fiber_async o_one (m_val b) o_one (m_val y) (ndim (m_val y) - 1) 0)]
  | SideR => pyseq [gemm_async o_one NoTrans (m_val w) tx (m_val x) o_zero (m_val y) nd 0 false;
                    py_opt b (fun b => add_fiber_async o_one (m_val b) o_one (m_val y) 0 0)]
  end.
(** linear.py:251-428 *)
Definition linear_backward (sd : side) (tx : transop) x y w (nd : Z) (b : option moments) : res (list (task T)) :=
  pyseq [
    py_if (m_req w) (let g := ndim (m_val x) - nd in
      match sd, tx with
      | SideL, NoTrans => gemm_async o_one Trans (m_val x) NoTrans (m_grad y) o_one (m_grad w) g 0 false
      | SideL, Trans => gemm_async o_one NoTrans (m_val x) NoTrans (m_grad y) o_one (m_grad w) g 0 false
      | SideR, NoTrans => gemm_async o_one NoTrans (m_grad y) Trans (m_val x) o_one (m_grad w) g 0 false
      | SideR, Trans => gemm_async o_one NoTrans (m_grad y) NoTrans (m_val x) o_one (m_grad w) g 0 false
      end);
    py_opt b (fun b => py_if (m_req b)
      match sd with
      | SideL => sum_fiber_async o_one (m_grad y) o_one (m_grad b) (ndim (m_val y) - 1) 0 false
      | SideR => sum_fiber_async o_one (m_grad y) o_one (m_grad b) 0 0 false
      end);
    py_if (m_req x) (let g := ndim (m_val w) - nd in
      match sd, tx with
      | SideL, NoTrans => gemm_async o_one NoTrans (m_grad y) Trans (m_val w) o_one (m_grad x) g 0 false
      | SideL, Trans => gemm_async o_one NoTrans (m_val w) Trans (m_grad y) o_one (m_grad x) g 0 false
      | SideR, NoTrans => gemm_async o_one Trans (m_val w) NoTrans (m_grad y) o_one (m_grad x) g 0 false
      | SideR, Trans => gemm_async o_one Trans (m_grad y) NoTrans (m_val w) o_one (m_grad x) g 0 false
      end)].

(** ** Act: act.py *)
Inductive actfun := Relu | Gelu | GeluTanh.
(** act.py:63-73 *)
Definition act_forward (f : actfun) x y : res (list (task T)) :=
  match f with
  | Relu => pyseq [relu_forward_async (m_val x) (m_val y)]
  | GeluTanh => pyseq [gelutanh_async (m_val x) (m_val y)]
  | Gelu => pyseq [copy_async (m_val x) (m_val y); gelu_async (m_val y)]
  end.
(** act.py:76-82 with the table at 25-28 *)
Definition act_backward (f : actfun) x y : res (list (task T)) :=
  pyseq [py_if (m_req x)
    match f with
    | Relu => relu_backward_async (m_val x) (m_grad y) (m_grad x)
    | Gelu => gelu_backward_async (m_val x) (m_grad y) (m_grad x)
    | GeluTanh => gelutanh_backward_async (m_val x) (m_grad y) (m_grad x)
    end].

(** ** Add: add.py:40-45, 47-52.  grad_required is not consulted. *)
Definition add_forward x y (r : moments) : res (list (task T)) :=
  pyseq [copy_async (m_val x) (m_val r); add_async o_one (m_val y) o_one (m_val r)].
Definition add_backward x y (r : moments) : res (list (task T)) :=
  pyseq [add_async o_one (m_grad r) o_one (m_grad x); add_async o_one (m_grad r) o_one (m_grad y)].

(** ** AddSlice: add_slice.py:36-43, 45-51.  grad_required is not consulted. *)
Definition add_slice_forward x y (u : moments) (axis : Z) : res (list (task T)) :=
  pyseq [copy_async (m_val x) (m_val u); add_slice_async o_one (m_val y) o_one (m_val u) axis].
Definition add_slice_backward x y (u : moments) (axis : Z) : res (list (task T)) :=
  pyseq [add_async o_one (m_grad u) o_one (m_grad x); sum_slice_async o_one (m_grad u) o_one (m_grad y) axis false].

(** ** Embedding: embedding.py:73-78, 81-88 *)
Definition embedding_forward (x : tensor) y w (axis : Z) : res (list (task T)) :=
  pyseq [clear_async (m_val y); embedding_async x (m_val w) (m_val y) axis].
Definition embedding_backward (x : tensor) y w (axis : Z) : res (list (task T)) :=
  pyseq [embedding_backward_async x (m_grad y) (m_grad w) axis false].

(** ** LayerNorm: layer_norm.py:133-168, 171-217; [eps] is self.eps, the square root of the
    argument eps (line 59), [l] is self.l (line 58) *)
Definition layer_norm_forward x y (gamma beta : moments) (tmp mean inv : tensor) (axis : Z) (eps : T) : res (list (task T)) :=
  let l := o_ofZ (zn (t_shape (m_val x)) axis) in
  pyseq [sum_slice_async (o_div o_one l) (m_val x) o_zero mean axis false;
         add_slice3_async minus1 mean o_one (m_val x) tmp axis;
         norm_slice_async (o_div o_one (o_sqrt l)) tmp o_zero inv axis false;
         hypot_scalar_inverse_async eps o_one inv;
         prod_slice_async inv o_one tmp axis;
         prod_fiber3_async (m_val gamma) o_one tmp (m_val y) axis;
         add_fiber_async o_one (m_val beta) o_one (m_val y) axis 0].
Definition layer_norm_backward x y (gamma beta : moments) (tmp tmpg mean inv : tensor) (axis : Z) : res (list (task T)) :=
  let l := o_ofZ (zn (t_shape (m_val x)) axis) in
  pyseq [sum_fiber_async o_one (m_grad y) o_one (m_grad beta) axis 0 false;
         sumprod_fiber_async o_one (m_grad y) tmp o_one (m_grad gamma) axis false;
         prod_fiber3_async (m_val gamma) o_one (m_grad y) tmpg axis;
         sumprod_slice_async (o_div minus1 l) tmpg tmp o_zero mean axis false;
         prod_slice_async mean o_one tmp axis;
         axpy_async o_one tmpg tmp;
         sum_slice_async (o_div o_one l) tmpg o_zero mean axis false;
         add_slice_async minus1 mean o_one tmp axis;
         prod_slice_async inv o_one tmp axis;
         axpy_async o_one tmp (m_grad x)].

(** ** Attention: attention.py.  The moments of the temporaries are created with
    grad_required=True by generate_simple (attention.py:250-380); [scale] is
    1.0/head_size**0.5; [ninf] is self.val, minus infinity. *)
Definition att_project x w (b : option moments) (qt q : moments) : res (list (task T)) :=
  pyseq [gemm_async o_one NoTrans (m_val w) NoTrans (m_val x) o_zero (m_val qt) 1 0 false;
         transpose_async o_one (m_val qt) (m_val q) 1;
         py_opt b (fun b => add_fiber_async o_one (m_val b) o_one (m_val q) 0 1)].
(** attention.py:401-547 *)
Definition attention_forward (xq xk xv : moments) y (wq wk wv : moments) w (bq bk bv bo : option moments)
    (qt q kt k vt v a : moments) (ms : tensor) (b bt : moments) (mask : option tensor) (scale ninf : T) : res (list (task T)) :=
  pyseq [att_project xq wq bq qt q;
         att_project xk wk bk kt k;
         att_project xv wv bv vt v;
         gemm_async scale Trans (m_val k) NoTrans (m_val q) o_zero (m_val a) 1 2 false;
         clear_async ms;
         py_opt mask (fun mask => mask_scalar_async mask ninf (m_val a) 2);
         maxsumexp_async (m_val a) ms 0 false;
         softmax_inplace_async ms o_one (m_val a) 0;
         gemm_async o_one NoTrans (m_val v) NoTrans (m_val a) o_zero (m_val b) 1 2 false;
         transpose_async o_one (m_val b) (m_val bt) 3;
         gemm_async o_one NoTrans (m_val w) NoTrans (m_val bt) o_zero (m_val y) 2 0 false;
         py_opt bo (fun bo => add_fiber_async o_one (m_val bo) o_one (m_val y) 0 0)].
Definition att_project_backward x w (b : option moments) (qt q : moments) : res (list (task T)) :=
  pyseq [py_opt b (fun b => py_if (m_req b) (sum_fiber_async o_one (m_grad q) o_one (m_grad b) 0 1 false));
         py_if (m_req qt) (transpose_async o_one (m_grad q) (m_grad qt) 3);
         py_if (m_req x) (gemm_async o_one Trans (m_val w) NoTrans (m_grad qt) o_one (m_grad x) 2 0 false);
         py_if (m_req w) (gemm_async o_one NoTrans (m_grad qt) Trans (m_val x) o_one (m_grad w) 2 0 false)].
(** attention.py:550-802 *)
Definition attention_backward (xq xk xv : moments) y (wq wk wv : moments) w (bq bk bv bo : option moments)
    (qt q kt k vt v a : moments) (sp : tensor) (b bt : moments) (mask : option tensor) (scale : T) : res (list (task T)) :=
  pyseq [py_opt bo (fun bo => py_if (m_req bo) (sum_fiber_async o_one (m_grad y) o_one (m_grad bo) 0 0 false));
         py_if (m_req w) (gemm_async o_one NoTrans (m_grad y) Trans (m_val bt) o_one (m_grad w) 2 0 false);
         py_if (m_req bt) (gemm_async o_one Trans (m_val w) NoTrans (m_grad y) o_zero (m_grad bt) 1 0 false);
         py_if (m_req b) (transpose_async o_one (m_grad bt) (m_grad b) 1);
         py_if (m_req a) (gemm_async o_one Trans (m_val v) NoTrans (m_grad b) o_zero (m_grad a) 1 2 false);
         py_if (m_req v) (gemm_async o_one NoTrans (m_grad b) Trans (m_val a) o_zero (m_grad v) 1 2 false);
         py_if (m_req a) (pyseq [sumprod_slice_async o_one (m_val a) (m_grad a) o_zero sp 0 false;
                                 add_slice_async minus1 sp o_one (m_grad a) 0;
                                 prod_async (m_val a) (m_grad a)]);
         py_opt mask (fun mask => mask_scalar_async mask o_zero (m_grad a) 2);
         py_if (m_req k) (gemm_async scale NoTrans (m_val q) Trans (m_grad a) o_zero (m_grad k) 1 2 false);
         py_if (m_req q) (gemm_async scale NoTrans (m_val k) NoTrans (m_grad a) o_zero (m_grad q) 1 2 false);
         att_project_backward xv wv bv vt v;
         att_project_backward xk wk bk kt k;
         att_project_backward xq wq bq qt q].

(** ** FlashAttention: flash_attention.py.  The projections are those of Attention
    (flash_attention.py:411-484 and 660-793, the same calls as attention.py); [a] and its gradient
    only give the tiling of the work buffers; flash_maxsumexp and the two other flash operations
    compute the scale from the shape of q; the mask cannot be left out. *)
(** flash_attention.py:406-553 *)
Definition flash_attention_forward (xq xk xv : moments) y (wq wk wv : moments) w (bq bk bv bo : option moments)
    (qt q kt k vt v a : moments) (ms : tensor) (b bt : moments) (mask : tensor) : res (list (task T)) :=
  pyseq [att_project xq wq bq qt q;
         att_project xk wk bk kt k;
         att_project xv wv bv vt v;
         clear_async ms;
         flash_maxsumexp_async (m_val q) (m_val k) mask ms (m_val a) false;
         flash_softmax_gemm_async (m_val q) (m_val k) (m_val v) mask ms (m_val b) (m_val a) false;
         transpose_async o_one (m_val b) (m_val bt) 3;
         gemm_async o_one NoTrans (m_val w) NoTrans (m_val bt) o_zero (m_val y) 2 0 false;
         py_opt bo (fun bo => add_fiber_async o_one (m_val bo) o_one (m_val y) 0 0)].
(** flash_attention.py:556-793 *)
Definition flash_attention_backward (xq xk xv : moments) y (wq wk wv : moments) w (bq bk bv bo : option moments)
    (qt q kt k vt v a : moments) (ms sp : tensor) (b bt : moments) (mask : tensor) : res (list (task T)) :=
  pyseq [py_opt bo (fun bo => py_if (m_req bo) (sum_fiber_async o_one (m_grad y) o_one (m_grad bo) 0 0 false));
         py_if (m_req w) (gemm_async o_one NoTrans (m_grad y) Trans (m_val bt) o_one (m_grad w) 2 0 false);
         py_if (m_req bt) (gemm_async o_one Trans (m_val w) NoTrans (m_grad y) o_zero (m_grad bt) 1 0 false);
         py_if (m_req b) (transpose_async o_one (m_grad bt) (m_grad b) 1);
         clear_async sp;
         flash_softmax_gemm_backward_async (m_val q) (m_grad q) (m_val k) (m_grad k) (m_val v) (m_grad v) mask ms (m_grad b)
           (m_val a) (m_grad a) sp false;
         att_project_backward xv wv bv vt v;
         att_project_backward xk wk bk kt k;
         att_project_backward xq wq bq qt q].

(** ** Frob loss: frob.py:58-75 *)
Definition frob_calc x (y val val_sqrt tmp : tensor) : res (list (task T)) :=
  pyseq [copy_async (m_val x) (m_grad x);
         axpy_async minus1 y (m_grad x);
         nrm2_async o_one (m_grad x) o_zero val_sqrt tmp;
         copy_async val_sqrt val;
         prod_async val_sqrt val;
         scal_inplace_async (o_div o_one (o_ofZ 2)) val].

(** ** BaseModel: base_model.py:41-43, 46-48, 56-65; a layer is given by its two methods *)
Record pylayer := { pl_forward : res (list (task T)); pl_backward : res (list (task T)) }.
Definition model_forward (ls : list pylayer) : res (list (task T)) := pyseq (map pl_forward ls).
Definition model_backward (ls : list pylayer) : res (list (task T)) := pyseq (map pl_backward (rev ls)).
(** "t.grad is not None and t.grad_required" *)
Definition clear_grads (ts : list moments) : res (list (task T)) :=
  pyseq (map (fun t => py_if (m_req t) (clear_async (m_grad t))) ts).
End Py.
Arguments pylayer T : clear implicits.
