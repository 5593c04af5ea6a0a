(** * Model of the Python layers GAP, MixerMlp and Mixer (wrappers/python/nntile/layer/mixer.py)

    Conventions as in PyLayers. *)
From Verif Require Import Base Spec Traits Runtime Ops TensorSem ElemOps SliceOps MatOps Sequence PyLayers.

Section Py.
Context {T : Type} {O : Ops T}.
Implicit Types (x y : moments).

(** mixer.py:61-64: alpha = 1 / shape[0]; the mean over dimension 0, then the transpose *)
Definition gap_forward x y (yT : moments) : res (list (task T)) :=
  let alpha := o_div o_one (o_ofZ (zn (t_shape (m_val x)) 0)) in
  pyseq [sum_slice_async alpha (m_val x) o_zero (m_val yT) 0 false;
         transpose_async o_one (m_val yT) (m_val y) 1].
(** mixer.py:67-70; add_slice_async is called with beta = 0.0 *)
Definition gap_backward x y (yT : moments) : res (list (task T)) :=
  let alpha := o_div o_one (o_ofZ (zn (t_shape (m_val x)) 0)) in
  pyseq [transpose_async o_one (m_grad y) (m_grad yT) 1;
         add_slice_async alpha (m_grad yT) o_zero (m_grad x) 0].
Definition gap x y (yT : moments) : pylayer T := {| pl_forward := gap_forward x y yT; pl_backward := gap_backward x y yT |}.

(** mixer.py:137-146: the methods of MixerMlp, from those of linear_1, act and linear_2 *)
Definition mixer_mlp (linear_1 act linear_2 : pylayer T) : pylayer T := {|
  pl_forward := pyseq [pl_forward linear_1; pl_forward act; pl_forward linear_2];
  pl_backward := pyseq [pl_backward linear_2; pl_backward act; pl_backward linear_1] |}.

(** mixer.py:212-227: the methods of Mixer.  [y1] is mlp_1.y, which is norm_2.x and
    mlp_1.linear_2.y; [y2] is mlp_2.y and mlp_2.linear_2.y. *)
Definition mixer (norm_1 mlp_1 norm_2 mlp_2 : pylayer T) x (y1 y2 : moments) : pylayer T := {|
  pl_forward := pyseq [pl_forward norm_1; pl_forward mlp_1; add_async o_one (m_val x) o_one (m_val y1);
                       pl_forward norm_2; pl_forward mlp_2; add_async o_one (m_val y1) o_one (m_val y2)];
  pl_backward := pyseq [pl_backward mlp_2; pl_backward norm_2; add_async o_one (m_grad y2) o_one (m_grad y1);
                        pl_backward mlp_1; pl_backward norm_1; add_async o_one (m_grad y1) o_one (m_grad x)] |}.
End Py.
