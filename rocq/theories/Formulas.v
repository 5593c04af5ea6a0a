(** * Scalar formulas of the element-wise operations (specification)

    Written for an arbitrary arithmetic [Ops T]. *)
From Verif Require Import Base Ops.
Local Open Scope ops_scope.

Section F.
Context {T : Type} {O : Ops T}.

Definition half : T := o_lit 1 2.
Definition f_relu (x : T) := o_fmax x o_zero.
Definition f_drelu (x : T) := if o_zero <? x then o_one else o_zero.
(** x * Phi(x) with Phi(x) = erfc(-x/sqrt 2)/2 *)
Definition f_gelu (x : T) := (half * x) * o_erfc ((o_ofZ (-1) / o_sqrt (o_ofZ 2)) * x).
Definition f_dgelu (x : T) :=
  x * (o_one / o_sqrt (o_ofZ 2 * o_pi)) * o_exp ((- half) * x * x)
  + half * o_erfc ((o_ofZ (-1) / o_sqrt (o_ofZ 2)) * x).
(** constants -2*sqrt(2/pi), that times 0.044715, and three times that *)
Definition g3 : T := (- o_ofZ 2) * (o_sqrt (o_ofZ 2) / o_sqrt o_pi).
Definition g4 : T := g3 * o_lit 44715 1000000.
Definition g5 : T := o_ofZ 3 * g4.
(** x / (1 + exp(-2 sqrt(2/pi) (x + 0.044715 x^3))) *)
Definition f_gelutanh_inplace (x : T) := x / (o_one + o_exp (x * (g3 + g4 * x * x))).
(** the same with a compensated exponent *)
Definition f_gelutanh (x : T) :=
  let y1 := g4 * x * x in
  let y2 := g3 + y1 in
  x / (o_one + o_exp ((y1 - (y2 - g3)) * x) * o_exp (y2 * x)).
Definition f_dgelutanh (x : T) :=
  let e := o_exp (x * (g3 + g4 * (x * x))) in
  let y2 := x * (g3 + g5 * (x * x)) in
  let w := o_one / (e + o_one) in
  if o_isinf e then o_zero else (o_one - y2 * (o_one - w)) * w.
Definition f_pow (alpha exp x : T) :=
  if exp ==? o_ofZ (-1) then alpha / x else alpha * o_pow x exp.
Definition f_hypot (alpha : T) (src : T) (beta : T) (dst : T) :=
  if alpha ==? o_zero then
    (if beta ==? o_zero then o_zero else o_abs (beta * dst))
  else
    (if beta ==? o_zero then o_abs (alpha * src) else o_hypot (alpha * src) (beta * dst)).

(** Adam: gradient with decoupled (AdamW) or L2 (Adam) weight decay *)
Definition adam_g (wd g p : T) := if negb (wd ==? o_zero) then g + wd * p else g.
Definition adamw_p (wd lr p : T) := if negb (wd ==? o_zero) then p * (o_one - lr * wd) else p.
Definition adam_m (t : Z) (b1 m g : T) :=
  if Z.eqb t 1 then (o_one - b1) * g else b1 * m + (o_one - b1) * g.
(** the second moment is stored as its square root *)
Definition adam_v (t : Z) (b2 v g : T) :=
  if Z.eqb t 1 then o_sqrt (o_one - b2) * o_abs g
  else o_hypot (o_sqrt b2 * v) (o_sqrt (o_one - b2) * g).
Definition adam_p (t : Z) (b1 b2 eps lr p m v : T) :=
  p - (lr / (o_one - o_pow b1 (o_ofZ t))) * m / (v * (o_one / o_sqrt (o_one - o_pow b2 (o_ofZ t))) + eps).
End F.
