(** * Extended reals with the special values of IEEE arithmetic

    Exact real arithmetic plus +inf, -inf and NaN, following the IEEE-754 rules for special
    values.  Simplifications: no rounding, no overflow, one zero (x/0 takes the sign of x).
    Masked attention scores are -inf, so the soft-max family is stated over this type. *)
From Coq Require Import Reals Lra Lia.
From Verif Require Import Base Ops RealOps RSum.
Local Open Scope R_scope.

Inductive XR := Fin (r : R) | PInf | NInf | NaN.

Definition x_neg (a : XR) : XR := match a with Fin r => Fin (- r) | PInf => NInf | NInf => PInf | NaN => NaN end.
Definition x_add (a b : XR) : XR :=
  match a, b with
  | NaN, _ | _, NaN => NaN
  | Fin x, Fin y => Fin (x + y)
  | PInf, NInf | NInf, PInf => NaN
  | PInf, _ | _, PInf => PInf
  | NInf, _ | _, NInf => NInf
  end.
Definition x_sub (a b : XR) : XR := match a, b with Fin x, Fin y => Fin (x - y) | _, _ => x_add a (x_neg b) end.
(** an infinity with the sign of [r] times [i] *)
Definition x_sinf (r : R) (i : XR) : XR := if Rltb r 0 then x_neg i else i.
Definition x_mul (a b : XR) : XR :=
  match a, b with
  | NaN, _ | _, NaN => NaN
  | Fin x, Fin y => Fin (x * y)
  | Fin x, i | i, Fin x => if Reqb x 0 then NaN else x_sinf x i
  | PInf, PInf | NInf, NInf => PInf
  | _, _ => NInf
  end.
Definition x_div (a b : XR) : XR :=
  match a, b with
  | NaN, _ | _, NaN => NaN
  | Fin x, Fin y => if Reqb y 0 then (if Reqb x 0 then NaN else x_sinf x PInf) else Fin (x / y)
  | Fin _, _ => Fin 0
  | i, Fin y => x_sinf y i
  | _, _ => NaN
  end.
Definition x_abs (a : XR) : XR := match a with Fin x => Fin (Rabs x) | PInf | NInf => PInf | NaN => NaN end.
Definition x_sqrt (a : XR) : XR := match a with Fin x => if Rltb x 0 then NaN else Fin (sqrt x) | PInf => PInf | _ => NaN end.
Definition x_exp (a : XR) : XR := match a with Fin x => Fin (exp x) | PInf => PInf | NInf => Fin 0 | NaN => NaN end.
Definition x_log (a : XR) : XR :=
  match a with Fin x => if Rltb 0 x then Fin (ln x) else if Reqb x 0 then NInf else NaN | PInf => PInf | _ => NaN end.
Definition x_map (f : R -> R) (a : XR) : XR := match a with Fin x => Fin (f x) | _ => NaN end.
Definition x_map2 (f : R -> R -> R) (a b : XR) : XR := match a, b with Fin x, Fin y => Fin (f x y) | _, _ => NaN end.
Definition x_eqb (a b : XR) : bool :=
  match a, b with Fin x, Fin y => Reqb x y | PInf, PInf | NInf, NInf => true | _, _ => false end.
Definition x_ltb (a b : XR) : bool :=
  match a, b with
  | Fin x, Fin y => Rltb x y
  | NInf, Fin _ | NInf, PInf | Fin _, PInf => true
  | _, _ => false
  end.
Definition x_fmax (a b : XR) : XR :=
  match a, b with NaN, x | x, NaN => x | _, _ => if x_ltb a b then b else a end.
Definition x_hypot (a b : XR) : XR :=
  match a, b with
  | Fin x, Fin y => Fin (Rhypot x y)
  | PInf, _ | NInf, _ | _, PInf | _, NInf => PInf
  | _, _ => NaN
  end.
Definition x_isinf (a : XR) : bool := match a with PInf | NInf => true | _ => false end.

(** erfc and pow: only their values at finite arguments are modelled. *)
#[global] Instance Xops : Ops XR := {|
  o_zero := Fin 0; o_one := Fin 1;
  o_add := x_add; o_sub := x_sub; o_mul := x_mul; o_div := x_div; o_neg := x_neg;
  o_abs := x_abs; o_sqrt := x_sqrt; o_exp := x_exp; o_log := x_log; o_erfc := x_map erfc;
  o_pow := x_map2 Rcpow; o_hypot := x_hypot; o_fmax := x_fmax;
  o_ofZ := fun z => Fin (IZR z); o_toZ := fun a => match a with Fin x => Rtrunc x | _ => 0%Z end;
  o_lit := fun a b => Fin (IZR a / IZR b);
  o_pi := Fin PI;
  o_eqb := x_eqb; o_ltb := x_ltb; o_isinf := x_isinf
|}.

Lemma x_div_fin x y : y <> 0 -> x_div (Fin x) (Fin y) = Fin (x / y).
Proof. intros H. cbn. destruct (Reqb y 0) eqn:E; [apply Reqb_true in E; contradiction|reflexivity]. Qed.
Lemma x_sqrt_fin x : 0 <= x -> x_sqrt (Fin x) = Fin (sqrt x).
Proof. intros H. cbn. destruct (Rltb x 0) eqn:E; [apply Rltb_true in E; lra|reflexivity]. Qed.
Lemma x_log_fin x : 0 < x -> x_log (Fin x) = Fin (ln x).
Proof. intros H. cbn. destruct (Rltb 0 x) eqn:E; [reflexivity|apply Rltb_false in E; lra]. Qed.
