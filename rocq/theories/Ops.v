(** * Scalar operations

    Kernels are templates over fp32_t/fp64_t.  [Ops T] collects the scalar operations they
    use, without any law: theorems for an arbitrary [Ops T] hold bit for bit for any
    arithmetic.  Simplification: every intermediate is computed in [T] (the C++ code
    sometimes promotes to double, e.g. [1.0 / std::sqrt(1 - ...)] with T = float). *)
From Verif Require Import Base.

Class Ops (T : Type) : Type := {
  o_zero : T;
  o_one : T;
  o_add : T -> T -> T;
  o_sub : T -> T -> T;
  o_mul : T -> T -> T;
  o_div : T -> T -> T;
  o_neg : T -> T;
  o_abs : T -> T;                (* std::fabs *)
  o_sqrt : T -> T;
  o_exp : T -> T;
  o_log : T -> T;
  o_erfc : T -> T;
  o_pow : T -> T -> T;
  o_hypot : T -> T -> T;
  o_fmax : T -> T -> T;
  o_ofZ : Z -> T;                (* conversion from an integer *)
  o_toZ : T -> Z;                (* conversion to an integer (truncation) *)
  o_lit : Z -> Z -> T;           (* decimal literal num/den *)
  o_pi : T;                      (* the literal 3.14159... *)
  o_eqb : T -> T -> bool;
  o_ltb : T -> T -> bool;
  o_isinf : T -> bool
}.

#[global] Instance DfltOps {T} (O : Ops T) : Dflt T := (o_zero : T).

Declare Scope ops_scope.
Delimit Scope ops_scope with ops.
Infix "+" := o_add : ops_scope.
Infix "-" := o_sub : ops_scope.
Infix "*" := o_mul : ops_scope.
Infix "/" := o_div : ops_scope.
Notation "- x" := (o_neg x) : ops_scope.
Notation "x ==? y" := (o_eqb x y) (at level 70) : ops_scope.
Notation "x <? y" := (o_ltb x y) : ops_scope.
