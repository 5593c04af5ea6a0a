(** * Real-number instance of the scalar operations *)
From Coq Require Import Reals Lra.
From Coquelicot Require Import Coquelicot.
From Verif Require Import Base Ops.
Open Scope R_scope.

Definition Reqb (x y : R) : bool := if Req_EM_T x y then true else false.
Definition Rltb (x y : R) : bool := if Rlt_dec x y then true else false.

(** complementary error function *)
Definition erfc (x : R) : R := 1 - 2 / sqrt PI * RInt (fun t => exp (- (t * t))) 0 x.

(** std::hypot *)
Definition Rhypot (x y : R) : R := sqrt (x * x + y * y).

(** std::pow: integer exponents work for any base, other exponents need a positive base *)
Definition Rcpow (x y : R) : R :=
  if Req_EM_T (IZR (Int_part y)) y then powerRZ x (Int_part y) else Rpower x y.

(** conversion to an integer: truncation *)
Definition Rtrunc (x : R) : Z := if Rle_dec 0 x then Int_part x else (- Int_part (- x))%Z.

#[global] Instance Rops : Ops R := {|
  o_zero := 0; o_one := 1;
  o_add := Rplus; o_sub := Rminus; o_mul := Rmult; o_div := Rdiv; o_neg := Ropp;
  o_abs := Rabs; o_sqrt := sqrt; o_exp := exp; o_log := ln; o_erfc := erfc;
  o_pow := Rcpow; o_hypot := Rhypot; o_fmax := Rmax;
  o_ofZ := IZR; o_toZ := Rtrunc;
  o_lit := fun a b => IZR a / IZR b;
  o_pi := PI;
  o_eqb := Reqb; o_ltb := Rltb; o_isinf := fun _ => false
|}.

Lemma Reqb_true x y : Reqb x y = true <-> x = y.
Proof. unfold Reqb. destruct (Req_EM_T x y); split; intros; congruence || auto. Qed.
Lemma Reqb_false x y : Reqb x y = false <-> x <> y.
Proof. unfold Reqb. destruct (Req_EM_T x y); split; intros; congruence || auto. Qed.
Lemma Rltb_true x y : Rltb x y = true <-> x < y.
Proof. unfold Rltb. destruct (Rlt_dec x y); split; intros; congruence || auto. Qed.
Lemma Rltb_false x y : Rltb x y = false <-> ~ x < y.
Proof. unfold Rltb. destruct (Rlt_dec x y); split; intros; congruence || auto. Qed.
