(** * IEEE 754 binary32 as an instance of the scalar operations

    fp32_t is the C++ type float.  Addition, subtraction, multiplication, division, square root and comparisons are those of
    the standard library's SpecFloat (round to nearest, ties to even) with 24 bits of precision and exponents up to 128.
    The library functions exp, log, erfc, pow are not specified by the standard: they are placeholders here and no theorem about
    this instance uses them. *)
From Coq Require Import Floats.SpecFloat.
From Verif Require Import Base Ops.
Local Open Scope Z_scope.

Definition f32 := spec_float.
Definition f32_of (m e : Z) : f32 := binary_normalize 24 128 m e false.
Definition f32_add := SFadd 24 128.
Definition f32_sub := SFsub 24 128.
Definition f32_mul := SFmul 24 128.
Definition f32_div := SFdiv 24 128.
Definition f32_sqrt := SFsqrt 24 128.
Definition f32_trunc (x : f32) : Z :=
  match x with
  | S754_finite sg m e => (if sg then -1 else 1) * (if e <? 0 then Z.pos m / 2 ^ (- e) else Z.pos m * 2 ^ e)
  | _ => 0
  end.

#[global] Instance F32ops : Ops f32 := {|
  o_zero := S754_zero false; o_one := f32_of 1 0;
  o_add := f32_add; o_sub := f32_sub; o_mul := f32_mul; o_div := f32_div; o_neg := SFopp; o_abs := SFabs;
  o_sqrt := f32_sqrt; o_exp := fun x => x; o_log := fun x => x; o_erfc := fun x => x; o_pow := fun x _ => x;
  o_hypot := fun x y => f32_sqrt (f32_add (f32_mul x x) (f32_mul y y));
  o_fmax := fun x y => if SFltb x y then y else x;
  o_ofZ := fun z => f32_of z 0; o_toZ := f32_trunc;
  o_lit := fun a b => f32_div (f32_of a 0) (f32_of b 0);
  o_pi := f32_of 13176795 (-22);
  o_eqb := SFeqb; o_ltb := SFltb;
  o_isinf := fun x => match x with S754_infinity _ => true | _ => false end
|}.

(** 1 is not 0: no value compares equal to both. *)
Lemma f32_zero_one (x : f32) : o_eqb x o_zero = true -> o_eqb x o_one = false.
Proof. destruct x as [[]|[]| |[] m e]; cbn [o_eqb o_zero F32ops SFeqb SFcompare]; try discriminate; reflexivity. Qed.

(** 2^24 + 1 rounds to 2^24. *)
Example f32_absorb : f32_add (f32_of 1 24) (f32_of 1 0) = f32_of 1 24.
Proof. reflexivity. Qed.
