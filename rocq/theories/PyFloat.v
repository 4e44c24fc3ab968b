(** * PyFloat: Python's [float], i.e. IEEE-754 binary64, on top of the standard library's SpecFloat. *)
From Verif Require Import Py.
From Coq Require Import Floats.SpecFloat.

Definition prec64 : Z := 53.
Definition emax64 : Z := 1024.

Notation pyfloat := spec_float.

Definition fzero : pyfloat := S754_zero false.
Definition fone : pyfloat := binary_normalize prec64 emax64 1 0 false.

(** [float(z)] and the conversion of the int operand in int * float: round to nearest, ties to even;
    OverflowError when the result is not finite (CPython PyLong_AsDouble). *)
Definition float_of_Z (z : Z) : res pyfloat :=
  match binary_normalize prec64 emax64 z 0 false with
  | S754_infinity _ => Raise OverflowError
  | f => Ok f
  end.

(** int / int (CPython long_true_divide): the exact quotient, rounded once, to nearest, ties to even;
    ZeroDivisionError for a zero divisor, OverflowError when the result is not finite. *)
Definition int_truediv (a b : Z) : res pyfloat :=
  if b =? 0 then Raise ZeroDivisionError
  else if a =? 0 then Ok (S754_zero (b <? 0))
  else
    let '(mz, ez, lz) := SFdiv_core_binary prec64 emax64 (Z.abs a) 0 (Z.abs b) 0 in
    match binary_round_aux prec64 emax64 (xorb (a <? 0) (b <? 0)) mz ez lz with
    | S754_infinity _ => Raise OverflowError
    | f => Ok f
    end.

(** float + float, float - float, float * float, float / float *)
Definition fadd (x y : pyfloat) : pyfloat := SFadd prec64 emax64 x y.
Definition fsub (x y : pyfloat) : pyfloat := SFsub prec64 emax64 x y.
Definition fmul (x y : pyfloat) : pyfloat := SFmul prec64 emax64 x y.
Definition fdiv (x y : pyfloat) : pyfloat := SFdiv prec64 emax64 x y.

(** [math.floor(x)]: an int; OverflowError on infinities, ValueError on NaN. *)
Definition ffloor (x : pyfloat) : res Z :=
  match x with
  | S754_zero _ => Ok 0
  | S754_infinity _ => Raise OverflowError
  | S754_nan => Raise ValueError
  | S754_finite s m e =>
      let z := if s then Z.neg m else Z.pos m in
      Ok (if 0 <=? e then z * 2 ^ e else z / 2 ^ (- e))
  end.

(** The literal [1.1]: the double nearest to 11/10, written as mantissa and exponent. *)
Definition f1_1 : pyfloat := S754_finite false 4953959590107546 (-52).

(** The literal [0.5] *)
Definition f0_5 : pyfloat := S754_finite false 4503599627370496 (-53).
