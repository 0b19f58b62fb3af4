(** Independent specification for floats: when a float represents a real
    exactly and when it is the IEEE 754 rounding (to nearest, ties to even) of
    a real.  Only Flocq's definitions of the formats are used.  No proofs. *)
From Coq Require Import ZArith Reals Bool.
From Flocq Require Import Core.Core IEEE754.BinarySingleNaN.
From Verif Require Import FloatModel.
Local Open Scope R_scope.

(** y is finite and is the number x (the sign of zero: +0) *)
Definition float_is {F : fmt} (x : R) (y : flt F) : Prop :=
  is_finite y = true /\ B2R y = x /\ (x = 0 -> y = B754_zero false).

(** the nearest number with fprec F digits and exponents from the range of F,
    unbounded above *)
Definition round_to (F : fmt) (x : R) : R :=
  round radix2 (FLT_exp (3 - femax F - fprec F) (fprec F)) ZnearestE x.

(** y is what IEEE 754 prescribes as the result of an operation whose exact
    result is the nonzero real x *)
Definition ieee_rounds {F : fmt} (x : R) (y : flt F) : Prop :=
  if Rlt_bool (Rabs (round_to F x)) (bpow radix2 (femax F))
  then is_finite y = true /\ B2R y = round_to F x /\ Bsign y = Rlt_bool x 0
  else y = B754_infinity (Rlt_bool x 0).
