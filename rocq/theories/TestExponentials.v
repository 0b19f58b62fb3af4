(** The test programs for exponentials and hyperbolic functions that can over- or
    underflow (test/exp.c, 2_raised.c, 10_raised.c, sinh.c, cosh.c, sech.c, csch.c), for
    the harness of TestHarness.v, on the platform x86-64.  No proofs in this file. *)
From Coq Require Import ZArith Bool.
From Verif Require Import CModel FloatModel Libm Spec Conversion Wrappers WrapApi TestHarness TestPrograms TestFunctions.
Local Open Scope Z_scope.

(** takum.h:30-49 TAKUMn_POSITIVE_MINIMUM, TAKUMn_POSITIVE_MAXIMUM (the linear ones are equal) *)
Definition positive_minimum (w : Wrappers.width) : Z := 1.
Definition positive_maximum (w : Wrappers.width) : Z := 2 ^ (bits w - 1) - 1.

(** A reference function with the floating-point exceptions it raises: the result, and
    whether FE_UNDERFLOW and FE_OVERFLOW are raised.  FE_UNDERFLOW matters only when the
    result is 0. *)
Record raising := { raw : flt f80; underflow : bool; overflow : bool }.

(** test/util.c:421-508 evaluate_reference_function for functions of one takum, with the
    branches for under- and overflow (lines 479-507) *)
Definition evaluate_raising (lm : libm) (reference : flt f80 -> raising) (k : kind) (w : Wrappers.width) (a : Z) : outcome Z :=
  let! x := int64_takum_to_extended_float lm k w a in
  let z := raw (reference x) in
  if underflow (reference x) && feq z (fzero f80) then
    Val (if fsignbit z then - positive_minimum w else positive_minimum w)
  else if overflow (reference x) then
    (if fgt z (fzero f80) then Val (positive_maximum w)
     else if feq z (fzero f80) then Val (if fsignbit z then - positive_minimum w else positive_minimum w)
     else Val (- positive_maximum w))
  else int64_takum_from_extended_float lm k w z.

(** A function of the mathematical library overflows when it returns an infinity, and
    underflows when it returns 0 where the function has no zero (C99 7.12.1).  A division
    of 1 by a number does neither, except by an overflowed one: 1 / 0 raises
    FE_DIVBYZERO, and the least quotient, 1 / LDBL_MAX, is not rounded to 0.
    test/exp.c:7-11 and 29-33, test/2_raised.c:7-11, test/10_raised.c:7-11,
    test/sinh.c:7-11, test/cosh.c:7-11, test/sech.c:7-11, test/csch.c:7-11.  Not
    modelled: two_raised_minus_1_reference and ten_raised_minus_1_reference (lines 29-33
    of test/2_raised.c and test/10_raised.c).  Simplification: the conversion of the
    argument, which comes after feclearexcept (test/util.c:432-438), raises neither. *)
Definition positive (z : flt f80) : raising := {| raw := z; underflow := feq z (fzero f80); overflow := fisinf z |}.
Definition with_zero (z : flt f80) : raising := {| raw := z; underflow := false; overflow := fisinf z |}.
Definition reciprocal (z : flt f80) : raising := {| raw := fdiv (one f80) z; underflow := false; overflow := fisinf z |}.
Definition raising_function (lm : libm) (u : unary_name) : option (flt f80 -> raising) :=
  match u with
  | n_exp => Some (fun a => positive (m1 lm Fexp a))
  | n_exp_minus_1 => Some (fun a => with_zero (m1 lm Fexpm1 a))
  | n_2_raised => Some (fun a => positive (m1 lm Fexp2 a))
  | n_10_raised => Some (fun a => positive (cpow lm (fint f80 10) a))
  | n_sinh => Some (fun a => with_zero (m1 lm Fsinh a))
  | n_cosh => Some (fun a => with_zero (m1 lm Fcosh a))
  | n_sech => Some (fun a => reciprocal (m1 lm Fcosh a))
  | n_csch => Some (fun a => reciprocal (m1 lm Fsinh a))
  | _ => None
  end.
(** NAME_utb in these files *)
Definition raising_utb (lm : libm) (u : unary_name) : option unit_test_block :=
  match raising_function lm u with
  | Some r => Some (TAKUM_TAKUM (evaluate_raising lm r) (fun k w => api_unary k lm u w))
  | None => None
  end.
