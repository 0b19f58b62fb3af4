(** The C mathematical library.  Functions whose result C and IEEE 754 do not
    determine are an explicit argument of the model (an oracle); fmod and sqrt
    are determined and defined here and in FloatModel.v.  No proofs. *)
From Coq Require Import ZArith Bool.
From Flocq Require Import Core.Core IEEE754.BinarySingleNaN.
From Verif Require Import CModel FloatModel.
Local Open Scope Z_scope.

(** The functions of one argument called by /repo/src (with suffix f, none
    or l according to the format): log log2 log10 log1p (conversion.c, ln.c,
    lb.c, lg.c), exp exp2 expm1 (exp.c, 2_raised.c), sin cos tan (sin.c, cos.c,
    tan.c, cot.c, csc.c, sec.c), asin acos atan (arcsin.c, ...), sinh cosh tanh
    (sinh.c, ...), asinh acosh atanh (arsinh.c, ...). *)
Inductive fun1 :=
| Flog | Flog2 | Flog10 | Flog1p | Fexp | Fexp2 | Fexpm1
| Fsin | Fcos | Ftan | Fasin | Facos | Fatan
| Fsinh | Fcosh | Ftanh | Fasinh | Facosh | Fatanh.

(** pow (conversion.c, power.c, integer_power.c, root.c, 10_raised.c), atan2
    (arctan2.c), hypot (hypotenuse.c) *)
Inductive fun2 := Fpow | Fatan2 | Fhypot.

(** A mathematical library: deterministic, stateless functions in every
    format (errno and the floating-point exception flags are not modelled,
    the library code never reads them). *)
Record libm := {
  lib1 : fun1 -> forall f : fmt, flt f -> flt f;
  lib2 : fun2 -> forall f : fmt, flt f -> flt f -> flt f
}.

(** fmod(x, y) = x - y trunc(x / y), exact, with the sign of x. *)
Definition ffmod {f : fmt} (x y : flt f) : flt f :=
  match x, y with
  | B754_nan, _ | _, B754_nan => B754_nan
  | B754_infinity _, _ => B754_nan
  | _, B754_zero _ => B754_nan
  | B754_zero s, _ => B754_zero s
  | B754_finite _ _ _ _, B754_infinity _ => x
  | B754_finite sx mx ex _, B754_finite _ my ey _ =>
      let e := Z.min ex ey in
      let a := Zpos mx * 2 ^ (ex - e) in
      let b := Zpos my * 2 ^ (ey - e) in
      binary_normalize (fprec f) (femax f) _ _ mode_NE (cond_Zopp sx (a mod b)) e sx
  end.

(** DBL_MIN = 2^-1022 and DBL_MAX = (2^53 - 1) 2^971 (float.h) *)
Definition dbl_min : flt f64 := fconst f64 1 (-1022).
Definition dbl_max : flt f64 := fconst f64 (2 ^ 53 - 1) 971.
