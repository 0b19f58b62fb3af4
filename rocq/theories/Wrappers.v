(** Model of the functions generated by the wrapper macros of src/util.h and
    of the functions of src/ computing through floats.  Each C macro is one
    definition here, with the width as an argument; each instantiation of a
    macro for all widths is one definition.  No proofs in this file. *)
From Coq Require Import ZArith Bool.
From Flocq Require Import IEEE754.BinarySingleNaN.
From Verif Require Import CModel FloatModel Libm WidthConv Codec Conversion Arith.
Local Open Scope Z_scope.

Inductive width := W8 | W16 | W32 | W64.
Definition bits (w : width) : Z :=
  match w with W8 => 8 | W16 => 16 | W32 => 32 | W64 => 64 end.

(** src/util.h:7-9 *)
Definition LB_E (pf : platform) : flt (ld pf) :=
  fdecimal (ld pf) 14426950408889634073599246810018921374266 40.
Definition LG_E (pf : platform) : flt (ld pf) :=
  fdecimal (ld pf) 4342944819032518276511289189166050822944 40.
Definition PI_ (pf : platform) : flt (ld pf) :=
  fdecimal (ld pf) 31415926535897932384626433832795028841972 40.

Section Wrappers.
Variable pf : platform.
Variable lm : libm.
Let L := ld pf.

(** the function token-pasted as takumN_to_extended_float etc. *)
Definition log_to_ld (w : width) : Z -> outcome (flt L) :=
  match w with
  | W8 => takum8_to_extended_float pf lm
  | W16 => takum16_to_extended_float pf lm
  | W32 => takum32_to_extended_float pf lm
  | W64 => takum64_to_extended_float pf lm
  end.
Definition log_from_ld (w : width) : flt L -> outcome Z :=
  match w with
  | W8 => takum8_from_extended_float pf lm
  | W16 => takum16_from_extended_float pf lm
  | W32 => takum32_from_extended_float pf lm
  | W64 => takum64_from_extended_float pf lm
  end.
Definition lin_to_ld (w : width) : Z -> outcome (flt L) :=
  match w with
  | W8 => takum_linear8_to_extended_float pf
  | W16 => takum_linear16_to_extended_float pf
  | W32 => takum_linear32_to_extended_float pf
  | W64 => takum_linear64_to_extended_float pf
  end.
Definition lin_from_ld (w : width) : flt L -> outcome Z :=
  match w with
  | W8 => takum_linear8_from_extended_float pf
  | W16 => takum_linear16_from_extended_float pf
  | W32 => takum_linear32_from_extended_float pf
  | W64 => takum_linear64_from_extended_float pf
  end.
(** double is used by the linear wrappers for 8, 16 and 32 bits only *)
Definition lin_to_double (w : width) : Z -> outcome (flt f64) :=
  match w with
  | W8 => takum_linear8_to_float64 pf
  | W16 => takum_linear16_to_float64 pf
  | W32 => takum_linear32_to_float64 pf
  | W64 => takum_linear64_to_float64 pf
  end.
Definition lin_from_double (w : width) : flt f64 -> outcome Z :=
  match w with
  | W8 => takum_linear8_from_float64 pf
  | W16 => takum_linear16_from_float64 pf
  | W32 => takum_linear32_from_float64 pf
  | W64 => takum_linear64_from_float64 pf
  end.

(** * The macros

    FLOAT_FUNCTION is a pair of C functions, on double and on long double.
    RESULT_FIXER_MACRO is type-generic, hence a function for every format;
    where one branch of ?: is a double and another one a long double the
    result is a long double, so the double constants are converted to the
    format of res. *)
Definition fixer1 := forall f : fmt, flt f -> flt f -> flt f.
Definition fixer2 := forall f : fmt, flt f -> flt f -> flt f -> flt f.

(** src/util.h:24-61, UTIL_UNARY_FLOAT_TAKUM_WRAPPER: only the long double
    function is used *)
Definition unary_log (fl : flt L -> flt L) (fix_ : fixer1) (w : width) (t : Z)
  : outcome Z :=
  let! arg := log_to_ld w t in
  log_from_ld w (fix_ L arg (fl arg)).

(** src/util.h:63-100, UTIL_UNARY_FLOAT_TAKUM_LINEAR_WRAPPER *)
Definition unary_lin (fd : flt f64 -> flt f64) (fl : flt L -> flt L)
  (fix_ : fixer1) (w : width) (t : Z) : outcome Z :=
  match w with
  | W64 =>
      let! arg := lin_to_ld W64 t in
      lin_from_ld W64 (fix_ L arg (fl arg))
  | _ =>
      let! arg := lin_to_double w t in
      lin_from_double w (fix_ f64 arg (fd arg))
  end.

(** src/util.h:102-148, UTIL_BINARY_FLOAT_TAKUM_WRAPPER *)
Definition binary_log (fl : flt L -> flt L -> flt L) (fix_ : fixer2)
  (w : width) (a b : Z) : outcome Z :=
  let! fa := log_to_ld w a in
  let! fb := log_to_ld w b in
  log_from_ld w (fix_ L fa fb (fl fa fb)).

(** src/util.h:150-201, UTIL_BINARY_FLOAT_TAKUM_LINEAR_WRAPPER *)
Definition binary_lin (fd : flt f64 -> flt f64 -> flt f64)
  (fl : flt L -> flt L -> flt L) (fix_ : fixer2) (w : width) (a b : Z)
  : outcome Z :=
  match w with
  | W64 =>
      let! fa := lin_to_ld W64 a in
      let! fb := lin_to_ld W64 b in
      lin_from_ld W64 (fix_ L fa fb (fl fa fb))
  | _ =>
      let! fa := lin_to_double w a in
      let! fb := lin_to_double w b in
      lin_from_double w (fix_ f64 fa fb (fd fa fb))
  end.

(** * Result fixers *)

Definition dmin f : flt f := fcast f dbl_min.
Definition dmax f : flt f := fcast f dbl_max.

(** "(res)": addition.c:9, subtraction.c:10, multiplication.c:49,
    division.c:49, arctan2.c:7 *)
Definition fix2_none : fixer2 := fun f a b res => res.
(** "(res)": arccos.c:7, arccot.c:9, arccsc.c:9, arcoth.c:9, arcsch.c:9,
    arcsec.c:9, arcsin.c:7, arctan.c:7, arsech.c:9, artanh.c:7, cos.c:11,
    cot.c:9, coth.c:9, csc.c:12, inversion.c:55, sec.c:12, sin.c:11,
    square_root.c:58, tan.c:15, tanh.c:7 *)
Definition fix1_none : fixer1 := fun f arg res => res.
(** exp.c:8-9, 2_raised.c:8-9, 10_raised.c:23-24 *)
Definition fix_exp : fixer1 := fun f arg res =>
  if feq res (fzero f) then dmin f else if fisinf res then dmax f else res.
(** exp.c:15-16, 2_raised.c:33-34, 10_raised.c:49-50, arcosh.c:8, cosh.c:8 *)
Definition fix_over : fixer1 := fun f arg res =>
  if fisinf res then dmax f else res.
(** hypotenuse.c:8 *)
Definition fix2_over : fixer2 := fun f a b res =>
  if fisinf res then dmax f else res.
(** arsinh.c:8-9, sinh.c:7-8 *)
Definition fix_over_odd : fixer1 := fun f arg res =>
  if fisinf res then (if fge res (fzero f) then dmax f else fneg (dmax f))
  else res.
(** lb.c:15-16, lg.c:15-16, ln.c:11-12 *)
Definition fix_log : fixer1 := fun f arg res =>
  if fisinf res && fgt res (fzero f) then dmax f else res.
(** csch.c:14-15 *)
Definition fix_csch : fixer1 := fun f arg res =>
  if feq res (fzero f)
  then (if flt_ arg (fzero f) then fneg (dmin f) else dmin f) else res.
(** sech.c:10 *)
Definition fix_sech : fixer1 := fun f arg res =>
  if feq res (fzero f) then dmin f else res.
(** power.c:11-18; NAN is a float, converted to the format of res *)
Definition fix_power : fixer2 := fun f a b res =>
  if feq res (fzero f) then
    (if feq a (fzero f) then fzero f
     else if fsignbit res then fneg (dmin f) else dmin f)
  else if fisinf res then
    (if feq a (fzero f) then fnan f
     else if fsignbit res then fneg (dmax f) else dmax f)
  else res.

(** * Float functions defined in the .c files *)

Definition m1 (g : fun1) {f} (x : flt f) : flt f := lib1 lm g f x.
Definition one f : flt f := fint f 1.
Definition half f : flt f := fconst f 1 (-1).
Definition three_halves f : flt f := fconst f 3 (-1).
Definition two f : flt f := fint f 2.

(** "(double)NAMEl((long double)f)", the idiom defining most double versions:
    inversion.c:63-67, arccot.c:21-25 and 40-44, arccsc.c:17-21 and 32-36,
    arcoth.c:17-21, arcsch.c:17-21, arcsec.c:17-21 and 32-36, arcsin.c:23-27,
    arsech.c:17-21, cos.c:41-45, cot.c:17-21 and 42-46, coth.c:17-21,
    csc.c:20-24 and 49-53, csch.c:23-27, lb.c:27-31, lg.c:27-31, sec.c:20-24
    and 49-53, sin.c:41-45, tan.c:44-48; arccos.c:17-21, arctan.c:17-21,
    arctan2.c:17-21, 2_raised.c:20-24 and 10_raised.c:10-14 and 36-40 inline
    the body, which comes to the same *)
Definition via_ld (fl : flt L -> flt L) (x : flt f64) : flt f64 :=
  fcast f64 (fl (fcast L x)).

(** inversion.c:57-61 *)
Definition inversionl (x : flt L) : flt L := fdiv (one L) x.
(** 10_raised.c:16-20 *)
Definition ten_raisedl (x : flt L) : flt L := cpow lm (fint L 10) x.
(** 10_raised.c:42-46 *)
Definition ten_raised_minus_1l (x : flt L) : flt L :=
  fsub (cpow lm (fint L 10) x) (one L).
(** 2_raised.c:26-30 *)
Definition two_raised_minus_1l (x : flt L) : flt L :=
  fsub (m1 Fexp2 x) (one L).
(** arccos.c:23-27 *)
Definition arccospil (x : flt L) : flt L := fdiv (m1 Facos x) (PI_ pf).
(** arccot.c:11-19 *)
Definition arccotl (x : flt L) : flt L :=
  if fge x (fzero L) then m1 Fatan (fdiv (one L) x)
  else fadd (m1 Fatan (fdiv (one L) x)) (PI_ pf).
(** arccot.c:30-38 *)
Definition arccot_over_pil (x : flt L) : flt L :=
  if fge x (fzero L) then fdiv (m1 Fatan (fdiv (one L) x)) (PI_ pf)
  else fadd (fdiv (m1 Fatan (fdiv (one L) x)) (PI_ pf)) (one L).
(** arccsc.c:11-15 *)
Definition arccscl (x : flt L) : flt L := m1 Fasin (fdiv (one L) x).
(** arccsc.c:26-30 *)
Definition arccsc_over_pil (x : flt L) : flt L :=
  fdiv (m1 Fasin (fdiv (one L) x)) (PI_ pf).
(** arcoth.c:11-15: atanh, not atanhl: the argument becomes a double *)
Definition arcothl (x : flt L) : flt L :=
  fcast L (m1 Fatanh (fcast f64 (fdiv (one L) x))).
(** arcsch.c:11-15: asinh, not asinhl *)
Definition arcschl (x : flt L) : flt L :=
  fcast L (m1 Fasinh (fcast f64 (fdiv (one L) x))).
(** arcsec.c:11-15 *)
Definition arcsecl (x : flt L) : flt L := m1 Facos (fdiv (one L) x).
(** arcsec.c:26-30 *)
Definition arcsec_over_pil (x : flt L) : flt L :=
  fdiv (m1 Facos (fdiv (one L) x)) (PI_ pf).
(** arcsin.c:17-21 *)
Definition arcsin_over_pil (x : flt L) : flt L := fdiv (m1 Fasin x) (PI_ pf).
(** arctan.c:23-27 *)
Definition arctanpil (x : flt L) : flt L := fdiv (m1 Fatan x) (PI_ pf).
(** arctan2.c:23-27 *)
Definition arctan2pil (a b : flt L) : flt L :=
  fdiv (lib2 lm Fatan2 L a b) (PI_ pf).
(** arctan2.c:17-21 *)
Definition arctan2pi (a b : flt f64) : flt f64 :=
  fcast f64 (arctan2pil (fcast L a) (fcast L b)).
(** arsech.c:11-15 *)
Definition arsechl (x : flt L) : flt L := m1 Facosh (fdiv (one L) x).
(** cos.c:21-39 *)
Definition cospil (x : flt L) : flt L :=
  let r := ffmod x (two L) in
  if feq r (fzero L) then one L
  else if feq r (half L) then fzero L
  else if feq r (one L) then fneg (one L)
  else if feq r (three_halves L) then fzero L
  else m1 Fcos (fmul (PI_ pf) x).
(** cot.c:11-15 *)
Definition cotl (x : flt L) : flt L := fdiv (one L) (m1 Ftan x).
(** cot.c:26-40 *)
Definition cot_pi_timesl (x : flt L) : flt L :=
  let r := ffmod x (one L) in
  if feq r (fzero L) then fnan L
  else if feq r (half L) then fzero L
  else cotl (fmul (PI_ pf) x).
(** coth.c:11-15 *)
Definition cothl (x : flt L) : flt L := fdiv (one L) (m1 Ftanh x).
(** csc.c:14-18 *)
Definition cscl (x : flt L) : flt L := fdiv (one L) (m1 Fsin x).
(** csc.c:29-47 *)
Definition csc_pi_timesl (x : flt L) : flt L :=
  let r := ffmod x (two L) in
  if feq r (fzero L) then fnan L
  else if feq r (half L) then one L
  else if feq r (one L) then fnan L
  else if feq r (three_halves L) then fneg (one L)
  else cscl (fmul (PI_ pf) x).
(** csch.c:17-21 *)
Definition cschl (x : flt L) : flt L := fdiv (one L) (m1 Fsinh x).
(** lb.c:21-25 *)
Definition lb_1_plusl (x : flt L) : flt L := fmul (LB_E pf) (m1 Flog1p x).
(** lg.c:21-25 *)
Definition lg_1_plusl (x : flt L) : flt L := fmul (LG_E pf) (m1 Flog1p x).
(** sec.c:14-18 *)
Definition secl (x : flt L) : flt L := fdiv (one L) (m1 Fcos x).
(** sec.c:29-47 *)
Definition sec_pi_timesl (x : flt L) : flt L :=
  let r := ffmod x (two L) in
  if feq r (fzero L) then one L
  else if feq r (half L) then fnan L
  else if feq r (one L) then fneg (one L)
  else if feq r (three_halves L) then fnan L
  else secl (fmul (PI_ pf) x).
(** sech.c:12-16 and 18-22 *)
Definition sech_ {f} (x : flt f) : flt f := fdiv (one f) (m1 Fcosh x).
(** sin.c:21-39 *)
Definition sinpil (x : flt L) : flt L :=
  let r := ffmod x (two L) in
  if feq r (fzero L) then fzero L
  else if feq r (half L) then one L
  else if feq r (one L) then fzero L
  else if feq r (three_halves L) then fneg (one L)
  else m1 Fsin (fmul (PI_ pf) x).
(** tan.c:28-42 *)
Definition tanpil (x : flt L) : flt L :=
  let r := ffmod x (one L) in
  if feq r (fzero L) then fzero L
  else if feq r (half L) then fnan L
  else m1 Ftan (fmul (PI_ pf) x).

(** * The API functions, all widths at once *)

(** addition.c:23-24 *)
Definition takum_addition := binary_log fadd fix2_none.
Definition takum_linear_addition := binary_lin fadd fadd fix2_none.
(** subtraction.c:24-26 *)
Definition takum_subtraction := binary_log fsub fix2_none.
Definition takum_linear_subtraction := binary_lin fsub fsub fix2_none.
(** multiplication.c:63-64 *)
Definition takum_linear_multiplication := binary_lin fmul fmul fix2_none.
(** division.c:63 *)
Definition takum_linear_division := binary_lin fdiv fdiv fix2_none.
(** inversion.c:69 *)
Definition takum_linear_inversion := unary_lin (via_ld inversionl) inversionl fix1_none.
(** square_root.c:60 *)
Definition takum_linear_square_root := unary_lin fsqrt fsqrt fix1_none.
(** power.c:20-21 *)
Definition takum_power := binary_log (lib2 lm Fpow L) fix_power.
Definition takum_linear_power :=
  binary_lin (lib2 lm Fpow f64) (lib2 lm Fpow L) fix_power.
(** hypotenuse.c:10-11 *)
Definition takum_hypotenuse := binary_log (lib2 lm Fhypot L) fix2_over.
Definition takum_linear_hypotenuse :=
  binary_lin (lib2 lm Fhypot f64) (lib2 lm Fhypot L) fix2_over.
(** arctan2.c:9-10 *)
Definition takum_arctan2 := binary_log (lib2 lm Fatan2 L) fix2_none.
Definition takum_linear_arctan2 :=
  binary_lin (lib2 lm Fatan2 f64) (lib2 lm Fatan2 L) fix2_none.
(** arctan2.c:29-31 *)
Definition takum_arctan2_over_pi := binary_log arctan2pil fix2_none.
Definition takum_linear_arctan2_over_pi := binary_lin arctan2pi arctan2pil fix2_none.

(** The functions of one argument, by name. *)
Inductive unary_name :=
| n_exp | n_exp_minus_1 | n_2_raised | n_2_raised_minus_1
| n_10_raised | n_10_raised_minus_1
| n_ln | n_ln_1_plus | n_lb | n_lb_1_plus | n_lg | n_lg_1_plus
| n_sin | n_sin_pi_times | n_cos | n_cos_pi_times | n_tan | n_tan_pi_times
| n_cot | n_cot_pi_times | n_sec | n_sec_pi_times | n_csc | n_csc_pi_times
| n_arcsin | n_arcsin_over_pi | n_arccos | n_arccos_over_pi
| n_arctan | n_arctan_over_pi | n_arccot | n_arccot_over_pi
| n_arcsec | n_arcsec_over_pi | n_arccsc | n_arccsc_over_pi
| n_sinh | n_cosh | n_tanh | n_coth | n_sech | n_csch
| n_arsinh | n_arcosh | n_artanh | n_arcoth | n_arsech | n_arcsch.

(** The arguments FLOAT_FUNCTION (long double version, double version) and
    RESULT_FIXER_MACRO given to both wrapper macros at: exp.c:11-12 and 18-21,
    2_raised.c:11-13 and 36-39, 10_raised.c:26-29 and 52-55, ln.c:14-18,
    lb.c:18-19 and 33-34, lg.c:18-19 and 33-34, sin.c:13-14 and 47-48,
    cos.c:13-14 and 47-48, tan.c:17-18 and 50-51, cot.c:23-24 and 48-50,
    sec.c:26-27 and 55-57, csc.c:26-27 and 55-57, arcsin.c:9-10 and 29-32,
    arccos.c:9-10 and 29-31, arctan.c:9-10 and 29-31, arccot.c:27-28 and
    46-49, arcsec.c:23-24 and 38-41, arccsc.c:23-24 and 38-41, sinh.c:10-11,
    cosh.c:10-11, tanh.c:9-10, coth.c:23-24, sech.c:24-25, csch.c:29-30,
    arsinh.c:11-12, arcosh.c:10-11, artanh.c:9-10, arcoth.c:23-24,
    arsech.c:23-24, arcsch.c:23-24 *)
Definition unary_ld (u : unary_name) : flt L -> flt L :=
  match u with
  | n_exp => m1 Fexp | n_exp_minus_1 => m1 Fexpm1
  | n_2_raised => m1 Fexp2 | n_2_raised_minus_1 => two_raised_minus_1l
  | n_10_raised => ten_raisedl | n_10_raised_minus_1 => ten_raised_minus_1l
  | n_ln => m1 Flog | n_ln_1_plus => m1 Flog1p
  | n_lb => m1 Flog2 | n_lb_1_plus => lb_1_plusl
  | n_lg => m1 Flog10 | n_lg_1_plus => lg_1_plusl
  | n_sin => m1 Fsin | n_sin_pi_times => sinpil
  | n_cos => m1 Fcos | n_cos_pi_times => cospil
  | n_tan => m1 Ftan | n_tan_pi_times => tanpil
  | n_cot => cotl | n_cot_pi_times => cot_pi_timesl
  | n_sec => secl | n_sec_pi_times => sec_pi_timesl
  | n_csc => cscl | n_csc_pi_times => csc_pi_timesl
  | n_arcsin => m1 Fasin | n_arcsin_over_pi => arcsin_over_pil
  | n_arccos => m1 Facos | n_arccos_over_pi => arccospil
  | n_arctan => m1 Fatan | n_arctan_over_pi => arctanpil
  | n_arccot => arccotl | n_arccot_over_pi => arccot_over_pil
  | n_arcsec => arcsecl | n_arcsec_over_pi => arcsec_over_pil
  | n_arccsc => arccscl | n_arccsc_over_pi => arccsc_over_pil
  | n_sinh => m1 Fsinh | n_cosh => m1 Fcosh | n_tanh => m1 Ftanh
  | n_coth => cothl | n_sech => sech_ | n_csch => cschl
  | n_arsinh => m1 Fasinh | n_arcosh => m1 Facosh | n_artanh => m1 Fatanh
  | n_arcoth => arcothl | n_arsech => arsechl | n_arcsch => arcschl
  end.

(** see unary_ld *)
Definition unary_double (u : unary_name) : flt f64 -> flt f64 :=
  match u with
  | n_exp => m1 Fexp | n_exp_minus_1 => m1 Fexpm1
  | n_2_raised => m1 Fexp2
  | n_ln => m1 Flog | n_ln_1_plus => m1 Flog1p
  | n_lb => m1 Flog2 | n_lg => m1 Flog10
  | n_sin => m1 Fsin | n_cos => m1 Fcos | n_tan => m1 Ftan
  | n_arcsin => m1 Fasin | n_arccos => m1 Facos | n_arctan => m1 Fatan
  | n_sinh => m1 Fsinh | n_cosh => m1 Fcosh | n_tanh => m1 Ftanh
  | n_sech => sech_
  | n_arsinh => m1 Fasinh | n_arcosh => m1 Facosh | n_artanh => m1 Fatanh
  | _ => via_ld (unary_ld u)
  end.

(** see unary_ld *)
Definition unary_fixer (u : unary_name) : fixer1 :=
  match u with
  | n_exp | n_2_raised | n_10_raised => fix_exp
  | n_exp_minus_1 | n_2_raised_minus_1 | n_10_raised_minus_1
  | n_arcosh | n_cosh => fix_over
  | n_ln | n_ln_1_plus | n_lb | n_lb_1_plus | n_lg | n_lg_1_plus => fix_log
  | n_arsinh | n_sinh => fix_over_odd
  | n_csch => fix_csch
  | n_sech => fix_sech
  | _ => fix1_none
  end.

(** takumN_<name> *)
Definition takum_unary (u : unary_name) : width -> Z -> outcome Z :=
  unary_log (unary_ld u) (unary_fixer u).
(** takum_linearN_<name> *)
Definition takum_linear_unary (u : unary_name) : width -> Z -> outcome Z :=
  unary_lin (unary_double u) (unary_ld u) (unary_fixer u).

(** * Integer powers and roots through powl *)

(** integer_power.c:73-77 (and 94-98, 115-119, 136-140, 157-161) *)
Definition fix_integer_power (t n : Z) (res : flt L) : flt L :=
  if fisinf res then
    (if fgt res (fzero L) then dmax L else fneg (dmax L))
  else if feq res (fzero L) && negb (t =? 0) then
    (if (t <? 0) && negb (Z.rem n 2 =? 0) then fneg (dmin L) else dmin L)
  else res.

(** integer_power.c:61-80 *)
Definition takum64_integer_power (t n : Z) : outcome Z :=
  if (t =? NaR 64) || ((t =? 0) && (n <=? 0)) then Val (NaR 64)
  else
    let! f := log_to_ld W64 t in
    log_from_ld W64 (fix_integer_power t n (cpow lm f (fint L n))).

(** integer_power.c:82-101, 103-122, 124-143, 145-164 *)
Definition takum_linear_integer_power (w : width) (t n : Z) : outcome Z :=
  if (t =? NaR (bits w)) || ((t =? 0) && (n <=? 0)) then Val (NaR (bits w))
  else
    let! f := lin_to_ld w t in
    lin_from_ld w (fix_integer_power t n (cpow lm f (fint L n))).

(** root.c:68-85, 87-104, 106-123, 125-142 *)
Definition takum_linear_root (w : width) (t n : Z) : outcome Z :=
  if (n =? 0) || ((t <? 0) && (Z.rem n 2 =? 0)) then Val (NaR (bits w))
  else
    let! f := lin_to_ld w t in
    let res := cpow lm f (fdiv (one L) (fint L n)) in
    let res :=
      if feq res (fzero L) && negb (t =? 0)
      then (if (t <? 0) && negb (Z.rem n 2 =? 0) then fneg (dmin L) else dmin L)
      else res in
    lin_from_ld w res.

End Wrappers.
