(** The test programs for the elementary functions (test/ln.c, test/sin.c, ...), for
    the harness of TestHarness.v, on the platform x86-64.  No proofs in this file. *)
From Coq Require Import ZArith List Bool.
From Flocq Require Import IEEE754.BinarySingleNaN.
From Verif Require Import CModel FloatModel Libm Spec Wrappers WrapApi TestHarness TestPrograms.
Local Open Scope Z_scope.

(** test/util.h:17-19 LB_E, LG_E and PI: the same literals as in src/util.h:7-9 *)
Definition test_LB_E : flt f80 := LB_E x86_64.
Definition test_LG_E : flt f80 := LG_E x86_64.
Definition test_PI : flt f80 := PI_ x86_64.

Section References.
Variable lm : libm.

(** test/cot.c:7-11 cot_reference, test/sec.c:7-11 sec_reference, test/csc.c:7-11 csc_reference *)
Definition cot_reference (a : flt f80) : flt f80 := fdiv (one f80) (m1 lm Ftan a).
Definition sec_reference (a : flt f80) : flt f80 := fdiv (one f80) (m1 lm Fcos a).
Definition csc_reference (a : flt f80) : flt f80 := fdiv (one f80) (m1 lm Fsin a).
(** test/arccot.c:7-15 arccot_reference *)
Definition arccot_reference (a : flt f80) : flt f80 :=
  if fge a (fzero f80) then m1 lm Fatan (fdiv (one f80) a) else fadd (m1 lm Fatan (fdiv (one f80) a)) test_PI.
(** test/arccot.c:33-41 arccot_over_pi_reference *)
Definition arccot_over_pi_reference (a : flt f80) : flt f80 :=
  if fge a (fzero f80) then fdiv (m1 lm Fatan (fdiv (one f80) a)) test_PI
  else fadd (fdiv (m1 lm Fatan (fdiv (one f80) a)) test_PI) (one f80).
(** test/arcoth.c:7-11, test/arcsch.c:7-11: atanh and asinh, for doubles *)
Definition arcoth_reference (a : flt f80) : flt f80 := fcast f80 (m1 lm Fatanh (fcast f64 (fdiv (one f80) a))).
Definition arcsch_reference (a : flt f80) : flt f80 := fcast f80 (m1 lm Fasinh (fcast f64 (fdiv (one f80) a))).

(** test/sin.c:29-47, cos.c:30-48, sec.c:29-47, csc.c:29-47: the four values of
    fmodl(a, 2) that are treated separately, and the function for the others *)
Definition by_quarter (at_0 at_half at_1 at_3_halves : flt f80) (f : flt f80 -> flt f80) (a : flt f80) : flt f80 :=
  let a_mod_2 := ffmod a (two f80) in
  if feq a_mod_2 (fzero f80) then at_0
  else if feq a_mod_2 (half f80) then at_half
  else if feq a_mod_2 (one f80) then at_1
  else if feq a_mod_2 (three_halves f80) then at_3_halves
  else f (fmul test_PI a).
(** test/tan.c:29-43, cot.c:29-43: the same for fmodl(a, 1) *)
Definition by_half (at_0 at_half : flt f80) (f : flt f80 -> flt f80) (a : flt f80) : flt f80 :=
  let a_mod_1 := ffmod a (one f80) in
  if feq a_mod_1 (fzero f80) then at_0
  else if feq a_mod_1 (half f80) then at_half
  else f (fmul test_PI a).

(** The functions NAME_reference: test/ln.c:7-11 and 29-33, lb.c and lg.c (the same
    lines), arcsin.c, arccos.c, arctan.c, arcsec.c, arccsc.c (the same lines),
    tanh.c:7-11, coth.c, arsinh.c, arcosh.c, artanh.c, arsech.c (the same lines), and
    those above.  The programs for the functions that can over- or underflow (exp.c,
    2_raised.c, 10_raised.c, sinh.c, cosh.c, sech.c, csch.c) are in TestExponentials.v. *)
Definition reference_function (u : unary_name) : option (flt f80 -> flt f80) :=
  match u with
  | n_ln => Some (m1 lm Flog) | n_ln_1_plus => Some (m1 lm Flog1p)
  | n_lb => Some (m1 lm Flog2) | n_lb_1_plus => Some (fun a => fmul test_LB_E (m1 lm Flog1p a))
  | n_lg => Some (m1 lm Flog10) | n_lg_1_plus => Some (fun a => fmul test_LG_E (m1 lm Flog1p a))
  | n_sin => Some (m1 lm Fsin)
  | n_sin_pi_times => Some (by_quarter (fzero f80) (one f80) (fzero f80) (fneg (one f80)) (m1 lm Fsin))
  | n_cos => Some (m1 lm Fcos)
  | n_cos_pi_times => Some (by_quarter (one f80) (fzero f80) (fneg (one f80)) (fzero f80) (m1 lm Fcos))
  | n_tan => Some (m1 lm Ftan) | n_tan_pi_times => Some (by_half (fzero f80) (fnan f80) (m1 lm Ftan))
  | n_cot => Some cot_reference | n_cot_pi_times => Some (by_half (fnan f80) (fzero f80) cot_reference)
  | n_sec => Some sec_reference
  | n_sec_pi_times => Some (by_quarter (one f80) (fnan f80) (fneg (one f80)) (fnan f80) sec_reference)
  | n_csc => Some csc_reference
  | n_csc_pi_times => Some (by_quarter (fnan f80) (one f80) (fnan f80) (fneg (one f80)) csc_reference)
  | n_arcsin => Some (m1 lm Fasin) | n_arcsin_over_pi => Some (fun a => fdiv (m1 lm Fasin a) test_PI)
  | n_arccos => Some (m1 lm Facos) | n_arccos_over_pi => Some (fun a => fdiv (m1 lm Facos a) test_PI)
  | n_arctan => Some (m1 lm Fatan) | n_arctan_over_pi => Some (fun a => fdiv (m1 lm Fatan a) test_PI)
  | n_arccot => Some arccot_reference | n_arccot_over_pi => Some arccot_over_pi_reference
  | n_arcsec => Some (fun a => m1 lm Facos (fdiv (one f80) a))
  | n_arcsec_over_pi => Some (fun a => fdiv (m1 lm Facos (fdiv (one f80) a)) test_PI)
  | n_arccsc => Some (fun a => m1 lm Fasin (fdiv (one f80) a))
  | n_arccsc_over_pi => Some (fun a => fdiv (m1 lm Fasin (fdiv (one f80) a)) test_PI)
  | n_tanh => Some (m1 lm Ftanh) | n_coth => Some (fun a => fdiv (one f80) (m1 lm Ftanh a))
  | n_arsinh => Some (m1 lm Fasinh) | n_arcosh => Some (m1 lm Facosh) | n_artanh => Some (m1 lm Fatanh)
  | n_arcoth => Some arcoth_reference | n_arsech => Some (fun a => m1 lm Facosh (fdiv (one f80) a)) | n_arcsch => Some arcsch_reference
  | _ => None
  end.

(** NAME_utb in these files *)
Definition function_utb (u : unary_name) : option unit_test_block :=
  match reference_function u with
  | Some r => Some (TAKUM_TAKUM (evaluate_takum lm r) (fun k w => api_unary k lm u w))
  | None => None
  end.
End References.
