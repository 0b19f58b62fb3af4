(** C154: the test programs for exponentials and hyperbolic functions that can over- or underflow. *)
From Coq Require Import ZArith List.
From Flocq Require Import IEEE754.BinarySingleNaN.
From Verif Require Import CModel FloatModel Libm LibmSpec LibmIdeal Arith Spec Wrappers WrapApi TestHarness HarnessSpec TestBlocksSpec TestPrograms HarnessResults TestExponentials TestExponentialsProofs.
Import ListNotations.
Local Open Scope Z_scope.

(** test/exp.c, test/sinh.c, ...: see [raising_function].  Missing: the second blocks of
    test/2_raised.c and test/10_raised.c *)
Theorem C154_raising_test_passes_partial : forall lm u utb, c99 lm -> raising_utb lm u = Some utb ->
  passes utb /\ forall result, test_main utb result <-> result = 0.
Proof. exact raising_program. Qed.
Print Assumptions C154_raising_test_passes_partial.

(** the functions meant *)
Theorem C154_functions : forall lm u, raising_utb lm u <> None <->
  In u [n_exp; n_exp_minus_1; n_2_raised; n_10_raised; n_sinh; n_cosh; n_sech; n_csch].
Proof. exact raising_programs. Qed.
Print Assumptions C154_functions.

(** the hypotheses are met *)
Example raising_test_ideal : exists utb, raising_utb ideal n_csch = Some utb /\ test_main utb 0.
Proof. eexists. split; [reflexivity|]. apply (C154_raising_test_passes_partial ideal n_csch _ ideal_c99); reflexivity. Qed.
(** an overflow gives the largest takum, an underflow the smallest, of the sign of the result *)
Example raising_case : forall a, evaluate_raising ideal (fun _ => with_zero (B754_infinity true)) Linear W16 a = (let! _ := int64_takum_to_extended_float ideal Linear W16 a in Val (- 32767)).
Proof. reflexivity. Qed.
Example raising_case_0 : forall a, evaluate_raising ideal (fun _ => reciprocal (B754_infinity true)) Linear W16 a = (let! _ := int64_takum_to_extended_float ideal Linear W16 a in Val (-1)).
Proof. reflexivity. Qed.
