(** C152: the test programs for the elementary functions that neither over- nor underflow. *)
From Coq Require Import ZArith List.
From Flocq Require Import IEEE754.BinarySingleNaN.
From Verif Require Import CModel FloatModel Libm LibmSpec LibmIdeal Arith Spec Wrappers WrapApi TestHarness HarnessSpec TestBlocksSpec TestPrograms HarnessResults TestFunctions TestFunctionsProofs.
Import ListNotations.
Local Open Scope Z_scope.

(** test/ln.c, test/sin.c, ...: see [reference_function] *)
Theorem C152_function_test_passes : forall lm u utb, c99 lm -> function_utb lm u = Some utb ->
  passes utb /\ forall result, test_main utb result <-> result = 0.
Proof. exact function_program. Qed.
Print Assumptions C152_function_test_passes.

(** the functions meant: all of those of the interface that have one takum as argument
    and can neither over- nor underflow in long double *)
Theorem C152_functions : forall lm u, function_utb lm u <> None <->
  ~ In u [n_exp; n_exp_minus_1; n_2_raised; n_2_raised_minus_1; n_10_raised; n_10_raised_minus_1; n_sinh; n_cosh; n_sech; n_csch].
Proof. exact function_programs. Qed.
Print Assumptions C152_functions.

(** the hypotheses are met *)
Example function_test_ideal : exists utb, function_utb ideal n_arcoth = Some utb /\ test_main utb 0.
Proof. eexists. split; [reflexivity|]. apply (C152_function_test_passes ideal n_arcoth _ ideal_c99); reflexivity. Qed.
(** a case: the cosecant of pi times 0 is NaR *)
Example function_test_case : match function_utb ideal n_csc_pi_times with Some utb => check_unary_binary_case utb 0 (nar 16) Linear W16 = Val 0 | None => False end.
Proof. vm_compute. reflexivity. Qed.
(** the secant in place of the cosecant does not pass *)
Example swapped_function_fails : match reference_function ideal n_csc_pi_times with
  | Some r => ~ passes (TAKUM_TAKUM (evaluate_takum ideal r) (fun k w => api_unary k ideal n_sec_pi_times w))
  | None => False end.
Proof.
  cbn [reference_function]. set (utb := TAKUM_TAKUM _ _). intros P. destruct (P Linear W8 (fun _ => 1)) as (l & R & _).
  assert (1 <= maximum_sample_count <= 2 ^ 63) as Hm by (split; vm_compute; discriminate).
  destruct (exhaustive_verdict utb Linear W8 _ _ _ _ _ _ I Hm ltac:(vm_compute; discriminate) R) as [V _].
  assert (test_case utb W8 0 (nar 8)) as K by (split; [split; vm_compute; congruence|reflexivity]).
  specialize (V eq_refl 0 (nar 8) K). destruct V as (o & e & Ho & He & V). vm_compute in Ho, He. injection Ho as <-. injection He as <-. vm_compute in V. apply V. reflexivity.
Qed.
