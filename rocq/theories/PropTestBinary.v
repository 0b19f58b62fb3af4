(** C153: the test programs for the hypotenuse and the angle, and the programs with two blocks. *)
From Coq Require Import ZArith List.
From Flocq Require Import IEEE754.BinarySingleNaN.
From Verif Require Import CModel FloatModel Libm LibmSpec LibmIdeal Arith Spec Wrappers WrapApi TestHarness HarnessSpec TestBlocksSpec TestPrograms HarnessResults TestFunctions TestBinary TestBinaryProofs.
Local Open Scope Z_scope.

(** test/hypotenuse.c and the blocks of test/arctan2.c: see [reference_function2] *)
Theorem C153_function2_test_passes : forall lm b utb, c99 lm -> function2_utb lm b = Some utb ->
  passes utb /\ forall result, test_main utb result <-> result = 0.
Proof. exact function2_program. Qed.
Print Assumptions C153_function2_test_passes.
(** test/arctan2.c *)
Theorem C153_arctan2_program : forall lm b c utb utb', c99 lm -> function2_utb lm b = Some utb -> function2_utb lm c = Some utb' ->
  forall result, test_main2 utb utb' result <-> result = 0.
Proof. exact arctan2_program. Qed.
Print Assumptions C153_arctan2_program.
(** test/ln.c, test/sin.c, ... *)
Theorem C153_programs_of_two_blocks : forall lm u v utb utb', c99 lm -> function_utb lm u = Some utb -> function_utb lm v = Some utb' ->
  forall result, test_main2 utb utb' result <-> result = 0.
Proof. exact function_programs2. Qed.
Print Assumptions C153_programs_of_two_blocks.

(** the hypotheses are met *)
Example arctan2_test_ideal : exists utb utb', function2_utb ideal n_arctan2 = Some utb /\ function2_utb ideal n_arctan2_over_pi = Some utb' /\ test_main2 utb utb' 0.
Proof. do 2 eexists. split; [reflexivity|]. split; [reflexivity|]. apply (C153_arctan2_program ideal n_arctan2 n_arctan2_over_pi _ _ ideal_c99); reflexivity. Qed.
Example ln_test_ideal : exists utb utb', function_utb ideal n_ln = Some utb /\ function_utb ideal n_ln_1_plus = Some utb' /\ test_main2 utb utb' 0.
Proof. do 2 eexists. split; [reflexivity|]. split; [reflexivity|]. apply (C153_programs_of_two_blocks ideal n_ln n_ln_1_plus _ _ ideal_c99); reflexivity. Qed.
(** the difference in place of the sum does not pass: at a takum and itself the results differ *)
Example sum_is_no_difference : ~ passes (TAKUM_TAKUM_TAKUM (evaluate_takum_takum ideal fadd) (fun k w => api_binary k ideal n_subtraction w)).
Proof.
  set (utb := TAKUM_TAKUM_TAKUM _ _). intros P. destruct (P Linear W8 (fun _ => 1)) as (l & R & _).
  assert (1 <= maximum_sample_count <= 2 ^ 63) as Hm by (split; vm_compute; discriminate).
  destruct (exhaustive_verdict utb Linear W8 _ _ _ _ _ _ I Hm ltac:(vm_compute; discriminate) R) as [V _].
  assert (test_case utb W8 90 90) as K by (split; split; vm_compute; congruence).
  specialize (V eq_refl 90 90 K). destruct V as (o & e & Ho & He & V). vm_compute in Ho, He. injection Ho as <-. injection He as <-. vm_compute in V. apply V. reflexivity.
Qed.
