(** C147-C151: test programs that compare a function with a reference in long double. *)
From Coq Require Import ZArith List.
From Flocq Require Import IEEE754.BinarySingleNaN.
From Verif Require Import CModel FloatModel Libm LibmSpec LibmIdeal Arith Spec Wrappers WrapApi TestHarness HarnessSpec TestBlocksSpec TestPrograms HarnessResults TestProgramsMisc.
Import ListNotations.
Local Open Scope Z_scope.

(** test/addition.c and test/subtraction.c, with any mathematical library *)
Theorem C147_addition_test_passes : forall lm, passes (addition_utb lm) /\ forall result, test_main (addition_utb lm) result <-> result = 0.
Proof. exact addition_test. Qed.
Print Assumptions C147_addition_test_passes.
Theorem C147_subtraction_test_passes : forall lm, passes (subtraction_utb lm) /\ forall result, test_main (subtraction_utb lm) result <-> result = 0.
Proof. exact subtraction_test. Qed.
Print Assumptions C147_subtraction_test_passes.

(** a case; a subtraction with swapped operands does not pass, for the test of 8 bits
    checks all pairs *)
Example addition_test_case : check_unary_binary_case (addition_utb ideal) 5 (-7) Linear W8 = Val 0 /\ check_unary_binary_case (subtraction_utb ideal) 12345 (-32768) Linear W16 = Val 0.
Proof. split; vm_compute; reflexivity. Qed.
Example swapped_fails : ~ passes (TAKUM_TAKUM_TAKUM (evaluate_takum_takum ideal fsub) (fun k w a b => api_binary k ideal n_subtraction w b a)).
Proof.
  set (utb := TAKUM_TAKUM_TAKUM _ _). intros P. destruct (P Linear W8 (fun _ => 1)) as (l & R & _).
  assert (1 <= maximum_sample_count <= 2 ^ 63) as Hm by (split; vm_compute; discriminate).
  destruct (exhaustive_verdict utb Linear W8 _ _ _ _ _ _ I Hm ltac:(vm_compute; discriminate) R) as [V _].
  assert (test_case utb W8 90 5) as K by (split; split; vm_compute; congruence).
  specialize (V eq_refl 90 5 K). destruct V as (o & e & Ho & He & V). vm_compute in Ho, He. injection Ho as <-. injection He as <-. vm_compute in V. apply V. reflexivity.
Qed.

(** test/multiplication.c, test/division.c, test/square_root.c, test/inversion.c: seven
    of the eight types.  Missing: takum64, for which the reference in long double is not
    accurate enough for the argument used for the other types. *)
Theorem C148_arithmetic_test_passes_partial : forall lm k w utb, c99 lm ->
  In utb [multiplication_utb lm; division_utb lm; square_root_utb lm; inversion_utb lm] -> k = Linear \/ w <> W64 -> type_passes utb k w.
Proof. exact arithmetic_test. Qed.
Print Assumptions C148_arithmetic_test_passes_partial.
(** the linear types need no assumption on the mathematical library *)
Theorem C148_linear_arithmetic_test_passes : forall lm w utb,
  In utb [multiplication_utb lm; division_utb lm; square_root_utb lm; inversion_utb lm] -> type_passes utb Linear w.
Proof. exact linear_arithmetic_test. Qed.
Print Assumptions C148_linear_arithmetic_test_passes.

Example arithmetic_test_ideal : type_passes (division_utb ideal) Logarithmic W32.
Proof. apply (C148_arithmetic_test_passes_partial ideal); [exact ideal_c99|cbn; auto|right; discriminate]. Qed.
Example arithmetic_test_case : check_unary_binary_case (division_utb ideal) 1000000 (-77) Linear W32 = Val 0 /\ check_unary_binary_case (square_root_utb ideal) (-5) 0 Linear W64 = Val 0.
Proof. split; vm_compute; reflexivity. Qed.

(** test/sign.c and test/precision.c *)
Theorem C149_sign_test_passes : forall lm, c99 lm -> passes (sign_utb lm) /\ forall result, test_main (sign_utb lm) result <-> result = 0.
Proof. exact sign_test. Qed.
Print Assumptions C149_sign_test_passes.
Theorem C149_precision_test_passes : forall lm, c99 lm -> passes (precision_utb lm) /\ forall result, test_main (precision_utb lm) result <-> result = 0.
Proof. exact precision_test. Qed.
Print Assumptions C149_precision_test_passes.

Example sign_test_ideal : test_main (sign_utb ideal) 0 /\ test_main (precision_utb ideal) 0.
Proof. split; [apply (C149_sign_test_passes ideal ideal_c99)|apply (C149_precision_test_passes ideal ideal_c99)]; reflexivity. Qed.
Example precision_test_case : precision_reference ideal (fconst f80 5 0) Linear W32 = Val 26 /\ check_unary_binary_case (precision_utb ideal) 1000000 0 Linear W32 = Val 0.
Proof. split; vm_compute; reflexivity. Qed.

(** test/absolute.c: the types of 8 and 16 bits *)
Theorem C150_absolute_small_test_passes : forall lm k w, c99 lm -> w = W8 \/ w = W16 -> type_passes (absolute_utb lm) k w.
Proof. exact absolute_small_test. Qed.
Print Assumptions C150_absolute_small_test_passes.
Example absolute_test_ideal : type_passes (absolute_utb ideal) Logarithmic W16.
Proof. apply (C150_absolute_small_test_passes ideal _ _ ideal_c99). auto. Qed.

(** test/absolute.c for 32 and 64 bits: when the first call of rand() returns 1, the
    second case is NaR and the behaviour is undefined *)
Theorem C151_absolute_test_refuted : forall lm k w, c99 lm -> w = W32 \/ w = W64 -> ~ type_passes (absolute_utb lm) k w.
Proof. exact absolute_refuted. Qed.
Print Assumptions C151_absolute_test_refuted.
Theorem C151_absolute_test_undefined : forall lm k w, c99 lm -> w = W32 \/ w = W64 ->
  exists s, sampler_init (absolute_utb lm) w maximum_sample_count = Val s /\ forall rnd, rnd 0%nat = 1 ->
    test_loop (absolute_utb lm) k w s rnd [(0, nar (bits w), 0)] Undefined /\
    forall l e, test_loop (absolute_utb lm) k w s rnd l e -> e = Undefined.
Proof. exact absolute_undefined. Qed.
Print Assumptions C151_absolute_test_undefined.
Example absolute_test_refuted_ideal : ~ type_passes (absolute_utb ideal) Linear W32.
Proof. apply (C151_absolute_test_refuted ideal _ _ ideal_c99). auto. Qed.
