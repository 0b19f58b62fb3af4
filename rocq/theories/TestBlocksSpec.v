(** Specification for the theorems about the test programs (C146-C151). *)
From Coq Require Import ZArith List.
From Verif Require Import CModel Spec Wrappers WrapApi TestHarness HarnessSpec.
Local Open Scope Z_scope.

(** Whatever rand() returns, the test of a kind and width ends, after
    min(number of cases, 2^22) cases, reports all of them as passed and returns 0;
    it cannot end in another way (it neither exits nor has undefined behaviour). *)
Definition type_passes (utb : unit_test_block) (k : kind) (w : Wrappers.width) : Prop :=
  forall rnd, exists l, let target := Z.min (test_cases utb w) (2 ^ 22) in
    run_unit_test_on_type utb k w maximum_sample_count rnd l target target 0 /\
    Z.of_nat (length l) = target /\
    forall s l' e, sampler_init utb w maximum_sample_count = Val s -> test_loop utb k w s rnd l' e -> l' = l /\ e = Finished.
Definition passes (utb : unit_test_block) : Prop := forall k w, type_passes utb k w.
