(** C146: the test programs for the round trips pass, for every seed. *)
From Coq Require Import ZArith List.
From Flocq Require Import IEEE754.BinarySingleNaN.
From Verif Require Import CModel FloatModel Libm LibmSpec LibmIdeal Spec Wrappers WrapApi TestHarness HarnessSpec TestBlocks TestBlocksSpec HarnessResults TestBlocksProofs.
Import ListNotations.
Local Open Scope Z_scope.

(** test/codec.c *)
Theorem C146_codec_test_passes : passes codec_utb /\ forall result, test_codec result <-> result = 0.
Proof. exact codec_test. Qed.
Print Assumptions C146_codec_test_passes.

(** one of its cases, and a block that does not pass: a round trip that loses the
    sign *)
Example codec_test_case : takum16_codec_roundtrip (-12345) = Val (-12345).
Proof. vm_compute. reflexivity. Qed.
Example lost_sign_fails : ~ passes (ROUNDTRIP (fun _ w => Some (fun t => if t =? nar (bits w) then Val t else Val (Z.abs t)))).
Proof.
  set (utb := ROUNDTRIP _). intros P. destruct (P Linear W8 (fun _ => 1)) as (l & R & _).
  assert (1 <= maximum_sample_count <= 2 ^ 63) as Hm by (split; vm_compute; discriminate).
  destruct (exhaustive_verdict utb Linear W8 _ _ _ _ _ _ I Hm ltac:(vm_compute; discriminate) R) as [V _].
  assert (test_case utb W8 (-1) (nar 8)) as K by (split; [split; vm_compute; congruence|reflexivity]).
  specialize (V eq_refl (-1) (nar 8) K). vm_compute in V. discriminate V.
Qed.

(** test/conversion.c *)
Theorem C146_conversion_test_passes : forall lm, c99 lm ->
  passes (conversion_float64_utb lm) /\ passes (conversion_extended_float_utb lm) /\ passes conversion_float64_full_utb /\
  forall result, test_conversion lm result <-> result = 0.
Proof. exact conversion_test. Qed.
Print Assumptions C146_conversion_test_passes.

(** a library as required exists; a case of the third block that is not skipped *)
Example conversion_test_ideal : test_conversion ideal 0.
Proof. apply (C146_conversion_test_passes ideal ideal_c99). reflexivity. Qed.
Example full_test_case : let t := 4611686018427387905 in
  feq (double_of_bits t) (fconst f64 (2 ^ 52 + 1) (-51)) = true /\ Conversion.takum_linear64_from_float64 x86_64 (double_of_bits t) <> Val t /\ float64_conversion_takum_linear64_roundtrip t = Val t.
Proof. split; [|split]; vm_compute; [reflexivity|discriminate|reflexivity]. Qed.

(** the third block looks at the double with the bits of the sample *)
Theorem C146_double_of_bits : forall t, is_intn 64 t ->
  (double_of_bits t = B754_nan <-> to_u 64 t / 2 ^ 52 mod 2 ^ 11 = 2 ^ 11 - 1 /\ to_u 64 t mod 2 ^ 52 <> 0) /\
  (double_of_bits t <> B754_nan -> image (double_of_bits t) = to_u 64 t).
Proof. exact double_of_bits_image. Qed.
Print Assumptions C146_double_of_bits.
Example double_of_bits_case : feq (double_of_bits 1) (fconst f64 1 (-1074)) = true /\ double_of_bits (-5) = B754_nan /\ image (fneg (fconst f64 3 0)) = to_u 64 (-4609434218613702656).
Proof. vm_compute. auto. Qed.
