(** Properties C105-C107: errors told by the precision of the result, and the
    errors of sums as takums.  Theorems only; proofs are in Posterior.v and
    TwoSum.v. *)
From Coq Require Import ZArith Reals Bool Lia Lra.
From Flocq Require Import Core.Core.
From Verif Require Import CModel FloatModel WidthConv Spec Arith ValueFacts RoundFacts WidthFacts WidthApi LogApi LinApi LinArithRefute MiscProps Libm Wrappers ErrorSpec PosteriorSpec Sums Posterior TwoSum.
Local Open Scope R_scope.

(** C105: with p the precision the library reports for the result, the result
    has a relative error of at most 2^-(p-1), and of at most 2^-p where the
    operation is correctly rounded *)
Theorem C105_linear_addition :
  forall n f a b x y, linear_addition n f -> n <> 8%Z -> is_intn n a -> is_intn n b ->
    value Linear n a = Some x -> value Linear n b = Some y ->
    exists t, f a b = Val t /\ is_intn n t /\ error_by_precision Linear n (if (n <? 64)%Z then 1 else 0) (x + y) t.
Proof. exact lin_add_posterior. Qed.
Print Assumptions C105_linear_addition.
Theorem C105_linear_subtraction :
  forall n f a b x y, linear_subtraction n f -> n <> 8%Z -> is_intn n a -> is_intn n b ->
    value Linear n a = Some x -> value Linear n b = Some y ->
    exists t, f a b = Val t /\ is_intn n t /\ error_by_precision Linear n (if (n <? 64)%Z then 1 else 0) (x - y) t.
Proof. exact lin_sub_posterior. Qed.
Print Assumptions C105_linear_subtraction.
Theorem C105_linear_multiplication :
  forall n f a b x y, linear_multiplication n f -> n <> 8%Z -> is_intn n a -> is_intn n b ->
    value Linear n a = Some x -> value Linear n b = Some y ->
    exists t, f a b = Val t /\ is_intn n t /\ error_by_precision Linear n (if (n =? 16)%Z then 1 else 0) (x * y) t.
Proof. exact lin_mul_posterior. Qed.
Print Assumptions C105_linear_multiplication.
Theorem C105_linear_division :
  forall n f a b x y, linear_division n f -> n <> 8%Z -> is_intn n a -> is_intn n b ->
    value Linear n a = Some x -> value Linear n b = Some y -> y <> 0 ->
    exists t, f a b = Val t /\ is_intn n t /\ error_by_precision Linear n (if (n =? 16)%Z then 1 else 0) (x / y) t.
Proof. exact lin_div_posterior. Qed.
Print Assumptions C105_linear_division.
Theorem C105_linear_square_root :
  forall n f a x, linear_square_root n f -> n <> 8%Z -> is_intn n a ->
    value Linear n a = Some x -> 0 <= x ->
    exists t, f a = Val t /\ is_intn n t /\ error_by_precision Linear n (if (n =? 16)%Z then 1 else 0) (sqrt x) t.
Proof. exact lin_sqrt_posterior. Qed.
Print Assumptions C105_linear_square_root.
Theorem C105_linear_inversion :
  forall n f a x, linear_inversion n f -> n <> 8%Z -> is_intn n a ->
    value Linear n a = Some x -> x <> 0 ->
    exists t, f a = Val t /\ is_intn n t /\ error_by_precision Linear n (if (n =? 16)%Z then 1 else 0) (/ x) t.
Proof. exact lin_inv_posterior. Qed.
Print Assumptions C105_linear_inversion.
Theorem C105_log_multiplication :
  forall n f a b x y, log_multiplication n f -> n <> 8%Z -> is_intn n a -> is_intn n b ->
    value Logarithmic n a = Some x -> value Logarithmic n b = Some y ->
    exists t, f a b = Val t /\ is_intn n t /\ error_by_precision Logarithmic n (if (n <? 64)%Z then 1 else 0) (x * y) t.
Proof. exact log_mul_posterior. Qed.
Print Assumptions C105_log_multiplication.
Theorem C105_log_division :
  forall n f a b x y, log_division n f -> n <> 8%Z -> is_intn n a -> is_intn n b ->
    value Logarithmic n a = Some x -> value Logarithmic n b = Some y -> y <> 0 ->
    exists t, f a b = Val t /\ is_intn n t /\ error_by_precision Logarithmic n (if (n <? 64)%Z then 1 else 0) (x / y) t.
Proof. exact log_div_posterior. Qed.
Print Assumptions C105_log_division.
Theorem C105_log_square_root :
  forall n f a x, log_square_root n f -> n <> 8%Z -> is_intn n a ->
    value Logarithmic n a = Some x -> 0 <= x ->
    exists t, f a = Val t /\ is_intn n t /\ error_by_precision Logarithmic n 1 (sqrt x) t.
Proof. exact log_sqrt_posterior. Qed.
Print Assumptions C105_log_square_root.
Example C105_case : linear_addition 16 (takum_linear_addition x86_64 W16) /\ precision_function Linear 16 takum_linear16_precision /\
  takum_linear_addition x86_64 W16 0x47ff 0x47ff = Val 0x4c00%Z /\ takum_linear16_precision 0x4c00 = Val 10%Z /\
  (exists x, value Linear 16 0x47ff = Some x /\ has_exponent Linear (x + x) 1) /\
  precision_function Logarithmic 16 takum16_precision /\ log_multiplication 16 takum16_multiplication.
Proof.
  split; [constructor|]. split; [constructor|]. split; [vm_compute; reflexivity|]. split; [vm_compute; reflexivity|]. split; [|split; constructor].
  rewrite value_const by (split; vm_compute; (discriminate || reflexivity)). eexists. split; [reflexivity|]. unfold has_exponent. rewrite !powerRZ_bpow.
  change (vm 16 0x47ff) with (2 ^ 60 - 2 ^ 48)%Z. change (ve 16 0x47ff) with (-59)%Z. rewrite minus_IZR, !IZR_pow2 by lia. rewrite Rmult_minus_distr_r, <- !bpow_plus.
  change (60 + -59)%Z with 1%Z. change (48 + -59)%Z with (-11)%Z. change (1 + 1)%Z with 2%Z. change (bpow radix2 1) with 2. change (bpow radix2 2) with 4.
  change (bpow radix2 (-11)) with (/ 2048). rewrite Rabs_pos_eq; lra.
Qed.

(** C106: the rounding error of a sum of linear takums of 16 or 32 bits is
    itself a takum *)
Theorem C106_linear_addition_error_is_takum :
  forall n f a b x y, linear_addition n f -> n = 16%Z \/ n = 32%Z -> is_intn n a -> is_intn n b ->
    value Linear n a = Some x -> value Linear n b = Some y ->
    powerRZ 2 (-200) <= Rabs x < powerRZ 2 253 -> powerRZ 2 (-200) <= Rabs y < powerRZ 2 253 ->
    exists s v e, f a b = Val s /\ value Linear n s = Some v /\ is_intn n e /\ value Linear n e = Some (x + y - v).
Proof. exact sum_error_takum. Qed.
Print Assumptions C106_linear_addition_error_is_takum.

(** C107: Dekker's algorithm finds the error if the sum is at most twice the
    larger number *)
Theorem C107_linear_fast_two_sum :
  forall n f g a b x y, linear_addition n f -> linear_subtraction n g -> n = 16%Z \/ n = 32%Z ->
    is_intn n a -> is_intn n b -> value Linear n a = Some x -> value Linear n b = Some y ->
    powerRZ 2 (-200) <= Rabs y <= Rabs x -> Rabs x < powerRZ 2 253 ->
    exists s v, f a b = Val s /\ value Linear n s = Some v /\
      (Rabs v <= 2 * Rabs x ->
       exists c e, g s a = Val c /\ g b c = Val e /\ value Linear n e = Some (x + y - v)).
Proof. exact fast_two_sum. Qed.
Print Assumptions C107_linear_fast_two_sum.
Example C107_case : linear_addition 16 (takum_linear_addition x86_64 W16) /\ linear_subtraction 16 (takum_linear_subtraction x86_64 W16) /\
  (exists x y, value Linear 16 0x47ff = Some x /\ value Linear 16 0x3803 = Some y /\ powerRZ 2 (-200) <= Rabs y <= Rabs x /\ Rabs x < powerRZ 2 253) /\
  takum_linear_addition x86_64 W16 0x47ff 0x3803 = Val 0x4900%Z /\
  takum_linear_subtraction x86_64 W16 0x4900 0x47ff = Val 0x3802%Z /\
  takum_linear_subtraction x86_64 W16 0x3803 0x3802 = Val 0x2300%Z.
Proof.
  split; [constructor|]. split; [constructor|]. split; [|vm_compute; auto].
  exists (2 - / 2048), (/ 2 + 3 / 4096). split; [|split].
  - rewrite value_const by (split; vm_compute; (discriminate || reflexivity)). change (vm 16 0x47ff) with (4095 * 2 ^ 48)%Z. change (ve 16 0x47ff) with (-59)%Z.
    rewrite mult_IZR, IZR_pow2, Rmult_assoc, <- bpow_plus by lia. change (bpow radix2 (48 + -59)) with (/ 2048). f_equal. lra.
  - rewrite value_const by (split; vm_compute; (discriminate || reflexivity)). change (vm 16 0x3803) with (2051 * 2 ^ 48)%Z. change (ve 16 0x3803) with (-60)%Z.
    rewrite mult_IZR, IZR_pow2, Rmult_assoc, <- bpow_plus by lia. change (bpow radix2 (48 + -60)) with (/ 4096). f_equal. lra.
  - rewrite !powerRZ_bpow, !Rabs_pos_eq by lra. assert (bpow radix2 (-200) <= bpow radix2 (-1)) as H1 by (apply bpow_le; lia). assert (bpow radix2 1 < bpow radix2 253) as H2 by (apply bpow_lt; lia).
    change (bpow radix2 (-1)) with (/ 2) in H1. change (bpow radix2 1) with 2 in H2. lra.
Qed.

(** C108: the claim that it always does, as for binary floats, is false: x + x
    with x = 2 - 2^-11 is rounded to 4, an error of -2^-10, but the algorithm
    finds -2^-11, because 4 - x is not a takum *)
Theorem C108_linear_fast_two_sum_always_refuted :
  ~ (forall a b s c e x y v, is_intn 16 a -> is_intn 16 b -> value Linear 16 a = Some x -> value Linear 16 b = Some y ->
       Rabs y <= Rabs x -> 1 <= Rabs x <= 2 ->
       takum_linear_addition x86_64 W16 a b = Val s -> value Linear 16 s = Some v ->
       takum_linear_subtraction x86_64 W16 s a = Val c -> takum_linear_subtraction x86_64 W16 b c = Val e ->
       value Linear 16 e = Some (x + y - v)).
Proof. exact fast_two_sum_fails. Qed.
Print Assumptions C108_linear_fast_two_sum_always_refuted.
