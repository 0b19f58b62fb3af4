(** Properties C111-C113: functions and operations on linear takums that are
    inverse to each other.  Theorems only; proofs are in InverseFun.v,
    InverseOps.v and InverseRefute.v. *)
From Coq Require Import ZArith Reals Bool Lia Lra.
From Flocq Require Import Core.Core.
From Verif Require Import CModel FloatModel Spec Arith ValueFacts RoundFacts LinApi LinArithRefute Libm LibmSpec LibmIdeal Wrappers WrapApi WrapSpec ErrorSpec Sums InverseSpec InverseFun InverseOps InverseRefute.
Local Open Scope R_scope.

(** C111: for n = 16 and 32 and b = e, 2 and 10, b to the power of the logarithm
    of x, both computed with takums, is x up to a relative error that grows with
    the logarithm *)
Theorem C111_exponential_of_logarithm :
  forall lm w l p b t x, c99 lm -> (w = W16 \/ w = W32) -> logarithm_pair l p b ->
    is_intn (bits w) t -> value Linear (bits w) t = Some x -> powerRZ 2 (-252) <= x <= powerRZ 2 252 ->
    exists r s v, api_unary Linear lm l w t = Val r /\ api_unary Linear lm p w r = Val s /\ value Linear (bits w) s = Some v /\
      Rabs (v - x) <= (exp (ln b * powerRZ 2 (- (bits w - 8)) * Rmax 1 (Rabs (ln x / ln b))) * (1 + powerRZ 2 (- (bits w - 12))) - 1) * x.
Proof. exact exp_of_log. Qed.
Print Assumptions C111_exponential_of_logarithm.
(** and the logarithm of b to the power x is x up to an absolute error *)
Theorem C111_logarithm_of_exponential :
  forall lm w l p b t x, c99 lm -> (w = W16 \/ w = W32) -> logarithm_pair l p b ->
    is_intn (bits w) t -> value Linear (bits w) t = Some x -> Rabs x * ln b <= 252 * ln 2 ->
    exists r s v, api_unary Linear lm p w t = Val r /\ api_unary Linear lm l w r = Val s /\ value Linear (bits w) s = Some v /\
      Rabs (v - x) <= 2 * powerRZ 2 (- (bits w - 12)) / ln b + powerRZ 2 (- (bits w - 8)) * Rmax 1 (Rabs x).
Proof. exact log_of_exp. Qed.
Print Assumptions C111_logarithm_of_exponential.
(** the number 2 as a takum of 16 bits *)
Example C111_case : c99 ideal /\ logarithm_pair n_lg n_10_raised 10 /\ is_intn 16 0x4800 /\ value Linear 16 0x4800 = Some 2 /\
  powerRZ 2 (-252) <= 2 <= powerRZ 2 252 /\ Rabs 2 * ln 10 <= 252 * ln 2.
Proof.
  split; [exact ideal_c99|]. split; [constructor|]. split; [unfold is_intn; simpl; lia|]. split; [exact (proj1 mean_not_exact)|]. split.
  - rewrite !powerRZ_bpow. split; [apply Rle_trans with (bpow radix2 0); [apply bpow_le; lia|simpl; lra]|change 2 with (bpow radix2 1); apply bpow_le; lia].
  - rewrite Rabs_pos_eq by lra. destruct (pair_funs _ _ _ base_10) as (_ & _ & _ & _ & _ & _ & _ & K). pose proof ln_lt_2. lra.
Qed.

(** C112: for n = 16, 32 and 64, with u = 2^-(n-12), or half of it for n = 16:
    dividing a product by one of the factors, multiplying a quotient by the
    divisor, inverting an inverse and squaring a square root give back the
    number up to a relative error of about 2u, 2u, 2u and 3u *)
Theorem C112_quotient_of_product :
  forall n f g a b x y, linear_multiplication n f -> linear_division n g -> n <> 8%Z -> is_intn n a -> is_intn n b ->
    value Linear n a = Some x -> value Linear n b = Some y -> moderate Linear x -> moderate Linear (x * y) ->
    exists p r v, f a b = Val p /\ g p b = Val r /\ value Linear n r = Some v /\
      Rabs (v - x) <= ((1 + roundoff n (if (n =? 16)%Z then 1 else 0)) ^ 2 - 1) * Rabs x.
Proof. exact mul_div. Qed.
Print Assumptions C112_quotient_of_product.
Theorem C112_product_of_quotient :
  forall n f g a b x y, linear_multiplication n f -> linear_division n g -> n <> 8%Z -> is_intn n a -> is_intn n b ->
    value Linear n a = Some x -> value Linear n b = Some y -> moderate Linear x -> y <> 0 -> moderate Linear (x / y) ->
    exists p r v, g a b = Val p /\ f p b = Val r /\ value Linear n r = Some v /\
      Rabs (v - x) <= ((1 + roundoff n (if (n =? 16)%Z then 1 else 0)) ^ 2 - 1) * Rabs x.
Proof. exact div_mul. Qed.
Print Assumptions C112_product_of_quotient.
Theorem C112_inverse_of_inverse :
  forall n f a x, linear_inversion n f -> n <> 8%Z -> is_intn n a -> value Linear n a = Some x -> moderate Linear x ->
    exists p r v, f a = Val p /\ f p = Val r /\ value Linear n r = Some v /\
      Rabs (v - x) <= ((1 + roundoff n (if (n =? 16)%Z then 1 else 0)) / (1 - roundoff n (if (n =? 16)%Z then 1 else 0)) - 1) * Rabs x.
Proof. exact inv_inv. Qed.
Print Assumptions C112_inverse_of_inverse.
Theorem C112_square_of_square_root :
  forall n f g a x, linear_square_root n f -> linear_multiplication n g -> n <> 8%Z -> is_intn n a -> value Linear n a = Some x -> 0 <= x -> moderate Linear x ->
    exists p r v, f a = Val p /\ g p p = Val r /\ value Linear n r = Some v /\
      Rabs (v - x) <= ((1 + roundoff n (if (n =? 16)%Z then 1 else 0)) ^ 3 - 1) * Rabs x.
Proof. exact sqrt_square. Qed.
Print Assumptions C112_square_of_square_root.
Example C112_case : linear_multiplication 64 (takum_linear_multiplication x86_64 W64) /\ linear_division 64 (takum_linear_division x86_64 W64) /\
  linear_inversion 64 (takum_linear_inversion x86_64 W64) /\ linear_square_root 64 (takum_linear_square_root x86_64 W64) /\
  is_intn 64 (2 ^ 62) /\ value Linear 64 (2 ^ 62) = Some 1 /\ moderate Linear 1 /\ moderate Linear (1 * 1) /\ moderate Linear (1 / 1) /\
  roundoff 64 0 = powerRZ 2 (-52).
Proof.
  assert (moderate Linear 1) as M.
  { unfold moderate. rewrite Rabs_R1, !powerRZ_bpow. split; change 1 with (bpow radix2 0); apply bpow_le; lia. }
  do 4 (split; [constructor|]). split; [unfold is_intn; simpl; lia|]. split.
  - rewrite value_const by (split; vm_compute; (discriminate || reflexivity)). change (vm 64 (2 ^ 62)) with (2 ^ 59)%Z. change (ve 64 (2 ^ 62)) with (-59)%Z. rewrite IZR_pow2 by lia. rewrite <- bpow_plus. reflexivity.
  - split; [assumption|]. split; [rewrite Rmult_1_r; assumption|]. split; [unfold Rdiv; rewrite Rinv_1, Rmult_1_r; assumption|reflexivity].
Qed.

(** C113: they do not always give back exactly the number, not even the mean
    (a + a) / 2 of a number with itself, which binary floats compute exactly
    (0x4800 is the takum 2) *)
Theorem C113_inverse_of_inverse_exact_refuted :
  ~ (forall a x, is_intn 16 a -> value Linear 16 a = Some x -> x <> 0 ->
       bind (takum_linear_inversion x86_64 W16 a) (takum_linear_inversion x86_64 W16) = Val a).
Proof. exact inverse_not_exact. Qed.
Print Assumptions C113_inverse_of_inverse_exact_refuted.
Theorem C113_quotient_of_product_exact_refuted :
  ~ (forall a b x y, is_intn 16 a -> is_intn 16 b -> value Linear 16 a = Some x -> value Linear 16 b = Some y -> y <> 0 ->
       bind (takum_linear_multiplication x86_64 W16 a b) (fun p => takum_linear_division x86_64 W16 p b) = Val a).
Proof. exact quotient_not_exact. Qed.
Print Assumptions C113_quotient_of_product_exact_refuted.
Theorem C113_mean_exact_refuted :
  value Linear 16 0x4800 = Some 2 /\
  ~ (forall a x, is_intn 16 a -> value Linear 16 a = Some x -> 1 <= x <= 2 ->
       bind (takum_linear_addition x86_64 W16 a a) (fun p => takum_linear_division x86_64 W16 p 0x4800) = Val a).
Proof. exact mean_not_exact. Qed.
Print Assumptions C113_mean_exact_refuted.
