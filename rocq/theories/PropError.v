(** Properties C101-C104: relative errors of single operations, and errors of
    sums, products, scalar products and polynomials of any length.  Theorems
    only; proofs are in ErrorApi.v, Sums.v and Horner.v. *)
From Coq Require Import ZArith Reals Bool List Lia Lra.
From Flocq Require Import Core.Core IEEE754.BinarySingleNaN.
From Verif Require Import CModel FloatModel WidthConv Spec Arith ValueFacts WidthApi LogApi LinApi Libm LibmSpec LibmIdeal Wrappers WrapApi WrapSpec WrapSpec2 RangeSpec Faithful MiscProps WidthFacts ErrorSpec ErrorProps ErrorApi Sums Horner.
Local Open Scope R_scope.

(** C101: with e the exponent of the exact result z and p = fraction_bits n e,
    the result has a relative error of at most 2^-p, and of at most 2^-(p+1)
    where the operation is correctly rounded *)
Theorem C101_linear_addition :
  forall n f a b x y, linear_addition n f -> n <> 8%Z -> is_intn n a -> is_intn n b ->
    value Linear n a = Some x -> value Linear n b = Some y ->
    exists t, f a b = Val t /\ is_intn n t /\ relative_error Linear n (if (n <? 64)%Z then 1 else 0) (x + y) t.
Proof. exact lin_add_error. Qed.
Print Assumptions C101_linear_addition.
Theorem C101_linear_subtraction :
  forall n f a b x y, linear_subtraction n f -> n <> 8%Z -> is_intn n a -> is_intn n b ->
    value Linear n a = Some x -> value Linear n b = Some y ->
    exists t, f a b = Val t /\ is_intn n t /\ relative_error Linear n (if (n <? 64)%Z then 1 else 0) (x - y) t.
Proof. exact lin_sub_error. Qed.
Print Assumptions C101_linear_subtraction.
Theorem C101_linear_multiplication :
  forall n f a b x y, linear_multiplication n f -> n <> 8%Z -> is_intn n a -> is_intn n b ->
    value Linear n a = Some x -> value Linear n b = Some y ->
    exists t, f a b = Val t /\ is_intn n t /\ relative_error Linear n (if (n =? 16)%Z then 1 else 0) (x * y) t.
Proof. exact lin_mul_error. Qed.
Print Assumptions C101_linear_multiplication.
Theorem C101_linear_division :
  forall n f a b x y, linear_division n f -> n <> 8%Z -> is_intn n a -> is_intn n b ->
    value Linear n a = Some x -> value Linear n b = Some y -> y <> 0 ->
    exists t, f a b = Val t /\ is_intn n t /\ relative_error Linear n (if (n =? 16)%Z then 1 else 0) (x / y) t.
Proof. exact lin_div_error. Qed.
Print Assumptions C101_linear_division.
Theorem C101_linear_square_root :
  forall n f a x, linear_square_root n f -> n <> 8%Z -> is_intn n a ->
    value Linear n a = Some x -> 0 <= x ->
    exists t, f a = Val t /\ is_intn n t /\ relative_error Linear n (if (n =? 16)%Z then 1 else 0) (sqrt x) t.
Proof. exact lin_sqrt_error. Qed.
Print Assumptions C101_linear_square_root.
Theorem C101_linear_inversion :
  forall n f a x, linear_inversion n f -> n <> 8%Z -> is_intn n a ->
    value Linear n a = Some x -> x <> 0 ->
    exists t, f a = Val t /\ is_intn n t /\ relative_error Linear n (if (n =? 16)%Z then 1 else 0) (/ x) t.
Proof. exact lin_inv_error. Qed.
Print Assumptions C101_linear_inversion.
Theorem C101_log_multiplication :
  forall n f a b x y, log_multiplication n f -> n <> 8%Z -> is_intn n a -> is_intn n b ->
    value Logarithmic n a = Some x -> value Logarithmic n b = Some y ->
    exists t, f a b = Val t /\ is_intn n t /\ relative_error Logarithmic n (if (n <? 64)%Z then 1 else 0) (x * y) t.
Proof. exact log_mul_error. Qed.
Print Assumptions C101_log_multiplication.
Theorem C101_log_division :
  forall n f a b x y, log_division n f -> n <> 8%Z -> is_intn n a -> is_intn n b ->
    value Logarithmic n a = Some x -> value Logarithmic n b = Some y -> y <> 0 ->
    exists t, f a b = Val t /\ is_intn n t /\ relative_error Logarithmic n (if (n <? 64)%Z then 1 else 0) (x / y) t.
Proof. exact log_div_error. Qed.
Print Assumptions C101_log_division.
Theorem C101_log_square_root :
  forall n f a x, log_square_root n f -> n <> 8%Z -> is_intn n a -> value Logarithmic n a = Some x -> 0 <= x ->
    exists t, f a = Val t /\ is_intn n t /\ relative_error Logarithmic n 1 (sqrt x) t.
Proof. exact log_sqrt_error. Qed.
Print Assumptions C101_log_square_root.
Theorem C101_log_integer_power :
  forall n f a j x, log_integer_power n f -> n <> 8%Z -> is_intn n a -> is_int64 j ->
    value Logarithmic n a = Some x -> x <> 0 \/ (0 < j)%Z ->
    exists t, f a j = Val t /\ is_intn n t /\ relative_error Logarithmic n 1 (powerRZ x j) t.
Proof. exact log_power_error. Qed.
Print Assumptions C101_log_integer_power.
(** conversions *)
Theorem C101_narrowing :
  forall k B A f t x, narrowing k B A f -> A <> 8%Z -> is_intn B t -> value k B t = Some x ->
    exists u, f t = Val u /\ is_intn A u /\ relative_error k A 1 x u.
Proof. exact narrowing_error. Qed.
Print Assumptions C101_narrowing.
Theorem C101_linear_from_float :
  forall n F g (y : flt F), linear_from_float n F g -> n <> 8%Z -> is_finite y = true ->
    exists t, g y = Val t /\ is_intn n t /\
      relative_error Linear n (match F with f32 | f64 => if (16 <? n)%Z then 1 else 0 | _ => 0 end) (B2R y) t.
Proof. exact lin_from_error. Qed.
Print Assumptions C101_linear_from_float.
Theorem C101_log_from_float :
  forall lm n F g (y : flt F), c99 lm -> log_from_float lm n F g -> n <> 8%Z -> is_finite y = true ->
    exists t, g y = Val t /\ relative_error Logarithmic n 0 (B2R y) t.
Proof. exact log_from_error. Qed.
Print Assumptions C101_log_from_float.
Theorem C101_linear_to_log :
  forall lm n m f t x, c99 lm -> linear_to_log lm n m f -> m <> 8%Z -> is_intn n t -> value Linear n t = Some x ->
    exists u, f t = Val u /\ relative_error Logarithmic m 0 x u.
Proof. exact to_log_error. Qed.
Print Assumptions C101_linear_to_log.
(** mathematical functions of 16- and 32-bit linear takums *)
Theorem C101_linear_unary :
  forall lm u w t x, c99 lm -> (w = W16 \/ w = W32) -> argument_error u = 0 ->
    is_intn (bits w) t -> value Linear (bits w) t = Some x -> regular Linear (bits w) u x ->
    exists r, api_unary Linear lm u w t = Val r /\ relative_error Linear (bits w) 0 (real_fun u x) r.
Proof. exact fun_error. Qed.
Print Assumptions C101_linear_unary.
Theorem C101_linear_binary :
  forall lm b w s t x y r, c99 lm -> (w = W16 \/ w = W32) -> b <> n_multiplication -> b <> n_division ->
    is_intn (bits w) s -> is_intn (bits w) t ->
    value Linear (bits w) s = Some x -> value Linear (bits w) t = Some y -> is_value2 b x y r ->
    exists z, api_binary Linear lm b w s t = Val z /\ relative_error Linear (bits w) 0 r z.
Proof. exact fun2_error. Qed.
Print Assumptions C101_linear_binary.
(** 1 + 1, whose exponent is 1, in 16 bits; there are 10 fraction bits *)
Example C101_case : linear_addition 16 (takum_linear_addition x86_64 W16) /\ is_intn 16 (2 ^ 14) /\ value Linear 16 (2 ^ 14) = Some 1 /\
  has_exponent Linear (1 + 1) 1 /\ has_exponent Logarithmic (1 + 1) 1 /\ fraction_bits 16 1 = 10%Z /\
  (forall n e, (-255 <= e < 255)%Z -> (n - 12 <= fraction_bits n e <= n - 5)%Z).
Proof.
  split; [constructor|]. destruct (value_one_k Linear 16 ltac:(unfold std_width; tauto)) as [V I]. split; [exact I|]. split; [exact V|].
  split; [|split; [|split; [reflexivity|exact fraction_bits_ge]]].
  - unfold has_exponent. rewrite Rabs_pos_eq by lra. simpl. lra.
  - unfold has_exponent. rewrite Rabs_pos_eq by lra. split.
    + pose proof (exp_half (1 / 2) ltac:(lra)). lra.
    + replace ((1 + 1) / 2) with 1 by lra. pose proof (exp_ineq1 1 ltac:(lra)). lra.
Qed.

(** C102: adding up any list of linear takums, from left to right *)
Theorem C102_linear_sum :
  forall n f, linear_addition n f -> n <> 8%Z -> forall ts a x0 xs,
    is_intn n a -> value Linear n a = Some x0 -> have_values Linear n ts xs ->
    let u := roundoff n (if (n <? 64)%Z then 1 else 0) in let m := length ts in
    (1 + u) ^ m * (Rabs x0 + sum_of_magnitudes xs + INR m * powerRZ 2 (-254)) < powerRZ 2 254 ->
    exists t y, accumulate f a ts = Val t /\ is_intn n t /\ value Linear n t = Some y /\
      Rabs (y - (x0 + sum xs)) <=
        ((1 + u) ^ m - 1) * (Rabs x0 + sum_of_magnitudes xs) + INR m * (1 + u) ^ m * powerRZ 2 (-254).
Proof. exact sum_error. Qed.
Print Assumptions C102_linear_sum.
(** sums of numbers of one sign have a small relative error *)
Theorem C102_linear_sum_positive :
  forall n f, linear_addition n f -> n <> 8%Z -> forall ts a x0 xs,
    is_intn n a -> value Linear n a = Some x0 -> have_values Linear n ts xs ->
    Forall (fun x => x = 0 \/ powerRZ 2 (-254) <= x) (x0 :: xs) ->
    let u := roundoff n (if (n <? 64)%Z then 1 else 0) in let m := length ts in
    (1 + u) ^ m * (x0 + sum xs) < powerRZ 2 254 ->
    exists t y, accumulate f a ts = Val t /\ is_intn n t /\ value Linear n t = Some y /\
      (1 - u) ^ m * (x0 + sum xs) <= y <= (1 + u) ^ m * (x0 + sum xs).
Proof. exact sum_positive. Qed.
Print Assumptions C102_linear_sum_positive.

(** C103: multiplying together any list of takums, from left to right *)
Theorem C103_linear_product :
  forall n f ts a x0 xs, linear_multiplication n f -> n <> 8%Z ->
    is_intn n a -> value Linear n a = Some x0 -> have_values Linear n ts xs ->
    let u := roundoff n (if (n =? 16)%Z then 1 else 0) in let m := length ts in
    moderate_products Linear x0 xs -> INR m * u < / 2 ->
    exists t y d, accumulate f a ts = Val t /\ is_intn n t /\ value Linear n t = Some y /\
      y = x0 * product xs * d /\ (1 - u) ^ m <= d <= (1 + u) ^ m.
Proof. exact lin_product. Qed.
Print Assumptions C103_linear_product.
Theorem C103_log_product :
  forall n f ts a x0 xs, log_multiplication n f -> n <> 8%Z ->
    is_intn n a -> value Logarithmic n a = Some x0 -> have_values Logarithmic n ts xs ->
    let u := roundoff n (if (n <? 64)%Z then 1 else 0) in let m := length ts in
    moderate_products Logarithmic x0 xs -> INR m * u < / 2 ->
    exists t y d, accumulate f a ts = Val t /\ is_intn n t /\ value Logarithmic n t = Some y /\
      y = x0 * product xs * d /\ (1 - u) ^ m <= d <= (1 + u) ^ m.
Proof. exact log_product. Qed.
Print Assumptions C103_log_product.

(** C104: scalar products and polynomials (Horner's rule) of any length *)
Theorem C104_linear_scalar_product :
  forall n f g, linear_addition n f -> linear_multiplication n g -> n <> 8%Z -> forall ps a x0 vs,
    is_intn n a -> value Linear n a = Some x0 -> have_values2 Linear n ps vs ->
    let u := roundoff n 0 in let m := length ps in let B := Rabs x0 + sum_of_magnitudes (products vs) in
    (1 + u) ^ S m * (B + 2 * INR m * powerRZ 2 (-254)) < powerRZ 2 254 ->
    exists t y, scalar_product f g a ps = Val t /\ is_intn n t /\ value Linear n t = Some y /\
      Rabs (y - (x0 + sum (products vs))) <= ((1 + u) ^ S m - 1) * B + 2 * INR m * (1 + u) ^ m * powerRZ 2 (-254).
Proof. exact scalar_product_error. Qed.
Print Assumptions C104_linear_scalar_product.
Theorem C104_linear_polynomial :
  forall n f g, linear_addition n f -> linear_multiplication n g -> n <> 8%Z ->
    forall cs ys a x0 t x, is_intn n a -> value Linear n a = Some x0 -> is_intn n t -> value Linear n t = Some x ->
    have_values Linear n cs ys ->
    let u := roundoff n 0 in let m := length cs in let e := fun c => Rabs c + 2 * powerRZ 2 (-254) in
    (1 + u) ^ (2 * m) * polynomial (Rmax 1 (Rabs x)) (Rabs x0) (map e ys) < powerRZ 2 254 ->
    exists r y, horner f g t a cs = Val r /\ is_intn n r /\ value Linear n r = Some y /\
      Rabs (y - polynomial x x0 ys) <=
        (1 + u) ^ (2 * m) * polynomial (Rabs x) (Rabs x0) (map e ys) - polynomial (Rabs x) (Rabs x0) (map Rabs ys).
Proof. exact horner_error. Qed.
Print Assumptions C104_linear_polynomial.

(** the hypotheses hold for 1 + 1 + 1, 1 * 1 * 1, 1 + 1 * 1 + 1 * 1 and
    x^2 + x + 1 at 1 in 16 bits, and results are rounded in longer examples *)
Example C102_case :
  let one := (2 ^ 14)%Z in let u := roundoff 16 1 in let u0 := roundoff 16 0 in
  linear_addition 16 (takum_linear_addition x86_64 W16) /\ linear_multiplication 16 (takum_linear_multiplication x86_64 W16) /\
  log_multiplication 16 Arith.takum16_multiplication /\
  is_intn 16 one /\ value Linear 16 one = Some 1 /\
  have_values Linear 16 (one :: one :: nil) (1 :: 1 :: nil) /\ have_values Logarithmic 16 (one :: one :: nil) (1 :: 1 :: nil) /\
  have_values2 Linear 16 ((one, one) :: (one, one) :: nil) ((1, 1) :: (1, 1) :: nil) /\
  (1 + u) ^ 2 * (Rabs 1 + sum_of_magnitudes (1 :: 1 :: nil) + INR 2 * powerRZ 2 (-254)) < powerRZ 2 254 /\
  Forall (fun x => x = 0 \/ powerRZ 2 (-254) <= x) (1 :: 1 :: 1 :: nil) /\
  moderate_products Linear 1 (1 :: 1 :: nil) /\ moderate_products Logarithmic 1 (1 :: 1 :: nil) /\ INR 2 * u0 < / 2 /\
  (1 + u0) ^ 3 * (Rabs 1 + sum_of_magnitudes (products ((1, 1) :: (1, 1) :: nil)) + 2 * INR 2 * powerRZ 2 (-254)) < powerRZ 2 254 /\
  (1 + u0) ^ (2 * 2) * polynomial (Rmax 1 (Rabs 1)) (Rabs 1) (map (fun c => Rabs c + 2 * powerRZ 2 (-254)) (1 :: 1 :: nil)) < powerRZ 2 254 /\
  accumulate (takum_linear_addition x86_64 W16) one (0x4001 :: 0x3001 :: 0x4001 :: nil)%Z = Val 19008%Z /\
  accumulate (takum_linear_multiplication x86_64 W16) 0x4001 (0x4001 :: 0x3001 :: 0x4001 :: nil)%Z = Val 12291%Z.
Proof.
  intros one u u0. destruct (value_one_k Linear 16 ltac:(unfold std_width; tauto)) as [V I]. destruct (value_one_k Logarithmic 16 ltac:(unfold std_width; tauto)) as [V' _].
  assert (0 < u0 <= / 16) as U0 by (split; [apply roundoff_pos|apply roundoff_small; lia]). assert (0 < u <= / 16) as U by (split; [apply roundoff_pos|apply roundoff_small; lia]).
  assert (0 < powerRZ 2 (-254) <= / 16) as Pe. { rewrite powerRZ_bpow. split; [apply bpow_gt_0|]. replace (/ 16) with (bpow radix2 (-4)) by (simpl; lra). apply bpow_le. lia. }
  assert (1024 <= powerRZ 2 254) as PD. { rewrite powerRZ_bpow. replace 1024 with (bpow radix2 10) by (simpl; lra). apply bpow_le. lia. }
  assert (powerRZ 2 (-253) <= 1 <= powerRZ 2 253) as PM. { rewrite !powerRZ_bpow. change 1 with (bpow radix2 0). split; apply bpow_le; lia. }
  assert (exp (-126) <= 1 <= exp 126) as PX. { pose proof (exp_increasing (-126) 0 ltac:(lra)). pose proof (exp_increasing 0 126 ltac:(lra)). rewrite exp_0 in *. lra. }
  assert (forall v m, 0 < v <= / 16 -> (m <= 4)%nat -> (1 + v) ^ m <= 2) as PP.
  { intros v m Hv Hm. apply Rle_trans with ((1 + / 16) ^ m); [apply pow_incr; lra|]. apply Rle_trans with ((1 + / 16) ^ 4); [apply Rle_pow; [lra|assumption]|]. simpl. lra. }
  split; [constructor|]. split; [constructor|]. split; [constructor|]. split; [exact I|]. split; [exact V|].
  split; [unfold have_values; apply Forall2_cons; [exact (conj I V)|]; apply Forall2_cons; [exact (conj I V)|apply Forall2_nil]|].
  split; [unfold have_values; apply Forall2_cons; [exact (conj I V')|]; apply Forall2_cons; [exact (conj I V')|apply Forall2_nil]|].
  split; [unfold have_values2; apply Forall2_cons; [exact (conj I (conj V (conj I V)))|]; apply Forall2_cons; [exact (conj I (conj V (conj I V)))|apply Forall2_nil]|].
  split; [|split; [|split; [|split; [|split; [|split; [|split]]]]]].
  - pose proof (PP u 2%nat U ltac:(lia)) as P. assert (0 < (1 + u) ^ 2) by (apply pow_lt; lra). unfold sum_of_magnitudes. cbn [fold_right]. rewrite Rabs_R1. simpl INR. nra.
  - apply Forall_cons; [right; lra|]. apply Forall_cons; [right; lra|]. apply Forall_cons; [right; lra|apply Forall_nil].
  - cbn [moderate_products]. unfold moderate. rewrite !Rmult_1_l, Rabs_R1. tauto.
  - cbn [moderate_products]. unfold moderate. rewrite !Rmult_1_l, Rabs_R1. tauto.
  - simpl INR. lra.
  - pose proof (PP u0 3%nat U0 ltac:(lia)) as P. assert (0 < (1 + u0) ^ 3) by (apply pow_lt; lra). unfold sum_of_magnitudes, products. cbn [fold_right map fst snd]. rewrite !Rmult_1_l, Rabs_R1. simpl INR. nra.
  - pose proof (PP u0 (2 * 2)%nat U0 ltac:(lia)) as P. assert (0 < (1 + u0) ^ (2 * 2)) by (apply pow_lt; lra). cbn [map polynomial]. rewrite Rabs_R1, Rmax_left by lra. nra.
  - split; vm_compute; reflexivity.
Qed.
