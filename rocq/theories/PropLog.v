(** Properties C15 - C25, C38, C39 and C41: arithmetic of logarithmic takums,
    absolute value, sign and precision.  Theorems only; proofs are in
    LogProps.v and MiscProps.v. *)
From Coq Require Import ZArith Reals Bool.
From Flocq Require Import Core.Core.
From Verif Require Import CModel FloatModel Spec WidthFacts Arith LogApi LogProps MiscProps.
Local Open Scope Z_scope.

(** C15: multiplication is correctly rounded (8, 16 and 32 bits) *)
Theorem C15_multiplication_correctly_rounded :
  forall n f a b, log_multiplication n f -> n <> 64 -> is_intn n a -> is_intn n b ->
    exists t, f a b = Val t /\ is_intn n t /\
      match value Logarithmic n a, value Logarithmic n b with
      | Some x, Some y => rounds Logarithmic n (x * y) t
      | _, _ => t = nar n
      end.
Proof. exact mul_correct. Qed.
Print Assumptions C15_multiplication_correctly_rounded.
(** an inexact product, saturation, 0 and NaR *)
Example C15_case : log_multiplication 16 takum16_multiplication /\
  takum16_multiplication 0x4123 (-0x6543) = Val (-0x6555) /\
  takum16_multiplication 0x7fff 0x7ffe = Val 0x7fff /\
  takum16_multiplication 0 0x7ffe = Val 0 /\
  takum16_multiplication 0 (nar 16) = Val (nar 16).
Proof. split; [constructor|vm_compute; auto 10]. Qed.

(** C16: division is correctly rounded (8, 16 and 32 bits) *)
Theorem C16_division_correctly_rounded :
  forall n f a b, log_division n f -> n <> 64 -> is_intn n a -> is_intn n b ->
    exists t, f a b = Val t /\ is_intn n t /\
      match value Logarithmic n a, value Logarithmic n b with
      | Some x, Some y =>
          (y = 0%R /\ t = nar n) \/ (y <> 0%R /\ rounds Logarithmic n (x / y) t)
      | _, _ => t = nar n
      end.
Proof. exact div_correct. Qed.
Print Assumptions C16_division_correctly_rounded.
Example C16_case : log_division 32 (takum32_division x86_64) /\
  takum32_division x86_64 0x12345678 0x6789abcd = Val 0xd57c049 /\
  takum32_division x86_64 (-1) 0x7fffffff = Val (-1) /\
  takum32_division x86_64 5 0 = Val (nar 32) /\
  takum32_division x86_64 0 0 = Val (nar 32).
Proof. split; [constructor|vm_compute; auto 10]. Qed.

(** C17: at every width, so in particular at 64 bits, multiplication and
    division return one of the two takums bracketing the exact result (the
    exact result if it is a takum) *)
Theorem C17_multiplication_faithful :
  forall n f a b, log_multiplication n f -> is_intn n a -> is_intn n b ->
    exists t, f a b = Val t /\ is_intn n t /\
      match value Logarithmic n a, value Logarithmic n b with
      | Some x, Some y => rounds_faithfully Logarithmic n (x * y) t
      | _, _ => t = nar n
      end.
Proof. exact mul_faithful. Qed.
Print Assumptions C17_multiplication_faithful.

Theorem C17_division_faithful :
  forall n f a b, log_division n f -> is_intn n a -> is_intn n b ->
    exists t, f a b = Val t /\ is_intn n t /\
      match value Logarithmic n a, value Logarithmic n b with
      | Some x, Some y =>
          (y = 0%R /\ t = nar n) \/ (y <> 0%R /\ rounds_faithfully Logarithmic n (x / y) t)
      | _, _ => t = nar n
      end.
Proof. exact div_faithful. Qed.
Print Assumptions C17_division_faithful.

(** ... and the result is the correct rounding of a number whose logarithmic
    value differs from the exact one by a relative error of at most 2^-64 *)
Theorem C17_multiplication_64_error :
  forall a b x y, is_real_takum 64 a -> is_real_takum 64 b ->
    value Logarithmic 64 a = Some x -> value Logarithmic 64 b = Some y ->
    exists t L, takum64_multiplication x86_64 a b = Val t /\
      (Rabs (L - log_coord (x * y)) <= bpow radix2 (-64) * Rabs (log_coord (x * y)))%R /\
      nearest 64 (Rlt_bool (x * y) 0) L t.
Proof. exact mul64_error. Qed.
Print Assumptions C17_multiplication_64_error.

Theorem C17_division_64_error :
  forall a b x y, is_real_takum 64 a -> is_real_takum 64 b ->
    value Logarithmic 64 a = Some x -> value Logarithmic 64 b = Some y ->
    exists t L, takum64_division x86_64 a b = Val t /\
      (Rabs (L - log_coord (x / y)) <= bpow radix2 (-64) * Rabs (log_coord (x / y)))%R /\
      nearest 64 (Rlt_bool (x / y) 0) L t.
Proof. exact div64_error. Qed.
Print Assumptions C17_division_64_error.
Example C17_case : log_multiplication 64 (takum64_multiplication x86_64) /\
  log_division 64 (takum64_division x86_64) /\
  is_real_takum 64 0x4123456789abcdef /\ is_real_takum 64 (-0x123456789abcdef) /\
  takum64_multiplication x86_64 0x4123456789abcdef (-0x123456789abcdef) = Val (-0x1258bf258bf258b) /\
  takum64_division x86_64 0x4123456789abcdef (-0x123456789abcdef) = Val (-0x7edf0123456789ad).
Proof.
  split; [constructor|]. split; [constructor|].
  split; [repeat split; try reflexivity; intro; discriminate|].
  split; [repeat split; try reflexivity; intro; discriminate|].
  vm_compute; auto.
Qed.

(** C41: at 64 bits multiplication and division are not correctly rounded *)
Theorem C41_multiplication_64_correctly_rounded_refuted :
  exists a b t x y, is_real_takum 64 a /\ is_real_takum 64 b /\
    value Logarithmic 64 a = Some x /\ value Logarithmic 64 b = Some y /\
    takum64_multiplication x86_64 a b = Val t /\ ~ rounds Logarithmic 64 (x * y) t.
Proof. exact mul64_refuted. Qed.
Print Assumptions C41_multiplication_64_correctly_rounded_refuted.

Theorem C41_division_64_correctly_rounded_refuted :
  exists a b t x y, is_real_takum 64 a /\ is_real_takum 64 b /\
    value Logarithmic 64 a = Some x /\ value Logarithmic 64 b = Some y /\
    takum64_division x86_64 a b = Val t /\ ~ rounds Logarithmic 64 (x / y) t.
Proof. exact div64_refuted. Qed.
Print Assumptions C41_division_64_correctly_rounded_refuted.

(** C18: multiplicative algebra, all widths.  2^(n-2) is the bit pattern
    01000... of TAKUMn_ONE. *)
Theorem C18_multiplication_commutes :
  forall n f a b, log_multiplication n f -> is_intn n a -> is_intn n b -> f a b = f b a.
Proof. exact mul_comm. Qed.
Print Assumptions C18_multiplication_commutes.
Theorem C18_one_denotes_one :
  forall k n, std_width n -> value k n (2 ^ (n - 2)) = Some 1%R /\ is_intn n (2 ^ (n - 2)).
Proof. exact value_one_k. Qed.
Print Assumptions C18_one_denotes_one.
Theorem C18_multiplication_by_one :
  forall n f a, log_multiplication n f -> is_intn n a -> f a (2 ^ (n - 2)) = Val a.
Proof. exact mul_one. Qed.
Print Assumptions C18_multiplication_by_one.
Theorem C18_division_by_one :
  forall n f a, log_division n f -> is_intn n a -> f a (2 ^ (n - 2)) = Val a.
Proof. exact div_one. Qed.
Print Assumptions C18_division_by_one.
Theorem C18_division_by_itself :
  forall n f a, log_division n f -> is_real_takum n a -> f a a = Val (2 ^ (n - 2)).
Proof. exact div_self. Qed.
Print Assumptions C18_division_by_itself.
Theorem C18_multiplication_by_inverse :
  forall n f g a, log_multiplication n f -> log_inversion n g -> is_real_takum n a ->
    exists b, g a = Val b /\ f a b = Val (2 ^ (n - 2)).
Proof. exact mul_inverse. Qed.
Print Assumptions C18_multiplication_by_inverse.
Theorem C18_division_is_multiplication_by_inverse :
  forall n f g h a b, log_multiplication n f -> log_division n g -> log_inversion n h ->
    is_intn n a -> is_real_takum n b -> exists c, h b = Val c /\ g a b = f a c.
Proof. exact div_is_mul_inverse. Qed.
Print Assumptions C18_division_is_multiplication_by_inverse.
Theorem C18_multiplication_sign :
  forall n f a b t, log_multiplication n f -> is_intn n a -> is_intn n b -> a <> nar n -> b <> nar n ->
    f a b = Val t -> f (- a) b = Val (- t).
Proof. exact mul_neg. Qed.
Print Assumptions C18_multiplication_sign.
Theorem C18_division_sign :
  forall n f a b t, log_division n f -> is_intn n a -> is_intn n b -> a <> nar n -> b <> nar n -> b <> 0 ->
    f a b = Val t -> f (- a) b = Val (- t) /\ f a (- b) = Val (- t).
Proof. exact div_neg. Qed.
Print Assumptions C18_division_sign.
Example C18_case : log_multiplication 8 (takum8_multiplication x86_64) /\
  log_division 8 (takum8_division x86_64) /\ log_inversion 8 takum8_inversion /\
  is_real_takum 8 (-0x55) /\ takum8_multiplication x86_64 (-0x55) 0x43 = Val (-0x56) /\
  takum8_inversion (-0x55) = Val (-0x2b).
Proof.
  split; [constructor|]. split; [constructor|]. split; [constructor|].
  split; [repeat split; try reflexivity; intro; discriminate|]. vm_compute; auto.
Qed.

(** C19: inversion is lossless, an involution, and reverses the order *)
Theorem C19_inversion_lossless :
  forall n f t, log_inversion n f -> is_intn n t ->
    exists u, f t = Val u /\ is_intn n u /\
      match value Logarithmic n t with
      | None => u = nar n
      | Some x => (x = 0%R /\ u = nar n) \/
                  (x <> 0%R /\ value Logarithmic n u = Some (/ x)%R)
      end.
Proof. exact inversion_lossless. Qed.
Print Assumptions C19_inversion_lossless.
Theorem C19_inversion_involutive :
  forall n f t, log_inversion n f -> is_real_takum n t -> exists u, f t = Val u /\ f u = Val t.
Proof. exact inversion_involutive. Qed.
Print Assumptions C19_inversion_involutive.
Theorem C19_inversion_reverses_order :
  forall n f a b u v, log_inversion n f -> is_real_takum n a -> is_real_takum n b ->
    (0 < a <-> 0 < b) -> f a = Val u -> f b = Val v -> (a < b <-> v < u).
Proof. exact inversion_order. Qed.
Print Assumptions C19_inversion_reverses_order.
Example C19_case : log_inversion 64 takum64_inversion /\
  takum64_inversion 0x4123456789abcdef = Val 0x3edcba9876543211 /\
  takum64_inversion (-0x4123456789abcdef) = Val (-0x3edcba9876543211) /\
  takum64_inversion 0 = Val (nar 64).
Proof. split; [constructor|vm_compute; auto]. Qed.

(** C20: the square root is correctly rounded at every width *)
Theorem C20_square_root_correctly_rounded :
  forall n f t, log_square_root n f -> is_intn n t ->
    exists u, f t = Val u /\ is_intn n u /\
      match value Logarithmic n t with
      | None => u = nar n
      | Some x => ((x < 0)%R /\ u = nar n) \/
                  ((0 <= x)%R /\ rounds Logarithmic n (sqrt x) u)
      end.
Proof. exact sqrt_correct. Qed.
Print Assumptions C20_square_root_correctly_rounded.
Example C20_case : log_square_root 64 (takum64_square_root x86_64) /\
  takum64_square_root x86_64 0x4000000000000003 = Val 0x4000000000000002 /\
  takum64_square_root x86_64 0x4000000000000005 = Val 0x4000000000000002 /\
  takum64_square_root x86_64 0 = Val 0 /\
  takum64_square_root x86_64 (-5) = Val (nar 64).
Proof. split; [constructor|vm_compute; auto 10]. Qed.

(** C21: the integer power is correctly rounded (8, 16 and 32 bits) *)
Theorem C21_integer_power_correctly_rounded :
  forall n f t e, log_integer_power n f -> is_intn n t -> is_int64 e ->
    exists u, f t e = Val u /\ is_intn n u /\
      match value Logarithmic n t with
      | None => u = nar n
      | Some x => (x = 0%R /\ e <= 0 /\ u = nar n) \/
                  ((x <> 0%R \/ 0 < e) /\ rounds Logarithmic n (powerRZ x e) u)
      end.
Proof. exact pow_correct. Qed.
Print Assumptions C21_integer_power_correctly_rounded.
Example C21_case : log_integer_power 32 (takum32_integer_power x86_64) /\
  is_int64 (2 ^ 63 - 1) /\
  takum32_integer_power x86_64 (-0x40000001) (2 ^ 63 - 1) = Val (-0x7fffffff) /\
  takum32_integer_power x86_64 (-0x43210000) 3 = Val (-0x48b18000) /\
  takum32_integer_power x86_64 (-0x43210000) (-2) = Val 0x39be0000.
Proof. split; [constructor|]. split; [split; [intro; discriminate|reflexivity]|vm_compute; auto]. Qed.

(** C22: the root is correctly rounded (8, 16 and 32 bits) ... *)
Theorem C22_root_correctly_rounded :
  forall n f t e, log_root n f -> n <> 64 -> is_intn n t -> is_int64 e ->
    exists u, f t e = Val u /\ is_intn n u /\
      match value Logarithmic n t with
      | None => u = nar n
      | Some x => (exists y, is_root e x y /\ rounds Logarithmic n y u) \/
                  ((forall y, ~ is_root e x y) /\ u = nar n)
      end.
Proof. exact root_correct. Qed.
Print Assumptions C22_root_correctly_rounded.
(** ... and at 64 bits one of the two takums bracketing the exact root *)
Theorem C22_root_64_faithful :
  forall f t e, log_root 64 f -> is_intn 64 t -> is_int64 e ->
    exists u, f t e = Val u /\ is_intn 64 u /\
      match value Logarithmic 64 t with
      | None => u = nar 64
      | Some x => (exists y, is_root e x y /\ rounds_faithfully Logarithmic 64 y u) \/
                  ((forall y, ~ is_root e x y) /\ u = nar 64)
      end.
Proof. exact root_faithful. Qed.
Print Assumptions C22_root_64_faithful.
Theorem C22_root_is_unique :
  forall e x y z, is_root e x y -> is_root e x z -> y = z.
Proof. exact is_root_unique. Qed.
Print Assumptions C22_root_is_unique.
Example C22_case : log_root 16 takum16_root /\ is_int64 (-3) /\
  takum16_root (-0x6543) 3 = Val (-0x5982) /\ takum16_root (-0x6543) (-3) = Val (-0x267e) /\
  takum16_root (-0x6543) 2 = Val (nar 16) /\ takum16_root 0x6543 0 = Val (nar 16).
Proof. split; [constructor|]. split; [split; [intro; discriminate|reflexivity]|vm_compute; auto]. Qed.

(** C23: absolute value of numbers, and of NaR at 8 and 16 bits *)
Theorem C23_absolute_of_number :
  forall k n f t x, absolute_value k n f -> is_intn n t -> value k n t = Some x ->
    exists u, f t = Val u /\ is_intn n u /\ value k n u = Some (Rabs x).
Proof. exact absolute_correct. Qed.
Print Assumptions C23_absolute_of_number.
Example C23_case : absolute_value Linear 64 takum_linear64_absolute /\
  value Linear 64 (-0x123456789abcdef) = Some (lin_real 64 (-0x123456789abcdef)) /\
  takum_linear64_absolute (-0x123456789abcdef) = Val 0x123456789abcdef.
Proof. split; [constructor|]. split; reflexivity. Qed.
Theorem C23_absolute_of_nar_8_16 :
  forall k n f, absolute_value k n f -> n < 32 -> f (nar n) = Val (nar n).
Proof. exact absolute_nar. Qed.
Print Assumptions C23_absolute_of_nar_8_16.

(** C42: at 32 and 64 bits the absolute value of NaR is undefined behaviour
    (negation of the least integer) *)
Theorem C42_absolute_of_nar_32_64_refuted :
  forall k n f, absolute_value k n f -> 32 <= n -> f (nar n) = UB.
Proof. exact absolute_nar_ub. Qed.
Print Assumptions C42_absolute_of_nar_32_64_refuted.

(** C24: sign *)
Theorem C24_sign :
  forall k n f t, sign_function k n f -> is_intn n t ->
    exists u, f t = Val u /\ is_intn n u /\
      match value k n t with
      | None => u = nar n
      | Some x => ((x < 0)%R /\ value k n u = Some (-1)%R) \/
                  (x = 0%R /\ value k n u = Some 0%R) \/
                  ((0 < x)%R /\ value k n u = Some 1%R)
      end.
Proof. exact sign_correct. Qed.
Print Assumptions C24_sign.
Example C24_case : sign_function Linear 32 takum_linear32_sign /\
  takum_linear32_sign (-3) = Val (-0x40000000) /\ takum_linear32_sign (nar 32) = Val (nar 32).
Proof. split; [constructor|]. split; reflexivity. Qed.

(** C25: precision is the number of mantissa bits: of the n bits, 5 are sign,
    direction and regime, r are characteristic (8-bit takums may have fewer
    than 5 + r bits and then none is left) *)
Theorem C25_precision_counts_mantissa_bits :
  forall k n f t, precision_function k n f -> is_real_takum n t ->
    f t = Val (Z.max 0 (n - 5 - r_ n t)).
Proof. exact precision_correct. Qed.
Print Assumptions C25_precision_counts_mantissa_bits.
Theorem C25_precision_is_spacing :
  forall k n f t p, precision_function k n f -> 16 <= n ->
    is_real_takum n t -> is_real_takum n (t + 1) ->
    f t = Val p -> Rabs (l_ n (t + 1) - l_ n t) = bpow radix2 (- p).
Proof. exact precision_spacing. Qed.
Print Assumptions C25_precision_is_spacing.
Theorem C25_precision_of_special_values :
  forall k n f, precision_function k n f ->
    f 0 = Val (Z.max 0 (n - 12)) /\ f (nar n) = Val (Z.max 0 (n - 12)).
Proof. exact precision_special. Qed.
Print Assumptions C25_precision_of_special_values.
Theorem C25_special_precision_is_worst :
  forall k n f t p, precision_function k n f -> is_intn n t -> f t = Val p -> Z.max 0 (n - 12) <= p.
Proof. exact precision_worst. Qed.
Print Assumptions C25_special_precision_is_worst.
Example C25_case : precision_function Logarithmic 16 takum16_precision /\
  is_real_takum 16 0x5ffe /\ is_real_takum 16 0x5fff /\ takum16_precision 0x5ffe = Val 8 /\
  takum16_precision (-1) = Val 4 /\ takum8_precision 0x5f = Val 0.
Proof.
  split; [constructor|]. split; [repeat split; try reflexivity; intro; discriminate|].
  split; [repeat split; try reflexivity; intro; discriminate|]. vm_compute; auto.
Qed.

(** C38: monotonicity, all widths (integer order is numeric order, C03) *)
Theorem C38_multiplication_by_positive_monotone :
  forall n f a b c u v, log_multiplication n f -> is_intn n a -> is_intn n b -> a <> nar n -> b <> nar n ->
    is_real_takum n c -> 0 < c -> a <= b -> f a c = Val u -> f b c = Val v -> u <= v.
Proof. exact mul_mono. Qed.
Print Assumptions C38_multiplication_by_positive_monotone.
Theorem C38_division_by_positive_monotone :
  forall n f a b c u v, log_division n f -> is_intn n a -> is_intn n b -> a <> nar n -> b <> nar n ->
    is_real_takum n c -> 0 < c -> a <= b -> f a c = Val u -> f b c = Val v -> u <= v.
Proof. exact div_mono. Qed.
Print Assumptions C38_division_by_positive_monotone.
Theorem C38_square_root_monotone :
  forall n f a b u v, log_square_root n f -> is_intn n b -> 0 <= a <= b ->
    f a = Val u -> f b = Val v -> u <= v.
Proof. exact sqrt_mono. Qed.
Print Assumptions C38_square_root_monotone.
Theorem C38_odd_integer_power_monotone :
  forall n f a b e u v, log_integer_power n f -> is_intn n a -> is_intn n b -> a <> nar n -> b <> nar n ->
    is_int64 e -> 0 < e -> Z.odd e = true -> a <= b -> f a e = Val u -> f b e = Val v -> u <= v.
Proof. exact pow_mono. Qed.
Print Assumptions C38_odd_integer_power_monotone.
Theorem C38_odd_root_monotone :
  forall n f a b e u v, log_root n f -> is_real_takum n a -> is_real_takum n b ->
    is_int64 e -> 0 < e -> Z.odd e = true -> a <= b -> f a e = Val u -> f b e = Val v -> u <= v.
Proof. exact root_mono. Qed.
Print Assumptions C38_odd_root_monotone.
Example C38_case : log_root 8 (takum8_root x86_64) /\ Z.odd 3 = true /\
  takum8_root x86_64 (-0x66) 3 = Val (-0x5a) /\ takum8_root x86_64 0x66 3 = Val 0x5a /\
  takum8_multiplication x86_64 (-0x66) 0x55 = Val (-0x68) /\
  takum8_division x86_64 0x66 0x55 = Val 0x63 /\
  takum8_square_root x86_64 0x66 = Val 0x5e /\ takum8_integer_power x86_64 (-0x66) 3 = Val (-0x72).
Proof. split; [constructor|vm_compute; auto 10]. Qed.

(** C39: power identities *)
Theorem C39_power_identities :
  forall n f g h t, log_integer_power n f -> log_inversion n g -> log_multiplication n h ->
    is_real_takum n t ->
    f t 1 = Val t /\ f t 0 = Val (2 ^ (n - 2)) /\ f t (-1) = g t /\ f t 2 = h t t.
Proof. exact pow_identities. Qed.
Print Assumptions C39_power_identities.
Theorem C39_root_identities :
  forall n f g h t, log_root n f -> log_inversion n g -> log_square_root n h ->
    (is_intn n t -> f t 2 = h t) /\
    (is_real_takum n t -> f t 1 = Val t /\ f t (-1) = g t).
Proof. exact root_identities. Qed.
Print Assumptions C39_root_identities.
Example C39_case : log_integer_power 16 takum16_integer_power /\ log_inversion 16 takum16_inversion /\
  log_multiplication 16 takum16_multiplication /\ log_root 16 takum16_root /\
  log_square_root 16 takum16_square_root /\ is_real_takum 16 (-0x4567).
Proof. do 5 (split; [constructor|]). repeat split; try reflexivity; intro; discriminate. Qed.
