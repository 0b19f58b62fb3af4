(** Properties C27 - C29 and C46 - C49: arithmetic of linear takums.  Theorems
    only; proofs are in LinArith.v, LinAlgebra.v and LinArithRefute.v. *)
From Coq Require Import ZArith Reals Bool.
From Flocq Require Import Core.Core IEEE754.BinarySingleNaN.
From Verif Require Import CModel FloatModel Spec FloatSpec Conversion Arith Wrappers LinApi LinArith LinAlgebra LinArithRefute.
Local Open Scope Z_scope.

(** C27: addition and subtraction are correctly rounded (8, 16 and 32 bits) *)
Theorem C27_linear_addition_correctly_rounded :
  forall n f, linear_addition n f -> n <> 64 -> forall a b, is_intn n a -> is_intn n b ->
    exists t, f a b = Val t /\ is_intn n t /\
      match value Linear n a, value Linear n b with
      | Some x, Some y => rounds Linear n (x + y) t
      | _, _ => t = nar n
      end.
Proof. exact add_lin_correct. Qed.
Print Assumptions C27_linear_addition_correctly_rounded.
Example C27_case : linear_addition 32 (takum_linear_addition x86_64 W32) /\
  takum_linear_addition x86_64 W32 0x12345678 (-0x12345670) = Val 0xea00000 /\
  takum_linear_addition x86_64 W16 0x4123 (-0x2543) = Val 0x4120 /\
  takum_linear_addition x86_64 W8 0x7f 0x7f = Val 0x7f /\
  takum_linear_addition x86_64 W16 0x4123 (nar 16) = Val (nar 16).
Proof. split; [constructor|vm_compute; auto 10]. Qed.


Theorem C27_linear_subtraction_correctly_rounded :
  forall n f, linear_subtraction n f -> n <> 64 -> forall a b, is_intn n a -> is_intn n b ->
    exists t, f a b = Val t /\ is_intn n t /\
      match value Linear n a, value Linear n b with
      | Some x, Some y => rounds Linear n (x - y) t
      | _, _ => t = nar n
      end.
Proof. exact sub_lin_correct. Qed.
Print Assumptions C27_linear_subtraction_correctly_rounded.

(** at every width, so in particular at 64 bits, the result is one of the two
    takums bracketing the exact one (the exact one if it is a takum) *)
Theorem C27_linear_addition_faithful :
  forall n f, linear_addition n f -> forall a b, is_intn n a -> is_intn n b ->
    exists t, f a b = Val t /\ is_intn n t /\
      match value Linear n a, value Linear n b with
      | Some x, Some y => rounds_faithfully Linear n (x + y) t
      | _, _ => t = nar n
      end.
Proof. exact add_faithful. Qed.
Print Assumptions C27_linear_addition_faithful.


Theorem C27_linear_subtraction_faithful :
  forall n f, linear_subtraction n f -> forall a b, is_intn n a -> is_intn n b ->
    exists t, f a b = Val t /\ is_intn n t /\
      match value Linear n a, value Linear n b with
      | Some x, Some y => rounds_faithfully Linear n (x - y) t
      | _, _ => t = nar n
      end.
Proof. exact sub_faithful. Qed.
Print Assumptions C27_linear_subtraction_faithful.
Example C27_case_64 : linear_subtraction 64 (takum_linear_subtraction x86_64 W64) /\
  takum_linear_subtraction x86_64 W64 0x4123456789abcdef 0x3123456789abcdef = Val 0x3fb4e81b4e81b4e6 /\
  takum_linear_subtraction x86_64 W64 0x4123456789abcdef 0x4123456789abcdee = Val 0x1100000000000000.
Proof. split; [constructor|vm_compute; auto 10]. Qed.

(** C28: multiplication and division are correctly rounded (8 and 16 bits) *)
Theorem C28_linear_multiplication_correctly_rounded :
  forall n f, linear_multiplication n f -> (n = 8 \/ n = 16) -> forall a b, is_intn n a -> is_intn n b ->
    exists t, f a b = Val t /\ is_intn n t /\
      match value Linear n a, value Linear n b with
      | Some x, Some y => rounds Linear n (x * y) t
      | _, _ => t = nar n
      end.
Proof. exact mul_lin_correct. Qed.
Print Assumptions C28_linear_multiplication_correctly_rounded.
Example C28_case : linear_multiplication 16 (takum_linear_multiplication x86_64 W16) /\
  takum_linear_multiplication x86_64 W16 0x4123 (-0x6543) = Val (-0x655f) /\
  takum_linear_multiplication x86_64 W16 0x7fff 0x7ffe = Val 0x7fff /\
  takum_linear_multiplication x86_64 W8 1 1 = Val 1 /\
  takum_linear_multiplication x86_64 W16 0 (nar 16) = Val (nar 16).
Proof. split; [constructor|vm_compute; auto 10]. Qed.


Theorem C28_linear_division_correctly_rounded :
  forall n f, linear_division n f -> (n = 8 \/ n = 16) -> forall a b, is_intn n a -> is_intn n b ->
    exists t, f a b = Val t /\ is_intn n t /\
      match value Linear n a, value Linear n b with
      | Some x, Some y => 
          (y = 0%R /\ t = nar n) \/ (y <> 0%R /\ rounds Linear n (x / y) t)
      | _, _ => t = nar n
      end.
Proof. exact div_lin_correct. Qed.
Print Assumptions C28_linear_division_correctly_rounded.
Example C28_case_division : linear_division 16 (takum_linear_division x86_64 W16) /\
  takum_linear_division x86_64 W16 0x4123 (-0x6543) = Val (-0x1ac0) /\
  takum_linear_division x86_64 W16 0x4123 0 = Val (nar 16) /\
  takum_linear_division x86_64 W16 0 0 = Val (nar 16).
Proof. split; [constructor|vm_compute; auto 10]. Qed.

(** at every width, the result is one of the two takums bracketing the exact
    one *)
Theorem C28_linear_multiplication_faithful :
  forall n f, linear_multiplication n f -> forall a b, is_intn n a -> is_intn n b ->
    exists t, f a b = Val t /\ is_intn n t /\
      match value Linear n a, value Linear n b with
      | Some x, Some y => rounds_faithfully Linear n (x * y) t
      | _, _ => t = nar n
      end.
Proof. exact mul_lin_faithful. Qed.
Print Assumptions C28_linear_multiplication_faithful.


Theorem C28_linear_division_faithful :
  forall n f, linear_division n f -> forall a b, is_intn n a -> is_intn n b ->
    exists t, f a b = Val t /\ is_intn n t /\
      match value Linear n a, value Linear n b with
      | Some x, Some y => 
          (y = 0%R /\ t = nar n) \/ (y <> 0%R /\ rounds_faithfully Linear n (x / y) t)
      | _, _ => t = nar n
      end.
Proof. exact div_lin_faithful. Qed.
Print Assumptions C28_linear_division_faithful.
Example C28_case_32 : linear_division 32 (takum_linear_division x86_64 W32) /\
  linear_multiplication 64 (takum_linear_multiplication x86_64 W64) /\
  takum_linear_division x86_64 W32 0x12345678 0x6789abcd = Val 0xd561528 /\
  takum_linear_multiplication x86_64 W64 0x1234567812345678 (-0x6789abcd12345678) = Val (-0x1b7a4164d5d8bc75).
Proof. split; [constructor|split; [constructor|vm_compute; auto 10]]. Qed.

(** C47: square root and inversion are correctly rounded (8 and 16 bits) *)
Theorem C47_linear_square_root_correctly_rounded :
  forall n f, linear_square_root n f -> (n = 8 \/ n = 16) -> forall a, is_intn n a ->
    exists t, f a = Val t /\ is_intn n t /\
      match value Linear n a with
      | Some x => 
          (x < 0 /\ t = nar n)%R \/ (0 <= x /\ rounds Linear n (sqrt x) t)%R
      | None => t = nar n
      end.
Proof. exact sqrt_lin_correct. Qed.
Print Assumptions C47_linear_square_root_correctly_rounded.


Theorem C47_linear_inversion_correctly_rounded :
  forall n f, linear_inversion n f -> (n = 8 \/ n = 16) -> forall a, is_intn n a ->
    exists t, f a = Val t /\ is_intn n t /\
      match value Linear n a with
      | Some x => 
          (x = 0%R /\ t = nar n) \/ (x <> 0%R /\ rounds Linear n (/ x) t)
      | None => t = nar n
      end.
Proof. exact inv_lin_correct. Qed.
Print Assumptions C47_linear_inversion_correctly_rounded.
Example C47_case : linear_square_root 16 (takum_linear_square_root x86_64 W16) /\
  linear_inversion 16 (takum_linear_inversion x86_64 W16) /\
  takum_linear_square_root x86_64 W16 0x5123 = Val 0x4b16 /\
  takum_linear_square_root x86_64 W16 (-0x5123) = Val (nar 16) /\
  takum_linear_inversion x86_64 W16 (-0x5123) = Val (-0x2e8d) /\
  takum_linear_inversion x86_64 W16 0 = Val (nar 16).
Proof. split; [constructor|split; [constructor|vm_compute; auto 10]]. Qed.

(** at every width, the result is one of the two takums bracketing the exact
    one *)
Theorem C47_linear_square_root_faithful :
  forall n f, linear_square_root n f -> forall a, is_intn n a ->
    exists t, f a = Val t /\ is_intn n t /\
      match value Linear n a with
      | Some x => 
          (x < 0 /\ t = nar n)%R \/ (0 <= x /\ rounds_faithfully Linear n (sqrt x) t)%R
      | None => t = nar n
      end.
Proof. exact sqrt_lin_faithful. Qed.
Print Assumptions C47_linear_square_root_faithful.


Theorem C47_linear_inversion_faithful :
  forall n f, linear_inversion n f -> forall a, is_intn n a ->
    exists t, f a = Val t /\ is_intn n t /\
      match value Linear n a with
      | Some x => 
          (x = 0%R /\ t = nar n) \/ (x <> 0%R /\ rounds_faithfully Linear n (/ x) t)
      | None => t = nar n
      end.
Proof. exact inv_lin_faithful. Qed.
Print Assumptions C47_linear_inversion_faithful.
Example C47_case_64 : linear_square_root 64 (takum_linear_square_root x86_64 W64) /\
  linear_inversion 64 (takum_linear_inversion x86_64 W64) /\
  takum_linear_square_root x86_64 W64 0x5123456712345678 = Val 0x4b15e3f250be1e54 /\
  takum_linear_inversion x86_64 W64 (-0x5123456712345678) = Val (-0x2e8cb0f40cf26e45).
Proof. split; [constructor|split; [constructor|vm_compute; auto 10]]. Qed.

(** C29: algebra; NaR is an admissible argument unless excluded *)
Theorem C29_linear_addition_commutes :
  forall n f a b, linear_addition n f -> is_intn n a -> is_intn n b -> f a b = f b a.
Proof. exact addition_commutes. Qed.
Print Assumptions C29_linear_addition_commutes.

Theorem C29_linear_multiplication_commutes :
  forall n f a b, linear_multiplication n f -> is_intn n a -> is_intn n b -> f a b = f b a.
Proof. exact multiplication_commutes. Qed.
Print Assumptions C29_linear_multiplication_commutes.

Theorem C29_linear_zero_neutral :
  forall n f g a, linear_addition n f -> linear_subtraction n g -> is_intn n a -> f a 0 = Val a /\ g a 0 = Val a.
Proof. exact lin_zero_neutral. Qed.
Print Assumptions C29_linear_zero_neutral.

Theorem C29_linear_one_neutral :
  forall n f g a, linear_multiplication n f -> linear_division n g -> is_intn n a ->
    value Linear n (2 ^ (n - 2)) = Some 1%R /\ f a (2 ^ (n - 2)) = Val a /\ g a (2 ^ (n - 2)) = Val a.
Proof. exact lin_one_neutral. Qed.
Print Assumptions C29_linear_one_neutral.

Theorem C29_linear_cancellation :
  forall n f g a, linear_addition n f -> linear_subtraction n g -> is_intn n a -> a <> nar n ->
    g a a = Val 0 /\ f a (- a) = Val 0.
Proof. exact lin_cancellation. Qed.
Print Assumptions C29_linear_cancellation.

Theorem C29_linear_zero_absorbs :
  forall n f a, linear_multiplication n f -> is_intn n a -> a <> nar n -> f a 0 = Val 0.
Proof. exact mul_zero. Qed.
Print Assumptions C29_linear_zero_absorbs.

Theorem C29_linear_quotients :
  forall n f a, linear_division n f -> is_real_takum n a -> f a a = Val (2 ^ (n - 2)) /\ f 0 a = Val 0.
Proof. exact lin_quotients. Qed.
Print Assumptions C29_linear_quotients.

Theorem C29_linear_subtraction_is_addition :
  forall n f g a b, linear_subtraction n f -> linear_addition n g -> is_intn n a -> is_intn n b -> b <> nar n ->
    f a b = g a (- b).
Proof. exact sub_is_add_opp. Qed.
Print Assumptions C29_linear_subtraction_is_addition.

Theorem C29_linear_addition_negated :
  forall n f a b t, linear_addition n f -> is_intn n a -> is_intn n b -> a <> nar n -> b <> nar n ->
    f a b = Val t -> f (- a) (- b) = Val (- t).
Proof. exact add_neg. Qed.
Print Assumptions C29_linear_addition_negated.

Theorem C29_linear_subtraction_swapped :
  forall n f a b t, linear_subtraction n f -> is_intn n a -> is_intn n b -> a <> nar n -> b <> nar n ->
    f a b = Val t -> f b a = Val (- t).
Proof. exact sub_swap. Qed.
Print Assumptions C29_linear_subtraction_swapped.

Theorem C29_linear_multiplication_sign :
  forall n f a b t, linear_multiplication n f -> is_intn n a -> is_intn n b -> a <> nar n -> b <> nar n ->
    f a b = Val t -> f (- a) b = Val (- t).
Proof. exact mul_lin_neg. Qed.
Print Assumptions C29_linear_multiplication_sign.

Theorem C29_linear_division_sign :
  forall n f a b t, linear_division n f -> is_intn n a -> is_real_takum n b -> a <> nar n ->
    f a b = Val t -> f (- a) b = Val (- t) /\ f a (- b) = Val (- t).
Proof. exact div_lin_neg. Qed.
Print Assumptions C29_linear_division_sign.

Theorem C29_linear_inversion_sign :
  forall n f a t, linear_inversion n f -> is_real_takum n a -> f a = Val t -> f (- a) = Val (- t).
Proof. exact inv_lin_neg. Qed.
Print Assumptions C29_linear_inversion_sign.
Example C29_case : linear_addition 64 (takum_linear_addition x86_64 W64) /\
  linear_subtraction 64 (takum_linear_subtraction x86_64 W64) /\
  is_real_takum 64 0x5123456712345678 /\ is_real_takum 64 (-0x1123456712345678) /\
  takum_linear_addition x86_64 W64 0x5123456712345678 (-0x1123456712345678) = Val 0x5123456712345678 /\
  takum_linear_subtraction x86_64 W64 0x5123456712345678 (-0x1123456712345678) = Val 0x5123456712345678.
Proof.
  split; [constructor|split; [constructor|]]. do 2 (split; [repeat split; vm_compute; discriminate || reflexivity|]).
  vm_compute. auto.
Qed.

(** C48: monotonicity, in the order of takums as integers, which is the order of
    their values *)
Theorem C48_linear_addition_monotone :
  forall n f a b c d u v, linear_addition n f ->
    is_intn n a -> is_intn n b -> is_intn n c -> is_intn n d ->
    a <> nar n -> b <> nar n -> c <> nar n -> d <> nar n ->
    a <= c -> b <= d -> f a b = Val u -> f c d = Val v -> u <= v.
Proof. exact add_mono. Qed.
Print Assumptions C48_linear_addition_monotone.

Theorem C48_linear_subtraction_monotone :
  forall n f a b c d u v, linear_subtraction n f ->
    is_intn n a -> is_intn n b -> is_intn n c -> is_intn n d ->
    a <> nar n -> b <> nar n -> c <> nar n -> d <> nar n ->
    a <= c -> d <= b -> f a b = Val u -> f c d = Val v -> u <= v.
Proof. exact sub_mono. Qed.
Print Assumptions C48_linear_subtraction_monotone.

Theorem C48_linear_multiplication_monotone :
  forall n f a b c u v, linear_multiplication n f -> is_intn n a -> is_intn n b -> is_intn n c ->
    a <> nar n -> b <> nar n -> 0 <= c -> a <= b -> f a c = Val u -> f b c = Val v -> u <= v.
Proof. exact mul_lin_mono. Qed.
Print Assumptions C48_linear_multiplication_monotone.

Theorem C48_linear_division_monotone :
  forall n f a b c u v, linear_division n f -> is_intn n a -> is_intn n b -> is_real_takum n c ->
    a <> nar n -> b <> nar n -> 0 < c -> a <= b -> f a c = Val u -> f b c = Val v -> u <= v.
Proof. exact div_lin_mono. Qed.
Print Assumptions C48_linear_division_monotone.

Theorem C48_linear_square_root_monotone :
  forall n f a b u v, linear_square_root n f -> is_intn n b -> 0 <= a <= b ->
    f a = Val u -> f b = Val v -> u <= v.
Proof. exact sqrt_lin_mono. Qed.
Print Assumptions C48_linear_square_root_monotone.

Theorem C48_linear_inversion_antitone :
  forall n f a b u v, linear_inversion n f -> is_real_takum n a -> is_real_takum n b ->
    (0 < a <-> 0 < b) -> a <= b -> f a = Val u -> f b = Val v -> v <= u.
Proof. exact inv_lin_antitone. Qed.
Print Assumptions C48_linear_inversion_antitone.
Example C48_case : linear_addition 16 (takum_linear_addition x86_64 W16) /\
  linear_inversion 16 (takum_linear_inversion x86_64 W16) /\
  takum_linear_addition x86_64 W16 0x4123 (-0x2543) = Val 0x4120 /\
  takum_linear_addition x86_64 W16 0x4124 (-0x2540) = Val 0x4122 /\
  takum_linear_inversion x86_64 W16 0x4123 = Val 0x3e02 /\
  takum_linear_inversion x86_64 W16 0x4223 = Val 0x3ca1.
Proof. split; [constructor|split; [constructor|vm_compute; auto 10]]. Qed.

(** C49: if the exact result is a takum, it is the result *)
Theorem C49_linear_addition_exact :
  forall n f a b c x y, linear_addition n f -> is_intn n a -> is_intn n b -> is_intn n c ->
    value Linear n a = Some x -> value Linear n b = Some y -> value Linear n c = Some (x + y)%R ->
    f a b = Val c.
Proof. exact add_exact. Qed.
Print Assumptions C49_linear_addition_exact.

Theorem C49_linear_subtraction_exact :
  forall n f a b c x y, linear_subtraction n f -> is_intn n a -> is_intn n b -> is_intn n c ->
    value Linear n a = Some x -> value Linear n b = Some y -> value Linear n c = Some (x - y)%R ->
    f a b = Val c.
Proof. exact sub_exact. Qed.
Print Assumptions C49_linear_subtraction_exact.

Theorem C49_linear_multiplication_exact :
  forall n f a b c x y, linear_multiplication n f -> is_intn n a -> is_intn n b -> is_intn n c ->
    value Linear n a = Some x -> value Linear n b = Some y -> value Linear n c = Some (x * y)%R ->
    f a b = Val c.
Proof. exact mul_exact. Qed.
Print Assumptions C49_linear_multiplication_exact.

Theorem C49_linear_division_exact :
  forall n f a b c x y, linear_division n f -> is_intn n a -> is_intn n b -> is_intn n c ->
    value Linear n a = Some x -> value Linear n b = Some y -> y <> 0%R -> value Linear n c = Some (x / y)%R ->
    f a b = Val c.
Proof. exact div_exact. Qed.
Print Assumptions C49_linear_division_exact.

Theorem C49_linear_square_root_exact :
  forall n f a c x, linear_square_root n f -> is_intn n a -> is_intn n c ->
    value Linear n a = Some x -> (0 <= x)%R -> value Linear n c = Some (sqrt x) -> f a = Val c.
Proof. exact sqrt_exact. Qed.
Print Assumptions C49_linear_square_root_exact.

Theorem C49_linear_inversion_exact :
  forall n f a c x, linear_inversion n f -> is_intn n a -> is_intn n c ->
    value Linear n a = Some x -> x <> 0%R -> value Linear n c = Some (/ x)%R -> f a = Val c.
Proof. exact inv_exact. Qed.
Print Assumptions C49_linear_inversion_exact.
(** 1 + 1 = 2, where 2 is the takum 0x4800 *)
Example C49_case : linear_addition 16 (takum_linear_addition x86_64 W16) /\
  value Linear 16 0x4000 = Some 1%R /\ value Linear 16 0x4800 = Some (1 + 1)%R /\
  takum_linear_addition x86_64 W16 0x4000 0x4000 = Val 0x4800.
Proof. split; [constructor|]. exact lin_one_plus_one. Qed.

(** C46: double rounding: at 32 bits multiplication, division, inversion and
    square root, and at 64 bits addition, are not correctly rounded *)
Theorem C46_linear32_multiplication_refuted :
  exists a b t x y, is_intn 32 a /\ is_intn 32 b /\
    value Linear 32 a = Some x /\ value Linear 32 b = Some y /\
    takum_linear_multiplication x86_64 W32 a b = Val t /\ ~ rounds Linear 32 (x * y)%R t.
Proof. exact mul32_refuted. Qed.
Print Assumptions C46_linear32_multiplication_refuted.

Theorem C46_linear32_division_refuted :
  exists a b t x y, is_intn 32 a /\ is_intn 32 b /\
    value Linear 32 a = Some x /\ value Linear 32 b = Some y /\
    takum_linear_division x86_64 W32 a b = Val t /\ ~ rounds Linear 32 (x / y)%R t.
Proof. exact div32_refuted. Qed.
Print Assumptions C46_linear32_division_refuted.

Theorem C46_linear32_inversion_refuted :
  exists a t x, is_intn 32 a /\ value Linear 32 a = Some x /\ (0 < x)%R /\
    takum_linear_inversion x86_64 W32 a = Val t /\ ~ rounds Linear 32 (/ x)%R t.
Proof. exact inv32_refuted. Qed.
Print Assumptions C46_linear32_inversion_refuted.

Theorem C46_linear32_square_root_refuted :
  exists a t x, is_intn 32 a /\ value Linear 32 a = Some x /\ (0 < x)%R /\
    takum_linear_square_root x86_64 W32 a = Val t /\ ~ rounds Linear 32 (sqrt x)%R t.
Proof. exact sqrt32_refuted. Qed.
Print Assumptions C46_linear32_square_root_refuted.

Theorem C46_linear64_addition_refuted :
  exists a b t x y, is_intn 64 a /\ is_intn 64 b /\
    value Linear 64 a = Some x /\ value Linear 64 b = Some y /\
    takum_linear_addition x86_64 W64 a b = Val t /\ ~ rounds Linear 64 (x + y)%R t.
Proof. exact add64_refuted. Qed.
Print Assumptions C46_linear64_addition_refuted.
