(** Properties C129 to C131: reciprocals of results of logarithmic arithmetic;
    absolute values and signs of products and quotients.  Theorems only; proofs
    are in LogRecip.v and AbsSign.v. *)
From Coq Require Import ZArith Reals Bool.
From Verif Require Import CModel FloatModel Spec Arith Wrappers LogApi LinApi WaySpec LogRecip AbsSign Negations.
Local Open Scope Z_scope.

(** C129: inversion of logarithmic takums commutes with multiplication, … *)
Theorem C129_product_of_reciprocals :
  forall n mul inv a b, log_multiplication n mul -> log_inversion n inv ->
    is_real_takum n a -> is_real_takum n b ->
    exists a' b' c c', inv a = Val a' /\ inv b = Val b' /\ mul a b = Val c /\ inv c = Val c' /\ mul a' b' = Val c'.
Proof. exact mul_reciprocal. Qed.
Print Assumptions C129_product_of_reciprocals.
(** … division (and exchanging the operands inverts the quotient), … *)
Theorem C129_reciprocal_of_quotient :
  forall n div inv a b, log_division n div -> log_inversion n inv ->
    is_real_takum n a -> is_real_takum n b ->
    exists a' b' c c', inv a = Val a' /\ inv b = Val b' /\ div a b = Val c /\ inv c = Val c' /\
                       div b a = Val c' /\ div a' b' = Val c'.
Proof. exact div_reciprocal. Qed.
Print Assumptions C129_reciprocal_of_quotient.
(** … square root, … *)
Theorem C129_square_root_of_reciprocal :
  forall n square_root inv a, log_square_root n square_root -> log_inversion n inv ->
    is_real_takum n a -> 0 < a ->
    exists a' c c', inv a = Val a' /\ square_root a = Val c /\ inv c = Val c' /\ square_root a' = Val c'.
Proof. exact sqrt_reciprocal. Qed.
Print Assumptions C129_square_root_of_reciprocal.
(** … integer powers and roots (c may be NaR here), where it also equals
    changing the sign of the exponent *)
Theorem C129_integer_power_of_reciprocal :
  forall n pow inv a e, log_integer_power n pow -> log_inversion n inv ->
    is_real_takum n a -> is_int64 e ->
    exists a' c c', inv a = Val a' /\ pow a e = Val c /\ inv c = Val c' /\ pow a' e = Val c' /\
                    (e <> - 2 ^ 63 -> pow a (- e) = Val c').
Proof. exact pow_reciprocal. Qed.
Print Assumptions C129_integer_power_of_reciprocal.
Theorem C129_root_of_reciprocal :
  forall n root inv a e, log_root n root -> n <> 64 -> log_inversion n inv ->
    is_real_takum n a -> is_int64 e ->
    exists a' c c', inv a = Val a' /\ root a e = Val c /\ inv c = Val c' /\ root a' e = Val c' /\
                    (e <> - 2 ^ 63 -> root a (- e) = Val c').
Proof. exact root_reciprocal. Qed.
Print Assumptions C129_root_of_reciprocal.
(** inexact results: 0x4035 * 0x5123, their quotient, the 21st root of 0x40000035 *)
Example C129_case : log_multiplication 16 takum16_multiplication /\ log_inversion 16 takum16_inversion /\
  is_real_takum 16 0x4035 /\ is_real_takum 16 0x5123 /\
  takum16_inversion 0x4035 = Val 0x3fcb /\ takum16_inversion 0x5123 = Val 0x2edd /\
  takum16_multiplication 0x4035 0x5123 = Val 0x5130 /\ takum16_multiplication 0x3fcb 0x2edd = Val 0x2ed0 /\
  log_root 32 (takum32_root x86_64) /\ is_real_takum 32 0x40000035 /\ is_int64 21 /\
  takum32_root x86_64 0x40000035 21 = Val 0x40000003 /\ takum32_root x86_64 0x40000035 (-21) = Val 0x3ffffffd.
Proof. exact reciprocal_case. Qed.

(** C130: C129 for roots of 64 bit takums, refuted: the roots of a and 1/a are
    not reciprocals of each other *)
Theorem C130_root64_of_reciprocal_refuted :
  ~ (forall a e, is_real_takum 64 a -> is_int64 e -> e <> 0 ->
       (let! b := takum64_inversion a in takum64_root x86_64 b e) =
       (let! r := takum64_root x86_64 a e in takum64_inversion r)) /\
  ~ (forall a e, is_real_takum 64 a -> is_int64 e -> is_int64 (- e) -> e <> 0 ->
       takum64_root x86_64 a (- e) = (let! r := takum64_root x86_64 a e in takum64_inversion r)).
Proof. exact root64_of_reciprocal. Qed.
Print Assumptions C130_root64_of_reciprocal_refuted.
Example C130_case :
  is_real_takum 64 0x4000000000000035 /\ is_int64 21 /\
  takum64_inversion 0x4000000000000035 = Val 0x3fffffffffffffcb /\
  takum64_root x86_64 0x4000000000000035 21 = Val 0x4000000000000002 /\
  takum64_inversion 0x4000000000000002 = Val 0x3ffffffffffffffe /\
  takum64_root x86_64 0x3fffffffffffffcb 21 = Val 0x3ffffffffffffffd /\
  takum64_root x86_64 0x4000000000000035 (-21) = Val 0x3ffffffffffffffd.
Proof. exact root64_reciprocal_refuted. Qed.

(** C131: the absolute value of a product or quotient is that of the absolute
    values, … *)
Theorem C131_absolute_of_product :
  forall k n mul abs a b, multiplies k n mul -> absolute_value k n abs ->
    is_intn n a -> is_intn n b -> a <> nar n -> b <> nar n ->
    exists a' b' c c', abs a = Val a' /\ abs b = Val b' /\ mul a b = Val c /\ abs c = Val c' /\ mul a' b' = Val c'.
Proof. exact abs_product. Qed.
Print Assumptions C131_absolute_of_product.
Theorem C131_absolute_of_quotient :
  forall k n div abs a b, divides k n div -> absolute_value k n abs ->
    is_intn n a -> is_real_takum n b -> a <> nar n ->
    exists a' b' c c', abs a = Val a' /\ abs b = Val b' /\ div a b = Val c /\ abs c = Val c' /\ div a' b' = Val c'.
Proof. exact abs_quotient. Qed.
Print Assumptions C131_absolute_of_quotient.
(** … the sign is the product of the signs, … *)
Theorem C131_sign_of_product :
  forall k n mul sgn a b, multiplies k n mul -> sign_function k n sgn ->
    is_intn n a -> is_intn n b -> a <> nar n -> b <> nar n ->
    exists a' b' c c', sgn a = Val a' /\ sgn b = Val b' /\ mul a b = Val c /\ sgn c = Val c' /\ mul a' b' = Val c'.
Proof. exact sign_product. Qed.
Print Assumptions C131_sign_of_product.
Theorem C131_sign_of_quotient :
  forall k n div mul sgn a b, divides k n div -> multiplies k n mul -> sign_function k n sgn ->
    is_intn n a -> is_real_takum n b -> a <> nar n ->
    exists a' b' c c', sgn a = Val a' /\ sgn b = Val b' /\ div a b = Val c /\ sgn c = Val c' /\ mul a' b' = Val c'.
Proof. exact sign_quotient. Qed.
Print Assumptions C131_sign_of_quotient.
(** … and every takum but NaR is the product of its sign and absolute value *)
Theorem C131_sign_times_absolute :
  forall k n mul abs sgn a, multiplies k n mul -> absolute_value k n abs -> sign_function k n sgn ->
    is_intn n a -> a <> nar n ->
    exists s u, sgn a = Val s /\ abs a = Val u /\ mul s u = Val a.
Proof. exact sign_times_abs. Qed.
Print Assumptions C131_sign_times_absolute.
Example C131_case : multiplies Linear 16 (takum_linear_multiplication x86_64 W16) /\
  absolute_value Linear 16 takum_linear16_absolute /\ sign_function Linear 16 takum_linear16_sign /\
  is_intn 16 (-0x5123) /\ is_real_takum 16 0x4035 /\ takum_linear16_absolute (-0x5123) = Val 0x5123 /\
  takum_linear_multiplication x86_64 W16 (-0x5123) 0x4035 = Val (-0x5138) /\
  takum_linear_multiplication x86_64 W16 0x5123 0x4035 = Val 0x5138.
Proof. exact abs_sign_case. Qed.
