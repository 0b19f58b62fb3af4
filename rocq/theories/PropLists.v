(** Properties C114-C119: sums and products of lists of takums, the middle of two
    takums, the sum of the squares of sine and cosine, and quotients equal to one.
    Theorems only; proofs are in Lists.v, Middle.v, Pythagoras.v and QuotientOne.v. *)
From Coq Require Import ZArith Reals Bool List Lia Lra.
From Flocq Require Import Core.Core.
From Verif Require Import CModel FloatModel Spec Arith ValueFacts RoundFacts LogApi LinApi LinArithRefute Libm LibmSpec LibmIdeal Wrappers WrapApi WrapSpec ErrorSpec InverseRefute ListSpec Lists Middle Pythagoras QuotientOne.
Import ListNotations.
Local Open Scope R_scope.

(** C114: however many takums are multiplied one after the other, no product is
    NaR, and the sign of the result is the product of the signs: it is zero only
    if a factor is *)
Theorem C114_sign_of_product :
  forall k n f, any_multiplication k n f -> forall ts a, no_nar n a -> Forall (no_nar n) ts ->
    exists r, accumulate f a ts = Val r /\ no_nar n r /\ Z.sgn r = (Z.sgn a * signs ts)%Z.
Proof. exact product_signs. Qed.
Print Assumptions C114_sign_of_product.
(** a sum of takums that are not negative is none of NaR and never below one of
    the summands *)
Theorem C114_sum_above_summands :
  forall n f, linear_addition n f -> forall ts a, no_nar n a -> (0 <= a)%Z -> Forall (fun t => no_nar n t /\ (0 <= t)%Z) ts ->
    exists r, accumulate f a ts = Val r /\ no_nar n r /\ (a <= r)%Z /\ Forall (fun t => (t <= r)%Z) ts.
Proof. exact sum_above. Qed.
Print Assumptions C114_sum_above_summands.
(** raising summands, or positive factors, never lowers the sum or product *)
Theorem C114_sum_monotone :
  forall n f, linear_addition n f -> forall ts us a b, no_nar n a -> no_nar n b -> (a <= b)%Z ->
    Forall2 (fun t u => no_nar n t /\ no_nar n u /\ (t <= u)%Z) ts us ->
    exists r s, accumulate f a ts = Val r /\ accumulate f b us = Val s /\ (r <= s)%Z.
Proof. exact sum_monotone. Qed.
Print Assumptions C114_sum_monotone.
Theorem C114_product_monotone :
  forall k n f, any_multiplication k n f -> forall ts us a b, no_nar n a -> no_nar n b -> (0 < a <= b)%Z ->
    Forall2 (fun t u => no_nar n t /\ no_nar n u /\ (0 < t <= u)%Z) ts us ->
    exists r s, accumulate f a ts = Val r /\ accumulate f b us = Val s /\ (0 < r <= s)%Z.
Proof. exact product_monotone. Qed.
Print Assumptions C114_product_monotone.
(** the largest and the smallest 8-bit takum, multiplied and added *)
Example C114_case : any_multiplication Logarithmic 8 (takum8_multiplication x86_64) /\ any_multiplication Linear 8 (takum_linear_multiplication x86_64 W8) /\
  linear_addition 8 (takum_linear_addition x86_64 W8) /\ no_nar 8 127 /\ no_nar 8 (-127) /\
  accumulate (takum8_multiplication x86_64) 127 [127; -127; 127]%Z = Val (-127)%Z /\ signs [127; -127; 127]%Z = (-1)%Z /\
  accumulate (takum_linear_addition x86_64 W8) 127 [127; 1]%Z = Val 127%Z.
Proof.
  split; [right; split; [reflexivity|constructor]|]. split; [left; split; [reflexivity|constructor]|]. split; [constructor|].
  split; [unfold no_nar, is_intn, nar; simpl; lia|]. split; [unfold no_nar, is_intn, nar; simpl; lia|].
  split; [vm_compute; reflexivity|]. split; vm_compute; reflexivity.
Qed.

(** C115: for n = 16, 32 and 64, the middle a + (b - a) / 2 of linear takums
    a <= b, each operation rounding, lies between them if b - a is zero or between
    2^-252 and 2^252 *)
Theorem C115_middle_between :
  forall n add sub div two a b x y, linear_addition n add -> linear_subtraction n sub -> linear_division n div -> n <> 8%Z ->
    is_intn n two -> value Linear n two = Some 2 ->
    is_intn n a -> is_intn n b -> value Linear n a = Some x -> value Linear n b = Some y ->
    x = y \/ powerRZ 2 (-252) <= y - x <= powerRZ 2 252 ->
    exists m, middle add sub div two a b = Val m /\ (a <= m <= b)%Z.
Proof. exact middle_between. Qed.
Print Assumptions C115_middle_between.
(** neighbours: the middle of 2 and the next takum *)
Example C115_case : linear_addition 16 (takum_linear_addition x86_64 W16) /\ linear_subtraction 16 (takum_linear_subtraction x86_64 W16) /\
  linear_division 16 (takum_linear_division x86_64 W16) /\ is_intn 16 0x4800 /\ is_intn 16 0x4801 /\ value Linear 16 0x4800 = Some 2 /\
  value Linear 16 0x4801 = Some (2 + powerRZ 2 (-9)) /\ powerRZ 2 (-252) <= (2 + powerRZ 2 (-9)) - 2 <= powerRZ 2 252 /\
  middle (takum_linear_addition x86_64 W16) (takum_linear_subtraction x86_64 W16) (takum_linear_division x86_64 W16) 0x4800 0x4800 0x4801 = Val 0x4800%Z.
Proof.
  do 3 (split; [constructor|]). split; [unfold is_intn; simpl; lia|]. split; [unfold is_intn; simpl; lia|]. split; [exact (proj1 mean_not_exact)|]. split.
  - rewrite value_const by (split; vm_compute; (discriminate || reflexivity)). change (vm 16 0x4801) with (1025 * 2 ^ 49)%Z. change (ve 16 0x4801) with (-58)%Z. rewrite powerRZ_bpow, mult_IZR, IZR_pow2, Rmult_assoc, <- bpow_plus by lia. f_equal. change (bpow radix2 (49 + -58)) with (/ 512). change (bpow radix2 (-9)) with (/ 512). lra.
  - split; [|vm_compute; reflexivity]. rewrite !powerRZ_bpow. split; [apply Rle_trans with (bpow radix2 (-9)); [apply bpow_le; lia|lra]|apply Rle_trans with (bpow radix2 (-9)); [lra|apply bpow_le; lia]].
Qed.
(** C116: without the condition on b - a it need not *)
Theorem C116_middle_between_refuted : value Linear 16 0x4800 = Some 2 /\
  ~ (forall a b, is_intn 16 a -> is_intn 16 b -> (0 < a <= b)%Z ->
       exists m, middle (takum_linear_addition x86_64 W16) (takum_linear_subtraction x86_64 W16) (takum_linear_division x86_64 W16) 0x4800 a b = Val m /\ (a <= m <= b)%Z).
Proof. exact middle_outside. Qed.
Print Assumptions C116_middle_between_refuted.

(** C117: for n = 16 and 32, with a mathematical library as C99 allows, the squares
    of the sine and the cosine of any linear takum but NaR, computed and added with
    takums, sum to one up to 2^-(n-8) *)
Theorem C117_sine_cosine_squares :
  forall lm w t x f g, c99 lm -> (w = W16 \/ w = W32) -> linear_multiplication (bits w) f -> linear_addition (bits w) g ->
    is_intn (bits w) t -> value Linear (bits w) t = Some x ->
    exists s c s2 c2 r v, api_unary Linear lm n_sin w t = Val s /\ api_unary Linear lm n_cos w t = Val c /\ f s s = Val s2 /\ f c c = Val c2 /\ g s2 c2 = Val r /\
      value Linear (bits w) r = Some v /\ Rabs (v - 1) <= powerRZ 2 (- (bits w - 8)).
Proof. exact pythagoras. Qed.
Print Assumptions C117_sine_cosine_squares.
Example C117_case : c99 ideal /\ linear_multiplication 16 (takum_linear_multiplication x86_64 W16) /\ linear_addition 16 (takum_linear_addition x86_64 W16) /\
  is_intn 16 0x4800 /\ value Linear 16 0x4800 = Some 2.
Proof. split; [exact ideal_c99|]. do 2 (split; [constructor|]). split; [unfold is_intn; simpl; lia|exact (proj1 mean_not_exact)]. Qed.

(** C118: the quotient of logarithmic takums, and of linear takums of 8 and 16
    bits, neither zero nor NaR, is one exactly if they are the same takum *)
Theorem C118_quotient_one_logarithmic :
  forall n f a b, log_division n f -> is_real_takum n a -> is_real_takum n b -> (f a b = Val (2 ^ (n - 2))%Z <-> a = b).
Proof. exact log_quotient_one. Qed.
Print Assumptions C118_quotient_one_logarithmic.
Theorem C118_quotient_one_linear :
  forall n f a b, linear_division n f -> (n = 8 \/ n = 16)%Z -> is_real_takum n a -> is_real_takum n b -> (f a b = Val (2 ^ (n - 2))%Z <-> a = b).
Proof. exact lin_quotient_one. Qed.
Print Assumptions C118_quotient_one_linear.
(** and for linear takums of any width, a smaller positive takum divided by a
    larger one is below one *)
Theorem C118_quotient_below_one :
  forall n f a b x y, linear_division n f -> is_intn n a -> is_intn n b -> value Linear n a = Some x -> value Linear n b = Some y -> 0 < x < y ->
    exists r v, f a b = Val r /\ value Linear n r = Some v /\ v < 1.
Proof. exact lin_quotient_below_one. Qed.
Print Assumptions C118_quotient_below_one.
Example C118_case : log_division 64 (takum64_division x86_64) /\ linear_division 16 (takum_linear_division x86_64 W16) /\
  is_real_takum 64 (2 ^ 62) /\ is_real_takum 64 (2 ^ 62 + 1) /\ is_real_takum 16 0x4800 /\ is_real_takum 16 0x47ff /\
  takum_linear_division x86_64 W16 0x4800 0x47ff = Val 0x4001%Z /\ takum_linear_division x86_64 W16 0x47ff 0x4800 = Val 0x3fff%Z.
Proof.
  do 2 (split; [constructor|]). do 4 (split; [unfold is_real_takum, is_intn, nar; simpl; lia|]). split; vm_compute; reflexivity.
Qed.
(** C119: for linear takums of 32 and 64 bits it can be one for different takums *)
Theorem C119_quotient_one_refuted :
  ~ (forall a b, is_real_takum 32 a -> is_real_takum 32 b -> (takum_linear_division x86_64 W32 a b = Val (2 ^ 30)%Z <-> a = b)) /\
  ~ (forall a b, is_real_takum 64 a -> is_real_takum 64 b -> (takum_linear_division x86_64 W64 a b = Val (2 ^ 62)%Z <-> a = b)).
Proof. exact quotient_one_fails. Qed.
Print Assumptions C119_quotient_one_refuted.
