(** Property C75: results that are takums themselves are returned exactly; and
    more on C43 and C53: conversions from floats return the nearest takum up to
    a stated error.  Theorems only; proofs are in WrapExact.v and NearCode.v. *)
From Coq Require Import ZArith Reals Bool Lia Lra.
From Flocq Require Import Core.Core IEEE754.BinarySingleNaN.
From Verif Require Import CModel FloatModel Libm LibmSpec Spec Wrappers LibmIdeal ValueFacts WidthFacts WidthApi WrapApi WrapSpec WrapSpec2 LinArithRefute MiscProps LinApi Conversion NearCode WrapExact.
Local Open Scope R_scope.

(** functions of one argument, of takums of 8, 16 and 32 bits: linear ones
    unless the function works with a rounded argument, logarithmic ones at 0 *)
Theorem C75_unary_exact :
  forall k lm u w t x t', c99 lm -> w <> W64 -> (k = Linear /\ argument_error u = 0) \/ x = 0 ->
    is_intn (bits w) t -> value k (bits w) t = Some x -> regular k (bits w) u x ->
    is_intn (bits w) t' -> value k (bits w) t' = Some (real_fun u x) -> api_unary k lm u w t = Val t'.
Proof. exact unary_exact. Qed.
Print Assumptions C75_unary_exact.

(** addition, subtraction, hypotenuse, power and the angle of a point *)
Theorem C75_linear_binary_exact :
  forall lm, c99 lm -> forall b w s t x y r t', w <> W64 -> b <> n_multiplication -> b <> n_division ->
    is_intn (bits w) s -> is_intn (bits w) t -> value Linear (bits w) s = Some x -> value Linear (bits w) t = Some y ->
    is_value2 b x y r ->
    is_intn (bits w) t' -> value Linear (bits w) t' = Some r -> api_binary Linear lm b w s t = Val t'.
Proof. exact binary_exact. Qed.
Print Assumptions C75_linear_binary_exact.

(** integer powers, of all widths *)
Theorem C75_linear_integer_power_exact :
  forall lm, c99 lm -> forall w t j x t', is_intn (bits w) t -> is_int64 j ->
    value Linear (bits w) t = Some x -> x <> 0 \/ (0 < j)%Z ->
    is_intn (bits w) t' -> value Linear (bits w) t' = Some (powerRZ x j) -> api_integer_power Linear lm w t j = Val t'.
Proof. exact integer_power_exact. Qed.
Print Assumptions C75_linear_integer_power_exact.

(** roots of positive numbers; the first root and its inverse of any *)
Theorem C75_linear_root_exact :
  forall lm, c99 lm -> forall w t j x r t', w <> W64 -> is_intn (bits w) t -> is_int64 j ->
    value Linear (bits w) t = Some x -> 0 < x \/ j = 1%Z \/ j = (-1)%Z -> is_root j x r ->
    is_intn (bits w) t' -> value Linear (bits w) t' = Some r -> api_root Linear lm w t j = Val t'.
Proof. exact root_exact. Qed.
Print Assumptions C75_linear_root_exact.

(** the numbers 2, 3, 4, 5 and 8 as linear takums of 16 bits; with them 2^3 = 8
    (as a function of 3 and as an integer power of 2), the hypotenuse of 3 and 4
    is 5, and the third root of 8 is 2; the logarithmic takum 0 with exp 0 = 1 *)
Example C75_case : c99 ideal /\
  value Linear 16 0x4800 = Some 2 /\ value Linear 16 0x4a00 = Some 3 /\ value Linear 16 0x4c00 = Some 4 /\
  value Linear 16 0x4d00 = Some 5 /\ value Linear 16 0x5000 = Some 8 /\
  (argument_error n_2_raised = 0 /\ real_fun n_2_raised 3 = 8) /\ regular Linear 16 n_2_raised 3 /\
  is_value2 n_hypotenuse 3 4 5 /\ powerRZ 2 3 = 8 /\ is_root 3 8 2 /\
  value Logarithmic 32 (2 ^ 30) = Some (real_fun n_exp 0) /\ regular Logarithmic 32 n_exp 0.
Proof.
  assert (forall t m e v, (0 < t < 2 ^ 15)%Z -> vm 16 t = m -> ve 16 t = e -> v = IZR m * bpow radix2 e -> value Linear 16 t = Some v) as K.
  { intros t m e v Ht <- <- ->. apply value_const; [lia|exact Ht]. }
  split; [exact ideal_c99|].
  split; [eapply K; [lia|vm_compute; reflexivity|vm_compute; reflexivity|simpl; lra]|].
  split; [eapply K; [lia|vm_compute; reflexivity|vm_compute; reflexivity|simpl; lra]|].
  split; [eapply K; [lia|vm_compute; reflexivity|vm_compute; reflexivity|simpl; lra]|].
  split; [eapply K; [lia|vm_compute; reflexivity|vm_compute; reflexivity|simpl; lra]|].
  split; [eapply K; [lia|vm_compute; reflexivity|vm_compute; reflexivity|simpl; lra]|].
  split; [split; [reflexivity|]|].
  { cbn [real_fun]. replace 3 with (INR 3) by (simpl; lra). rewrite Rpower_pow by lra. simpl. lra. }
  split; [split; exact Logic.I|]. split; [|split; [simpl; lra|split; [|split; [|split; exact Logic.I]]]].
  - unfold is_value2. replace (3 * 3 + 4 * 4) with (5 * 5) by ring. rewrite sqrt_square; lra.
  - split; [lia|]. split; [lia|]. split; [simpl; lra|lra].
  - cbn [real_fun]. rewrite exp_0. apply (value_one_k Logarithmic 32). unfold std_width; tauto.
Qed.

(** C43, C53: from double and from wider floats to linear takums of all
    widths, and from long double to logarithmic takums of all widths: the
    takum nearest to a number whose coordinate differs from that of the float
    by at most [code_error] times 1 plus the coordinate *)
Theorem C43_linear_from_wide_float_nearly_partial :
  forall n F g (f : flt F), linear_from_float n F g -> F <> f32 ->
    is_finite f = true -> exists t, g f = Val t /\ rounds_nearly Linear n (code_error Linear n) (B2R f) t.
Proof. exact lin_from_near. Qed.
Print Assumptions C43_linear_from_wide_float_nearly_partial.
Theorem C53_log_from_extended_nearly :
  forall lm n g (y : flt f80), c99 lm -> log_from_float lm n f80 g ->
    is_finite y = true -> exists t, g y = Val t /\ rounds_nearly Logarithmic n (code_error Logarithmic n) (B2R y) t.
Proof. exact log_from_near. Qed.
Print Assumptions C53_log_from_extended_nearly.
Example C53_nearly_case : c99 ideal /\
  linear_from_float 16 f80 (takum_linear16_from_extended_float x86_64) /\
  log_from_float ideal 64 f80 (takum64_from_extended_float x86_64 ideal) /\
  is_finite (fconst f80 (2 ^ 63 + 12345678) (-63)) = true.
Proof. split; [exact ideal_c99|]. split; [constructor|]. split; [constructor|vm_compute; reflexivity]. Qed.
