(** Property C26: NaR propagates.  Theorems only; proofs are in WrapNar.v.
    [c99 lm] (LibmSpec.v): the mathematical library follows C99 Annex F. *)
From Coq Require Import ZArith Bool.
From Flocq Require Import IEEE754.BinarySingleNaN.
From Verif Require Import CModel FloatModel Libm LibmSpec Spec Conversion Wrappers LibmIdeal WrapApi LogConv LinApi LinDec WrapNar.
Local Open Scope Z_scope.

(** functions of one takum, conversions between widths and formats *)
Theorem C26_functions_of_nar :
  forall lm n m f, c99 lm -> takum_function lm n m f -> f (nar n) = Val (nar m).
Proof. exact function_nar. Qed.
Print Assumptions C26_functions_of_nar.

(** functions of two takums *)
Theorem C26_binary_nar :
  forall k lm b w x y, c99 lm -> b <> n_power -> is_intn (bits w) x -> is_intn (bits w) y ->
    x = nar (bits w) \/ y = nar (bits w) -> api_binary k lm b w x y = Val (nar (bits w)).
Proof. exact binary_nar. Qed.
Print Assumptions C26_binary_nar.

Theorem C26_integer_power_nar :
  forall k lm w m, api_integer_power k lm w (nar (bits w)) m = Val (nar (bits w)).
Proof. exact ipow_nar. Qed.
Print Assumptions C26_integer_power_nar.

Theorem C26_root_nar :
  forall k lm w m, c99 lm -> - 2 ^ 63 <= m < 2 ^ 63 -> api_root k lm w (nar (bits w)) m = Val (nar (bits w)).
Proof. exact root_nar_. Qed.
Print Assumptions C26_root_nar.

(** floats: NaR to NaN; NaN and the infinities to NaR *)
Theorem C26_nar_to_float :
  forall lm k n F f, c99 lm -> to_float lm k n F f -> f (nar n) = Val B754_nan.
Proof. exact to_float_nar. Qed.
Print Assumptions C26_nar_to_float.
Theorem C26_nonfinite_to_nar :
  forall lm k n F f (y : flt F), from_float lm k n F f -> is_finite y = false -> f y = Val (nar n).
Proof. exact from_float_nar. Qed.
Print Assumptions C26_nonfinite_to_nar.

Example C26_case : c99 ideal /\ takum_function ideal 64 64 (api_unary Linear ideal n_arcoth W64) /\
  takum_function ideal 8 64 (takum_linear64_from_takum8 x86_64 ideal) /\ is_intn 16 5 /\ n_hypotenuse <> n_power /\
  to_float ideal Logarithmic 16 f80 (takum16_to_extended_float x86_64 ideal) /\
  from_float ideal Logarithmic 16 f80 (takum16_from_extended_float x86_64 ideal).
Proof.
  split; [exact ideal_c99|].
  split; [apply (tf_unary ideal Linear n_arcoth W64)|]. split; [apply tf_log_to_linear; constructor|].
  split; [split; vm_compute; discriminate || reflexivity|]. split; [discriminate|].
  split; [apply to_float_log; constructor|apply from_float_log; constructor].
Qed.
