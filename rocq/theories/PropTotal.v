(** Property C35: no undefined behaviour.  Theorems only; proofs are in
    WrapTotal.v.  [Val] is a defined outcome; nothing is assumed of the
    mathematical library. *)
From Coq Require Import ZArith Bool.
From Flocq Require Import IEEE754.BinarySingleNaN.
From Verif Require Import CModel FloatModel Libm Spec Conversion Wrappers LibmIdeal WrapApi WrapTotal.
Local Open Scope Z_scope.

(** functions of one takum, conversions between widths and formats *)
Theorem C35_functions_defined :
  forall lm n m f t, takum_function lm n m f -> is_intn n t ->
    exists r, f t = Val r /\ is_intn m r.
Proof. exact takum_function_total. Qed.
Print Assumptions C35_functions_defined.

Theorem C35_binary_defined :
  forall k lm b w x y, is_intn (bits w) x -> is_intn (bits w) y ->
    exists r, api_binary k lm b w x y = Val r /\ is_intn (bits w) r.
Proof. exact binary_total. Qed.
Print Assumptions C35_binary_defined.

Theorem C35_integer_power_defined :
  forall k lm w t n, is_intn (bits w) t ->
    exists r, api_integer_power k lm w t n = Val r /\ is_intn (bits w) r.
Proof. exact ipow_total. Qed.
Print Assumptions C35_integer_power_defined.

Theorem C35_root_defined :
  forall k lm w t n, is_intn (bits w) t ->
    exists r, api_root k lm w t n = Val r /\ is_intn (bits w) r.
Proof. exact root_total. Qed.
Print Assumptions C35_root_defined.

(** conversions from and to floats; every float, not only finite ones *)
Theorem C35_from_float_defined :
  forall lm k n F f (x : flt F), from_float lm k n F f -> exists r, f x = Val r /\ is_intn n r.
Proof. exact from_total. Qed.
Print Assumptions C35_from_float_defined.
Theorem C35_to_float_defined :
  forall lm k n F f t, to_float lm k n F f -> is_intn n t -> exists y, f t = Val y.
Proof. exact to_total. Qed.
Print Assumptions C35_to_float_defined.

Example C35_case : takum_function ideal 64 64 (api_unary Linear ideal n_arcoth W64) /\
  takum_function ideal 8 64 (takum_linear64_from_takum8 x86_64 ideal) /\ is_intn 64 (nar 64) /\
  from_float ideal Logarithmic 16 f80 (takum16_from_extended_float x86_64 ideal).
Proof.
  split; [apply (tf_unary ideal Linear n_arcoth W64)|]. split; [apply tf_log_to_linear; constructor|].
  split; [split; vm_compute; discriminate || reflexivity|]. apply from_float_log. constructor.
Qed.
