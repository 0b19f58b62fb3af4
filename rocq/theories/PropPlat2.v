(** Properties C124 and C125: arithmetic on other platforms.  Theorems only;
    proofs are in PlatArith.v. *)
From Coq Require Import ZArith Bool.
From Flocq Require Import IEEE754.BinarySingleNaN.
From Verif Require Import CModel FloatModel Libm Spec Conversion Arith Wrappers PlatSpec PlatSpec2 PlatDec PlatArith.
Local Open Scope Z_scope.

(** C124: 16 bits are portable: whatever the format of long double, with the
    same mathematical library, the operations and functions that the linear
    type computes in double, and the conversion from double, deliver the same
    takum.  (Multiplication, division, square root and integer powers and roots
    of takum16 do not depend on the platform at all: their models do not take
    it as an argument.) *)
Theorem C124_linear16_portable :
  forall pf lm, wide pf ->
    (forall f : flt f64, takum_linear16_from_float64 pf f = takum_linear16_from_float64 x86_64 f) /\
    (forall a b, is_intn 16 a -> is_intn 16 b ->
       takum_linear_addition pf W16 a b = takum_linear_addition x86_64 W16 a b /\
       takum_linear_subtraction pf W16 a b = takum_linear_subtraction x86_64 W16 a b /\
       takum_linear_multiplication pf W16 a b = takum_linear_multiplication x86_64 W16 a b /\
       takum_linear_division pf W16 a b = takum_linear_division x86_64 W16 a b /\
       takum_linear_power pf lm W16 a b = takum_linear_power x86_64 lm W16 a b /\
       takum_linear_hypotenuse pf lm W16 a b = takum_linear_hypotenuse x86_64 lm W16 a b /\
       takum_linear_arctan2 pf lm W16 a b = takum_linear_arctan2 x86_64 lm W16 a b) /\
    (forall a, is_intn 16 a ->
       takum_linear_square_root pf W16 a = takum_linear_square_root x86_64 W16 a) /\
    (forall u a, in_double u -> is_intn 16 a ->
       takum_linear_unary pf lm u W16 a = takum_linear_unary x86_64 lm u W16 a).
Proof. exact sixteen_portable. Qed.
Print Assumptions C124_linear16_portable.
(** a float and a double obtained from a logarithmic takum are the same on
    every platform where they are computed in the format of the result *)
Theorem C124_logarithmic_to_float_portable :
  forall pf lm t, wide pf ->
    takum8_to_float32 pf lm t = takum8_to_float32 x86_64 lm t /\
    takum16_to_float32 pf lm t = takum16_to_float32 x86_64 lm t /\
    takum32_to_float32 pf lm t = takum32_to_float32 x86_64 lm t /\
    takum16_to_float64 pf lm t = takum16_to_float64 x86_64 lm t /\
    takum32_to_float64 pf lm t = takum32_to_float64 x86_64 lm t /\
    takum_linear16_from_takum16 pf lm t = takum_linear16_from_takum16 x86_64 lm t.
Proof. exact log_to_float_portable. Qed.
Print Assumptions C124_logarithmic_to_float_portable.
(** an inexact sum and a quotient with a long double of 53 and of 113 bits *)
Example C124_case : wide pf53 /\ wide pf113 /\ is_intn 16 0x4123 /\ is_intn 16 (-0x3456) /\
  takum_linear_addition pf113 W16 0x4123 (-0x3456) = Val 0x3df0 /\
  takum_linear_division pf53 W16 0x4123 (-0x3456) = takum_linear_division x86_64 W16 0x4123 (-0x3456) /\
  in_double n_exp.
Proof.
  split; [left; reflexivity|]. split; [right; right; reflexivity|].
  split; [split; reflexivity || discriminate|]. split; [split; reflexivity || discriminate|].
  split; [vm_compute; reflexivity|]. split; [vm_compute; reflexivity|constructor].
Qed.

(** C125: the operations of the other widths are portable too.  False: on every
    other platform one times a number (0x40... is one) and a number plus zero
    are something else ... *)
Theorem C125_other_widths_portable_refuted :
  forall pf, wide pf -> pf <> x86_64 ->
    takum8_multiplication pf 0x40 0x42 <> takum8_multiplication x86_64 0x40 0x42 /\
    takum32_multiplication pf 0x40000000 0x42000000 <> takum32_multiplication x86_64 0x40000000 0x42000000 /\
    takum64_multiplication pf 0x4000000000000000 0x4200000000000000 <> takum64_multiplication x86_64 0x4000000000000000 0x4200000000000000 /\
    takum_linear_addition pf W8 0x42 0 <> takum_linear_addition x86_64 W8 0x42 0 /\
    takum_linear_addition pf W32 0x42000000 0 <> takum_linear_addition x86_64 W32 0x42000000 0 /\
    takum_linear_addition pf W64 0x4200000000000000 0 <> takum_linear_addition x86_64 W64 0x4200000000000000 0.
Proof. exact other_widths_wrong. Qed.
Print Assumptions C125_other_widths_portable_refuted.
(** ... and where long double has 53 or 113 bits they can be undefined *)
Theorem C125_other_widths_undefined :
  forall pf, ld pf = f64 \/ ld pf = f128 ->
    takum8_multiplication pf 0x40 0x44 = UB /\
    takum32_multiplication pf 0x40000000 0x44000000 = UB /\
    takum_linear_addition pf W8 0x44 0 = UB /\
    takum_linear_addition pf W32 0x44000000 0 = UB.
Proof. exact other_widths_ub. Qed.
Print Assumptions C125_other_widths_undefined.
(** the doubled and the halved fraction *)
Example C125_case : wide pf113 /\ pf113 <> x86_64 /\
  takum8_multiplication x86_64 0x40 0x42 = Val 0x42 /\
  takum8_multiplication pf113 0x40 0x42 = Val 0x44 /\
  takum8_multiplication {| ld := f80; big_endian_struct := false |} 0x40 0x42 = Val 0x41.
Proof. split; [right; right; reflexivity|]. split; [discriminate|]. vm_compute. repeat split; reflexivity. Qed.
