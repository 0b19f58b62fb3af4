(** Properties C126 and C127: floats to narrow linear takums through linear
    takum64.  Theorems only; proofs are in Detour.v. *)
From Coq Require Import ZArith Reals Bool.
From Flocq Require Import IEEE754.BinarySingleNaN.
From Verif Require Import CModel FloatModel Spec FloatSpec WidthApi WidthConv Conversion LinApi Detour.
Local Open Scope Z_scope.

(** C126: a float or double converted to linear takum64 and narrowed is
    correctly rounded at every width, with saturation *)
Theorem C126_through_linear64_correctly_rounded :
  forall n F g h (f : flt F), linear_from_float 64 F g -> (F = f32 \/ F = f64) -> narrowing Linear 64 n h ->
    is_finite f = true ->
    exists t v, g f = Val t /\ h t = Val v /\ is_intn n v /\ rounds Linear n (B2R f) v.
Proof. exact detour_rounds. Qed.
Print Assumptions C126_through_linear64_correctly_rounded.
(** at 32 bits this is what the direct conversion gives *)
Theorem C126_linear32_through_linear64 :
  forall F g h d (f : flt F), linear_from_float 64 F g -> (F = f32 \/ F = f64) -> narrowing Linear 64 32 h ->
    linear_from_float 32 F d -> is_finite f = true ->
    (let! t := g f in h t) = d f.
Proof. exact detour_32. Qed.
Print Assumptions C126_linear32_through_linear64.
(** an inexact conversion to 16 bits; a number out of range *)
Example C126_case :
  linear_from_float 64 f64 (takum_linear64_from_float64 x86_64) /\ narrowing Linear 64 16 takum_linear16_from_takum_linear64 /\
  (let! t := takum_linear64_from_float64 x86_64 (fconst f64 0x1123456789abcd (-52)) in takum_linear16_from_takum_linear64 t) = Val 0x4092 /\
  (let! t := takum_linear64_from_float64 x86_64 (fconst f64 (-1) 1000) in takum_linear16_from_takum_linear64 t) = Val (-0x7fff).
Proof. split; [constructor|]. split; [constructor|]. split; vm_compute; reflexivity. Qed.

(** C127: at 8 and 16 bits the direct conversion agrees with the one through
    linear takum64.  False: it rounds twice. *)
Theorem C127_direct_conversion_refuted :
  forall n F g h d, linear_from_float 64 F g -> (F = f32 \/ F = f64) -> narrowing Linear 64 n h ->
    linear_from_float n F d -> n <= 16 ->
    exists f, is_finite f = true /\ (let! t := g f in h t) <> d f.
Proof. exact detour_refuted. Qed.
Print Assumptions C127_direct_conversion_refuted.
Example C127_case :
  linear_from_float 64 f64 (takum_linear64_from_float64 x86_64) /\ narrowing Linear 64 16 takum_linear16_from_takum_linear64 /\
  linear_from_float 16 f64 (takum_linear16_from_float64 x86_64).
Proof. repeat split; constructor. Qed.
