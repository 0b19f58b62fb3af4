(** Properties C86 and C87: floats that pass through a logarithmic takum of
    64 bits.  Theorems only; proofs are in FloatTrip.v. *)
From Coq Require Import ZArith Reals Bool Lra.
From Flocq Require Import Core.Core IEEE754.BinarySingleNaN.
From Verif Require Import CModel FloatModel Spec LibmSpec LibmIdeal Conversion FloatTrip.
Local Open Scope Z_scope.

(** C86 is false of the code: with every mathematical library meeting the
    assumptions, two neighbouring floats (3 + 2^-20 and the next one) and two
    neighbouring doubles (3 and the next one) that logarithmic takum64 tells
    apart come back as one *)
Theorem C86_float_log64_round_trip_refuted :
  forall lm, c99 lm ->
    (fconst f32 (3 * 2 ^ 22 + 4) (-22) <> fconst f32 (3 * 2 ^ 22 + 5) (-22) /\
     takum64_from_float32 x86_64 lm (fconst f32 (3 * 2 ^ 22 + 4) (-22)) <>
     takum64_from_float32 x86_64 lm (fconst f32 (3 * 2 ^ 22 + 5) (-22)) /\
     (let! t := takum64_from_float32 x86_64 lm (fconst f32 (3 * 2 ^ 22 + 4) (-22)) in takum64_to_float32 x86_64 lm t) =
     (let! t := takum64_from_float32 x86_64 lm (fconst f32 (3 * 2 ^ 22 + 5) (-22)) in takum64_to_float32 x86_64 lm t)) /\
    (fconst f64 3 0 <> fconst f64 (3 * 2 ^ 51 + 1) (-51) /\
     takum64_from_float64 x86_64 lm (fconst f64 3 0) <>
     takum64_from_float64 x86_64 lm (fconst f64 (3 * 2 ^ 51 + 1) (-51)) /\
     (let! t := takum64_from_float64 x86_64 lm (fconst f64 3 0) in takum64_to_float64 x86_64 lm t) =
     (let! t := takum64_from_float64 x86_64 lm (fconst f64 (3 * 2 ^ 51 + 1) (-51)) in takum64_to_float64 x86_64 lm t)).
Proof. exact trip_merges. Qed.
Print Assumptions C86_float_log64_round_trip_refuted.
Example C86_case : c99 ideal.
Proof. exact ideal_c99. Qed.

(** C87: through long double every nonzero float and every double of
    magnitude 2^-64 to 2^64 survives *)
Theorem C87_float32_log64_long_double_round_trip :
  forall lm (f : flt f32), c99 lm -> is_finite f = true -> B2R f <> 0%R ->
    (let! t := takum64_from_float32 x86_64 lm f in
     let! y := takum64_to_extended_float x86_64 lm t in Val (fcast f32 y)) = Val f.
Proof. exact trip32_ld. Qed.
Print Assumptions C87_float32_log64_long_double_round_trip.
Theorem C87_float64_log64_long_double_round_trip :
  forall lm (f : flt f64), c99 lm -> is_finite f = true ->
    (bpow radix2 (-64) <= Rabs (B2R f) <= bpow radix2 64)%R ->
    (let! t := takum64_from_float64 x86_64 lm f in
     let! y := takum64_to_extended_float x86_64 lm t in Val (fcast f64 y)) = Val f.
Proof. exact trip64_ld. Qed.
Print Assumptions C87_float64_log64_long_double_round_trip.
Example C87_case : c99 ideal /\
  is_finite (fconst f32 0xabcdef (-149)) = true /\ B2R (fconst f32 0xabcdef (-149)) <> 0%R /\
  is_finite (fconst f64 3 0) = true /\ (bpow radix2 (-64) <= Rabs (B2R (fconst f64 3 0)) <= bpow radix2 64)%R.
Proof. exact trip_case. Qed.
