(** Properties C109 and C110: conversions to takums depend on the value of the
    float, not on its format.  Theorems only; proofs are in FormatFree.v. *)
From Coq Require Import ZArith Reals Bool Lia Lra.
From Flocq Require Import Core.Core IEEE754.BinarySingleNaN.
From Verif Require Import CModel FloatModel Spec Libm LibmSpec LibmIdeal Conversion LinApi WrapApi FormatFree.
Local Open Scope R_scope.

(** C109: floats of the same value in two formats give the same takum ... *)
Theorem C109_linear_from_float_depends_on_value :
  forall n F F' g g' (f : flt F) (f' : flt F'), linear_from_float n F g -> linear_from_float n F' g' ->
    n <> 16%Z \/ (F <> f32 /\ F' <> f32) ->
    is_finite f = true -> is_finite f' = true -> B2R f = B2R f' -> g f = g' f'.
Proof. exact linear_from_value. Qed.
Print Assumptions C109_linear_from_float_depends_on_value.
Theorem C109_log_from_float_depends_on_value :
  forall lm n F F' g g' (f : flt F) (f' : flt F'), log_from_float lm n F g -> log_from_float lm n F' g' ->
    n = 64%Z \/ ((n = 8%Z \/ n = 16%Z) /\ F <> f32 /\ F' <> f32) ->
    is_finite f = true -> is_finite f' = true -> B2R f = B2R f' -> g f = g' f'.
Proof. exact log_from_value. Qed.
Print Assumptions C109_log_from_float_depends_on_value.
(** ... and, in the remaining cases, takums that differ by at most one unit *)
Theorem C109_linear_from_float_formats_agree :
  forall n F F' g g' (f : flt F) (f' : flt F'), linear_from_float n F g -> linear_from_float n F' g' ->
    is_finite f = true -> is_finite f' = true -> B2R f = B2R f' ->
    exists t t', g f = Val t /\ g' f' = Val t' /\ (Z.abs (t - t') <= 1)%Z.
Proof. exact linear_from_value_close. Qed.
Print Assumptions C109_linear_from_float_formats_agree.
Theorem C109_log_from_float_formats_agree :
  forall lm n F F' g g' (f : flt F) (f' : flt F'), c99 lm -> log_from_float lm n F g -> log_from_float lm n F' g' ->
    is_finite f = true -> is_finite f' = true -> B2R f = B2R f' ->
    exists t t', g f = Val t /\ g' f' = Val t' /\ (Z.abs (t - t') <= 1)%Z.
Proof. exact log_from_value_close. Qed.
Print Assumptions C109_log_from_float_formats_agree.
Example C109_case : linear_from_float 32 f32 (takum_linear32_from_float32 x86_64) /\ linear_from_float 32 f64 (takum_linear32_from_float64 x86_64) /\
  log_from_float ideal 64 f32 (takum64_from_float32 x86_64 ideal) /\ log_from_float ideal 64 f80 (takum64_from_extended_float x86_64 ideal) /\
  is_finite (fconst f32 3 (-1)) = true /\ is_finite (fconst f64 3 (-1)) = true /\ B2R (fconst f32 3 (-1)) = 3 / 2 /\ B2R (fconst f64 3 (-1)) = 3 / 2 /\
  takum_linear32_from_float32 x86_64 (fconst f32 3 (-1)) = Val 0x44000000%Z /\ takum_linear32_from_float64 x86_64 (fconst f64 3 (-1)) = Val 0x44000000%Z.
Proof.
  split; [constructor|]. split; [constructor|]. split; [constructor|]. split; [constructor|]. split; [vm_compute; reflexivity|]. split; [vm_compute; reflexivity|].
  split; [|split; [|vm_compute; auto]].
  - replace (B2R (fconst f32 3 (-1))) with (IZR 12582912 * bpow radix2 (-23)) by (vm_compute; reflexivity). change (bpow radix2 (-23)) with (/ 8388608). lra.
  - replace (B2R (fconst f64 3 (-1))) with (IZR 6755399441055744 * bpow radix2 (-52)) by (vm_compute; reflexivity). change (bpow radix2 (-52)) with (/ 4503599627370496). lra.
Qed.

(** C110: for linear takums of 16 bits a float32 and the same number as float64
    need not give the same takum: the float32 is rounded twice *)
Theorem C110_linear16_from_float32_equals_float64_refuted :
  ~ (forall f : flt f32, is_finite f = true ->
       takum_linear16_from_float32 f = takum_linear16_from_float64 x86_64 (fcast f64 f)).
Proof. exact linear16_formats_differ. Qed.
Print Assumptions C110_linear16_from_float32_equals_float64_refuted.
