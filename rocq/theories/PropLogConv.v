(** Properties C30, C52 and C53: conversions between logarithmic takums and
    floats.  Theorems only; proofs are in LogConv.v. *)
From Coq Require Import ZArith Reals Bool Lra.
From Flocq Require Import Core.Core IEEE754.BinarySingleNaN.
From Verif Require Import CModel FloatModel Spec LibmSpec LibmIdeal Conversion WrapApi LogConv.
Local Open Scope Z_scope.

(** C30: a logarithmic takum of n bits survives the trip through a float with
    a precision of at least n bits; through float32 only if it is in its
    range *)
Theorem C30_log_takum_float_round_trip :
  forall lm n F h g t, c99 lm -> log_to_float lm n F h -> log_from_float lm n F g ->
    n <= fprec F -> is_intn n t ->
    (F = f32 -> match value Logarithmic n t with
                | Some x => (x = 0 \/ Rabs (log_coord x) <= 159)%R | None => True end) ->
    (let! y := h t in g y) = Val t.
Proof. exact log_trip. Qed.
Print Assumptions C30_log_takum_float_round_trip.
Example C30_case : c99 ideal /\
  log_to_float ideal 64 f80 (takum64_to_extended_float x86_64 ideal) /\
  log_from_float ideal 64 f80 (takum64_from_extended_float x86_64 ideal) /\
  64 <= fprec f80 /\ is_intn 64 (-0x7123456789abcdef).
Proof. split; [exact ideal_c99|]. split; [constructor|split; [constructor|]]. split; [|split]; vm_compute; discriminate || reflexivity. Qed.

(** C52: the error of the conversion to a float, relative to the value x, is
    at most 8 units of the last place times 1 + |2 ln |x||; 0 and NaR become 0
    and NaN *)
Theorem C52_log_to_float_accuracy :
  forall lm n F h t x, c99 lm -> log_to_float lm n F h -> value Logarithmic n t = Some x ->
    is_intn n t -> x <> 0%R -> (F = f32 -> Rabs (log_coord x) <= 159)%R ->
    exists y, h t = Val y /\ is_finite y = true /\
      (Rabs (B2R y - x) <= bpow radix2 (4 - fprec F) * (Rabs (log_coord x) + 1) * Rabs x)%R.
Proof. exact log_to_accurate. Qed.
Print Assumptions C52_log_to_float_accuracy.
Theorem C52_log_to_float_specials :
  forall lm n F h, c99 lm -> log_to_float lm n F h ->
    h 0 = Val (B754_zero false) /\ h (nar n) = Val B754_nan.
Proof. exact log_to_specials. Qed.
Print Assumptions C52_log_to_float_specials.
Example C52_case : c99 ideal /\ log_to_float ideal 16 f32 (takum16_to_float32 x86_64 ideal) /\
  is_intn 16 0x5000 /\ exists x, value Logarithmic 16 0x5000 = Some x.
Proof.
  split; [exact ideal_c99|]. split; [constructor|]. split; [split; vm_compute; discriminate || reflexivity|].
  unfold value. destruct (Z.eq_dec _ _); [discriminate|]. destruct (Z.eq_dec _ _); [discriminate|]. eexists. reflexivity.
Qed.

(** C53: a finite float becomes one of the two takums next to it (itself if
    it is one), with saturation and never 0 unless it is 0; infinities and NaN
    become NaR *)
Theorem C53_log_from_float_faithful :
  forall lm n F g (y : flt F), c99 lm -> log_from_float lm n F g -> is_finite y = true ->
    exists t, g y = Val t /\ rounds_faithfully Logarithmic n (B2R y) t.
Proof. exact log_from_faithful. Qed.
Print Assumptions C53_log_from_float_faithful.
Theorem C53_log_from_float_nar :
  forall lm n F g (y : flt F), log_from_float lm n F g -> is_finite y = false -> g y = Val (nar n).
Proof. exact log_from_specials. Qed.
Print Assumptions C53_log_from_float_nar.
Example C53_case : c99 ideal /\
  log_from_float ideal 8 f64 (takum8_from_float64 x86_64 ideal) /\
  is_finite (fconst f64 0x1123456789abcd (-1000)) = true.
Proof. split; [exact ideal_c99|]. split; [constructor|vm_compute; reflexivity]. Qed.
