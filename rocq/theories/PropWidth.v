(** Properties C03 - C07: order and negation of bit patterns, width
    conversions.  Theorems only; proofs are in WidthProps.v. *)
From Coq Require Import ZArith Reals Bool.
From Verif Require Import CModel WidthConv Spec WidthFacts WidthApi WidthProps.
Local Open Scope Z_scope.

(** C03: the order of the integers is the order of the numbers *)
Theorem C03_integer_order_is_numeric_order :
  forall k n t t' x x', std_width n -> is_intn n t -> is_intn n t' ->
    value k n t = Some x -> value k n t' = Some x' -> (t < t' <-> (x < x')%R).
Proof. exact order_numeric. Qed.
Print Assumptions C03_integer_order_is_numeric_order.
Example C03_case : value Linear 8 0x41 = Some (lin_real 8 0x41) /\
                   value Linear 8 (-0x41) = Some (lin_real 8 (-0x41)) /\ is_intn 8 (-0x41).
Proof. repeat split; try reflexivity; intro; discriminate. Qed.

Theorem C03_nar_is_least :
  forall k n t, std_width n -> is_intn n t ->
    (value k n t = None <-> t = nar n) /\ nar n <= t.
Proof. exact order_nar_least. Qed.
Print Assumptions C03_nar_is_least.

Theorem C03_distinct_patterns_distinct_values :
  forall k n t t', std_width n -> is_intn n t -> is_intn n t' ->
    value k n t = value k n t' -> t = t'.
Proof. exact value_injective. Qed.
Print Assumptions C03_distinct_patterns_distinct_values.

(** C04: integer negation negates the number *)
Theorem C04_integer_negation_negates :
  forall k n t, std_width n -> is_intn n t -> t <> nar n ->
    is_intn n (- t) /\ - t <> nar n /\
    exists x, value k n t = Some x /\ value k n (- t) = Some (- x)%R.
Proof. exact negation_negates. Qed.
Print Assumptions C04_integer_negation_negates.
Example C04_case : is_intn 64 0x4123456789abcdef /\ 0x4123456789abcdef <> nar 64.
Proof. repeat split; try reflexivity; intro; discriminate. Qed.

(** C05: widening is lossless *)
Theorem C05_widening_lossless :
  forall k A B f t, widening k A B f -> is_intn A t ->
    exists t', f t = Val t' /\ is_intn B t' /\ value k B t' = value k A t.
Proof. exact widening_lossless. Qed.
Print Assumptions C05_widening_lossless.
Example C05_case : widening Linear 16 64 takum_linear64_from_takum_linear16 /\
  takum_linear64_from_takum_linear16 (-0x1234) = Val (-0x1234 * 2 ^ 48).
Proof. split; [constructor|vm_compute; reflexivity]. Qed.

Theorem C05_widening_preserves_order :
  forall k A B f t1 t2 u1 u2, widening k A B f -> is_intn A t1 -> is_intn A t2 ->
    f t1 = Val u1 -> f t2 = Val u2 -> (t1 < t2 <-> u1 < u2).
Proof. exact widening_order. Qed.
Print Assumptions C05_widening_preserves_order.

(** C06: narrowing is correctly rounded (nearest, ties to even) and never
    produces 0 or NaR from a nonzero real *)
Theorem C06_narrowing_correctly_rounded :
  forall k A B f t, narrowing k A B f -> is_intn A t ->
    exists t', f t = Val t' /\ is_intn B t' /\
      match value k A t with
      | None => t' = nar B
      | Some x => rounds k B x t'
      end.
Proof. exact narrowing_rounds. Qed.
Print Assumptions C06_narrowing_correctly_rounded.
(** ties to even in both directions, saturation at both ends *)
Example C06_case : narrowing Logarithmic 16 8 takum8_from_takum16 /\
  takum8_from_takum16 0x4080 = Val 0x40 /\ takum8_from_takum16 0x4180 = Val 0x42 /\
  takum8_from_takum16 1 = Val 1 /\ takum8_from_takum16 0x7fff = Val 0x7f /\
  takum8_from_takum16 (-1) = Val (-1) /\ takum8_from_takum16 (-0x7fff) = Val (-0x7f).
Proof. split; [constructor|vm_compute; auto 10]. Qed.

(** C07: narrowing after widening is the identity; narrowing is monotone and odd *)
Theorem C07_narrow_after_widen :
  forall k A B w f t, widening k A B w -> narrowing k B A f -> is_intn A t ->
    exists t', w t = Val t' /\ f t' = Val t.
Proof. exact narrow_widen_id. Qed.
Print Assumptions C07_narrow_after_widen.
Example C07_case : widening Linear 8 32 takum_linear32_from_takum_linear8 /\
                   narrowing Linear 32 8 takum_linear8_from_takum_linear32.
Proof. split; constructor. Qed.

Theorem C07_narrowing_monotone :
  forall k A B f t1 t2 u1 u2, narrowing k A B f -> is_intn A t1 -> is_intn A t2 ->
    f t1 = Val u1 -> f t2 = Val u2 -> t1 <= t2 -> u1 <= u2.
Proof. exact narrowing_mono. Qed.
Print Assumptions C07_narrowing_monotone.

Theorem C07_narrowing_odd :
  forall k A B f t u, narrowing k A B f -> is_intn A t -> t <> nar A ->
    f t = Val u -> f (- t) = Val (- u).
Proof. exact narrowing_odd. Qed.
Print Assumptions C07_narrowing_odd.
