(** Properties C76 and C77: addition and subtraction of logarithmic takums, and
    signs in their conversions to and from floats.
    Theorems only; proofs are in LogAlgebra.v, LogOddRefute.v and
    LogOdd8.v. *)
From Coq Require Import ZArith Reals Bool Lia Lra.
From Flocq Require Import Core.Core IEEE754.BinarySingleNaN.
From Verif Require Import CModel FloatModel Libm LibmSpec Spec Wrappers Conversion LibmIdeal WidthFacts WidthApi WrapApi LogConv LogAlgebra LogOddRefute LogOdd8.
Local Open Scope R_scope.

(** a + b = b + a, whatever the mathematical library returns *)
Theorem C76_addition_commutes :
  forall lm w a b, api_binary Logarithmic lm n_addition w a b = api_binary Logarithmic lm n_addition w b a.
Proof. exact log_addition_commutes. Qed.
Print Assumptions C76_addition_commutes.

(** a + 0 = a, a - 0 = a and 0 - a = -a; a is NaR in the first two as well *)
Theorem C76_zero_is_neutral :
  forall lm w a, c99 lm -> is_intn (bits w) a ->
    api_binary Logarithmic lm n_addition w a 0 = Val a /\ api_binary Logarithmic lm n_subtraction w a 0 = Val a /\
    (a <> nar (bits w) -> api_binary Logarithmic lm n_subtraction w 0 a = Val (- a)%Z).
Proof. exact log_zero_neutral. Qed.
Print Assumptions C76_zero_is_neutral.

(** a - b = a + (-b) *)
Theorem C76_subtraction_adds_the_negative :
  forall lm w a b, c99 lm -> is_intn (bits w) a -> is_intn (bits w) b -> b <> nar (bits w) ->
    api_binary Logarithmic lm n_subtraction w a b = api_binary Logarithmic lm n_addition w a (- b).
Proof. exact log_subtraction_is_addition. Qed.
Print Assumptions C76_subtraction_adds_the_negative.

(** a - b is positive, zero or negative as a > b, a = b or a < b *)
Theorem C76_sign_of_difference :
  forall lm w a b, c99 lm -> is_intn (bits w) a -> is_intn (bits w) b -> a <> nar (bits w) -> b <> nar (bits w) ->
    exists t, api_binary Logarithmic lm n_subtraction w a b = Val t /\ t <> nar (bits w) /\ Z.sgn t = Z.sgn (a - b).
Proof. exact log_difference_sign. Qed.
Print Assumptions C76_sign_of_difference.

(** a + b is positive, zero or negative as a > -b, a = -b or a < -b *)
Theorem C76_sign_of_sum :
  forall lm w a b, c99 lm -> is_intn (bits w) a -> is_intn (bits w) b -> a <> nar (bits w) -> b <> nar (bits w) ->
    exists t, api_binary Logarithmic lm n_addition w a b = Val t /\ t <> nar (bits w) /\ Z.sgn t = Z.sgn (a + b).
Proof. exact log_sum_sign. Qed.
Print Assumptions C76_sign_of_sum.

(** conversion to any float format commutes with negation *)
Theorem C76_to_float_odd :
  forall lm n F h t y, c99 lm -> log_to_float lm n F h -> is_intn n t -> t <> 0%Z -> t <> nar n ->
    h t = Val y -> h (- t)%Z = Val (fneg y).
Proof. exact log_to_neg. Qed.
Print Assumptions C76_to_float_odd.

(** conversion to long double keeps different takums apart and in order *)
Theorem C76_to_extended_increasing :
  forall lm n h s t, c99 lm -> log_to_float lm n f80 h -> is_intn n s -> is_intn n t -> s <> nar n -> (s < t)%Z ->
    exists y z, h s = Val y /\ h t = Val z /\ is_finite y = true /\ is_finite z = true /\ B2R y < B2R z.
Proof. exact log_to_lt. Qed.
Print Assumptions C76_to_extended_increasing.

(** two neighbouring 64 bit takums above 1 and their difference *)
Example C76_case : c99 ideal /\ is_intn (bits W64) (2 ^ 62 + 2) /\ is_intn (bits W64) (2 ^ 62 + 1) /\ (2 ^ 62 + 1 <> nar (bits W64))%Z /\
  Z.sgn (2 ^ 62 + 2 - (2 ^ 62 + 1)) = 1%Z /\ log_to_float ideal 64 f80 (takum64_to_extended_float x86_64 ideal).
Proof.
  split; [exact ideal_c99|]. split; [unfold is_intn; simpl; lia|]. split; [unfold is_intn; simpl; lia|]. split; [unfold nar; simpl; lia|].
  split; [reflexivity|constructor].
Qed.

(** conversion from long double to 16, 32 and 64 bits does not commute with
    negation: some y becomes t while -y becomes -t - 1 *)
Theorem C77_from_extended_odd_refuted :
  forall lm n h, c99 lm -> log_from_float lm n f80 h -> n <> 8%Z ->
    exists (y : flt f80) t, fisfinite y = true /\ h y = Val t /\ h (fneg y) = Val (- t - 1)%Z.
Proof. exact log_from_extended_not_odd. Qed.
Print Assumptions C77_from_extended_odd_refuted.

Example C77_case : c99 ideal /\ log_from_float ideal 64 f80 (takum64_from_extended_float x86_64 ideal) /\ 64%Z <> 8%Z.
Proof. split; [exact ideal_c99|]. split; [constructor|lia]. Qed.
(** nor to 8 bits with the library that rounds every result correctly *)
Theorem C77_takum8_from_extended_odd_refuted :
  exists (y : flt f80) t, fisfinite y = true /\ takum8_from_extended_float x86_64 ideal y = Val t /\
    takum8_from_extended_float x86_64 ideal (fneg y) = Val (- t - 1)%Z.
Proof. exact log8_not_odd. Qed.
Print Assumptions C77_takum8_from_extended_odd_refuted.
