(** Properties C88 and C89: results of takums of at most 32 bits are faithful
    roundings and stay in the ranges of the functions.  Theorems only; proofs
    are in Faithful.v and RangeFacts.v. *)
From Coq Require Import ZArith Reals Bool.
From Flocq Require Import Core.Core.
From Verif Require Import CModel FloatModel Spec Libm LibmSpec LibmIdeal ValueFacts Wrappers WrapApi WrapSpec WrapSpec2 RangeSpec Faithful RangeFacts.
Local Open Scope R_scope.

(** C88: no takum lies strictly between the result and the exact value *)
Theorem C88_linear_unary_faithful :
  forall lm u w t x, c99 lm -> w <> W64 -> argument_error u = 0 ->
    is_intn (bits w) t -> value Linear (bits w) t = Some x -> regular Linear (bits w) u x ->
    exists r, api_unary Linear lm u w t = Val r /\
              rounds_faithfully Linear (bits w) (real_fun u x) r.
Proof. exact unary_faithful. Qed.
Print Assumptions C88_linear_unary_faithful.
(** … and for both kinds of takums and all functions between the result and
    the value at some argument within a relative distance of 2^-50 of the
    given one *)
Theorem C88_unary_faithful_near :
  forall k lm u w t x, c99 lm -> w <> W64 ->
    is_intn (bits w) t -> value k (bits w) t = Some x -> regular k (bits w) u x ->
    exists r x', api_unary k lm u w t = Val r /\ Rabs (x' - x) <= spread k u * Rabs x /\
                 defined u x' /\ rounds_faithfully k (bits w) (real_fun u x') r.
Proof. exact unary_faithful_near. Qed.
Print Assumptions C88_unary_faithful_near.
Theorem C88_linear_binary_faithful :
  forall lm, c99 lm -> forall b w s t x y r, w <> W64 -> b <> n_multiplication -> b <> n_division ->
    is_intn (bits w) s -> is_intn (bits w) t ->
    value Linear (bits w) s = Some x -> value Linear (bits w) t = Some y -> is_value2 b x y r ->
    exists z, api_binary Linear lm b w s t = Val z /\ rounds_faithfully Linear (bits w) r z.
Proof. exact binary_faithful. Qed.
Print Assumptions C88_linear_binary_faithful.
Theorem C88_linear_integer_power_faithful :
  forall lm, c99 lm -> forall w t j x,
    is_intn (bits w) t -> is_int64 j -> value Linear (bits w) t = Some x -> x <> 0 \/ (0 < j)%Z ->
    exists r, api_integer_power Linear lm w t j = Val r /\
              rounds_faithfully Linear (bits w) (powerRZ x j) r.
Proof. exact integer_power_faithful. Qed.
Print Assumptions C88_linear_integer_power_faithful.
Theorem C88_linear_root_faithful :
  forall lm, c99 lm -> forall w t j x r, w <> W64 ->
    is_intn (bits w) t -> is_int64 j -> value Linear (bits w) t = Some x ->
    0 < x \/ j = 1%Z \/ j = (-1)%Z -> is_root j x r ->
    exists z, api_root Linear lm w t j = Val z /\ rounds_faithfully Linear (bits w) r z.
Proof. exact root_faithful. Qed.
Print Assumptions C88_linear_root_faithful.

(** C89: results lie in the range of the function *)
Theorem C89_range :
  forall k lm u w t x, c99 lm -> w <> W64 ->
    is_intn (bits w) t -> value k (bits w) t = Some x -> regular k (bits w) u x ->
    exists r y, api_unary k lm u w t = Val r /\ value k (bits w) r = Some y /\ range k u y.
Proof. exact unary_range. Qed.
Print Assumptions C89_range.
(** so that the inverse function never fails on them *)
Theorem C89_inverse_defined :
  forall k lm u v w t x, c99 lm -> w <> W64 -> undone_by u v ->
    is_intn (bits w) t -> value k (bits w) t = Some x -> regular k (bits w) u x ->
    exists r s z, api_unary k lm u w t = Val r /\ api_unary k lm v w r = Val s /\
                  value k (bits w) s = Some z.
Proof. exact inverse_real. Qed.
Print Assumptions C89_inverse_defined.
(** and a result is on the same side of every takum as the exact value *)
Theorem C89_linear_no_overshoot :
  forall lm u w t x a v, c99 lm -> w <> W64 -> argument_error u = 0 ->
    is_intn (bits w) t -> value Linear (bits w) t = Some x -> regular Linear (bits w) u x ->
    is_intn (bits w) a -> value Linear (bits w) a = Some v ->
    exists r y, api_unary Linear lm u w t = Val r /\ value Linear (bits w) r = Some y /\
                (real_fun u x <= v -> y <= v) /\ (v <= real_fun u x -> v <= y).
Proof. exact unary_between. Qed.
Print Assumptions C89_linear_no_overshoot.

(** hypotheses of both are met, e.g. by 1 and 1/2 *)
Example C88_case : c99 ideal /\ is_intn 16 (2 ^ 14) /\
  value Linear 16 (2 ^ 14) = Some 1 /\ value Logarithmic 16 (2 ^ 14) = Some 1 /\
  regular Linear 16 n_sin 1 /\ regular Logarithmic 16 n_sin 1 /\ argument_error n_sin = 0 /\
  is_intn 16 (7 * 2 ^ 11) /\ value Linear 16 (7 * 2 ^ 11) = Some (/ 2) /\
  is_value2 n_hypotenuse 1 1 (sqrt (1 * 1 + 1 * 1)) /\ is_root 3 1 1.
Proof. exact faithful_case. Qed.
