(** Properties C91 and C92: inequalities that results keep, and agreement of
    two mathematical libraries.  Theorems only; proofs are in RelFacts.v and
    Agree.v. *)
From Coq Require Import ZArith Reals Bool Lra.
From Flocq Require Import Core.Core IEEE754.BinarySingleNaN.
From Verif Require Import CModel FloatModel Spec Libm LibmSpec LibmIdeal WidthFacts Wrappers WrapApi WrapSpec WrapSpec2 Conversion RangeSpec RangeFacts RelFacts Agree.
Local Open Scope R_scope.

(** C91: the result compares to the argument as the exact value does *)
Theorem C91_linear_versus_argument :
  forall lm u w t x, c99 lm -> w <> W64 ->
    is_intn (bits w) t -> value Linear (bits w) t = Some x -> regular Linear (bits w) u x ->
    exists r y, api_unary Linear lm u w t = Val r /\ value Linear (bits w) r = Some y /\
                versus_argument u x y.
Proof. exact unary_versus. Qed.
Print Assumptions C91_linear_versus_argument.
Theorem C91_linear_hypotenuse_not_below_legs :
  forall lm w s t x y, c99 lm -> w <> W64 -> is_intn (bits w) s -> is_intn (bits w) t ->
    value Linear (bits w) s = Some x -> value Linear (bits w) t = Some y ->
    exists z v, api_binary Linear lm n_hypotenuse w s t = Val z /\ value Linear (bits w) z = Some v /\
                Rabs x <= v /\ Rabs y <= v.
Proof. exact hypotenuse_legs. Qed.
Print Assumptions C91_linear_hypotenuse_not_below_legs.
Theorem C91_linear_integer_power_versus_base :
  forall lm w t j x, c99 lm -> is_intn (bits w) t -> is_int64 j -> (0 < j)%Z ->
    value Linear (bits w) t = Some x ->
    exists r y, api_integer_power Linear lm w t j = Val r /\ value Linear (bits w) r = Some y /\
                (1 <= x -> x <= y) /\ (0 <= x <= 1 -> 0 <= y <= x).
Proof. exact integer_power_versus. Qed.
Print Assumptions C91_linear_integer_power_versus_base.
Theorem C91_linear_root_versus_radicand :
  forall lm w t j x, c99 lm -> w <> W64 -> is_intn (bits w) t -> is_int64 j -> (0 < j)%Z ->
    value Linear (bits w) t = Some x -> 0 < x ->
    exists r y, api_root Linear lm w t j = Val r /\ value Linear (bits w) r = Some y /\
                (1 <= x -> 1 <= y <= x) /\ (x <= 1 -> x <= y <= 1).
Proof. exact root_versus. Qed.
Print Assumptions C91_linear_root_versus_radicand.
Example C91_case : c99 ideal /\ is_intn 16 (2 ^ 14) /\ value Linear 16 (2 ^ 14) = Some 1 /\
  regular Linear 16 n_tan 1 /\ Rabs 1 < PI / 2 /\
  is_intn 16 (7 * 2 ^ 11) /\ value Linear 16 (7 * 2 ^ 11) = Some (/ 2) /\ is_int64 3.
Proof.
  destruct faithful_case as (C & I1 & V1 & _ & _ & _ & _ & I2 & V2 & _). split; [exact C|]. split; [exact I1|]. split; [exact V1|].
  split; [split; exact I|]. split; [exact below_half_pi|]. split; [exact I2|]. split; [exact V2|]. split; vm_compute; discriminate || reflexivity.
Qed.

(** C92: exchanging the mathematical library changes a result by at most one
    unit in the last place *)
Theorem C92_linear_unary_libraries_agree :
  forall lm lm' u w t x, c99 lm -> c99 lm' -> w <> W64 -> argument_error u = 0 ->
    is_intn (bits w) t -> value Linear (bits w) t = Some x -> regular Linear (bits w) u x ->
    exists r r', api_unary Linear lm u w t = Val r /\ api_unary Linear lm' u w t = Val r' /\
                 (Z.abs (r - r') <= 1)%Z.
Proof. exact unary_agree. Qed.
Print Assumptions C92_linear_unary_libraries_agree.
Theorem C92_linear_binary_libraries_agree :
  forall lm lm' b w s t x y r, c99 lm -> c99 lm' -> w <> W64 -> b <> n_multiplication -> b <> n_division ->
    is_intn (bits w) s -> is_intn (bits w) t ->
    value Linear (bits w) s = Some x -> value Linear (bits w) t = Some y -> is_value2 b x y r ->
    exists z z', api_binary Linear lm b w s t = Val z /\ api_binary Linear lm' b w s t = Val z' /\
                 (Z.abs (z - z') <= 1)%Z.
Proof. exact binary_agree. Qed.
Print Assumptions C92_linear_binary_libraries_agree.
Theorem C92_linear_integer_power_libraries_agree :
  forall lm lm' w t j x, c99 lm -> c99 lm' -> is_intn (bits w) t -> is_int64 j ->
    value Linear (bits w) t = Some x -> x <> 0 \/ (0 < j)%Z ->
    exists r r', api_integer_power Linear lm w t j = Val r /\ api_integer_power Linear lm' w t j = Val r' /\
                 (Z.abs (r - r') <= 1)%Z.
Proof. exact integer_power_agree. Qed.
Print Assumptions C92_linear_integer_power_libraries_agree.
Theorem C92_linear_root_libraries_agree :
  forall lm lm' w t j x r, c99 lm -> c99 lm' -> w <> W64 -> is_intn (bits w) t -> is_int64 j ->
    value Linear (bits w) t = Some x -> 0 < x \/ j = 1%Z \/ j = (-1)%Z -> is_root j x r ->
    exists z z', api_root Linear lm w t j = Val z /\ api_root Linear lm' w t j = Val z' /\
                 (Z.abs (z - z') <= 1)%Z.
Proof. exact root_agree. Qed.
Print Assumptions C92_linear_root_libraries_agree.
Theorem C92_log_from_float_libraries_agree :
  forall lm lm' n F g g' (y : flt F), c99 lm -> c99 lm' ->
    log_from_float lm n F g -> log_from_float lm' n F g' -> is_finite y = true ->
    exists t t', g y = Val t /\ g' y = Val t' /\ (Z.abs (t - t') <= 1)%Z.
Proof. exact log_from_agree. Qed.
Print Assumptions C92_log_from_float_libraries_agree.
Example C92_case : c99 ideal /\ argument_error n_sin = 0 /\ regular Linear 16 n_sin 1 /\
  log_from_float ideal 64 f80 (takum64_from_extended_float x86_64 ideal) /\ is_finite (fconst f80 3 0) = true.
Proof. split; [exact ideal_c99|]. split; [reflexivity|]. split; [split; exact I|]. split; [constructor|vm_compute; reflexivity]. Qed.
