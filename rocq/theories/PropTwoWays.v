(** Property C128: two ways to compute the same number agree up to one unit in
    the last place.  Theorems only; the specification is in WaySpec.v, proofs
    are in TwoWays.v. *)
From Coq Require Import ZArith Reals Bool.
From Verif Require Import CModel FloatModel Spec Libm LibmSpec LibmIdeal Arith Wrappers LinApi WrapApi WrapSpec WrapSpec2 WaySpec TwoWays.
Local Open Scope R_scope.

(** any two calls that stand for the same number, even with different
    mathematical libraries *)
Theorem C128_two_ways_agree :
  forall lm lm' w o o' z, c99 lm -> c99 lm' -> way lm w o z -> way lm' w o' z -> agree o o'.
Proof. exact ways_agree. Qed.
Print Assumptions C128_two_ways_agree.
(** calls that stand for different numbers: the results are in the same order
    up to one unit in the last place, … *)
Theorem C128_two_ways_ordered :
  forall lm lm' w o o' z z', c99 lm -> c99 lm' -> way lm w o z -> way lm' w o' z' -> z <= z' ->
    exists t t', o = Val t /\ o' = Val t' /\ (t <= t' + 1)%Z.
Proof. exact ways_ordered. Qed.
Print Assumptions C128_two_ways_ordered.
(** … and exactly so if the numbers are separated by a takum *)
Theorem C128_two_ways_separated :
  forall lm lm' w o o' z z' a v, c99 lm -> c99 lm' -> way lm w o z -> way lm' w o' z' ->
    is_intn (bits w) a -> value Linear (bits w) a = Some v -> z <= v <= z' ->
    exists t t' y y', o = Val t /\ o' = Val t' /\
      value Linear (bits w) t = Some y /\ value Linear (bits w) t' = Some y' /\ y <= v <= y'.
Proof. exact ways_separated. Qed.
Print Assumptions C128_two_ways_separated.

(** in particular: squares, reciprocals, square roots, powers of two, doubles *)
Theorem C128_squares :
  forall lm w mul two t x, c99 lm -> linear_multiplication (bits w) mul ->
    is_intn (bits w) t -> value Linear (bits w) t = Some x ->
    is_intn (bits w) two -> value Linear (bits w) two = Some 2 ->
    agree (mul t t) (api_integer_power Linear lm w t 2) /\
    (w <> W64 -> agree (mul t t) (api_binary Linear lm n_power w t two) /\
                 agree (api_integer_power Linear lm w t 2) (api_binary Linear lm n_power w t two)).
Proof. exact square_ways. Qed.
Print Assumptions C128_squares.
Theorem C128_reciprocals :
  forall lm w inv div one t x, c99 lm -> linear_inversion (bits w) inv -> linear_division (bits w) div ->
    is_intn (bits w) t -> value Linear (bits w) t = Some x -> x <> 0 ->
    is_intn (bits w) one -> value Linear (bits w) one = Some 1 ->
    agree (inv t) (div one t) /\ agree (inv t) (api_integer_power Linear lm w t (-1)) /\
    agree (div one t) (api_integer_power Linear lm w t (-1)) /\
    (w <> W64 -> agree (inv t) (api_root Linear lm w t (-1)) /\ agree (div one t) (api_root Linear lm w t (-1))).
Proof. exact reciprocal_ways. Qed.
Print Assumptions C128_reciprocals.
Theorem C128_square_roots :
  forall lm w square_root half t x, c99 lm -> w <> W64 -> linear_square_root (bits w) square_root ->
    is_intn (bits w) t -> value Linear (bits w) t = Some x -> 0 < x ->
    is_intn (bits w) half -> value Linear (bits w) half = Some (/ 2) ->
    agree (square_root t) (api_root Linear lm w t 2) /\
    agree (square_root t) (api_binary Linear lm n_power w t half) /\
    agree (api_root Linear lm w t 2) (api_binary Linear lm n_power w t half).
Proof. exact square_root_ways. Qed.
Print Assumptions C128_square_roots.
Theorem C128_powers_of_two :
  forall lm w two t x, c99 lm -> w <> W64 ->
    is_intn (bits w) t -> value Linear (bits w) t = Some x -> regular Linear (bits w) n_2_raised x ->
    is_intn (bits w) two -> value Linear (bits w) two = Some 2 ->
    agree (api_unary Linear lm n_2_raised w t) (api_binary Linear lm n_power w two t).
Proof. exact power_of_two_ways. Qed.
Print Assumptions C128_powers_of_two.
Theorem C128_doubles :
  forall w add mul two t x, linear_addition (bits w) add -> linear_multiplication (bits w) mul ->
    is_intn (bits w) t -> value Linear (bits w) t = Some x ->
    is_intn (bits w) two -> value Linear (bits w) two = Some 2 ->
    agree (add t t) (mul two t).
Proof. exact doubling_ways. Qed.
Print Assumptions C128_doubles.

(** the hypotheses are met, e.g. by 2 and 1/2 with 16 bits *)
Example C128_case : c99 ideal /\ is_intn 16 0x4800 /\ value Linear 16 0x4800 = Some 2 /\
  is_intn 16 (7 * 2 ^ 11) /\ value Linear 16 (7 * 2 ^ 11) = Some (/ 2) /\
  linear_multiplication 16 (takum_linear_multiplication x86_64 W16) /\
  linear_square_root 16 (takum_linear_square_root x86_64 W16) /\
  way ideal W16 (takum_linear_multiplication x86_64 W16 0x4800 0x4800) (2 * 2) /\
  way ideal W16 (api_binary Linear ideal n_power W16 0x4800 0x4800) (2 * 2) /\
  regular Linear 16 n_2_raised 2.
Proof. exact ways_case. Qed.
