(** What it means that a call of one function of the API on linear takums is a
    way to compute a real number.  No proofs in this file. *)
From Coq Require Import ZArith Reals.
From Verif Require Import CModel FloatModel Spec Libm Wrappers LogApi LinApi WrapApi WrapSpec WrapSpec2.
Local Open Scope R_scope.

(** [way lm w o z]: o is what a call of a function of takum_linearN, N the
    width w, yields, and z is the number that the function stands for at the
    given arguments.  The functions from the mathematical library and root are
    left out for 64 bits, where they carry less than 64 bits, and so are the
    functions whose argument is rounded before (argument_error). *)
Inductive way (lm : libm) (w : Wrappers.width) : outcome Z -> R -> Prop :=
| by_sum : forall f s t x y, linear_addition (bits w) f ->
    is_intn (bits w) s -> is_intn (bits w) t ->
    value Linear (bits w) s = Some x -> value Linear (bits w) t = Some y -> way lm w (f s t) (x + y)
| by_difference : forall f s t x y, linear_subtraction (bits w) f ->
    is_intn (bits w) s -> is_intn (bits w) t ->
    value Linear (bits w) s = Some x -> value Linear (bits w) t = Some y -> way lm w (f s t) (x - y)
| by_product : forall f s t x y, linear_multiplication (bits w) f ->
    is_intn (bits w) s -> is_intn (bits w) t ->
    value Linear (bits w) s = Some x -> value Linear (bits w) t = Some y -> way lm w (f s t) (x * y)
| by_quotient : forall f s t x y, linear_division (bits w) f ->
    is_intn (bits w) s -> is_intn (bits w) t ->
    value Linear (bits w) s = Some x -> value Linear (bits w) t = Some y -> y <> 0 -> way lm w (f s t) (x / y)
| by_inversion : forall f t x, linear_inversion (bits w) f ->
    is_intn (bits w) t -> value Linear (bits w) t = Some x -> x <> 0 -> way lm w (f t) (/ x)
| by_square_root : forall f t x, linear_square_root (bits w) f ->
    is_intn (bits w) t -> value Linear (bits w) t = Some x -> 0 <= x -> way lm w (f t) (sqrt x)
| by_integer_power : forall t j x, is_intn (bits w) t -> is_int64 j ->
    value Linear (bits w) t = Some x -> x <> 0 \/ (0 < j)%Z ->
    way lm w (api_integer_power Linear lm w t j) (powerRZ x j)
| by_root : forall t j x r, w <> W64 -> is_intn (bits w) t -> is_int64 j ->
    value Linear (bits w) t = Some x -> 0 < x \/ j = 1%Z \/ j = (-1)%Z -> is_root j x r ->
    way lm w (api_root Linear lm w t j) r
| by_function : forall u t x, w <> W64 -> argument_error u = 0 -> is_intn (bits w) t ->
    value Linear (bits w) t = Some x -> regular Linear (bits w) u x ->
    way lm w (api_unary Linear lm u w t) (real_fun u x)
| by_function_of_two : forall b s t x y z, w <> W64 -> b = n_power \/ b = n_hypotenuse \/ b = n_arctan2 \/ b = n_arctan2_over_pi ->
    is_intn (bits w) s -> is_intn (bits w) t ->
    value Linear (bits w) s = Some x -> value Linear (bits w) t = Some y -> is_value2 b x y z ->
    way lm w (api_binary Linear lm b w s t) z.

(** the results of two calls are takums at most one unit in the last place apart *)
Definition agree (o o' : outcome Z) : Prop :=
  exists t t', o = Val t /\ o' = Val t' /\ (Z.abs (t - t') <= 1)%Z.

(** multiplication and division of takums of either kind *)
Definition multiplies (k : kind) (n : Z) (f : Z -> Z -> outcome Z) : Prop :=
  match k with Logarithmic => log_multiplication n f | Linear => linear_multiplication n f end.
Definition divides (k : kind) (n : Z) (f : Z -> Z -> outcome Z) : Prop :=
  match k with Logarithmic => log_division n f | Linear => linear_division n f end.
