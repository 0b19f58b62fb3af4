(** Property C137: computations made of several calls.  Theorems only; proofs are
    in Computations.v. *)
From Coq Require Import ZArith Reals.
From Verif Require Import CModel FloatModel Spec Arith LogApi LinApi Libm LibmSpec LibmIdeal Wrappers WrapApi ErrorSpec WaySpec CompSpec Computations CompCase.
Local Open Scope R_scope.

(** C137: a computation with m roundings yields the exact result times e^d with
    |d| at most m times the change of the logarithm by one rounding *)
Theorem C137_computation_error :
  forall lm k w o z m, c99 lm -> w <> W8 -> computation lm k w o z m -> INR m * log_roundoff (bits w) <= / 2 ->
  exists t y d, o = Val t /\ is_intn (bits w) t /\ value k (bits w) t = Some y /\ y = z * exp d /\ Rabs d <= INR m * log_roundoff (bits w).
Proof. exact computation_error. Qed.
Print Assumptions C137_computation_error.

(** so that two computations of the same number agree, even on platforms with
    different mathematical libraries *)
Theorem C137_computations_agree :
  forall lm lm' k w o o' z m m', c99 lm -> c99 lm' -> w <> W8 -> computation lm k w o z m -> computation lm' k w o' z m' ->
  INR m * log_roundoff (bits w) <= / 2 -> INR m' * log_roundoff (bits w) <= / 2 ->
  nearly_equal k (bits w) (INR (m + m')) o o'.
Proof. exact computations_agree. Qed.
Print Assumptions C137_computations_agree.

(** sin/cos and tan *)
Theorem C137_tangent :
  forall lm w div t x, c99 lm -> w = W16 \/ w = W32 -> linear_division (bits w) div ->
  is_intn (bits w) t -> value Linear (bits w) t = Some x -> moderate Linear (sin x) -> moderate Linear (cos x) -> moderate Linear (sin x / cos x) ->
  nearly_equal Linear (bits w) 4 (let! s := api_unary Linear lm n_sin w t in let! c := api_unary Linear lm n_cos w t in div s c) (api_unary Linear lm n_tan w t).
Proof. exact tangent_identity. Qed.
Print Assumptions C137_tangent.

(** sinh/cosh and tanh *)
Theorem C137_hyperbolic_tangent :
  forall lm w div t x, c99 lm -> w = W16 \/ w = W32 -> linear_division (bits w) div ->
  is_intn (bits w) t -> value Linear (bits w) t = Some x -> moderate Linear (sinh x) -> moderate Linear (cosh x) -> moderate Linear (sinh x / cosh x) ->
  nearly_equal Linear (bits w) 4 (let! s := api_unary Linear lm n_sinh w t in let! c := api_unary Linear lm n_cosh w t in div s c) (api_unary Linear lm n_tanh w t).
Proof. exact hyperbolic_tangent_identity. Qed.
Print Assumptions C137_hyperbolic_tangent.

(** exp of a sum *)
Theorem C137_exponential_of_sum :
  forall lm w mul s t r x y, c99 lm -> w = W16 \/ w = W32 -> linear_multiplication (bits w) mul ->
  is_intn (bits w) s -> is_intn (bits w) t -> is_intn (bits w) r ->
  value Linear (bits w) s = Some x -> value Linear (bits w) t = Some y -> value Linear (bits w) r = Some (x + y) ->
  moderate Linear (exp x) -> moderate Linear (exp y) -> moderate Linear (exp (x + y)) ->
  nearly_equal Linear (bits w) 4 (let! a := api_unary Linear lm n_exp w s in let! b := api_unary Linear lm n_exp w t in mul a b) (api_unary Linear lm n_exp w r).
Proof. exact exponential_identity. Qed.
Print Assumptions C137_exponential_of_sum.

(** the square root of the sum of the squares, and hypotenuse *)
Theorem C137_hypotenuse :
  forall lm w mul root s t x y, c99 lm -> w = W16 \/ w = W32 ->
  linear_multiplication (bits w) mul -> linear_square_root (bits w) root ->
  is_intn (bits w) s -> is_intn (bits w) t -> value Linear (bits w) s = Some x -> value Linear (bits w) t = Some y ->
  moderate Linear (x * x) -> moderate Linear (y * y) -> moderate Linear (x * x + y * y) ->
  nearly_equal Linear (bits w) 4 (let! r := (let! a := mul s s in let! b := mul t t in api_binary Linear lm n_addition w a b) in root r) (api_binary Linear lm n_hypotenuse w s t).
Proof. exact hypotenuse_identity. Qed.
Print Assumptions C137_hypotenuse.

(** the hypotheses are met by (sin 1 + 1)^2 with 16 bits, 1/hypotenuse((1+1)^-2, 1)
    with logarithmic takums of 64 bits and by the arguments 1 and 2 of the functions *)
Example C137_case : c99 ideal /\ is_intn 16 (2 ^ 14) /\ value Linear 16 (2 ^ 14) = Some 1 /\ value Logarithmic 16 (2 ^ 14) = Some 1 /\
  is_intn 16 0x4800 /\ value Linear 16 0x4800 = Some (1 + 1) /\
  linear_multiplication 16 (takum_linear_multiplication x86_64 W16) /\
  linear_division 16 (takum_linear_division x86_64 W16) /\ linear_square_root 16 (takum_linear_square_root x86_64 W16) /\
  moderate Linear (sin 1) /\ moderate Linear (cos 1) /\ moderate Linear (sin 1 / cos 1) /\
  moderate Linear (sinh 1) /\ moderate Linear (cosh 1) /\ moderate Linear (sinh 1 / cosh 1) /\
  moderate Linear (exp 1) /\ moderate Linear (exp (1 + 1)) /\ moderate Linear (1 * 1) /\ moderate Linear (1 * 1 + 1 * 1) /\
  computation ideal Linear W16
    (let! s := (let! a := api_unary Linear ideal n_sin W16 (2 ^ 14) in let! b := Val (2 ^ 14)%Z in api_binary Linear ideal n_addition W16 a b) in
     api_integer_power Linear ideal W16 s 2) (powerRZ (sin 1 + 1) 2) 5 /\
  INR 5 * log_roundoff (bits W16) <= / 2 /\
  computation ideal Logarithmic W64
    (let! s := (let! a := (let! c := (let! a := Val (2 ^ 62)%Z in let! b := Val (2 ^ 62)%Z in api_binary Logarithmic ideal n_addition W64 a b) in
                           api_integer_power Logarithmic ideal W64 c (-2)) in
                let! b := Val (2 ^ 62)%Z in api_binary Logarithmic ideal n_hypotenuse W64 a b) in
     takum64_inversion s)
    (/ sqrt (powerRZ (1 + 1) (-2) * powerRZ (1 + 1) (-2) + 1 * 1)) 11 /\
  INR 11 * log_roundoff (bits W64) <= / 2.
Proof. exact computation_case. Qed.
