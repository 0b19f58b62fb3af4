(** Computations made of several calls (C137).  No proofs in this file. *)
From Coq Require Import ZArith Reals.
From Verif Require Import CModel FloatModel Spec Libm Wrappers LogApi LinApi WrapApi WrapSpec2 ErrorSpec WaySpec.
Local Open Scope R_scope.

(** inversion and square root of takums of either kind *)
Definition inverts (k : kind) (n : Z) (f : Z -> outcome Z) : Prop :=
  match k with Logarithmic => log_inversion n f | Linear => linear_inversion n f end.
Definition takes_square_roots (k : kind) (n : Z) (f : Z -> outcome Z) : Prop :=
  match k with Logarithmic => log_square_root n f | Linear => linear_square_root n f end.

(** [computation lm k w o z m]: o is what a computation with takums of the kind k
    and the width w yields, z is the number that it stands for, and m counts the
    roundings.  It starts with takums and, for linear takums, with calls of any
    function of the API on takums (way).  Their results are multiplied, divided,
    inverted, square rooted, raised to nonzero integer powers, added if they have
    the same sign, subtracted if they have different signs, and given to root and
    hypotenuse.  The numbers on the way (not their computed approximations) stay
    clear of the ends of the takum range (moderate).

    Operations on logarithmic takums that convert them to floating-point numbers,
    root and hypotenuse count as two roundings; an integer power multiplies the
    number of roundings. *)
Inductive computation (lm : libm) (k : kind) (w : Wrappers.width) : outcome Z -> R -> nat -> Prop :=
| comp_takum : forall t x, is_intn (bits w) t -> value k (bits w) t = Some x -> moderate k x ->
    computation lm k w (Val t) x 0
| comp_call : forall o z, k = Linear -> way lm w o z -> moderate k z -> computation lm k w o z 1
| comp_product : forall f o o' z z' m m', multiplies k (bits w) f ->
    computation lm k w o z m -> computation lm k w o' z' m' -> moderate k (z * z') ->
    computation lm k w (let! s := o in let! t := o' in f s t) (z * z') (S (m + m'))
| comp_quotient : forall f o o' z z' m m', divides k (bits w) f ->
    computation lm k w o z m -> computation lm k w o' z' m' -> moderate k (z / z') ->
    computation lm k w (let! s := o in let! t := o' in f s t) (z / z') (S (m + m'))
| comp_inversion : forall f o z m, inverts k (bits w) f -> computation lm k w o z m ->
    computation lm k w (let! s := o in f s) (/ z) (S m)
| comp_square_root : forall f o z m, takes_square_roots k (bits w) f -> computation lm k w o z m -> 0 < z ->
    computation lm k w (let! s := o in f s) (sqrt z) (S m)
| comp_integer_power : forall o z m j, is_int64 j -> j <> 0%Z ->
    computation lm k w o z m -> moderate k (powerRZ z j) ->
    computation lm k w (let! s := o in api_integer_power k lm w s j) (powerRZ z j)
      (match k, w with Logarithmic, W64 => S (S (Z.abs_nat j * S m)) | _, _ => S (Z.abs_nat j * m) end)
| comp_sum : forall o o' z z' m m',
    computation lm k w o z m -> computation lm k w o' z' m' -> 0 < z * z' -> moderate k (z + z') ->
    computation lm k w (let! s := o in let! t := o' in api_binary k lm n_addition w s t) (z + z')
      (match k with Logarithmic => S (S (Nat.max m m')) | Linear => S (Nat.max m m') end)
| comp_difference : forall o o' z z' m m',
    computation lm k w o z m -> computation lm k w o' z' m' -> z * z' < 0 -> moderate k (z - z') ->
    computation lm k w (let! s := o in let! t := o' in api_binary k lm n_subtraction w s t) (z - z')
      (match k with Logarithmic => S (S (Nat.max m m')) | Linear => S (Nat.max m m') end)
| comp_root : forall o z r m j, is_int64 j -> computation lm k w o z m -> 0 < z -> is_root j z r -> moderate k r ->
    computation lm k w (let! s := o in api_root k lm w s j) r (S (S m))
| comp_hypotenuse : forall o o' z z' m m',
    computation lm k w o z m -> computation lm k w o' z' m' -> moderate k (sqrt (z * z + z' * z')) ->
    computation lm k w (let! s := o in let! t := o' in api_binary k lm n_hypotenuse w s t)
      (sqrt (z * z + z' * z')) (S (S (Nat.max m m'))).

(** the greatest change of the logarithm of a number by one rounding *)
Definition log_roundoff (n : Z) : R := roundoff n 0 / (1 - roundoff n 0).

(** the results of two computations are takums whose values agree up to the factor
    of c roundings *)
Definition nearly_equal (k : kind) (n : Z) (c : R) (o o' : outcome Z) : Prop :=
  exists t t' y y' d, o = Val t /\ o' = Val t' /\ value k n t = Some y /\ value k n t' = Some y' /\
    y' = y * exp d /\ Rabs d <= c * log_roundoff n.
