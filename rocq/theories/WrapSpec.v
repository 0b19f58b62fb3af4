(** Specification of the elementary functions: the real function each one
    stands for and where it is defined.  No proofs in this file. *)
From Coq Require Import ZArith Reals Bool.
From Flocq Require Import Core.Core.
From Verif Require Import CModel Spec Wrappers.
Local Open Scope R_scope.

(** the function of a real variable with the given name (takum.h, man pages) *)
Definition real_fun (u : unary_name) (x : R) : R :=
  match u with
  | n_exp => exp x | n_exp_minus_1 => exp x - 1
  | n_2_raised => Rpower 2 x | n_2_raised_minus_1 => Rpower 2 x - 1
  | n_10_raised => Rpower 10 x | n_10_raised_minus_1 => Rpower 10 x - 1
  | n_ln => ln x | n_ln_1_plus => ln (1 + x)
  | n_lb => ln x / ln 2 | n_lb_1_plus => ln (1 + x) / ln 2
  | n_lg => ln x / ln 10 | n_lg_1_plus => ln (1 + x) / ln 10
  | n_sin => sin x | n_sin_pi_times => sin (PI * x)
  | n_cos => cos x | n_cos_pi_times => cos (PI * x)
  | n_tan => sin x / cos x | n_tan_pi_times => sin (PI * x) / cos (PI * x)
  | n_cot => cos x / sin x | n_cot_pi_times => cos (PI * x) / sin (PI * x)
  | n_sec => / cos x | n_sec_pi_times => / cos (PI * x)
  | n_csc => / sin x | n_csc_pi_times => / sin (PI * x)
  | n_arcsin => asin x | n_arcsin_over_pi => asin x / PI
  | n_arccos => acos x | n_arccos_over_pi => acos x / PI
  | n_arctan => atan x | n_arctan_over_pi => atan x / PI
  | n_arccot => PI / 2 - atan x | n_arccot_over_pi => (PI / 2 - atan x) / PI
  | n_arcsec => acos (/ x) | n_arcsec_over_pi => acos (/ x) / PI
  | n_arccsc => asin (/ x) | n_arccsc_over_pi => asin (/ x) / PI
  | n_sinh => sinh x | n_cosh => cosh x | n_tanh => sinh x / cosh x
  | n_coth => cosh x / sinh x | n_sech => / cosh x | n_csch => / sinh x
  | n_arsinh => ln (x + sqrt (x * x + 1)) | n_arcosh => ln (x + sqrt (x * x - 1))
  | n_artanh => ln ((1 + x) / (1 - x)) / 2 | n_arcoth => ln ((x + 1) / (x - 1)) / 2
  | n_arsech => ln (/ x + sqrt (/ x * / x - 1)) | n_arcsch => ln (/ x + sqrt (/ x * / x + 1))
  end.

(** where it is defined *)
Definition defined (u : unary_name) (x : R) : Prop :=
  match u with
  | n_ln | n_lb | n_lg => 0 < x
  | n_ln_1_plus | n_lb_1_plus | n_lg_1_plus => -1 < x
  | n_tan | n_sec => cos x <> 0
  | n_tan_pi_times | n_sec_pi_times => cos (PI * x) <> 0
  | n_cot | n_csc => sin x <> 0
  | n_cot_pi_times | n_csc_pi_times => sin (PI * x) <> 0
  | n_arcsin | n_arcsin_over_pi | n_arccos | n_arccos_over_pi => -1 <= x <= 1
  | n_arcsec | n_arcsec_over_pi | n_arccsc | n_arccsc_over_pi => 1 <= Rabs x
  | n_coth | n_csch | n_arcsch => x <> 0
  | n_arcosh => 1 <= x
  | n_artanh => -1 < x < 1
  | n_arcoth => 1 < Rabs x
  | n_arsech => 0 < x <= 1
  | _ => True
  end.

(** trigonometric functions, which change fast relative to the spacing of
    large arguments *)
Definition trigonometric (u : unary_name) : bool :=
  match u with
  | n_sin | n_sin_pi_times | n_cos | n_cos_pi_times | n_tan | n_tan_pi_times
  | n_cot | n_cot_pi_times | n_sec | n_sec_pi_times | n_csc | n_csc_pi_times => true
  | _ => false
  end.

(** the trigonometric functions of pi times x *)
Definition pi_fun (u : unary_name) : bool :=
  match u with
  | n_sin_pi_times | n_cos_pi_times | n_tan_pi_times
  | n_cot_pi_times | n_sec_pi_times | n_csc_pi_times => true
  | _ => false
  end.

(** the relative error of the argument: linear takums are converted to a
    floating-point number exactly; the functions of pi times the argument and of
    the reciprocal of the argument round it, arcoth and arcsch to a double *)
Definition argument_error (u : unary_name) : R :=
  match u with
  | n_sin_pi_times | n_cos_pi_times | n_tan_pi_times
  | n_cot_pi_times | n_sec_pi_times | n_csc_pi_times
  | n_arccot | n_arccot_over_pi | n_arcsec | n_arcsec_over_pi
  | n_arccsc | n_arccsc_over_pi | n_arsech => bpow radix2 (-61)
  | n_arcoth | n_arcsch => bpow radix2 (-51)
  | _ => 0
  end.
Definition conversion_error (k : kind) : R :=
  match k with Logarithmic => bpow radix2 (-55) | Linear => 0 end.
Definition spread (k : kind) (u : unary_name) : R := argument_error u + conversion_error k.

(** the relative error of the result: logarithmic takums and takums of 64 bits
    compute with 64 bits, the others with 53; arcoth and arcsch with 53 in any
    case, and the last two lose up to 11 bits *)
Definition float_error (k : kind) (n : Z) : R :=
  match k with
  | Logarithmic => bpow radix2 (-59)
  | Linear => if (n =? 64)%Z then bpow radix2 (-59) else bpow radix2 (-48)
  end.
Definition tolerance (k : kind) (n : Z) (u : unary_name) : R :=
  match u with
  | n_arcoth | n_arcsch | n_2_raised_minus_1 | n_10_raised_minus_1 => bpow radix2 (-48)
  | _ => float_error k n
  end.

(** Arguments the accuracy theorems are about: the function is defined there
    and
    - the functions of pi times x of logarithmic takums: it is defined for all
      numbers that the conversion of x may deliver,
    - arcoth of takums of 64 bits: not within 2^-40 of 1 and -1,
    - 2_raised_minus_1, 10_raised_minus_1: not within 2^-10 of 0.
    The other trigonometric functions are defined everywhere except that cot and
    csc are undefined at 0, for no floating-point number is a multiple of pi/2. *)
Definition applicable (k : kind) (u : unary_name) (x : R) : Prop :=
  match u with
  | n_sin | n_cos | n_tan | n_sec => True
  | n_cot | n_csc => x <> 0
  | n_sin_pi_times | n_cos_pi_times | n_tan_pi_times
  | n_cot_pi_times | n_sec_pi_times | n_csc_pi_times =>
      forall x', Rabs (x' - x) <= conversion_error k * Rabs x -> defined u x'
  | _ => defined u x
  end.
Definition regular (k : kind) (n : Z) (u : unary_name) (x : R) : Prop :=
  applicable k u x /\
  match u with
  | n_arcoth => n = 64%Z -> 1 + bpow radix2 (-40) <= Rabs x
  | n_2_raised_minus_1 | n_10_raised_minus_1 => bpow radix2 (-10) <= Rabs x
  | _ => True
  end.

(** ** Rounding a coordinate that is known up to an error

    [rounds_nearly k n e x t]: t is a faithful rounding of x, and it is the
    takum nearest to some L that differs from the coordinate of x by at most e,
    relatively to 1 + the absolute value of the coordinate. *)
Definition rounds_nearly (k : kind) (n : Z) (e : R) (x : R) (t : Z) : Prop :=
  rounds_faithfully k n x t /\
  (x <> 0 -> exists L, nearest n (Rlt_bool x 0) L t /\
                       Rabs (L - coord k x) <= e * (Rabs (coord k x) + 1)).

(** The error of the coordinate in the conversions from double and long double
    to linear takums and from long double to logarithmic takums. *)
Definition code_error (k : kind) (n : Z) : R :=
  match k with
  | Linear => bpow radix2 (if (n =? 8)%Z then -23 else if (n =? 16)%Z then -51 else -64)
  | Logarithmic => bpow radix2 (if (n =? 64)%Z then -62 else -59)
  end.

(** The result t of the function u at x: the takum nearest, but for the error
    of the coordinate, to a number y
    that differs from the value of the function at some x' by at most the
    tolerance, relatively, where x' differs from x by at most the spread,
    relatively. *)
Definition computes (k : kind) (n : Z) (u : unary_name) (x : R) (t : Z) : Prop :=
  exists x' y, Rabs (x' - x) <= spread k u * Rabs x /\ defined u x' /\
    Rabs (y - real_fun u x') <= tolerance k n u * Rabs (real_fun u x') /\
    rounds_nearly k n (code_error k n) y t.

(** The same with an absolute error, for 2_raised_minus_1 and
    10_raised_minus_1 near 0. *)
Definition computes_abs (k : kind) (n : Z) (u : unary_name) (x : R) (t : Z) : Prop :=
  exists x' y, Rabs (x' - x) <= spread k u * Rabs x /\ defined u x' /\
    Rabs (y - real_fun u x') <= float_error k n /\ rounds_nearly k n (code_error k n) y t.

(** The number of whose multiples they handle with either sign, and a negative
    number where the function is 0 or undefined. *)
Definition pi_period_of (u : unary_name) : Z :=
  match u with n_tan_pi_times | n_cot_pi_times => 1%Z | _ => 2%Z end.
Definition bad_point (u : unary_name) : R :=
  match u with n_sin_pi_times | n_csc_pi_times => -1 | _ => - / 2 end.
